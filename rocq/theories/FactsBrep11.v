(** From a polyhedron to a boundary representation and back. *)
From Verif Require Import Base Spec SpecBrep ModelBrep FactsAlg FactsVec FactsBrep FactsBrep2 FactsBrep3 FactsBrep4 FactsBrep5 FactsBrep6 FactsBrep7 FactsBrep8 FactsBrep9 FactsBrep10 FactsPH2.
From Coq Require Import List Lia Lra Psatz.
Import ListNotations.
Open Scope R_scope.

Definition pts (t : tri3) : vec3 * vec3 * vec3 := (tv0 t, tv1 t, tv2 t).
(** a face made for a triangle *)
Definition made (b : brep) (t : tri3) (f : bface) : Prop := (forall i, (i < 3)%nat -> W b (get3 (pts t) i) (get3 (bf_v f) i)) /\ bf_norm f = tnorm t.
Lemma made_grow b b' t f : good_brep b -> grow b b' -> made b t f -> made b' t f.
Proof. intros G A (H & N). split; [|assumption]. intros i Hi. eapply grow_W; eauto. Qed.
Lemma with_flist_good b l : good_brep b -> (forall f, List.In f l -> good_face b f) -> good_brep (with_flist b l).
Proof. intros G H. constructor; [exact (gb_vnd _ G)|exact (gb_end _ G)|exact (gb_v _ G)|exact (gb_e _ G)|exact H]. Qed.

Lemma faceInsert_ok b t : good_brep b -> exists b' f, faceInsert b t = Some b' /\ good_brep b' /\ grow b b' /\ flist b' = flist b ++ [f] /\ made b' t f /\
  (single_edges b -> single_edges b') /\ (no_garbage b -> no_garbage b') /\
  (forall y, List.In y (vlist b') -> List.In y (vlist b) \/ exists i, (i < 3)%nat /\ posn b' y = get3 (pts t) i).
Proof.
  intros G. unfold faceInsert.
  destruct (vreg_ok b (tv0 t) G) as (b1 & v0 & -> & G1 & A1 & F1 & E1 & W1 & V1 & S1). cbn [bind].
  destruct (vreg_ok b1 (tv1 t) G1) as (b2 & v1 & -> & G2 & A2 & F2 & E2 & W2 & V2 & S2). cbn [bind].
  destruct (vreg_ok b2 (tv2 t) G2) as (b3 & v2 & -> & G3 & A3 & F3 & E3 & W3 & V3 & S3). cbn [bind].
  assert (W1' : W b3 (tv0 t) v0) by (apply (grow_W b2); [assumption|assumption|]; apply (grow_W b1); assumption).
  assert (W2' : W b3 (tv1 t) v1) by (apply (grow_W b2); assumption).
  destruct (W_close _ _ _ G3 W1') as [I0 _]. destruct (W_close _ _ _ G3 W2') as [I1 _]. destruct (W_close _ _ _ G3 W3) as [I2 _].
  destruct (ereg_ok b3 v1 v2 G3 I1 I2) as (b4 & e0 & -> & G4 & A4 & F4 & L4 & H4 & J4 & C4 & O4 & S4). cbn [bind].
  destruct (ereg_ok b4 v2 v0 G4) as (b5 & e1 & -> & G5 & A5 & F5 & L5 & H5 & J5 & C5 & O5 & S5); [rewrite L4; assumption|rewrite L4; assumption|]. cbn [bind].
  destruct (ereg_ok b5 v0 v1 G5) as (b6 & e2 & -> & G6 & A6 & F6 & L6 & H6 & J6 & C6 & O6 & S6); [rewrite L5, L4; assumption|rewrite L5, L4; assumption|]. cbn [bind].
  assert (VL : vlist b6 = vlist b3) by congruence.
  assert (FL : flist b6 = flist b) by congruence.
  set (f := BF (v0, v1, v2) (e0, e1, e2) (tnorm t)).
  assert (A36 : grow b3 b6) by (eapply grow_trans; [exact A4|]; eapply grow_trans; eassumption).
  assert (A06 : grow b b6) by (eapply grow_trans; [exact A1|]; eapply grow_trans; [exact A2|]; eapply grow_trans; eassumption).
  assert (GF : good_face b6 f).
  { intros i Hi. assert (FV : List.In (get3 (bf_v f) i) (vlist b6)) by (rewrite VL; destruct i as [|[|[|i]]]; [exact I0|exact I1|exact I2|lia]). split; [exact FV|].
    destruct i as [|[|[|i]]]; [| | |lia]; cbn [get3 bf_v bf_e f nxt].
    - destruct C4 as (c & Hc & J). split; [apply (grow_in_e b5); [assumption|]; apply (grow_in_e b4); assumption|]. exists c. split; [|exact J].
      rewrite (gw_e _ _ A6) by (apply (gb_e _ G5); apply (grow_in_e b4); assumption). rewrite (gw_e _ _ A5) by (apply (gb_e _ G4); assumption). assumption.
    - destruct C5 as (c & Hc & J). split; [apply (grow_in_e b5); assumption|]. exists c. split; [|exact J]. rewrite (gw_e _ _ A6) by (apply (gb_e _ G5); assumption). assumption.
    - destruct C6 as (c & Hc & J). split; [assumption|]. exists c. auto. }
  exists (with_flist b6 (flist b6 ++ [f])), f. split; [reflexivity|]. split; [|split; [|split; [|split; [|split; [|split]]]]].
  - apply with_flist_good; [assumption|]. intros g Hg. apply in_app_or in Hg. destruct Hg as [Hg|[<-|[]]]; [apply (gb_f _ G6 g Hg)|exact GF].
  - constructor; cbn; apply A06.
  - cbn. rewrite FL. reflexivity.
  - split; [|reflexivity]. intros i Hi. assert (Q : forall v x, W b3 v x -> W (with_flist b6 (flist b6 ++ [f])) v x) by (intros v x K; apply (grow_W b3 b6 v x G3 A36 K)).
    destruct i as [|[|[|i]]]; [apply Q, W1'|apply Q, W2'|apply Q, W3|lia].
  - intros S. exact (S6 (S5 (S4 (S3 (S2 (S1 S)))))).
  - intros (NV & NE). split.
    + intros y Hy. cbn in Hy. rewrite VL in Hy. assert (QQ : List.In y (vlist b) \/ y = v0 \/ y = v1 \/ y = v2).
      { destruct (V3 y Hy) as [Hy3|[-> _]]; [|auto]. destruct (V2 y Hy3) as [Hy2|[-> _]]; [|auto]. destruct (V1 y Hy2) as [Hy1|[-> _]]; auto. }
      destruct QQ as [Q|Q].
      * destruct (NV y Q) as (g & i & Ig & Q2). exists g, i. split; [cbn; apply in_or_app; left; rewrite FL; assumption|assumption].
      * assert (IF : List.In f (flist (with_flist b6 (flist b6 ++ [f])))) by (cbn; apply in_or_app; right; now left).
        destruct Q as [Q|[Q|Q]]; subst y; [exists f, 0%nat|exists f, 1%nat|exists f, 2%nat]; (split; [exact IF|split; [lia|reflexivity]]).
    + intros e He. cbn in He. assert (IF : List.In f (flist (with_flist b6 (flist b6 ++ [f])))) by (cbn; apply in_or_app; right; now left).
      destruct (O6 e He) as [He5| ->]; [|exists f, 2%nat; split; [exact IF|split; [lia|reflexivity]]].
      destruct (O5 e He5) as [He4| ->]; [|exists f, 1%nat; split; [exact IF|split; [lia|reflexivity]]].
      destruct (O4 e He4) as [He3| ->]; [|exists f, 0%nat; split; [exact IF|split; [lia|reflexivity]]].
      rewrite E3, E2, E1 in He3. destruct (NE e He3) as (g & i & Ig & Q). exists g, i. split; [cbn; apply in_or_app; left; rewrite FL; assumption|assumption].
  - intros y Hy. cbn in Hy. rewrite VL in Hy.
    assert (P6 : posn (with_flist b6 (flist b6 ++ [f])) y = posn b3 y) by (apply (grow_posn b3 b6); assumption). rewrite P6.
    destruct (V3 y Hy) as [Hy3|[-> P]]; [|right; exists 2%nat; split; [lia|exact P]]. rewrite (grow_posn b2 b3) by assumption.
    destruct (V2 y Hy3) as [Hy2|[-> P]]; [|right; exists 1%nat; split; [lia|exact P]]. rewrite (grow_posn b1 b2) by assumption.
    destruct (V1 y Hy2) as [Hy1|[-> P]]; [now left|right; exists 0%nat; split; [lia|exact P]].
Qed.
Record inserted (b : brep) (ts : list tri3) (b' : brep) : Prop := INS {
  in_good : good_brep b'; in_grow : grow b b'; in_single : single_edges b -> single_edges b'; in_ng : no_garbage b -> no_garbage b';
  in_faces : exists fs, flist b' = flist b ++ fs /\ Forall2 (made b') ts fs;
  in_pos : forall y, List.In y (vlist b') -> List.In y (vlist b) \/ exists t i, List.In t ts /\ (i < 3)%nat /\ posn b' y = get3 (pts t) i }.
Lemma facesInsert_ok ts : forall b, good_brep b -> exists b', facesInsert b ts = Some b' /\ inserted b ts b'.
Proof.
  induction ts as [|t ts IH]; intros b G.
  - exists b. split; [reflexivity|]. constructor; auto; [apply grow_refl|]. exists []. rewrite app_nil_r. auto.
  - cbn [facesInsert]. destruct (faceInsert_ok b t G) as (b1 & f & -> & G1 & A1 & F1 & M1 & S1 & N1 & P1). cbn [bind].
    destruct (IH b1 G1) as (b' & -> & Q). exists b'. split; [reflexivity|]. pose proof (in_grow _ _ _ Q) as A2. constructor.
    + apply (in_good _ _ _ Q).
    + eapply grow_trans; eassumption.
    + intros S. apply (in_single _ _ _ Q), S1, S.
    + intros S. apply (in_ng _ _ _ Q), N1, S.
    + destruct (in_faces _ _ _ Q) as (fs & E & M). exists (f :: fs). rewrite E, F1, <- app_assoc. split; [reflexivity|]. constructor; [|assumption]. apply (made_grow b1); assumption.
    + intros y Hy. destruct (in_pos _ _ _ Q y Hy) as [Hy1|(u & i & Iu & K)].
      * destruct (P1 y Hy1) as [Hy0|(i & Hi & P)]; [now left|]. right. exists t, i. split; [now left|]. split; [assumption|]. rewrite (grow_posn b1 b') by assumption. assumption.
      * right. exists u, i. split; [now right|assumption].
Qed.
Lemma empty_good : good_brep empty_brep.
Proof. constructor; cbn; try constructor; intros; contradiction. Qed.
Lemma empty_single : single_edges empty_brep.
Proof. intros e e' c c' x y []. Qed.
Lemma empty_ng : no_garbage empty_brep.
Proof. split; intros v []. Qed.

(** the triangles of a polyhedron *)
Definition ph_tris (ph : ph3) : list (vec3 * vec3 * vec3) := map (corners (pverts ph)) (ph_faces ph).
Lemma tris_pts ph ts : valid_ph ph -> zPH3DTris ph = Some ts -> ts = map (tri_at (pverts ph)) (pfaces ph) /\ ph_tris ph = map pts ts.
Proof.
  intros V E. rewrite (tris_ok ph V) in E. injection E as <-. split; [reflexivity|]. unfold ph_tris, ph_faces. rewrite !map_map. reflexivity.
Qed.
Lemma made_close b t f : good_brep b -> made b t f -> good_face b f -> face_at b f (tri_of b f) /\ close3 zTOL (tri_of b f) (pts t).
Proof.
  intros G (M & _) F. split.
  - intros i Hi. rewrite get3_tri. apply posn_vert_at; [assumption|]. apply F. assumption.
  - intros i Hi. rewrite get3_tri. apply (W_close b); [assumption|]. apply M. assumption.
Qed.
Lemma Forall2_map_r {A B C} (P : A -> C -> Prop) (g : B -> C) l m : Forall2 P l (map g m) <-> Forall2 (fun a b => P a (g b)) l m.
Proof.
  split.
  - revert m. induction l as [|a l IH]; intros [|b m] H; inversion H; subst; constructor; auto.
  - intros H. induction H; cbn; constructor; auto.
Qed.
Lemma Forall2_map_l {A B C} (P : C -> B -> Prop) (g : A -> C) l m : Forall2 P (map g l) m <-> Forall2 (fun a b => P (g a) b) l m.
Proof.
  split.
  - revert m. induction l as [|a l IH]; intros [|b m] H; inversion H; subst; constructor; auto.
  - intros H. induction H; cbn; constructor; auto.
Qed.
Lemma Forall2_weak {A B} (P Q : A -> B -> Prop) l m : (forall a b, List.In a l -> List.In b m -> P a b -> Q a b) -> Forall2 P l m -> Forall2 Q l m.
Proof.
  intros H F. induction F as [|a b l m P1 F IH]; constructor; [apply H; [now left|now left|assumption]|]. apply IH. intros x y Hx Hy. apply H; now right.
Qed.
Theorem ph2brep ph : valid_ph ph -> exists b, zPH3D2BREP ph = Some b /\ good_brep b /\ no_garbage b /\ single_edges b /\
  Forall2 (fun t f => exists s, face_at b f s /\ close3 zTOL s t) (ph_tris ph) (flist b) /\ map bf_norm (flist b) = map fnrm (pfaces ph) /\
  (well_apart zTOL (pverts ph) -> Forall2 (fun t f => face_at b f t) (ph_tris ph) (flist b)) /\
  (closed (ph_faces ph) -> watertight b).
Proof.
  intros V. unfold zPH3D2BREP. rewrite (tris_ok ph V). cbn [bind]. set (ts := map (tri_at (pverts ph)) (pfaces ph)).
  destruct (facesInsert_ok ts empty_brep empty_good) as (b & -> & Q). exists b. split; [reflexivity|]. pose proof (in_good _ _ _ Q) as G. split; [assumption|].
  split; [apply (in_ng _ _ _ Q), empty_ng|]. pose proof (in_single _ _ _ Q empty_single) as SE. split; [assumption|].
  destruct (in_faces _ _ _ Q) as (fs & FL & M). cbn in FL. subst fs.
  assert (TP : ph_tris ph = map pts ts) by (unfold ph_tris, ph_faces, ts; rewrite !map_map; reflexivity).
  split; [|split; [|split]].
  - rewrite TP. apply Forall2_map_l. eapply Forall2_weak; [|exact M]. intros t f _ If Mf. exists (tri_of b f). apply made_close; [assumption|assumption|]. apply (gb_f _ G f If).
  - clear -M. assert (E : map fnrm (pfaces ph) = map tnorm ts) by (unfold ts; rewrite map_map; reflexivity). rewrite E. clear E. revert M. generalize (flist b) as l. induction ts as [|t ts' IH]; intros l M; inversion M; subst; cbn; [reflexivity|].
    destruct H1 as [_ ->]. f_equal. apply IH. assumption.
  - intros WA. rewrite TP. apply Forall2_map_l. eapply Forall2_weak; [|exact M]. intros t f It If Mf. pose proof (gb_f _ G f If) as GF. destruct (made_close _ _ _ G Mf GF) as [FA CL].
    replace (pts t) with (tri_of b f); [assumption|]. apply trip_ext. intros i Hi. rewrite get3_tri.
    assert (CV : forall u j, List.In u ts -> (j < 3)%nat -> List.In (get3 (pts u) j) (pverts ph)).
    { intros u j Iu Hj. unfold ts in Iu. apply in_map_iff in Iu. destruct Iu as (g & <- & Ig). destruct (valid_in ph g V Ig) as (B0 & B1 & B2).
      destruct j as [|[|[|j]]]; [| | |lia]; cbn; apply nth_In; assumption. }
    apply WA.
    + destruct (in_pos _ _ _ Q (get3 (bf_v f) i)) as [[]|(u & j & Iu & Hj & ->)]; [apply GF; assumption|]. apply CV; assumption.
    + apply CV; assumption.
    + rewrite <- get3_tri. apply CL. assumption.
  - intros CL e He. unfold balanced. destruct (gb_e _ G e He) as (_ & c & Hc & _).
    set (w := fun i : nat => match vertListFind (br_v b) (vlist b) (vpos (pverts ph) i) with Some (Some x) => x | _ => 0%nat end).
    set (F := fun s : nat * nat => run c (w (fst s)) (w (snd s))).
    assert (S1 : forall f i, List.In f (flist b) -> (i < 3)%nat -> side_run b f e i = run c (get3 (bf_v f) (nxt i)) (get3 (bf_v f) (nxt (nxt i)))).
    { intros f i If Hi. destruct (gb_f _ G f If i Hi) as (_ & Ie & c' & Hc' & J). unfold side_run. destruct (Nat.eqb_spec (get3 (bf_e f) i) e) as [Ee|Ne]; [rewrite Hc; reflexivity|].
      unfold run. destruct (Nat.eqb_spec (ec_a c) (get3 (bf_v f) (nxt i))) as [Ea|Ea], (Nat.eqb_spec (ec_b c) (get3 (bf_v f) (nxt (nxt i)))) as [Eb|Eb]; cbn.
      - exfalso. apply Ne. apply (SE _ _ c' c _ _ Ie He Hc' Hc J). left. auto.
      - destruct (Nat.eqb_spec (ec_a c) (get3 (bf_v f) (nxt (nxt i)))) as [Ea'|Ea'], (Nat.eqb_spec (ec_b c) (get3 (bf_v f) (nxt i))) as [Eb'|Eb']; cbn; try ring.
        exfalso. apply Ne. apply (SE _ _ c' c _ _ Ie He Hc' Hc J). right. auto.
      - destruct (Nat.eqb_spec (ec_a c) (get3 (bf_v f) (nxt (nxt i)))) as [Ea'|Ea'], (Nat.eqb_spec (ec_b c) (get3 (bf_v f) (nxt i))) as [Eb'|Eb']; cbn; try ring.
        exfalso. apply Ne. apply (SE _ _ c' c _ _ Ie He Hc' Hc J). right. auto.
      - destruct (Nat.eqb_spec (ec_a c) (get3 (bf_v f) (nxt (nxt i)))) as [Ea'|Ea'], (Nat.eqb_spec (ec_b c) (get3 (bf_v f) (nxt i))) as [Eb'|Eb']; cbn; try ring.
        exfalso. apply Ne. apply (SE _ _ c' c _ _ Ie He Hc' Hc J). right. auto. }
    assert (SUM : rsum (fun f => face_run b f e) (flist b) = rsum F (all_sides (ph_faces ph))).
    { assert (S1' : forall f, List.In f (flist b) -> face_run b f e = run c (get3 (bf_v f) 1) (get3 (bf_v f) 2) + run c (get3 (bf_v f) 2) (get3 (bf_v f) 0) + run c (get3 (bf_v f) 0) (get3 (bf_v f) 1)) by (intros f If; unfold face_run; rewrite !S1 by (assumption || lia); reflexivity).
      clear S1 TP. unfold ph_faces. unfold ts in M. apply (proj1 (Forall2_map_l (made b) (tri_at (pverts ph)) (pfaces ph) (flist b))) in M. clear -S1' M. revert S1' M. generalize (pfaces ph) as gs. generalize (flist b) as fs.
      intros fs gs S1' M. induction M as [|g f gs' fs' Mf M IH]; [reflexivity|].
      cbn [map all_sides flat_map]. unfold all_sides in IH. rewrite rsum_app6. rewrite <- IH by (intros h Hh; apply S1'; now right).
      change (rsum (fun f => face_run b f e) (f :: fs')) with (face_run b f e + rsum (fun f => face_run b f e) fs'). rewrite (S1' f (or_introl eq_refl)).
      destruct Mf as [Mf _]. assert (WW : forall i, (i < 3)%nat -> w (get3 (fi0 g, fi1 g, fi2 g) i) = get3 (bf_v f) i).
      { intros i Hi. unfold w. pose proof (Mf i Hi) as K. unfold W in K. replace (vpos (pverts ph) (get3 (fi0 g, fi1 g, fi2 g) i)) with (get3 (pts (tri_at (pverts ph) g)) i) by (destruct i as [|[|i]]; reflexivity). rewrite K. reflexivity. }
      pose proof (WW 0%nat ltac:(lia)) as W0. pose proof (WW 1%nat ltac:(lia)) as W1. pose proof (WW 2%nat ltac:(lia)) as W2. cbn [get3] in W0, W1, W2.
      unfold rsum at 2. cbn [sides fold_right]. unfold F. cbn [fst snd]. rewrite W0, W1, W2.
      destruct f as [[[x y] z] [[p q] r] n]. cbn [bf_v get3]. ring. }
    rewrite SUM.
    assert (AN : forall s, F (opp s) = - F s) by (intros [u v]; unfold F, opp, run; cbn; ring).
    assert (PM : forall l m, Permutation l m -> rsum F l = rsum F m) by (intros l m P; induction P; unfold rsum in *; cbn; lra).
    assert (NG : forall l, rsum F (map opp l) = - rsum F l) by (intros l; induction l as [|s l IH]; unfold rsum in *; cbn; [ring|]; rewrite IH, AN; ring).
    pose proof (PM _ _ CL) as Z. rewrite NG in Z. lra.
Qed.
