(** Merging. *)
From Verif Require Import Base Spec SpecBrep ModelBrep FactsAlg FactsVec FactsBrep FactsBrep2 FactsBrep3 FactsBrep4 FactsBrep5 FactsBrep6 FactsBrep7 FactsBrep8 FactsBrep9 FactsBrep10 FactsBrep11 FactsBrep12 FactsPH2.
From Coq Require Import List Lia Lra Psatz Classical_Prop.
Import ListNotations.
Open Scope R_scope.

(** ** the second surface at other addresses *)
Lemma get3_shift_v k f i : get3 (bf_v (shift_face k f)) i = (k + get3 (bf_v f) i)%nat.
Proof. destruct f as [[[x y] z] [[p q] r] n]. destruct i as [|[|i]]; reflexivity. Qed.
Lemma get3_shift_e k f i : get3 (bf_e (shift_face k f)) i = (k + get3 (bf_e f) i)%nat.
Proof. destruct f as [[[x y] z] [[p q] r] n]. destruct i as [|[|i]]; reflexivity. Qed.
Lemma shift_v k s v : br_v (shift_brep k s) (k + v) = br_v s v.
Proof. cbn [shift_brep br_v br_e]. destruct (Nat.ltb_spec (k + v) k) as [H|H]; [lia|]. replace (k + v - k)%nat with v by lia. reflexivity. Qed.
Lemma shift_e k s e : br_e (shift_brep k s) (k + e) = option_map (shift_edge k) (br_e s e).
Proof. cbn [shift_brep br_v br_e]. destruct (Nat.ltb_spec (k + e) k) as [H|H]; [lia|]. replace (k + e - k)%nat with e by lia. reflexivity. Qed.
Lemma in_shift k l x : List.In x (map (Nat.add k) l) <-> exists y, x = (k + y)%nat /\ List.In y l.
Proof. rewrite in_map_iff. split; intros (y & H & I); exists y; auto. Qed.
Lemma shift_in_v k s v : List.In (k + v)%nat (vlist (shift_brep k s)) <-> List.In v (vlist s).
Proof. cbn. rewrite in_shift. split; [intros (y & H & I); assert (y = v) as -> by lia; assumption|eauto]. Qed.
Lemma shift_in_e k s v : List.In (k + v)%nat (elist (shift_brep k s)) <-> List.In v (elist s).
Proof. cbn. rewrite in_shift. split; [intros (y & H & I); assert (y = v) as -> by lia; assumption|eauto]. Qed.
Lemma nodup_shift k l : NoDup l -> NoDup (map (Nat.add k) l).
Proof. intros H. apply FinFun.Injective_map_NoDup; [intros x y E; lia|assumption]. Qed.
Lemma joins_shift k c x y : joins c x y -> joins (shift_edge k c) (k + x) (k + y).
Proof. unfold joins. cbn. intros [[-> ->]|[-> ->]]; auto. Qed.
Lemma shift_good k s : good_brep s -> good_brep (shift_brep k s).
Proof.
  intros G. constructor.
  - apply nodup_shift, (gb_vnd _ G).
  - apply nodup_shift, (gb_end _ G).
  - intros v Hv. cbn in Hv. apply in_shift in Hv. destruct Hv as (y & -> & I). rewrite shift_v. destruct (gb_v _ G y I). split; [cbn; lia|assumption].
  - intros e He. cbn in He. apply in_shift in He. destruct He as (y & -> & I). rewrite shift_e. destruct (gb_e _ G y I) as (L & c & Hc & A & B & C). split; [cbn; lia|].
    exists (shift_edge k c). rewrite Hc. split; [reflexivity|]. cbn [shift_edge ec_a ec_b ec_cut]. rewrite !shift_in_v. rewrite C. auto.
  - intros f Hf. cbn in Hf. apply in_map_iff in Hf. destruct Hf as (g & <- & Ig). intros i Hi. rewrite !get3_shift_v, get3_shift_e, shift_in_v, shift_in_e, shift_e.
    destruct (gb_f _ G g Ig i Hi) as (A & B & c & Hc & J). split; [assumption|]. split; [assumption|]. exists (shift_edge k c). rewrite Hc. split; [reflexivity|]. apply joins_shift, J.
Qed.
Lemma shift_ge_v k s v : List.In v (vlist (shift_brep k s)) -> (k <= v)%nat.
Proof. cbn. rewrite in_shift. intros (y & -> & _). lia. Qed.
Lemma shift_ge_e k s v : List.In v (elist (shift_brep k s)) -> (k <= v)%nat.
Proof. cbn. rewrite in_shift. intros (y & -> & _). lia. Qed.
Lemma shift_posn k s v : posn (shift_brep k s) (k + v) = posn s v.
Proof. unfold posn. rewrite shift_v. reflexivity. Qed.

(** ** marks *)
Lemma markVerts_ok t h l : good_brep t -> (forall v, List.In v l -> exists c, h v = Some c) ->
  exists mv, markVerts t h l = Some mv /\ (forall v, List.In v l -> exists c, h v = Some c /\ vertListFind (br_v t) (vlist t) (vc_p c) = Some (mv v)) /\ (forall v, ~ List.In v l -> mv v = None).
Proof.
  intros G. induction l as [|a l IH]; intros AL; cbn [markVerts].
  - eexists. split; [reflexivity|]. split; [intros v []|reflexivity].
  - destruct (AL a (or_introl eq_refl)) as (c & Hc). rewrite Hc. destruct (find_total (br_v t) (vlist t) (vc_p c)) as (o & Ho & _); [intros y Hy; apply (gb_v _ G y Hy)|]. rewrite Ho.
    destruct IH as (m & -> & M1 & M2); [intros v Hv; apply AL; now right|]. eexists. split; [reflexivity|]. split.
    + intros v Hv. destruct (Nat.eq_dec v a) as [->|N]; [exists c; rewrite upd_same; auto|]. rewrite upd_other by assumption. destruct Hv as [->|Hv]; [contradiction|]. apply M1. assumption.
    + intros v Hv. rewrite upd_other by (intros ->; apply Hv; now left). apply M2. intros K. apply Hv. now right.
Qed.
Lemma find_at t p o : good_brep t -> vertListFind (br_v t) (vlist t) p = Some o ->
  match o with Some x => at_vertex zTOL t p /\ List.In x (vlist t) /\ close_to zTOL (posn t x) p | None => ~ at_vertex zTOL t p end.
Proof.
  intros G E. destruct (find_total (br_v t) (vlist t) p) as (o' & E' & K); [intros y Hy; apply (gb_v _ G y Hy)|]. rewrite E in E'. injection E' as <-. destruct o as [x|].
  - destruct K as (I & c & Hc & K). split; [|split; [assumption|unfold posn; rewrite Hc; assumption]]. exists x, (vc_p c). split; [assumption|]. split; [exists c; auto|assumption].
  - intros (v & q & I & (c & Hc & <-) & C). specialize (K v c I Hc). apply equal_close in C. congruence.
Qed.
Lemma ereg_new b x y b' e : edgeFindnReg b x y = Some (b', e) -> forall e', List.In e' (elist b') -> List.In e' (elist b) \/ (br_next b <= e')%nat.
Proof.
  unfold edgeFindnReg. destruct (edgeListFind (br_e b) (elist b) x y) as [[n|]|]; intros H; [|unfold newEdge in H|discriminate]; injection H as <- <-; intros e' I; [now left|].
  cbn in I. apply in_app_or in I. destruct I as [I|[<-|[]]]; auto.
Qed.
Lemma markEdges_ok h (mv : nat -> option nat) l : forall t, good_brep t -> (forall v x, mv v = Some x -> List.In x (vlist t)) -> (forall e, List.In e l -> exists c, h e = Some c) ->
  exists t' me, markEdges t h mv l = Some (t', me) /\ good_brep t' /\ grow t t' /\ flist t' = flist t /\ vlist t' = vlist t /\ br_v t' = br_v t /\
    (forall e, List.In e (elist t') -> List.In e (elist t) \/ (br_next t <= e)%nat) /\
    (forall e, ~ List.In e l -> me e = None) /\
    (forall e, List.In e l -> exists c, h e = Some c /\
       match me e with
       | Some n => exists x y c', mv (ec_a c) = Some x /\ mv (ec_b c) = Some y /\ List.In n (elist t') /\ br_e t' n = Some c' /\ joins c' x y
       | None => mv (ec_a c) = None \/ mv (ec_b c) = None
       end).
Proof.
  induction l as [|a l IH]; intros t G MV AL; cbn [markEdges].
  - exists t, (fun _ => None). split; [reflexivity|]. split; [assumption|]. split; [apply grow_refl|]. do 3 (split; [reflexivity|]). split; [auto|]. split; [reflexivity|]. intros e [].
  - destruct (AL a (or_introl eq_refl)) as (c & Hc). rewrite Hc.
    assert (exists t1 o, (match mv (ec_a c), mv (ec_b c) with
                | Some x, Some y => match edgeFindnReg t x y with Some (t, n) => Some (t, Some n) | None => None end
                | _, _ => Some (t, None)
                end) = Some (t1, o) /\ good_brep t1 /\ grow t t1 /\ flist t1 = flist t /\ vlist t1 = vlist t /\ br_v t1 = br_v t /\ (forall e, List.In e (elist t1) -> List.In e (elist t) \/ (br_next t <= e)%nat) /\
      match o with
       | Some n => exists x y c', mv (ec_a c) = Some x /\ mv (ec_b c) = Some y /\ List.In n (elist t1) /\ br_e t1 n = Some c' /\ joins c' x y
       | None => mv (ec_a c) = None \/ mv (ec_b c) = None
       end) as (t1 & o & -> & G1 & A1 & F1 & V1 & B1 & N1 & K1).
    { destruct (mv (ec_a c)) as [x|] eqn:Ea; [|exists t, None; split; [reflexivity|]; split; [assumption|]; split; [apply grow_refl|]; auto 10].
      destruct (mv (ec_b c)) as [y|] eqn:Eb; [|exists t, None; split; [reflexivity|]; split; [assumption|]; split; [apply grow_refl|]; auto 10].
      destruct (ereg_ok t x y G (MV _ _ Ea) (MV _ _ Eb)) as (t1 & n & ER & G1 & A1 & F1 & V1 & B1 & I1 & (c' & Hc' & J) & _). rewrite ER. exists t1, (Some n). split; [reflexivity|].
      do 5 (split; [assumption|]). split; [exact (ereg_new _ _ _ _ _ ER)|]. exists x, y, c'. auto. }
    cbn [bind]. destruct (IH t1 G1) as (t' & m & -> & G' & A' & F' & V' & B' & N' & M1 & M2); [intros v x E; rewrite V1; eapply MV; eassumption|intros e He; apply AL; now right|].
    exists t', (upd m a o). split; [reflexivity|]. split; [assumption|]. split; [eapply grow_trans; eassumption|]. split; [congruence|]. split; [congruence|]. split; [congruence|]. split; [|split].
    + intros e He. destruct (N' e He) as [I|L]; [apply N1; assumption|]. right. pose proof (gw_n _ _ A1). lia.
    + intros e He. rewrite upd_other by (intros ->; apply He; now left). apply M1. intros K. apply He. now right.
    + intros e He. destruct (Nat.eq_dec e a) as [->|N].
      * exists c. split; [assumption|]. rewrite upd_same. destruct o as [n|]; [|assumption]. destruct K1 as (x & y & c' & Ea & Eb & I & Hc' & J). exists x, y, c'. do 2 (split; [assumption|]).
        split; [eapply grow_in_e; eassumption|]. split; [|assumption]. rewrite (gw_e _ _ A'); [assumption|]. apply (gb_e _ G1 _ I).
      * rewrite upd_other by assumption. destruct He as [->|He]; [contradiction|]. apply M2. assumption.
Qed.
Lemma in_unmarked m l x : List.In x (unmarked m l) <-> List.In x l /\ m x = None.
Proof. unfold unmarked. rewrite filter_In, <- in_rev. destruct (m x); cbn; split; intros [H K]; split; auto; discriminate. Qed.
Lemma nodup_unmarked m l : NoDup l -> NoDup (unmarked m l).
Proof. intros H. apply NoDup_filter, NoDup_rev, H. Qed.
Lemma get3_reassign_v mv me f i : get3 (bf_v (reassign mv me f)) i = orElse (mv (get3 (bf_v f) i)) (get3 (bf_v f) i).
Proof. destruct f as [[[x y] z] [[p q] r] n]. destruct i as [|[|i]]; reflexivity. Qed.
Lemma get3_reassign_e mv me f i : get3 (bf_e (reassign mv me f)) i = orElse (me (get3 (bf_e f) i)) (get3 (bf_e f) i).
Proof. destruct f as [[[x y] z] [[p q] r] n]. destruct i as [|[|i]]; reflexivity. Qed.
Lemma nodup_app (l m : list nat) : NoDup l -> NoDup m -> (forall x, List.In x l -> ~ List.In x m) -> NoDup (l ++ m).
Proof.
  intros A B D. induction A as [|a l H A IH]; [assumption|]. cbn. constructor.
  - intros K. apply in_app_or in K. destruct K as [K|K]; [contradiction|]. apply (D a); [now left|assumption].
  - apply IH. intros x Hx. apply D. now right.
Qed.

Record merged (t s m : brep) : Prop := MG {
  mg_verts : good_verts m;
  mg_old : forall f u, List.In f (flist t) -> face_at t f u -> face_at m f u;
  mg_faces : exists fs, flist m = flist t ++ fs /\
    Forall2 (fun f g => bf_norm g = bf_norm f /\ forall u, face_at s f u -> exists u', face_at m g u' /\ snapped3 zTOL t u u') (flist s) fs;
  mg_new : forall v p, List.In v (vlist m) -> vert_at m v p -> (List.In v (vlist t) /\ vert_at t v p) \/ (~ at_vertex zTOL t p /\ exists w, List.In w (vlist s) /\ vert_at s w p);
  mg_good : (forall e, List.In e (elist s) -> ends_agree zTOL t s e) -> good_brep m;
  mg_dangling : (exists e, List.In e (elist s) /\ ~ ends_agree zTOL t s e) -> exists e c x, List.In e (elist m) /\ br_e m e = Some c /\ (x = ec_a c \/ x = ec_b c) /\ br_v m x = None /\ (x < br_next m)%nat }.
Theorem merge_ok t s : good_brep t -> good_brep s -> exists m, zBREPMerge t s = Some m /\ merged t s m.
Proof.
  intros G GS0. unfold zBREPMerge. set (K := br_next t). set (s' := shift_brep K s). pose proof (shift_good K s GS0) as GS. fold s' in GS.
  destruct (markVerts_ok t (br_v s') (vlist s') G) as (mv & -> & MV & MN); [intros v Hv; apply (gb_v _ GS v Hv)|]. cbn [bind].
  set (t1 := BR (br_v t) (br_e t) (br_next s') (vlist t) (elist t) (flist t)).
  assert (LE : (br_next t <= br_next s')%nat) by (unfold s', K; cbn; lia).
  assert (G1 : good_brep t1).
  { constructor; [exact (gb_vnd _ G)|exact (gb_end _ G)| | |exact (gb_f _ G)].
    - intros v Hv. destruct (gb_v _ G v Hv) as (L & H). split; [cbn [t1 br_next]; lia|exact H].
    - intros v Hv. destruct (gb_e _ G v Hv) as (L & H). split; [cbn [t1 br_next]; lia|exact H]. }
  assert (MVI : forall v x, mv v = Some x -> List.In v (vlist s') /\ List.In x (vlist t) /\ close_to zTOL (posn t x) (posn s' v) /\ at_vertex zTOL t (posn s' v)).
  { intros v x E. assert (I : List.In v (vlist s')). { destruct (in_dec Nat.eq_dec v (vlist s')) as [I|I]; [assumption|]. rewrite (MN v I) in E. discriminate. }
    split; [assumption|]. destruct (MV v I) as (c & Hc & F). rewrite E in F. destruct (find_at t (vc_p c) (Some x) G F) as (A & B & C). unfold posn at 2 3. rewrite Hc. auto. }
  assert (MVN : forall v, List.In v (vlist s') -> mv v = None -> ~ at_vertex zTOL t (posn s' v)).
  { intros v I E. destruct (MV v I) as (c & Hc & F). rewrite E in F. unfold posn. rewrite Hc. apply (find_at t (vc_p c) None G F). }
  destruct (markEdges_ok (br_e s') mv (elist s') t1 G1) as (t2 & me & -> & G2 & GW & F2 & V2 & B2 & NW & EN & EM); [intros v x E; apply (MVI v x E)|intros e He; destruct (gb_e _ GS e He) as (_ & c & Hc & _); eauto|].
  cbn [bind]. set (nv := unmarked mv (vlist s')). set (ne := unmarked me (elist s')). set (m := BR _ _ _ _ _ _). exists m. split; [reflexivity|].
  change (flist t1) with (flist t) in F2. change (vlist t1) with (vlist t) in V2. change (br_v t1) with (br_v t) in B2.
  assert (VM : vlist m = vlist t ++ nv) by (unfold m; cbn [vlist]; rewrite V2; reflexivity).
  assert (SV : forall v, List.In v (vlist t) -> ~ List.In v (vlist s')) by (intros v A B; apply shift_ge_v in B; apply (gb_v _ G) in A; unfold K in B; lia).
  assert (VT : forall v, List.In v (vlist t) -> br_v m v = br_v t v).
  { intros v Hv. unfold m. cbn [br_v]. unfold join_heap. destruct (memb v (vlist s')) eqn:E; [apply memb_in in E; exfalso; eapply SV; eassumption|]. rewrite B2. reflexivity. }
  assert (VN : forall v, List.In v nv -> br_v m v = br_v s' v).
  { intros v Hv. unfold m. cbn [br_v]. unfold join_heap. pose proof (proj1 (proj1 (in_unmarked _ _ _) Hv)) as I. rewrite (proj2 (memb_in _ _) I), (proj2 (memb_in _ _) Hv). reflexivity. }
  assert (VF : forall v x, mv v = Some x -> br_v m v = None).
  { intros v x E. unfold m. cbn [br_v]. unfold join_heap. rewrite (proj2 (memb_in _ _) (proj1 (MVI v x E))). destruct (memb v nv) eqn:F; [|reflexivity]. apply memb_in in F. apply in_unmarked in F. destruct F. congruence. }
  assert (SE : forall e, List.In e (elist t2) -> ~ List.In e (elist s')).
  { intros e A B. pose proof (shift_ge_e _ _ _ B) as L1. pose proof (proj1 (gb_e _ GS e B)) as L2. destruct (NW e A) as [I|I]; [change (elist t1) with (elist t) in I; apply (gb_e _ G) in I; unfold K in L1; lia|cbn [t1 br_next] in I; lia]. }
  assert (ET : forall e, List.In e (elist t2) -> br_e m e = br_e t2 e).
  { intros e He. unfold m. cbn [br_e]. unfold join_heap. destruct (memb e (elist s')) eqn:E; [apply memb_in in E; exfalso; eapply SE; eassumption|]. reflexivity. }
  assert (ENW : forall e, List.In e ne -> br_e m e = br_e s' e).
  { intros v Hv. unfold m. cbn [br_e]. unfold join_heap. pose proof (proj1 (proj1 (in_unmarked _ _ _) Hv)) as I. rewrite (proj2 (memb_in _ _) I), (proj2 (memb_in _ _) Hv). reflexivity. }
  assert (RV : forall v, List.In v (vlist s') -> List.In (orElse (mv v) v) (vlist m) /\ posn m (orElse (mv v) v) = match mv v with Some x => posn t x | None => posn s' v end).
  { intros v I. rewrite VM. destruct (mv v) as [x|] eqn:E; cbn [orElse].
    - destruct (MVI v x E) as (_ & Ix & _). split; [apply in_or_app; now left|]. unfold posn. rewrite VT by assumption. reflexivity.
    - assert (In : List.In v nv) by (apply in_unmarked; auto). split; [apply in_or_app; now right|]. unfold posn. rewrite VN by assumption. reflexivity. }
  assert (GV : good_verts m).
  { split; [|split].
    - rewrite VM. apply nodup_app; [apply (gb_vnd _ G)|apply nodup_unmarked, (gb_vnd _ GS)|]. intros x A B. apply (SV x A). apply in_unmarked in B. apply B.
    - intros v Hv. rewrite VM in Hv. apply in_app_or in Hv. destruct Hv as [Hv|Hv]; [rewrite VT by assumption; apply (gb_v _ G v Hv)|]. rewrite VN by assumption. apply in_unmarked in Hv. apply (gb_v _ GS). apply Hv.
    - intros f i If Hi. unfold m in If. cbn [flist] in If. rewrite F2 in If. apply in_app_or in If. destruct If as [If|If].
      + rewrite VM. apply in_or_app. left. apply good_face_v; assumption.
      + apply in_map_iff in If. destruct If as (g & <- & Ig). rewrite get3_reassign_v. apply RV. apply good_face_v; assumption. }
  assert (LM : (br_next s' <= br_next m)%nat) by (apply (gw_n _ _ GW)).
  constructor.
  - exact GV.
  - intros f u If F i Hi. destruct (F i Hi) as (c & Hc & E). exists c. split; [|assumption]. rewrite VT; [assumption|]. apply good_face_v; assumption.
  - exists (map (reassign mv me) (flist s')). split; [unfold m; cbn [flist]; rewrite F2; reflexivity|]. unfold s' at 1. cbn [shift_brep flist]. rewrite map_map. apply Forall2_map_r.
    assert (Q : forall l, (forall f, List.In f l -> List.In f (flist s)) -> Forall2 (fun f g => bf_norm (reassign mv me (shift_face K g)) = bf_norm f /\ forall u, face_at s f u -> exists u', face_at m (reassign mv me (shift_face K g)) u' /\ snapped3 zTOL t u u') l l).
    { intros l. induction l as [|f l IH]; intros HI; constructor; [|apply IH; intros g Hg; apply HI; now right].
      split; [destruct f as [[[x y] z] [[p q] r] n]; reflexivity|].
      intros u Fu. exists (tri_of m (reassign mv me (shift_face K f))). split.
      - apply tri_face_at_verts; [assumption|]. unfold m. cbn [flist]. apply in_or_app. right. apply in_map. unfold s'. cbn [shift_brep flist]. apply in_map. apply HI. now left.
      - intros i Hi. rewrite get3_tri, get3_reassign_v, get3_shift_v. assert (If : List.In f (flist s)) by (apply HI; now left).
        assert (I : List.In (K + get3 (bf_v f) i)%nat (vlist s')) by (apply shift_in_v; apply good_face_v; assumption).
        pose proof (vert_at_posn _ _ _ (Fu i Hi)) as P. rewrite <- P. destruct (RV _ I) as (R1 & R2). rewrite R2. rewrite <- (shift_posn K s). fold s'.
        destruct (mv (K + get3 (bf_v f) i)%nat) as [x|] eqn:E.
        + left. destruct (MVI _ _ E) as (_ & Ix & C & A). split; [assumption|]. split; [assumption|]. exists x. split; [assumption|]. apply posn_vert_at; assumption.
        + right. split; [apply MVN; assumption|reflexivity]. }
    apply Q. auto.
  - intros v p Hv Hp. rewrite VM in Hv. apply in_app_or in Hv. destruct Hv as [Hv|Hv].
    + left. split; [assumption|]. destruct Hp as (c & Hc & E). exists c. rewrite VT in Hc by assumption. auto.
    + right. destruct Hp as (c & Hc & E). rewrite VN in Hc by assumption. apply in_unmarked in Hv. destruct Hv as (I & N). split.
      * pose proof (MVN v I N) as A. unfold posn in A. rewrite Hc, E in A. assumption.
      * unfold s' in I. cbn in I. apply in_shift in I. destruct I as (w & -> & I). exists w. split; [assumption|]. exists c. unfold s' in Hc. rewrite shift_v in Hc. auto.
  - intros AG. constructor.
    + apply GV.
    + unfold m. cbn [elist]. apply nodup_app; [apply (gb_end _ G2)|apply nodup_unmarked, (gb_end _ GS)|]. intros x A B. apply (SE x A). apply in_unmarked in B. apply B.
    + intros v Hv. split; [|apply GV; assumption]. rewrite VM in Hv. apply in_app_or in Hv. destruct Hv as [Hv|Hv]; [apply (gb_v _ G) in Hv; lia|]. apply in_unmarked in Hv. destruct Hv as [Hv _]. apply (gb_v _ GS) in Hv. lia.
    + intros e He. unfold m in He. cbn [elist] in He. apply in_app_or in He. destruct He as [He|He].
      * destruct (gb_e _ G2 e He) as (L & c & Hc & A & B & C). split; [exact L|]. exists c. rewrite ET by assumption. split; [assumption|]. rewrite V2 in A, B. rewrite VM. split; [apply in_or_app; now left|]. split; [apply in_or_app; now left|assumption].
      * rewrite ENW by assumption. apply in_unmarked in He. destruct He as (I & N). destruct (gb_e _ GS e I) as (L & c & Hc & A & B & C). split; [lia|]. exists c. split; [assumption|].
        destruct (EM e I) as (c0 & Hc0 & M). rewrite Hc in Hc0. injection Hc0 as <-. rewrite N in M.
        assert (BN : mv (ec_a c) = None /\ mv (ec_b c) = None).
        { unfold s' in I. cbn in I. apply in_shift in I. destruct I as (e0 & -> & I0). specialize (AG e0 I0). unfold s' in Hc. rewrite shift_e in Hc. destruct (gb_e _ GS0 e0 I0) as (_ & c1 & H1 & A1 & B1 & _).
          rewrite H1 in Hc. cbn in Hc. injection Hc as <-. cbn [shift_edge ec_a ec_b] in *. specialize (AG c1 _ _ H1 (posn_vert_at _ _ GS0 A1) (posn_vert_at _ _ GS0 B1)).
          rewrite <- (shift_posn K s (ec_a c1)), <- (shift_posn K s (ec_b c1)) in AG. fold s' in AG.
          destruct (mv (K + ec_a c1)%nat) as [x|] eqn:Ea; destruct (mv (K + ec_b c1)%nat) as [y|] eqn:Eb; auto.
          - destruct M; discriminate.
          - exfalso. apply (MVN _ B Eb). apply AG. apply (MVI _ _ Ea).
          - exfalso. apply (MVN _ A Ea). apply AG. apply (MVI _ _ Eb). }
        destruct BN as [Na Nb]. rewrite VM. split; [apply in_or_app; right; apply in_unmarked; auto|]. split; [apply in_or_app; right; apply in_unmarked; auto|assumption].
    + intros f If. unfold m in If. cbn [flist] in If. rewrite F2 in If. apply in_app_or in If. destruct If as [If|If].
      * intros i Hi. pose proof (gb_f _ G f If i Hi) as (A & B & c & Hc & J). assert (B2' : List.In (get3 (bf_e f) i) (elist t2)) by (apply (grow_in_e t1); assumption).
        split; [rewrite VM; apply in_or_app; now left|]. split; [unfold m; cbn [elist]; apply in_or_app; now left|]. exists c. split; [|assumption]. rewrite ET by assumption. rewrite (gw_e _ _ GW); [exact Hc|]. cbn [t1 br_next]. pose proof (proj1 (gb_e _ G _ B)). lia.
      * apply in_map_iff in If. destruct If as (g & <- & Ig). intros i Hi. rewrite !get3_reassign_v, get3_reassign_e. destruct (gb_f _ GS g Ig i Hi) as (A & B & c & Hc & J).
        split; [apply RV; assumption|]. destruct (EM _ B) as (c0 & Hc0 & M). rewrite Hc in Hc0. injection Hc0 as <-.
        destruct (me (get3 (bf_e g) i)) as [n|] eqn:En; cbn [orElse].
        -- destruct M as (x & y & c' & Ea & Eb & In & Hc' & J'). split; [unfold m; cbn [elist]; apply in_or_app; now left|]. exists c'. split; [rewrite ET by assumption; assumption|].
           destruct J as [[<- <-]|[<- <-]]; rewrite Ea, Eb; cbn [orElse]; [assumption|]. unfold joins in *. tauto.
        -- assert (In : List.In (get3 (bf_e g) i) ne) by (apply in_unmarked; auto). split; [unfold m; cbn [elist]; apply in_or_app; now right|]. exists c. split; [rewrite ENW by assumption; assumption|].
           assert (BN : mv (ec_a c) = None /\ mv (ec_b c) = None).
           { set (e := get3 (bf_e g) i) in *. unfold s' in B. cbn in B. apply in_shift in B. destruct B as (e0 & Ee & I0). rewrite Ee in *. specialize (AG e0 I0). unfold s' in Hc. rewrite shift_e in Hc. destruct (gb_e _ GS0 e0 I0) as (_ & c1 & H1 & A1 & B1 & _).
             rewrite H1 in Hc. cbn in Hc. injection Hc as <-. cbn [shift_edge ec_a ec_b] in *. specialize (AG c1 _ _ H1 (posn_vert_at _ _ GS0 A1) (posn_vert_at _ _ GS0 B1)).
             rewrite <- (shift_posn K s (ec_a c1)), <- (shift_posn K s (ec_b c1)) in AG. fold s' in AG.
             assert (IA : List.In (K + ec_a c1)%nat (vlist s')) by (apply shift_in_v; assumption). assert (IB : List.In (K + ec_b c1)%nat (vlist s')) by (apply shift_in_v; assumption).
             destruct (mv (K + ec_a c1)%nat) as [x|] eqn:Ea; destruct (mv (K + ec_b c1)%nat) as [y|] eqn:Eb; auto.
             - destruct M; discriminate.
             - exfalso. apply (MVN _ IB Eb). apply AG. apply (MVI _ _ Ea).
             - exfalso. apply (MVN _ IA Ea). apply AG. apply (MVI _ _ Eb). }
           destruct BN as [Na Nb]. destruct J as [[<- <-]|[<- <-]]; rewrite Na, Nb; cbn [orElse]; unfold joins; auto.
  - intros (e & I0 & NA). destruct (gb_e _ GS0 e I0) as (_ & c1 & H1 & A1 & B1 & _).
    assert (I : List.In (K + e)%nat (elist s')) by (apply shift_in_e; assumption). assert (Hc : br_e s' (K + e) = Some (shift_edge K c1)) by (unfold s'; rewrite shift_e, H1; reflexivity).
    destruct (EM _ I) as (c0 & Hc0 & M). rewrite Hc in Hc0. injection Hc0 as <-. cbn [shift_edge ec_a ec_b] in M.
    assert (IA : List.In (K + ec_a c1)%nat (vlist s')) by (apply shift_in_v; assumption). assert (IB : List.In (K + ec_b c1)%nat (vlist s')) by (apply shift_in_v; assumption).
    assert (D : (exists x, mv (K + ec_a c1)%nat = Some x /\ mv (K + ec_b c1)%nat = None) \/ (exists x, mv (K + ec_a c1)%nat = None /\ mv (K + ec_b c1)%nat = Some x)).
    { destruct (mv (K + ec_a c1)%nat) as [x|] eqn:Ea; destruct (mv (K + ec_b c1)%nat) as [y|] eqn:Eb; eauto; exfalso; apply NA; intros c p q H P Q; rewrite H1 in H; injection H as <-; apply vert_at_posn in P; apply vert_at_posn in Q; subst p q;
      rewrite <- (shift_posn K s (ec_a c1)), <- (shift_posn K s (ec_b c1)); fold s'.
      - split; intros _; [apply (MVI _ _ Eb)|apply (MVI _ _ Ea)].
      - split; intros Z; exfalso; [apply (MVN _ IA Ea Z)|apply (MVN _ IB Eb Z)]. }
    assert (ME : me (K + e)%nat = None). { destruct (me (K + e)%nat) as [n|]; [|reflexivity]. destruct M as (x & y & c' & Ea & Eb & _). destruct D as [(z & D1 & D2)|(z & D1 & D2)]; congruence. }
    assert (In : List.In (K + e)%nat ne) by (apply in_unmarked; auto).
    assert (IM : List.In (K + e)%nat (elist m)) by (unfold m; cbn [elist]; apply in_or_app; now right).
    assert (HM : br_e m (K + e) = Some (shift_edge K c1)) by (rewrite ENW by assumption; assumption).
    destruct D as [(z & D1 & D2)|(z & D1 & D2)].
    + exists (K + e)%nat, (shift_edge K c1), (K + ec_a c1)%nat. split; [assumption|]. split; [assumption|]. split; [now left|]. split; [eapply VF; eassumption|]. apply (gb_v _ GS) in IA. lia.
    + exists (K + e)%nat, (shift_edge K c1), (K + ec_b c1)%nat. split; [assumption|]. split; [assumption|]. split; [now right|]. split; [eapply VF; eassumption|]. apply (gb_v _ GS) in IB. lia.
Qed.

(** ** what the caller sees *)
Theorem brep_merge t s : good_brep t -> good_brep s -> exists m fs, zBREPMerge t s = Some m /\ good_verts m /\ flist m = flist t ++ fs /\
  (forall f u, List.In f (flist t) -> face_at t f u -> face_at m f u) /\
  Forall2 (fun f g => bf_norm g = bf_norm f /\ forall u, face_at s f u -> exists u', face_at m g u' /\ snapped3 zTOL t u u') (flist s) fs /\
  (forall v p, List.In v (vlist m) -> vert_at m v p -> (List.In v (vlist t) /\ vert_at t v p) \/ (~ at_vertex zTOL t p /\ exists w, List.In w (vlist s) /\ vert_at s w p)).
Proof.
  intros G GS. destruct (merge_ok t s G GS) as (m & E & M). destruct (mg_faces _ _ _ M) as (fs & F & Q). exists m, fs. split; [assumption|]. split; [apply (mg_verts _ _ _ M)|]. split; [assumption|].
  split; [apply (mg_old _ _ _ M)|]. split; [assumption|]. apply (mg_new _ _ _ M).
Qed.
Theorem brep_merge_good t s m : good_brep t -> good_brep s -> zBREPMerge t s = Some m -> (good_brep m <-> forall e, List.In e (elist s) -> ends_agree zTOL t s e).
Proof.
  intros G GS E. destruct (merge_ok t s G GS) as (m' & E' & M). rewrite E in E'. injection E' as <-. split; [|apply (mg_good _ _ _ M)].
  intros GM e I. apply NNPP. intros NA. destruct (mg_dangling _ _ _ M) as (e' & c & x & I' & Hc & X & HX & _); [eauto|].
  destruct (gb_e _ GM e' I') as (_ & c' & Hc' & A & B & _). rewrite Hc in Hc'. injection Hc' as <-. assert (IX : List.In x (vlist m)) by (destruct X as [-> | ->]; assumption).
  destruct (gb_v _ GM x IX) as (_ & d & Hd). congruence.
Qed.
Lemma intersect_dangling l : forall b e x, List.In e l -> (exists c, br_e b e = Some c /\ (x = ec_a c \/ x = ec_b c)) -> br_v b x = None -> (x < br_next b)%nat -> truncIntersect l b = None.
Proof.
  induction l as [|a l IH]; intros b e x I (c & Hc & X) N L; [destruct I|]. cbn [truncIntersect]. destruct (Nat.eq_dec a e) as [->|NE].
  - rewrite Hc. destruct X as [-> | ->]; rewrite N; [reflexivity|]. destruct (br_v b (ec_a c)); reflexivity.
  - destruct I as [->|I]; [contradiction|]. destruct (br_e b a) as [ca|] eqn:Ha; [|reflexivity]. destruct (br_v b (ec_a ca)) as [v0|]; [|reflexivity]. destruct (br_v b (ec_b ca)) as [v1|]; [|reflexivity].
    destruct (Rltb (vc_d v0 * vc_d v1) 0).
    + apply (IH _ e x I).
      * exists c. split; [|assumption]. cbn [br_e]. rewrite upd_other by (intros Z; apply NE; auto). assumption.
      * cbn [br_v]. rewrite upd_other by lia. assumption.
      * cbn [br_next]. lia.
    + apply (IH b e x I); eauto.
Qed.
Theorem brep_merge_dangling t s m e pl v p : good_brep t -> good_brep s -> zBREPMerge t s = Some m -> List.In e (elist s) -> ~ ends_agree zTOL t s e ->
  List.In v (vlist m) -> vert_at m v p -> zTOL <= height_over (porg pl) (pnorm pl) p -> zBREPTrunc m pl = None.
Proof.
  intros G GS E I NA Iv (cv & Hv & <-) HT. destruct (merge_ok t s G GS) as (m' & E' & M). rewrite E in E'. injection E' as <-.
  destruct (mg_dangling _ _ _ M) as (e' & c & x & I' & Hc & X & HX & LX); [eauto|]. destruct (mg_verts _ _ _ M) as (ND & AL & _).
  destruct (bbcheck pl (vlist m) (br_v m) ND AL) as (h & n & B & B1 & B2 & B3). unfold zBREPTrunc. rewrite B.
  assert (NX : ~ List.In x (vlist m)) by (intros K; destruct (AL x K); congruence).
  destruct (Nat.eqb_spec n 0) as [Z|Z].
  - exfalso. pose proof (proj1 B3 Z v cv Iv Hv) as K. unfold height_over in HT. pose proof zTOL_pos. revert K. unfold snap. zvec. unfold zIsTiny, zIsTol.
    destruct (Rltb_reflect (Rabs (dot (vsub (vc_p cv) (porg pl)) (pnorm pl))) zTOL) as [Q|Q]; [|lra]. apply Rabs_def2 in Q. lra.
  - cbn [elist]. rewrite (intersect_dangling _ _ e' x I'); [reflexivity|exists c; split; assumption|cbn [br_v]; rewrite B1 by assumption; assumption|exact LX].
Qed.
(** a single triangle *)
Definition one_face (p q r n : vec3) : brep :=
  BR (fun k => match k with 0%nat => Some (VC p 0) | 1%nat => Some (VC q 0) | 2%nat => Some (VC r 0) | _ => None end)
     (fun k => match k with 3%nat => Some (EGC 1 2 None) | 4%nat => Some (EGC 2 0 None) | 5%nat => Some (EGC 0 1 None) | _ => None end)
     6 [0; 1; 2]%nat [3; 4; 5]%nat [BF (0, 1, 2)%nat (3, 4, 5)%nat n].
Lemma one_face_good p q r n : good_brep (one_face p q r n).
Proof.
  constructor.
  - repeat constructor; cbn; intuition discriminate.
  - repeat constructor; cbn; intuition discriminate.
  - intros v Hv. cbn in Hv. destruct Hv as [<-|[<-|[<-|[]]]]; cbn; split; try lia; eauto.
  - intros v Hv. cbn in Hv. destruct Hv as [<-|[<-|[<-|[]]]]; cbn; (split; [lia|]); eexists; (split; [reflexivity|]); cbn; auto 10.
  - intros f [<-|[]] i Hi. destruct i as [|[|[|i]]]; [| | |lia]; cbn; (split; [auto|]); (split; [auto|]); eexists; (split; [reflexivity|]); unfold joins; cbn; auto.
Qed.
Theorem merge_refuted : exists t s m pl, good_brep t /\ good_brep s /\ zBREPMerge t s = Some m /\ ~ good_brep m /\ norm (pnorm pl) = 1 /\ zBREPTrunc m pl = None.
Proof.
  set (t := one_face (V3 0 0 0) (V3 1 0 0) (V3 0 1 0) (V3 0 0 1)). set (s := one_face (V3 0 0 0) (V3 (-1) 0 0) (V3 0 (-1) 0) (V3 0 0 1)).
  pose proof (one_face_good (V3 0 0 0) (V3 1 0 0) (V3 0 1 0) (V3 0 0 1)) as G. fold t in G. pose proof (one_face_good (V3 0 0 0) (V3 (-1) 0 0) (V3 0 (-1) 0) (V3 0 0 1)) as GS. fold s in GS.
  destruct (merge_ok t s G GS) as (m & E & M). pose proof zTOL_pos as ZP. pose proof zTOL_small as ZS.
  assert (NA : ~ ends_agree zTOL t s 4).
  { intros H. assert (A : at_vertex zTOL t (V3 0 (-1) 0)).
    { apply (H (EGC 2 0 None) (V3 0 (-1) 0) (V3 0 0 0)); [reflexivity|exists (VC (V3 0 (-1) 0) 0); auto|exists (VC (V3 0 0 0) 0); auto|]. exists 0%nat, (V3 0 0 0). split; [now left|]. split; [exists (VC (V3 0 0 0) 0); auto|]. apply close_refl. }
    destruct A as (v & q & I & (c & Hc & <-) & (_ & C & _)). cbn in I. destruct I as [<-|[<-|[<-|[]]]]; cbn in Hc; injection Hc as <-; cbn in C; apply Rabs_def2 in C; lra. }
  exists t, s, m, (P3 (V3 0 0 0) (V3 1 0 0)). split; [assumption|]. split; [assumption|]. split; [assumption|]. split; [|split].
  - rewrite (brep_merge_good t s m G GS E). intros H. apply NA. apply H. cbn. auto.
  - unfold norm, norm2, dot. cbn. replace (1 * 1 + 0 * 0 + 0 * 0) with 1 by ring. apply sqrt_1.
  - assert (FA : face_at t (BF (0, 1, 2)%nat (3, 4, 5)%nat (V3 0 0 1)) (V3 0 0 0, V3 1 0 0, V3 0 1 0)) by (intros i Hi; destruct i as [|[|[|i]]]; [| | |lia]; cbn; eexists; split; reflexivity).
    pose proof (mg_old _ _ _ M _ _ (or_introl eq_refl) FA 1%nat ltac:(lia)) as V1. cbn [get3 bf_v] in V1.
    apply (brep_merge_dangling t s m 4 _ 1 (V3 1 0 0) G GS E); [cbn; auto|assumption| |assumption|unfold height_over, dot; cbn; lra].
    apply (proj2 (proj2 (mg_verts _ _ _ M)) (BF (0, 1, 2)%nat (3, 4, 5)%nat (V3 0 0 1)) 1%nat); [|lia]. destruct (mg_faces _ _ _ M) as (fs & -> & _). apply in_or_app. left. now left.
Qed.

(** ** intersection of two polyhedra *)
Lemma snapped_close b p p' : snapped zTOL b p p' -> close_to zTOL p' p.
Proof. intros [(_ & H & _)|(_ & ->)]; [assumption|apply close_refl]. Qed.
Theorem ph_intersect src1 src2 : valid_ph src1 -> valid_ph src2 -> well_apart zTOL (pverts src1) -> well_apart zTOL (pverts src2) -> unit_faces src1 -> unit_faces src2 ->
  exists ph ts1 ts2 ts2', zIntersectPH3DBREP src1 src2 = Some ph /\ valid_ph ph /\ ph_tris ph = ts1 ++ ts2' /\
    cut_out zTOL (ph_tris src1) (ph_planes src2) ts1 /\ cut_out zTOL (ph_tris src2) (ph_planes src1) ts2 /\ Forall2 (fun t t' => close3 zTOL t' t) ts2 ts2'.
Proof.
  intros V1 V2 W1 W2 U1 U2. destruct (cut_of src1 src2 V1 W1 V2 U2) as (b1 & c1 & E1 & T1 & C1). destruct (cut_of src2 src1 V2 W2 V1 U1) as (b2 & c2 & E2 & T2 & C2).
  destruct (merge_ok c1 c2 (pc_good _ _ _ C1) (pc_good _ _ _ C2)) as (m & EM & M). destruct (mg_faces _ _ _ M) as (fs & FM & Q).
  destruct (brep2ph m (mg_verts _ _ _ M)) as (ph & EP & VP & _ & F & _). rewrite FM in F. apply Forall2_app_inv_l in F. destruct F as (ts1 & ts2' & F1 & F2 & EQ).
  exists ph, ts1, (map (tri_of c2) (flist c2)), ts2'. split; [unfold zIntersectPH3DBREP; rewrite E1; cbn [bind]; rewrite E2; cbn [bind]; rewrite T1; cbn [bind]; rewrite T2; cbn [bind]; rewrite EM; exact EP|].
  split; [assumption|]. split; [assumption|]. split; [|split].
  - apply (phcut_out src1 src2 c1); [assumption|]. revert F1. apply Forall2_weak. intros f u If _ K. pose proof (tri_face_at c1 f (pc_good _ _ _ C1) If) as A. pose proof (mg_old _ _ _ M f _ If A) as B. apply face_at_tri in B. apply face_at_tri in K. rewrite K, <- B. assumption.
  - apply (phcut_out src2 src1 c2); [assumption|]. apply Forall2_map_r. assert (Z : forall l, (forall f, List.In f l -> List.In f (flist c2)) -> Forall2 (fun f g => face_at c2 f (tri_of c2 g)) l l).
    { intros l. induction l as [|a l IH]; intros H; constructor; [apply tri_face_at; [apply (pc_good _ _ _ C2)|apply H; now left]|]. apply IH. intros f Hf. apply H. now right. }
    apply Z. auto.
  - apply Forall2_map_l. assert (Z : forall l fs ts, (forall f, List.In f l -> List.In f (flist c2)) ->
      Forall2 (fun f g => bf_norm g = bf_norm f /\ forall u, face_at c2 f u -> exists u', face_at m g u' /\ snapped3 zTOL c1 u u') l fs -> Forall2 (fun f t => face_at m f t) fs ts -> Forall2 (fun f t' => close3 zTOL t' (tri_of c2 f)) l ts).
    { induction l as [|a l IH]; intros gs ts H A B; inversion A as [|? g ? gs' HA HA' E0 E3]; subst; inversion B as [|? t0 ? ts' HB HB']; subst; constructor.
      - destruct HA as (_ & HA). destruct (HA _ (tri_face_at c2 a (pc_good _ _ _ C2) (H a (or_introl eq_refl)))) as (u' & Fu & SN). apply face_at_tri in Fu. apply face_at_tri in HB. subst. intros i Hi. eapply snapped_close. apply SN. assumption.
      - eapply IH; [intros f Hf; apply H; now right|eassumption|assumption]. }
    eapply Z; [|exact Q|exact F2]. auto.
Qed.

(** ** all planes of a polyhedron *)
Lemma in_tri_planes ph o n : List.In (o, n) (ph_planes ph) <-> exists t, List.In t (map (tri_at (pverts ph)) (pfaces ph)) /\ o = tv0 t /\ n = tnorm t.
Proof.
  rewrite in_planes. split.
  - intros (f & If & -> & ->). exists (tri_at (pverts ph) f). split; [apply in_map; assumption|split; reflexivity].
  - intros (t & It & -> & ->). apply in_map_iff in It. destruct It as (f & <- & If). exists f. split; [assumption|split; reflexivity].
Qed.
Theorem brep_trunc_planes b cut : good_brep b -> valid_ph cut -> unit_faces cut ->
  exists b', zBREPTruncPH3D b cut = Some b' /\ good_brep b' /\
    (forall g s, List.In g (flist b') -> face_at b' g s -> exists f t, List.In f (flist b) /\ face_at b f t /\ piece_of t s) /\
    (forall p, on_brep b' p -> on_brep b p /\ forall o n, List.In (o, n) (ph_planes cut) -> height_over o n p < zTOL) /\
    (forall p, on_brep b p -> (forall o n, List.In (o, n) (ph_planes cut) -> height_over o n p <= - zTOL) -> on_brep b' p) /\
    (watertight b -> forall e, List.In e (elist b') -> balanced b' e \/ exists o n, List.In (o, n) (ph_planes cut) /\ edge_on b' e o n zTOL).
Proof.
  intros G VC U.
  assert (TU : forall t, List.In t (map (tri_at (pverts cut)) (pfaces cut)) -> norm (tnorm t) = 1).
  { intros t It. apply in_map_iff in It. destruct It as (f & <- & If). unfold unit_faces in U. rewrite Forall_forall in U. apply (U f If). }
  destruct (brep_trunc_ph b cut _ G (tris_ok cut VC) TU) as (b' & E' & G' & P & S1 & S2 & S3). exists b'. split; [assumption|]. split; [assumption|]. split; [assumption|]. split; [|split].
  - intros p O. destruct (S1 p O) as [O1 H]. split; [assumption|]. intros o n I. apply in_tri_planes in I. destruct I as (t & It & -> & ->). apply H. assumption.
  - intros p O H. apply S2; [assumption|]. intros t It. apply H. apply in_tri_planes. eauto.
  - intros W e I. destruct (S3 W e I) as [B|(t & It & Z)]; [now left|]. right. exists (tv0 t), (tnorm t). split; [apply in_tri_planes; eauto|assumption].
Qed.
Theorem brep_trunc_undef b cut f fs : valid_ph cut -> pfaces cut = f :: fs -> negligible (fnrm f) -> zBREPTruncPH3D b cut = None.
Proof. intros V E N. apply (brep_trunc_ph_undef b cut (tri_at (pverts cut) f) (map (tri_at (pverts cut)) fs)); [|exact N]. rewrite (tris_ok cut V), E. reflexivity. Qed.
(** a tetrahedron *)
Definition tet : ph3 := PH [V3 0 0 0; V3 1 0 0; V3 0 1 0; V3 0 0 1]
  [FC 0 2 1 (V3 0 0 (-1)); FC 0 1 3 (V3 0 (-1) 0); FC 0 3 2 (V3 (-1) 0 0); FC 1 2 3 (V3 (/ sqrt 3) (/ sqrt 3) (/ sqrt 3))].
Lemma tet_valid : valid_ph tet.
Proof. unfold valid_ph, indices_below, ph_faces. cbn. repeat constructor; lia. Qed.
Lemma tet_apart : well_apart zTOL (pverts tet).
Proof.
  pose proof zTOL_small as ZS. intros p q Ip Iq (A & B & C). cbn in Ip, Iq. apply Rabs_def2 in A. apply Rabs_def2 in B. apply Rabs_def2 in C.
  repeat (destruct Ip as [<-|Ip]); try contradiction; repeat (destruct Iq as [<-|Iq]); try contradiction; try reflexivity; cbn in *; exfalso; lra.
Qed.
Lemma tet_unit : unit_faces tet.
Proof.
  assert (U : forall v, dot v v = 1 -> norm v = 1) by (intros v H; unfold norm; rewrite H; apply sqrt_1).
  repeat constructor; apply U; unfold dot; cbn; try ring. pose proof (sqrt_sqrt 3 ltac:(lra)) as Q. assert (sqrt 3 <> 0) by (intros Z; rewrite Z in Q; lra).
  rewrite <- Rinv_mult, Q. field.
Qed.
Lemma tet_closed : closed (ph_faces tet).
Proof.
  unfold closed, ph_faces. cbn. apply Permutation.NoDup_Permutation.
  - repeat constructor; cbn; intuition discriminate.
  - repeat constructor; cbn; intuition discriminate.
  - intros x. cbn. split; intros H; repeat (destruct H as [<-|H]; [cbn; auto 20|]); contradiction.
Qed.
