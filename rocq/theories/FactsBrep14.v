(** Polyhedra restricted to a box; the fast intersection. *)
From Verif Require Import Base Spec SpecGeom SpecBox SpecCol SpecMesh SpecBrep SpecBrepFast ModelBrep ModelBrepFast FactsAlg FactsVec FactsElem FactsBrep FactsBrep2 FactsBrep3 FactsBrep9 FactsBrep10 FactsBrep11 FactsBrep12 FactsBrep13 FactsPH2 FactsPH4 FactsCentre FactsBox FactsColBox2.
From Coq Require Import List Lia Lra Psatz Classical_Prop.
Import ListNotations.
Open Scope R_scope.

Definition made_faces (ph : ph3) : Prop := Forall (fun f => created (tri_at (pverts ph) f)) (pfaces ph).
Definition fcorners (ph : ph3) (f : face) : vec3 * vec3 * vec3 := corners (pverts ph) (fi0 f, fi1 f, fi2 f).
Lemma chosen_ok ph box fs : Forall (fun f => created (tri_at (pverts ph) f)) fs ->
  exists ks, chosen box (map (tri_at (pverts ph)) fs) = Some (map (tri_at (pverts ph)) ks) /\ picked (fun f => touched box (fcorners ph f)) fs ks.
Proof.
  intros H. induction H as [|f fs Hf H (ks & E & P)].
  - exists []. split; [reflexivity|constructor].
  - cbn [map chosen]. destruct (tri_box _ _ _ _ box Hf) as ((r & R & Hr) & _). rewrite R, E.
    assert (T : touched box (fcorners ph f) <-> r = true) by (unfold touched, fcorners, corners; cbn; symmetry; exact Hr).
    destruct r.
    + exists (f :: ks). split; [reflexivity|]. constructor; [apply T; reflexivity|assumption].
    + exists ks. split; [reflexivity|]. apply picked_skip; [|assumption]. intros K. apply T in K. discriminate.
Qed.
Lemma picked_incl {A} (P : A -> Prop) l k : picked P l k -> forall a, List.In a k -> List.In a l /\ P a.
Proof.
  intros H. induction H as [|a l k Ha H IH|a l k Ha H IH]; intros x Hx; [destruct Hx| |].
  - destruct Hx as [<-|Hx]; [split; [now left|assumption]|]. destruct (IH x Hx). split; [now right|assumption].
  - destruct (IH x Hx). split; [now right|assumption].
Qed.
Lemma picked_map {A B} (g : A -> B) (P : B -> Prop) l k : picked (fun a => P (g a)) l k -> picked P (map g l) (map g k).
Proof. intros H. induction H; cbn; [constructor|constructor 2; assumption|constructor 3; assumption]. Qed.
Lemma sub_ph ph box : valid_ph ph -> made_faces ph -> exists ks, picked (fun f => touched box (fcorners ph f)) (pfaces ph) ks /\
  valid_ph (PH (pverts ph) ks) /\ zPH3D2BREPInBox ph box = zPH3D2BREP (PH (pverts ph) ks) /\ picked (touched box) (ph_tris ph) (ph_tris (PH (pverts ph) ks)).
Proof.
  intros V M. destruct (chosen_ok ph box (pfaces ph) M) as (ks & E & P). exists ks. split; [assumption|].
  assert (VK : valid_ph (PH (pverts ph) ks)).
  { unfold valid_ph, indices_below, ph_faces in *. cbn [pverts pfaces]. rewrite Forall_forall in V |- *. intros t It. apply in_map_iff in It. destruct It as (f & <- & If).
    apply (V (fi0 f, fi1 f, fi2 f)). apply in_map_iff. exists f. split; [reflexivity|]. apply (picked_incl _ _ _ P f If). }
  split; [assumption|]. split.
  - unfold zPH3D2BREPInBox, zPH3D2BREP. rewrite (tris_ok ph V), (tris_ok _ VK). cbn [bind pverts pfaces]. rewrite E. reflexivity.
  - unfold ph_tris, ph_faces. cbn [pverts pfaces]. rewrite !map_map. apply (picked_map (fcorners ph)). exact P.
Qed.
Theorem in_box_brep ph box : valid_ph ph -> made_faces ph -> exists b ts, zPH3D2BREPInBox ph box = Some b /\ good_brep b /\ no_garbage b /\ single_edges b /\
  picked (touched box) (ph_tris ph) ts /\ Forall2 (fun t f => exists s, face_at b f s /\ close3 zTOL s t) ts (flist b) /\
  (well_apart zTOL (pverts ph) -> Forall2 (fun t f => face_at b f t) ts (flist b)).
Proof.
  intros V M. destruct (sub_ph ph box V M) as (ks & _ & VK & E & P). destruct (ph2brep _ VK) as (b & Eb & G & N & SE & F & _ & X & _).
  exists b, (ph_tris (PH (pverts ph) ks)). rewrite E. auto 10.
Qed.
(** the common part, for two surfaces cut by two polyhedra *)
Lemma both src1 cut1 src2 cut2 : valid_ph src1 -> valid_ph src2 -> valid_ph cut1 -> valid_ph cut2 -> well_apart zTOL (pverts src1) -> well_apart zTOL (pverts src2) -> unit_faces cut1 -> unit_faces cut2 ->
  exists b1 b2 ph ts1 ts2 ts2', zPH3D2BREP src1 = Some b1 /\ zPH3D2BREP src2 = Some b2 /\
    bind (zBREPTruncPH3D b1 cut1) (fun b1 => bind (zBREPTruncPH3D b2 cut2) (fun b2 => bind (zBREPMerge b1 b2) zBREP2PH3D)) = Some ph /\ valid_ph ph /\ ph_tris ph = ts1 ++ ts2' /\
    cut_out zTOL (ph_tris src1) (ph_planes cut1) ts1 /\ cut_out zTOL (ph_tris src2) (ph_planes cut2) ts2 /\ Forall2 (fun t t' => close3 zTOL t' t) ts2 ts2'.
Proof.
  intros V1 V2 VC1 VC2 W1 W2 U1 U2. destruct (cut_of src1 cut1 V1 W1 VC1 U1) as (b1 & c1 & E1 & T1 & C1). destruct (cut_of src2 cut2 V2 W2 VC2 U2) as (b2 & c2 & E2 & T2 & C2).
  destruct (merge_ok c1 c2 (pc_good _ _ _ C1) (pc_good _ _ _ C2)) as (m & EM & M). destruct (mg_faces _ _ _ M) as (fs & FM & Q).
  destruct (brep2ph m (mg_verts _ _ _ M)) as (ph & EP & VP & _ & F & _). rewrite FM in F. apply Forall2_app_inv_l in F. destruct F as (ts1 & ts2' & F1 & F2 & EQ).
  exists b1, b2, ph, ts1, (map (tri_of c2) (flist c2)), ts2'. split; [assumption|]. split; [assumption|]. split; [rewrite T1; cbn [bind]; rewrite T2; cbn [bind]; rewrite EM; exact EP|].
  split; [assumption|]. split; [assumption|]. split; [|split].
  - apply (phcut_out src1 cut1 c1); [assumption|]. revert F1. apply Forall2_weak. intros f u If _ K. pose proof (tri_face_at c1 f (pc_good _ _ _ C1) If) as A. pose proof (mg_old _ _ _ M f _ If A) as B. apply face_at_tri in B. apply face_at_tri in K. rewrite K, <- B. assumption.
  - apply (phcut_out src2 cut2 c2); [assumption|]. apply Forall2_map_r. assert (Z : forall l, (forall f, List.In f l -> List.In f (flist c2)) -> Forall2 (fun f g => face_at c2 f (tri_of c2 g)) l l).
    { intros l. induction l as [|a l IH]; intros H; constructor; [apply tri_face_at; [apply (pc_good _ _ _ C2)|apply H; now left]|]. apply IH. intros f Hf. apply H. now right. }
    apply Z. auto.
  - apply Forall2_map_l. assert (Z : forall l fs ts, (forall f, List.In f l -> List.In f (flist c2)) ->
      Forall2 (fun f g => bf_norm g = bf_norm f /\ forall u, face_at c2 f u -> exists u', face_at m g u' /\ snapped3 zTOL c1 u u') l fs -> Forall2 (fun f t => face_at m f t) fs ts -> Forall2 (fun f t' => close3 zTOL t' (tri_of c2 f)) l ts).
    { induction l as [|a l IH]; intros gs ts H A B; inversion A as [|? g ? gs' HA HA' E0 E3]; subst; inversion B as [|? t0 ? ts' HB HB']; subst; constructor.
      - destruct HA as (_ & HA). destruct (HA _ (tri_face_at c2 a (pc_good _ _ _ C2) (H a (or_introl eq_refl)))) as (u' & Fu & SN). apply face_at_tri in Fu. apply face_at_tri in HB. subst. intros i Hi. eapply snapped_close. apply SN. assumption.
      - eapply IH; [intros f Hf; apply H; now right|eassumption|assumption]. }
    eapply Z; [|exact Q|exact F2]. auto.
Qed.
Lemma common l1 l2 : l1 <> [] -> l2 <> [] ->
  match zIntersectPH3DBox l1 l2 with Some b => proper b /\ common_box l1 l2 b /\ ~ side_by_side l1 l2 | None => side_by_side l1 l2 end.
Proof.
  intros N1 N2. unfold zIntersectPH3DBox.
  destruct (zVec3DDataAABB l1) as [[b1 v1]|] eqn:E1; [|apply aabb_empty in E1; contradiction]. destruct (zVec3DDataAABB l2) as [[b2 v2]|] eqn:E2; [|apply aabb_empty in E2; contradiction].
  destruct (aabb_bounds _ _ _ E1) as (P1 & I1 & L1). destruct (aabb_bounds _ _ _ E2) as (P2 & I2 & L2).
  destruct (aabb_extremes _ _ _ E1) as (X1 & MX1 & MN1). destruct (aabb_extremes _ _ _ E2) as (X2 & MX2 & MN2).
  pose proof (aab_intersect b1 b2 P1 P2) as H. destruct (zIntersectAABox3D b1 b2) as [b|].
  - destruct H as (C & P & H). split; [assumption|]. apply colchk_iff in C. split.
    + intros p. rewrite H. split; intros (A & B); split.
      * intros c Hc. apply (L1 c Hc p A).
      * intros c Hc. apply (L2 c Hc p B).
      * apply A. exact I1.
      * apply B. exact I2.
    + rewrite MX1, MN1, MX2, MN2 in C. cbn [vx vy vz] in C.
      assert (Y1 : forall i, List.In i [xp0 v1; xp1 v1; xp2 v1; xp3 v1; xp4 v1; xp5 v1] -> List.In i l1) by exact X1.
      assert (Y2 : forall i, List.In i [xp0 v2; xp1 v2; xp2 v2; xp3 v2; xp4 v2; xp5 v2] -> List.In i l2) by exact X2.
      intros (k & Ik & [K|K]); destruct Ik as [<-|[<-|[<-|[]]]];
      [pose proof (K (xp0 v1) (xp3 v2))|pose proof (K (xp1 v1) (xp4 v2))|pose proof (K (xp2 v1) (xp5 v2))|pose proof (K (xp3 v1) (xp0 v2))|pose proof (K (xp4 v1) (xp1 v2))|pose proof (K (xp5 v1) (xp2 v2))];
      (match goal with Q : List.In _ l1 -> List.In _ l2 -> _ |- _ => specialize (Q ltac:(apply Y1; cbn; auto 10) ltac:(apply Y2; cbn; auto 10)) end); lra.
  - assert (NC : ~ zColChkAABox3D b1 b2 = true) by congruence. rewrite colchk_iff in NC.
    assert (J1 : forall p, List.In p l1 -> in_box b1 p) by exact I1. assert (J2 : forall p, List.In p l2 -> in_box b2 p) by exact I2. unfold in_box in J1, J2.
    destruct (Rlt_dec (vx (bmin b1)) (vx (bmax b2))) as [A|A]; [|exists vx; split; [cbn; auto|right; intros p q Ip Iq; specialize (J1 p Ip); specialize (J2 q Iq); lra]].
    destruct (Rlt_dec (vx (bmin b2)) (vx (bmax b1))) as [B|B]; [|exists vx; split; [cbn; auto|left; intros p q Ip Iq; specialize (J1 p Ip); specialize (J2 q Iq); lra]].
    destruct (Rlt_dec (vy (bmin b1)) (vy (bmax b2))) as [A'|A']; [|exists vy; split; [cbn; auto|right; intros p q Ip Iq; specialize (J1 p Ip); specialize (J2 q Iq); lra]].
    destruct (Rlt_dec (vy (bmin b2)) (vy (bmax b1))) as [B'|B']; [|exists vy; split; [cbn; auto|left; intros p q Ip Iq; specialize (J1 p Ip); specialize (J2 q Iq); lra]].
    destruct (Rlt_dec (vz (bmin b1)) (vz (bmax b2))) as [C|C]; [|exists vz; split; [cbn; auto|right; intros p q Ip Iq; specialize (J1 p Ip); specialize (J2 q Iq); lra]].
    destruct (Rlt_dec (vz (bmin b2)) (vz (bmax b1))) as [D|D]; [|exists vz; split; [cbn; auto|left; intros p q Ip Iq; specialize (J1 p Ip); specialize (J2 q Iq); lra]].
    exfalso. apply NC. auto.
Qed.
Theorem fast src1 src2 : valid_ph src1 -> valid_ph src2 -> pverts src1 <> [] -> pverts src2 <> [] -> well_apart zTOL (pverts src1) -> well_apart zTOL (pverts src2) ->
  unit_faces src1 -> unit_faces src2 -> made_faces src1 -> made_faces src2 ->
  (side_by_side (pverts src1) (pverts src2) -> zIntersectPH3DBREPFast src1 src2 = Some None) /\
  (~ side_by_side (pverts src1) (pverts src2) ->
   exists box ks1 ks2 ph ts1 ts2 ts2', common_box (pverts src1) (pverts src2) box /\
     picked (touched box) (ph_tris src1) ks1 /\ picked (touched box) (ph_tris src2) ks2 /\ zIntersectPH3DBREPFast src1 src2 = Some (Some ph) /\ valid_ph ph /\ ph_tris ph = ts1 ++ ts2' /\
     cut_out zTOL ks1 (ph_planes src2) ts1 /\ cut_out zTOL ks2 (ph_planes src1) ts2 /\ Forall2 (fun t t' => close3 zTOL t' t) ts2 ts2').
Proof.
  intros V1 V2 N1 N2 W1 W2 U1 U2 M1 M2. pose proof (common _ _ N1 N2) as C. unfold zIntersectPH3DBREPFast.
  destruct (pverts src1) as [|a1 l1] eqn:E1; [contradiction|]. destruct (pverts src2) as [|a2 l2] eqn:E2; [contradiction|]. rewrite <- E1, <- E2 in *.
  destruct (zIntersectPH3DBox (pverts src1) (pverts src2)) as [box|].
  - destruct C as (P & CB & NS). split; [contradiction|]. intros _.
    destruct (sub_ph src1 box V1 M1) as (f1 & _ & VK1 & EB1 & P1). destruct (sub_ph src2 box V2 M2) as (f2 & _ & VK2 & EB2 & P2).
    destruct (both (PH (pverts src1) f1) src2 (PH (pverts src2) f2) src1 VK1 VK2 V2 V1 W1 W2 U2 U1) as (b1 & b2 & ph & ts1 & ts2 & ts2' & Q1 & Q2 & Q & VP & EQ & C1 & C2 & F).
    exists box, (ph_tris (PH (pverts src1) f1)), (ph_tris (PH (pverts src2) f2)), ph, ts1, ts2, ts2'. split; [assumption|]. split; [assumption|]. split; [assumption|]. split; [|auto].
    rewrite EB1, EB2, Q1, Q2. cbn [bind]. revert Q. destruct (zBREPTruncPH3D b1 src2) as [c1|]; cbn [bind]; [|discriminate]. destruct (zBREPTruncPH3D b2 src1) as [c2|]; cbn [bind]; [|discriminate].
    destruct (zBREPMerge c1 c2) as [m|]; cbn [bind]; [|discriminate]. intros ->. reflexivity.
  - split; [reflexivity|contradiction].
Qed.
(** ** the face that closes the common part may be left out *)
Definition big : ph3 := PH [V3 5 5 (1 / 4); V3 (-15) 5 (1 / 4); V3 5 (-15) (1 / 4); V3 5 5 (- (79 / 4))]
  [FC 0 1 2 (V3 0 0 1); FC 0 3 1 (V3 0 1 0); FC 0 2 3 (V3 1 0 0); FC 1 3 2 (V3 (- / sqrt 3) (- / sqrt 3) (- / sqrt 3))].
Lemma made_by v0 v1 v2 n k : 0 < k -> norm n = 1 -> tri_normal v0 v1 v2 = vscale k n -> ~ negligible (tri_normal v0 v1 v2) -> created (T3 v0 v1 v2 n).
Proof.
  intros K N E NN. unfold created. cbn [tv0 tv1 tv2]. destruct (proj2 (tri_creation v0 v1 v2) NN) as (t & C & A & B & D & _ & S & _). rewrite C. f_equal.
  destruct t as [t0 t1 t2 tn]. cbn in A, B, D, S. subst t0 t1 t2. f_equal. rewrite E in S.
  assert (NK : norm (vscale k n) = k) by (pose proof (norm_sqr n) as Q; rewrite N in Q; unfold norm, norm2; replace (dot (vscale k n) (vscale k n)) with (k * k * dot n n) by (unfold dot, vscale; cbn; ring); rewrite <- Q; replace (k * k * (1 * 1)) with (k * k) by ring; apply sqrt_square; lra). rewrite NK in S.
  assert (Z : forall u v, k * u = k * v -> u = v) by (intros u v H; apply (Rmult_eq_reg_l k); [assumption|lra]).
  destruct tn as [x y z], n as [x' y' z']. unfold vscale in S. cbn in S. injection S as S1 S2 S3. f_equal; apply Z; assumption.
Qed.
Lemma sqrt3 : 0 < sqrt 3 /\ sqrt 3 * sqrt 3 = 3 /\ 1 < sqrt 3 < 2.
Proof.
  pose proof (sqrt_sqrt 3 ltac:(lra)) as Q. assert (P : 0 < sqrt 3) by (apply sqrt_lt_R0; lra). split; [assumption|]. split; [assumption|]. split; nra.
Qed.
Lemma diag_unit s : s = 1 \/ s = -1 -> norm (V3 (s * / sqrt 3) (s * / sqrt 3) (s * / sqrt 3)) = 1.
Proof.
  destruct sqrt3 as (P & Q & _). intros S. unfold norm, norm2. replace (dot _ _) with 1; [apply sqrt_1|].
  unfold dot. cbn [vx vy vz]. replace (s * / sqrt 3 * (s * / sqrt 3)) with (/ 3); [lra|]. replace (s * / sqrt 3 * (s * / sqrt 3)) with ((s * s) * / (sqrt 3 * sqrt 3)) by (field; lra).
  rewrite Q. destruct S as [-> | ->]; lra.
Qed.
Ltac made_face k := apply (made_by _ _ _ _ k); [|unfold norm, norm2; replace (dot _ _) with 1 by (unfold dot; cbn; ring); apply sqrt_1|apply vec3_ext; unfold tri_normal, cross, vsub, vscale; cbn; field|
  unfold negligible, tri_normal, cross, vsub; cbn; intros (A & B & C); apply Rabs_def2 in A; apply Rabs_def2 in B; apply Rabs_def2 in C; pose proof zTOL_small; lra]; try lra.
Lemma tet_made : made_faces tet.
Proof.
  destruct sqrt3 as (P & Q & _). repeat constructor; unfold tri_at, vpos; cbn.
  - made_face 1.
  - made_face 1.
  - made_face 1.
  - apply (made_by _ _ _ _ (sqrt 3)); [assumption| | |].
    + rewrite <- (diag_unit 1 (or_introl eq_refl)) at 1. f_equal. apply vec3_ext; cbn; ring.
    + apply vec3_ext; unfold tri_normal, cross, vsub, vscale; cbn; field; lra.
    + unfold negligible, tri_normal, cross, vsub; cbn; intros (A & B & C); apply Rabs_def2 in A; pose proof zTOL_small; lra.
Qed.
Lemma big_made : made_faces big.
Proof.
  destruct sqrt3 as (P & Q & _). repeat constructor; unfold tri_at, vpos; cbn.
  - made_face 400.
  - made_face 400.
  - made_face 400.
  - apply (made_by _ _ _ _ (400 * sqrt 3)); [lra| | |].
    + rewrite <- (diag_unit (-1) (or_intror eq_refl)) at 1. f_equal. apply vec3_ext; cbn; ring.
    + apply vec3_ext; unfold tri_normal, cross, vsub, vscale; cbn; field; lra.
    + unfold negligible, tri_normal, cross, vsub; cbn; intros (A & B & C); apply Rabs_def2 in A; pose proof zTOL_small; lra.
Qed.
Lemma made_unit ph : made_faces ph -> unit_faces ph.
Proof.
  unfold made_faces, unit_faces. rewrite !Forall_forall. intros H f If. specialize (H f If). unfold created in H. cbn [tri_at tv0 tv1 tv2] in H.
  destruct (classic (negligible (tri_normal (vpos (pverts ph) (fi0 f)) (vpos (pverts ph) (fi1 f)) (vpos (pverts ph) (fi2 f))))) as [N|N].
  - pose proof (proj1 (tri_creation _ _ _) N) as K. rewrite H in K. discriminate.
  - destruct (proj2 (tri_creation _ _ _) N) as (t & E & _ & _ & _ & U & _). rewrite H in E. injection E as <-. exact U.
Qed.
Lemma big_valid : valid_ph big.
Proof. unfold valid_ph, indices_below, ph_faces. cbn. repeat constructor; lia. Qed.
Lemma big_apart : well_apart zTOL (pverts big).
Proof.
  pose proof zTOL_small as ZS. intros p q Ip Iq (A & B & C). cbn in Ip, Iq. apply Rabs_def2 in A. apply Rabs_def2 in B. apply Rabs_def2 in C.
  repeat (destruct Ip as [<-|Ip]); try contradiction; repeat (destruct Iq as [<-|Iq]); try contradiction; try reflexivity; cbn in *; exfalso; lra.
Qed.
Lemma big_closed : closed (ph_faces big).
Proof.
  unfold closed, ph_faces. cbn. apply Permutation.NoDup_Permutation.
  - repeat constructor; cbn; intuition discriminate.
  - repeat constructor; cbn; intuition discriminate.
  - intros x. cbn. split; intros H; repeat (destruct H as [<-|H]; [cbn; auto 20|]); contradiction.
Qed.
Lemma not_apart : ~ side_by_side (pverts big) (pverts tet).
Proof.
  intros (k & Ik & K). cbn in Ik.
  assert (I1 : forall p, List.In p [V3 5 5 (1 / 4); V3 (-15) 5 (1 / 4); V3 5 (-15) (1 / 4); V3 5 5 (- (79 / 4))] -> List.In p (pverts big)) by (cbn; auto).
  destruct Ik as [<-|[<-|[<-|[]]]], K as [K|K].
  - pose proof (K (V3 5 5 (1 / 4)) (V3 0 0 0) ltac:(cbn; auto) ltac:(cbn; auto)) as Z. cbn in Z. lra.
  - pose proof (K (V3 (-15) 5 (1 / 4)) (V3 0 0 0) ltac:(cbn; auto) ltac:(cbn; auto)) as Z. cbn in Z. lra.
  - pose proof (K (V3 5 5 (1 / 4)) (V3 0 0 0) ltac:(cbn; auto) ltac:(cbn; auto)) as Z. cbn in Z. lra.
  - pose proof (K (V3 5 (-15) (1 / 4)) (V3 0 0 0) ltac:(cbn; auto) ltac:(cbn; auto)) as Z. cbn in Z. lra.
  - pose proof (K (V3 5 5 (1 / 4)) (V3 0 0 0) ltac:(cbn; auto) ltac:(cbn; auto)) as Z. cbn in Z. lra.
  - pose proof (K (V3 5 5 (- (79 / 4))) (V3 0 0 0) ltac:(cbn; auto 10) ltac:(cbn; auto)) as Z. cbn in Z. lra.
Qed.
Lemma picked_none {A} (P : A -> Prop) l k : picked P l k -> (forall a, List.In a l -> ~ P a) -> k = [].
Proof. intros H N. induction H as [|a l k Ha H IH|a l k Ha H IH]; [reflexivity|exfalso; apply (N a); [now left|assumption]|]. apply IH. intros x Hx. apply N. now right. Qed.
Lemma big_untouched box t : common_box (pverts big) (pverts tet) box -> proper box -> List.In t (ph_tris big) -> ~ touched box t.
Proof.
  intros CB P It T.
  assert (IB : forall p, in_box box p -> 0 <= vx p <= 1 /\ 0 <= vy p <= 1 /\ 0 <= vz p <= 1).
  { intros p Hp. apply CB in Hp. destruct Hp as (_ & Hp). specialize (Hp (B3 (V3 0 0 0) (V3 1 1 1))). unfold in_box in Hp. cbn in Hp. apply Hp.
    intros q Iq. repeat (destruct Iq as [<-|Iq]; [cbn; lra|]). destruct Iq. }
  assert (DB : forall p, deep_in box p -> in_box box p) by (intros p D; pose proof zTOL_pos; unfold deep_in, deep, in_box in *; lra).
  assert (SB : forall p, List.In p (pverts big) -> ~ in_box box p) by (intros p Ip B; apply IB in B; cbn in Ip; repeat (destruct Ip as [<-|Ip]; [cbn in B; lra|]); destruct Ip).
  assert (EB : forall u v p, face_hit box u v p -> List.In u (pverts big) -> List.In v (pverts big) -> False).
  { intros u v p F Iu Iv. pose proof (IB p (face_in_box _ _ _ _ P F)) as B. destruct F as ((s & w & (A1 & A2 & A3) & ->) & _). unfold comb2, vadd, vscale in B. cbn [vx vy vz] in B. cbn in Iu, Iv.
    repeat (destruct Iu as [<-|Iu]; [repeat (destruct Iv as [<-|Iv]; [cbn in B; lra|]); destruct Iv|]). destruct Iu. }
  unfold ph_tris, ph_faces in It. cbn in It.
  assert (SB' : forall p, deep_in box p -> List.In p (pverts big) -> False) by (intros p D Ip; apply (SB p Ip (DB p D))).
  repeat (destruct It as [<-|It]; [unfold touched, corners in T; cbn in T; destruct T as [[T|[T|T]]|(x & [T|[T|T]])];
    [apply (SB' _ T)|apply (SB' _ T)|apply (SB' _ T)|apply (EB _ _ _ T)|apply (EB _ _ _ T)|apply (EB _ _ _ T)]; cbn; auto 10|]). destruct It.
Qed.

Theorem fast_refuted : exists src1 src2 ph ph' x, valid_ph src1 /\ valid_ph src2 /\ closed (ph_faces src1) /\ closed (ph_faces src2) /\ made_faces src1 /\ made_faces src2 /\
  zIntersectPH3DBREP src1 src2 = Some ph /\ zIntersectPH3DBREPFast src1 src2 = Some (Some ph') /\ on_tris (ph_tris ph) x /\ ~ on_tris (ph_tris ph') x.
Proof.
  pose proof zTOL_small as ZS. pose proof zTOL_pos as ZP. destruct sqrt3 as (P3 & Q3 & S3).
  assert (I3 : 1 / 2 < / sqrt 3 < 1) by (split; [replace (1 / 2) with (/ 2) by lra; apply Rinv_lt_contravar; nra|rewrite <- Rinv_1; apply Rinv_lt_contravar; nra]).
  destruct (ph_intersect big tet big_valid tet_valid big_apart tet_apart (made_unit _ big_made) (made_unit _ tet_made)) as (ph & ts1 & ts2 & ts2' & E & V & T & C1 & C2 & F).
  destruct (fast big tet big_valid tet_valid ltac:(discriminate) ltac:(discriminate) big_apart tet_apart (made_unit _ big_made) (made_unit _ tet_made) big_made tet_made) as (_ & K).
  destruct (K not_apart) as (box & k1 & k2 & ph' & us1 & us2 & us2' & CB & P1 & P2 & E' & V' & T' & D1 & D2 & G).
  exists big, tet, ph, ph', (V3 (1 / 8) (1 / 8) (1 / 4)). split; [exact big_valid|]. split; [exact tet_valid|]. split; [exact big_closed|]. split; [exact tet_closed|]. split; [exact big_made|]. split; [exact tet_made|].
  split; [assumption|]. split; [assumption|]. split.
  - assert (H : on_tris ts1 (V3 (1 / 8) (1 / 8) (1 / 4))).
    { apply C1.
      - exists (V3 5 5 (1 / 4), V3 (-15) 5 (1 / 4), V3 5 (-15) (1 / 4)). split; [now left|]. unfold in_tri, in_triangle. exists (41 / 80), (39 / 160), (39 / 160). split; [unfold weights3; lra|]. apply vec3_ext; unfold comb3, comb2, vadd, vscale; cbn; field.
      - intros o n I. unfold ph_planes in I. cbn in I. repeat (destruct I as [I|I]; [injection I as <- <-; unfold height_over, dot, vsub, vpos; cbn; nra|]). destruct I. }
    destruct H as (t & It & H). exists t. split; [|assumption]. rewrite T. apply in_or_app. now left.
  - intros (t & It & H). rewrite T' in It.
    assert (PB : proper box).
    { pose proof (common (pverts big) (pverts tet) ltac:(discriminate) ltac:(discriminate)) as Z. destruct (zIntersectPH3DBox (pverts big) (pverts tet)) as [b'|] eqn:EB; [|exfalso; apply not_apart, Z].
      destruct Z as (PB & CB' & _).
      assert (SAME : forall p, in_box box p <-> in_box b' p) by (intros p; rewrite (CB p), (CB' p); reflexivity).
      assert (IM : in_box box (bmin b') /\ in_box box (bmax b')) by (split; apply SAME; unfold proper, in_box in *; lra). unfold proper, in_box in *. lra. }
    assert (k1 = []) as -> by (apply (picked_none _ _ _ P1); intros a Ia; apply (big_untouched box a CB PB Ia)).
    assert (us1 = []) as -> by (destruct us1 as [|s us1]; [reflexivity|]; destruct D1 as (_ & _ & D1); destruct (D1 s (or_introl eq_refl)) as (w & [] & _)). cbn in It.
    destruct (forall2_in_r _ _ _ _ G It) as (s & Is & CL). destruct D2 as (D2 & _).
    destruct t as [[a b] c]. destruct s as [[a' b'] c']. destruct H as (w0 & w1 & w2 & W & HX).
    specialize (D2 (comb3 w0 w1 w2 a' b' c')). destruct D2 as ((u & Iu & Hu) & _); [exists (a', b', c'); split; [assumption|]; exists w0, w1, w2; auto|].
    apply (picked_incl _ _ _ P2) in Iu. destruct Iu as (Iu & _).
    set (y := comb3 w0 w1 w2 a' b' c') in *.
    assert (CY : close_to (3 * zTOL) y (V3 (1 / 8) (1 / 8) (1 / 4))).
    { rewrite HX. pose proof (CL 0%nat ltac:(lia)) as (A0 & B0 & C0). pose proof (CL 1%nat ltac:(lia)) as (A1 & B1 & C3). pose proof (CL 2%nat ltac:(lia)) as (A2 & B2 & C4). cbn [get3] in *.
      apply Rabs_def2 in A0. apply Rabs_def2 in A1. apply Rabs_def2 in A2. apply Rabs_def2 in B0. apply Rabs_def2 in B1. apply Rabs_def2 in B2. apply Rabs_def2 in C0. apply Rabs_def2 in C3. apply Rabs_def2 in C4.
      destruct W as (W0 & W1 & W2 & W3). 
      assert (LIM : forall a0 a1 a2 b0 b1 b2, a0 - b0 < zTOL /\ - zTOL < a0 - b0 -> a1 - b1 < zTOL /\ - zTOL < a1 - b1 -> a2 - b2 < zTOL /\ - zTOL < a2 - b2 -> Rabs (w0 * b0 + w1 * b1 + w2 * b2 - (w0 * a0 + w1 * a1 + w2 * a2)) < 3 * zTOL).
      { intros a0 a1 a2 b0 b1 b2 (L0 & R0) (L1 & R1) (L2 & R2). apply Rabs_def1; nra. }
      unfold close_to, y, comb3, comb2, vadd, vscale. cbn [vx vy vz]. split; [|split]; apply LIM; assumption. }
    clearbody y. destruct CY as (Y0 & Y1 & Y2). cbn [vx vy vz] in Y0, Y1, Y2. apply Rabs_def2 in Y0. apply Rabs_def2 in Y1. apply Rabs_def2 in Y2.
    unfold ph_tris, ph_faces in Iu. cbn in Iu.
    repeat (destruct Iu as [<-|Iu]; [unfold corners, in_tri in Hu; cbn in Hu; destruct Hu as (x0 & x1 & x2 & WX & ->); unfold comb3, comb2, vadd, vscale, weights3 in *; cbn [vx vy vz] in *; lra|]). destruct Iu.
Qed.
