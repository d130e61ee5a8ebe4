(** Proofs about oriented boxes and their separating-axis test. *)
From Verif Require Import Base Spec SpecBox ModelBox FactsVec FactsAlg FactsMat FactsElem FactsTri FactsCentre FactsFrame FactsBox.
Open Scope R_scope.

(** ** isometries *)
Lemma iso_r m : isometry m -> mmul m (mtr m) = mid.
Proof. intros H. apply left_inv_right. exact H. Qed.
Lemma iso_dot m a b : isometry m -> dot (mvec m a) (mvec m b) = dot a b.
Proof. intros H. rewrite dot_mvec, <- mvec_mmul, H, mvec_id. reflexivity. Qed.
Lemma iso_inv_l m v : isometry m -> mvec (mtr m) (mvec m v) = v.
Proof. intros H. rewrite <- mvec_mmul, H. apply mvec_id. Qed.
Lemma iso_inv_r m v : isometry m -> mvec m (mvec (mtr m) v) = v.
Proof. intros H. rewrite <- mvec_mmul, iso_r by exact H. apply mvec_id. Qed.
Lemma iso_act_inv f p : isometry (fatt f) -> act f (zXform3DInv f p) = p.
Proof. intros H. rewrite xforminv_spec. unfold act. rewrite iso_inv_r by exact H. vring. Qed.
Lemma iso_inv_act f p : isometry (fatt f) -> zXform3DInv f (act f p) = p.
Proof.
  intros H. rewrite xforminv_spec. unfold act. replace (vsub (vadd (fpos f) (mvec (fatt f) p)) (fpos f)) with (mvec (fatt f) p) by vring.
  apply iso_inv_l, H.
Qed.
Lemma iso_dist f a b : isometry (fatt f) -> dist (act f a) (act f b) = dist a b.
Proof.
  intros H. unfold dist, norm. f_equal.
  replace (vsub (act f a) (act f b)) with (mvec (fatt f) (vsub a b)) by (unfold act; vring). apply iso_dot, H.
Qed.
Lemma iso_axes m : isometry m ->
  dot (col0 m) (col0 m) = 1 /\ dot (col1 m) (col1 m) = 1 /\ dot (col2 m) (col2 m) = 1 /\
  dot (col0 m) (col1 m) = 0 /\ dot (col1 m) (col2 m) = 0 /\ dot (col2 m) (col0 m) = 0.
Proof.
  unfold isometry. intros H. minj H. intros. spec_unfold. repeat split; lra.
Qed.
Lemma iso_cols a b c : dot a a = 1 -> dot b b = 1 -> dot c c = 1 -> dot a b = 0 -> dot b c = 0 -> dot c a = 0 -> isometry (cols3 a b c).
Proof. intros. unfold isometry. apply mat3_ext; spec_unfold; lra. Qed.
Lemma cols3_col m : cols3 (col0 m) (col1 m) (col2 m) = m.
Proof. destruct m. reflexivity. Qed.
Lemma mvec_cols m u : mvec m u = vadd (vadd (vscale (vx u) (col0 m)) (vscale (vy u) (col1 m))) (vscale (vz u) (col2 m)).
Proof. vring. Qed.

(** ** membership, closest point, inside *)
Lemma obb_local b p : isometry (fatt (bframe b)) ->
  in_obb b p <-> (let u := zXform3DInv (bframe b) p in
    Rabs (vx u) <= vx (bspan b) / 2 /\ Rabs (vy u) <= vy (bspan b) / 2 /\ Rabs (vz u) <= vz (bspan b) / 2).
Proof.
  intros H. split.
  - intros (u & A & B & C & ->). cbv zeta. rewrite iso_inv_act by exact H. auto.
  - intros K. exists (zXform3DInv (bframe b) p). rewrite iso_act_inv by exact H. cbv zeta in K. tauto.
Qed.
Lemma obb_closest b p : good_box b ->
  nearest (in_obb b) p (snd (zBox3DClosest b p)) /\ fst (zBox3DClosest b p) = dist p (snd (zBox3DClosest b p)) /\
  zBox3DDistFromPoint b p = fst (zBox3DClosest b p).
Proof.
  intros (HI & Sx & Sy & Sz). split; [|split; reflexivity].
  unfold zBox3DClosest. cbn [snd]. unfold zBox3DSpan. cbn [vnth].
  set (q := zXform3DInv (bframe b) p). assert (Eq : p = act (bframe b) q) by (symmetry; apply iso_act_inv, HI).
  destruct (clamp_spec (vx q) (- (1/2) * vx (bspan b)) (1/2 * vx (bspan b))) as [Ax Bx]; [lra|].
  destruct (clamp_spec (vy q) (- (1/2) * vy (bspan b)) (1/2 * vy (bspan b))) as [Ay By]; [lra|].
  destruct (clamp_spec (vz q) (- (1/2) * vz (bspan b)) (1/2 * vz (bspan b))) as [Az Bz]; [lra|].
  set (cx := zLimit (vx q) _ _) in *. set (cy := zLimit (vy q) _ _) in *. set (cz := zLimit (vz q) _ _) in *. clearbody cx cy cz q.
  rewrite xform_spec. split.
  - exists (V3 cx cy cz). cbn [vx vy vz]. rewrite !abs_le_iff. repeat split; lra.
  - intros x (u & Ux & Uy & Uz & ->). subst p. rewrite !iso_dist by exact HI. unfold dist. apply norm_le_of_sqr. unfold dot, vsub; pcbn.
    rewrite abs_le_iff in Ux, Uy, Uz.
    specialize (Bx (vx u)). specialize (By (vy u)). specialize (Bz (vz u)). lra.
Qed.
Lemma obb_inside b p m : isometry (fatt (bframe b)) -> zBox3DPointIsInside b p m = true <-> inside_obb b m p.
Proof.
  intros HI. unfold zBox3DPointIsInside. cbv zeta. rewrite !andb_true_iff, !negb_true_iff, !orb_false_iff, !Rleb_false.
  unfold zBox3DSpan. cbn [vnth]. set (q := zXform3DInv (bframe b) p). split.
  - intros H. exists q. rewrite !abs_lt_iff. repeat split; try lra. symmetry; apply iso_act_inv, HI.
  - intros (u & Ux & Uy & Uz & ->). unfold q. rewrite iso_inv_act by exact HI. rewrite abs_lt_iff in Ux, Uy, Uz. repeat split; lra.
Qed.
Lemma sphere_obb c r b : good_box b -> zColChkSphereBox3D c r b = true <-> exists x, in_obb b x /\ dist c x < r.
Proof.
  intros H. destruct (obb_closest b c H) as (N & D & E). unfold zColChkSphereBox3D. rewrite E, D. apply margin_test, N.
Qed.
(** ** transformation, copy, mirror, conversion *)
Lemma obb_xform b f p : in_obb (zBox3DXform b f) (act f p) <-> in_obb b p \/ exists q, in_obb b q /\ act f q = act f p.
Proof.
  assert (E : forall u, act (bframe (zBox3DXform b f)) u = act f (act (bframe b) u)).
  { intros u. unfold zBox3DXform. cbn [bframe]. rewrite xform_spec. unfold act, zBox3DCenter, zBox3DAxis, zMulMat3DVec3D; cbn [fpos fatt]. vring. }
  split.
  - intros (u & A & B & C & D). right. rewrite E in D. exists (act (bframe b) u). split; [exists u; auto|symmetry; exact D].
  - intros [H|(q & H & EQ)].
    + destruct H as (u & A & B & C & ->). exists u. rewrite E. auto.
    + rewrite <- EQ. destruct H as (u & A & B & C & ->). exists u. rewrite E. auto.
Qed.
Lemma obb_xform_set b f : rigid f ->
  (good_box b -> good_box (zBox3DXform b f)) /\
  (forall p, in_obb (zBox3DXform b f) p <-> exists q, in_obb b q /\ p = act f q) /\
  (forall p, in_obb (zBox3DXformInv b f) p <-> in_obb b (act f p)).
Proof.
  intros Hf. split; [|split].
  - intros (HI & S). split; [|exact S]. unfold zBox3DXform; cbn [bframe fatt].
    assert (E : cols3 (zMulMat3DVec3D (fatt f) (zBox3DAxis b 0)) (zMulMat3DVec3D (fatt f) (zBox3DAxis b 1))
                (zMulMat3DVec3D (fatt f) (zBox3DAxis b 2)) = mmul (fatt f) (fatt (bframe b))).
    { unfold zMulMat3DVec3D, zBox3DAxis. mring. }
    rewrite E. unfold isometry in *. rewrite mtr_mmul, <- mmul_assoc, (mmul_assoc (mtr (fatt f))), (proj1 Hf), mmul_id_l. exact HI.
  - intros p. assert (E : p = act f (zXform3DInv f p)) by (symmetry; apply frame_inv_act; exact Hf). rewrite E at 1. rewrite obb_xform. split.
    + intros [H|(q & H & EQ)]; [exists (zXform3DInv f p)|exists q]; rewrite ?EQ, <- ?E; auto.
    + intros (q & H & ->). right. exists q. rewrite <- E. auto.
  - intros p.
    assert (E : forall u, act (bframe (zBox3DXformInv b f)) u = zXform3DInv f (act (bframe b) u)).
    { intros u. unfold zBox3DXformInv. cbn [bframe]. rewrite !xforminv_spec, !zmtv_spec. unfold act, zBox3DCenter, zBox3DAxis; cbn [fpos fatt]. vring. }
    split; intros (u & A & B & C & D); exists u; repeat (split; [assumption|]).
    + rewrite E in D. rewrite D. apply frame_inv_act, Hf.
    + rewrite E, <- D. symmetry. apply frame_inv_act, Hf.
Qed.
Lemma unit_not_tiny v : dot v v = 1 -> zVec3DIsTiny v = false.
Proof.
  intros H. apply zVec3DIsTiny_false. apply long_not_negligible. rewrite (proj1 (norm_unit v) H). pose proof zTOL_small. lra.
Qed.
Lemma unit_normalizeNC v : dot v v = 1 -> snd (zVec3DNormalizeNC v) = v.
Proof.
  intros H. unfold zVec3DNormalizeNC. cbn [snd].
  assert (E : zVec3DNorm v = 1). { change (norm v = 1). apply norm_unit, H. }
  rewrite E. zvg. apply vec3_ext; unfold vscale; pcbn; field.
Qed.
Lemma obb_create c ax ay az d w h : isometry (cols3 ax ay az) ->
  zBox3DCreate c ax ay az d w h = Some (BX (F3 c (cols3 ax ay az)) (V3 (Rabs d) (Rabs w) (Rabs h))).
Proof.
  intros H. apply iso_axes in H.
  replace (col0 (cols3 ax ay az)) with ax in H by (destruct ax; reflexivity).
  replace (col1 (cols3 ax ay az)) with ay in H by (destruct ay; reflexivity).
  replace (col2 (cols3 ax ay az)) with az in H by (destruct az; reflexivity).
  destruct H as (A & B & C & _). unfold zBox3DCreate. rewrite !unit_not_tiny, !unit_normalizeNC by assumption. reflexivity.
Qed.
Lemma obb_copy b : good_box b -> zBox3DCopy b = Some b.
Proof.
  intros (HI & Sx & Sy & Sz). unfold zBox3DCopy. rewrite obb_create.
  - unfold zBox3DAxis, zBox3DCenter. rewrite cols3_col. rewrite !Rabs_right by lra. destruct b as [[f1 f2] [s1 s2 s3]]. reflexivity.
  - unfold zBox3DAxis. rewrite cols3_col. exact HI.
Qed.
Lemma obb_mirror b axis : good_box b -> exists b', zBox3DMirror b axis = Some b' /\ good_box b' /\
  forall p, in_obb b' p <-> in_obb b (mirror axis p).
Proof.
  intros H. unfold zBox3DMirror. rewrite obb_copy by exact H. eexists. split; [reflexivity|]. split.
  - destruct H as (HI & S). split; [|exact S]. cbn [bframe fatt]. apply iso_axes in HI. unfold zBox3DAxis.
    apply iso_cols; destruct axis as [|[|a]]; unfold negcomp; spec_unfold; lra.
  - intros p. unfold in_obb. cbn [bframe bspan].
    assert (E : forall u, act (F3 (negcomp axis (zBox3DCenter b)) (cols3 (negcomp axis (zBox3DAxis b 0)) (negcomp axis (zBox3DAxis b 1)) (negcomp axis (zBox3DAxis b 2)))) u = mirror axis (act (bframe b) u)).
    { intros u. unfold act, mirror, negcomp, zBox3DCenter, zBox3DAxis; cbn [fpos fatt]. destruct axis as [|[|a]]; vring. }
    assert (M : forall q, mirror axis (mirror axis q) = q).
    { intros q. unfold mirror. destruct axis as [|[|a]]; apply vec3_ext; cbn; ring. }
    split; intros (u & A & B & C & D); exists u; repeat (split; [assumption|]).
    + rewrite E in D. rewrite D. apply M.
    + rewrite E, <- D. symmetry; apply M.
Qed.
Lemma obb_of_aab b : proper b -> good_box (zAABox3DToBox3D b) /\ forall p, in_obb (zAABox3DToBox3D b) p <-> in_box b p.
Proof.
  intros (Hx & Hy & Hz). split.
  - unfold zAABox3DToBox3D, good_box; cbn [bframe bspan fatt]. split; [unfold isometry; mring|]. unfold zVec3DSub; pcbn. lra.
  - intros p. unfold in_obb, zAABox3DToBox3D, in_box; cbn [bframe bspan]. unfold zVec3DMid, zVec3DSub, act; cbn [fpos fatt vx vy vz]. split.
    + intros (u & A & B & C & ->). rewrite abs_le_iff in A, B, C. spec_unfold. lra.
    + intros (A & B & C). exists (V3 (vx p - 0.5 * (vx (bmax b) + vx (bmin b))) (vy p - 0.5 * (vy (bmax b) + vy (bmin b))) (vz p - 0.5 * (vz (bmax b) + vz (bmin b)))).
      rewrite !abs_le_iff. cbn [vx vy vz]. repeat split; try lra. vring.
Qed.
(** the axis-aligned box of an oriented box *)
Lemma fold_enlarge l : forall b0, proper b0 -> exists b1, fold_left enlarge0 l (Some b0) = Some b1 /\ proper b1 /\
  (forall p, in_box b0 p -> in_box b1 p) /\ (forall v, In v l -> in_box b1 v) /\
  (forall b', (forall p, in_box b0 p -> in_box b' p) -> (forall v, In v l -> in_box b' v) -> forall p, in_box b1 p -> in_box b' p).
Proof.
  induction l as [|v l IH]; intros b0 H0; cbn [fold_left].
  - exists b0. split; [reflexivity|]. split; [exact H0|]. split; [auto|]. split; [intros v []|]. auto.
  - cbn [enlarge0]. destruct (aab_enlarge b0 v H0) as (P & I & S & L). destruct (IH _ P) as (b1 & E & P1 & S1 & I1 & L1).
    exists b1. split; [exact E|]. split; [exact P1|]. split; [auto|]. split; [intros u [<-|Hu]; auto|].
    intros b' Hb Hv. apply L1; [|intros; apply Hv; right; auto]. apply L; [apply Hv; left; auto|auto].
Qed.
Lemma vert_corner b i : zBox3DVert b i = act (bframe b) (zAABox3DVert (B3 (vscale (-(1/2)) (bspan b)) (vscale (1/2) (bspan b))) i).
Proof. unfold zBox3DVert. rewrite xform_spec. reflexivity. Qed.
(** an affine function on a segment is bounded by its values at the ends *)
Lemma affine_end (k a mn mx x : R) : mn <= x <= mx -> exists y, (y = mn \/ y = mx) /\ k * x + a <= k * y + a.
Proof. intros H. destruct (Rle_dec 0 k); [exists mx|exists mn]; (split; [auto|nra]). Qed.
Lemma box_vertex_max n b p : proper b -> in_box b p -> exists q, corner b q /\ dot n p <= dot n q.
Proof.
  intros H (Px & Py & Pz).
  destruct (affine_end (vx n) 0 _ _ _ Px) as (x & Cx & Lx). destruct (affine_end (vy n) 0 _ _ _ Py) as (y & Cy & Ly).
  destruct (affine_end (vz n) 0 _ _ _ Pz) as (z & Cz & Lz). exists (V3 x y z). split; [unfold corner; cbn; auto|].
  unfold dot; pcbn. lra.
Qed.
Lemma obb_vertex_max n b p : good_box b -> in_obb b p -> exists i, (i < 8)%nat /\ dot n p <= dot n (zBox3DVert b i).
Proof.
  intros (HI & Sx & Sy & Sz) (u & A & B & C & ->).
  set (bb := B3 (vscale (-(1/2)) (bspan b)) (vscale (1/2) (bspan b))).
  rewrite abs_le_iff in A, B, C.
  destruct (box_vertex_max (mvec (mtr (fatt (bframe b))) n) bb u) as (q & Cq & Hq).
  { unfold bb, proper; cbn [bmin bmax]. unfold vscale; pcbn. lra. }
  { unfold bb, in_box; cbn [bmin bmax]. unfold vscale; pcbn. lra. }
  destruct (proj2 (aab_vert bb) q Cq) as (i & Hi & Ei). exists i. split; [exact Hi|]. rewrite vert_corner. fold bb. rewrite Ei.
  unfold act. rewrite !dot_add_r. rewrite (dot_comm n (mvec _ u)), (dot_comm n (mvec _ q)), !dot_mvec, (dot_comm u), (dot_comm q). lra.
Qed.
Lemma vert_in_obb b i : good_box b -> in_obb b (zBox3DVert b i).
Proof.
  intros (HI & Sx & Sy & Sz). rewrite vert_corner. eexists. split; [|split; [|split; [|reflexivity]]];
  unfold zAABox3DVert; cbn [bmin bmax]; unfold vscale; pcbn; rewrite abs_le_iff;
  repeat match goal with |- context [if ?c then _ else _] => destruct c end; lra.
Qed.
Lemma obb_to_aab b : good_box b -> exists bb, zBox3DToAABox3D b = Some bb /\ proper bb /\
  (forall p, in_obb b p -> in_box bb p) /\
  (forall b', (forall p, in_obb b p -> in_box b' p) -> forall p, in_box bb p -> in_box b' p).
Proof.
  intros H.
  assert (E : zBox3DToAABox3D b = fold_left enlarge0 (map (zBox3DVert b) [1;2;3;4;5;6;7]%nat) (Some (B3 (zBox3DVert b 0) (zBox3DVert b 0)))) by reflexivity.
  set (v0 := zBox3DVert b 0) in *.
  assert (P0 : proper (B3 v0 v0)) by (unfold proper; cbn [bmin bmax]; lra).
  destruct (fold_enlarge (map (zBox3DVert b) [1;2;3;4;5;6;7]%nat) _ P0) as (b1 & E1 & P1 & S1 & I1 & L1).
  exists b1. split; [rewrite E; exact E1|]. split; [exact P1|].
  assert (IV : forall i, (i < 8)%nat -> in_box b1 (zBox3DVert b i)).
  { intros i Hi. destruct i as [|i]; [apply S1; unfold in_box; cbn [bmin bmax]; fold v0; lra|].
    apply I1. apply in_map. do 7 (destruct i as [|i]; [cbn; tauto|]). lia. }
  split.
  - intros p Hp. 
    destruct (obb_vertex_max (V3 1 0 0) b p H Hp) as (i1 & J1 & K1). destruct (obb_vertex_max (V3 (-1) 0 0) b p H Hp) as (i2 & J2 & K2).
    destruct (obb_vertex_max (V3 0 1 0) b p H Hp) as (i3 & J3 & K3). destruct (obb_vertex_max (V3 0 (-1) 0) b p H Hp) as (i4 & J4 & K4).
    destruct (obb_vertex_max (V3 0 0 1) b p H Hp) as (i5 & J5 & K5). destruct (obb_vertex_max (V3 0 0 (-1)) b p H Hp) as (i6 & J6 & K6).
    apply IV in J1, J2, J3, J4, J5, J6. unfold dot in *; cbn [vx vy vz] in *. unfold in_box in *. lra.
  - intros b' Hb. apply L1.
    + intros p Hp. assert (p = v0). { unfold in_box in Hp; cbn [bmin bmax] in Hp. apply vec3_ext; lra. } subst p. apply Hb, vert_in_obb, H.
    + intros v Hv. apply in_map_iff in Hv. destruct Hv as (i & <- & _). apply Hb, vert_in_obb, H.
Qed.

(** ** separating axes *)
(** half width of a box seen along a direction *)
Definition halfwidth (b : box3) (n : vec3) : R :=
  1/2 * (Rabs (dot (zBox3DAxis b 0) n) * zBox3DSpan b 0 + Rabs (dot (zBox3DAxis b 1) n) * zBox3DSpan b 1
       + Rabs (dot (zBox3DAxis b 2) n) * zBox3DSpan b 2).
Lemma dot_act b n u : dot n (act (bframe b) u) =
  dot n (zBox3DCenter b) + (vx u * dot (zBox3DAxis b 0) n + vy u * dot (zBox3DAxis b 1) n + vz u * dot (zBox3DAxis b 2) n).
Proof. unfold act, zBox3DCenter, zBox3DAxis. spec_unfold. ring. Qed.
Lemma abs_prod_le a b c : Rabs a <= c -> - (Rabs b * c) <= a * b <= Rabs b * c.
Proof.
  intros H. apply abs_le_iff. rewrite Rabs_mult. pose proof (Rabs_pos b). rewrite (Rmult_comm (Rabs b)). apply Rmult_le_compat_r; auto.
Qed.
Lemma obb_width b n p : in_obb b p -> Rabs (dot n p - dot n (zBox3DCenter b)) <= halfwidth b n.
Proof.
  intros (u & A & B & C & ->). rewrite dot_act. unfold halfwidth, zBox3DSpan; cbn [vnth].
  set (d0 := dot (zBox3DAxis b 0) n). set (d1 := dot (zBox3DAxis b 1) n). set (d2 := dot (zBox3DAxis b 2) n).
  pose proof (abs_prod_le _ d0 _ A). pose proof (abs_prod_le _ d1 _ B). pose proof (abs_prod_le _ d2 _ C).
  apply abs_le_iff. lra.
Qed.
Lemma abs_prod_lt a b c : Rabs a < c -> b <> 0 -> - (Rabs b * c) < a * b < Rabs b * c.
Proof.
  intros H Hb. apply abs_lt_iff. rewrite Rabs_mult. pose proof (Rabs_pos_lt b Hb). rewrite (Rmult_comm (Rabs b)). apply Rmult_lt_compat_r; auto.
Qed.
Lemma obb_width_strict b n p : isometry (fatt (bframe b)) -> n <> v3zero -> inside_obb b 0 p ->
  Rabs (dot n p - dot n (zBox3DCenter b)) < halfwidth b n.
Proof.
  intros HI Hn (u & A & B & C & ->). rewrite dot_act. unfold halfwidth, zBox3DSpan; cbn [vnth]. rewrite Rplus_0_r in A, B, C.
  set (d0 := dot (zBox3DAxis b 0) n). set (d1 := dot (zBox3DAxis b 1) n). set (d2 := dot (zBox3DAxis b 2) n).
  pose proof (abs_prod_le _ d0 _ (Rlt_le _ _ A)). pose proof (abs_prod_le _ d1 _ (Rlt_le _ _ B)). pose proof (abs_prod_le _ d2 _ (Rlt_le _ _ C)).
  assert (K : d0 <> 0 \/ d1 <> 0 \/ d2 <> 0).
  { destruct (Req_EM_T d0 0) as [E0|]; auto. destruct (Req_EM_T d1 0) as [E1|]; auto. destruct (Req_EM_T d2 0) as [E2|]; auto.
    exfalso. apply Hn. rewrite <- (iso_inv_r _ n HI). replace (mvec (mtr (fatt (bframe b))) n) with v3zero; [apply mvec_zero|].
    symmetry. apply vec3_ext; unfold d0, d1, d2, zBox3DAxis in *; spec_unfold; lra. }
  apply abs_lt_iff. destruct K as [K|[K|K]];
  [pose proof (abs_prod_lt _ _ _ A K)|pose proof (abs_prod_lt _ _ _ B K)|pose proof (abs_prod_lt _ _ _ C K)]; lra.
Qed.
Lemma axis_width b i : isometry (fatt (bframe b)) -> (i < 3)%nat -> halfwidth b (zBox3DAxis b i) = 1/2 * zBox3DSpan b i.
Proof.
  intros H Hi. apply iso_axes in H. destruct H as (A & B & C & D & E & F). unfold halfwidth.
  do 3 (destruct i as [|i]; [unfold zBox3DAxis, zBox3DSpan; cbn [vnth];
    rewrite ?A, ?B, ?C, ?D, ?E, ?F, ?(dot_comm (col1 _) (col0 _)), ?(dot_comm (col2 _) (col1 _)), ?(dot_comm (col0 _) (col2 _)), ?D, ?E, ?F, ?Rabs_R0, ?Rabs_R1; ring|]). lia.
Qed.
Lemma along_iff b1 i b2 l : isometry (fatt (bframe b1)) -> (i < 3)%nat ->
  _zColChkBox3DAlong b1 i b2 l = true <-> Rabs (dot l (zBox3DAxis b1 i)) < halfwidth b2 (zBox3DAxis b1 i) + halfwidth b1 (zBox3DAxis b1 i).
Proof.
  intros H Hi. unfold _zColChkBox3DAlong. cbv zeta. rewrite Rltb_true, (axis_width b1 i H Hi). unfold halfwidth. zvg.
  split; intros K; (eapply Rlt_le_trans; [exact K|]); apply Req_le; field.
Qed.
Lemma cross_axis_zero b i n v : (i < 3)%nat -> n = cross (zBox3DAxis b i) v -> dot (zBox3DAxis b i) n = 0.
Proof. intros _ ->. spec_unfold. ring. Qed.
Lemma halfwidth_scale b k n : halfwidth b (vscale k n) = Rabs k * halfwidth b n.
Proof. unfold halfwidth. rewrite !dot_scale_r, !Rabs_mult. ring. Qed.
Lemma drop_axis b i n : (i < 3)%nat -> dot (zBox3DAxis b i) n = 0 ->
  halfwidth b n = 1/2 * (Rabs (dot (zBox3DAxis b (Nat.modulo (i + 1) 3)) n) * zBox3DSpan b (Nat.modulo (i + 1) 3)
     + Rabs (dot (zBox3DAxis b (Nat.modulo (i + 2) 3)) n) * zBox3DSpan b (Nat.modulo (i + 2) 3)).
Proof.
  intros Hi H. unfold halfwidth. do 3 (destruct i as [|i]; [cbn [Nat.add Nat.modulo Nat.divmod Nat.sub snd]; rewrite H, Rabs_R0; ring|]). lia.
Qed.
Lemma perp_spec b1 i b2 j l : (i < 3)%nat -> (j < 3)%nat ->
  _zColChkBox3DPerp b1 i b2 j l = true \/
  exists n, dot n n = 1 /\ (_zColChkBox3DPerp b1 i b2 j l = true <-> Rabs (dot l n) < halfwidth b1 n + halfwidth b2 n).
Proof.
  intros Hi Hj. unfold _zColChkBox3DPerp. cbv zeta. destruct (zVec3DIsTiny _) eqn:T; [left; reflexivity|right].
  set (c := zVec3DOuterProd (zBox3DAxis b1 i) (zBox3DAxis b2 j)) in *.
  apply zVec3DIsTiny_false in T. destruct (normalize3_ok c c T) as (n & En & Nn & Ec). unfold zVec3DNormalizeDRC. rewrite En. cbn [snd].
  exists n. split; [apply norm_unit, Nn|]. pose proof (nonneg_norm_pos _ T) as Hp.
  assert (E1 : dot (zBox3DAxis b1 i) n = 0).
  { apply (Rmult_eq_reg_l (norm c)); [|lra]. rewrite Rmult_0_r, <- dot_scale_r, Ec. unfold c. zvg. spec_unfold. ring. }
  assert (E2 : dot (zBox3DAxis b2 j) n = 0).
  { apply (Rmult_eq_reg_l (norm c)); [|lra]. rewrite Rmult_0_r, <- dot_scale_r, Ec. unfold c. zvg. spec_unfold. ring. }
  rewrite Rltb_true, (drop_axis b1 i n Hi E1), (drop_axis b2 j n Hj E2). zvg.
  split; intros K; (eapply Rlt_le_trans; [exact K|]); apply Req_le; field.
Qed.
(** the list of the fifteen tests *)
Definition sat_dirs (b1 b2 : box3) : list bool :=
  let l := zVec3DSub (zBox3DCenter b1) (zBox3DCenter b2) in
  [_zColChkBox3DAlong b1 0 b2 l; _zColChkBox3DAlong b1 1 b2 l; _zColChkBox3DAlong b1 2 b2 l;
   _zColChkBox3DAlong b2 0 b1 l; _zColChkBox3DAlong b2 1 b1 l; _zColChkBox3DAlong b2 2 b1 l;
   _zColChkBox3DPerp b1 0 b2 0 l; _zColChkBox3DPerp b1 1 b2 0 l; _zColChkBox3DPerp b1 2 b2 0 l;
   _zColChkBox3DPerp b1 0 b2 1 l; _zColChkBox3DPerp b1 1 b2 1 l; _zColChkBox3DPerp b1 2 b2 1 l;
   _zColChkBox3DPerp b1 0 b2 2 l; _zColChkBox3DPerp b1 1 b2 2 l; _zColChkBox3DPerp b1 2 b2 2 l].
Lemma sat_all b1 b2 : zColChkBox3D b1 b2 = forallb (fun b => b) (sat_dirs b1 b2).
Proof.
  unfold zColChkBox3D, sat_dirs. cbv zeta. cbn [forallb].
  repeat match goal with |- context [_zColChkBox3DAlong ?a ?b ?c ?d] => destruct (_zColChkBox3DAlong a b c d); cbn [negb orb andb]; try reflexivity end;
  repeat match goal with |- context [_zColChkBox3DPerp ?a ?b ?c ?d ?e] => destruct (_zColChkBox3DPerp a b c d e); cbn [negb orb andb]; try reflexivity end.
Qed.
(** every test is passed, or compares along a unit direction *)
Lemma sat_tests b1 b2 : isometry (fatt (bframe b1)) -> isometry (fatt (bframe b2)) ->
  Forall (fun t => t = true \/ exists n, dot n n = 1 /\
    (t = true <-> Rabs (dot (vsub (zBox3DCenter b1) (zBox3DCenter b2)) n) < halfwidth b1 n + halfwidth b2 n)) (sat_dirs b1 b2).
Proof.
  intros H1 H2. unfold sat_dirs. cbv zeta. change (zVec3DSub (zBox3DCenter b1) (zBox3DCenter b2)) with (vsub (zBox3DCenter b1) (zBox3DCenter b2)).
  set (l := vsub _ _).
  assert (U : forall b i, isometry (fatt (bframe b)) -> dot (zBox3DAxis b i) (zBox3DAxis b i) = 1).
  { intros b i H. apply iso_axes in H. destruct i as [|[|i]]; cbn [zBox3DAxis]; tauto. }
  assert (A1 : forall i, (i < 3)%nat -> exists n, dot n n = 1 /\ (_zColChkBox3DAlong b1 i b2 l = true <-> Rabs (dot l n) < halfwidth b1 n + halfwidth b2 n)).
  { intros i Hi. exists (zBox3DAxis b1 i). split; [apply U, H1|]. rewrite along_iff by assumption. rewrite Rplus_comm. tauto. }
  assert (A2 : forall i, (i < 3)%nat -> exists n, dot n n = 1 /\ (_zColChkBox3DAlong b2 i b1 l = true <-> Rabs (dot l n) < halfwidth b1 n + halfwidth b2 n)).
  { intros i Hi. exists (zBox3DAxis b2 i). split; [apply U, H2|]. rewrite along_iff by assumption. tauto. }
  repeat apply Forall_cons; try apply Forall_nil; try (right; apply A1; lia); try (right; apply A2; lia); apply perp_spec; lia.
Qed.
Lemma sat_no_miss b1 b2 p : isometry (fatt (bframe b1)) -> isometry (fatt (bframe b2)) ->
  (in_obb b1 p /\ inside_obb b2 0 p) \/ (inside_obb b1 0 p /\ in_obb b2 p) -> zColChkBox3D b1 b2 = true.
Proof.
  intros H1 H2 Hp. rewrite sat_all. apply forallb_forall. pose proof (sat_tests b1 b2 H1 H2) as T. rewrite Forall_forall in T.
  intros t Ht. destruct (T t Ht) as [E|(n & Nn & E)]; [exact E|]. apply E. clear T Ht E t.
  assert (Hn : n <> v3zero) by (intros ->; revert Nn; spec_unfold; lra).
  rewrite (dot_comm _ n), dot_sub_r.
  destruct Hp as [[P Q]|[P Q]].
  - apply (obb_width b1 n) in P. apply (obb_width_strict b2 n p H2 Hn) in Q. rewrite abs_le_iff in P. rewrite abs_lt_iff in *. lra.
  - apply (obb_width b2 n) in Q. apply (obb_width_strict b1 n p H1 Hn) in P. rewrite abs_le_iff in Q. rewrite abs_lt_iff in *. lra.
Qed.
Lemma sat_separated b1 b2 : isometry (fatt (bframe b1)) -> isometry (fatt (bframe b2)) ->
  zColChkBox3D b1 b2 = false -> separated (in_obb b1) (in_obb b2).
Proof.
  intros H1 H2 E. rewrite sat_all in E. pose proof (sat_tests b1 b2 H1 H2) as T.
  assert (X : exists t, In t (sat_dirs b1 b2) /\ t = false).
  { revert E. clear. induction (sat_dirs b1 b2) as [|t l IH]; cbn; [discriminate|]. destruct t; cbn; intros E.
    - destruct (IH E) as (t & ? & ?). eauto.
    - exists false. auto. }
  destruct X as (t & Ht & ->). rewrite Forall_forall in T. destruct (T _ Ht) as [?|(n & Nn & K)]; [discriminate|].
  assert (L : halfwidth b1 n + halfwidth b2 n <= Rabs (dot (vsub (zBox3DCenter b1) (zBox3DCenter b2)) n)).
  { apply Rnot_lt_le. intros C. apply K in C. discriminate. }
  clear T Ht K E. rewrite dot_comm, dot_sub_r in L.
  set (c1 := dot n (zBox3DCenter b1)) in *. set (c2 := dot n (zBox3DCenter b2)) in *.
  destruct (Rle_dec 0 (c1 - c2)) as [S|S].
  - rewrite Rabs_right in L by lra. exists n, (c1 - halfwidth b1 n). split; [apply norm_unit, Nn|]. split; intros p Hp.
    + apply (obb_width b1 n) in Hp. apply abs_le_iff in Hp. fold c1 in Hp. lra.
    + apply (obb_width b2 n) in Hp. apply abs_le_iff in Hp. fold c2 in Hp. lra.
  - rewrite Rabs_left in L by lra. exists (vneg n), (- (c1 + halfwidth b1 n)). split; [apply norm_unit; rewrite <- Nn; spec_unfold; ring|].
    assert (EN : forall p, dot (vneg n) p = - dot n p) by (intros; spec_unfold; ring).
    split; intros p Hp; rewrite EN.
    + apply (obb_width b1 n) in Hp. apply abs_le_iff in Hp. fold c1 in Hp. lra.
    + apply (obb_width b2 n) in Hp. apply abs_le_iff in Hp. fold c2 in Hp. lra.
Qed.
