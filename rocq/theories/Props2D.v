(** C05 (2D part) and C18. *)
From Verif Require Import Base Spec ModelVec Model2D Facts2D.
Open Scope R_scope.

Theorem C05_2d_adj_det :
  (forall m, mmul2 (zMat2DAdj m) m = M2 (mdet2 m) 0 0 (mdet2 m) /\ mmul2 m (zMat2DAdj m) = M2 (mdet2 m) 0 0 (mdet2 m)) /\
  (forall a b, zMat2DDet a = mdet2 a /\ zMat2DDet (mmul2 a b) = zMat2DDet a * zMat2DDet b).
Proof. exact (conj adj2 (fun a b => conj eq_refl (mdet2_mmul2 a b))). Qed.
Print Assumptions C05_2d_adj_det.
Theorem C05_2d_inv : forall m, ~ Rabs (mdet2 m) < zTOL ->
  exists im, zMat2DInv m = Some im /\ mmul2 m im = mid2 /\ mmul2 im m = mid2.
Proof. exact inv2_some. Qed.
Print Assumptions C05_2d_inv.
Theorem C05_2d_solve_vec : forall m v, ~ Rabs (mdet2 m) < zTOL ->
  exists x, zMulInvMat2DVec2D m v = Some x /\ mvec2 m x = v /\ forall y, mvec2 m y = v -> y = x.
Proof. exact solve2. Qed.
Print Assumptions C05_2d_solve_vec.
Theorem C05_2d_solve_mat : forall m a, ~ Rabs (mdet2 m) < zTOL ->
  exists x, zMulInvMat2DMat2D m a = Some x /\ mmul2 m x = a /\ forall y, mmul2 m y = a -> y = x.
Proof. exact solvem2. Qed.
Print Assumptions C05_2d_solve_mat.
(** in 2D an ill-conditioned matrix is refused, so every singular one is reported *)
Theorem C05_2d_refused : forall m, Rabs (mdet2 m) < zTOL ->
  zMat2DInv m = None /\ (forall v, zMulInvMat2DVec2D m v = None) /\ (forall a, zMulInvMat2DMat2D m a = None).
Proof.
  exact (fun m H => conj (proj1 (inv2_none m) H) (conj (fun v => proj1 (solve2_none m v m H))
           (fun a => proj2 (solve2_none m v2zero a H)))).
Qed.
Print Assumptions C05_2d_refused.
Example C05_2d_ex : ~ Rabs (mdet2 (M2 2 1 (-1) 3)) < zTOL.
Proof. unfold mdet2; cbn. pose proof zTOL_small. rewrite Rabs_right; Lra.lra. Qed.
Example C05_2d_ex2 : Rabs (mdet2 (M2 1 2 2 4)) < zTOL.
Proof. unfold mdet2; cbn. replace (1 * 4 - 2 * 2) with 0 by ring. rewrite Rabs_R0. apply zTOL_pos. Qed.

(** * C18 *)
(** a coordinate and its frame act alike: rotate by the angle, then translate *)
Theorem C18_act : forall c p,
  zXform2D (zFrame2DFromCoord2D c) p = vadd2 (mvec2 (rot2 (cang2 c)) p) (cpos2 c) /\
  rotation2 (fatt2 (zFrame2DFromCoord2D c)).
Proof. exact (fun c p => conj eq_refl (rot2_rotation (cang2 c))). Qed.
Print Assumptions C18_act.
(** cascade and relative transform of coordinates are those of the frames *)
Theorem C18_correspond : forall a b,
  zFrame2DFromCoord2D (zCoord2DCascade a b) = zFrame2DCascade (zFrame2DFromCoord2D a) (zFrame2DFromCoord2D b) /\
  zFrame2DFromCoord2D (zCoord2DXform a b) = zFrame2DXform (zFrame2DFromCoord2D a) (zFrame2DFromCoord2D b).
Proof. exact (fun a b => conj (from_coord_cascade a b) (from_coord_xform a b)). Qed.
Print Assumptions C18_correspond.
(** exact group laws of coordinates (angles not wrapped) *)
Theorem C18_coord_group : forall a b c,
  zCoord2DCascade a (zCoord2DXform a b) = b /\ zCoord2DXform a (zCoord2DCascade a b) = b /\
  zCoord2DCascade (zCoord2DCascade a b) c = zCoord2DCascade a (zCoord2DCascade b c).
Proof. exact (fun a b c => conj (coord_cascade_xform a b) (conj (coord_xform_cascade a b) (coord_cascade_assoc a b c))). Qed.
Print Assumptions C18_coord_group.
(** frames: action, inverse, composition, relative frame *)
Theorem C18_frame_act : forall f g p,
  zXform2D f p = vadd2 (mvec2 (fatt2 f) p) (fpos2 f) /\
  zXform2D (zFrame2DCascade f g) p = zXform2D f (zXform2D g p) /\
  zXform2D (zFrame2DXform f g) p = zXform2DInv f (zXform2D g p).
Proof. exact (fun f g p => conj eq_refl (conj (frame2_cascade_act f g p) (frame2_xform_act f g p))). Qed.
Print Assumptions C18_frame_act.
Theorem C18_frame_inv : forall f p, rotation2 (fatt2 f) ->
  zXform2DInv f (zXform2D f p) = p /\ zXform2D f (zXform2DInv f p) = p /\
  zXform2D (zFrame2DInv f) p = zXform2DInv f p.
Proof.
  exact (fun f p H => conj (proj1 (xform2_inv f p H)) (conj (proj2 (xform2_inv f p H)) (frame2_inv_act f p H))).
Qed.
Print Assumptions C18_frame_inv.
Theorem C18_frame_closed : forall f g, rotation2 (fatt2 f) -> rotation2 (fatt2 g) ->
  rotation2 (fatt2 (zFrame2DInv f)) /\ rotation2 (fatt2 (zFrame2DCascade f g)) /\ rotation2 (fatt2 (zFrame2DXform f g)).
Proof. exact frame2_rigid. Qed.
Print Assumptions C18_frame_closed.
(** the angle of a rotation matrix recovers it, and conversely *)
Theorem C18_angle : forall m, rotation2 m -> rot2 (zMat2DAngle m) = m /\ - PI < zMat2DAngle m <= PI.
Proof. exact angle2_rot. Qed.
Print Assumptions C18_angle.
Theorem C18_roundtrip :
  (forall f, rotation2 (fatt2 f) -> zFrame2DFromCoord2D (zCoord2DFromFrame2D f) = f) /\
  (forall c, - PI < cang2 c <= PI -> zCoord2DFromFrame2D (zFrame2DFromCoord2D c) = c).
Proof. exact (conj coord_of_frame frame_of_coord). Qed.
Print Assumptions C18_roundtrip.
(** the error angle turns the second attitude into the first *)
Theorem C18_error : forall m1 m2, rotation2 m1 -> rotation2 m2 ->
  mmul2 (rot2 (zMat2DError m1 m2)) m2 = m1 /\ - PI < zMat2DError m1 m2 <= PI.
Proof. exact error2_spec. Qed.
Print Assumptions C18_error.
Theorem C18_rot : forall m t, zMat2DRot m t = mmul2 (rot2 t) m.
Proof. exact rotm2_spec. Qed.
Print Assumptions C18_rot.
Theorem C18_interdiv : forall c1 c2, zCoord2DInterDiv c1 c2 0 = c1 /\ zCoord2DInterDiv c1 c2 1 = c2.
Proof. exact coord_interdiv. Qed.
Print Assumptions C18_interdiv.
Example C18_ex : rotation2 (M2 (3/5) (4/5) (-(4/5)) (3/5)) /\ - PI < PI <= PI.
Proof. split; [split; un2; [apply mat2_ext; pcbn|]; Lra.lra|]. pose proof PI_RGT_0. Lra.lra. Qed.
