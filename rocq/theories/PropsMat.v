(** Properties C04-C09, C13, C20: rotations of vectors, inverses, attitude
    representations, symmetric eigen-decomposition. *)
From Verif Require Import FactsMat2.
Open Scope R_scope.

(** * C04 *)

(** rotation by an angle-axis vector is a proper rotation of space, fixing the axis *)
Theorem C04_rot_isometry : forall aa v w,
  exists v' w', zVec3DRot v aa = Some v' /\ zVec3DRot w aa = Some w' /\
    dot v' w' = dot v w /\ norm v' = norm v /\
    zVec3DRot (cross v w) aa = Some (cross v' w') /\
    zVec3DRot aa aa = Some aa.
Proof. exact rot3_isometry. Qed.
Print Assumptions C04_rot_isometry.
(** it is Rodrigues' rotation about the axis by the length *)
Theorem C04_rot_rodrigues : forall v aa, ~ negligible aa ->
  exists n, norm n = 1 /\ vscale (norm aa) n = aa /\ zVec3DRot v aa = Some (rodrigues n (norm aa) v).
Proof. exact rot3_spec. Qed.
Print Assumptions C04_rot_rodrigues.
(** it equals the product with the attitude matrix *)
Theorem C04_rot_matrix : forall v aa, zVec3DRot v aa = Some (mvec (zMat3DFromAA aa) v).
Proof. exact fromaa_rot. Qed.
Print Assumptions C04_rot_matrix.
(** angles about one axis add up *)
Theorem C04_rot_add : forall n a b v, norm n = 1 -> 2 * zTOL <= a -> 2 * zTOL <= b ->
  exists w, zVec3DRot v (vscale a n) = Some w /\
    zVec3DRot w (vscale b n) = zVec3DRot v (vscale (a + b) n).
Proof. exact rot3_add. Qed.
Print Assumptions C04_rot_add.
Example C04_ex : zVec3DRot (V3 1 0 0) (V3 0 0 PI) = Some (V3 (-1) 0 0).
Proof. exact rot3_example. Qed.

(** * C05 (3D part; the 2D part is in Props2D.v) *)

Theorem C05_adj : forall m,
  mmul (zMat3DAdj m) m = mscale (mdet m) mid /\ mmul m (zMat3DAdj m) = mscale (mdet m) mid.
Proof. exact adj_full. Qed.
Print Assumptions C05_adj.
Theorem C05_det : forall a b, zMat3DDet a = mdet a /\ zMat3DDet (mmul a b) = zMat3DDet a * zMat3DDet b.
Proof. exact det3_correct. Qed.
Print Assumptions C05_det.
Theorem C05_inv : forall m old, well_conditioned m ->
  exists im, zMat3DInv m old = (true, Computed im) /\ mmul m im = mid /\ mmul im m = mid.
Proof. exact inv_complete. Qed.
Print Assumptions C05_inv.
Theorem C05_solve_vec : forall m v old, well_conditioned m ->
  exists x, zMulInvMat3DVec3D m v old = (true, Computed x) /\ mvec m x = v /\ forall y, mvec m y = v -> y = x.
Proof. exact mulinv_v_complete. Qed.
Print Assumptions C05_solve_vec.
Theorem C05_solve_mat : forall m a old, well_conditioned m ->
  exists x, zMulInvMat3DMat3D m a old = (true, Computed x) /\ mmul m x = a /\ forall y, mmul m y = a -> y = x.
Proof. exact mulinv_m_complete. Qed.
Print Assumptions C05_solve_mat.
(** whatever is computed (well-conditioned or not) is right *)
Theorem C05_sound :
  (forall m old b im, zMat3DInv m old = (b, Computed im) -> mmul m im = mid /\ mmul im m = mid) /\
  (forall m v old b x, zMulInvMat3DVec3D m v old = (b, Computed x) -> mvec m x = v) /\
  (forall m a old b x, zMulInvMat3DMat3D m a old = (b, Computed x) -> mmul m x = a).
Proof. exact (conj inv_sound (conj mulinv_v_sound mulinv_m_sound)). Qed.
Print Assumptions C05_sound.
Example C05_wc_ex : well_conditioned (M3 2 0 0 1 3 0 0 0 (-1)).
Proof. exact wc_example. Qed.

(** * C06 *)

(** every singular matrix: a non-error pointer is returned, and the output is not a result *)
Theorem C06_singular_unreported : forall m, mdet m = 0 ->
  (forall old, fst (zMat3DInv m old) = true /\ forall im, snd (zMat3DInv m old) <> Computed im) /\
  (forall v old, fst (zMulInvMat3DVec3D m v old) = true /\ forall x, snd (zMulInvMat3DVec3D m v old) <> Computed x) /\
  (forall a old, fst (zMulInvMat3DMat3D m a old) = true /\ forall x, snd (zMulInvMat3DMat3D m a old) <> Computed x).
Proof. exact singular_unreported. Qed.
Print Assumptions C06_singular_unreported.
Example C06_ex : mdet (M3 1 2 3 2 4 6 0 1 1) = 0.
Proof. spec_unfold; ring. Qed.

(** * C07 *)

Theorem C07_zyx_elementary : forall a e t,
  zMat3DFromZYX a e t = mmul (rotz a) (mmul (roty e) (rotx t)) /\ rotation (zMat3DFromZYX a e t).
Proof. exact (fun a e t => conj (zyx_spec a e t) (zyx_rotation a e t)). Qed.
Print Assumptions C07_zyx_elementary.
Theorem C07_zyx_roundtrip : forall m, rotation m ->
  let e := zMat3DToZYX m in zMat3DFromZYX (vx e) (vy e) (vz e) = m.
Proof. exact zyx_roundtrip. Qed.
Print Assumptions C07_zyx_roundtrip.
Theorem C07_zyx_recover : forall a e t, - PI < a <= PI -> - PI / 2 < e < PI / 2 -> - PI < t <= PI ->
  zMat3DToZYX (zMat3DFromZYX a e t) = V3 a e t.
Proof. exact zyx_recover. Qed.
Print Assumptions C07_zyx_recover.
(** gimbal lock is a rotation too *)
Example C07_gimbal_ex : rotation (M3 0 0 (-1) 0 1 0 1 0 0).
Proof. split; [spec_unfold; f_equal; ring|spec_unfold; ring]. Qed.

(** * C08 *)

Theorem C08_zyz_elementary : forall a e t,
  zMat3DFromZYZ a e t = mmul (rotz a) (mmul (roty e) (rotz t)) /\ rotation (zMat3DFromZYZ a e t).
Proof. exact (fun a e t => conj (zyz_spec a e t) (zyz_rotation a e t)). Qed.
Print Assumptions C08_zyz_elementary.
Theorem C08_zyz_roundtrip : forall m, rotation m ->
  let e := zMat3DToZYZ m in zMat3DFromZYZ (vx e) (vy e) (vz e) = m.
Proof. exact zyz_roundtrip. Qed.
Print Assumptions C08_zyz_roundtrip.
Theorem C08_zyz_recover : forall h p b, - PI < h <= PI -> 0 < p < PI -> - PI < b <= PI ->
  zMat3DToZYZ (zMat3DFromZYZ h p b) = V3 h p b.
Proof. exact zyz_recover. Qed.
Print Assumptions C08_zyz_recover.
Example C08_ex : rotation (M3 (-1) 0 0 0 1 0 0 0 (-1)).
Proof. split; [spec_unfold; f_equal; ring|spec_unfold; ring]. Qed.

(** * C09 *)

Theorem C09_aa_matrix : forall aa,
  rotation (zMat3DFromAA aa) /\ mvec (zMat3DFromAA aa) aa = aa /\
  (negligible aa -> zMat3DFromAA aa = mid) /\
  (~ negligible aa -> mtrace (zMat3DFromAA aa) = 1 + 2 * cos (norm aa) /\
     exists n, norm n = 1 /\ vscale (norm aa) n = aa /\ zMat3DFromAA aa = rodm n (norm aa)).
Proof. exact fromaa_full. Qed.
Print Assumptions C09_aa_matrix.
(** matrix -> angle-axis -> matrix for every rotation whose skew part is zero
    (identity and all half turns) or at least four tolerances *)
Theorem C09_aa_roundtrip : forall m, rotation m -> norm (skewv m) = 0 \/ 4 * zTOL <= norm (skewv m) ->
  zMat3DFromAA (zMat3DToAA m) = m.
Proof. exact aa_roundtrip. Qed.
Print Assumptions C09_aa_roundtrip.
Theorem C09_aa_recover : forall aa, ~ negligible aa -> norm aa < PI -> zTOL <= 2 * sin (norm aa) ->
  zMat3DToAA (zMat3DFromAA aa) = aa.
Proof. exact aa_recover. Qed.
Print Assumptions C09_aa_recover.
Theorem C09_aa_recover_pi : forall aa, norm aa = PI ->
  zMat3DToAA (zMat3DFromAA aa) = aa \/ zMat3DToAA (zMat3DFromAA aa) = vneg aa.
Proof. exact aa_recover_pi. Qed.
Print Assumptions C09_aa_recover_pi.
Example C09_halfturn_ex : rotation (M3 1 0 0 0 (-1) 0 0 0 (-1)) /\ norm (skewv (M3 1 0 0 0 (-1) 0 0 0 (-1))) = 0.
Proof.
  split; [split; [spec_unfold; f_equal; ring|spec_unfold; ring]|].
  unfold norm, dot, skewv; cbn. apply sqrt_unique; lra.
Qed.

(** * C13 *)

Theorem C13_rpy : forall m t rm,
  zMat3DRotRoll m t rm = mmul (rotx t) m /\ zMat3DRotPitch m t rm = mmul (roty t) m /\
  zMat3DRotYaw m t rm = mmul (rotz t) m /\
  zMat3DRotRollDRC m t = mmul (rotx t) m /\ zMat3DRotPitchDRC m t = mmul (roty t) m /\
  zMat3DRotYawDRC m t = mmul (rotz t) m.
Proof. exact rpy_full. Qed.
Print Assumptions C13_rpy.
(** any sequence of in-place rotations keeps a rotation; the reversed sequence with
    negated angles restores any matrix *)
Theorem C13_sequence : forall (l : list (nat * R)) m,
  let step m (p : nat * R) := match fst p with O => zMat3DRotRollDRC m (snd p) | 1%nat => zMat3DRotPitchDRC m (snd p)
                              | _ => zMat3DRotYawDRC m (snd p) end in
  (rotation m -> rotation (fold_left step l m)) /\
  fold_left step (rev (map (fun p => (fst p, - snd p)) l)) (fold_left step l m) = m.
Proof. exact rpy_sequence. Qed.
Print Assumptions C13_sequence.

(** * C20 *)

Theorem C20_decomposition : forall fuel m val base, symmetric m -> zMat3DSymEig fuel m = Some (val, base) ->
  rotation base /\ exists d, symmetric d /\ mmul m base = mmul base d /\ m = mmul base (mmul d (mtr base)) /\
    val = V3 (cxx d) (cyy d) (czz d) /\ offs_lt d zTOL.
Proof. exact symeig_spec. Qed.
Print Assumptions C20_decomposition.
Theorem C20_residual : forall fuel m val base, symmetric m -> zMat3DSymEig fuel m = Some (val, base) ->
  norm (vsub (mvec m (col0 base)) (vscale (vx val) (col0 base))) < 2 * zTOL /\
  norm (vsub (mvec m (col1 base)) (vscale (vy val) (col1 base))) < 2 * zTOL /\
  norm (vsub (mvec m (col2 base)) (vscale (vz val) (col2 base))) < 2 * zTOL.
Proof. exact symeig_residual. Qed.
Print Assumptions C20_residual.
(** the loop ends although its iteration bound is inoperative *)
Theorem C20_terminates : forall m, symmetric m ->
  (exists n r, zMat3DSymEig n m = Some r) /\
  (forall n, offsq m * (2/3) ^ n < zTOL * zTOL -> exists r, zMat3DSymEig (S (S n)) m = Some r).
Proof. exact (fun m H => conj (symeig_terminates_ex m H) (fun n => symeig_terminates m n H)). Qed.
Print Assumptions C20_terminates.
(** the eigenvector of the least eigenvalue: a unit vector, an eigenvector up to
    the tolerance, and no vector has a smaller Rayleigh quotient (up to the tolerance) *)
Theorem C20_min : forall fuel m v, symmetric m -> zMat3DSymEigMin fuel m = Some v ->
  norm v = 1 /\
  exists lam, norm (vsub (mvec m v) (vscale lam v)) < 2 * zTOL /\
    forall x, (lam - 2 * zTOL) * dot x x <= dot x (mvec m x).
Proof. exact symeigmin_ok. Qed.
Print Assumptions C20_min.
Example C20_ex : symmetric (M3 2 1 0 1 2 1 0 1 2).
Proof. reflexivity. Qed.
