(** Properties C10-C12: Euler parameters, spherical interpolation, angular velocity. *)
From Verif Require Import FactsVel.
Open Scope R_scope.

(** * C10 *)

Theorem C10_matrix : forall q, qunit q ->
  rotation (zMat3DFromEP q) /\ zMat3DFromEP (qneg q) = zMat3DFromEP q /\
  (forall v, zEPRotVec3D q v = mvec (zMat3DFromEP q) v) /\
  (forall p, qunit p -> zMat3DFromEP p = zMat3DFromEP q -> p = q \/ p = qneg q).
Proof.
  exact (fun q H => conj (fromep_rotation q H) (conj (fromep_neg q) (conj (eprot_spec q) (fun p Hp => fromep_inj p q Hp H)))).
Qed.
Print Assumptions C10_matrix.
(** extraction never fails on a rotation and is inverse to the matrix of a quaternion *)
Theorem C10_roundtrip : forall m, rotation m -> exists q, zMat3DToEP m = Some q /\ qunit q /\ zMat3DFromEP q = m.
Proof. exact toep_roundtrip. Qed.
Print Assumptions C10_roundtrip.
(** cascading p then q multiplies the matrices in the order q p *)
Theorem C10_cascade : forall p q, qunit p -> qunit q ->
  qunit (zEPCascade p q) /\ zMat3DFromEP (zEPCascade p q) = mmul (zMat3DFromEP q) (zMat3DFromEP p).
Proof. exact cascade_full. Qed.
Print Assumptions C10_cascade.
(** normalisation *)
Theorem C10_normalize : forall q,
  (sqrt (qnorm2 q) < zTOL /\ zEPNormalize q = (false, q)) \/
  (zTOL <= sqrt (qnorm2 q) /\ exists u, zEPNormalize q = (true, u) /\ qunit u /\ qscale (sqrt (qnorm2 q)) u = q).
Proof. exact epnormalize_spec. Qed.
Print Assumptions C10_normalize.
(** angle-axis vectors: same attitude through the quaternion as directly *)
Theorem C10_aa : forall aa, qunit (zAA2EP aa) /\ zMat3DFromEP (zAA2EP aa) = zMat3DFromAA aa.
Proof. exact aa2ep_mat. Qed.
Print Assumptions C10_aa.
Theorem C10_aa_back : forall q, qunit q -> norm (qvec q) = 0 \/ zTOL <= norm (qvec q) ->
  zMat3DFromAA (zEP2AA q) = zMat3DFromEP q /\ (zTOL <= norm (qvec q) -> zAA2EP (zEP2AA q) = q).
Proof. exact ep2aa_roundtrip. Qed.
Print Assumptions C10_aa_back.
Example C10_ex : qunit (Q4 (1/2) (1/2) (- (1/2)) (1/2)) /\ rotation (M3 0 1 0 0 0 1 1 0 0).
Proof.
  split; [unfold qunit, qnorm2; cbn; lra|].
  split; [spec_unfold; f_equal; ring|spec_unfold; ring].
Qed.

(** * C11 *)

Theorem C11_slerp : forall p q t, qunit p -> qunit q ->
  exists r, zEPInterDiv p q t = (true, r) /\ qunit r /\
    (t = 0 -> r = p) /\ (t = 1 -> r = q \/ r = qneg q) /\
    (0 <= t <= 1 -> Rabs (qdot p q) <= qdot p r).
Proof. exact slerp_unit. Qed.
Print Assumptions C11_slerp.
(** on an arc of non-negligible length, constant-speed motion along the great circle:
    the angle from p is t times the full angle *)
Theorem C11_slerp_arc : forall p q, qunit p -> qunit q ->
  zTOL <= sin (acos (Rabs (qdot p q))) ->
  exists u, qunit u /\ qdot p u = 0 /\
    forall t, let th := t * acos (Rabs (qdot p q)) in
      zEPInterDiv p q t = (true, qadd (qscale (cos th) p) (qscale (sin th) u)).
Proof. exact slerp_arc'. Qed.
Print Assumptions C11_slerp_arc.
(** matrices: rotation about one fixed axis at constant speed *)
Theorem C11_slerp_matrix : forall m1 m2, rotation m1 -> rotation m2 ->
  (forall t, exists m, zMat3DInterDiv m1 m2 t = Some m /\ rotation m) /\
  zMat3DInterDiv m1 m2 0 = Some m1 /\ zMat3DInterDiv m1 m2 1 = Some m2 /\
  (4 * (zTOL * zTOL) <= 3 - mtrace (mmul (mtr m1) m2) ->
   exists n phi, norm n = 1 /\ 0 <= phi <= PI /\ m2 = mmul (rodm n phi) m1 /\
     forall t, zMat3DInterDiv m1 m2 t = Some (mmul (rodm n (t * phi)) m1)).
Proof. exact slerp_matrix. Qed.
Print Assumptions C11_slerp_matrix.
Example C11_ex : qunit (Q4 1 0 0 0) /\ qunit (Q4 0 1 0 0) /\ zTOL <= sin (acos (Rabs (qdot (Q4 1 0 0 0) (Q4 0 1 0 0)))).
Proof.
  split; [unfold qunit, qnorm2; cbn; lra|]. split; [unfold qunit, qnorm2; cbn; lra|].
  replace (qdot (Q4 1 0 0 0) (Q4 0 1 0 0)) with 0 by (unfold qdot; cbn; ring).
  rewrite Rabs_R0, acos_0, sin_PI2. pose proof zTOL_small; lra.
Qed.

(** * C12 *)

(** the converted vector is the true angular velocity: dM/dt = [w x] M *)
Theorem C12_zyx : forall (a e r : R -> R) t va ve vr,
  derivable_pt_lim a t va -> derivable_pt_lim e t ve -> derivable_pt_lim r t vr ->
  forall i j, (i < 3)%nat -> (j < 3)%nat ->
  derivable_pt_lim (fun s => mnth (zMat3DFromZYX (a s) (e s) (r s)) i j) t
    (mnth (mmul (hat (zZYXVelToAngVel (V3 va ve vr) (V3 (a t) (e t) (r t)))) (zMat3DFromZYX (a t) (e t) (r t))) i j).
Proof. exact zyx_vel. Qed.
Print Assumptions C12_zyx.
Theorem C12_zyz : forall (a e r : R -> R) t va ve vr,
  derivable_pt_lim a t va -> derivable_pt_lim e t ve -> derivable_pt_lim r t vr ->
  forall i j, (i < 3)%nat -> (j < 3)%nat ->
  derivable_pt_lim (fun s => mnth (zMat3DFromZYZ (a s) (e s) (r s)) i j) t
    (mnth (mmul (hat (zZYZVelToAngVel (V3 va ve vr) (V3 (a t) (e t) (r t)))) (zMat3DFromZYZ (a t) (e t) (r t))) i j).
Proof. exact zyz_vel. Qed.
Print Assumptions C12_zyz.
Theorem C12_ep : forall (w x y z : R -> R) t w' x' y' z',
  derivable_pt_lim w t w' -> derivable_pt_lim x t x' -> derivable_pt_lim y t y' -> derivable_pt_lim z t z' ->
  (forall s, qunit (Q4 (w s) (x s) (y s) (z s))) ->
  forall i j, (i < 3)%nat -> (j < 3)%nat ->
  derivable_pt_lim (fun s => mnth (zMat3DFromEP (Q4 (w s) (x s) (y s) (z s))) i j) t
    (mnth (mmul (hat (zEPVel2AngVel (Q4 w' x' y' z') (Q4 (w t) (x t) (y t) (z t))))
                (zMat3DFromEP (Q4 (w t) (x t) (y t) (z t)))) i j).
Proof. exact ep_vel. Qed.
Print Assumptions C12_ep.
(** a moving unit quaternion: rotation about x *)
Example C12_ep_ex : forall t, qunit (Q4 (cos t) (sin t) 0 0) /\ derivable_pt_lim cos t (- sin t) /\ derivable_pt_lim sin t (cos t).
Proof.
  intros t. split; [unfold qunit, qnorm2; cbn; pose proof (cos2_sin2 t); lra|].
  split; [apply derivable_pt_lim_cos|apply derivable_pt_lim_sin].
Qed.
(** the reverse conversions invert, away from the singularity *)
Theorem C12_zyx_back : forall w e old, ~ Rabs (cos (vy e)) < zTOL ->
  zZYXVelToAngVel (zAngVelToZYXVel w e old) e = w /\ forall v, zAngVelToZYXVel (zZYXVelToAngVel v e) e old = v.
Proof. exact zyx_vel_back. Qed.
Print Assumptions C12_zyx_back.
Theorem C12_zyz_back : forall w e old, ~ Rabs (sin (vy e)) < zTOL ->
  zZYZVelToAngVel (zAngVelToZYZVel w e old) e = w /\ forall v, zAngVelToZYZVel (zZYZVelToAngVel v e) e old = v.
Proof. exact zyz_vel_back. Qed.
Print Assumptions C12_zyz_back.
Theorem C12_singular : forall w e old,
  (Rabs (cos (vy e)) < zTOL -> zAngVelToZYXVel w e old = old) /\
  (Rabs (sin (vy e)) < zTOL -> zAngVelToZYZVel w e old = old).
Proof. exact vel_back_singular. Qed.
Print Assumptions C12_singular.
Theorem C12_ep_back : forall w q, qunit q ->
  zEPVel2AngVel (zAngVel2EPVel w q) q = w /\ qdot (zAngVel2EPVel w q) q = 0 /\
  forall v, qdot v q = 0 -> zAngVel2EPVel (zEPVel2AngVel v q) q = v.
Proof. exact ep_vel_back. Qed.
Print Assumptions C12_ep_back.
