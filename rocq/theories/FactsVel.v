(** Angular velocity conversions (C12). *)
From Coquelicot Require Import Coquelicot.
From Verif Require Export FactsEP.
Open Scope R_scope.

Lemma dlim_derive f x l : is_derive f x l -> derivable_pt_lim f x l.
Proof. intros H. apply is_derive_Reals, H. Qed.
Lemma dlim_ex f x l : derivable_pt_lim f x l -> ex_derive f x /\ Derive f x = l.
Proof. intros H. apply is_derive_Reals in H. split; [exists l; exact H|apply is_derive_unique, H]. Qed.

Ltac dsolve := apply dlim_derive; auto_derive; [repeat split; assumption|].

Ltac deta D := match type of D with Derive ?f ?t = _ => change (Derive (fun x : R => f x) t) with (Derive f t) end; rewrite ?D.

Lemma zyx_vel (a e r : R -> R) t va ve vr :
  derivable_pt_lim a t va -> derivable_pt_lim e t ve -> derivable_pt_lim r t vr ->
  forall i j, (i < 3)%nat -> (j < 3)%nat ->
  derivable_pt_lim (fun s => mnth (zMat3DFromZYX (a s) (e s) (r s)) i j) t
    (mnth (mmul (hat (zZYXVelToAngVel (V3 va ve vr) (V3 (a t) (e t) (r t)))) (zMat3DFromZYX (a t) (e t) (r t))) i j).
Proof.
  intros Ha He Hr i j Hi Hj.
  destruct (dlim_ex _ _ _ Ha) as (Xa & Da). destruct (dlim_ex _ _ _ He) as (Xe & De). destruct (dlim_ex _ _ _ Hr) as (Xr & Dr).
  pose proof (sin2_cos2' (a t)) as Sa. pose proof (sin2_cos2' (e t)) as Se.
  unfold zMat3DFromZYX, zMat3DFromZYXSC, zMat3DCreate, of_b, zZYXVelToAngVel, zZYXVelToAngVelSC. cbv zeta.
  destruct i as [|[|[|i]]]; try lia; destruct j as [|[|[|j]]]; try lia;
  unfold mnth, vnth, col0, col1, col2; pcbn; dsolve; deta Da; deta De; deta Dr;
  clear - Sa Se; spec_unfold; ring [Sa Se].
Qed.
Lemma zyz_vel (a e r : R -> R) t va ve vr :
  derivable_pt_lim a t va -> derivable_pt_lim e t ve -> derivable_pt_lim r t vr ->
  forall i j, (i < 3)%nat -> (j < 3)%nat ->
  derivable_pt_lim (fun s => mnth (zMat3DFromZYZ (a s) (e s) (r s)) i j) t
    (mnth (mmul (hat (zZYZVelToAngVel (V3 va ve vr) (V3 (a t) (e t) (r t)))) (zMat3DFromZYZ (a t) (e t) (r t))) i j).
Proof.
  intros Ha He Hr i j Hi Hj.
  destruct (dlim_ex _ _ _ Ha) as (Xa & Da). destruct (dlim_ex _ _ _ He) as (Xe & De). destruct (dlim_ex _ _ _ Hr) as (Xr & Dr).
  pose proof (sin2_cos2' (a t)) as Sa. pose proof (sin2_cos2' (e t)) as Se.
  unfold zMat3DFromZYZ, zMat3DFromZYZSC, zMat3DCreate, of_b, zZYZVelToAngVel, zZYZVelToAngVelSC. cbv zeta.
  destruct i as [|[|[|i]]]; try lia; destruct j as [|[|[|j]]]; try lia;
  unfold mnth, vnth, col0, col1, col2; pcbn; dsolve; deta Da; deta De; deta Dr;
  clear - Sa Se; spec_unfold; ring [Sa Se].
Qed.
Definition epdm (q q' : quat) : mat3 :=
  madd (zMat3DFromEP (qadd q q')) (madd (mscale (-1) (zMat3DFromEP q)) (mscale (-1) (zMat3DFromEP q'))).
Lemma ep_vel_alg q q' : mmul (hat (zEPVel2AngVel q' q)) (zMat3DFromEP q) =
  madd (mscale (qnorm2 q) (epdm q q')) (mscale (- 2 * qdot q q') (zMat3DFromEP q)).
Proof. unfold epdm, qadd. apply mat3_ext; qdes; qred; ring. Qed.
Lemma ep_vel (w x y z : R -> R) t w' x' y' z' :
  derivable_pt_lim w t w' -> derivable_pt_lim x t x' -> derivable_pt_lim y t y' -> derivable_pt_lim z t z' ->
  (forall s, qunit (Q4 (w s) (x s) (y s) (z s))) ->
  forall i j, (i < 3)%nat -> (j < 3)%nat ->
  derivable_pt_lim (fun s => mnth (zMat3DFromEP (Q4 (w s) (x s) (y s) (z s))) i j) t
    (mnth (mmul (hat (zEPVel2AngVel (Q4 w' x' y' z') (Q4 (w t) (x t) (y t) (z t))))
                (zMat3DFromEP (Q4 (w t) (x t) (y t) (z t)))) i j).
Proof.
  intros Hw Hx Hy Hz U i j Hi Hj.
  destruct (dlim_ex _ _ _ Hw) as (Xw & Dw). destruct (dlim_ex _ _ _ Hx) as (Xx & Dx).
  destruct (dlim_ex _ _ _ Hy) as (Xy & Dy). destruct (dlim_ex _ _ _ Hz) as (Xz & Dz).
  assert (O : w t * w' + x t * x' + y t * y' + z t * z' = 0).
  { assert (K1 : derivable_pt_lim (fun s => w s * w s + x s * x s + y s * y s + z s * z s) t
       (2 * (w t * w' + x t * x' + y t * y' + z t * z'))).
    { dsolve. deta Dw; deta Dx; deta Dy; deta Dz. ring. }
    assert (K2 : derivable_pt_lim (fun s => w s * w s + x s * x s + y s * y s + z s * z s) t 0).
    { apply dlim_derive. apply is_derive_ext with (fun _ => 1).
      - intros s. symmetry. exact (U s).
      - apply @is_derive_const. }
    pose proof (uniqueness_limite _ _ _ _ K1 K2). lra. }
  pose proof (U t) as Ut. unfold qunit, qnorm2 in Ut. pcbn. clear U.
  rewrite ep_vel_alg. unfold qnorm2, qdot; pcbn. rewrite Ut, O.
  unfold epdm, qadd, zMat3DFromEP, zMat3DCreate, of_b, zSqr. cbv zeta.
  destruct i as [|[|[|i]]]; try lia; destruct j as [|[|[|j]]]; try lia;
  unfold mnth, vnth, col0, col1, col2; pcbn; dsolve; deta Dw; deta Dx; deta Dy; deta Dz;
  clear; spec_unfold; ring.
Qed.

(** reverse conversions *)
Lemma zyx_vel_back w e old : ~ Rabs (cos (vy e)) < zTOL ->
  zZYXVelToAngVel (zAngVelToZYXVel w e old) e = w /\
  forall v, zAngVelToZYXVel (zZYXVelToAngVel v e) e old = v.
Proof.
  intros H. apply Rnot_lt_le, zIsTiny_false in H. pose proof (zIsTiny_false_neq _ H) as Hc.
  unfold zAngVelToZYXVel, zAngVelToZYXVelSC, zZYXVelToAngVel, zZYXVelToAngVelSC. rewrite H. cbv zeta.
  pose proof (sin2_cos2' (vx e)) as Sa.
  split; [|intros v]; apply vec3_ext; pcbn; try (field_simplify_eq; [|exact Hc]); ring [Sa].
Qed.
Lemma zyz_vel_back w e old : ~ Rabs (sin (vy e)) < zTOL ->
  zZYZVelToAngVel (zAngVelToZYZVel w e old) e = w /\
  forall v, zAngVelToZYZVel (zZYZVelToAngVel v e) e old = v.
Proof.
  intros H. apply Rnot_lt_le, zIsTiny_false in H. pose proof (zIsTiny_false_neq _ H) as Hc.
  unfold zAngVelToZYZVel, zAngVelToZYZVelSC, zZYZVelToAngVel, zZYZVelToAngVelSC. rewrite H. cbv zeta.
  pose proof (sin2_cos2' (vx e)) as Sa.
  split; [|intros v]; apply vec3_ext; pcbn; try (field_simplify_eq; [|exact Hc]); ring [Sa].
Qed.
Lemma vel_back_singular w e old :
  (Rabs (cos (vy e)) < zTOL -> zAngVelToZYXVel w e old = old) /\
  (Rabs (sin (vy e)) < zTOL -> zAngVelToZYZVel w e old = old).
Proof.
  unfold zAngVelToZYXVel, zAngVelToZYXVelSC, zAngVelToZYZVel, zAngVelToZYZVelSC.
  split; intros H; apply zIsTiny_true in H; rewrite H; reflexivity.
Qed.
Lemma ep_vel_back w q : qunit q ->
  zEPVel2AngVel (zAngVel2EPVel w q) q = w /\ qdot (zAngVel2EPVel w q) q  = 0 /\
  forall v, qdot v q = 0 -> zAngVel2EPVel (zEPVel2AngVel v q) q = v.
Proof.
  intros U. split; [|split].
  - transitivity (vscale (qnorm2 q) w).
    + destruct w as [x y z]. apply vec3_ext; qdes; qred; field.
    + rewrite U. vring.
  - destruct w as [x y z]. qdes; qred; field.
  - intros v Hv. transitivity (qadd (qscale (qnorm2 q) v) (qscale (- qdot v q) q)).
    + clear. unfold qadd, qscale. apply quat_ext; qdes; qred; field.
    + rewrite Hv, U. unfold qadd, qscale. apply quat_ext; pcbn; ring.
Qed.
Lemma slerp_arc' p q : qunit p -> qunit q ->
  zTOL <= sin (acos (Rabs (qdot p q))) ->
  exists u, qunit u /\ qdot p u = 0 /\
    forall t, let th := t * acos (Rabs (qdot p q)) in
      zEPInterDiv p q t = (true, qadd (qscale (cos th) p) (qscale (sin th) u)).
Proof.
  intros Hp Hq L. destruct (slerp_arc p q Hp Hq L) as (u & A & B & C & _). exists u. split; [exact A|]. split; [exact B|exact C].
Qed.
