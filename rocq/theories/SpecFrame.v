(** Specification vocabulary for frames, spatial vectors and 6x6 matrices. *)
From Verif Require Export Spec.
Open Scope R_scope.

(** zMat6D, include/zeo/zeo_mat6d.h 18-33: blocks [[ll al],[la aa]] in the order of storage *)
Record mat6 := M6 { ll : mat3; la : mat3; al : mat3; aa : mat3 }.

(** a rigid frame, and the map on points it stands for *)
Definition rigid (f : frame3) : Prop := rotation (fatt f).
Definition act (f : frame3) (p : vec3) : vec3 := vadd (fpos f) (mvec (fatt f) p).
Definition fid : frame3 := F3 v3zero mid.
Definition ftrans (v : vec3) : frame3 := F3 v mid.
Definition frot (m : mat3) : frame3 := F3 v3zero m.

(** spatial vectors as 6-tuples *)
Definition vnth6 (v : vec6) (i : nat) : R :=
  if Nat.ltb i 3 then vnth (lin v) i else vnth (ang v) (i - 3).
(** power of a wrench (force f, moment n) on a twist (velocity v, angular velocity w) *)
Definition power (w t : vec6) : R := dot (lin w) (lin t) + dot (ang w) (ang t).
(** velocity of the point p of a rigid body whose velocity at the origin is t *)
Definition twist_at (t : vec6) (p : vec3) : vec6 := V6 (vadd (lin t) (cross (ang t) p)) (ang t).
(** the wrench, about the origin, of a wrench w applied at p *)
Definition wrench_from (w : vec6) (p : vec3) : vec6 := V6 (lin w) (vadd (ang w) (cross p (lin w))).
(** components of a spatial vector in axes rotated by r *)
Definition turn6 (r : mat3) (v : vec6) : vec6 := V6 (mvec r (lin v)) (mvec r (ang v)).

(** entry of the 6x6 matrix in row i, column j *)
Definition mnth6 (m : mat6) (i j : nat) : R :=
  match Nat.ltb i 3, Nat.ltb j 3 with
  | true, true => mnth (ll m) i j
  | true, false => mnth (al m) i (j - 3)
  | false, true => mnth (la m) (i - 3) j
  | false, false => mnth (aa m) (i - 3) (j - 3)
  end.
Definition sum6 (f : nat -> R) : R := f 0%nat + f 1%nat + f 2%nat + f 3%nat + f 4%nat + f 5%nat.
