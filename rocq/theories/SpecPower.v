(** Vocabulary for eigenvalues found by iteration. *)
From Verif Require Export Base Spec.
Open Scope R_scope.

(** [m] stretches [u] by [l] *)
Definition eigen (m : mat3) (l : R) (u : vec3) : Prop := mvec m u = vscale l u.
(** unit vectors at right angles, each stretched by its factor *)
Definition spectrum (m : mat3) (u1 u2 u3 : vec3) (l1 l2 l3 : R) : Prop :=
  dot u1 u1 = 1 /\ dot u2 u2 = 1 /\ dot u3 u3 = 1 /\ dot u1 u2 = 0 /\ dot u2 u3 = 0 /\ dot u3 u1 = 0 /\
  eigen m l1 u1 /\ eigen m l2 u2 /\ eigen m l3 u3.
