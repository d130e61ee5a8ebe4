(** Vocabulary for statistics of point sets. *)
From Verif Require Export Spec SpecGeom SpecData.
From Coq Require Export List.
Open Scope R_scope.

Definition rsum (f : vec3 -> R) (l : list vec3) : R := fold_right (fun p s => f p + s) 0 l.
(** mean of a quantity over a point set *)
Definition mean (f : vec3 -> R) (l : list vec3) : R := rsum f l / INR (length l).
Definition vmean (l : list vec3) : vec3 := V3 (mean vx l) (mean vy l) (mean vz l).
(** mean square of the coordinate along [x] measured from [c] *)
Definition spread (l : list vec3) (c x : vec3) : R := mean (fun p => dot (vsub p c) x * dot (vsub p c) x) l.
Definition axis (m : mat3) (i : nat) : vec3 := match i with 0%nat => col0 m | 1%nat => col1 m | _ => col2 m end.
(** variances along orthonormal axes, adding up to the mean squared distance; covariances between different axes below [e] *)
Definition principal (l : list vec3) (c : vec3) (pc : vec3) (pa : mat3) (e : R) : Prop :=
  rotation pa /\ (forall i, (i < 3)%nat -> vnth pc i = spread l c (axis pa i)) /\ vx pc + vy pc + vz pc = mean (fun p => dist p c * dist p c) l /\
  (forall i j, (i < 3)%nat -> (j < 3)%nat -> i <> j -> Rabs (mean (fun p => dot (vsub p c) (axis pa i) * dot (vsub p c) (axis pa j)) l) < e).
