(** Vocabulary for the fit of a sphere. *)
From Verif Require Export Spec SpecPCA SpecProfile.
From Coq Require Import List.
Import ListNotations.
Open Scope R_scope.

(** four unknowns: a vector and a number; a row of a linear system *)
Definition row_dot (a x : vec3 * R) : R := dot (fst a) (fst x) + snd a * snd x.
(** sum of the squared errors of a linear system *)
Fixpoint sq_err (rows : list (vec3 * R)) (es : list R) (x : vec3 * R) : R :=
  match rows, es with
  | a :: rows, e :: es => (row_dot a x - e) * (row_dot a x - e) + sq_err rows es x
  | _, _ => 0
  end.
(** only zero is mapped to zero *)
Definition full_rank (rows : list (vec3 * R)) : Prop := forall x, (forall a, In a rows -> row_dot a x = 0) -> x = (V3 0 0 0, 0).
(** a solver that finds the least squared error whenever it is attained once *)
Definition least_squares (solve : list (vec3 * R) -> list R -> vec3 * R) : Prop :=
  forall rows es, length rows = length es -> full_rank rows -> forall x, sq_err rows es (solve rows es) <= sq_err rows es x.

(** deviation of points from a sphere: sum of (squared distance - squared radius)^2 *)
Definition deviation (l : list vec3) (c : vec3) (r : R) : R :=
  rsum (fun p => (dist p c * dist p c - r * r) * (dist p c * dist p c - r * r)) l.
(** size of a point relative to a sphere *)
Definition reach (c : vec3) (r : R) (p : vec3) : R := Rabs (vx p - vx c) + Rabs (vy p - vy c) + Rabs (vz p - vz c) + Rabs r.
