(** Convex position in a plane *)
From Verif Require Export SpecGeom.
From Coq Require Import List.
Open Scope R_scope.

(** consecutive corners of a closed loop *)
Definition loop_edge (L : list vec3) (a b : vec3) : Prop := exists p s, L ++ firstn 1 L = p ++ a :: b :: s.
Definition loop_turn (L : list vec3) (a b c : vec3) : Prop := exists p s, L ++ firstn 2 L = p ++ a :: b :: c :: s.
(** the smallest set with the points of [L] closed under segments *)
Inductive convex_hull (L : list vec3) : vec3 -> Prop :=
| hull_point p : List.In p L -> convex_hull L p
| hull_mix a b p : convex_hull L a -> convex_hull L b -> segment a b p -> convex_hull L p.
(** all points in the plane through [o] with normal [n] *)
Definition planar (o n : vec3) (l : list vec3) : Prop := n <> v3zero /\ forall p, List.In p l -> dot n (vsub p o) = 0.
(** a numeric gap: equal or at least the tolerance apart *)
Definition gap (x y : R) : Prop := x = y \/ zTOL <= Rabs (x - y).
Definition vgap (p q : vec3) : Prop := p = q \/ zTOL <= Rabs (vx p - vx q) \/ zTOL <= Rabs (vy p - vy q) \/ zTOL <= Rabs (vz p - vz q).
(** every coordinate below the tolerance *)
Definition below (v : vec3) : Prop := Rabs (vx v) < zTOL /\ Rabs (vy v) < zTOL /\ Rabs (vz v) < zTOL.
(** a strictly convex loop, counter-clockwise seen against [n] *)
Definition convex_loop (o n : vec3) (L : list vec3) : Prop := (3 <= length L)%nat /\ planar o n L /\
  (forall a b q, loop_edge L a b -> List.In q L -> 0 <= dot n (cross (vsub b a) (vsub q a))) /\ (forall a b c, loop_turn L a b c -> 0 < dot n (cross (vsub b a) (vsub c a))).
