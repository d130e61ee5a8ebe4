(** Points that are well apart. *)
From Verif Require Export SpecDepth.
From Coq Require Import List.
Import ListNotations.
Open Scope R_scope.

(** no four distinct points of the set are nearly in a plane (as [general_position] asks of a list), no three form a sliver,
    no two are closer than the tolerance *)
Definition scattered (S : vec3 -> Prop) : Prop :=
  (forall a b c d, S a -> S b -> S c -> S d -> NoDup [a; b; c; d] -> 2 * zTOL * norm (tri_normal a b c) * (1 + dist d a) < Rabs (vol6 a b c d)) /\
  (forall a b c, S a -> S b -> S c -> NoDup [a; b; c] -> well_shaped a b c /\ ~ negligible (tri_normal a b c)) /\
  forall a b, S a -> S b -> vgap a b.
(** the point is in the convex hull and more than [e] away from every triangle with corners among the points *)
Definition deep_inside (e : R) (l : list vec3) (p : vec3) : Prop :=
  convex_hull l p /\ forall a b c q, List.In a l -> List.In b l -> List.In c l -> in_triangle a b c q -> e < dist q p.
