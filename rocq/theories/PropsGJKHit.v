(** C59: sets that overlap clearly are found to collide. *)
From Verif Require Import Base Spec SpecGeom SpecHull SpecGJK ModelPH ModelGJK ModelColPH FactsDepth9 FactsGJKHit.
From Coq Require Import List.
From Coq Require Lra Lia.
Import ListNotations.
Open Scope R_scope.

(** the hulls have a common point and no triangle of differences comes near the origin: the answer is yes *)
Theorem C59_hit : forall fuel old l1 l2 M c1 c2 hit, sturdy l1 l2 -> (forall x, difference l1 l2 x -> norm x <= M) -> (exists x, convex_hull l1 x /\ convex_hull l2 x) ->
  (forall a b c q, difference l1 l2 a -> difference l1 l2 b -> difference l1 l2 c -> in_triangle a b c q -> sqrt zTOL + 6 * zTOL * M < norm q) ->
  zGJK fuel old l1 l2 = Some (c1, c2, hit) -> hit = true.
Proof. exact gjk_hit. Qed.
Print Assumptions C59_hit.
(** the same for two polyhedra *)
Theorem C59_polyhedra_hit : forall fuel old ph1 ph2 M p1 p2 hit, sturdy (pverts ph1) (pverts ph2) -> (forall x, difference (pverts ph1) (pverts ph2) x -> norm x <= M) -> (exists x, convex_hull (pverts ph1) x /\ convex_hull (pverts ph2) x) ->
  (forall a b c q, difference (pverts ph1) (pverts ph2) a -> difference (pverts ph1) (pverts ph2) b -> difference (pverts ph1) (pverts ph2) c -> in_triangle a b c q -> sqrt zTOL + 6 * zTOL * M < norm q) ->
  zColChkPH3D fuel old ph1 ph2 = Some (p1, p2, hit) -> hit = true.
Proof. exact colph_hit. Qed.
Print Assumptions C59_polyhedra_hit.
(** the contact points of two polyhedra are a nearest pair as in C59_pair *)
Theorem C59_polyhedra_pair : forall fuel old ph1 ph2 c1 c2 hit, sturdy (pverts ph1) (pverts ph2) -> zColChkPH3D fuel old ph1 ph2 = Some (c1, c2, hit) -> exists q1 q2, nearest_pair (2 * zTOL) (pverts ph1) (pverts ph2) q1 q2 /\
  (forall b, within b (pverts ph1) -> dist c1 q1 <= 3 * zTOL * b) /\ (forall b, within b (pverts ph2) -> dist c2 q2 <= 3 * zTOL * b) /\ (clear_weights (pverts ph1) (pverts ph2) -> c1 = q1 /\ c2 = q2).
Proof. exact colph_pair. Qed.
Print Assumptions C59_polyhedra_pair.
(** the small tetrahedron and the origin *)
Example C59_ex_hit : sturdy jset [v3zero] /\ (forall x, difference jset [v3zero] x -> norm x <= 1/5) /\ (exists x, convex_hull jset x /\ convex_hull [v3zero] x) /\
  (forall a b c q, difference jset [v3zero] a -> difference jset [v3zero] b -> difference jset [v3zero] c -> in_triangle a b c q -> sqrt zTOL + 6 * zTOL * (1/5) < norm q) /\
  forall old, exists n c1 c2, forall fuel, (n <= fuel)%nat -> zGJK fuel old jset [v3zero] = Some (c1, c2, true).
Proof. exact hit_ex. Qed.
