(** C91: how deep two convex sets overlap. *)
From Verif Require Import Base Spec SpecGeom SpecHull SpecGJK SpecLin SpecDepth SpecScatter ModelElem ModelGJK ModelLin ModelDepth ModelDepthQH FactsDepth6 FactsDepth9.
From Coq Require Import List.
From Coq Require Lra Lia.
Import ListNotations.
Open Scope R_scope.

(** the search for proximity ended with a tetrahedron: two points of the sets are returned and their difference is the least displacement that separates *)
Theorem C91_tetra : forall hull l1 l2 M fuel old a b s v, nth_error l1 0 = Some a -> nth_error l2 0 = Some b -> sturdy l1 l2 -> (forall x, difference l1 l2 x -> norm x <= M) -> right_hull (fun l => option_map (map corners) (hull l)) l1 l2 -> distinct_differences l1 l2 ->
  gjkLoop fuel l1 l2 simplexInit (vsub a b) None = Done s v -> sx_n s = 4%nat ->
  (forall l, NoDup l -> (4 <= length l)%nat -> (forall x, List.In x l -> difference l1 l2 x) -> incl (map sl_w (sx_slot s)) l -> hull l <> None) -> (length l1 * length l2 < fuel)%nat ->
  exists c1 c2, zGJKDepth hull l1 l2 fuel old = Some (c1, c2, true) /\ convex_hull l1 c1 /\ convex_hull l2 c2 /\ depth_vector (4 * zTOL * M) l1 l2 (vsub c1 c2).
Proof. exact depth_tetra. Qed.
Print Assumptions C91_tetra.
(** any start from which a list of distinct differences around the origin was collected *)
Theorem C91_depth : forall hull l1 l2 M fuel s sl c1 c2, (forall x, difference l1 l2 x -> norm x <= M) -> right_hull (fun l => option_map (map corners) (hull l)) l1 l2 -> distinct_differences l1 l2 -> length (sx_slot s) = 4%nat ->
  (forall x, List.In x (firstn (sx_n s) (sx_slot s)) -> exists p1 p2, sl_p x = Some (p1, p2) /\ List.In p1 l1 /\ List.In p2 l2 /\ sl_w x = vsub p1 p2) ->
  gjkPDInit hull l1 l2 s = Some (Some sl) -> NoDup (map fst sl) -> convex_hull (map fst sl) v3zero ->
  gjkPD hull l1 l2 fuel s = Some (Some (c1, c2)) -> convex_hull l1 c1 /\ convex_hull l2 c2 /\ depth_vector (4 * zTOL * M) l1 l2 (vsub c1 c2).
Proof. exact pd_depth. Qed.
Print Assumptions C91_depth.
(** a pair is found if the hull never fails *)
Theorem C91_found : forall hull l1 l2 fuel s sl, right_hull (fun l => option_map (map corners) (hull l)) l1 l2 -> distinct_differences l1 l2 -> length (sx_slot s) = 4%nat ->
  (forall x, List.In x (firstn (sx_n s) (sx_slot s)) -> exists p1 p2, sl_p x = Some (p1, p2) /\ List.In p1 l1 /\ List.In p2 l2 /\ sl_w x = vsub p1 p2) ->
  gjkPDInit hull l1 l2 s = Some (Some sl) -> NoDup (map fst sl) -> convex_hull (map fst sl) v3zero ->
  (forall l, NoDup l -> (4 <= length l)%nat -> (forall x, List.In x l -> difference l1 l2 x) -> incl (map fst sl) l -> hull l <> None) -> (length l1 * length l2 < fuel)%nat ->
  exists c1 c2, gjkPD hull l1 l2 fuel s = Some (Some (c1, c2)).
Proof. exact pd_found. Qed.
Print Assumptions C91_found.
(** whatever the hull is, one round more than there are pairs of points is enough *)
Theorem C91_ends : forall hull l1 l2 fuel fuel' sl v, (length l1 * length l2 < fuel)%nat -> (fuel <= fuel')%nat -> gjkPDLoop hull l1 l2 fuel sl v <> PFuel /\ gjkPDLoop hull l1 l2 fuel' sl v = gjkPDLoop hull l1 l2 fuel sl v.
Proof. exact depth_ends. Qed.
Print Assumptions C91_ends.
(** started from an edge the same point can be collected twice: then the points returned are wrong by a metre though the hull is right *)
Theorem C91_twice_refuted : forall old, exists hull l1 p c1 c2, right_hull (fun l => option_map (map corners) (hull l)) l1 [p] /\ distinct_differences l1 [p] /\ zGJKDepth hull l1 [p] 6 old = Some (c1, c2, true) /\ 1 <= dist c2 p /\
  ~ depth_vector (1/2) l1 [p] (vsub c1 c2).
Proof. exact depth_twice. Qed.
Print Assumptions C91_twice_refuted.
(** without a depth the pair of zGJK is left *)
Theorem C91_false : forall hull l1 l2 fuel old c1 c2, zGJKDepth hull l1 l2 fuel old = Some (c1, c2, false) -> exists hit, zGJK fuel old l1 l2 = Some (c1, c2, hit).
Proof. exact depth_false. Qed.
Print Assumptions C91_false.
(** a point and a set in general position, with the modelled hull: no assumption on the hull is left *)
Theorem C91_point : forall sort l p M fuel old a s v, scattered (fun x => List.In x l) -> (forall x, List.In x l -> dist x p <= M) -> nth_error l 0 = Some a ->
  gjkLoop fuel l [p] simplexInit (vsub a p) None = Done s v -> sx_n s = 4%nat -> (length l < fuel)%nat ->
  exists c, zGJKDepth (depthHull sort) l [p] fuel old = Some (c, p, true) /\ convex_hull l c /\ depth_vector (4 * zTOL * M) l [p] (vsub c p).
Proof. exact depth_point. Qed.
Print Assumptions C91_point.
(** a point in the hull of the set and off every triangle of its points: the search ends with a tetrahedron *)
Theorem C91_inside : forall sort l p M fuel old a, scattered (fun x => List.In x l) -> (forall x, List.In x l -> dist x p <= M) -> nth_error l 0 = Some a -> deep_inside (sqrt zTOL + 6 * zTOL * M) l p ->
  gjkLoop fuel l [p] simplexInit (vsub a p) None <> OutOfFuel -> (length l < fuel)%nat ->
  exists c, zGJKDepth (depthHull sort) l [p] fuel old = Some (c, p, true) /\ convex_hull l c /\ depth_vector (4 * zTOL * M) l [p] (vsub c p).
Proof. exact depth_inside. Qed.
Print Assumptions C91_inside.
(** sets of up to 40 cm: the search ends as well, so the depth is always found *)
Theorem C91_small : forall sort l p M old, scattered (fun x => List.In x l) -> (forall x, List.In x l -> dist x p <= M) -> (forall x y, List.In x l -> List.In y l -> dist x y <= 2 / 5) -> deep_inside (sqrt zTOL + 6 * zTOL * M) l p ->
  exists n, forall fuel, (n <= fuel)%nat -> exists c, zGJKDepth (depthHull sort) l [p] fuel old = Some (c, p, true) /\ convex_hull l c /\ depth_vector (4 * zTOL * M) l [p] (vsub c p).
Proof. exact depth_small. Qed.
Print Assumptions C91_small.
(** the small tetrahedron around the origin meets all conditions *)
Example C91_ex_small : scattered (fun x => List.In x jset) /\ (forall x, List.In x jset -> dist x v3zero <= 1/5) /\ (forall x y, List.In x jset -> List.In y jset -> dist x y <= 2/5) /\ deep_inside (sqrt zTOL + 6 * zTOL * (1/5)) jset v3zero.
Proof. exact (conj j_scattered (conj j_near (conj j_compact j_deep))). Qed.
Example C91_ex_point : forall sort old, exists c, zGJKDepth (depthHull sort) kset [v3zero] 5 old = Some (c, v3zero, true) /\ convex_hull kset c /\ depth_vector (4 * zTOL * 2) kset [v3zero] (vsub c v3zero).
Proof. exact k_point. Qed.
(** a point within a tetrahedron, with a hull that meets all conditions *)
Example C91_ex_tetra : forall old, exists c1 c2, zGJKDepth khull kset [v3zero] 5 old = Some (c1, c2, true) /\ convex_hull kset c1 /\ convex_hull [v3zero] c2 /\ depth_vector (4 * zTOL * 2) kset [v3zero] (vsub c1 c2).
Proof. exact k_depth. Qed.
Example C91_ex_hull : right_hull (fun l => option_map (map corners) (khull l)) kset [v3zero] /\ sturdy kset [v3zero] /\ distinct_differences kset [v3zero] /\ (forall x, difference kset [v3zero] x -> norm x <= 2).
Proof. exact (conj kright (conj ksturdy (conj kgap knorm))). Qed.
