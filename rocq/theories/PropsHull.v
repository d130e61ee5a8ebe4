(** Property C55: planar convex hulls. *)
From Verif Require Import Base Spec SpecGeom SpecHull ModelVec ModelElem ModelHull FactsVec FactsAlg FactsElem FactsHull FactsHull2 FactsHull4 FactsHull8.
From Coq Require Import List Lra Lia.
Import ListNotations.
Open Scope R_scope.

(** [sorts sort]: the ZEDA quick sort returns an ordered permutation whenever the comparison is a total preorder on the data; [parted s0 s1 l]: coordinates of distinct points are equal or a tolerance apart; [convex_loop o n L]: at least three corners in a plane, all on the left of every edge, every turn strictly to the left; [convex_hull L]: closure of the corners under segments *)
(** the hull of planar data is a strictly convex loop of data points, with all data on the left of each edge and in its convex hull *)
Theorem C55_hull : forall sort l o nn s0 s1, sorts sort -> planar o nn l -> zConvexHull2DBase l = Some (s0, s1) -> parted s0 s1 l -> exists L n, zVec3DDataConvexHull2D sort l = Some L /\ incl L l /\ convex_loop o n L /\
  (forall a b q, loop_edge L a b -> List.In q l -> 0 <= dot n (cross (vsub b a) (vsub q a))) /\ (forall q, List.In q l -> convex_hull L q).
Proof. exact hull_right. Qed.
Print Assumptions C55_hull.
(** no hull is given when the points are alike or along a line *)
Theorem C55_degenerate : forall sort l, zConvexHull2DBase l = None -> zVec3DDataConvexHull2D sort l = None /\
  (l = [] \/ exists t a, List.In t l /\ List.In a l /\ forall p, List.In p l -> below (vsub p t) \/ below (cross (vsub a t) (vsub p t))).
Proof. exact hull_none. Qed.
Print Assumptions C55_degenerate.
(** the dual-faced polyhedron: a fan of triangles and its mirror image *)
Theorem C55_polyhedron : forall sort l vs fs, zVec3DDataConvexHull2DPH3D sort l = Some (vs, fs) -> (3 <= length vs)%nat ->
  zVec3DDataConvexHull2D sort l = Some vs /\ length fs = (2 * (length vs - 2))%nat /\
  (forall i, (2 <= i < length vs)%nat -> nth (i - 2) fs (0, 0, 0)%nat = (0, i - 1, i)%nat /\ nth (i + length vs - 4) fs (0, 0, 0)%nat = (0, i, i - 1)%nat).
Proof. exact hull_ph. Qed.
Print Assumptions C55_polyhedron.
(** the closest point is the nearest point of some edge that faces the point, at its distance; HUGE_VAL when no edge faces it *)
Theorem C55_closest : forall o n L p, convex_loop o n L -> exists d cp, zConvexHull2DClosest L p = Some (d, cp) /\
  ((d = None /\ cp = p /\ forall a b, loop_edge L a b -> 0 <= dot n (cross (vsub b a) (vsub p a))) \/ (exists a b, loop_edge L a b /\ dot n (cross (vsub b a) (vsub p a)) < 0 /\ nearest (segment a b) p cp /\ d = Some (dist p cp))).
Proof. exact closest_edge. Qed.
Print Assumptions C55_closest.
(** it is the nearest point of the polygon when at most two edges face the point *)
Theorem C55_closest_two : forall o n L p a1 b1 a2 b2, convex_loop o n L -> dot n (vsub p o) = 0 -> (exists a b, loop_edge L a b /\ dot n (cross (vsub b a) (vsub p a)) < 0) ->
  (forall a b, loop_edge L a b -> dot n (cross (vsub b a) (vsub p a)) < 0 -> (a = a1 /\ b = b1) \/ (a = a2 /\ b = b2)) ->
  exists cp, zConvexHull2DClosest L p = Some (Some (dist p cp), cp) /\ nearest (convex_hull L) p cp.
Proof. exact closest_hull. Qed.
Print Assumptions C55_closest_two.
(** for every point of the polygon HUGE_VAL is returned; the header promises zero *)
Theorem C55_inside_refuted : forall o n L p, convex_loop o n L -> convex_hull L p -> zConvexHull2DClosest L p = Some (None, p).
Proof. exact closest_inside. Qed.
Print Assumptions C55_inside_refuted.
(** with three facing edges the answer may be wrong by more than 1 *)
Theorem C55_closest_refuted : exists o n L p d cp q, convex_loop o n L /\ dot n (vsub p o) = 0 /\ zConvexHull2DClosest L p = Some (Some d, cp) /\ convex_hull L q /\ dist p q + 1 < d.
Proof. exact closest_wrong. Qed.
Print Assumptions C55_closest_refuted.
Example C55_ex : exists L n, zVec3DDataConvexHull2D isort grid = Some L /\ convex_loop v3zero n L /\ (forall q, List.In q grid -> convex_hull L q).
Proof. destruct grid_parted as (P & Q). destruct (C55_hull isort grid _ _ _ _ isort_sorts Q grid_base P) as (L & n & E & _ & C & _ & H). exists L, n. split; [exact E|]. split; [exact C|exact H]. Qed.
Example C55_ex_degenerate : zConvexHull2DBase [V3 0 0 0; V3 0 0 0] = None /\ zConvexHull2DBase grid <> None.
Proof. split; [|rewrite grid_base; discriminate]. unfold zConvexHull2DBase. assert (ch2d_base1 (V3 0 0 0) [V3 0 0 0] = None) as -> ; [|reflexivity]. apply base1_none. intros p [<-|[]]. replace (vsub (V3 0 0 0) (V3 0 0 0)) with v3zero; [exact below_zero|]. apply vec3_ext; spec_unfold; cbn; Lra.lra. Qed.
Example C55_ex_inside : convex_loop v3zero (V3 0 0 1) pent /\ convex_hull pent (V3 (11 / 2) (1 / 2) 0).
Proof.
  split; [exact pent_loop|]. apply (hull_mix _ (V3 1 0 0) (V3 10 1 0)); [apply hull_point; cbn; tauto|apply hull_point; cbn; tauto|]. exists (1 / 2), (1 / 2). split; [unfold weights2; Lra.lra|]. unfold comb2. apply vec3_ext; spec_unfold; cbn; Lra.lra.
Qed.
Example C55_ex_two : exists cp, nearest (convex_hull pent) (V3 20 20 0) cp.
Proof.
  destruct (C55_closest_two v3zero (V3 0 0 1) pent (V3 20 20 0) (V3 10 1 0) (V3 0 20 0) (V3 10 1 0) (V3 0 20 0) pent_loop) as (cp & _ & N).
  - spec_unfold; cbn; Lra.lra.
  - exists (V3 10 1 0), (V3 0 20 0). split; [exists [V3 1 0 0], [V3 (-10) 1 0; V3 0 0 0; V3 1 0 0]; reflexivity|]. spec_unfold; cbn; Lra.lra.
  - intros a b (p & s & E) H. cbn in E.
    do 6 (destruct p as [|? p]; [cbn in E; try discriminate; injection E as <- <- _; first [left; split; reflexivity | exfalso; revert H; spec_unfold; cbn; Lra.lra]|injection E as _ E]).
    cbn in E. destruct p; discriminate.
  - exists cp. exact N.
Qed.
