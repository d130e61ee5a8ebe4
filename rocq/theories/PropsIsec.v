(** C79: intersection of convex polyhedra. *)
From Verif Require Import Base Spec SpecGeom SpecHull SpecMesh SpecQH SpecIsec ModelElem ModelPH ModelIsec FactsIsec FactsIsec2 FactsQH9 FactsIsecQH.
From Verif Require FactsPH2.
From Coq Require Import List.
From Coq Require Lra Lia.
Import ListNotations.
Open Scope R_scope.

(** [ph_planes]: the planes of the faces, outward normals; [ph_flat]: valid indices, unit normals perpendicular to the faces; [ph_hull l ph]: the hull of the points, of the vertices, and the part beneath all faces agree.  Provided the two calls of the hull function are right, and the region is not larger than 1e5, the result is the common part of both, faces nearer than 1e-5 to the base point being moved away *)
Theorem C79_region : forall hull iter depth ph1 ph2 ph, ph_flat ph1 -> ph_flat ph2 -> zIntersectPH3D hull iter depth ph1 ph2 = Some (Some ph) ->
  let hs := ph_planes ph1 ++ ph_planes ph2 in let e := / 100000 in
  exists p ch, (forall n a, List.In (n, a) hs -> dot n (vsub p a) < - zTOL) /\ hull (duals p e hs) = Some ch /\
    (ph_hull (duals p e hs) ch -> (forall x, widened p e hs x -> dist x p <= 100000) ->
     hull (backs p (ph_planes ch)) = Some ph /\ (ph_hull (backs p (ph_planes ch)) ph -> forall x, convex_hull (pverts ph) x <-> widened p e hs x)).
Proof. exact isec_region. Qed.
Print Assumptions C79_region.
(** for convex polyhedra: the result contains the intersection, exceeds each face by less than 1e-5, and is the intersection if the base point is at least 1e-5 beneath all faces *)
Theorem C79_intersection : forall hull iter depth ph1 ph2 ph, ph_hull (pverts ph1) ph1 -> ph_hull (pverts ph2) ph2 -> zIntersectPH3D hull iter depth ph1 ph2 = Some (Some ph) ->
  let hs := ph_planes ph1 ++ ph_planes ph2 in let e := / 100000 in
  exists p ch, (forall n a, List.In (n, a) hs -> dot n (vsub p a) < - zTOL) /\ hull (duals p e hs) = Some ch /\
    (ph_hull (duals p e hs) ch -> (forall x, widened p e hs x -> dist x p <= 100000) ->
     hull (backs p (ph_planes ch)) = Some ph /\
     (ph_hull (backs p (ph_planes ch)) ph ->
      (forall x, convex_hull (pverts ph1) x -> convex_hull (pverts ph2) x -> convex_hull (pverts ph) x) /\
      (forall x n a, convex_hull (pverts ph) x -> List.In (n, a) hs -> dot n (vsub x a) < e) /\
      ((forall n a, List.In (n, a) hs -> e <= dot n (vsub a p)) -> forall x, convex_hull (pverts ph) x <-> convex_hull (pverts ph1) x /\ convex_hull (pverts ph2) x))).
Proof. exact isec_intersection. Qed.
Print Assumptions C79_intersection.
(** the dual transformation never divides by zero, and the unset hull is never released *)
Theorem C79_defined : forall hull iter depth ph1 ph2, FactsPH2.valid_ph ph1 -> FactsPH2.valid_ph ph2 -> (forall l ch, hull l = Some ch -> FactsPH2.valid_ph ch) -> zIntersectPH3D hull iter depth ph1 ph2 <> None.
Proof. exact isec_defined. Qed.
Print Assumptions C79_defined.
(** no collision, or contact points nearer than 1e-4: the null pointer *)
Theorem C79_shallow : forall hull iter depth ph1 ph2, (forall p1 p2, depth (pverts ph1) (pverts ph2) = Some (p1, p2) -> dist p1 p2 < / 10000) -> zIntersectPH3D hull iter depth ph1 ph2 = Some None.
Proof. exact isec_shallow. Qed.
Print Assumptions C79_shallow.
(** a base point pushed beneath a face is 2e-12 beneath it, so the result sticks out of that face *)
Theorem C79_exact_refuted : exists hull p1 p2 ph1 ph2 ph x, ph_hull (pverts ph1) ph1 /\ ph_hull (pverts ph2) ph2 /\ (forall l c, hull l = Some c -> ph_hull l c) /\
  zIntersectPH3D hull 1 (fun _ _ => Some (p1, p2)) ph1 ph2 = Some (Some ph) /\ convex_hull (pverts ph1) p2 /\ convex_hull (pverts ph2) p1 /\ convex_hull (pverts ph) x /\ ~ convex_hull (pverts ph1) x.
Proof. exact isec_sticks_out. Qed.
Print Assumptions C79_exact_refuted.
(** the condition on the hull is met by the modelled zVec3DDataConvexHull for points in general position *)
Theorem C79_hull : forall sort l, general_position l -> (4 <= length l)%nat -> exists ch, quickhull sort (length l) l = Some ch /\ ph_hull l ch.
Proof. exact quickhull_planes. Qed.
Print Assumptions C79_hull.
Example C79_ex_hull : forall sort, exists ch, quickhull sort 4 [V3 1 1 1; V3 1 (-1) (-1); V3 (-1) 1 (-1); V3 (-1) (-1) 1] = Some ch /\ ph_hull [V3 1 1 1; V3 1 (-1) (-1); V3 (-1) 1 (-1); V3 (-1) (-1) 1] ch.
Proof. exact k_planes. Qed.
(** two tetrahedra meet the hypotheses of C79_region and C79_intersection, with the base point far from all faces *)
Example C79_ex : exists hull ch ph, let ph1 := wedge 1 1 in let ph2 := wedge 2 2 in let hs := ph_planes ph1 ++ ph_planes ph2 in let p := V3 0 0 0 in let e := / 100000 in
  ph_hull (pverts ph1) ph1 /\ ph_hull (pverts ph2) ph2 /\ zIntersectPH3D hull 20 (fun _ _ => Some (V3 0 1 0, V3 0 (-1) 0)) ph1 ph2 = Some (Some ph) /\
  hull (duals p e hs) = Some ch /\ ph_hull (duals p e hs) ch /\ (forall x, widened p e hs x -> dist x p <= 100000) /\ hull (backs p (ph_planes ch)) = Some ph /\ ph_hull (backs p (ph_planes ch)) ph /\
  (forall n a, List.In (n, a) hs -> e <= dot n (vsub a p)).
Proof. exact isec_ex. Qed.
