(** How deep two convex sets overlap. *)
From Verif Require Export Spec SpecGeom SpecHull SpecGJK SpecLin.
From Coq Require Import List.
Import ListNotations.
Open Scope R_scope.

(** the triangles [fs] are the surface of the convex hull of [l]: their corners are points of [l], each triangle lies in a plane
    that has all points of [l] on one side, and who leaves the hull passes a triangle *)
Definition surface_of (l : list vec3) (fs : list (vec3 * vec3 * vec3)) : Prop :=
  fs <> [] /\
  (forall a b c, List.In (a, b, c) fs -> List.In a l /\ List.In b l /\ List.In c l /\
     exists n, n <> v3zero /\ dot n (vsub b a) = 0 /\ dot n (vsub c a) = 0 /\ forall x, List.In x l -> dot n (vsub x a) <= 0) /\
  forall x y, convex_hull l x -> convex_hull l y \/ exists a b c q, List.In (a, b, c) fs /\ in_triangle a b c q /\ segment x y q.
(** differences are identical or the tolerance apart *)
Definition distinct_differences (l1 l2 : list vec3) : Prop := forall x y, difference l1 l2 x -> difference l1 l2 y -> vgap x y.
(** the hull of four or more distinct differences, where there is one, is their surface in triangles that are no slivers *)
Definition right_hull (h : list vec3 -> option (list (vec3 * vec3 * vec3))) (l1 l2 : list vec3) : Prop :=
  forall l fs, NoDup l -> (4 <= length l)%nat -> (forall x, List.In x l -> difference l1 l2 x) -> h l = Some fs ->
    surface_of l fs /\ forall a b c, List.In (a, b, c) fs -> well_shaped a b c /\ ~ negligible (tri_normal a b c).
(** [v] is the least displacement that separates the hull of [l2], moved by it, from the hull of [l1], up to [e]: the hulls
    overlap by less than [e] along [v] after it, and every shorter displacement leaves a common point *)
Definition depth_vector (e : R) (l1 l2 : list vec3) (v : vec3) : Prop :=
  (forall x1 x2, convex_hull l1 x1 -> convex_hull l2 x2 -> dot v (vsub x1 (vadd x2 v)) <= e) /\
  forall d, norm d < norm v -> exists x, convex_hull l1 x /\ exists y, convex_hull l2 y /\ x = vadd y d.
