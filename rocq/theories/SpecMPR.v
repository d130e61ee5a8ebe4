(** Displacements that separate two convex sets. *)
From Verif Require Export Spec SpecGeom SpecHull SpecGJK.
From Coq Require Import List.
Import ListNotations.
Open Scope R_scope.

(** moved by [t], the hull of [l2] overlaps the hull of [l1] by at most [e] along some direction *)
Definition separating (e : R) (l1 l2 : list vec3) (t : vec3) : Prop :=
  exists n, norm n = 1 /\ forall x1 x2, convex_hull l1 x1 -> convex_hull l2 x2 -> dot n (vsub x1 (vadd x2 t)) <= e.
(** moved by a vector within [e] of [t], the hulls have a common point *)
Definition touching (e : R) (l1 l2 : list vec3) (t : vec3) : Prop :=
  exists x1 x2, convex_hull l1 x1 /\ convex_hull l2 x2 /\ dist (vsub x1 x2) t <= e.
(** [t] is up to [e] the point nearest to the origin in the triangle [a], [b], [c] *)
Definition tri_least (e : R) (a b c t : vec3) : Prop := forall q, in_triangle a b c q -> dot t t <= dot q q + e.
(** [t] is the combination of three points with weights that sum up to one and are not below [- e] *)
Definition tri_nearly (e : R) (a b c t : vec3) : Prop :=
  exists s0 s1 s2, s0 + s1 + s2 = 1 /\ - e <= s0 /\ - e <= s1 /\ - e <= s2 /\ t = comb3 s0 s1 s2 a b c.
(** what the refined portal says: [a1]..[a3] and [b1]..[b3] are points of the sets, their differences span a plane with the
    normal [n] beyond which no difference is by more than the tolerance, the displacement is the point of that triangle nearest
    to the origin, and [pos] is half way between two points, the same combination of [c1], [a1]..[a3] and of [c2], [b1]..[b3],
    where [c1] and [c2] are points of the hulls; both are the same point unless the centre [c0] was shifted, or the weight
    of the centre is zero and they differ along [n] *)
Definition portal_result (l1 l2 : list vec3) (M depth : R) (pos dir : vec3) : Prop :=
  exists c1 c2 c0 a1 a2 a3 b1 b2 b3 n k, convex_hull l1 c1 /\ convex_hull l2 c2 /\ dist c0 (vsub c1 c2) <= 10 * zTOL /\ (~ negligible (vsub c1 c2) -> c0 = vsub c1 c2) /\
    List.In a1 l1 /\ List.In a2 l1 /\ List.In a3 l1 /\ List.In b1 l2 /\ List.In b2 l2 /\ List.In b3 l2 /\
    norm n = 1 /\ dot n (vsub a1 b1) = k /\ dot n (vsub a2 b2) = k /\ dot n (vsub a3 b3) = k /\ (forall x, difference l1 l2 x -> dot n x <= k + zTOL) /\
    tri_nearly zTOL (vsub a1 b1) (vsub a2 b2) (vsub a3 b3) (vscale depth dir) /\ tri_least (8 * zTOL * zTOL * (M * M)) (vsub a1 b1) (vsub a2 b2) (vsub a3 b3) (vscale depth dir) /\
    exists w0 w1 w2 w3, w0 + w1 + w2 + w3 = 1 /\ let q1 := comb4 w0 w1 w2 w3 c1 a1 a2 a3 in let q2 := comb4 w0 w1 w2 w3 c2 b1 b2 b3 in
      pos = vscale (1 / 2) (vadd q1 q2) /\ (vsub q1 q2 = vscale w0 (vsub (vsub c1 c2) c0) \/ w0 = 0 /\ exists h, vsub q1 q2 = vscale h n).
