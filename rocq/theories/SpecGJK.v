(** Differences of two sets of points, weighted sums, and when a simplex is well posed *)
From Verif Require Export SpecHull.
From Coq Require Import List.
Import ListNotations.
Open Scope R_scope.

(** the differences of the points of one set and the points of another *)
Definition difference (l1 l2 : list vec3) (x : vec3) : Prop := exists a b, List.In a l1 /\ List.In b l2 /\ x = vsub a b.
(** weighted sums *)
Fixpoint total (ss : list R) : R := match ss with [] => 0 | s :: t => s + total t end.
Fixpoint wsum (ss : list R) (ws : list vec3) : vec3 := match ss, ws with s :: ss, w :: ws => vadd (vscale s w) (wsum ss ws) | _, _ => v3zero end.
(** affinely independent points *)
Definition affine_indep (ws : list vec3) : Prop :=
  forall cs, length cs = length ws -> total cs = 0 -> wsum cs ws = v3zero -> Forall (fun c => c = 0) cs.
(** the area of a triangle of differences is either zero or not negligible *)
Definition sturdy (l1 l2 : list vec3) : Prop :=
  forall a b c, difference l1 l2 a -> difference l1 l2 b -> difference l1 l2 c -> tri_normal a b c = v3zero \/ ~ negligible (tri_normal a b c).
(** the weights of the point nearest to the origin in a simplex of differences are zero or not below the tolerance *)
Definition clear_weights (l1 l2 : list vec3) : Prop :=
  forall ws ss, (length ws <= 4)%nat -> Forall (difference l1 l2) ws -> affine_indep ws -> length ss = length ws -> Forall (fun s => 0 <= s) ss -> total ss = 1 ->
    (forall y, List.In y ws -> dot (wsum ss ws) (wsum ss ws) <= dot y (wsum ss ws)) -> Forall (fun s => s = 0 \/ zTOL <= s) ss.
(** both sets are small: no two differences are further apart than 40 cm *)
Definition compact_pair (l1 l2 : list vec3) : Prop := forall x y, difference l1 l2 x -> difference l1 l2 y -> dist x y <= 2 / 5.
(** [q1] and [q2] belong to the two hulls and no pair is nearer, up to [e] in the square of the distance *)
Definition nearest_pair (e : R) (l1 l2 : list vec3) (q1 q2 : vec3) : Prop :=
  convex_hull l1 q1 /\ convex_hull l2 q2 /\ forall x1 x2, convex_hull l1 x1 -> convex_hull l2 x2 -> dist q1 q2 * dist q1 q2 <= dist x1 x2 * dist x1 x2 + e.
(** all points in the ball of radius [b] about the origin *)
Definition within (b : R) (l : list vec3) : Prop := forall p, List.In p l -> norm p <= b.
