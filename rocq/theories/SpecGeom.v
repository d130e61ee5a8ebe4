(** Vocabulary for geometric statements: point sets, nearest points. *)
From Verif Require Export Spec.
Open Scope R_scope.

(** ** 3D *)
(** affine combinations *)
Definition comb2 (s0 s1 : R) (a b : vec3) : vec3 := vadd (vscale s0 a) (vscale s1 b).
Definition comb3 (s0 s1 s2 : R) (a b c : vec3) : vec3 := vadd (comb2 s0 s1 a b) (vscale s2 c).
Definition comb4 (s0 s1 s2 s3 : R) (a b c d : vec3) : vec3 := vadd (comb3 s0 s1 s2 a b c) (vscale s3 d).
(** barycentric weights: non-negative with sum one *)
Definition weights2 (s0 s1 : R) : Prop := 0 <= s0 /\ 0 <= s1 /\ s0 + s1 = 1.
Definition weights3 (s0 s1 s2 : R) : Prop := 0 <= s0 /\ 0 <= s1 /\ 0 <= s2 /\ s0 + s1 + s2 = 1.
Definition weights4 (s0 s1 s2 s3 : R) : Prop := 0 <= s0 /\ 0 <= s1 /\ 0 <= s2 /\ 0 <= s3 /\ s0 + s1 + s2 + s3 = 1.
(** the segment, triangle, tetrahedron with given corners *)
Definition segment (a b p : vec3) : Prop := exists s0 s1, weights2 s0 s1 /\ p = comb2 s0 s1 a b.
Definition in_triangle (a b c p : vec3) : Prop := exists s0 s1 s2, weights3 s0 s1 s2 /\ p = comb3 s0 s1 s2 a b c.
Definition in_tetra (a b c d p : vec3) : Prop := exists s0 s1 s2 s3, weights4 s0 s1 s2 s3 /\ p = comb4 s0 s1 s2 s3 a b c d.
(** the line through [o] with direction [d]; the plane through [o] with normal [n] *)
Definition on_line (o d p : vec3) : Prop := exists t, p = vadd o (vscale t d).
Definition on_plane (o n p : vec3) : Prop := dot (vsub p o) n = 0.
(** [p] belongs to the set and no member is nearer to [q] *)
Definition nearest (S : vec3 -> Prop) (q p : vec3) : Prop := S p /\ forall x, S x -> dist q p <= dist q x.

(** ** 2D *)
Definition comb2_2 (s0 s1 : R) (a b : vec2) : vec2 := vadd2 (vscale2 s0 a) (vscale2 s1 b).
Definition comb3_2 (s0 s1 s2 : R) (a b c : vec2) : vec2 := vadd2 (comb2_2 s0 s1 a b) (vscale2 s2 c).
Definition segment2 (a b p : vec2) : Prop := exists s0 s1, weights2 s0 s1 /\ p = comb2_2 s0 s1 a b.
Definition in_triangle2 (a b c p : vec2) : Prop := exists s0 s1 s2, weights3 s0 s1 s2 /\ p = comb3_2 s0 s1 s2 a b c.
Definition on_line2 (o d p : vec2) : Prop := exists t, p = vadd2 o (vscale2 t d).
Definition nearest2 (S : vec2 -> Prop) (q p : vec2) : Prop := S p /\ forall x, S x -> dist2 q p <= dist2 q x.
(** three points not on one line; four points not on one plane *)
Definition collinear (a b c : vec3) : Prop := cross (vsub b a) (vsub c b) = v3zero.
(** twice the area of a triangle as a vector; signed in 2D; six times the signed volume of a tetrahedron *)
Definition tri_normal (v0 v1 v2 : vec3) : vec3 := cross (vsub v1 v0) (vsub v2 v0).
Definition area2 (v0 v1 v2 : vec2) : R := cross2 (vsub2 v1 v0) (vsub2 v2 v0).
Definition vol6 (v0 v1 v2 v3 : vec3) : R := det3v (vsub v1 v0) (vsub v2 v0) (vsub v3 v0).
(** the three sides of a triangle *)
Definition boundary (a b c x : vec3) : Prop := segment a b x \/ segment b c x \/ segment c a x.
(** [p] is at distance [r] from the line through [a] and [b] *)
Definition point_line_dist (a b p : vec3) (r : R) : Prop := exists f, nearest (on_line a (vsub b a)) p f /\ dist p f = r.
Definition point_line_dist2 (a b p : vec2) (r : R) : Prop := exists f, nearest2 (on_line2 a (vsub2 b a)) p f /\ dist2 p f = r.
(** squared area of the parallelogram of two vectors *)
Definition gramdet (a b : vec3) : R := dot a a * dot b b - dot a b * dot a b.
(** usable tetrahedron: non-zero volume and no face with a negligible normal *)
Definition good_tetra v0 v1 v2 v3 : Prop :=
  vol6 v0 v1 v2 v3 <> 0 /\ ~ negligible (tri_normal v1 v2 v3) /\ ~ negligible (tri_normal v2 v3 v0) /\
  ~ negligible (tri_normal v3 v0 v1) /\ ~ negligible (tri_normal v0 v1 v2).
(** column i of a matrix *)
Definition mcol (m : mat3) (i : nat) : vec3 := match i with 0%nat => col0 m | 1%nat => col1 m | _ => col2 m end.
(** component of w orthogonal to v *)
Definition residual (w v : vec3) : vec3 := vsub w (vscale (dot v w / dot v v) v).
