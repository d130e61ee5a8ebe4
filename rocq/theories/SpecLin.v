(** Vocabulary for linear scale factors: coordinates of a point with respect to the corners of a triangle. *)
From Verif Require Export SpecGeom.
Open Scope R_scope.

(** [p] lies over the point with the coordinates [s0], [s1], [s2]: their difference is perpendicular to the triangle *)
Definition over (a b c : vec3) (s0 s1 s2 : R) (p : vec3) : Prop :=
  s0 + s1 + s2 = 1 /\ exists w, dot w (vsub b a) = 0 /\ dot w (vsub c a) = 0 /\ p = vadd (comb3 s0 s1 s2 a b c) w.
(** no side is negligible and the squared sine of each angle is at least the tolerance *)
Definition spread_at (a b c : vec3) : Prop :=
  dot (vsub b a) (vsub c a) * dot (vsub b a) (vsub c a) <= (1 - zTOL) * (dot (vsub b a) (vsub b a) * dot (vsub c a) (vsub c a)).
Definition well_shaped (a b c : vec3) : Prop :=
  ~ negligible (vsub b a) /\ ~ negligible (vsub c b) /\ ~ negligible (vsub a c) /\ spread_at a b c /\ spread_at b c a /\ spread_at c a b.
(** the angle at [a] is more than a right one *)
Definition obtuse (a b c : vec3) : Prop := dot (vsub b a) (vsub c a) < 0.
