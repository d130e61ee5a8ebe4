(** Vocabulary for solids: spheres, ellipses, cylinders, capsules, cones, ellipsoids. *)
From Verif Require Export SpecGeom SpecFrame SpecBox.
Open Scope R_scope.

(** solid ball and disk *)
Definition ball (c : vec3) (r : R) (p : vec3) : Prop := dist c p <= r.
Definition disk (c : vec2) (r : R) (p : vec2) : Prop := dist2 c p <= r.
(** filled ellipse with axes along the coordinate axes *)
Definition in_ellipse (c : vec2) (r0 r1 : R) (p : vec2) : Prop :=
  ((x2 p - x2 c) / r0) * ((x2 p - x2 c) / r0) + ((y2 p - y2 c) / r1) * ((y2 p - y2 c) / r1) <= 1.
(** solid ellipsoid with centre and axes given by a frame *)
Definition in_ellipsoid (f : frame3) (r : vec3) (p : vec3) : Prop := exists q,
  (vx q / vx r) * (vx q / vx r) + (vy q / vy r) * (vy q / vy r) + (vz q / vz r) * (vz q / vz r) <= 1 /\ p = act f q.
(** solid cylinder: an axis point plus a perpendicular offset of length at most [r] *)
Definition in_cyl (c0 c1 : vec3) (r : R) (p : vec3) : Prop := exists t w,
  0 <= t <= 1 /\ dot (vsub c1 c0) w = 0 /\ norm w <= r /\ p = vadd (vadd c0 (vscale t (vsub c1 c0))) w.
(** solid cone: the admissible offset shrinks linearly from the base centre to the apex *)
Definition in_cone (c v : vec3) (r : R) (p : vec3) : Prop := exists t w,
  0 <= t <= 1 /\ dot (vsub v c) w = 0 /\ norm w <= (1 - t) * r /\ p = vadd (vadd c (vscale t (vsub v c))) w.
(** capsule: all points within [r] of the segment between the centres *)
Definition in_capsule (c0 c1 : vec3) (r : R) (p : vec3) : Prop := exists q, segment c0 c1 q /\ dist q p <= r.
(** solid elliptic cylinder with unit directions [u0], [u1] of the radii *)
Definition in_ecyl (c0 c1 : vec3) (r0 r1 : R) (u0 u1 : vec3) (p : vec3) : Prop := exists t a b,
  0 <= t <= 1 /\ (a / r0) * (a / r0) + (b / r1) * (b / r1) <= 1 /\
  p = vadd (vadd (vadd c0 (vscale t (vsub c1 c0))) (vscale a u0)) (vscale b u1).
(** position of a point relative to an axis: [h] along the axis in length units, [w] across *)
Definition axial (c0 c1 p : vec3) (h : R) (w : vec3) : Prop :=
  dot (vsub c1 c0) w = 0 /\ vscale (norm (vsub c1 c0)) (vsub p c0) = vadd (vscale h (vsub c1 c0)) (vscale (norm (vsub c1 c0)) w).
(** image of a point set under a frame *)
Definition image (f : frame3) (S : vec3 -> Prop) (p : vec3) : Prop := exists q, S q /\ p = act f q.
(** value at [x] of the polynomial with coefficients listed from the highest degree *)
Definition horner (cs : list R) (x : R) : R := fold_left (fun acc c => acc * x + c) cs 0.
(** an equation solver whose listed (nearly) real answers are exact roots *)
Definition exact_solver (ans : list R -> list (R * R)) : Prop :=
  forall cs re im, In (re, im) (ans cs) -> Rabs im < zTOL -> horner cs re = 0.
(** interior of an ellipse, an ellipsoid *)
Definition inside_ellipse (c : vec2) (r0 r1 : R) (p : vec2) : Prop :=
  ((x2 p - x2 c) / r0) * ((x2 p - x2 c) / r0) + ((y2 p - y2 c) / r1) * ((y2 p - y2 c) / r1) < 1.
Definition inside_ellipsoid (f : frame3) (r : vec3) (p : vec3) : Prop := exists q,
  (vx q / vx r) * (vx q / vx r) + (vy q / vy r) * (vy q / vy r) + (vz q / vz r) * (vz q / vz r) < 1 /\ p = act f q.
(** mirror image of a point: the coordinate along the given axis is negated *)
Definition reflect3 (axis : nat) (p : vec3) : vec3 :=
  V3 (if Nat.eqb axis 0 then - vx p else vx p) (if Nat.eqb axis 1 then - vy p else vy p) (if Nat.eqb axis 2 then - vz p else vz p).
(** unit directions across an axis, orthogonal to it and to each other *)
Definition radial_basis (a u0 u1 : vec3) : Prop :=
  dot u0 u0 = 1 /\ dot u1 u1 = 1 /\ dot u0 u1 = 0 /\ dot a u0 = 0 /\ dot a u1 = 0.
