(** Vocabulary for intersections of edges, planes, triangles and boxes. *)
From Coq Require Export List.
From Verif Require Export SpecBox.
Open Scope R_scope.

(** signed height of a point above the plane through [o] with normal [n] *)
Definition height (o n x : vec3) : R := dot (vsub x o) n.
(** two sets have a common point *)
Definition meets (A B : vec3 -> Prop) : Prop := exists x, A x /\ B x.
(** [q] is nearer than [m] to some member of [A] *)
Definition within (m : R) (A : vec3 -> Prop) (q : vec3) : Prop := exists x, A x /\ dist q x < m.
(** two points that cannot be told apart at the tolerance: no coordinate differs by it *)
Definition alike (p q : vec3) : Prop := negligible (vsub p q).
(** no two entries of a list can be mistaken for each other *)
Definition distinct (l : list vec3) : Prop := forall i j p q, nth_error l i = Some p -> nth_error l j = Some q -> alike p q -> i = j.
(** the points where the outline of a triangle meets a plane *)
Definition outline (a b c p : vec3) : Prop := segment a b p \/ segment b c p \/ segment c a p.
(** a triangle in regular position to a plane: no edge that meets the plane is almost parallel
    to it, and points where the outline meets the plane are equal or distinguishable *)
Definition regular (o n a b c : vec3) : Prop :=
  (forall p q, (p = a /\ q = b) \/ (p = b /\ q = c) \/ (p = c /\ q = a) ->
     height o n p * height o n q <= 0 -> zTOL <= Rabs (height o n q - height o n p)) /\
  (forall p q, outline a b c p -> on_plane o n p -> outline a b c q -> on_plane o n q -> alike p q -> p = q).

(** ** boxes *)
Definition at_end (lo hi x : R) : Prop := x = lo \/ x = hi.
Definition strictly (lo hi x : R) : Prop := lo < x < hi.
(** [q] is strictly inside an edge of the box parallel to the x (y, z) axis *)
Definition on_x_edge (b : aabox3) (q : vec3) : Prop :=
  strictly (vx (bmin b)) (vx (bmax b)) (vx q) /\ at_end (vy (bmin b)) (vy (bmax b)) (vy q) /\ at_end (vz (bmin b)) (vz (bmax b)) (vz q).
Definition on_y_edge (b : aabox3) (q : vec3) : Prop :=
  strictly (vy (bmin b)) (vy (bmax b)) (vy q) /\ at_end (vz (bmin b)) (vz (bmax b)) (vz q) /\ at_end (vx (bmin b)) (vx (bmax b)) (vx q).
Definition on_z_edge (b : aabox3) (q : vec3) : Prop :=
  strictly (vz (bmin b)) (vz (bmax b)) (vz q) /\ at_end (vx (bmin b)) (vx (bmax b)) (vx q) /\ at_end (vy (bmin b)) (vy (bmax b)) (vy q).
(** the plane is not almost parallel to the edge [q] is on *)
Definition edge_hit (n : vec3) (b : aabox3) (q : vec3) : Prop :=
  (zTOL <= Rabs (vx n) /\ on_x_edge b q) \/ (zTOL <= Rabs (vy n) /\ on_y_edge b q) \/ (zTOL <= Rabs (vz n) /\ on_z_edge b q).
(** [q] is strictly inside a face orthogonal to the x (y, z) axis *)
Definition on_x_face (b : aabox3) (q : vec3) : Prop :=
  at_end (vx (bmin b)) (vx (bmax b)) (vx q) /\ strictly (vy (bmin b)) (vy (bmax b)) (vy q) /\ strictly (vz (bmin b)) (vz (bmax b)) (vz q).
Definition on_y_face (b : aabox3) (q : vec3) : Prop :=
  at_end (vy (bmin b)) (vy (bmax b)) (vy q) /\ strictly (vz (bmin b)) (vz (bmax b)) (vz q) /\ strictly (vx (bmin b)) (vx (bmax b)) (vx q).
Definition on_z_face (b : aabox3) (q : vec3) : Prop :=
  at_end (vz (bmin b)) (vz (bmax b)) (vz q) /\ strictly (vx (bmin b)) (vx (bmax b)) (vx q) /\ strictly (vy (bmin b)) (vy (bmax b)) (vy q).
(** the edge from [a] to [c] passes at [q] through the inside of a face it does not run along *)
Definition face_hit (b : aabox3) (a c q : vec3) : Prop :=
  segment a c q /\ ((vx a <> vx c /\ on_x_face b q) \/ (vy a <> vy c /\ on_y_face b q) \/ (vz a <> vz c /\ on_z_face b q)).
(** deep inside the box: at least the tolerance away from its faces (lower ends excluded) *)
Definition deep (lo hi x : R) : Prop := lo + zTOL < x <= hi - zTOL.
Definition deep_in (b : aabox3) (p : vec3) : Prop :=
  deep (vx (bmin b)) (vx (bmax b)) (vx p) /\ deep (vy (bmin b)) (vy (bmax b)) (vy p) /\ deep (vz (bmin b)) (vz (bmax b)) (vz p).
(** some edge of the triangle does *)
Definition edge_face_hit (b : aabox3) (v0 v1 v2 q : vec3) : Prop := face_hit b v0 v1 q \/ face_hit b v1 v2 q \/ face_hit b v2 v0 q.
(** the eight corners *)
Definition corner_of (b : aabox3) (i j k : bool) : vec3 :=
  V3 (if i then vx (bmax b) else vx (bmin b)) (if j then vy (bmax b) else vy (bmin b)) (if k then vz (bmax b) else vz (bmin b)).
