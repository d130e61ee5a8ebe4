(** Vocabulary for the convex hull of points in space. *)
From Verif Require Export Spec SpecGeom SpecHull SpecMesh.
From Coq Require Import List.
Import ListNotations.
Open Scope R_scope.

(** no four of the listed points lie in a plane or nearly so: every point is off the plane of any three others by more than
    2 zTOL, and by more than 2 zTOL times its distance from each of them *)
Definition general_position (l : list vec3) : Prop :=
  forall i j k m a b c d, NoDup [i; j; k; m] ->
    nth_error l i = Some a -> nth_error l j = Some b -> nth_error l k = Some c -> nth_error l m = Some d ->
    2 * zTOL * norm (cross (vsub b a) (vsub c a)) * (1 + dist d a) < Rabs (vol6 a b c d).
(** the surface given by vertex positions and faces (three vertex numbers and a normal vector) is the boundary of the
    convex hull of the listed points: the vertices are distinct listed points, each used by a face; the faces form a closed
    surface with one orientation; every face has a unit outward normal and only its corners in its plane, all other listed
    points strictly beneath; the half-spaces beneath the faces have exactly the convex hull of the vertices in common, and it
    contains all listed points *)
Definition outward_face (l vs : list vec3) (a b c : nat) (n : vec3) : Prop :=
  norm n = 1 /\ dot n (vsub (vpos vs b) (vpos vs a)) = 0 /\ dot n (vsub (vpos vs c) (vpos vs a)) = 0 /\
  0 < dot n (cross (vsub (vpos vs b) (vpos vs a)) (vsub (vpos vs c) (vpos vs a))) /\
  forall x, List.In x l -> x <> vpos vs a -> x <> vpos vs b -> x <> vpos vs c -> dot n (vsub x (vpos vs a)) < 0.
Definition hull_surface (l vs : list vec3) (fs : list (nat * nat * nat * vec3)) : Prop :=
  NoDup vs /\ (forall v, List.In v vs -> List.In v l) /\
  indices_below (length vs) (map fst fs) /\ proper_faces (map fst fs) /\ oriented (map fst fs) /\
  (forall i, (i < length vs)%nat -> exists a b c, List.In (a, b, c) (map fst fs) /\ (i = a \/ i = b \/ i = c)) /\
  (forall a b c n, List.In (a, b, c, n) fs -> outward_face l vs a b c n) /\
  (forall x, List.In x l -> convex_hull vs x) /\
  forall x, convex_hull vs x <-> forall a b c n, List.In (a, b, c, n) fs -> dot n (vsub x (vpos vs a)) <= 0.
