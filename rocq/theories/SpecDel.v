(** Vocabulary for triangulations of points in the plane. *)
From Verif Require Export Spec SpecGeom SpecShape.
From Coq Require Import List.
Import ListNotations.
Open Scope R_scope.

(** every point is off the line through any two others by more than zTOL *)
Definition no_three_in_line (l : list vec2) : Prop :=
  forall i j k a b c, NoDup [i; j; k] -> nth_error l i = Some a -> nth_error l j = Some b -> nth_error l k = Some c ->
    zTOL * dist2 a b < Rabs (area2 a b c).
(** no circle passes through four of the points *)
Definition no_four_on_circle (l : list vec2) : Prop :=
  forall i j k m a b c d o, NoDup [i; j; k; m] -> nth_error l i = Some a -> nth_error l j = Some b -> nth_error l k = Some c -> nth_error l m = Some d ->
    ~ (dist2 o a = dist2 o b /\ dist2 o a = dist2 o c /\ dist2 o a = dist2 o d).
(** [a b c] is a proper triangle in counter-clockwise order, and no point of [l] lies inside the circle through its corners *)
Definition delaunay_triangle (l : list vec2) (a b c : vec2) : Prop :=
  0 < area2 a b c /\ exists o, dist2 o a = dist2 o b /\ dist2 o a = dist2 o c /\ forall q, List.In q l -> dist2 o a <= dist2 o q.
(** strictly inside a triangle in counter-clockwise order *)
Definition inside_triangle (a b c p : vec2) : Prop := 0 < area2 b c p /\ 0 < area2 c a p /\ 0 < area2 a b p.
(** strictly inside the triangle whose corners are listed *)
Definition within (l : list vec2) (p : vec2) : Prop := match l with [a; b; c] => inside_triangle a b c p | _ => False end.
Definition triple : Type := vec2 * vec2 * vec2.
Definition inside_triple (t : triple) (x : vec2) : Prop := let '(a, b, c) := t in inside_triangle a b c x.
Definition in_triple (t : triple) (x : vec2) : Prop := let '(a, b, c) := t in in_triangle2 a b c x.
(** the triangles [l] of the points [data], when the three points [outer] are also in the plane *)
Record delaunay_list (outer data : list vec2) (l : list triple) : Prop := {
  (** each joins three of the data and has an empty circumcircle *)
  D_sound : forall a b c, List.In (a, b, c) l -> List.In a data /\ List.In b data /\ List.In c data /\ delaunay_triangle (outer ++ data) a b c;
  (** no two overlap *)
  D_apart : forall i j s t x, nth_error l i = Some s -> nth_error l j = Some t -> inside_triple s x -> inside_triple t x -> i = j;
  (** three data whose circle keeps all other points outside are joined *)
  D_full : forall a b c o, List.In a data -> List.In b data -> List.In c data -> 0 < area2 a b c -> dist2 o a = dist2 o b -> dist2 o a = dist2 o c ->
    (forall q, List.In q (outer ++ data) -> q = a \/ q = b \/ q = c \/ dist2 o a < dist2 o q) -> List.In (a, b, c) l \/ List.In (b, c, a) l \/ List.In (c, a, b) l;
  (** if other data lie on the circle, the triangle of the three is still covered *)
  D_cover : forall a b c o x, List.In a data -> List.In b data -> List.In c data -> 0 < area2 a b c -> dist2 o a = dist2 o b -> dist2 o a = dist2 o c ->
    (forall q, List.In q data -> dist2 o a <= dist2 o q) -> (forall q, List.In q outer -> dist2 o a < dist2 o q) -> inside_triangle a b c x -> exists t, List.In t l /\ in_triple t x }.
