(** Extents of point sets along directions *)
From Verif Require Export SpecHull SpecBox.
From Coq Require Import List.
Open Scope R_scope.

(** [w] is the difference of the greatest and the least coordinate along [d] *)
Definition extent (d : vec3) (l : list vec3) (w : R) : Prop :=
  exists p q, List.In p l /\ List.In q l /\ w = dot d (vsub p q) /\ forall x y, List.In x l -> List.In y l -> dot d (vsub x y) <= w.
(** the part of a vector across a unit vector *)
Definition across (n v : vec3) : vec3 := vsub v (vscale (dot n v) n).
(** the points seen along the unit vector [n], from the point [o] *)
Definition shadows (o n : vec3) (l : list vec3) : list vec3 := map (fun v => across n (vsub v o)) l.
(** points are equal or two tolerances apart *)
Definition spaced (l : list vec3) : Prop := forall p q, List.In p l -> List.In q l -> p = q \/ 2 * zTOL <= dist p q.
(** no direction of [ds] has a smaller extent than [d] *)
Definition thinnest (l ds : list vec3) (d : vec3) : Prop := forall d' w w', List.In d' ds -> extent d l w -> extent d' l w' -> w <= w'.
