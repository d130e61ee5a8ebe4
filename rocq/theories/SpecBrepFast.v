(** Vocabulary for parts of polyhedra near a box. *)
From Verif Require Import Base Spec SpecGeom SpecBox SpecCol SpecBrep.
From Coq Require Import List.
Import ListNotations.
Open Scope R_scope.

(** the elements of a list that have a property, in order *)
Inductive picked {A} (P : A -> Prop) : list A -> list A -> Prop :=
| picked_nil : picked P [] []
| picked_take a l k : P a -> picked P l k -> picked P (a :: l) (a :: k)
| picked_skip a l k : ~ P a -> picked P l k -> picked P (a :: l) k.
(** a corner is well inside the box, or a side passes through the inside of a face of the box *)
Definition touched (b : aabox3) (t : vec3 * vec3 * vec3) : Prop :=
  let '(p, q, r) := t in (deep_in b p \/ deep_in b q \/ deep_in b r) \/ exists x, edge_face_hit b p q r x.
(** [b] is what two boxes around two sets of points have in common *)
Definition common_box (l1 l2 : list vec3) (b : aabox3) : Prop :=
  forall p, in_box b p <-> (forall c, (forall q, List.In q l1 -> in_box c q) -> in_box c p) /\ (forall c, (forall q, List.In q l2 -> in_box c q) -> in_box c p).
(** along some axis all points of one set come before (or with) all points of the other *)
Definition side_by_side (l1 l2 : list vec3) : Prop :=
  exists k : vec3 -> R, List.In k [vx; vy; vz] /\ ((forall p q, List.In p l1 -> List.In q l2 -> k p <= k q) \/ (forall p q, List.In p l1 -> List.In q l2 -> k q <= k p)).
