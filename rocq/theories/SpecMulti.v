(** Vocabulary for sets of solids given by a list of shapes. *)
From Verif Require Export SpecShape.
From Coq Require Import List.
Open Scope R_scope.

(** points of at least one of the sets *)
Definition union (Ss : list (vec3 -> Prop)) (p : vec3) : Prop := exists S, List.In S Ss /\ S p.
(** interior points: a ball around the point belongs to the set *)
Definition inner_point (S : vec3 -> Prop) (p : vec3) : Prop := exists e, 0 < e /\ forall q, dist p q < e -> S q.
