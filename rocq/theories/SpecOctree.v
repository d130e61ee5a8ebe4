(** Vocabulary for octrees: what a user does. *)
From Verif Require Export Spec SpecGeom SpecBox.
From Coq Require Export List.
Export ListNotations.
Open Scope R_scope.

(** insert a point, change the resolution *)
Inductive oop := OInsert (p : vec3) | OResolution (r : R).
(** the points a history asks to insert, in order *)
Fixpoint inserted (h : list oop) : list vec3 :=
  match h with [] => [] | OInsert p :: t => p :: inserted t | OResolution _ :: t => inserted t end.
(** resolutions asked for are not negative (0 is allowed) *)
Definition sane (h : list oop) : Prop := forall r, List.In (OResolution r) h -> 0 <= r.
