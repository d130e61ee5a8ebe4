(** Vocabulary for enclosing balls *)
From Verif Require Export SpecShape.
From Coq Require Import List.
Open Scope R_scope.

(** every point of the list is in the disk or ball *)
Definition disk_holds (c : vec2) (r : R) (l : list vec2) : Prop := forall p, List.In p l -> disk c r p.
Definition ball_holds (c : vec3) (r : R) (l : list vec3) : Prop := forall p, List.In p l -> ball c r p.
(** and no smaller one does *)
Definition least_disk (r : R) (l : list vec2) : Prop := forall c r', disk_holds c r' l -> r <= r'.
Definition least_ball (r : R) (l : list vec3) : Prop := forall c r', ball_holds c r' l -> r <= r'.
(** every point of the list is on the circle or sphere *)
Definition on_circle (c : vec2) (r : R) (l : list vec2) : Prop := forall p, List.In p l -> dist2 c p = r.
Definition on_sphere (c : vec3) (r : R) (l : list vec3) : Prop := forall p, List.In p l -> dist c p = r.
