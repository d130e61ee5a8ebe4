(** Histories of a stack. *)
From Coq Require Import List.
Import ListNotations.

Inductive op (A : Type) := Push (a : A) | Pop.
Arguments Push {A} a. Arguments Pop {A}.
(** histories in which every push is taken back by a later pop *)
Inductive balanced {A} : list (op A) -> Prop :=
| bal_nil : balanced []
| bal_pair a h : balanced h -> balanced (Push a :: h ++ [Pop])
| bal_app h k : balanced h -> balanced k -> balanced (h ++ k).
(** what is left: pushed elements that no pop takes back, between them balanced histories *)
Inductive left_over {A} : list (op A) -> list A -> Prop :=
| left_balanced h : balanced h -> left_over h []
| left_push h a l : left_over h l -> left_over (h ++ [Push a]) (l ++ [a])
| left_more h k l : left_over h l -> balanced k -> left_over (h ++ k) l.
