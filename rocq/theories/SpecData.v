(** Vocabulary for point containers: a sequence with a reading position. *)
From Verif Require Export Spec SpecGeom.
From Coq Require Export List.
Export ListNotations.
Open Scope R_scope.

(** what a user does to a container *)
Inductive op (A : Type) : Type := OAdd (v : A) | ORewind | OPeek | OFetch | OSize | OEmpty.
Arguments OAdd {A} v. Arguments ORewind {A}. Arguments OPeek {A}. Arguments OFetch {A}. Arguments OSize {A}. Arguments OEmpty {A}.
(** what a user observes *)
Inductive obs (A : Type) : Type := BFlag (b : bool) | BPoint (p : option A) | BNum (n : nat) | BUnit.
Arguments BFlag {A} b. Arguments BPoint {A} p. Arguments BNum {A} n. Arguments BUnit {A}.
(** points added by a history, in order *)
Fixpoint added {A} (h : list (op A)) : list A :=
  match h with [] => [] | OAdd v :: t => v :: added t | _ :: t => added t end.
(** a history that does not add *)
Definition reading {A} (h : list (op A)) : Prop := forall v, ~ List.In (OAdd v) h.
(** observations of a sequence with a cursor ([None]: at the end) under reading operations *)
Definition advance {A} (l : list A) (c : option nat) : option nat :=
  match c with Some i => if Nat.ltb (S i) (length l) then Some (S i) else None | None => None end.
Definition cur {A} (l : list A) (c : option nat) : option A := match c with Some i => nth_error l i | None => None end.
Definition first {A} (l : list A) : option nat := match l with [] => None | _ => Some 0%nat end.
Fixpoint observe {A} (l : list A) (c : option nat) (h : list (op A)) : list (obs A) :=
  match h with
  | [] => []
  | OAdd v :: t => BFlag true :: observe (l ++ [v]) c t
  | ORewind :: t => BUnit :: observe l (first l) t
  | OPeek :: t => BPoint (cur l c) :: observe l c t
  | OFetch :: t => BPoint (cur l c) :: observe l (advance l c) t
  | OSize :: t => BNum (length l) :: observe l c t
  | OEmpty :: t => BFlag (match l with [] => true | _ => false end) :: observe l c t
  end.
(** the same for a container that refuses to add *)
Fixpoint observe_fixed {A} (l : list A) (c : option nat) (h : list (op A)) : list (obs A) :=
  match h with
  | [] => []
  | OAdd v :: t => BFlag false :: observe_fixed l c t
  | ORewind :: t => BUnit :: observe_fixed l (first l) t
  | OPeek :: t => BPoint (cur l c) :: observe_fixed l c t
  | OFetch :: t => BPoint (cur l c) :: observe_fixed l (advance l c) t
  | OSize :: t => BNum (length l) :: observe_fixed l c t
  | OEmpty :: t => BFlag (match l with [] => true | _ => false end) :: observe_fixed l c t
  end.
(** members of [l] nearest to / farthest along *)
Definition nearest_in {A} (sqd : A -> R) (l : list A) (x : A) : Prop := List.In x l /\ forall y, List.In y l -> sqd x <= sqd y.
Definition extreme_in {A} (f : A -> R) (l : list A) (x : A) : Prop := List.In x l /\ forall y, List.In y l -> f y <= f x.
