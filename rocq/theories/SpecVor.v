(** Vocabulary for Voronoi diagrams of points in the plane. *)
From Verif Require Export Spec SpecGeom SpecShape.
From Coq Require Import List.
Import ListNotations.
Open Scope R_scope.

(** the list of successors in a closed loop *)
Definition rotate {A} (l : list A) : list A := match l with [] => [] | x :: r => r ++ [x] end.
(** the loop [nodes] is the boundary of the part of the plane that is nearer to [v] than to the other [sites]; [us] are the
    sites on the other side of its sides *)
Record voronoi_polygon (sites : list vec2) (v : vec2) (nodes us : list vec2) : Prop := {
  P_size : length us = length nodes /\ (3 <= length nodes)%nat;
  (** each side faces another site *)
  P_us : NoDup us /\ forall u, List.In u us -> List.In u sites /\ u <> v;
  (** both ends of a side are as far from the seed as from the site it faces; sides follow each other clockwise *)
  P_side : forall k n n' u u', nth_error nodes k = Some n -> nth_error (rotate nodes) k = Some n' -> nth_error us k = Some u -> nth_error (rotate us) k = Some u' ->
    dist2 n v = dist2 n u /\ dist2 n' v = dist2 n' u /\ dist2 n' v = dist2 n' u' /\ 0 < area2 v u' u;
  (** no site is nearer to a node than the seed *)
  P_near : forall n q, List.In n nodes -> List.In q sites -> dist2 n v <= dist2 n q;
  (** the seed is nearest exactly for the positions on its side of all sides *)
  P_cell : forall x, (forall q, List.In q sites -> dist2 x v <= dist2 x q) <-> (forall u, List.In u us -> dist2 x v <= dist2 x u) }.
(** one cell for each point, in order *)
Definition voronoi_diagram (sites data : list vec2) (cells : list (vec2 * list vec2)) : Prop :=
  map fst cells = data /\ forall v nodes, List.In (v, nodes) cells -> exists us, voronoi_polygon sites v nodes us.
