(** Property C54: bounding balls of point sets. *)
From Verif Require Import Base Spec SpecGeom SpecBall ModelVec ModelElem ModelShape ModelBall FactsVec FactsAlg FactsElem FactsCentre FactsRound FactsBall FactsBall2 FactsBall3 FactsBallQ FactsBallQ3.
From Coq Require Import List Lra Lia.
Import ListNotations.
Open Scope R_scope.

(** [ball_holds c r l]: every point of [l] is within [r] of [c]; [least_ball r l]: no ball holding [l] has a radius below [r]; [on_sphere c r l]: all points of [l] at distance [r] from [c] *)
(** the iterative version in the plane ends; its disk is bounded by one to three of the points, no enclosing disk is smaller, and unless a warning was issued it holds every point up to the tolerance *)
Theorem C54_plane : forall l, l <> [] -> exists N b d warned, (forall fuel, (N <= fuel)%nat -> zVec2DDataBoundingBall fuel l = Found (Some b) warned) /\
  fball b = Some d /\ incl (fpoints b) l /\ (1 <= length (fpoints b) <= 3)%nat /\ on_circle (dcen d) (drad d) (fpoints b) /\ 0 <= drad d /\ least_disk (drad d) l /\
  (warned = false -> forall p, List.In p l -> dist2 (dcen d) p < drad d + zTOL).
Proof. exact plane_ball. Qed.
Print Assumptions C54_plane.
(** the recursive version never exceeds the least radius *)
Theorem C54_plane_recursive : forall l, l <> [] -> exists b d, zVec2DDataBoundingBallRecursive l = Some b /\
  fball b = Some d /\ incl (fpoints b) l /\ (1 <= length (fpoints b) <= 3)%nat /\ on_circle (dcen d) (drad d) (fpoints b) /\ 0 <= drad d /\ least_disk (drad d) l.
Proof. exact plane_recursive. Qed.
Print Assumptions C54_plane_recursive.
(** it may leave a point out by more than 3 *)
Theorem C54_plane_recursive_refuted : exists l b d p, zVec2DDataBoundingBallRecursive l = Some b /\ fball b = Some d /\ List.In p l /\ drad d + 3 < dist2 (dcen d) p.
Proof. exact recursive_forgets. Qed.
Print Assumptions C54_plane_recursive_refuted.
(** in space: either the null pointer of a flat tetrahedron is followed, or the ball is bounded by one to four of the points and holds every point unless a warning was issued; it is the least one when bounded by one or two points or for up to three points *)
Theorem C54_space : forall l, l <> [] -> exists N r, (forall fuel, (N <= fuel)%nat -> zVec3DDataBoundingBall fuel l = r) /\
  ((r = Crashed /\ (3 < length l)%nat) \/
   exists b d warned, r = Found (Some b) warned /\ fball b = Some d /\ incl (fpoints b) l /\ (1 <= length (fpoints b) <= 4)%nat /\ on_sphere (scen d) (srad d) (fpoints b) /\ 0 <= srad d /\
     ((length (fpoints b) <= 2)%nat \/ (length l <= 3)%nat -> least_ball (srad d) l) /\
     (warned = false -> forall p, List.In p l -> dist (scen d) p < srad d + zTOL)).
Proof. exact space_ball. Qed.
Print Assumptions C54_space.
Theorem C54_space_recursive : forall l b, l <> [] -> zVec3DDataBoundingBallRecursive l = Some b -> exists d, fball b = Some d /\ incl (fpoints b) l /\ (1 <= length (fpoints b) <= 4)%nat /\
  on_sphere (scen d) (srad d) (fpoints b) /\ 0 <= srad d /\ ((length (fpoints b) <= 2)%nat \/ (length l <= 3)%nat -> least_ball (srad d) l).
Proof. exact space_recursive. Qed.
Print Assumptions C54_space_recursive.
Theorem C54_space_recursive_refuted : exists l b d p, zVec3DDataBoundingBallRecursive l = Some b /\ fball b = Some d /\ List.In p l /\ srad d + 3 / 2 < dist (scen d) p.
Proof. exact recursive_forgets3. Qed.
Print Assumptions C54_space_recursive_refuted.
(** a ball of radius above 12 is returned, without a warning, for points that fit into one of radius 7/2 *)
Theorem C54_space_refuted : exists N l b d, (forall fuel, (N <= fuel)%nat -> zVec3DDataBoundingBall fuel l = Found (Some b) false) /\ fball b = Some d /\
  ball_holds v3zero (7 / 2) l /\ 12 < srad d.
Proof. exact space_not_least. Qed.
Print Assumptions C54_space_refuted.
(** no points: a disk of radius -1 *)
Theorem C54_empty_plane : exists N d, (forall fuel, (N <= fuel)%nat -> zVec2DDataBoundingBall fuel [] = Found (Some (FD [] (Some d))) false) /\ zVec2DDataBoundingBallRecursive [] = Some (FD [] (Some d)) /\ drad d = -1.
Proof. exact empty2. Qed.
Print Assumptions C54_empty_plane.
Theorem C54_empty_space : exists N d, (forall fuel, (N <= fuel)%nat -> zVec3DDataBoundingBall fuel [] = Found (Some (FD [] (Some d))) false) /\ zVec3DDataBoundingBallRecursive [] = Some (FD [] (Some d)) /\ srad d = -1.
Proof. exact empty3. Qed.
Print Assumptions C54_empty_space.
Example C54_ex : exists N b d w, (forall fuel, (N <= fuel)%nat -> zVec2DDataBoundingBall fuel [V2 0 0; V2 4 0; V2 1 1] = Found (Some b) w) /\ fball b = Some d /\ 0 <= drad d <= 2.
Proof.
  destruct (C54_plane [V2 0 0; V2 4 0; V2 1 1] ltac:(discriminate)) as (N & b & d & w & R & E & _ & _ & _ & P & M & _). exists N, b, d, w. split; [exact R|]. split; [exact E|]. split; [exact P|].
  apply (M (V2 2 0) 2). intros p I. unfold disk. apply Rsqr_incr_0_var; [|Lra.lra]. unfold dist2, norm_2, Rsqr. rewrite sqrt_sqrt; destruct I as [<-|[<-|[<-|[]]]]; cbv [dot2 vsub2 x2 y2]; cbn; Lra.lra.
Qed.
Example C54_ex_space : exists l b, l <> [] /\ zVec3DDataBoundingBallRecursive l = Some b.
Proof. destruct recursive_forgets3 as (l & b & d & p & R & _ & I & _). exists l, b. split; [intros ->; destruct I|exact R]. Qed.
