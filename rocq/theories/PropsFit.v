(** C87: fit of a sphere to points. *)
From Verif Require Import Base SpecFit ModelVec ModelData ModelPCA ModelFit FactsAlg FactsVec FactsData FactsPCA FactsProfile FactsIcp FactsFit FactsFit2.
From Coq Require Import List.
From Coq Require Lra Lia Psatz.
Import ListNotations.
Open Scope R_scope.

(** points on a sphere, not all in one plane: the sphere is found, and the iteration stops *)
Theorem C87_exact : forall solve d l c r, least_squares solve -> holds d l -> 0 < r -> (forall p, List.In p l -> dist p c = r) -> ~ coplanar l ->
  (forall n, exists d' c' r' b, zSphere3DFit solve (S n) d = Some (d', (c', r', b)) /\ holds d' l /\
    Rabs (vx c' - vx c) <= zTOL / 2 /\ Rabs (vy c' - vy c) <= zTOL / 2 /\ Rabs (vz c' - vz c) <= zTOL / 2 /\ (b = true -> Rabs (r' - r) <= 2 * zTOL)) /\
  exists k, forall n, (k <= n)%nat -> exists d' c' r', zSphere3DFit solve n d = Some (d', (c', r', true)).
Proof. exact fit_exact. Qed.
Print Assumptions C87_exact.
(** any points not in one plane: where the iteration stops by itself the deviation does not change in first order, up to the tolerance *)
Theorem C87_stationary : forall solve n d l d' c r, least_squares solve -> holds d l -> ~ coplanar l -> zSphere3DFit solve n d = Some (d', (c, r, true)) -> r <> 0 ->
  forall u s m, Rabs (vx u) <= m -> Rabs (vy u) <= m -> Rabs (vz u) <= m -> Rabs s <= m ->
  exists g, derivable_pt_lim (fun t => deviation l (vadd c (vscale t u)) (r + t * s)) 0 g /\ Rabs g <= 4 * zTOL * m * rsum (fun p => reach c r p * reach c r p) l.
Proof. exact fit_stationary. Qed.
Print Assumptions C87_stationary.
(** points in one plane: the system never determines a step *)
Theorem C87_plane : forall d l c r, holds d l -> coplanar l -> exists d' rows es, fit_system d c r = Some (d', (rows, es)) /\ length rows = length l /\ length es = length l /\ ~ full_rank rows.
Proof. exact fit_plane. Qed.
Print Assumptions C87_plane.
(** no points: division by zero *)
Theorem C87_none : forall solve n d, holds d [] -> zSphere3DFit solve n d = None.
Proof. exact fit_none. Qed.
Print Assumptions C87_none.
(** a least-squares solver exists *)
Example C87_ex_solver : least_squares ls_solver.
Proof. exact ls_solver_ok. Qed.
(** four points of the unit sphere; three of them are in one plane *)
Example C87_ex : holds (zVecXDDataAssignArray [V3 1 0 0; V3 (-1) 0 0; V3 0 1 0; V3 0 0 1]) [V3 1 0 0; V3 (-1) 0 0; V3 0 1 0; V3 0 0 1] /\
  (forall p, List.In p [V3 1 0 0; V3 (-1) 0 0; V3 0 1 0; V3 0 0 1] -> dist p (V3 0 0 0) = 1) /\ ~ coplanar [V3 1 0 0; V3 (-1) 0 0; V3 0 1 0; V3 0 0 1] /\
  coplanar [V3 1 0 0; V3 (-1) 0 0; V3 0 1 0] /\ holds (zVecXDDataAssignArray []) [].
Proof.
  split; [split; [constructor|eexists; reflexivity]|]. split; [|split; [|split; [|split; [constructor|eexists; reflexivity]]]].
  - intros p H. unfold dist, norm. apply sqrt_lem_1; [unfold dot; Psatz.nra|Lra.lra|]. cbn in H. destruct H as [<-|[<-|[<-|[<-|[]]]]]; unfold dot, vsub; cbn [vx vy vz]; Lra.lra.
  - intros (n & c & N & H). apply N. pose proof (H (V3 1 0 0) ltac:(cbn; tauto)) as A. pose proof (H (V3 (-1) 0 0) ltac:(cbn; tauto)) as B. pose proof (H (V3 0 1 0) ltac:(cbn; tauto)) as C. pose proof (H (V3 0 0 1) ltac:(cbn; tauto)) as D. unfold dot in *. cbn [vx vy vz] in *.
    apply vec3_ext; cbn; Lra.lra.
  - exists (V3 0 0 1), 0. split; [intros X; injection X; Lra.lra|]. intros p H. cbn in H. destruct H as [<-|[<-|[<-|[]]]]; unfold dot; cbn [vx vy vz]; Lra.lra.
Qed.
(** so the sphere through them is found by some number of steps *)
Example C87_ex_run : exists n d c r, zSphere3DFit ls_solver n (zVecXDDataAssignArray [V3 1 0 0; V3 (-1) 0 0; V3 0 1 0; V3 0 0 1]) = Some (d, (c, r, true)).
Proof.
  destruct C87_ex as (H & O & N & _ & _). destruct (fit_exact ls_solver _ _ _ 1 ls_solver_ok H Rlt_0_1 O N) as (_ & k & K). destruct (K k (le_n k)) as (d & c & r & E). exists k, d, c, r. exact E.
Qed.
