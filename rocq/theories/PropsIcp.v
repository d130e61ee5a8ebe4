(** C74: normal vectors of a set of points. C75: iterative closest point method. *)
From Verif Require Import Base Spec SpecGeom SpecData SpecPCA SpecBox SpecFrame SpecProfile SpecIcp ModelVec ModelMat ModelFrame ModelElem ModelData ModelPCA ModelProfile ModelIcp FactsVec FactsAlg FactsData2 FactsPCA FactsSvd FactsProfile FactsProfile4 FactsIcp FactsIcp2.
From Coq Require Lra Lia.
Open Scope R_scope.

(** [holds d l]: the data [d], however it was made, holds the points [l] in this order. [normal_at l r c p n]: of length one, not towards [c], and a direction along which the points around [p] deviate least from [p] *)
Theorem C74_normals : forall d l r, holds d l -> l <> [] -> 0 < r -> exists n, forall fuel, (n <= fuel)%nat -> exists d' nd ns,
  zVec3DDataNormalVec fuel d r = Some (d', NData nd) /\ holds d' l /\ holds nd ns /\ Forall2 (normal_at l r (vmean l)) l ns.
Proof. exact normal_octree. Qed.
Print Assumptions C74_normals.
(** the same with the other search structure *)
Theorem C74_tree : forall d l r, holds d l -> l <> [] -> 0 < r -> exists n, forall fuel, (n <= fuel)%nat -> exists d' nd ns,
  zVec3DDataNormalVec_Tree fuel d r = Some (d', NData nd) /\ holds d' l /\ holds nd ns /\ Forall2 (normal_at l r (vmean l)) l ns.
Proof. exact normal_tree. Qed.
Print Assumptions C74_tree.
(** no point: an empty result from one function, uninitialised numbers in the other *)
Theorem C74_none : forall d r fuel, holds d [] -> (exists d' nd, zVec3DDataNormalVec_Tree fuel d r = Some (d', NData nd) /\ holds nd []) /\ (exists d', zVec3DDataNormalVec fuel d r = Some (d', NUndef)).
Proof. exact normal_none. Qed.
Print Assumptions C74_none.
(** radius zero: the normal vector is not set *)
Theorem C74_zero : forall d l, holds d l -> l <> [] -> forall fuel, exists d', zVec3DDataNormalVec_Tree fuel d 0 = Some (d', NUndef).
Proof. exact normal_zero. Qed.
Print Assumptions C74_zero.
Theorem C74_zero_octree : forall d l, holds d l -> l <> [] -> exists n, forall fuel, (n <= fuel)%nat -> exists d', zVec3DDataNormalVec fuel d 0 = Some (d', NUndef).
Proof. exact normal_zero_octree. Qed.
Print Assumptions C74_zero_octree.
Example C74_ex_holds : holds (zVecXDDataAssignArray [V3 0 0 0; V3 1 0 0; V3 0 1 0; V3 1 1 0]) [V3 0 0 0; V3 1 0 0; V3 0 1 0; V3 1 1 0].
Proof. split; [constructor|eexists; reflexivity]. Qed.
Example C74_ex_plane : forall l r c p n, normal_at l r c p n -> (forall q, List.In q l -> vz q = vz p) -> exists near far, Permutation (near ++ far) l /\ (forall q, List.In q near -> dist q p < r) /\ (forall q, List.In q far -> r <= dist q p) /\ spread near p n <= 4 * zTOL.
Proof.
  intros l r c p n (N & O & near & far & P & A & B & S) Z. exists near, far. split; [exact P|]. split; [exact A|]. split; [exact B|].
  assert (U : norm (V3 0 0 1) = 1) by (unfold norm, dot; cbn [vx vy vz]; replace (0 * 0 + 0 * 0 + 1 * 1) with 1 by Lra.lra; apply sqrt_1). specialize (S _ U).
  assert (E : spread near p (V3 0 0 1) = 0); [|Lra.lra]. unfold spread, mean. assert (R : rsum (fun q => dot (vsub q p) (V3 0 0 1) * dot (vsub q p) (V3 0 0 1)) near = 0); [|rewrite R; unfold Rdiv; apply Rmult_0_l].
  assert (I : forall q, List.In q near -> vz q = vz p) by (intros q Hq; apply Z; rewrite <- P; apply in_or_app; auto). clear -I. induction near as [|q m IH]; [reflexivity|]. unfold rsum in *. cbn [fold_right]. rewrite IH by (intros; apply I; right; assumption). unfold dot, vsub. cbn [vx vy vz]. rewrite (I q (or_introl eq_refl)). ring.
Qed.
(** every point considered in the last round is close to a target point *)
Theorem C75_converged : forall fuel rand src dest rate tol l l' src' dest' j f, holds src l -> holds dest l' -> zVec3DDataICP fuel rand src dest rate tol = Some (src', dest', ICPConverged j f) ->
  (j < 200)%nat /\ 0 < tol /\ matched (fun n => rand j n <= rate) tol f l l'.
Proof. exact icp_converged. Qed.
Print Assumptions C75_converged.
(** all points are considered if the rate is one *)
Theorem C75_full : forall fuel rand src dest rate tol l l' src' dest' j f, holds src l -> holds dest l' -> 1 <= rate -> (forall i k, rand i k <= 1) -> zVec3DDataICP fuel rand src dest rate tol = Some (src', dest', ICPConverged j f) ->
  forall p, List.In p l -> exists q, List.In q l' /\ dist (act f p) q < tol.
Proof. exact icp_full. Qed.
Print Assumptions C75_full.
Theorem C75_done : forall rand src dest rate tol l l', holds src l -> holds dest l' -> l <> [] -> l' <> [] -> exists n, forall fuel, (n <= fuel)%nat -> exists src' dest' r, zVec3DDataICP fuel rand src dest rate tol = Some (src', dest', r).
Proof. exact icp_done. Qed.
Print Assumptions C75_done.
(** no source or target point: undefined *)
Theorem C75_empty : forall fuel rand src dest rate tol l l', holds src l -> holds dest l' -> l = [] \/ l' = [] -> zVec3DDataICP fuel rand src dest rate tol = None.
Proof. exact icp_empty. Qed.
Print Assumptions C75_empty.
(** a frame that is not a number needs coinciding source points *)
Theorem C75_nan : forall fuel rand src dest rate tol l l' src' dest', holds src l -> holds dest l' -> zVec3DDataICP fuel rand src dest rate tol = Some (src', dest', ICPNaN) ->
  exists n1 n2 p, n1 <> n2 /\ nth_error l n1 = Some p /\ nth_error l n2 = Some p.
Proof. exact icp_nan. Qed.
Print Assumptions C75_nan.
(** a good displacement of the centres is kept *)
Theorem C75_first : forall rand src dest rate tol l l' fuel, holds src l -> holds dest l' -> l <> [] -> l' <> [] -> 0 < tol ->
  (forall n p, nth_error l n = Some p -> rand 0%nat n <= rate -> exists q, List.In q l' /\ dist (act (centring l l') p) q < tol) ->
  exists src' dest', zVec3DDataICP fuel rand src dest rate tol = Some (src', dest', ICPConverged 0 (centring l l')).
Proof. exact icp_first. Qed.
Print Assumptions C75_first.
(** points displaced, in whatever order: found exactly in the first round *)
Theorem C75_shift : forall rand src dest rate tol l l' t fuel, holds src l -> holds dest l' -> l <> [] -> 0 < tol -> Permutation l' (map (vadd t) l) ->
  exists src' dest' f, zVec3DDataICP fuel rand src dest rate tol = Some (src', dest', ICPConverged 0 f) /\ forall p, act f p = vadd t p.
Proof. exact icp_shift. Qed.
Print Assumptions C75_shift.
(** fewer than three points: only the displacement of the centres *)
Theorem C75_few : forall fuel rand src dest rate tol l l' src' dest' r, holds src l -> holds dest l' -> (length l < 3)%nat -> zVec3DDataICP fuel rand src dest rate tol = Some (src', dest', r) -> r = ICPGaveUp (centring l l') \/ exists j, r = ICPConverged j (centring l l').
Proof. exact icp_few. Qed.
Print Assumptions C75_few.
(** success is reported when no point is considered *)
Theorem C75_nosample : forall rand src dest rate tol l l' fuel, holds src l -> holds dest l' -> l <> [] -> l' <> [] -> 0 < tol -> (forall n, (n < length l)%nat -> rate < rand 0%nat n) ->
  exists src' dest', zVec3DDataICP fuel rand src dest rate tol = Some (src', dest', ICPConverged 0 (centring l l')).
Proof. exact icp_nosample. Qed.
Print Assumptions C75_nosample.
(** success is reported for a frame that is worse than the displacement of the centres *)
Theorem C75_worse_refuted : exists rand src dest l l' fuel src' dest' g, (forall i k, 0 <= rand i k <= 1) /\ holds src l /\ holds dest l' /\
  zVec3DDataICP fuel rand src dest (1 / 2) 1 = Some (src', dest', ICPConverged 1 g) /\
  (forall p, List.In p l -> exists q, List.In q l' /\ dist (act (centring l l') p) q < 2) /\ (forall p q, List.In p l -> List.In q l' -> 6 < dist (act g p) q).
Proof. exact icp_worse. Qed.
Print Assumptions C75_worse_refuted.
Example C75_ex : exists src' dest' f, zVec3DDataICP 0 (fun _ _ => 0) (zVecXDDataAssignArray [V3 0 0 0; V3 1 0 0; V3 0 2 0]) (zVecXDDataAssignArray [V3 5 2 0; V3 5 0 0; V3 6 0 0]) (1 / 2) (1 / 1000) = Some (src', dest', ICPConverged 0 f) /\ forall p, act f p = vadd (V3 5 0 0) p.
Proof.
  apply (icp_shift (fun _ _ => 0) _ _ (1 / 2) (1 / 1000) [V3 0 0 0; V3 1 0 0; V3 0 2 0] [V3 5 2 0; V3 5 0 0; V3 6 0 0] (V3 5 0 0) 0); try (split; [constructor|eexists; reflexivity]); try discriminate; try Lra.lra.
  unfold vadd. cbn [map vx vy vz]. replace (5 + 0) with 5 by ring. replace (0 + 0) with 0 by ring. replace (5 + 1) with 6 by ring. replace (0 + 2) with 2 by ring.
  apply (Permutation_trans (l' := [V3 5 0 0; V3 5 2 0; V3 6 0 0])); [apply perm_swap|]. constructor. apply perm_swap.
Qed.
