(** Property C48: barycentre, covariance, principal components of points. *)
From Verif Require Import Base Spec SpecGeom SpecData SpecPCA ModelVec ModelMat ModelFrame ModelElem ModelData ModelPCA FactsVec FactsData FactsData2 FactsPCA FactsPCA2.
From Coq Require Import Lra Lia Permutation.
Open Scope R_scope.

(** [vmean l]: coordinates are the means of the coordinates; [spread l c x]: mean square of the coordinate along [x] measured from [c] *)
(** the barycentre minimises the mean squared distance *)
Theorem C48_barycentre : forall d l, user_data d -> (exists d', zVecXDDataToAddrList d = Some (d', l)) -> l <> [] -> exists d', zVec3DDataBarycenter d = Some (d', Some (vmean l)) /\ forall c, mean (fun p => dist p c * dist p c) l = mean (fun p => dist p (vmean l) * dist p (vmean l)) l + dist (vmean l) c * dist (vmean l) c.
Proof. exact pca_barycentre. Qed.
Print Assumptions C48_barycentre.
Theorem C48_covariance : forall d l c, user_data d -> (exists d', zVecXDDataToAddrList d = Some (d', l)) -> l <> [] -> exists d' m, zVec3DDataCov d c = Some (d', Some m) /\ symmetric m /\ (forall x y, dot x (mvec m y) = mean (fun p => dot (vsub p c) x * dot (vsub p c) y) l) /\ mtrace m = mean (fun p => dist p c * dist p c) l.
Proof. exact pca_covariance. Qed.
Print Assumptions C48_covariance.
(** computing both at once gives the same *)
Theorem C48_together : forall d l, user_data d -> (exists d', zVecXDDataToAddrList d = Some (d', l)) -> l <> [] -> exists d1 d2 d3 b m, zVec3DDataBarycenter d = Some (d1, Some b) /\ zVec3DDataCov d b = Some (d2, Some m) /\ zVec3DDataBaryCov d = Some (d3, Some (b, m)).
Proof. exact pca_barycov. Qed.
Print Assumptions C48_together.
(** the order of the points is immaterial *)
Theorem C48_order : forall d l d0 l0 c, user_data d -> (exists d', zVecXDDataToAddrList d = Some (d', l)) -> user_data d0 -> (exists d', zVecXDDataToAddrList d0 = Some (d', l0)) -> l <> [] -> Permutation l l0 ->
  exists d1 d2 d3 d4 b m, zVec3DDataBarycenter d = Some (d1, Some b) /\ zVec3DDataBarycenter d0 = Some (d2, Some b) /\ zVec3DDataCov d c = Some (d3, Some m) /\ zVec3DDataCov d0 c = Some (d4, Some m).
Proof. exact pca_order. Qed.
Print Assumptions C48_order.
(** the iteration terminates; variances are those along orthonormal axes, uncorrelated up to the tolerance *)
Theorem C48_components : forall d l c, user_data d -> (exists d', zVecXDDataToAddrList d = Some (d', l)) -> l <> [] -> (exists fuel d' r, zVec3DDataPCA fuel d c = Some (d', Some r)) /\
  forall fuel d' r, zVec3DDataPCA fuel d c = Some (d', r) -> exists pc pa, r = Some (pc, pa) /\ principal l c pc pa zTOL.
Proof. exact pca_components. Qed.
Print Assumptions C48_components.
Theorem C48_bary_components : forall d l, user_data d -> (exists d', zVecXDDataToAddrList d = Some (d', l)) -> l <> [] -> (exists fuel d' r, zVec3DDataBaryPCA fuel d = Some (d', Some r)) /\
  forall fuel d' r, zVec3DDataBaryPCA fuel d = Some (d', r) -> exists pc pa, r = Some (vmean l, (pc, pa)) /\ principal l (vmean l) pc pa zTOL.
Proof. exact pca_bary_components. Qed.
Print Assumptions C48_bary_components.
(** a right-handed frame at the barycentre along principal axes *)
Theorem C48_frame : forall d l, user_data d -> (exists d', zVecXDDataToAddrList d = Some (d', l)) -> l <> [] -> (exists fuel d' f, zVec3DDataPCAFrame fuel d = Some (d', Some f)) /\
  forall fuel d' r, zVec3DDataPCAFrame fuel d = Some (d', r) -> exists f pc, r = Some f /\ fpos f = vmean l /\ principal l (vmean l) pc (fatt f) zTOL.
Proof. exact pca_frame. Qed.
Print Assumptions C48_frame.
(** unit normal of a plane through the given point of least mean squared distance *)
Theorem C48_normal : forall d l c, user_data d -> (exists d', zVecXDDataToAddrList d = Some (d', l)) -> l <> [] -> (exists fuel d' v, zVec3DDataMeanNormal fuel d c = Some (d', Some v)) /\
  forall fuel d' r, zVec3DDataMeanNormal fuel d c = Some (d', r) -> exists v, r = Some v /\ norm v = 1 /\ forall x, norm x = 1 -> spread l c v <= spread l c x + 4 * zTOL.
Proof. exact pca_normal. Qed.
Print Assumptions C48_normal.
(** no plane has a lesser mean squared distance, up to the tolerance *)
Theorem C48_plane : forall d l, user_data d -> (exists d', zVecXDDataToAddrList d = Some (d', l)) -> l <> [] -> (exists fuel d' r, zVec3DDataMeanPlane fuel d = Some (d', Some r)) /\
  forall fuel d' r, zVec3DDataMeanPlane fuel d = Some (d', r) -> exists pl, r = Some (vmean l, Some pl) /\ porg pl = vmean l /\ norm (pnorm pl) = 1 /\ forall c x, norm x = 1 -> spread l (vmean l) (pnorm pl) <= spread l c x + 4 * zTOL.
Proof. exact pca_plane. Qed.
Print Assumptions C48_plane.
(** an empty set is refused *)
Theorem C48_empty : forall d, user_data d -> (exists d', zVecXDDataToAddrList d = Some (d', [])) -> exists d', zVec3DDataBarycenter d = Some (d', None) /\ (forall c, exists d', zVec3DDataCov d c = Some (d', None)) /\ (exists d', zVec3DDataBaryCov d = Some (d', None)).
Proof. exact pca_empty. Qed.
Print Assumptions C48_empty.
Example C48_ex : exists d l, user_data d /\ (exists d', zVecXDDataToAddrList d = Some (d', l)) /\ l <> [] /\ vmean l = V3 1 2 3 /\ spread l (V3 1 2 3) (V3 1 0 0) = 1.
Proof.
  exists (zVecXDDataAssignArray [V3 0 2 3; V3 2 2 3]), [V3 0 2 3; V3 2 2 3].
  split; [constructor|]. split; [eexists; reflexivity|]. split; [discriminate|].
  unfold vmean, spread, mean, rsum, vsub, dot; cbn [fold_right length INR vx vy vz]. split; [f_equal; Lra.lra|Lra.lra].
Qed.
