(** C73: singular value decomposition, and the transformation identified from two lists of corresponding points. *)
From Verif Require Import Base Spec SpecGeom SpecData SpecPCA SpecBox SpecFrame SpecProfile ModelVec ModelMat ModelFrame ModelElem ModelData ModelPCA ModelProfile FactsVec FactsAlg FactsData2 FactsPCA FactsSvd FactsProfile FactsProfile2 FactsProfile3 FactsProfile4.
From Coq Require Lra Lia.
Open Scope R_scope.

(** singular values are zero or at least 1e-6; their number is the rank returned; the matrix is the sum of its singular parts up to an error that vanishes for rank three *)
Theorem C73_svd : forall fuel m rank u sv v, zMat3DSVD fuel m = Some (rank, u, sv, v) -> rotation u /\ (rank <= 3)%nat /\
  (forall i, (i < 3)%nat -> (vnth sv i = 0 /\ dot (axis v i) (axis v i) < zTOL) \/ (0 < vnth sv i /\ zTOL <= vnth sv i * vnth sv i /\ norm (axis v i) = 1)) /\
  rank = length (filter (fun i => Rltb 0 (vnth sv i)) [0; 1; 2]%nat) /\
  (forall i j, (i < 3)%nat -> (j < 3)%nat -> i <> j -> vnth sv i * vnth sv j * Rabs (dot (axis v i) (axis v j)) < zTOL) /\
  (forall x, let y := vsub (mvec m x) (vadd (vadd (vscale (vx sv * dot (axis v 0) x) (axis u 0)) (vscale (vy sv * dot (axis v 1) x) (axis u 1))) (vscale (vz sv * dot (axis v 2) x) (axis u 2))) in
     dot y y <= (3 - INR rank) * zTOL * dot x x).
Proof. exact svd_ok. Qed.
Print Assumptions C73_svd.
Theorem C73_svd_done : forall m, exists fuel r, zMat3DSVD fuel m = Some r.
Proof. exact svd_terminates. Qed.
Print Assumptions C73_svd_done.
(** [holds d l]: the data [d], however it was made, holds the points [l] in this order *)
Theorem C73_done : forall src dest l1 l2, holds src l1 -> holds dest l2 -> exists fuel s' d' r, zVec3DDataIdentFrame fuel src dest = Some (s', d', r) /\
  (exists x, zVecXDDataToAddrList s' = Some (x, l1)) /\ (exists x, zVecXDDataToAddrList d' = Some (x, l2)).
Proof. exact ident_done. Qed.
Print Assumptions C73_done.
(** when there is a frame, when it is not a number, when there is none *)
Theorem C73_result : forall fuel src dest l1 l2 s' d' r, holds src l1 -> holds dest l2 -> zVec3DDataIdentFrame fuel src dest = Some (s', d', r) ->
  match r with
  | INull => length l1 <> length l2 \/ (length l1 < 3)%nat
  | INaN _ => length l1 = length l2 /\ (3 <= length l1)%nat /\ exists c, forall p, List.In p l1 -> p = c
  | IFrame _ => length l1 = length l2 /\ (3 <= length l1)%nat /\ ~ exists c, forall p, List.In p l1 -> p = c
  end.
Proof. exact ident_total. Qed.
Print Assumptions C73_result.
Theorem C73_null : forall fuel src dest l1 l2, holds src l1 -> holds dest l2 -> length l1 <> length l2 \/ (length l1 < 3)%nat -> zVec3DDataIdentFrame fuel src dest = Some (src, dest, INull).
Proof. exact ident_null. Qed.
Print Assumptions C73_null.
(** no rotation or reflection fits the points better *)
Theorem C73_best : forall fuel src dest l1 l2 s' d' f s, holds src l1 -> holds dest l2 -> zVec3DDataIdentFrame fuel src dest = Some (s', d', IFrame f) ->
  0 < s -> zTOL <= s * s -> correlated s l1 l2 ->
  (forall q, isometry q -> agreement q l1 l2 <= agreement (fatt f) l1 l2) /\
  (forall x, Rabs (dot (mvec (fatt f) x) (mvec (fatt f) x) - dot x x) <= 2 * (zTOL / (s * s)) * dot x x) /\
  (forall q c, isometry q -> misfit (fatt f) (vsub (vmean l2) (mvec (fatt f) (vmean l1))) l1 l2 <= misfit q c l1 l2 + 2 * (zTOL / (s * s)) * scatter l1) /\
  fpos f = vsub (vmean l2) (vscale (agreement (fatt f) l1 l2 / scatter l1) (mvec (fatt f) (vmean l1))).
Proof. exact ident_best. Qed.
Print Assumptions C73_best.
(** without any assumption on the points *)
Theorem C73_loose : forall fuel src dest l1 l2 s' d' f, holds src l1 -> holds dest l2 -> zVec3DDataIdentFrame fuel src dest = Some (s', d', IFrame f) ->
  (forall q, isometry q -> agreement q l1 l2 <= agreement (fatt f) l1 l2 + 3 * sqrt zTOL) /\
  exists k, k * scatter l1 <= agreement (fatt f) l1 l2 <= k * scatter l1 + 3 * zTOL /\ fpos f = vsub (vmean l2) (vscale k (mvec (fatt f) (vmean l1))).
Proof. exact ident_loose. Qed.
Print Assumptions C73_loose.
(** points moved by a rotation or reflection, scaled and displaced: the same attitude and position are found *)
Theorem C73_recover : forall fuel src dest l k f s s' d' r, holds src l -> holds dest (similar k f l) -> (3 <= length l)%nat -> zVec3DDataIdentFrame fuel src dest = Some (s', d', r) ->
  isometry (fatt f) -> 0 < k -> 0 < s -> zTOL <= (k * s) * (k * s) -> extends s l ->
  exists g, r = IFrame g /\ let e := zTOL / ((k * s) * (k * s)) in
    (forall x, norm (vsub (mvec (fatt g) x) (mvec (fatt f) x)) <= 6 * e * norm x) /\
    norm (vsub (fpos g) (fpos f)) <= 20 * (k * e) * norm (vmean l) /\ 0 < mdet (fatt g) * mdet (fatt f).
Proof. exact ident_recover. Qed.
Print Assumptions C73_recover.
(** three points, or points in a plane: the attitude is singular, so not a rotation *)
Theorem C73_flat : forall fuel src dest l1 l2 s' d' f, holds src l1 -> holds dest l2 -> zVec3DDataIdentFrame fuel src dest = Some (s', d', IFrame f) ->
  coplanar l1 \/ coplanar l2 \/ length l1 = 3%nat -> mdet (fatt f) = 0.
Proof. exact ident_flat. Qed.
Print Assumptions C73_flat.
(** the frame does not take the centre of the points to the centre of the points they are scaled to *)
Theorem C73_scale_refuted : exists src dest l f, holds src l /\ holds dest (map (vscale 2) l) /\ (exists fuel s' d', zVec3DDataIdentFrame fuel src dest = Some (s', d', IFrame f)) /\
  9 <= dist (act f (vmean l)) (vmean (map (vscale 2) l)).
Proof. exact ident_scale_refuted. Qed.
Print Assumptions C73_scale_refuted.
Example C73_ex : holds (zVecXDDataAssignArray tetra) tetra /\ extends 1 tetra /\ zTOL <= (2 * 1) * (2 * 1) /\ length tetra = 4%nat /\ rotation (rotz 1) /\ ~ coplanar tetra.
Proof.
  split; [split; [constructor|eexists; reflexivity]|]. split; [exact tetra_extends|]. split; [pose proof zTOL_small; Lra.lra|]. split; [reflexivity|]. split; [apply rotation_rotz|].
  intros (n & c & N & H). apply N. pose proof (H (V3 11 1 1) ltac:(cbn; auto)) as A. pose proof (H (V3 11 (-1) (-1)) ltac:(cbn; auto)) as B. pose proof (H (V3 9 1 (-1)) ltac:(cbn; auto)) as C. pose proof (H (V3 9 (-1) 1) ltac:(cbn; auto)) as D.
  unfold dot in *; cbn [vx vy vz] in *. apply vec3_ext; cbn [v3zero vx vy vz]; Lra.lra.
Qed.
Example C73_ex_corr : correlated 1 tetra (map (vscale 2) tetra).
Proof.
  intros x N. exists x. split; [exact N|]. rewrite <- xcov_quad. pose proof (norm_sqr x) as Q. rewrite N in Q. unfold xcov. cbv zeta. 
  assert (M : vmean (map (vscale 2) tetra) = V3 20 0 0) by (unfold vmean, mean, rsum, tetra; cbn [map fold_right length INR vx vy vz vscale]; f_equal; Lra.lra). rewrite M, tetra_mean.
  unfold pmean, psum, tetra, mvec, row0, row1, row2, dot, vsub in *. cbn [map combine fold_right fst snd length INR vx vy vz vscale cxx cxy cxz cyx cyy cyz czx czy czz] in *. Lra.nra.
Qed.
Example C73_ex_flat : exists fuel s' d' f, zVec3DDataIdentFrame fuel (zVecXDDataAssignArray [V3 0 0 0; V3 1 0 0; V3 0 1 0]) (zVecXDDataAssignArray [V3 0 0 1; V3 1 0 1; V3 0 1 1]) = Some (s', d', IFrame f).
Proof.
  assert (H1 : holds (zVecXDDataAssignArray [V3 0 0 0; V3 1 0 0; V3 0 1 0]) [V3 0 0 0; V3 1 0 0; V3 0 1 0]) by (split; [constructor|eexists; reflexivity]).
  assert (H2 : holds (zVecXDDataAssignArray [V3 0 0 1; V3 1 0 1; V3 0 1 1]) [V3 0 0 1; V3 1 0 1; V3 0 1 1]) by (split; [constructor|eexists; reflexivity]).
  destruct (ident_done _ _ _ _ H1 H2) as (fuel & s' & d' & r & E & _). exists fuel, s', d'. pose proof (ident_total _ _ _ _ _ _ _ _ H1 H2 E) as T. destruct r as [|a|f].
  - destruct T as [T|T]; cbn in T; Lia.lia.
  - destruct T as (_ & _ & c & T). pose proof (T (V3 0 0 0) ltac:(cbn; auto)) as A. pose proof (T (V3 1 0 0) ltac:(cbn; auto)) as B. rewrite <- A in B. injection B. Lra.lra.
  - exists f. exact E.
Qed.
