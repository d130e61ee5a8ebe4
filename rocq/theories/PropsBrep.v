(** Property C57: boundary representations. *)
From Verif Require Import Base Spec SpecMesh SpecBrep ModelBrep FactsAlg FactsVec FactsPH2 FactsBrep10 FactsBrep FactsBrep2 FactsBrep3 FactsBrep9 FactsBrep11 FactsBrep12 FactsBrep13 SpecBrepFast ModelBrepFast FactsBrep14.
From Coq Require Import List Lra Lia.
Import ListNotations.
Open Scope R_scope.

(** * C57 boundary representations *)
(** from a polyhedron *)
Theorem C57_convert : forall ph, valid_ph ph -> exists b, zPH3D2BREP ph = Some b /\ good_brep b /\ no_garbage b /\ single_edges b /\
  Forall2 (fun t f => exists s, face_at b f s /\ close3 zTOL s t) (ph_tris ph) (flist b) /\ map bf_norm (flist b) = map fnrm (pfaces ph) /\
  (well_apart zTOL (pverts ph) -> Forall2 (fun t f => face_at b f t) (ph_tris ph) (flist b)) /\
  (closed (ph_faces ph) -> watertight b).
Proof. exact ph2brep. Qed.
Print Assumptions C57_convert.
(** to a polyhedron *)
Theorem C57_convert_back : forall b, good_verts b -> exists ph, zBREP2PH3D b = Some ph /\ valid_ph ph /\ length (pverts ph) = length (vlist b) /\
  Forall2 (fun f t => face_at b f t) (flist b) (ph_tris ph) /\ (forall p, on_tris (ph_tris ph) p <-> on_brep b p) /\
  Forall (fun f => let t := corners (pverts ph) (fi0 f, fi1 f, fi2 f) in ~ negligible (tri_area t) -> norm (fnrm f) = 1 /\ vscale (norm (tri_area t)) (fnrm f) = tri_area t) (pfaces ph).
Proof. exact brep2ph. Qed.
Print Assumptions C57_convert_back.
(** cutting by one plane: always defined on data in good order, and leaves them so *)
Theorem C57_trunc_good : forall b pl, good_brep b -> exists b', zBREPTrunc b pl = Some b' /\ good_brep b' /\ (no_garbage b -> no_garbage b').
Proof. exact brep_trunc_good. Qed.
Print Assumptions C57_trunc_good.
(** every face is a piece of a face, turned the same way *)
Theorem C57_trunc_pieces : forall b pl b', good_brep b -> zBREPTrunc b pl = Some b' ->
  forall g s, List.In g (flist b') -> face_at b' g s -> exists f t, List.In f (flist b) /\ face_at b f t /\ piece_of t s.
Proof. exact brep_trunc_pieces. Qed.
Print Assumptions C57_trunc_pieces.
(** no point beyond the plane is left *)
Theorem C57_trunc_sound : forall b pl b' p, good_brep b -> zBREPTrunc b pl = Some b' -> on_brep b' p -> on_brep b p /\ height_over (porg pl) (pnorm pl) p < zTOL.
Proof. exact brep_trunc_sound. Qed.
Print Assumptions C57_trunc_sound.
(** no point clearly on the kept side is lost *)
Theorem C57_trunc_complete : forall b pl b' p, good_brep b -> zBREPTrunc b pl = Some b' -> on_brep b p -> height_over (porg pl) (pnorm pl) p <= - zTOL -> on_brep b' p.
Proof. exact brep_trunc_complete. Qed.
Print Assumptions C57_trunc_complete.
(** exactness without vertices nearly on the plane *)
Theorem C57_trunc_exact : forall b pl b' p, good_brep b -> clear_of b (porg pl) (pnorm pl) zTOL -> zBREPTrunc b pl = Some b' ->
  (on_brep b' p -> height_over (porg pl) (pnorm pl) p <= 0) /\
  (on_brep b p -> height_over (porg pl) (pnorm pl) p < 0 -> on_brep b' p) /\
  (forall f t q, List.In f (flist b) -> face_at b f t -> in_tri t p -> in_tri t q -> height_over (porg pl) (pnorm pl) p <= 0 -> height_over (porg pl) (pnorm pl) q < 0 -> on_brep b' p).
Proof. exact brep_trunc_exact. Qed.
Print Assumptions C57_trunc_exact.
(** the border of what is left is on the plane *)
Theorem C57_trunc_tight : forall b pl b' e, good_brep b -> watertight b -> zBREPTrunc b pl = Some b' -> List.In e (elist b') -> balanced b' e \/ edge_on b' e (porg pl) (pnorm pl) zTOL.
Proof. exact brep_trunc_tight. Qed.
Print Assumptions C57_trunc_tight.
(** all planes of a polyhedron *)
Theorem C57_trunc_planes : forall b cut, good_brep b -> valid_ph cut -> unit_faces cut ->
  exists b', zBREPTruncPH3D b cut = Some b' /\ good_brep b' /\
    (forall g s, List.In g (flist b') -> face_at b' g s -> exists f t, List.In f (flist b) /\ face_at b f t /\ piece_of t s) /\
    (forall p, on_brep b' p -> on_brep b p /\ forall o n, List.In (o, n) (ph_planes cut) -> height_over o n p < zTOL) /\
    (forall p, on_brep b p -> (forall o n, List.In (o, n) (ph_planes cut) -> height_over o n p <= - zTOL) -> on_brep b' p) /\
    (watertight b -> forall e, List.In e (elist b') -> balanced b' e \/ exists o n, List.In (o, n) (ph_planes cut) /\ edge_on b' e o n zTOL).
Proof. exact brep_trunc_planes. Qed.
Print Assumptions C57_trunc_planes.
(** a degenerate first face: a plane never written is used *)
Theorem C57_trunc_undef : forall b cut f fs, valid_ph cut -> pfaces cut = f :: fs -> negligible (fnrm f) -> zBREPTruncPH3D b cut = None.
Proof. exact brep_trunc_undef. Qed.
Print Assumptions C57_trunc_undef.
(** merging *)
Theorem C57_merge : forall t s, good_brep t -> good_brep s -> exists m fs, zBREPMerge t s = Some m /\ good_verts m /\ flist m = flist t ++ fs /\
  (forall f u, List.In f (flist t) -> face_at t f u -> face_at m f u) /\
  Forall2 (fun f g => bf_norm g = bf_norm f /\ forall u, face_at s f u -> exists u', face_at m g u' /\ snapped3 zTOL t u u') (flist s) fs /\
  (forall v p, List.In v (vlist m) -> vert_at m v p -> (List.In v (vlist t) /\ vert_at t v p) \/ (~ at_vertex zTOL t p /\ exists w, List.In w (vlist s) /\ vert_at s w p)).
Proof. exact brep_merge. Qed.
Print Assumptions C57_merge.
(** when the outcome is in good order *)
Theorem C57_merge_good : forall t s m, good_brep t -> good_brep s -> zBREPMerge t s = Some m -> (good_brep m <-> forall e, List.In e (elist s) -> ends_agree zTOL t s e).
Proof. exact brep_merge_good. Qed.
Print Assumptions C57_merge_good.
(** otherwise cutting it reads a freed vertex *)
Theorem C57_merge_dangling : forall t s m e pl v p, good_brep t -> good_brep s -> zBREPMerge t s = Some m -> List.In e (elist s) -> ~ ends_agree zTOL t s e ->
  List.In v (vlist m) -> vert_at m v p -> zTOL <= height_over (porg pl) (pnorm pl) p -> zBREPTrunc m pl = None.
Proof. exact brep_merge_dangling. Qed.
Print Assumptions C57_merge_dangling.
Theorem C57_merge_refuted : exists t s m pl, good_brep t /\ good_brep s /\ zBREPMerge t s = Some m /\ ~ good_brep m /\ norm (pnorm pl) = 1 /\ zBREPTrunc m pl = None.
Proof. exact merge_refuted. Qed.
Print Assumptions C57_merge_refuted.
(** polyhedra cut by polyhedra *)
Theorem C57_ph_trunc : forall src cut, valid_ph src -> well_apart zTOL (pverts src) -> valid_ph cut -> unit_faces cut ->
  exists ph, zPH3DTruncBREP src cut = Some ph /\ valid_ph ph /\ cut_out zTOL (ph_tris src) (ph_planes cut) (ph_tris ph).
Proof. exact ph_trunc. Qed.
Print Assumptions C57_ph_trunc.
Theorem C57_ph_intersect : forall src1 src2, valid_ph src1 -> valid_ph src2 -> well_apart zTOL (pverts src1) -> well_apart zTOL (pverts src2) -> unit_faces src1 -> unit_faces src2 ->
  exists ph ts1 ts2 ts2', zIntersectPH3DBREP src1 src2 = Some ph /\ valid_ph ph /\ ph_tris ph = ts1 ++ ts2' /\
    cut_out zTOL (ph_tris src1) (ph_planes src2) ts1 /\ cut_out zTOL (ph_tris src2) (ph_planes src1) ts2 /\ Forall2 (fun t t' => close3 zTOL t' t) ts2 ts2'.
Proof. exact ph_intersect. Qed.
Print Assumptions C57_ph_intersect.
(** only the faces that touch a box; [made_faces]: the stored normals are those of the corners, no face is degenerate *)
Theorem C57_in_box : forall ph box, valid_ph ph -> made_faces ph -> exists b ts, zPH3D2BREPInBox ph box = Some b /\ good_brep b /\ no_garbage b /\ single_edges b /\
  picked (touched box) (ph_tris ph) ts /\ Forall2 (fun t f => exists s, face_at b f s /\ close3 zTOL s t) ts (flist b) /\
  (well_apart zTOL (pverts ph) -> Forall2 (fun t f => face_at b f t) ts (flist b)).
Proof. exact in_box_brep. Qed.
Print Assumptions C57_in_box.
(** the variant that looks only at faces near the common box of both polyhedra *)
Theorem C57_fast : forall src1 src2, valid_ph src1 -> valid_ph src2 -> pverts src1 <> [] -> pverts src2 <> [] -> well_apart zTOL (pverts src1) -> well_apart zTOL (pverts src2) ->
  unit_faces src1 -> unit_faces src2 -> made_faces src1 -> made_faces src2 ->
  (side_by_side (pverts src1) (pverts src2) -> zIntersectPH3DBREPFast src1 src2 = Some None) /\
  (~ side_by_side (pverts src1) (pverts src2) ->
   exists box ks1 ks2 ph ts1 ts2 ts2', common_box (pverts src1) (pverts src2) box /\
     picked (touched box) (ph_tris src1) ks1 /\ picked (touched box) (ph_tris src2) ks2 /\ zIntersectPH3DBREPFast src1 src2 = Some (Some ph) /\ valid_ph ph /\ ph_tris ph = ts1 ++ ts2' /\
     cut_out zTOL ks1 (ph_planes src2) ts1 /\ cut_out zTOL ks2 (ph_planes src1) ts2 /\ Forall2 (fun t t' => close3 zTOL t' t) ts2 ts2').
Proof. exact fast. Qed.
Print Assumptions C57_fast.
(** a corner of a tetrahedron under a big face: the face that closes the common part is left out *)
Theorem C57_fast_refuted : exists src1 src2 ph ph' x, valid_ph src1 /\ valid_ph src2 /\ closed (ph_faces src1) /\ closed (ph_faces src2) /\ made_faces src1 /\ made_faces src2 /\
  zIntersectPH3DBREP src1 src2 = Some ph /\ zIntersectPH3DBREPFast src1 src2 = Some (Some ph') /\ on_tris (ph_tris ph) x /\ ~ on_tris (ph_tris ph') x.
Proof. exact fast_refuted. Qed.
Print Assumptions C57_fast_refuted.
Example C57_ex_fast : made_faces tet /\ made_faces big /\ valid_ph big /\ well_apart zTOL (pverts big) /\ unit_faces big /\ ~ side_by_side (pverts big) (pverts tet).
Proof. exact (conj tet_made (conj big_made (conj big_valid (conj big_apart (conj (made_unit _ big_made) not_apart))))). Qed.
(** a closed polyhedron in good order *)
Example C57_ex_tet : valid_ph tet /\ well_apart zTOL (pverts tet) /\ unit_faces tet /\ closed (ph_faces tet).
Proof. exact (conj tet_valid (conj tet_apart (conj tet_unit tet_closed))). Qed.
(** a boundary representation in good order, watertight; a plane cuts it *)
Example C57_ex_brep : exists b, zPH3D2BREP tet = Some b /\ good_brep b /\ no_garbage b /\ watertight b /\
  on_brep b (V3 0 0 (1 / 4)) /\ on_brep b (V3 0 0 (3 / 4)).
Proof.
  destruct (ph2brep tet tet_valid) as (b & E & G & N & _ & _ & _ & X & C). exists b. split; [assumption|]. split; [assumption|]. split; [assumption|]. split; [apply C, tet_closed|].
  split; apply (ph2brep_on tet b G (X tet_apart)); exists (V3 0 0 0, V3 1 0 0, V3 0 0 1); (split; [right; left; reflexivity|]); unfold in_tri, in_triangle;
  [exists (3 / 4), 0, (1 / 4)|exists (1 / 4), 0, (3 / 4)]; unfold weights3, comb3; (split; [Lra.lra|]); apply vec3_ext; cbn; Lra.lra.
Qed.
(** what the plane z = 1/2 leaves *)
Example C57_ex_cut : exists b b', zPH3D2BREP tet = Some b /\ zBREPTrunc b (P3 (V3 0 0 (1 / 2)) (V3 0 0 1)) = Some b' /\ on_brep b' (V3 0 0 (1 / 4)) /\ ~ on_brep b' (V3 0 0 (3 / 4)).
Proof.
  destruct C57_ex_brep as (b & E & G & _ & _ & P & Q). destruct (brep_trunc_good b (P3 (V3 0 0 (1 / 2)) (V3 0 0 1)) G) as (b' & E' & _). exists b, b'. split; [assumption|]. split; [assumption|].
  pose proof zTOL_small. split.
  - apply (brep_trunc_complete b _ b' _ G E' P). unfold height_over, dot. cbn. Lra.lra.
  - intros O. destruct (brep_trunc_sound b _ b' _ G E' O) as [_ H']. unfold height_over, dot in H'. cbn in H'. Lra.lra.
Qed.
(** data in good order whose edges agree at no end, or at both ends *)
Example C57_ex_agree : forall e, List.In e (elist (one_face (V3 0 0 0) (V3 1 0 0) (V3 0 1 0) (V3 0 0 1))) ->
  ends_agree zTOL (one_face (V3 0 0 0) (V3 1 0 0) (V3 0 1 0) (V3 0 0 1)) (one_face (V3 0 0 0) (V3 1 0 0) (V3 0 1 0) (V3 0 0 1)) e.
Proof.
  intros e _ c p q _ P Q. assert (A : forall b v p, good_brep b -> vert_at b v p -> List.In v (vlist b) -> at_vertex zTOL b p) by (intros b v r G V I; exists v, r; split; [assumption|]; split; [assumption|apply close_refl]).
  pose proof (one_face_good (V3 0 0 0) (V3 1 0 0) (V3 0 1 0) (V3 0 0 1)) as G.
  assert (L : forall v r, vert_at (one_face (V3 0 0 0) (V3 1 0 0) (V3 0 1 0) (V3 0 0 1)) v r -> List.In v [0; 1; 2]%nat) by (intros v r (d & H & _); destruct v as [|[|[|v]]]; cbn in *; auto; discriminate).
  split; intros _; [apply (A _ _ _ G Q)|apply (A _ _ _ G P)]; eapply L; eassumption.
Qed.
