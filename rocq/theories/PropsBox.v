(** Properties C27-C31: boxes, bounding boxes, collision of boxes. *)
From Verif Require Import Base Spec SpecBox ModelBox FactsVec FactsAlg FactsBox FactsObb FactsSat.
Open Scope R_scope.

(** * C27 axis-aligned boxes *)
Theorem C27_create : forall x1 y1 z1 x2 y2 z2, proper (zAABox3DCreate x1 y1 z1 x2 y2 z2) /\
  forall p, in_box (zAABox3DCreate x1 y1 z1 x2 y2 z2) p <-> betw x1 x2 (vx p) /\ betw y1 y2 (vy p) /\ betw z1 z2 (vz p).
Proof. exact aab_create. Qed.
Print Assumptions C27_create.
Theorem C27_create2 : forall x1 y1 x2 y2, proper2 (zAABox2DCreate x1 y1 x2 y2) /\
  forall p, in_box2 (zAABox2DCreate x1 y1 x2 y2) p <-> betw x1 x2 (Spec.x2 p) /\ betw y1 y2 (Spec.y2 p).
Proof. exact aab_create2. Qed.
Print Assumptions C27_create2.
Theorem C27_size : forall c d w h, proper (zAABox3DCreateFromSize c d w h) /\
  forall p, in_box (zAABox3DCreateFromSize c d w h) p <->
    Rabs (vx p - vx c) <= Rabs d / 2 /\ Rabs (vy p - vy c) <= Rabs w / 2 /\ Rabs (vz p - vz c) <= Rabs h / 2.
Proof. exact aab_size. Qed.
Print Assumptions C27_size.
Theorem C27_size2 : forall c d w, proper2 (zAABox2DCreateFromSize c d w) /\
  forall p, in_box2 (zAABox2DCreateFromSize c d w) p <-> Rabs (x2 p - x2 c) <= Rabs d / 2 /\ Rabs (y2 p - y2 c) <= Rabs w / 2.
Proof. exact aab_size2. Qed.
Print Assumptions C27_size2.
(** merging gives the least box *)
Theorem C27_merge : forall b1 b2, proper b1 -> proper b2 ->
  proper (zAABox3DMerge b1 b2) /\
  (forall p, in_box b1 p \/ in_box b2 p -> in_box (zAABox3DMerge b1 b2) p) /\
  (forall b, (forall p, in_box b1 p \/ in_box b2 p -> in_box b p) -> forall p, in_box (zAABox3DMerge b1 b2) p -> in_box b p).
Proof. exact aab_merge. Qed.
Print Assumptions C27_merge.
Theorem C27_merge2 : forall b1 b2, proper2 b1 -> proper2 b2 ->
  proper2 (zAABox2DMerge b1 b2) /\
  (forall p, in_box2 b1 p \/ in_box2 b2 p -> in_box2 (zAABox2DMerge b1 b2) p) /\
  (forall b, (forall p, in_box2 b1 p \/ in_box2 b2 p -> in_box2 b p) -> forall p, in_box2 (zAABox2DMerge b1 b2) p -> in_box2 b p).
Proof. exact aab_merge2. Qed.
Print Assumptions C27_merge2.
Theorem C27_enlarge : forall b v, proper b ->
  proper (zAABox3DEnlarge b v) /\ in_box (zAABox3DEnlarge b v) v /\
  (forall p, in_box b p -> in_box (zAABox3DEnlarge b v) p) /\
  (forall b', in_box b' v -> (forall p, in_box b p -> in_box b' p) -> forall p, in_box (zAABox3DEnlarge b v) p -> in_box b' p).
Proof. exact aab_enlarge. Qed.
Print Assumptions C27_enlarge.
Theorem C27_enlarge2 : forall b v, proper2 b ->
  proper2 (zAABox2DEnlarge b v) /\ in_box2 (zAABox2DEnlarge b v) v /\
  (forall p, in_box2 b p -> in_box2 (zAABox2DEnlarge b v) p) /\
  (forall b', in_box2 b' v -> (forall p, in_box2 b p -> in_box2 b' p) -> forall p, in_box2 (zAABox2DEnlarge b v) p -> in_box2 b' p).
Proof. exact aab_enlarge2. Qed.
Print Assumptions C27_enlarge2.
(** expansion scales the point set about the centre by the absolute magnitude *)
Theorem C27_expand : forall b m, proper b -> forall p, let c := midpoint (bmin b) (bmax b) in
  in_box (zAABox3DExpand b m) p <-> exists q, in_box b q /\ p = vadd c (vscale (Rabs m) (vsub q c)).
Proof. exact aab_expand. Qed.
Print Assumptions C27_expand.
Theorem C27_expand2 : forall b m, proper2 b -> forall p, let c := midpoint2 (bmin2 b) (bmax2 b) in
  in_box2 (zAABox2DExpand b m) p <-> exists q, in_box2 b q /\ p = vadd2 c (vscale2 (Rabs m) (vsub2 q c)).
Proof. exact aab_expand2. Qed.
Print Assumptions C27_expand2.
Theorem C27_closest : forall b p, proper b ->
  nearest (in_box b) p (snd (zAABox3DClosest b p)) /\ fst (zAABox3DClosest b p) = dist p (snd (zAABox3DClosest b p)) /\
  zAABox3DDistFromPoint b p = fst (zAABox3DClosest b p) /\
  zAABox3DSqrDistFromPoint b p = fst (zAABox3DClosest b p) * fst (zAABox3DClosest b p).
Proof. exact aab_closest. Qed.
Print Assumptions C27_closest.
Theorem C27_closest2 : forall b p, proper2 b ->
  nearest2 (in_box2 b) p (snd (zAABox2DClosest b p)) /\ fst (zAABox2DClosest b p) = dist2 p (snd (zAABox2DClosest b p)) /\
  zAABox2DDistFromPoint b p = fst (zAABox2DClosest b p) /\
  zAABox2DSqrDistFromPoint b p = fst (zAABox2DClosest b p) * fst (zAABox2DClosest b p).
Proof. exact aab_closest2. Qed.
Print Assumptions C27_closest2.
(** the inside test: lower faces excluded and upper faces included in 3D, all faces excluded in 2D *)
Theorem C27_inside : forall b p m, zAABox3DPointIsInside b p m = true <->
  (vx (bmin b) - m < vx p <= vx (bmax b) + m) /\ (vy (bmin b) - m < vy p <= vy (bmax b) + m) /\
  (vz (bmin b) - m < vz p <= vz (bmax b) + m).
Proof. exact aab_inside. Qed.
Print Assumptions C27_inside.
Theorem C27_inside2 : forall b p m, zAABox2DPointIsInside b p m = true <->
  (x2 (bmin2 b) - m < x2 p < x2 (bmax2 b) + m) /\ (y2 (bmin2 b) - m < y2 p < y2 (bmax2 b) + m).
Proof. exact aab_inside2. Qed.
Print Assumptions C27_inside2.
Theorem C27_vertices : forall b, (forall i, corner b (zAABox3DVert b i)) /\
  (forall p, corner b p -> exists i, (i < 8)%nat /\ zAABox3DVert b i = p).
Proof. exact aab_vert. Qed.
Print Assumptions C27_vertices.
Theorem C27_vertices2 : forall b, (forall i, corner2 b (zAABox2DVert b i)) /\
  (forall p, corner2 b p -> exists i, (i < 4)%nat /\ zAABox2DVert b i = p).
Proof. exact aab_vert2. Qed.
Print Assumptions C27_vertices2.
Theorem C27_volume : forall b, proper b ->
  zAABox3DVolume b = (vx (bmax b) - vx (bmin b)) * (vy (bmax b) - vy (bmin b)) * (vz (bmax b) - vz (bmin b)).
Proof. exact aab_volume. Qed.
Print Assumptions C27_volume.
Theorem C27_area : forall b, proper2 b -> zAABox2DArea b = (x2 (bmax2 b) - x2 (bmin2 b)) * (y2 (bmax2 b) - y2 (bmin2 b)).
Proof. exact aab_area. Qed.
Print Assumptions C27_area.
(** overlap: the common points survive small displacements; for boxes with
    non-empty interiors the interiors meet *)
Theorem C27_overlap : forall b1 b2, proper b1 -> proper b2 ->
  zColChkAABox3D b1 b2 = true <-> meet_robustly (in_box b1) (in_box b2).
Proof. exact aab_overlap. Qed.
Print Assumptions C27_overlap.
Theorem C27_overlap_solid : forall b1 b2,
  (forall b, b = b1 \/ b = b2 -> vx (bmin b) < vx (bmax b) /\ vy (bmin b) < vy (bmax b) /\ vz (bmin b) < vz (bmax b)) ->
  zColChkAABox3D b1 b2 = true <->
  exists p, (forall b, b = b1 \/ b = b2 ->
    vx (bmin b) < vx p < vx (bmax b) /\ vy (bmin b) < vy p < vy (bmax b) /\ vz (bmin b) < vz p < vz (bmax b)).
Proof. exact aab_overlap_solid. Qed.
Print Assumptions C27_overlap_solid.
Theorem C27_intersection : forall b1 b2, proper b1 -> proper b2 ->
  match zIntersectAABox3D b1 b2 with
  | Some b => zColChkAABox3D b1 b2 = true /\ proper b /\ forall p, in_box b p <-> in_box b1 p /\ in_box b2 p
  | None => zColChkAABox3D b1 b2 = false
  end.
Proof. exact aab_intersect. Qed.
Print Assumptions C27_intersection.
(** boxes that only touch share points and are reported as separate *)
Theorem C27_touching_refuted : exists b1 b2 p, proper b1 /\ proper b2 /\ in_box b1 p /\ in_box b2 p /\
  zColChkAABox3D b1 b2 = false /\ zIntersectAABox3D b1 b2 = None.
Proof.
  exists (B3 (V3 0 0 0) (V3 1 1 1)), (B3 (V3 1 0 0) (V3 2 1 1)), (V3 1 0 0).
  assert (E : zColChkAABox3D (B3 (V3 0 0 0) (V3 1 1 1)) (B3 (V3 1 0 0) (V3 2 1 1)) = false).
  { destruct (zColChkAABox3D _ _) eqn:E; [|reflexivity]. apply colchk_iff in E. cbn [bmin bmax vx vy vz] in E. Lra.lra. }
  unfold proper, in_box; cbn [bmin bmax vx vy vz]. repeat split; try Lra.lra; [exact E|].
  unfold zIntersectAABox3D. rewrite E. reflexivity.
Qed.
Print Assumptions C27_touching_refuted.
Example C27_ex : proper (B3 (V3 0 0 0) (V3 2 2 2)) /\ proper2 (B2 (V2 0 0) (V2 1 2)) /\
  zColChkAABox3D (B3 (V3 0 0 0) (V3 2 2 2)) (B3 (V3 1 1 1) (V3 3 3 3)) = true.
Proof.
  unfold proper, proper2. rewrite colchk_iff. cbn. repeat split; Lra.lra.
Qed.

(** * C28 bounding box of point data *)
Theorem C28_bounds : forall data bb vp, zVec3DDataAABB data = Some (bb, vp) ->
  proper bb /\ (forall p, In p data -> in_box bb p) /\
  (forall b, (forall p, In p data -> in_box b p) -> forall p, in_box bb p -> in_box b p).
Proof. exact aabb_bounds. Qed.
Print Assumptions C28_bounds.
(** the recorded points belong to the data and attain the upper (first three) and lower bounds *)
Theorem C28_extremes : forall data bb vp, zVec3DDataAABB data = Some (bb, vp) ->
  (forall v, In v [xp0 vp; xp1 vp; xp2 vp; xp3 vp; xp4 vp; xp5 vp] -> In v data) /\
  bmax bb = V3 (vx (xp0 vp)) (vy (xp1 vp)) (vz (xp2 vp)) /\ bmin bb = V3 (vx (xp3 vp)) (vy (xp4 vp)) (vz (xp5 vp)).
Proof. exact aabb_extremes. Qed.
Print Assumptions C28_extremes.
Theorem C28_empty : forall data data2,
  (zVec3DDataAABB data = None <-> data = []) /\ (zVec2DDataAABB data2 = None <-> data2 = []).
Proof. exact (fun d d2 => conj (aabb_empty d) (aabb_empty2 d2)). Qed.
Print Assumptions C28_empty.
Theorem C28_bounds2 : forall data bb vp, zVec2DDataAABB data = Some (bb, vp) ->
  proper2 bb /\ (forall p, In p data -> in_box2 bb p) /\
  (forall b, (forall p, In p data -> in_box2 b p) -> forall p, in_box2 bb p -> in_box2 b p).
Proof. exact aabb_bounds2. Qed.
Print Assumptions C28_bounds2.
Theorem C28_extremes2 : forall data bb vp, zVec2DDataAABB data = Some (bb, vp) ->
  (forall v, In v [xq0 vp; xq1 vp; xq2 vp; xq3 vp] -> In v data) /\
  bmax2 bb = V2 (x2 (xq0 vp)) (y2 (xq1 vp)) /\ bmin2 bb = V2 (x2 (xq2 vp)) (y2 (xq3 vp)).
Proof. exact aabb_extremes2. Qed.
Print Assumptions C28_extremes2.
Theorem C28_xform : forall data f, match zVec3DDataAABBXform data f with
  | None => data = []
  | Some bb => proper bb /\ (forall p, In p data -> in_box bb (act f p)) /\
      (forall b, (forall p, In p data -> in_box b (act f p)) -> forall p, in_box bb p -> in_box b p)
  end.
Proof. exact aabb_xform_bounds. Qed.
Print Assumptions C28_xform.
(** a point in every box around each of two vertex sets is in their common box, if one is returned *)
Theorem C28_common_box : forall l1 l2, l1 <> [] -> l2 <> [] ->
  match zIntersectPH3DBox l1 l2 with
  | Some b => forall p, (forall b', (forall q, In q l1 -> in_box b' q) -> in_box b' p) ->
      (forall b', (forall q, In q l2 -> in_box b' q) -> in_box b' p) -> in_box b p
  | None => True
  end.
Proof. exact ph_box. Qed.
Print Assumptions C28_common_box.
Example C28_ex : exists bb vp, zVec3DDataAABB [V3 0 0 0; V3 1 (-1) 2; V3 (-1) 1 1] = Some (bb, vp).
Proof. eexists; eexists. unfold zVec3DDataAABB. rewrite <- surjective_pairing. reflexivity. Qed.

(** * C29 oriented boxes *)
Theorem C29_closest : forall b p, good_box b ->
  nearest (in_obb b) p (snd (zBox3DClosest b p)) /\ fst (zBox3DClosest b p) = dist p (snd (zBox3DClosest b p)) /\
  zBox3DDistFromPoint b p = fst (zBox3DClosest b p).
Proof. exact obb_closest. Qed.
Print Assumptions C29_closest.
(** the inside test excludes the faces of the box grown by the margin *)
Theorem C29_inside : forall b p m, isometry (fatt (bframe b)) -> zBox3DPointIsInside b p m = true <-> inside_obb b m p.
Proof. exact obb_inside. Qed.
Print Assumptions C29_inside.
Theorem C29_create : forall c ax ay az d w h, isometry (cols3 ax ay az) ->
  zBox3DCreate c ax ay az d w h = Some (BX (F3 c (cols3 ax ay az)) (V3 (Rabs d) (Rabs w) (Rabs h))).
Proof. exact obb_create. Qed.
Print Assumptions C29_create.
Theorem C29_copy : forall b, good_box b -> zBox3DCopy b = Some b.
Proof. exact obb_copy. Qed.
Print Assumptions C29_copy.
Theorem C29_xform : forall b f, rigid f ->
  (good_box b -> good_box (zBox3DXform b f)) /\
  (forall p, in_obb (zBox3DXform b f) p <-> exists q, in_obb b q /\ p = act f q) /\
  (forall p, in_obb (zBox3DXformInv b f) p <-> in_obb b (act f p)).
Proof. exact obb_xform_set. Qed.
Print Assumptions C29_xform.
Theorem C29_mirror : forall b axis, good_box b -> exists b', zBox3DMirror b axis = Some b' /\ good_box b' /\
  forall p, in_obb b' p <-> in_obb b (mirror axis p).
Proof. exact obb_mirror. Qed.
Print Assumptions C29_mirror.
Theorem C29_from_aligned : forall b, proper b -> good_box (zAABox3DToBox3D b) /\ forall p, in_obb (zAABox3DToBox3D b) p <-> in_box b p.
Proof. exact obb_of_aab. Qed.
Print Assumptions C29_from_aligned.
(** the axis-aligned conversion is the least axis-aligned box containing the box *)
Theorem C29_to_aligned : forall b, good_box b -> exists bb, zBox3DToAABox3D b = Some bb /\ proper bb /\
  (forall p, in_obb b p -> in_box bb p) /\
  (forall b', (forall p, in_obb b p -> in_box b' p) -> forall p, in_box bb p -> in_box b' p).
Proof. exact obb_to_aab. Qed.
Print Assumptions C29_to_aligned.
Theorem C29_vertices : forall b, good_box b -> (forall i, in_obb b (zBox3DVert b i)) /\
  (forall n p, in_obb b p -> exists i, (i < 8)%nat /\ dot n p <= dot n (zBox3DVert b i)).
Proof. exact (fun b H => conj (fun i => vert_in_obb b i H) (fun n p => obb_vertex_max n b p H)). Qed.
Print Assumptions C29_vertices.
Example C29_ex : good_box (BX (F3 (V3 1 2 3) (roty (PI/4))) (V3 1 2 3)) /\ isometry (mscale (-1) mid).
Proof.
  unfold good_box; cbn [bframe bspan fatt vx vy vz]. split; [split; [exact (proj1 (rotation_roty (PI/4)))|Lra.lra]|]. unfold isometry. mring.
Qed.

(** * C30 separating-axis test *)
Theorem C30_no_miss : forall b1 b2 p, isometry (fatt (bframe b1)) -> isometry (fatt (bframe b2)) ->
  (in_obb b1 p /\ inside_obb b2 0 p) \/ (inside_obb b1 0 p /\ in_obb b2 p) -> zColChkBox3D b1 b2 = true.
Proof. exact sat_no_miss. Qed.
Print Assumptions C30_no_miss.
Theorem C30_separate : forall b1 b2, isometry (fatt (bframe b1)) -> isometry (fatt (bframe b2)) ->
  zColChkBox3D b1 b2 = false -> separated (in_obb b1) (in_obb b2).
Proof. exact sat_separated. Qed.
Print Assumptions C30_separate.
(** the fifteen directions suffice *)
Theorem C30_exact : forall b1 b2, solid b1 -> solid b2 -> clear_axes b1 b2 ->
  zColChkBox3D b1 b2 = true <-> exists p, inside_obb b1 0 p /\ inside_obb b2 0 p.
Proof. exact sat_exact_solid. Qed.
Print Assumptions C30_exact.
(** two boxes sharing exactly a face are reported as separate *)
Theorem C30_touching_refuted : exists b1 b2 p, solid b1 /\ solid b2 /\ in_obb b1 p /\ in_obb b2 p /\ zColChkBox3D b1 b2 = false.
Proof. exact sat_touching. Qed.
Print Assumptions C30_touching_refuted.
Example C30_ex : let b1 := BX (F3 v3zero mid) (V3 1 1 1) in let b2 := BX (F3 (V3 (1/4) 0 0) mid) (V3 1 1 1) in
  solid b1 /\ solid b2 /\ clear_axes b1 b2 /\ inside_obb b1 0 (V3 0 0 0) /\ inside_obb b2 0 (V3 0 0 0).
Proof. exact sat_ex. Qed.

(** * C31 sphere against boxes *)
Theorem C31_aligned : forall c r b, proper b -> zColChkSphereAABox3D c r b = true <-> exists x, in_box b x /\ dist c x < r.
Proof. exact sphere_aab. Qed.
Print Assumptions C31_aligned.
Theorem C31_oriented : forall c r b, good_box b -> zColChkSphereBox3D c r b = true <-> exists x, in_obb b x /\ dist c x < r.
Proof. exact sphere_obb. Qed.
Print Assumptions C31_oriented.
