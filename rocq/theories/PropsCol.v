(** Properties C52 and C53: intersections of edges, planes, triangles and axis-aligned boxes. *)
From Verif Require Import Base Spec SpecGeom SpecBox SpecCol ModelVec ModelElem ModelBox ModelCol FactsVec FactsAlg FactsElem FactsLine FactsCentre FactsBox FactsCol FactsCol2 FactsCol3 FactsCol4 FactsColBox FactsColBox2.
From Coq Require Import List Lra Lia.
Import ListNotations.
Open Scope R_scope.

(** [meets A B]: the sets have a common point; [height o n x]: signed height of [x] above the plane; [within m A q]: some point of [A] is nearer than [m] to [q]; [alike]: no coordinate differs by the tolerance *)
(** the check is exact *)
Theorem C52_edge_plane_check : forall e pl, zColChkEdgePlane3D e pl = true <-> meets (segment (ev0 e) (ev1 e)) (on_plane (porg pl) (pnorm pl)).
Proof. exact edge_plane_check. Qed.
Print Assumptions C52_edge_plane_check.
(** no common point, one point, or both ends of an edge almost parallel to the plane *)
Theorem C52_edge_plane : forall e pl, let o := porg pl in let n := pnorm pl in let l := zIntersectEdgePlane3D e pl in
  (l = [] /\ ~ meets (segment (ev0 e) (ev1 e)) (on_plane o n)) \/
  (exists q, l = [q] /\ segment (ev0 e) (ev1 e) q /\ on_plane o n q /\
     (forall x, segment (ev0 e) (ev1 e) x -> on_plane o n x -> x = q) /\ zTOL <= Rabs (height o n (ev1 e) - height o n (ev0 e))) \/
  (l = [ev0 e; ev1 e] /\ meets (segment (ev0 e) (ev1 e)) (on_plane o n) /\
     Rabs (height o n (ev1 e) - height o n (ev0 e)) < zTOL).
Proof. exact edge_plane. Qed.
Print Assumptions C52_edge_plane.
(** in the third case both ends are within the tolerance of the plane *)
Theorem C52_edge_plane_flat : forall e pl, meets (segment (ev0 e) (ev1 e)) (on_plane (porg pl) (pnorm pl)) ->
  Rabs (height (porg pl) (pnorm pl) (ev1 e) - height (porg pl) (pnorm pl) (ev0 e)) < zTOL ->
  Rabs (height (porg pl) (pnorm pl) (ev0 e)) < zTOL /\ Rabs (height (porg pl) (pnorm pl) (ev1 e)) < zTOL.
Proof. exact edge_plane_flat. Qed.
Print Assumptions C52_edge_plane_flat.
Theorem C52_tri_plane_check : forall t pl, zColChkTriPlane3D t pl = true <-> meets (in_triangle (tv0 t) (tv1 t) (tv2 t)) (on_plane (porg pl) (pnorm pl)).
Proof. exact tri_plane_check. Qed.
Print Assumptions C52_tri_plane_check.
(** the collected points are on the outline, within the tolerance of the plane, and can be told apart *)
Theorem C52_tri_plane : forall t pl, let l := zIntersectTriPlane3D t pl in
  (forall q, List.In q l -> outline (tv0 t) (tv1 t) (tv2 t) q /\ Rabs (height (porg pl) (pnorm pl) q) < zTOL) /\
  distinct l /\
  (l = [] <-> ~ meets (in_triangle (tv0 t) (tv1 t) (tv2 t)) (on_plane (porg pl) (pnorm pl))).
Proof. exact tri_plane_points. Qed.
Print Assumptions C52_tri_plane.
(** a triangle in the plane gives its corners *)
Theorem C52_tri_plane_flat : forall t pl, let o := porg pl in let n := pnorm pl in
  on_plane o n (tv0 t) -> on_plane o n (tv1 t) -> on_plane o n (tv2 t) ->
  ~ alike (tv0 t) (tv1 t) -> ~ alike (tv1 t) (tv2 t) -> ~ alike (tv2 t) (tv0 t) ->
  zIntersectTriPlane3D t pl = [tv0 t; tv1 t; tv2 t].
Proof. exact tri_plane_flat. Qed.
Print Assumptions C52_tri_plane_flat.
(** at most four points, though three are documented *)
Theorem C52_tri_plane_count : forall t pl, (length (zIntersectTriPlane3D t pl) <= 4)%nat.
Proof. exact tri_plane_count. Qed.
Print Assumptions C52_tri_plane_count.
(** in regular position: exactly the points where the outline meets the plane, at most two *)
Theorem C52_tri_plane_cut : forall t pl a b c, tv0 t = a -> tv1 t = b -> tv2 t = c -> regular (porg pl) (pnorm pl) a b c ->
  (length (zIntersectTriPlane3D t pl) <= 2)%nat /\
  forall q, List.In q (zIntersectTriPlane3D t pl) <-> outline a b c q /\ on_plane (porg pl) (pnorm pl) q.
Proof. exact regular_points. Qed.
Print Assumptions C52_tri_plane_cut.
Theorem C52_edge_tri : forall v0 v1 v2 t e, zTri3DCreate v0 v1 v2 = (true, t) ->
  let l := zIntersectEdgeTri3D e t in
  (length l <= 2)%nat /\ (zColChkEdgeTri3D e t = true <-> l <> []) /\
  (forall q, List.In q l -> segment (ev0 e) (ev1 e) q /\ within zTOL (in_triangle v0 v1 v2) q) /\
  (forall x, segment (ev0 e) (ev1 e) x -> in_triangle v0 v1 v2 x ->
     zTOL <= Rabs (height v0 (tnorm t) (ev1 e) - height v0 (tnorm t) (ev0 e)) -> l = [x]) /\
  (in_triangle v0 v1 v2 (ev0 e) -> in_triangle v0 v1 v2 (ev1 e) -> l = [ev0 e; ev1 e]).
Proof. exact edge_tri_all. Qed.
Print Assumptions C52_edge_tri.
(** an edge in the plane of the triangle, crossing it, is not noticed *)
Theorem C52_edge_tri_refuted : exists v0 v1 v2 t e x, zTri3DCreate v0 v1 v2 = (true, t) /\ segment (ev0 e) (ev1 e) x /\ in_triangle v0 v1 v2 x /\
  zIntersectEdgeTri3D e t = [] /\ zColChkEdgeTri3D e t = false.
Proof. exact edge_missed. Qed.
Print Assumptions C52_edge_tri_refuted.
Theorem C52_tri_tri : forall a0 a1 a2 b0 b1 b2 t1 t2 l, zTri3DCreate a0 a1 a2 = (true, t1) -> zTri3DCreate b0 b1 b2 = (true, t2) ->
  zIntersectTri3D t1 t2 = Some l ->
  distinct l /\
  forall q, List.In q l ->
    (in_triangle a0 a1 a2 q /\ within zTOL (in_triangle b0 b1 b2) q) \/
    (in_triangle b0 b1 b2 q /\ within zTOL (in_triangle a0 a1 a2) q).
Proof. exact tri_tri_sound. Qed.
Print Assumptions C52_tri_tri.
(** in regular position a common point is never missed *)
Theorem C52_tri_tri_found : forall a0 a1 a2 b0 b1 b2 t1 t2, zTri3DCreate a0 a1 a2 = (true, t1) -> zTri3DCreate b0 b1 b2 = (true, t2) ->
  regular b0 (tnorm t2) a0 a1 a2 -> regular a0 (tnorm t1) b0 b1 b2 ->
  exists l, zIntersectTri3D t1 t2 = Some l /\ (meets (in_triangle a0 a1 a2) (in_triangle b0 b1 b2) -> l <> []).
Proof. exact tri_tri_complete. Qed.
Print Assumptions C52_tri_tri_found.
Theorem C52_tri_tri_check : forall a0 a1 a2 b0 b1 b2 t1 t2, zTri3DCreate a0 a1 a2 = (true, t1) -> zTri3DCreate b0 b1 b2 = (true, t2) ->
  (zColChkTri3D t1 t2 = Some true -> exists p q, in_triangle a0 a1 a2 p /\ in_triangle b0 b1 b2 q /\ dist p q < zTOL) /\
  (regular b0 (tnorm t2) a0 a1 a2 -> regular a0 (tnorm t1) b0 b1 b2 -> meets (in_triangle a0 a1 a2) (in_triangle b0 b1 b2) -> zColChkTri3D t1 t2 <> Some false).
Proof. exact tri_check. Qed.
Print Assumptions C52_tri_tri_check.
(** the plane of one triangle takes four points from the other: an array of three is overrun *)
Theorem C52_overrun_refuted : exists v0 v1 v2 w0 w1 w2 t1 t2,
  zTri3DCreate v0 v1 v2 = (true, t1) /\ zTri3DCreate w0 w1 w2 = (true, t2) /\
  (exists pl, zTri3DToPlane3D t2 = Some pl /\ length (zIntersectTriPlane3D t1 pl) = 4%nat) /\
  zIntersectTri3D t1 t2 = None /\ zColChkTri3D t1 t2 = None.
Proof. exact tri_overrun. Qed.
Print Assumptions C52_overrun_refuted.
(** a triangle against itself: the check overruns its array of two points *)
Theorem C52_self_refuted : forall v0 v1 v2 t, zTri3DCreate v0 v1 v2 = (true, t) -> ~ alike v0 v1 -> ~ alike v1 v2 -> ~ alike v2 v0 ->
  zIntersectTri3D t t = Some [v0; v1; v2] /\ zColChkTri3D t t = None.
Proof. exact tri_self. Qed.
Print Assumptions C52_self_refuted.
(** overlapping triangles in a plane are reported apart *)
Theorem C52_coplanar_refuted : exists a0 a1 a2 b0 b1 b2 t1 t2 x,
  zTri3DCreate a0 a1 a2 = (true, t1) /\ zTri3DCreate b0 b1 b2 = (true, t2) /\
  in_triangle a0 a1 a2 x /\ in_triangle b0 b1 b2 x /\ zIntersectTri3D t1 t2 = Some [] /\ zColChkTri3D t1 t2 = Some false.
Proof. exact star_missed. Qed.
Print Assumptions C52_coplanar_refuted.
Example C52_ex : exists t1 t2, zTri3DCreate (V3 1 1 1) (V3 1 2 (-1)) (V3 1 0 (-1)) = (true, t1) /\ zTri3DCreate (V3 0 0 0) (V3 6 0 0) (V3 3 6 0) = (true, t2) /\
  regular (V3 0 0 0) (tnorm t2) (V3 1 1 1) (V3 1 2 (-1)) (V3 1 0 (-1)) /\ regular (V3 1 1 1) (tnorm t1) (V3 0 0 0) (V3 6 0 0) (V3 3 6 0) /\
  exists l, zIntersectTri3D t1 t2 = Some l /\ l <> [].
Proof.
  exists wall, starA. split; [exact wall_made|]. split; [exact starA_made|]. destruct pair_regular as (A & B & M). split; [exact A|]. split; [exact B|].
  destruct (C52_tri_tri_found _ _ _ _ _ _ _ _ wall_made starA_made A B) as (l & K & N). exists l. auto.
Qed.
Example C52_self_ex : zTri3DCreate (V3 0 0 0) (V3 6 0 0) (V3 3 6 0) = (true, starA) /\ ~ alike (V3 0 0 0) (V3 6 0 0) /\ ~ alike (V3 6 0 0) (V3 3 6 0) /\ ~ alike (V3 3 6 0) (V3 0 0 0).
Proof. pose proof zTOL_small. split; [exact starA_made|]. split; [|split]; apply far_x; unfold Rabs; destruct (Rcase_abs _); Lra.lra. Qed.
(** the points found are exactly those strictly inside box edges not almost parallel to the plane *)
Theorem C53_plane_points : forall p b q, List.In q (zIntersectPlaneAABox3D p b) <-> on_plane (porg p) (pnorm p) q /\ edge_hit (pnorm p) b q.
Proof. exact plane_box_in. Qed.
Print Assumptions C53_plane_points.
Theorem C53_plane_check : forall p b, zColChkPlaneAABox3D p b = true <-> exists q, on_plane (porg p) (pnorm p) q /\ edge_hit (pnorm p) b q.
Proof. exact plane_box_check. Qed.
Print Assumptions C53_plane_check.
(** never more than six points *)
Theorem C53_plane_count : forall p b, (length (zIntersectPlaneAABox3D p b) <= 6)%nat.
Proof. exact plane_box_count. Qed.
Print Assumptions C53_plane_count.
(** with no corner on the plane the check is exact *)
Theorem C53_plane_decides : forall p b, proper b ->
  (forall c, List.In c [vx (pnorm p); vy (pnorm p); vz (pnorm p)] -> c = 0 \/ zTOL <= Rabs c) ->
  (forall i j k, height (porg p) (pnorm p) (corner_of b i j k) <> 0) ->
  (zColChkPlaneAABox3D p b = true <-> meets (on_plane (porg p) (pnorm p)) (in_box b)).
Proof. exact plane_box_complete. Qed.
Print Assumptions C53_plane_decides.
(** a plane through two opposite edges, halving the box, is not noticed *)
Theorem C53_plane_refuted : exists p b x, norm (pnorm p) = 1 /\ on_plane (porg p) (pnorm p) x /\
  strictly (vx (bmin b)) (vx (bmax b)) (vx x) /\ strictly (vy (bmin b)) (vy (bmax b)) (vy x) /\ strictly (vz (bmin b)) (vz (bmax b)) (vz x) /\
  zColChkPlaneAABox3D p b = false /\ zIntersectPlaneAABox3D p b = [].
Proof. exact plane_box_missed. Qed.
Print Assumptions C53_plane_refuted.
(** the triangle check looks at its corners and its outline only *)
Theorem C53_tri : forall v0 v1 v2 t b, zTri3DCreate v0 v1 v2 = (true, t) ->
  (exists r, zColChkTriAABox3D t b = Some r /\
    (r = true <-> (deep_in b v0 \/ deep_in b v1 \/ deep_in b v2) \/ exists q, edge_face_hit b v0 v1 v2 q)) /\
  (exists l, zIntersectTriAABox3D t b = Some l /\ forall q, List.In q l <-> edge_face_hit b v0 v1 v2 q).
Proof. exact tri_box. Qed.
Print Assumptions C53_tri.
Theorem C53_tri_sound : forall v0 v1 v2 t b, proper b -> zTri3DCreate v0 v1 v2 = (true, t) -> zColChkTriAABox3D t b = Some true ->
  meets (in_triangle v0 v1 v2) (in_box b).
Proof. exact tri_box_sound. Qed.
Print Assumptions C53_tri_sound.
(** a triangle cutting right through a box is not noticed when its outline passes around it *)
Theorem C53_pierce_refuted : exists v0 v1 v2 t b x, zTri3DCreate v0 v1 v2 = (true, t) /\ in_triangle v0 v1 v2 x /\
  strictly (vx (bmin b)) (vx (bmax b)) (vx x) /\ strictly (vy (bmin b)) (vy (bmax b)) (vy x) /\ strictly (vz (bmin b)) (vz (bmax b)) (vz x) /\
  zColChkTriAABox3D t b = Some false /\ zIntersectTriAABox3D t b = Some [].
Proof. exact tri_box_missed. Qed.
Print Assumptions C53_pierce_refuted.
Example C53_ex : let p := P3 (V3 0 0 (1 / 2)) (V3 0 0 1) in let b := B3 (V3 0 0 0) (V3 1 1 1) in proper b /\
  (forall c, List.In c [vx (pnorm p); vy (pnorm p); vz (pnorm p)] -> c = 0 \/ zTOL <= Rabs c) /\
  (forall i j k, height (porg p) (pnorm p) (corner_of b i j k) <> 0) /\ zColChkPlaneAABox3D p b = true.
Proof.
  pose proof zTOL_small as TS. cbv zeta.
  assert (A : proper (B3 (V3 0 0 0) (V3 1 1 1))) by (unfold proper; cbn; Lra.lra).
  assert (B : forall c, List.In c [vx (pnorm (P3 (V3 0 0 (1 / 2)) (V3 0 0 1))); vy (pnorm (P3 (V3 0 0 (1 / 2)) (V3 0 0 1))); vz (pnorm (P3 (V3 0 0 (1 / 2)) (V3 0 0 1)))] -> c = 0 \/ zTOL <= Rabs c).
  { cbn. intros c [<-|[<-|[<-|[]]]]; auto. right. rewrite Rabs_R1. Lra.lra. }
  assert (C : forall i j k, height (porg (P3 (V3 0 0 (1 / 2)) (V3 0 0 1))) (pnorm (P3 (V3 0 0 (1 / 2)) (V3 0 0 1))) (corner_of (B3 (V3 0 0 0) (V3 1 1 1)) i j k) <> 0).
  { intros i j k. unfold height, corner_of. cbn [porg pnorm bmin bmax vx vy vz]. destruct i, j, k; unfold dot, vsub; cbn [vx vy vz]; Lra.lra. }
  split; [exact A|]. split; [exact B|]. split; [exact C|]. apply (C53_plane_decides _ _ A B C).
  exists (V3 0 0 (1 / 2)). unfold on_plane, in_box, dot, vsub. cbn. split; Lra.lra.
Qed.
Example C53_tri_ex : exists t, zTri3DCreate (V3 0 0 0) (V3 6 0 0) (V3 3 6 0) = (true, t) /\ zColChkTriAABox3D t (B3 (V3 (-1) (-1) (-1)) (V3 1 1 1)) = Some true.
Proof.
  exists starA. split; [exact starA_made|]. destruct (C53_tri _ _ _ _ (B3 (V3 (-1) (-1) (-1)) (V3 1 1 1)) starA_made) as ((r & R & Hr) & _). rewrite R. f_equal. apply Hr.
  left. left. pose proof zTOL_small. unfold deep_in, deep. cbn. Lra.lra.
Qed.
