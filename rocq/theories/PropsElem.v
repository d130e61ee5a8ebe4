(** Properties C21-C26: segments, triangles, tetrahedra, lines, planes. *)
From Verif Require Import ModelElem FactsCentre FactsVec FactsAlg FactsElem FactsTri FactsTri2 FactsLine.
Open Scope R_scope.

(** * C21 closest point on a segment *)
Theorem C21_closest3 : forall e p, ev0 e <> ev1 e ->
  exists d cp, zEdge3DClosest e p = Some (d, cp) /\ nearest (segment (ev0 e) (ev1 e)) p cp /\ d = dist p cp.
Proof. exact edge3_closest. Qed.
Print Assumptions C21_closest3.
Theorem C21_closest2 : forall e p, ew0 e <> ew1 e ->
  exists d cp, zEdge2DClosest e p = Some (d, cp) /\ nearest2 (segment2 (ew0 e) (ew1 e)) p cp /\ d = dist2 p cp.
Proof. exact edge2_closest. Qed.
Print Assumptions C21_closest2.
(** the variant about the origin also returns the weights of the end points *)
Theorem C21_weights3 : forall v0 v1, v0 <> v1 ->
  exists d s0 s1 cp, zEdge3DClosestFromOrigin v0 v1 = Some (d, s0, s1, cp) /\
    weights2 s0 s1 /\ cp = comb2 s0 s1 v0 v1 /\ d = norm cp /\ forall x, segment v0 v1 x -> norm cp <= norm x.
Proof. exact edge3_from_origin. Qed.
Print Assumptions C21_weights3.
Theorem C21_weights2 : forall v0 v1, v0 <> v1 ->
  exists d s0 s1 cp, zEdge2DClosestFromOrigin v0 v1 = Some (d, s0, s1, cp) /\
    weights2 s0 s1 /\ cp = comb2_2 s0 s1 v0 v1 /\ d = norm_2 cp /\ forall x, segment2 v0 v1 x -> norm_2 cp <= norm_2 x.
Proof. exact edge2_from_origin. Qed.
Print Assumptions C21_weights2.
(** equal end points divide zero by zero *)
Theorem C21_degenerate : forall v w p q, zEdge3DClosest (E3 v v) p = None /\ zEdge2DClosest (E2 w w) q = None.
Proof. exact (fun v w p q => conj (edge3_closest_deg v p) (edge2_closest_deg w q)). Qed.
Print Assumptions C21_degenerate.
Theorem C21_margin : forall e p m, ev0 e <> ev1 e ->
  zEdge3DPointIsOn e p m = true <-> exists x, segment (ev0 e) (ev1 e) x /\ dist p x < m.
Proof. exact edge3_point_is_on. Qed.
Print Assumptions C21_margin.
Theorem C21_nearest_end : forall e p v d, zEdge3DContigVert e p = (v, d) ->
  (v = ev0 e \/ v = ev1 e) /\ d = dist p v /\ d <= dist p (ev0 e) /\ d <= dist p (ev1 e).
Proof. exact edge_contig. Qed.
Print Assumptions C21_nearest_end.
Example C21_ex : ev0 (E3 (V3 0 0 0) (V3 2 0 0)) <> ev1 (E3 (V3 0 0 0) (V3 2 0 0)) /\
  ew0 (E2 (V2 0 0) (V2 2 0)) <> ew1 (E2 (V2 0 0) (V2 2 0)) /\
  exists d cp, zEdge3DClosest (E3 (V3 0 0 0) (V3 2 0 0)) (V3 1 1 0) = Some (d, cp) /\ cp = V3 1 0 0.
Proof.
  assert (N : V3 0 0 0 <> V3 2 0 0) by (intros H; injection H; Lra.lra).
  split; [exact N|]. split; [intros H; injection H; Lra.lra|].
  destruct (edge3_closest (E3 (V3 0 0 0) (V3 2 0 0)) (V3 1 1 0) N) as (d & cp & E & [(s0 & s1 & (H0 & H1 & H2) & Hc) Hm] & Hd).
  exists d, cp. split; [exact E|]. assert (C := Hm (V3 1 0 0)). cbn [ev0 ev1] in *.
  assert (A : dist (V3 1 1 0) cp <= dist (V3 1 1 0) (V3 1 0 0)).
  { apply C. exists (1 / 2), (1 / 2). split; [unfold weights2; Lra.lra|]. unfold comb2. apply vec3_ext; spec_unfold; Lra.lra. }
  subst cp. unfold dist, norm in A. apply sqrt_le_0 in A; [|apply dot_self_nonneg|apply dot_self_nonneg].
  assert (B : s1 = 1 / 2).
  { assert (s0 = 1 - s1) by Lra.lra. subst s0. clear Hm C E. apply Rminus_diag_uniq, Rsqr_0_uniq. unfold Rsqr, comb2 in *. spec_unfold. pose proof (sqr_nonneg (s1 - 1 / 2)). apply Rle_antisym; Lra.lra. }
  subst s1. assert (s0 = 1 / 2) by Lra.lra. subst s0. unfold comb2. apply vec3_ext; spec_unfold; Lra.lra.
Qed.

(** * C22 closest point on a triangle *)
Theorem C22_closest3 : forall t p,
  (~ negligible (tri_normal (tv0 t) (tv1 t) (tv2 t))) \/
  (tri_normal (tv0 t) (tv1 t) (tv2 t) = v3zero /\ ~ (tv0 t = tv1 t /\ tv1 t = tv2 t)) ->
  exists d cp, zTri3DClosest t p = Some (d, cp) /\ nearest (in_triangle (tv0 t) (tv1 t) (tv2 t)) p cp /\ d = dist p cp.
Proof. exact tri3_closest. Qed.
Print Assumptions C22_closest3.
Theorem C22_closest2 : forall t p, area2 (tw0 t) (tw1 t) (tw2 t) <> 0 ->
  exists d cp, zTri2DClosest t p = Some (d, cp) /\ nearest2 (in_triangle2 (tw0 t) (tw1 t) (tw2 t)) p cp /\ d = dist2 p cp.
Proof. exact tri2_closest. Qed.
Print Assumptions C22_closest2.
Theorem C22_weights3 : forall v0 v1 v2, ~ negligible (tri_normal v0 v1 v2) ->
  exists d a b c cp, zTri3DClosestFromOrigin v0 v1 v2 = Some (d, (a, b, c, cp)) /\
    weights3 a b c /\ cp = comb3 a b c v0 v1 v2 /\ d = norm cp /\ forall x, in_triangle v0 v1 v2 x -> d <= norm x.
Proof. exact tri3_from_origin. Qed.
Print Assumptions C22_weights3.
Theorem C22_weights2 : forall v0 v1 v2, area2 v0 v1 v2 <> 0 ->
  exists d a b c cp, zTri2DClosestFromOrigin v0 v1 v2 = Some (d, (a, b, c, cp)) /\
    weights3 a b c /\ cp = comb3_2 a b c v0 v1 v2 /\ d = norm_2 cp /\ forall x, in_triangle2 v0 v1 v2 x -> d <= norm_2 x.
Proof. exact tri2_from_origin. Qed.
Print Assumptions C22_weights2.
(** slivers whose normal is negligible: the nearest point of the three sides is returned;
    three equal vertices leave the outputs unwritten; a flat 2D triangle divides by zero *)
Theorem C22_sliver : forall t p,
  negligible (tri_normal (tv0 t) (tv1 t) (tv2 t)) -> ~ (tv0 t = tv1 t /\ tv1 t = tv2 t) ->
  exists d cp, zTri3DClosest t p = Some (d, cp) /\ nearest (boundary (tv0 t) (tv1 t) (tv2 t)) p cp /\ d = dist p cp.
Proof. exact tri3_sliver. Qed.
Print Assumptions C22_sliver.
Theorem C22_unwritten3 : forall t p, zTri3DClosest t p = None <-> tv0 t = tv1 t /\ tv1 t = tv2 t.
Proof. exact tri3_none. Qed.
Print Assumptions C22_unwritten3.
Theorem C22_flat2 : forall t p, area2 (tw0 t) (tw1 t) (tw2 t) = 0 -> zTri2DClosest t p = None.
Proof. exact tri2_closest_flat. Qed.
Print Assumptions C22_flat2.
Theorem C22_inside2 : forall t p, area2 (tw0 t) (tw1 t) (tw2 t) <> 0 -> in_triangle2 (tw0 t) (tw1 t) (tw2 t) p ->
  zTri2DClosest t p = Some (0, p).
Proof. exact tri2_inside. Qed.
Print Assumptions C22_inside2.
(** creation: unit normal by the right-hand rule, area, plane distance; signed closest distance *)
Theorem C22_create : forall v0 v1 v2, let n := tri_normal v0 v1 v2 in
  (negligible n -> fst (zTri3DCreate v0 v1 v2) = false) /\
  (~ negligible n -> exists t, zTri3DCreate v0 v1 v2 = (true, t) /\ tv0 t = v0 /\ tv1 t = v1 /\ tv2 t = v2 /\
     norm (tnorm t) = 1 /\ vscale (norm n) (tnorm t) = n /\ zTri3DArea t = norm n / 2 /\
     forall p, zTri3DDistFromPointToPlane t p = dot (vsub p v0) (tnorm t)).
Proof. exact tri_creation. Qed.
Print Assumptions C22_create.
Theorem C22_signed : forall v0 v1 v2 p t, zTri3DCreate v0 v1 v2 = (true, t) ->
  exists d cp, zTri3DSignedClosest t p = Some (d, cp) /\ nearest (in_triangle v0 v1 v2) p cp /\ Rabs d = dist p cp /\
    (0 < dot (vsub p v0) (tri_normal v0 v1 v2) -> 0 < d) /\ (dot (vsub p v0) (tri_normal v0 v1 v2) < 0 -> d < 0).
Proof. exact tri3_signed. Qed.
Print Assumptions C22_signed.
Theorem C22_margin : forall t p m, ~ negligible (tri_normal (tv0 t) (tv1 t) (tv2 t)) ->
  zTri3DPointIsInside t p m = true <-> exists x, in_triangle (tv0 t) (tv1 t) (tv2 t) x /\ dist p x < m.
Proof. exact tri3_point_is_inside. Qed.
Print Assumptions C22_margin.
Theorem C22_nearest_vertex : forall t p v d, zTri3DContigVert t p = (v, d) ->
  (v = tv0 t \/ v = tv1 t \/ v = tv2 t) /\ d = dist p v /\ d <= dist p (tv0 t) /\ d <= dist p (tv1 t) /\ d <= dist p (tv2 t).
Proof. exact tri_contig. Qed.
Print Assumptions C22_nearest_vertex.
Lemma unit_tri_ok : ~ negligible (tri_normal (V3 0 0 0) (V3 1 0 0) (V3 0 1 0)).
Proof.
  replace (tri_normal (V3 0 0 0) (V3 1 0 0) (V3 0 1 0)) with (V3 0 0 1) by (unfold tri_normal; apply vec3_ext; spec_unfold; ring).
  apply long_not_negligible. pose proof zTOL_small. rewrite (proj1 (norm_unit (V3 0 0 1))) by (spec_unfold; ring). Lra.lra.
Qed.
Example C22_ex : ~ negligible (tri_normal (V3 0 0 0) (V3 1 0 0) (V3 0 1 0)) /\ area2 (V2 0 0) (V2 1 0) (V2 0 1) <> 0 /\
  (exists t, zTri3DCreate (V3 0 0 0) (V3 1 0 0) (V3 0 1 0) = (true, t)) /\
  in_triangle2 (V2 0 0) (V2 1 0) (V2 0 1) (V2 (1/4) (1/4)) /\
  negligible (tri_normal (V3 0 0 0) (V3 1 0 0) (V3 2 0 0)) /\ ~ (V3 0 0 0 = V3 1 0 0 /\ V3 1 0 0 = V3 2 0 0).
Proof.
  split; [exact unit_tri_ok|]. split; [unfold area2, cross2, vsub2; pcbn; Lra.lra|].
  split; [destruct (proj2 (tri_creation (V3 0 0 0) (V3 1 0 0) (V3 0 1 0)) unit_tri_ok) as (t & E & _); exists t; exact E|].
  split; [exists (1/2), (1/4), (1/4); split; [unfold weights3; Lra.lra|unfold comb3_2, comb2_2; apply vec2_ext; unfold vadd2, vscale2; pcbn; Lra.lra]|].
  split; [|intros [H _]; injection H; Lra.lra].
  replace (tri_normal (V3 0 0 0) (V3 1 0 0) (V3 2 0 0)) with v3zero by (unfold tri_normal; apply vec3_ext; spec_unfold; ring). apply zero_negligible.
Qed.

(** * C23 closest point on a tetrahedron *)
Theorem C23_closest : forall v0 v1 v2 v3 p, good_tetra v0 v1 v2 v3 ->
  exists d cp, zTetra3DClosest v0 v1 v2 v3 p = Some (d, cp) /\ nearest (in_tetra v0 v1 v2 v3) p cp /\ d = dist p cp.
Proof. exact tetra_closest. Qed.
Print Assumptions C23_closest.
Theorem C23_inside : forall v0 v1 v2 v3 p, good_tetra v0 v1 v2 v3 -> in_tetra v0 v1 v2 v3 p -> zTetra3DClosest v0 v1 v2 v3 p = Some (0, p).
Proof. exact tetra_inside. Qed.
Print Assumptions C23_inside.
Theorem C23_weights : forall v0 v1 v2 v3, good_tetra v0 v1 v2 v3 ->
  exists d a b c e cp, zTetra3DClosestFromOrigin v0 v1 v2 v3 = Some (d, (a, b, c, e, cp)) /\
    weights4 a b c e /\ cp = comb4 a b c e v0 v1 v2 v3 /\ d = norm cp /\ forall x, in_tetra v0 v1 v2 v3 x -> d <= norm x.
Proof. exact tetra_from_origin. Qed.
Print Assumptions C23_weights.
(** both orientations *)
Example C23_ex : good_tetra (V3 0 0 0) (V3 1 0 0) (V3 0 1 0) (V3 0 0 1) /\ good_tetra (V3 0 0 0) (V3 0 1 0) (V3 1 0 0) (V3 0 0 1).
Proof.
  assert (L : forall v, 1 <= dot v v -> ~ negligible v).
  { intros v H. apply long_not_negligible. pose proof zTOL_small. assert (1 <= norm v) by (rewrite <- sqrt_1; apply sqrt_le_1_alt; exact H). Lra.lra. }
  split; (split; [unfold vol6; spec_unfold; Lra.lra|]); repeat split; apply L; unfold tri_normal; spec_unfold; Lra.lra.
Qed.

(** * C24 lines *)
Theorem C24_feet : forall l1 l2 p1 p2, zTOL <= gramdet (ldir l1) (ldir l2) ->
  zLine3DCommonPerpEnd l1 l2 = (p1, p2) ->
  on_line (lorg l1) (ldir l1) p1 /\ on_line (lorg l2) (ldir l2) p2 /\
  dot (vsub p1 p2) (ldir l1) = 0 /\ dot (vsub p1 p2) (ldir l2) = 0.
Proof. exact common_perp. Qed.
Print Assumptions C24_feet.
Theorem C24_distance : forall l1 l2,
  zTOL <= gramdet (ldir l1) (ldir l2) \/ (norm (ldir l1) = 1 /\ norm (ldir l2) = 1 /\ gramdet (ldir l1) (ldir l2) = 0) ->
  exists p1 p2, on_line (lorg l1) (ldir l1) p1 /\ on_line (lorg l2) (ldir l2) p2 /\ zDistLine3DLine3D l1 l2 = dist p1 p2 /\
    forall x y, on_line (lorg l1) (ldir l1) x -> on_line (lorg l2) (ldir l2) y -> zDistLine3DLine3D l1 l2 <= dist x y.
Proof.
  exact (fun l1 l2 H => match H with or_introl A => line_dist_nonparallel l1 l2 A
         | or_intror (conj A (conj B C)) => line_dist_parallel l1 l2 A B C end).
Qed.
Print Assumptions C24_distance.
(** always the distance of some pair of points, but not the least one for nearly parallel lines *)
Theorem C24_upper : forall l1 l2,
  exists x y, on_line (lorg l1) (ldir l1) x /\ on_line (lorg l2) (ldir l2) y /\ zDistLine3DLine3D l1 l2 = dist x y.
Proof. exact line_dist_upper. Qed.
Print Assumptions C24_upper.
Theorem C24_near_parallel_refuted : exists l1 l2, norm (ldir l1) = 1 /\ norm (ldir l2) = 1 /\ gramdet (ldir l1) (ldir l2) <> 0 /\
  (exists x, on_line (lorg l1) (ldir l1) x /\ on_line (lorg l2) (ldir l2) x) /\ zDistLine3DLine3D l1 l2 = 1.
Proof. exact line_dist_near. Qed.
Print Assumptions C24_near_parallel_refuted.
Theorem C24_create : forall p d,
  (zLine3DCreate p d = None <-> negligible d) /\
  (~ negligible d -> exists l, zLine3DCreate p d = Some l /\ lorg l = p /\ norm (ldir l) = 1 /\ vscale (norm d) (ldir l) = d).
Proof. exact (fun p d => conj (line_create_none p d) (line_create p d)). Qed.
Print Assumptions C24_create.
Theorem C24_projection : forall l p, norm (ldir l) = 1 ->
  nearest (on_line (lorg l) (ldir l)) p (zLine3DProjPoint l p) /\
  dot (vsub p (zLine3DProjPoint l p)) (ldir l) = 0 /\
  zLine3DDistFromPoint l p = dist p (zLine3DProjPoint l p).
Proof. exact line_proj. Qed.
Print Assumptions C24_projection.
Theorem C24_margin : forall l p m, norm (ldir l) = 1 ->
  zLine3DPointIsOn l p m = true <-> exists x, on_line (lorg l) (ldir l) x /\ dist p x < m.
Proof. exact line_point_is_on. Qed.
Print Assumptions C24_margin.
(** 2D: the unique common point, or the report that the lines are (nearly) parallel *)
Theorem C24_meet2 : forall l1 l2,
  (zIntersectLine2D l1 l2 = None <-> Rabs (cross2 (ldir2 l1) (ldir2 l2)) < zTOL) /\
  (~ Rabs (cross2 (ldir2 l1) (ldir2 l2)) < zTOL ->
   exists p, zIntersectLine2D l1 l2 = Some p /\ on_line2 (lorg2 l1) (ldir2 l1) p /\ on_line2 (lorg2 l2) (ldir2 l2) p /\
    forall x, on_line2 (lorg2 l1) (ldir2 l1) x -> on_line2 (lorg2 l2) (ldir2 l2) x -> x = p).
Proof. exact (fun l1 l2 => conj (line2_parallel l1 l2) (line2_intersect l1 l2)). Qed.
Print Assumptions C24_meet2.
Example C24_ex : zTOL <= gramdet (V3 1 0 0) (V3 0 1 0) /\ norm (V3 1 0 0) = 1 /\ gramdet (V3 1 0 0) (V3 1 0 0) = 0 /\
  ~ Rabs (cross2 (V2 1 0) (V2 0 1)) < zTOL /\ ~ negligible (V3 2 0 0).
Proof.
  pose proof zTOL_small. split; [unfold gramdet; spec_unfold; Lra.lra|]. split; [apply norm_unit; spec_unfold; ring|].
  split; [unfold gramdet; spec_unfold; Lra.lra|]. split; [unfold cross2; pcbn; rewrite Rabs_pos_eq by Lra.lra; Lra.lra|].
  apply long_not_negligible. replace (V3 2 0 0) with (vscale 2 (V3 1 0 0)) by vring. rewrite norm_scale, (proj1 (norm_unit (V3 1 0 0))) by (spec_unfold; ring).
  rewrite Rabs_pos_eq by Lra.lra. Lra.lra.
Qed.

(** * C25 planes *)
Theorem C25_create : forall o n, ~ negligible n ->
  exists pl, zPlane3DCreate o n = Some pl /\ porg pl = o /\ norm (pnorm pl) = 1 /\ vscale (norm n) (pnorm pl) = n.
Proof. exact plane_create. Qed.
Print Assumptions C25_create.
Theorem C25_projection : forall pl p, norm (pnorm pl) = 1 ->
  let '(d, q) := zPlane3DProjPoint pl p in
  d = zPlane3DDistFromPoint pl p /\ nearest (on_plane (porg pl) (pnorm pl)) p q /\ Rabs d = dist p q /\
  p = vadd q (vscale d (pnorm pl)).
Proof. exact plane_proj. Qed.
Print Assumptions C25_projection.
(** two non-parallel planes: the computed point and direction describe exactly the common points ... *)
Theorem C25_meet : forall pl1 pl2, norm (pnorm pl1) = 1 -> norm (pnorm pl2) = 1 -> ~ negligible (cross (pnorm pl1) (pnorm pl2)) ->
  exists p d, zIntersectPlane3D pl1 pl2 = MeetLine (Ended p) d /\ norm d = 1 /\
    forall x, (on_plane (porg pl1) (pnorm pl1) x /\ on_plane (porg pl2) (pnorm pl2) x) <-> on_line p d x.
Proof. exact plane_meet_line. Qed.
Print Assumptions C25_meet.
(** ... but the caller receives a pointer to a variable whose lifetime has ended *)
Theorem C25_dangling_origin : forall pl1 pl2 o d, zIntersectPlane3D pl1 pl2 = MeetLine o d -> deref o = None.
Proof. exact plane_meet_dangling. Qed.
Print Assumptions C25_dangling_origin.
Theorem C25_parallel : forall pl1 pl2, norm (pnorm pl1) = 1 -> norm (pnorm pl2) = 1 -> cross (pnorm pl1) (pnorm pl2) = v3zero ->
  (zIntersectPlane3D pl1 pl2 = MeetSame <-> Rabs (zPlane3DDistFromPoint pl2 (porg pl1)) < zTOL) /\
  (zIntersectPlane3D pl1 pl2 = MeetNone -> forall x, ~ (on_plane (porg pl1) (pnorm pl1) x /\ on_plane (porg pl2) (pnorm pl2) x)).
Proof. exact plane_meet_parallel. Qed.
Print Assumptions C25_parallel.
(** the on-plane test is relative to the distance from the plane's origin point *)
Theorem C25_on_plane_test : forall pl p m,
  zPlane3DPointIsOn pl p m = true <->
  negligible (vsub p (porg pl)) \/ (~ negligible (vsub p (porg pl)) /\ Rabs (zPlane3DDistFromPoint pl p) < m * dist p (porg pl)).
Proof. exact plane_point_is_on. Qed.
Print Assumptions C25_on_plane_test.
Theorem C25_on_plane_distance_refuted : exists pl p m, norm (pnorm pl) = 1 /\ 0 < m /\
  zPlane3DPointIsOn pl p m = true /\ ~ Rabs (zPlane3DDistFromPoint pl p) < 1000 * m.
Proof. exact plane_point_is_on_far. Qed.
Print Assumptions C25_on_plane_distance_refuted.
Example C25_ex : norm (V3 0 0 1) = 1 /\ norm (V3 1 0 0) = 1 /\ ~ negligible (cross (V3 0 0 1) (V3 1 0 0)) /\
  (exists o d, zIntersectPlane3D (P3 v3zero (V3 0 0 1)) (P3 v3zero (V3 1 0 0)) = MeetLine o d) /\
  cross (V3 0 0 1) (V3 0 0 1) = v3zero.
Proof.
  assert (A : norm (V3 0 0 1) = 1) by (apply norm_unit; spec_unfold; ring). assert (B : norm (V3 1 0 0) = 1) by (apply norm_unit; spec_unfold; ring).
  assert (C : ~ negligible (cross (V3 0 0 1) (V3 1 0 0))).
  { replace (cross (V3 0 0 1) (V3 1 0 0)) with (V3 0 1 0) by vring. apply long_not_negligible. pose proof zTOL_small. rewrite (proj1 (norm_unit (V3 0 1 0))) by (spec_unfold; ring). Lra.lra. }
  repeat split; [exact A|exact B|exact C| |vring].
  destruct (plane_meet_line (P3 v3zero (V3 0 0 1)) (P3 v3zero (V3 1 0 0)) A B C) as (p & d & E & _). exists (Ended p), d. exact E.
Qed.

(** * C26 centres *)
Theorem C26_barycentre : forall t s,
  (exists c, zTri3DBarycenter t = Some c /\ vscale 3 c = vadd (vadd (tv0 t) (tv1 t)) (tv2 t)) /\
  (exists c, zTri2DBarycenter s = Some c /\ vscale2 3 c = vadd2 (vadd2 (tw0 s) (tw1 s)) (tw2 s)).
Proof. exact (fun t s => conj (barycenter_ok t) (barycenter2_ok s)). Qed.
Print Assumptions C26_barycentre.
Theorem C26_circumcentre : forall t, let n := tri_normal (tv0 t) (tv1 t) (tv2 t) in
  n <> v3zero ->
  exists c, zTri3DCircumcenter t = Some c /\ on_plane (tv0 t) n c /\ dist c (tv0 t) = dist c (tv1 t) /\ dist c (tv0 t) = dist c (tv2 t).
Proof. exact (fun t => circum_ok (tv0 t) (tv1 t) (tv2 t)). Qed.
Print Assumptions C26_circumcentre.
Theorem C26_circumcentre2 : forall t, area2 (tw0 t) (tw1 t) (tw2 t) <> 0 ->
  exists c, zTri2DCircumcenter t = Some c /\ dist2 c (tw0 t) = dist2 c (tw1 t) /\ dist2 c (tw0 t) = dist2 c (tw2 t).
Proof. exact (fun t => circum2_ok (tw0 t) (tw1 t) (tw2 t)). Qed.
Print Assumptions C26_circumcentre2.
(** collinear vertices divide by zero, and only these *)
Theorem C26_circumcentre_flat : forall t, zTri3DCircumcenter t = None <-> tri_normal (tv0 t) (tv1 t) (tv2 t) = v3zero.
Proof. exact (fun t => circum_none (tv0 t) (tv1 t) (tv2 t)). Qed.
Print Assumptions C26_circumcentre_flat.
Theorem C26_incentre : forall t, tri_normal (tv0 t) (tv1 t) (tv2 t) <> v3zero ->
  exists c r, zTri3DIncenter t = Some c /\ 0 < r /\ in_triangle (tv0 t) (tv1 t) (tv2 t) c /\
    point_line_dist (tv0 t) (tv1 t) c r /\ point_line_dist (tv1 t) (tv2 t) c r /\ point_line_dist (tv2 t) (tv0 t) c r.
Proof. exact incenter_ok. Qed.
Print Assumptions C26_incentre.
Theorem C26_incentre2 : forall t, area2 (tw0 t) (tw1 t) (tw2 t) <> 0 ->
  exists c r, zTri2DIncenter t = Some c /\ 0 < r /\ in_triangle2 (tw0 t) (tw1 t) (tw2 t) c /\
    point_line_dist2 (tw0 t) (tw1 t) c r /\ point_line_dist2 (tw1 t) (tw2 t) c r /\ point_line_dist2 (tw2 t) (tw0 t) c r.
Proof. exact incenter2_ok. Qed.
Print Assumptions C26_incentre2.
Theorem C26_orthocentre : forall t, tri_normal (tv0 t) (tv1 t) (tv2 t) <> v3zero ->
  exists h, zTri3DOrthocenter t = Some h /\ on_plane (tv0 t) (tri_normal (tv0 t) (tv1 t) (tv2 t)) h /\
    dot (vsub h (tv0 t)) (vsub (tv1 t) (tv2 t)) = 0 /\ dot (vsub h (tv1 t)) (vsub (tv2 t) (tv0 t)) = 0 /\
    dot (vsub h (tv2 t)) (vsub (tv0 t) (tv1 t)) = 0.
Proof. exact orthocenter_ok. Qed.
Print Assumptions C26_orthocentre.
Theorem C26_orthocentre2 : forall t, area2 (tw0 t) (tw1 t) (tw2 t) <> 0 ->
  exists h, zTri2DOrthocenter t = Some h /\
    dot2 (vsub2 h (tw0 t)) (vsub2 (tw1 t) (tw2 t)) = 0 /\ dot2 (vsub2 h (tw1 t)) (vsub2 (tw2 t) (tw0 t)) = 0 /\
    dot2 (vsub2 h (tw2 t)) (vsub2 (tw0 t) (tw1 t)) = 0.
Proof. exact orthocenter2_ok. Qed.
Print Assumptions C26_orthocentre2.
(** circumcentre of the tetrahedron of the origin and a triangle *)
Theorem C26_cone_circumcentre : forall t, det3v (tv0 t) (tv1 t) (tv2 t) <> 0 ->
  exists c, zTri3DConeCircumcenter t = Some c /\ dist c v3zero = dist c (tv0 t) /\ dist c v3zero = dist c (tv1 t) /\ dist c v3zero = dist c (tv2 t).
Proof. exact cone_circum. Qed.
Print Assumptions C26_cone_circumcentre.
Example C26_ex : tri_normal (V3 0 0 0) (V3 1 0 0) (V3 0 1 0) <> v3zero /\ area2 (V2 0 0) (V2 1 0) (V2 0 1) <> 0 /\
  det3v (V3 1 0 0) (V3 0 1 0) (V3 0 0 1) <> 0.
Proof.
  split; [intros H; injection H; intros; pcbn; Lra.lra|]. split; [unfold area2, cross2, vsub2; pcbn; Lra.lra|spec_unfold; Lra.lra].
Qed.
