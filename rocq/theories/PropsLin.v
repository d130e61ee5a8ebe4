(** C85: linear scale factors of a point on a triangle. *)
From Verif Require Import Base SpecLin ModelVec Model2D ModelElem ModelLin FactsAlg FactsVec FactsLin.
From Coq Require Lra Lia Psatz.
Open Scope R_scope.

(** a point over the triangle: the factors are its coordinates; the value is 0 and the closest point is the point itself, even if it is not on the plane of the triangle *)
Theorem C85_inside : forall t p s0 s1 s2, well_shaped (tv0 t) (tv1 t) (tv2 t) -> over (tv0 t) (tv1 t) (tv2 t) s0 s1 s2 p -> 0 <= s0 -> 0 <= s1 -> 0 <= s2 ->
  zTri3DLinScale t p = Some (0, (s0, s1, s2), p).
Proof. exact lin_inside. Qed.
Print Assumptions C85_inside.
(** one negative coordinate: factors and closest point are those of the nearest point of the triangle, the value is the distance *)
Theorem C85_edge : forall t p s0 s1 s2, well_shaped (tv0 t) (tv1 t) (tv2 t) -> over (tv0 t) (tv1 t) (tv2 t) s0 s1 s2 p ->
  (s0 < 0 /\ 0 <= s1 /\ 0 <= s2) \/ (0 <= s0 /\ s1 < 0 /\ 0 <= s2) \/ (0 <= s0 /\ 0 <= s1 /\ s2 < 0) ->
  exists l0 l1 l2, let cp := comb3 l0 l1 l2 (tv0 t) (tv1 t) (tv2 t) in
  zTri3DLinScale t p = Some (dist p cp, (l0, l1, l2), cp) /\ weights3 l0 l1 l2 /\ nearest (in_triangle (tv0 t) (tv1 t) (tv2 t)) p cp.
Proof. exact lin_edge. Qed.
Print Assumptions C85_edge.
(** two negative coordinates: the corner is returned *)
Theorem C85_corner : forall t p s0 s1 s2, well_shaped (tv0 t) (tv1 t) (tv2 t) -> over (tv0 t) (tv1 t) (tv2 t) s0 s1 s2 p ->
  (s1 < 0 -> s2 < 0 -> zTri3DLinScale t p = Some (dist p (tv0 t), (1, 0, 0), tv0 t)) /\
  (s2 < 0 -> s0 < 0 -> zTri3DLinScale t p = Some (dist p (tv1 t), (0, 1, 0), tv1 t)) /\
  (s0 < 0 -> s1 < 0 -> zTri3DLinScale t p = Some (dist p (tv2 t), (0, 0, 1), tv2 t)).
Proof. exact lin_corner. Qed.
Print Assumptions C85_corner.
(** without an obtuse angle the nearest point is returned for all points that are not over the triangle *)
Theorem C85_acute : forall t p s0 s1 s2, well_shaped (tv0 t) (tv1 t) (tv2 t) -> over (tv0 t) (tv1 t) (tv2 t) s0 s1 s2 p ->
  ~ obtuse (tv0 t) (tv1 t) (tv2 t) -> ~ obtuse (tv1 t) (tv2 t) (tv0 t) -> ~ obtuse (tv2 t) (tv0 t) (tv1 t) -> s0 < 0 \/ s1 < 0 \/ s2 < 0 ->
  exists l0 l1 l2, let cp := comb3 l0 l1 l2 (tv0 t) (tv1 t) (tv2 t) in
  zTri3DLinScale t p = Some (dist p cp, (l0, l1, l2), cp) /\ weights3 l0 l1 l2 /\ nearest (in_triangle (tv0 t) (tv1 t) (tv2 t)) p cp.
Proof. exact lin_acute. Qed.
Print Assumptions C85_acute.
(** with an obtuse angle there are points of the plane to which another point of the triangle is nearer *)
Theorem C85_obtuse_refuted : forall t, well_shaped (tv0 t) (tv1 t) (tv2 t) ->
  (obtuse (tv0 t) (tv1 t) (tv2 t) -> exists p d l x, zTri3DLinScale t p = Some (d, l, tv0 t) /\ on_plane (tv0 t) (tri_normal (tv0 t) (tv1 t) (tv2 t)) p /\ in_triangle (tv0 t) (tv1 t) (tv2 t) x /\ dist p x < d) /\
  (obtuse (tv1 t) (tv2 t) (tv0 t) -> exists p d l x, zTri3DLinScale t p = Some (d, l, tv1 t) /\ on_plane (tv0 t) (tri_normal (tv0 t) (tv1 t) (tv2 t)) p /\ in_triangle (tv0 t) (tv1 t) (tv2 t) x /\ dist p x < d) /\
  (obtuse (tv2 t) (tv0 t) (tv1 t) -> exists p d l x, zTri3DLinScale t p = Some (d, l, tv2 t) /\ on_plane (tv0 t) (tri_normal (tv0 t) (tv1 t) (tv2 t)) p /\ in_triangle (tv0 t) (tv1 t) (tv2 t) x /\ dist p x < d).
Proof. exact lin_obtuse_refuted. Qed.
Print Assumptions C85_obtuse_refuted.
(** a right triangle meets the hypotheses, also with points outside *)
Example C85_ex : well_shaped (V3 0 0 0) (V3 4 0 0) (V3 0 3 0) /\ over (V3 0 0 0) (V3 4 0 0) (V3 0 3 0) (1/4) (1/2) (1/4) (V3 2 (3/4) 5) /\
  over (V3 0 0 0) (V3 4 0 0) (V3 0 3 0) (-1) 1 1 (V3 4 3 1) /\ over (V3 0 0 0) (V3 4 0 0) (V3 0 3 0) 4 (-1) (-2) (V3 (-4) (-6) 0) /\ ~ obtuse (V3 0 0 0) (V3 4 0 0) (V3 0 3 0).
Proof.
  assert (Z := zTOL_pos). assert (Y := zTOL_small).
  assert (N : forall a b c, 1 <= a \/ a <= -1 \/ 1 <= b \/ b <= -1 -> ~ negligible (V3 a b c)).
  { intros a b c H (H1 & H2 & _). cbn [vx vy] in *. apply Rabs_def2 in H1. apply Rabs_def2 in H2. Lra.lra. }
  split; [|split; [|split; [|split]]].
  - unfold well_shaped, spread_at, vsub, dot. cbn [vx vy vz]. repeat split; try (apply N; Lra.lra); Psatz.nra.
  - split; [Lra.lra|]. exists (V3 0 0 5). unfold vsub, dot. cbn [vx vy vz]. split; [Lra.lra|]. split; [Lra.lra|]. apply vec3_ext; unfold comb3, comb2, vadd, vscale; cbn [vx vy vz]; Lra.lra.
  - split; [Lra.lra|]. exists (V3 0 0 1). unfold vsub, dot. cbn [vx vy vz]. split; [Lra.lra|]. split; [Lra.lra|]. apply vec3_ext; unfold comb3, comb2, vadd, vscale; cbn [vx vy vz]; Lra.lra.
  - split; [Lra.lra|]. exists (V3 0 0 0). unfold vsub, dot. cbn [vx vy vz]. split; [Lra.lra|]. split; [Lra.lra|]. apply vec3_ext; unfold comb3, comb2, vadd, vscale; cbn [vx vy vz]; Lra.lra.
  - unfold obtuse, vsub, dot. cbn [vx vy vz]. Lra.lra.
Qed.
(** and an obtuse one *)
Example C85_ex_obtuse : well_shaped (V3 0 0 0) (V3 4 0 0) (V3 (-1) 1 0) /\ obtuse (V3 0 0 0) (V3 4 0 0) (V3 (-1) 1 0).
Proof.
  assert (Z := zTOL_pos). assert (Y := zTOL_small).
  assert (N : forall a b c, 1 <= a \/ a <= -1 \/ 1 <= b \/ b <= -1 -> ~ negligible (V3 a b c)).
  { intros a b c H (H1 & H2 & _). cbn [vx vy] in *. apply Rabs_def2 in H1. apply Rabs_def2 in H2. Lra.lra. }
  split; [unfold well_shaped, spread_at, vsub, dot; cbn [vx vy vz]; repeat split; try (apply N; Lra.lra); Psatz.nra|unfold obtuse, vsub, dot; cbn [vx vy vz]; Lra.lra].
Qed.
