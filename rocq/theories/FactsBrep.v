(** Cutting a triangle at its intersections with a plane. *)
From Verif Require Import Base Spec SpecBrep ModelBrep FactsAlg FactsVec.
From Coq Require Import List Lia Lra Psatz.
Import ListNotations.
Open Scope R_scope.

(** points of the triangle whose interpolated height is not positive *)
Definition kept (t : vec3 * vec3 * vec3) (d : R * R * R) (p : vec3) : Prop :=
  let '(x, y, z) := t in let '(dx, dy, dz) := d in
  exists s0 s1 s2, weights3 s0 s1 s2 /\ p = comb3 s0 s1 s2 x y z /\ s0 * dx + s1 * dy + s2 * dz <= 0.
Definition cutp (a b : vec3) (da db : R) : vec3 := zVec3DInterDiv a b (Rabs da / (Rabs da + Rabs db)).

Ltac vxy := apply vec3_ext; unfold vadd, vsub, vscale, cross; cbn [vx vy vz].
Lemma kept_rot x y z dx dy dz p : kept (x, y, z) (dx, dy, dz) p <-> kept (y, z, x) (dy, dz, dx) p.
Proof.
  split; intros (s0 & s1 & s2 & (A & B & C & D) & E & F).
  - exists s1, s2, s0. split; [unfold weights3; lra|]. split; [|lra]. subst p. unfold comb3, comb2. vxy; ring.
  - exists s2, s0, s1. split; [unfold weights3; lra|]. split; [|lra]. subst p. unfold comb3, comb2. vxy; ring.
Qed.
Lemma kept_swap x y z dx dy dz p : kept (x, y, z) (dx, dy, dz) p <-> kept (y, x, z) (dy, dx, dz) p.
Proof.
  split; intros (s0 & s1 & s2 & (A & B & C & D) & E & F); exists s1, s0, s2; (split; [unfold weights3; lra|]); (split; [|lra]); subst p; unfold comb3, comb2; vxy; ring.
Qed.
Lemma in_tri_rot x y z p : in_tri (x, y, z) p <-> in_tri (y, z, x) p.
Proof.
  split; intros (s0 & s1 & s2 & (A & B & C & D) & E).
  - exists s1, s2, s0. split; [unfold weights3; lra|]. subst p. unfold comb3, comb2. vxy; ring.
  - exists s2, s0, s1. split; [unfold weights3; lra|]. subst p. unfold comb3, comb2. vxy; ring.
Qed.
Lemma in_tri_swap x y z p : in_tri (x, y, z) p <-> in_tri (y, x, z) p.
Proof. split; intros (s0 & s1 & s2 & (A & B & C & D) & E); exists s1, s0, s2; (split; [unfold weights3; lra|]); subst p; unfold comb3, comb2; vxy; ring. Qed.

Lemma cutp_pos a b da db : 0 < da -> db < 0 -> cutp a b da db = comb2 (- db / (da - db)) (da / (da - db)) a b.
Proof.
  intros A B. unfold cutp, zVec3DInterDiv, comb2. rewrite (Rabs_right da) by lra. rewrite (Rabs_left db) by lra.
  replace (da + - db) with (da - db) by ring. vxy; field; lra.
Qed.
Lemma cutp_sym a b da db : da * db < 0 -> cutp a b da db = cutp b a db da.
Proof.
  intros H. unfold cutp, zVec3DInterDiv. assert (0 < Rabs da) by (apply Rabs_pos_lt; nra). assert (0 < Rabs db) by (apply Rabs_pos_lt; nra).
  vxy; field; lra.
Qed.

(** one corner beyond: a quadrilateral, in two triangles *)
Lemma cut_A v1 v2 v3 d1 d2 d3 p : 0 < d1 -> d2 < 0 -> d3 < 0 ->
  let P := cutp v1 v3 d1 d3 in let Q := cutp v1 v2 d1 d2 in
  kept (v1, v2, v3) (d1, d2, d3) p <-> in_tri (P, v2, v3) p \/ in_tri (v2, P, Q) p.
Proof.
  intros H1 H2 H3 P Q. unfold P, Q. rewrite !cutp_pos by lra. clear P Q. split.
  - intros (a & b & c & (A & B & C & D) & E & F). subst p.
    destruct (Rle_dec (a * d1) (c * - d3)) as [L|L].
    + left. exists (a * (d1 - d3) / - d3), b, (c - a * d1 / - d3).
      split; [repeat split|].
      * apply Rle_mult_inv_pos; [nra|lra].
      * exact B.
      * apply Rmult_le_reg_r with (- d3); [lra|]. replace ((c - a * d1 / - d3) * - d3) with (c * - d3 - a * d1) by (field; lra). lra.
      * replace (a * (d1 - d3) / - d3 + b + (c - a * d1 / - d3)) with (a + b + c) by (field; lra). exact D.
      * unfold comb3, comb2. vxy; field; lra.
    + right. exists (b - (a * d1 + c * d3) / - d2), (c * (d1 - d3) / d1), ((a * d1 + c * d3) * (d1 - d2) / (- d2 * d1)).
      split; [repeat split|].
      * apply Rmult_le_reg_r with (- d2); [lra|]. replace ((b - (a * d1 + c * d3) / - d2) * - d2) with (b * - d2 - (a * d1 + c * d3)) by (field; lra). lra.
      * apply Rle_mult_inv_pos; [nra|lra].
      * apply Rle_mult_inv_pos; [nra|nra].
      * replace (b - (a * d1 + c * d3) / - d2 + c * (d1 - d3) / d1 + (a * d1 + c * d3) * (d1 - d2) / (- d2 * d1)) with (a + b + c) by (field; lra). exact D.
      * unfold comb3, comb2. vxy; field; lra.
  - intros [(s0 & s1 & s2 & (A & B & C & D) & E)|(s0 & s1 & s2 & (A & B & C & D) & E)]; subst p.
    + exists (s0 * (- d3 / (d1 - d3))), s1, (s2 + s0 * (d1 / (d1 - d3))).
      assert (0 <= - d3 / (d1 - d3)) by (apply Rle_mult_inv_pos; lra).
      assert (0 <= d1 / (d1 - d3)) by (apply Rle_mult_inv_pos; lra).
      split; [repeat split; try nra|].
      { replace (s0 * (- d3 / (d1 - d3)) + s1 + (s2 + s0 * (d1 / (d1 - d3)))) with (s0 + s1 + s2) by (field; lra). exact D. }
      split; [unfold comb3, comb2; vxy; field; lra|].
      replace (s0 * (- d3 / (d1 - d3)) * d1 + s1 * d2 + (s2 + s0 * (d1 / (d1 - d3))) * d3) with (s1 * d2 + s2 * d3) by (field; lra). nra.
    + exists (s1 * (- d3 / (d1 - d3)) + s2 * (- d2 / (d1 - d2))), (s0 + s2 * (d1 / (d1 - d2))), (s1 * (d1 / (d1 - d3))).
      assert (0 <= - d3 / (d1 - d3)) by (apply Rle_mult_inv_pos; lra).
      assert (0 <= d1 / (d1 - d3)) by (apply Rle_mult_inv_pos; lra).
      assert (0 <= - d2 / (d1 - d2)) by (apply Rle_mult_inv_pos; lra).
      assert (0 <= d1 / (d1 - d2)) by (apply Rle_mult_inv_pos; lra).
      split; [repeat split; try nra|].
      { replace (s1 * (- d3 / (d1 - d3)) + s2 * (- d2 / (d1 - d2)) + (s0 + s2 * (d1 / (d1 - d2))) + s1 * (d1 / (d1 - d3))) with (s0 + s1 + s2) by (field; lra). exact D. }
      split; [unfold comb3, comb2; vxy; field; lra|].
      replace ((s1 * (- d3 / (d1 - d3)) + s2 * (- d2 / (d1 - d2))) * d1 + (s0 + s2 * (d1 / (d1 - d2))) * d2 + s1 * (d1 / (d1 - d3)) * d3) with (s0 * d2) by (field; lra). nra.
Qed.
Lemma cut_A_area v1 v2 v3 d1 d2 d3 : 0 < d1 -> d2 < 0 -> d3 < 0 ->
  let P := cutp v1 v3 d1 d3 in let Q := cutp v1 v2 d1 d2 in
  (exists k, 0 < k /\ tri_area (P, v2, v3) = vscale k (tri_area (v1, v2, v3))) /\ (exists k, 0 < k /\ tri_area (v2, P, Q) = vscale k (tri_area (v1, v2, v3))).
Proof.
  intros H1 H2 H3 P Q. unfold P, Q. rewrite !cutp_pos by lra. clear P Q. split.
  - exists (- d3 / (d1 - d3)). split; [apply Rdiv_lt_0_compat; lra|]. unfold tri_area, tri_normal, comb2. vxy; field; lra.
  - exists (- d2 * d1 / ((d1 - d3) * (d1 - d2))). split; [apply Rdiv_lt_0_compat; nra|]. unfold tri_area, tri_normal, comb2. vxy; field; lra.
Qed.
(** two corners beyond: a smaller triangle *)
Lemma cut_V v1 v2 v3 d1 d2 d3 p : d1 < 0 -> 0 < d2 -> 0 < d3 ->
  kept (v1, v2, v3) (d1, d2, d3) p <-> in_tri (v1, cutp v2 v1 d2 d1, cutp v3 v1 d3 d1) p.
Proof.
  intros H1 H2 H3. rewrite !cutp_pos by lra. split.
  - intros (a & b & c & (A & B & C & D) & E & F). subst p.
    exists (a - b * d2 / - d1 - c * d3 / - d1), (b * (d2 - d1) / - d1), (c * (d3 - d1) / - d1). split; [repeat split|].
    + apply Rmult_le_reg_r with (- d1); [lra|]. replace ((a - b * d2 / - d1 - c * d3 / - d1) * - d1) with (a * - d1 - b * d2 - c * d3) by (field; lra). lra.
    + apply Rle_mult_inv_pos; [nra|lra].
    + apply Rle_mult_inv_pos; [nra|lra].
    + replace (a - b * d2 / - d1 - c * d3 / - d1 + b * (d2 - d1) / - d1 + c * (d3 - d1) / - d1) with (a + b + c) by (field; lra). exact D.
    + unfold comb3, comb2. vxy; field; lra.
  - intros (s0 & s1 & s2 & (A & B & C & D) & E); subst p.
    assert (0 <= - d1 / (d2 - d1)) by (apply Rle_mult_inv_pos; lra).
    assert (0 <= d2 / (d2 - d1)) by (apply Rle_mult_inv_pos; lra).
    assert (0 <= - d1 / (d3 - d1)) by (apply Rle_mult_inv_pos; lra).
    assert (0 <= d3 / (d3 - d1)) by (apply Rle_mult_inv_pos; lra).
    exists (s0 + s1 * (d2 / (d2 - d1)) + s2 * (d3 / (d3 - d1))), (s1 * (- d1 / (d2 - d1))), (s2 * (- d1 / (d3 - d1))).
    split; [repeat split; try nra|].
    { replace (s0 + s1 * (d2 / (d2 - d1)) + s2 * (d3 / (d3 - d1)) + s1 * (- d1 / (d2 - d1)) + s2 * (- d1 / (d3 - d1))) with (s0 + s1 + s2) by (field; lra). exact D. }
    split; [unfold comb3, comb2; vxy; field; lra|].
    replace ((s0 + s1 * (d2 / (d2 - d1)) + s2 * (d3 / (d3 - d1))) * d1 + s1 * (- d1 / (d2 - d1)) * d2 + s2 * (- d1 / (d3 - d1)) * d3) with (s0 * d1) by (field; lra). nra.
Qed.
Lemma cut_V_area v1 v2 v3 d1 d2 d3 : d1 < 0 -> 0 < d2 -> 0 < d3 ->
  exists k, 0 < k /\ tri_area (v1, cutp v2 v1 d2 d1, cutp v3 v1 d3 d1) = vscale k (tri_area (v1, v2, v3)).
Proof.
  intros H1 H2 H3. rewrite !cutp_pos by lra. exists (d1 * d1 / ((d2 - d1) * (d3 - d1))). split; [apply Rdiv_lt_0_compat; nra|].
  unfold tri_area, tri_normal, comb2. vxy; field; lra.
Qed.
(** one corner beyond, one on the plane *)
Lemma cut_E v1 v2 v3 d1 d2 d3 p : d1 = 0 -> d2 < 0 -> 0 < d3 ->
  kept (v1, v2, v3) (d1, d2, d3) p <-> in_tri (v1, v2, cutp v3 v2 d3 d2) p.
Proof.
  intros H1 H2 H3. rewrite !cutp_pos by lra. subst d1. split.
  - intros (a & b & c & (A & B & C & D) & E & F). subst p.
    exists a, (b - c * d3 / - d2), (c * (d3 - d2) / - d2). split; [repeat split|].
    + exact A.
    + apply Rmult_le_reg_r with (- d2); [lra|]. replace ((b - c * d3 / - d2) * - d2) with (b * - d2 - c * d3) by (field; lra). lra.
    + apply Rle_mult_inv_pos; [nra|lra].
    + replace (a + (b - c * d3 / - d2) + c * (d3 - d2) / - d2) with (a + b + c) by (field; lra). exact D.
    + unfold comb3, comb2. vxy; field; lra.
  - intros (s0 & s1 & s2 & (A & B & C & D) & E); subst p.
    assert (0 <= - d2 / (d3 - d2)) by (apply Rle_mult_inv_pos; lra).
    assert (0 <= d3 / (d3 - d2)) by (apply Rle_mult_inv_pos; lra).
    exists s0, (s1 + s2 * (d3 / (d3 - d2))), (s2 * (- d2 / (d3 - d2))).
    split; [repeat split; try nra|].
    { replace (s0 + (s1 + s2 * (d3 / (d3 - d2))) + s2 * (- d2 / (d3 - d2))) with (s0 + s1 + s2) by (field; lra). exact D. }
    split; [unfold comb3, comb2; vxy; field; lra|].
    replace (s0 * 0 + (s1 + s2 * (d3 / (d3 - d2))) * d2 + s2 * (- d2 / (d3 - d2)) * d3) with (s1 * d2) by (field; lra). nra.
Qed.
Lemma cut_E_area v1 v2 v3 d2 d3 : d2 < 0 -> 0 < d3 ->
  exists k, 0 < k /\ tri_area (v1, v2, cutp v3 v2 d3 d2) = vscale k (tri_area (v1, v2, v3)).
Proof.
  intros H2 H3. rewrite !cutp_pos by lra. exists (- d2 / (d3 - d2)). split; [apply Rdiv_lt_0_compat; lra|].
  unfold tri_area, tri_normal, comb2. vxy; field; lra.
Qed.
