(** Proofs about intersections of triangles with axis-aligned boxes. *)
From Coq Require Import List Bool Lia.
Import ListNotations.
From Verif Require Import Base ModelVec ModelBox ModelTree ModelElem ModelCol SpecCol FactsVec FactsAlg Facts2D FactsElem FactsTri FactsTri2 FactsLine FactsCentre FactsObb FactsBox FactsSweep FactsCol FactsCol2 FactsCol3 FactsCol4 FactsColBox.
Open Scope R_scope.

Lemma elem_comb a s t u v : elem a (comb2 s t u v) = s * elem a u + t * elem a v.
Proof. unfold comb2. destruct a; reflexivity. Qed.
Lemma elem_ext a u v : elem a u = elem a v -> elem (axis_next a) u = elem (axis_next a) v -> elem (axis_next (axis_next a)) u = elem (axis_next (axis_next a)) v -> u = v.
Proof. destruct a; cbn; intros; apply vec3_ext; assumption. Qed.
Lemma face_one v1 v2 a p b q :
  zColChkTriAABox3DEdgeAxOne v1 v2 a p b = Some q <->
  segment v1 v2 q /\ elem a v1 <> elem a v2 /\ elem a q = elem a p /\
  strictly (elem (axis_next a) (bmin b)) (elem (axis_next a) (bmax b)) (elem (axis_next a) q) /\
  strictly (elem (axis_next (axis_next a)) (bmin b)) (elem (axis_next (axis_next a)) (bmax b)) (elem (axis_next (axis_next a)) q).
Proof.
  unfold zColChkTriAABox3DEdgeAxOne. cbv zeta. set (d1 := elem a v1 - elem a p). set (d2 := elem a v2 - elem a p).
  destruct ((Rltb 0 d1 && Rltb 0 d2) || (Rltb d1 0 && Rltb d2 0)) eqn:Sd.
  { split; [discriminate|]. intros ((s & t & (A & B & C) & ->) & _ & H & _). exfalso. rewrite elem_comb in H.
    assert (Z : s * d1 + t * d2 = 0) by (unfold d1, d2; replace s with (1 - t) in * by lra; lra).
    apply orb_true_iff in Sd. rewrite !andb_true_iff, !Rltb_true in Sd. destruct Sd as [[D1 D2]|[D1 D2]].
    - assert (s = 0) by nra. assert (t = 0) by nra. lra.
    - assert (s = 0) by nra. assert (t = 0) by nra. lra. }
  apply orb_false_iff in Sd. destruct Sd as [S1 S2].
  assert (Pd : d1 * d2 <= 0).
  { destruct (Rlt_dec 0 d1) as [L|L].
    - rewrite (proj2 (Rltb_true 0 d1) L) in S1. cbn in S1. apply Rltb_false in S1. nra.
    - destruct (Rlt_dec d1 0) as [L'|L']; [|assert (d1 = 0) by lra; nra]. rewrite (proj2 (Rltb_true d1 0) L') in S2. cbn in S2. apply Rltb_false in S2. nra. }
  destruct (Reqb_reflect (d2 - d1) 0) as [Z|Z].
  { split; [discriminate|]. intros (_ & N & _). exfalso. apply N. unfold d1, d2 in Z. lra. }
  set (a1 := axis_next a). set (a2 := axis_next a1).
  set (t := - d1 / (d2 - d1)).
  assert (Wt : weights2 (1 - t) t).
  { destruct (proj1 (crossing d1 d2) Pd) as (s & t' & (A & B & C) & E). assert (t = t').
    { unfold t. apply (Rmult_eq_reg_r (d2 - d1)); [|assumption]. replace s with (1 - t') in E by lra. field_simplify; [lra|assumption]. }
    subst t'. unfold weights2. lra. }
  assert (Es : forall k, elem k v1 - (elem k v2 - elem k v1) * d1 / (d2 - d1) = elem k (comb2 (1 - t) t v1 v2)).
  { intros k. rewrite elem_comb. unfold t. field. assumption. }
  rewrite !Es. set (x := comb2 (1 - t) t v1 v2).
  assert (Ea : elem a x = elem a p).
  { unfold x. rewrite elem_comb. assert (Q : t * (d2 - d1) = - d1) by (unfold t; field; assumption). unfold d1, d2 in Q. lra. }
  assert (Ex : alongAxis a (elem a p) (elem a1 x) (elem a2 x) = x).
  { destruct (elem_along a (elem a p) (elem a1 x) (elem a2 x)) as (P1 & P2 & P3).
    apply (elem_ext a); [rewrite P1; symmetry; exact Ea|exact P2|exact P3]. }
  rewrite Ex.
  assert (Un : forall y, segment v1 v2 y -> elem a y = elem a p -> y = x).
  { intros y (s & t' & (A & B & C) & ->) H. rewrite elem_comb in H. assert (t' = t).
    { apply (Rmult_eq_reg_r (d2 - d1)); [|assumption]. replace (t * (d2 - d1)) with (- d1) by (unfold t; field; assumption). replace s with (1 - t') in H by lra. unfold d1, d2. lra. }
    subst t'. unfold x. replace s with (1 - t) by lra. reflexivity. }
  destruct (Rltb (elem a1 (bmin b)) (elem a1 x) && Rltb (elem a1 x) (elem a1 (bmax b)) && Rltb (elem a2 (bmin b)) (elem a2 x) && Rltb (elem a2 x) (elem a2 (bmax b))) eqn:In.
  - rewrite !andb_true_iff, !Rltb_true in In. unfold strictly. split.
    + intros H. inversion H. subst q. split; [exists (1 - t), t; auto|]. split; [unfold d1, d2 in Z; lra|]. tauto.
    + intros (Sg & _ & H & _). f_equal. symmetry. apply Un; assumption.
  - split; [discriminate|]. intros (Sg & _ & H & (A & B) & (C & D)). rewrite (Un q Sg H) in *.
    rewrite (proj2 (Rltb_true _ _) A), (proj2 (Rltb_true _ _) B), (proj2 (Rltb_true _ _) C), (proj2 (Rltb_true _ _) D) in In. discriminate.
Qed.
Lemma tri_edge_in b v1 v2 q : List.In q (zIntersectTriAABox3DEdge v1 v2 b) <-> face_hit b v1 v2 q.
Proof.
  unfold zIntersectTriAABox3DEdge. rewrite in_flat_map.
  assert (H1 : (exists r, List.In r (triEdgeCalls b v1 v2) /\ List.In q match r with Some ip => [ip] | None => [] end) <-> List.In (Some q) (triEdgeCalls b v1 v2)).
  { split.
    - intros ([v|] & A & B); [destruct B as [<-|[]]; assumption|destruct B].
    - intros A. exists (Some q). split; [assumption|left; reflexivity]. }
  rewrite H1. clear H1. unfold triEdgeCalls. cbn [flat_map app List.In]. rewrite !face_one. cbn [elem axis_next].
  unfold face_hit, on_x_face, on_y_face, on_z_face, at_end. tauto.
Qed.
Lemma tri_edge_check b v1 v2 : zColChkTriAABox3DEdge v1 v2 b = true <-> exists q, face_hit b v1 v2 q.
Proof.
  unfold zColChkTriAABox3DEdge. rewrite existsb_exists. split.
  - intros ([q|] & A & B); [|discriminate]. exists q. apply tri_edge_in. unfold zIntersectTriAABox3DEdge. apply in_flat_map. exists (Some q). split; [assumption|left; reflexivity].
  - intros (q & H). apply tri_edge_in in H. unfold zIntersectTriAABox3DEdge in H. apply in_flat_map in H. destruct H as (r & A & B). exists r. split; [assumption|]. destruct r; [reflexivity|destruct B].
Qed.
(** the test of the box edges against the triangle never succeeds: a distance is never below minus the tolerance *)
Lemma tri_pierced v0 v1 v2 t b : zTri3DCreate v0 v1 v2 = (true, t) -> triPlanePoints t b = Some [].
Proof.
  intros E. destruct (tri_made _ _ _ _ E) as (_ & _ & _ & _ & _ & _ & Pl). unfold triPlanePoints. rewrite Pl. cbv zeta.
  rewrite (proj2 (Nat.leb_le _ 6) (plane_box_count _ _)). f_equal.
  assert (F : forall q, zTri3DPointIsInside t q (- zTOL) = false).
  { intros q. destruct (zTri3DPointIsInside t q (- zTOL)) eqn:I; [|reflexivity]. exfalso. apply (inside_within _ _ _ _ _ _ E) in I. destruct I as (x & _ & D).
    pose proof (norm_nonneg (vsub q x)). unfold dist in D. pose proof zTOL_pos. lra. }
  induction (zIntersectPlaneAABox3D (P3 v0 (tnorm t)) b) as [|q l IH]; [reflexivity|]. cbn [filter]. rewrite F. assumption.
Qed.
Lemma tri_box v0 v1 v2 t b : zTri3DCreate v0 v1 v2 = (true, t) ->
  (exists r, zColChkTriAABox3D t b = Some r /\
    (r = true <-> (deep_in b v0 \/ deep_in b v1 \/ deep_in b v2) \/ exists q, edge_face_hit b v0 v1 v2 q)) /\
  (exists l, zIntersectTriAABox3D t b = Some l /\ forall q, List.In q l <-> edge_face_hit b v0 v1 v2 q).
Proof.
  intros E. pose proof (tri_pierced _ _ _ _ b E) as Pi. destruct (tri_made _ _ _ _ E) as (T0 & T1 & T2 & _).
  assert (Dp : forall v, zAABox3DPointIsInside b v (- zTOL) = true <-> deep_in b v).
  { intros v. rewrite aab_inside. unfold deep_in, deep. split; intros; lra. }
  unfold edge_face_hit. split.
  - unfold zColChkTriAABox3D, zColChkTriAABox3DPlane. rewrite Pi, T0, T1, T2. cbn [length Nat.ltb Nat.leb].
    set (B1 := zAABox3DPointIsInside b v0 (- zTOL) || zAABox3DPointIsInside b v1 (- zTOL) || zAABox3DPointIsInside b v2 (- zTOL)).
    set (B2 := zColChkTriAABox3DEdge v0 v1 b || zColChkTriAABox3DEdge v1 v2 b || zColChkTriAABox3DEdge v2 v0 b).
    assert (H1 : B1 = true <-> deep_in b v0 \/ deep_in b v1 \/ deep_in b v2) by (unfold B1; rewrite !orb_true_iff, !Dp; tauto).
    assert (H2 : B2 = true <-> exists q, face_hit b v0 v1 q \/ face_hit b v1 v2 q \/ face_hit b v2 v0 q).
    { unfold B2. rewrite !orb_true_iff, !tri_edge_check. clear. split; [intros [[(q & H)|(q & H)]|(q & H)]; exists q; auto|intros (q & [H|[H|H]]); eauto]. }
    destruct B1; [exists true; split; [reflexivity|]; split; [intros _; left; apply H1; reflexivity|reflexivity]|].
    destruct B2; [exists true; split; [reflexivity|]; split; [intros _; right; apply H2; reflexivity|reflexivity]|].
    exists false. split; [reflexivity|]. split; [discriminate|]. intros [H|H]; [apply H1 in H|apply H2 in H]; discriminate.
  - unfold zIntersectTriAABox3D. rewrite Pi, T0, T1, T2. eexists; split; [reflexivity|]. intros q. rewrite app_nil_r, !in_app_iff, !tri_edge_in. tauto.
Qed.
Lemma face_in_box b v w q : proper b -> face_hit b v w q -> in_box b q.
Proof.
  unfold proper, face_hit, on_x_face, on_y_face, on_z_face, at_end, strictly, in_box.
  intros H (_ & [(_ & [A|A] & B & C)|[(_ & [A|A] & B & C)|(_ & [A|A] & B & C)]]); rewrite A; lra.
Qed.
Lemma tri_box_sound v0 v1 v2 t b : proper b -> zTri3DCreate v0 v1 v2 = (true, t) -> zColChkTriAABox3D t b = Some true ->
  meets (in_triangle v0 v1 v2) (in_box b).
Proof.
  intros Pb E H. destruct (tri_box _ _ _ _ b E) as ((r & R & Hr) & _). rewrite R in H. inversion H. subst r. pose proof zTOL_pos as TP.
  destruct (proj1 Hr eq_refl) as [D|(q & D)].
  - assert (K : forall v, deep_in b v -> in_box b v) by (intros v; unfold deep_in, deep, in_box; lra).
    destruct (corners_in v0 v1 v2) as (C0 & C1 & C2). destruct D as [D|[D|D]]; [exists v0|exists v1|exists v2]; auto.
  - exists q. split.
    + apply outline_tri. unfold outline. destruct D as [(D & _)|[(D & _)|(D & _)]]; auto.
    + destruct D as [D|[D|D]]; eapply face_in_box; eassumption.
Qed.
(** a triangle that cuts right through the box is not noticed when its outline passes around the box *)
Lemma tri_box_missed : exists v0 v1 v2 t b x, zTri3DCreate v0 v1 v2 = (true, t) /\ in_triangle v0 v1 v2 x /\
  strictly (vx (bmin b)) (vx (bmax b)) (vx x) /\ strictly (vy (bmin b)) (vy (bmax b)) (vy x) /\ strictly (vz (bmin b)) (vz (bmax b)) (vz x) /\
  zColChkTriAABox3D t b = Some false /\ zIntersectTriAABox3D t b = Some [].
Proof.
  exists (V3 0 0 0), (V3 6 0 0), (V3 3 6 0), starA, (B3 (V3 (5 / 2) (3 / 2) (-1)) (V3 (7 / 2) (5 / 2) 1)), (V3 3 2 0). cbn [bmin bmax vx vy vz].
  split; [exact starA_made|]. split. { exists (1 / 3), (1 / 3), (1 / 3). split; [unfold weights3; lra|]. unfold comb3, comb2. apply vec3_ext; spec_unfold; field. }
  unfold strictly. split; [lra|]. split; [lra|]. split; [lra|].
  set (b := B3 (V3 (5 / 2) (3 / 2) (-1)) (V3 (7 / 2) (5 / 2) 1)).
  assert (Pb : proper b) by (unfold proper, b; cbn; lra). pose proof zTOL_pos as TP.
  destruct (tri_box _ _ _ _ b starA_made) as ((r & R & Hr) & (l & L & Hl)).
  assert (No : forall q, ~ edge_face_hit b (V3 0 0 0) (V3 6 0 0) (V3 3 6 0) q).
  { intros q D. assert (Bq : in_box b q) by (destruct D as [D|[D|D]]; eapply face_in_box; eassumption).
    destruct D as [(D & _)|[(D & _)|(D & _)]]; destruct D as (s & u & (A & B & C) & ->); unfold in_box, b, comb2 in Bq; cbn [bmin bmax vadd vscale vx vy vz] in Bq; lra. }
  split.
  - rewrite R. f_equal. destruct r; [|reflexivity]. exfalso. destruct (proj1 Hr eq_refl) as [D|(q & D)]; [|apply (No q D)].
    unfold deep_in, deep, b in D. cbn [bmin bmax vx vy vz] in D. lra.
  - rewrite L. f_equal. destruct l as [|q l]; [reflexivity|]. exfalso. apply (No q), Hl. left; reflexivity.
Qed.
