(** Proofs about intersections of an edge with a triangle and of two triangles. *)
From Coq Require Import List Bool Lia.
Import ListNotations.
From Verif Require Import Base ModelVec ModelBox ModelTree ModelElem ModelCol SpecCol FactsVec FactsAlg Facts2D FactsElem FactsTri FactsTri2 FactsLine FactsCentre FactsObb FactsCol FactsCol2.
Open Scope R_scope.

(** ** the plane of a triangle *)
Lemma vscale_one v : vscale 1 v = v.
Proof. vring. Qed.
Lemma tri_made v0 v1 v2 t : zTri3DCreate v0 v1 v2 = (true, t) ->
  tv0 t = v0 /\ tv1 t = v1 /\ tv2 t = v2 /\ ~ negligible (tri_normal v0 v1 v2) /\ norm (tnorm t) = 1 /\
  (exists k, 0 < k /\ vscale k (tnorm t) = tri_normal v0 v1 v2) /\ zTri3DToPlane3D t = Some (P3 v0 (tnorm t)).
Proof.
  intros E. pose proof (tri_creation v0 v1 v2) as [N P]. cbv zeta in *.
  assert (K : ~ negligible (tri_normal v0 v1 v2)) by (intros H; specialize (N H); rewrite E in N; discriminate).
  destruct (P K) as (t' & E' & T0 & T1 & T2 & Nn & Sc & _). rewrite E in E'. inversion E'. subst t'.
  split; [assumption|]. split; [assumption|]. split; [assumption|]. split; [assumption|]. split; [assumption|].
  split. { exists (norm (tri_normal v0 v1 v2)). split; [apply nonneg_norm_pos; assumption|assumption]. }
  unfold zTri3DToPlane3D. destruct (plane_create (tv0 t) (tnorm t)) as (pl & P1 & P2 & P3 & P4).
  { apply zVec3DIsTiny_false, unit_not_tiny. rewrite <- norm_sqr, Nn. ring. }
  rewrite P1. rewrite Nn, vscale_one in P4. destruct pl as [po pn]. cbn in *. subst. reflexivity.
Qed.
Lemma tri_on_plane v0 v1 v2 t x : zTri3DCreate v0 v1 v2 = (true, t) -> in_triangle v0 v1 v2 x -> on_plane v0 (tnorm t) x.
Proof.
  intros E H. destruct (tri_made _ _ _ _ E) as (_ & _ & _ & _ & _ & (k & Hk & Sc) & _).
  destruct H as (s0 & s1 & s2 & (_ & _ & _ & W) & ->). unfold on_plane.
  assert (Z : dot (vsub (comb3 s0 s1 s2 v0 v1 v2) v0) (vscale k (tnorm t)) = 0).
  { rewrite Sc. replace s0 with (1 - s1 - s2) by lra. unfold tri_normal, comb3, comb2. clear. spec_unfold. ring. }
  assert (Z2 : k * dot (vsub (comb3 s0 s1 s2 v0 v1 v2) v0) (tnorm t) = 0) by (rewrite <- Z; clear; spec_unfold; ring).
  apply Rmult_integral in Z2. destruct Z2; [lra|assumption].
Qed.
Lemma inside_within v0 v1 v2 t q m : zTri3DCreate v0 v1 v2 = (true, t) ->
  zTri3DPointIsInside t q m = true <-> within m (in_triangle v0 v1 v2) q.
Proof.
  intros E. destruct (tri_made _ _ _ _ E) as (T0 & T1 & T2 & N & _). unfold within. rewrite <- T0, <- T1, <- T2 in *. apply tri3_point_is_inside. assumption.
Qed.
Lemma dist_self p : dist p p = 0.
Proof. unfold dist. replace (vsub p p) with v3zero by vring. apply norm_zero_iff. reflexivity. Qed.
Lemma inside_self v0 v1 v2 t q : zTri3DCreate v0 v1 v2 = (true, t) -> in_triangle v0 v1 v2 q -> zTri3DPointIsInside t q zTOL = true.
Proof. intros E H. apply (inside_within _ _ _ _ _ _ E). exists q. split; [assumption|]. rewrite dist_self. apply zTOL_pos. Qed.

(** ** an edge and a triangle *)
Lemma edge_tri v0 v1 v2 t e : zTri3DCreate v0 v1 v2 = (true, t) ->
  let l := zIntersectEdgeTri3D e t in
  (length l <= 2)%nat /\ (zColChkEdgeTri3D e t = true <-> l <> []) /\
  (forall q, List.In q l -> segment (ev0 e) (ev1 e) q /\ within zTOL (in_triangle v0 v1 v2) q) /\
  (forall x, segment (ev0 e) (ev1 e) x -> in_triangle v0 v1 v2 x ->
     zTOL <= Rabs (height v0 (tnorm t) (ev1 e) - height v0 (tnorm t) (ev0 e)) -> l = [x]) /\
  (segment (ev0 e) (ev1 e) (ev0 e) -> in_triangle v0 v1 v2 (ev0 e) -> in_triangle v0 v1 v2 (ev1 e) -> l = [ev0 e; ev1 e] \/
     zTOL <= Rabs (height v0 (tnorm t) (ev1 e) - height v0 (tnorm t) (ev0 e))).
Proof.
  intros E l. destruct (tri_made _ _ _ _ E) as (T0 & T1 & T2 & N & U & _ & Pl).
  unfold l, zColChkEdgeTri3D, zIntersectEdgeTri3D. rewrite Pl. clear l. cbv zeta. set (pl := P3 v0 (tnorm t)).
  split. { pose proof (edge_count e pl). eapply Nat.le_trans; [|eassumption]. clear. induction (zIntersectEdgePlane3D e pl) as [|v r IH]; cbn; [lia|]. destruct (zTri3DPointIsInside t v zTOL); cbn; lia. }
  split. { destruct (filter _ _); cbn; split; intros; congruence. }
  split. { intros q H. apply filter_In in H. destruct H as [H1 H2]. apply edge_plane_points in H1. split; [apply H1|]. apply (inside_within _ _ _ _ _ _ E), H2. }
  split.
  - intros x S1 S2 T. pose proof (tri_on_plane _ _ _ _ _ E S2) as S3.
    destruct (edge_plane e pl) as [(_ & M)|[(q & Q & _ & _ & Un & _)|(_ & _ & T')]]; cbn [porg pnorm pl] in *.
    + exfalso. apply M. exists x. auto.
    + rewrite Q. rewrite <- (Un x S1 S3). cbn [filter]. rewrite (inside_self _ _ _ _ _ E S2). reflexivity.
    + lra.
  - intros S1 A B. destruct (edge_plane e pl) as [(_ & M)|[(q & _ & _ & _ & _ & T)|(Q & _)]]; cbn [porg pnorm pl] in *.
    + exfalso. apply M. exists (ev0 e). split; [assumption|]. apply (tri_on_plane _ _ _ _ _ E A).
    + right. assumption.
    + left. rewrite Q. cbn [filter]. rewrite (inside_self _ _ _ _ _ E A), (inside_self _ _ _ _ _ E B). reflexivity.
Qed.
Lemma edge_tri_in v0 v1 v2 t e : zTri3DCreate v0 v1 v2 = (true, t) ->
  in_triangle v0 v1 v2 (ev0 e) -> in_triangle v0 v1 v2 (ev1 e) -> zIntersectEdgeTri3D e t = [ev0 e; ev1 e].
Proof.
  intros E A B. destruct (edge_tri _ _ _ _ e E) as (_ & _ & _ & _ & H). destruct (H (seg_l _ _) A B) as [R|T]; [assumption|exfalso].
  pose proof (tri_on_plane _ _ _ _ _ E A) as PA. pose proof (tri_on_plane _ _ _ _ _ E B) as PB. unfold on_plane in *. unfold height in T.
  rewrite PA, PB, Rminus_0_r, Rabs_R0 in T. pose proof zTOL_pos. lra.
Qed.
Lemma edge_tri_all v0 v1 v2 t e : zTri3DCreate v0 v1 v2 = (true, t) ->
  let l := zIntersectEdgeTri3D e t in
  (length l <= 2)%nat /\ (zColChkEdgeTri3D e t = true <-> l <> []) /\
  (forall q, List.In q l -> segment (ev0 e) (ev1 e) q /\ within zTOL (in_triangle v0 v1 v2) q) /\
  (forall x, segment (ev0 e) (ev1 e) x -> in_triangle v0 v1 v2 x ->
     zTOL <= Rabs (height v0 (tnorm t) (ev1 e) - height v0 (tnorm t) (ev0 e)) -> l = [x]) /\
  (in_triangle v0 v1 v2 (ev0 e) -> in_triangle v0 v1 v2 (ev1 e) -> l = [ev0 e; ev1 e]).
Proof.
  intros E l. destruct (edge_tri v0 v1 v2 t e E) as (A & B & C & D & _). repeat match goal with |- _ /\ _ => split end; try assumption. exact (edge_tri_in v0 v1 v2 t e E).
Qed.
Lemma edge_plane_flat e pl : meets (segment (ev0 e) (ev1 e)) (on_plane (porg pl) (pnorm pl)) ->
  Rabs (height (porg pl) (pnorm pl) (ev1 e) - height (porg pl) (pnorm pl) (ev0 e)) < zTOL ->
  Rabs (height (porg pl) (pnorm pl) (ev0 e)) < zTOL /\ Rabs (height (porg pl) (pnorm pl) (ev1 e)) < zTOL.
Proof. intros M. apply flat_edge, meets_product, M. Qed.

(** ** two triangles *)
Lemma keepInside_in t : forall v ip q, List.In q (keepInside t v ip) -> List.In q ip \/ (List.In q v /\ zTri3DPointIsInside t q zTOL = true).
Proof.
  induction v as [|w v IH]; intros ip q H; [auto|]. unfold keepInside in H. cbn [fold_left] in H.
  apply (IH (if zTri3DPointIsInside t w zTOL then addNew ip w else ip)) in H. destruct H as [H|[H1 H2]]; [|right; split; [right|]; assumption].
  destruct (zTri3DPointIsInside t w zTOL) eqn:W; [|auto]. apply addNew_in in H. destruct H as [H | ->]; [auto|]. right. split; [left; reflexivity|assumption].
Qed.
Lemma keepInside_keeps t : forall v ip q, List.In q ip -> List.In q (keepInside t v ip).
Proof.
  induction v as [|w v IH]; intros ip q H; [assumption|]. unfold keepInside. cbn [fold_left]. apply IH. destruct (zTri3DPointIsInside t w zTOL); [apply addNew_keeps|]; assumption.
Qed.
Lemma keepInside_has t : forall v ip q, List.In q v -> zTri3DPointIsInside t q zTOL = true -> exists q', List.In q' (keepInside t v ip) /\ alike q q'.
Proof.
  induction v as [|w v IH]; intros ip q H I; [destruct H|]. unfold keepInside. cbn [fold_left]. destruct H as [-> |H]; [|apply (IH _ q H I)].
  rewrite I. destruct (addNew_has ip q) as (q' & A & B). exists q'. split; [apply keepInside_keeps, A|assumption].
Qed.
Lemma keepInside_distinct t : forall v ip, distinct ip -> distinct (keepInside t v ip).
Proof.
  induction v as [|w v IH]; intros ip D; [assumption|]. unfold keepInside. cbn [fold_left]. apply IH. destruct (zTri3DPointIsInside t w zTOL); [apply addNew_distinct|]; assumption.
Qed.
Lemma tri_tri_sound a0 a1 a2 b0 b1 b2 t1 t2 l : zTri3DCreate a0 a1 a2 = (true, t1) -> zTri3DCreate b0 b1 b2 = (true, t2) ->
  zIntersectTri3D t1 t2 = Some l ->
  distinct l /\
  forall q, List.In q l ->
    (in_triangle a0 a1 a2 q /\ within zTOL (in_triangle b0 b1 b2) q) \/
    (in_triangle b0 b1 b2 q /\ within zTOL (in_triangle a0 a1 a2) q).
Proof.
  intros E1 E2. destruct (tri_made _ _ _ _ E1) as (A0 & A1 & A2 & _ & _ & _ & P1). destruct (tri_made _ _ _ _ E2) as (B0 & B1 & B2 & _ & _ & _ & P2).
  unfold zIntersectTri3D. rewrite P1, P2. cbv zeta. destruct (_ && _); [|discriminate]. intros K. inversion K as [K']. clear K. subst l.
  split. { apply keepInside_distinct, keepInside_distinct, distinct_nil. }
  intros q H. apply keepInside_in in H. destruct H as [H|[H I]].
  - left. apply keepInside_in in H. destruct H as [[]|[H I]]. apply tri_plane_points in H. rewrite A0, A1, A2 in H.
    split; [apply outline_tri, H|apply (inside_within _ _ _ _ _ _ E2), I].
  - right. apply tri_plane_points in H. rewrite B0, B1, B2 in H. split; [apply outline_tri, H|apply (inside_within _ _ _ _ _ _ E1), I].
Qed.
(** in regular position the collected points are exactly the ends of the cut *)
Lemma regular_edge o n a b c e pl : porg pl = o -> pnorm pl = n -> regular o n a b c ->
  (ev0 e = a /\ ev1 e = b) \/ (ev0 e = b /\ ev1 e = c) \/ (ev0 e = c /\ ev1 e = a) ->
  (forall q, List.In q (zIntersectEdgePlane3D e pl) -> on_plane o n q) /\ (length (zIntersectEdgePlane3D e pl) <= 1)%nat /\
  (forall q, segment (ev0 e) (ev1 e) q -> on_plane o n q -> zIntersectEdgePlane3D e pl = [q]).
Proof.
  intros Po Pn [Rg _] He. specialize (Rg _ _ He).
  destruct (edge_plane e pl) as [(E & M)|[(q & E & A & B & U & T)|(E & M & T)]]; rewrite Po, Pn in *; rewrite E.
  - split; [intros q []|]. split; [cbn; lia|]. intros q A B. exfalso. apply M. exists q. auto.
  - split; [intros x [<-|[]]; assumption|]. split; [cbn; lia|]. intros x X1 X2. f_equal. symmetry. auto.
  - exfalso. apply meets_product in M. specialize (Rg M). lra.
Qed.
Lemma regular_points t pl a b c : tv0 t = a -> tv1 t = b -> tv2 t = c -> regular (porg pl) (pnorm pl) a b c ->
  (length (zIntersectTriPlane3D t pl) <= 2)%nat /\
  forall q, List.In q (zIntersectTriPlane3D t pl) <-> outline a b c q /\ on_plane (porg pl) (pnorm pl) q.
Proof.
  intros <- <- <- Rg. set (o := porg pl) in *. set (n := pnorm pl) in *. rewrite tri_plane_fold.
  destruct (regular_edge o n _ _ _ (E3 (tv0 t) (tv1 t)) pl eq_refl eq_refl Rg ltac:(cbn; auto)) as (O0 & L0 & U0).
  destruct (regular_edge o n _ _ _ (E3 (tv1 t) (tv2 t)) pl eq_refl eq_refl Rg ltac:(cbn; auto)) as (O1 & L1 & U1).
  destruct (regular_edge o n _ _ _ (E3 (tv2 t) (tv0 t)) pl eq_refl eq_refl Rg ltac:(cbn; auto)) as (O2 & L2 & U2).
  cbn [ev0 ev1] in *.
  set (l0 := zIntersectEdgePlane3D (E3 (tv0 t) (tv1 t)) pl) in *. set (l1 := zIntersectEdgePlane3D (E3 (tv1 t) (tv2 t)) pl) in *. set (l2 := zIntersectEdgePlane3D (E3 (tv2 t) (tv0 t)) pl) in *.
  assert (Raw : forall q, List.In q (l0 ++ l1 ++ l2) <-> outline (tv0 t) (tv1 t) (tv2 t) q /\ on_plane o n q).
  { intros q. split.
    - intros H. split; [apply (tri_plane_raw t pl q H)|]. rewrite !in_app_iff in H. destruct H as [H|[H|H]]; auto.
    - intros [[H|[H|H]] P]; rewrite !in_app_iff; [rewrite (U0 q H P)|rewrite (U1 q H P)|rewrite (U2 q H P)]; cbn; auto. }
  assert (Res : forall q, List.In q (fold_left addNew (l0 ++ l1 ++ l2) []) <-> outline (tv0 t) (tv1 t) (tv2 t) q /\ on_plane o n q).
  { intros q. split.
    - intros H. apply addAll_in in H. destruct H as [[]|H]. apply Raw, H.
    - intros H. destruct (addAll_has (l0 ++ l1 ++ l2) [] q (proj2 (Raw q) H)) as (q' & A & B).
      pose proof A as A'. apply addAll_in in A'. destruct A' as [[]|A']. apply Raw in A'.
      replace q with q'; [assumption|]. destruct Rg as [_ Rg]. symmetry. apply Rg; tauto. }
  split; [|exact Res].
  assert (Nd : NoDup (fold_left addNew (l0 ++ l1 ++ l2) [])) by apply distinct_NoDup, addAll_distinct, distinct_nil.
  assert (Bound : forall w1 w2, incl (l0 ++ l1 ++ l2) [w1; w2] -> (length (fold_left addNew (l0 ++ l1 ++ l2) []) <= 2)%nat).
  { intros w1 w2 I. change 2%nat with (length [w1; w2]). apply NoDup_incl_length; [assumption|]. intros x Hx. apply I. apply addAll_in in Hx. destruct Hx as [[]|Hx]; assumption. }
  pose proof (addAll_len (l0 ++ l1 ++ l2) []) as L. rewrite !app_length in L. cbn [length] in L.
  destruct l0 as [|q0 [|? ?]] eqn:E0; [cbn [length app] in *; lia| |cbn in L0; lia].
  destruct l1 as [|q1 [|? ?]] eqn:E1; [cbn [length app] in *; lia| |cbn in L1; lia].
  destruct l2 as [|q2 [|? ?]] eqn:E2; [cbn [length app] in *; lia| |cbn in L2; lia].
  assert (H0 : height o n (tv0 t) * height o n (tv1 t) <= 0).
  { apply meets_product. exists q0. split; [|apply O0; left; reflexivity]. apply (edge_plane_points (E3 (tv0 t) (tv1 t)) pl). fold l0. rewrite E0. left; reflexivity. }
  assert (H1 : height o n (tv1 t) * height o n (tv2 t) <= 0).
  { apply meets_product. exists q1. split; [|apply O1; left; reflexivity]. apply (edge_plane_points (E3 (tv1 t) (tv2 t)) pl). fold l1. rewrite E1. left; reflexivity. }
  assert (H2 : height o n (tv2 t) * height o n (tv0 t) <= 0).
  { apply meets_product. exists q2. split; [|apply O2; left; reflexivity]. apply (edge_plane_points (E3 (tv2 t) (tv0 t)) pl). fold l2. rewrite E2. left; reflexivity. }
  destruct (three_hits _ _ _ H0 H1 H2) as [Z|[Z|Z]].
  - pose proof (U0 _ (seg_l _ _) Z) as Q0. pose proof (U2 _ (seg_r _ _) Z) as Q2. rewrite Q0, Q2 in *.
    apply (Bound (tv0 t) q1). intros x. cbn. intuition.
  - pose proof (U0 _ (seg_r _ _) Z) as Q0. pose proof (U1 _ (seg_l _ _) Z) as Q1. rewrite Q0, Q1 in *.
    apply (Bound (tv1 t) q2). intros x. cbn. intuition.
  - pose proof (U1 _ (seg_r _ _) Z) as Q1. pose proof (U2 _ (seg_l _ _) Z) as Q2. rewrite Q1, Q2 in *.
    apply (Bound (tv2 t) q0). intros x. cbn. intuition.
Qed.
(** four points on a line, both pairs around a common point: an end of one pair lies between the other pair *)
Lemma pairs_scalar a1 b1 a2 b2 : betw a1 b1 0 -> betw a2 b2 0 -> betw a2 b2 a1 \/ betw a2 b2 b1 \/ betw a1 b1 a2 \/ betw a1 b1 b2.
Proof.
  unfold betw. intros [A|A] [B|B]; destruct (Rle_dec a1 a2), (Rle_dec b1 b2), (Rle_dec a1 b2), (Rle_dec b1 a2); try lra.
Qed.
Lemma zero_between s m a b : 0 <= s -> 0 <= m -> s + m = 1 -> s * a + m * b = 0 -> betw a b 0.
Proof.
  intros A B C K. unfold betw. destruct (Rle_dec a 0), (Rle_dec 0 b), (Rle_dec 0 a), (Rle_dec b 0); try lra; exfalso.
  all: first [assert (s = 0) by nra; assert (m = 0) by nra; lra].
Qed.
Lemma betw_segment p u a b x : betw a b x -> segment (vadd p (vscale a u)) (vadd p (vscale b u)) (vadd p (vscale x u)).
Proof.
  intros H. destruct (Req_dec a b) as [-> |N].
  - assert (x = b) by (unfold betw in H; lra). subst. apply seg_l.
  - exists ((b - x) / (b - a)), ((x - a) / (b - a)). assert (D : b - a <> 0) by lra. split.
    + unfold weights2, Rdiv. destruct H as [H|H].
      * assert (0 < / (b - a)) by (apply Rinv_0_lt_compat; lra). split; [apply Rmult_le_pos; lra|]. split; [apply Rmult_le_pos; lra|field; assumption].
      * assert (/ (b - a) < 0) by (apply Rinv_lt_0_compat; lra). split; [nra|]. split; [nra|field; assumption].
    + unfold comb2. apply vec3_ext; spec_unfold; field; assumption.
Qed.
Lemma tri_convex a b c y z x : in_triangle a b c y -> in_triangle a b c z -> segment y z x -> in_triangle a b c x.
Proof.
  intros (s0 & s1 & s2 & (A & B & C & D) & ->) (r0 & r1 & r2 & (A' & B' & C' & D') & ->) (k & m & (K & M & W) & ->).
  exists (k * s0 + m * r0), (k * s1 + m * r1), (k * s2 + m * r2). split.
  - unfold weights3. repeat split; try (apply Rplus_le_le_0_compat; apply Rmult_le_pos; assumption).
    transitivity (k * (s0 + s1 + s2) + m * (r0 + r1 + r2)); [ring|]. rewrite D, D'. lra.
  - unfold comb3, comb2. vring.
Qed.
Lemma on_common_line n1 n2 p y : dot (vsub y p) n1 = 0 -> dot (vsub y p) n2 = 0 -> dot (cross n1 n2) (cross n1 n2) <> 0 ->
  y = vadd p (vscale (dot (vsub y p) (cross n1 n2) / dot (cross n1 n2) (cross n1 n2)) (cross n1 n2)).
Proof.
  intros H1 H2 N. set (w := vsub y p) in *. set (u := cross n1 n2) in *.
  assert (E : vscale (dot u u) w = vscale (dot w u) u).
  { assert (Z : vscale (dot u u) w = vadd (vscale (dot w u) u) (cross u (vsub (vscale (dot w n2) n1) (vscale (dot w n1) n2)))) by (unfold u; clear; vring).
    rewrite Z, H1, H2. clear. vring. }
  assert (E2 : w = vscale (dot w u / dot u u) u).
  { transitivity (vscale (/ dot u u) (vscale (dot u u) w)); [|rewrite E]; clearbody u w; clear - N; apply vec3_ext; cbn [vscale vx vy vz]; field; assumption. }
  rewrite <- E2. unfold w. vring.
Qed.
Lemma tri_tri_complete a0 a1 a2 b0 b1 b2 t1 t2 : zTri3DCreate a0 a1 a2 = (true, t1) -> zTri3DCreate b0 b1 b2 = (true, t2) ->
  regular b0 (tnorm t2) a0 a1 a2 -> regular a0 (tnorm t1) b0 b1 b2 ->
  exists l, zIntersectTri3D t1 t2 = Some l /\ (meets (in_triangle a0 a1 a2) (in_triangle b0 b1 b2) -> l <> []).
Proof.
  intros E1 E2 R1 R2. destruct (tri_made _ _ _ _ E1) as (A0 & A1 & A2 & _ & U1 & _ & P1). destruct (tri_made _ _ _ _ E2) as (B0 & B1 & B2 & _ & U2 & _ & P2).
  unfold zIntersectTri3D. rewrite P1, P2. cbv zeta.
  destruct (regular_points t1 (P3 b0 (tnorm t2)) _ _ _ A0 A1 A2 R1) as (L1 & M1). destruct (regular_points t2 (P3 a0 (tnorm t1)) _ _ _ B0 B1 B2 R2) as (L2 & M2).
  cbn [porg pnorm] in *.
  rewrite (proj2 (Nat.leb_le _ 3)) by lia. rewrite (proj2 (Nat.leb_le _ 3)) by lia. cbn [andb]. eexists; split; [reflexivity|].
  intros (x & X1 & X2) Nil.
  assert (Ex : (exists q, List.In q (zIntersectTriPlane3D t1 (P3 b0 (tnorm t2))) /\ in_triangle b0 b1 b2 q) \/
               (exists q, List.In q (zIntersectTriPlane3D t2 (P3 a0 (tnorm t1))) /\ in_triangle a0 a1 a2 q)).
  { pose proof (tri_on_plane _ _ _ _ _ E1 X1) as X1p. pose proof (tri_on_plane _ _ _ _ _ E2 X2) as X2p.
    destruct (cut_ends _ _ _ _ _ _ R1 X1 X2p) as (y1 & z1 & Y1 & Y1p & Z1 & Z1p & S1).
    destruct (cut_ends _ _ _ _ _ _ R2 X2 X1p) as (y2 & z2 & Y2 & Y2p & Z2 & Z2p & S2).
    pose proof (outline_tri _ _ _ _ Y1) as Y1t. pose proof (outline_tri _ _ _ _ Z1) as Z1t. pose proof (outline_tri _ _ _ _ Y2) as Y2t. pose proof (outline_tri _ _ _ _ Z2) as Z2t.
    set (n1 := tnorm t1) in *. set (n2 := tnorm t2) in *. set (u := cross n1 n2).
    assert (On : forall o n y, on_plane o n x -> on_plane o n y -> dot (vsub y x) n = 0).
    { intros o n y A B. unfold on_plane in *. transitivity (dot (vsub y o) n - dot (vsub x o) n); [clear; spec_unfold; ring|lra]. }
    assert (Nu : dot u u <> 0).
    { intros Z. assert (Zu : u = v3zero) by (apply norm_zero_iff; apply Rsqr_0_uniq; unfold Rsqr; rewrite norm_sqr; assumption).
      assert (Par : n2 = vscale (dot n1 n2) n1).
      { assert (Q : vscale (dot n1 n1) n2 = vsub (vscale (dot n1 n2) n1) (cross n1 u)) by (unfold u; clear; vring).
        rewrite Zu in Q. rewrite <- norm_sqr, U1 in Q. transitivity (vscale (1 * 1) n2); [clear; vring|rewrite Q; clear; vring]. }
      assert (H0 : forall y, in_triangle a0 a1 a2 y -> height b0 n2 y = 0).
      { intros y Hy. pose proof (On _ _ y X1p (tri_on_plane _ _ _ _ _ E1 Hy)) as K. unfold on_plane in X2p.
        unfold height. transitivity (dot (vsub x b0) n2 + dot (vsub y x) n2); [clear; spec_unfold; ring|]. rewrite X2p, Par.
        transitivity (dot n1 n2 * dot (vsub y x) n1); [clear; spec_unfold; ring|rewrite K; ring]. }
      destruct R1 as [R1 _]. specialize (R1 a0 a1 (or_introl (conj eq_refl eq_refl))).
      rewrite (H0 a0), (H0 a1) in R1 by (apply outline_tri; left; auto using seg_l, seg_r).
      rewrite Rminus_0_r, Rabs_R0 in R1. pose proof zTOL_pos. lra. }
    assert (Ln : forall y, on_plane a0 n1 y -> on_plane b0 n2 y -> y = vadd x (vscale (dot (vsub y x) u / dot u u) u)).
    { intros y A B. apply on_common_line; [eapply On; eassumption|eapply On; eassumption|assumption]. }
    set (al y := dot (vsub y x) u / dot u u) in *.
    assert (Btw : forall y z, segment y z x -> betw (al y) (al z) 0).
    { intros y z (s & m & (A & B & C) & Ex). assert (K : s * al y + m * al z = 0).
      { unfold al. replace s with (1 - m) in * by lra.
        transitivity (dot (vsub (comb2 (1 - m) m y z) x) u / dot u u); [unfold comb2; clear - Nu; clearbody u; spec_unfold; field; exact Nu|].
        rewrite <- Ex. replace (vsub x x) with v3zero by vring. clear. unfold Rdiv. spec_unfold. ring. }
      apply (zero_between s m); assumption. }
    pose proof (Ln y1 (tri_on_plane _ _ _ _ _ E1 Y1t) Y1p) as Ey1. pose proof (Ln z1 (tri_on_plane _ _ _ _ _ E1 Z1t) Z1p) as Ez1.
    pose proof (Ln y2 Y2p (tri_on_plane _ _ _ _ _ E2 Y2t)) as Ey2. pose proof (Ln z2 Z2p (tri_on_plane _ _ _ _ _ E2 Z2t)) as Ez2.
    assert (Sg : forall y z w, betw (al y) (al z) (al w) -> y = vadd x (vscale (al y) u) -> z = vadd x (vscale (al z) u) -> w = vadd x (vscale (al w) u) -> segment y z w).
    { intros y z w H Ey Ez Ew. rewrite Ey, Ez, Ew. apply betw_segment. assumption. }
    destruct (pairs_scalar _ _ _ _ (Btw _ _ S1) (Btw _ _ S2)) as [H|[H|[H|H]]].
    - left. exists y1. split; [apply M1; auto|]. apply (tri_convex b0 b1 b2 y2 z2); auto.
    - left. exists z1. split; [apply M1; auto|]. apply (tri_convex b0 b1 b2 y2 z2); auto.
    - right. exists y2. split; [apply M2; auto|]. apply (tri_convex a0 a1 a2 y1 z1); auto.
    - right. exists z2. split; [apply M2; auto|]. apply (tri_convex a0 a1 a2 y1 z1); auto. }
  destruct Ex as [(q & Q1 & Q2)|(q & Q1 & Q2)].
  - destruct (keepInside_has t2 _ [] q Q1 (inside_self _ _ _ _ _ E2 Q2)) as (q' & I & _). apply (keepInside_keeps t1 (zIntersectTriPlane3D t2 (P3 a0 (tnorm t1)))) in I. rewrite Nil in I. destruct I.
  - destruct (keepInside_has t1 _ (keepInside t2 (zIntersectTriPlane3D t1 (P3 b0 (tnorm t2))) []) q Q1 (inside_self _ _ _ _ _ E1 Q2)) as (q' & I & _). rewrite Nil in I. destruct I.
Qed.
Lemma tri_check a0 a1 a2 b0 b1 b2 t1 t2 : zTri3DCreate a0 a1 a2 = (true, t1) -> zTri3DCreate b0 b1 b2 = (true, t2) ->
  (zColChkTri3D t1 t2 = Some true -> exists p q, in_triangle a0 a1 a2 p /\ in_triangle b0 b1 b2 q /\ dist p q < zTOL) /\
  (regular b0 (tnorm t2) a0 a1 a2 -> regular a0 (tnorm t1) b0 b1 b2 -> meets (in_triangle a0 a1 a2) (in_triangle b0 b1 b2) -> zColChkTri3D t1 t2 <> Some false).
Proof.
  intros E1 E2. split.
  - unfold zColChkTri3D. destruct (zIntersectTri3D t1 t2) as [[|q l]|] eqn:K; [discriminate| |discriminate]. intros _.
    destruct (tri_tri_sound _ _ _ _ _ _ _ _ _ E1 E2 K) as (_ & Sd). destruct (Sd q (or_introl eq_refl)) as [(A & x & B & D)|(A & x & B & D)].
    + exists q, x. auto.
    + exists x, q. rewrite dist_sym. auto.
  - intros R1 R2 M. destruct (tri_tri_complete _ _ _ _ _ _ _ _ E1 E2 R1 R2) as (l & K & N). specialize (N M). unfold zColChkTri3D. rewrite K.
    destruct l as [|q l]; [congruence|]. destruct (Nat.leb _ 2); discriminate.
Qed.
