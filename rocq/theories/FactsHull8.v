(** Planar hull: degenerate data, failures of the closest point, an instance *)
From Verif Require Import Base Spec SpecGeom SpecHull ModelVec ModelElem ModelHull FactsVec FactsAlg FactsElem FactsSat FactsHull FactsHull2 FactsHull3 FactsHull4 FactsHull5 FactsHull6 FactsHull7.
From Coq Require Import List Lia Lra ZArith.
Import ListNotations.
Open Scope R_scope.

(** ** no hull: the points are alike or near a line *)
Lemma tiny_below v : zVec3DIsTiny v = true <-> below v.
Proof. unfold zVec3DIsTiny, zVec3DIsTol, below. rewrite !Bool.andb_true_iff. unfold zIsTol. rewrite !Rltb_true. tauto. Qed.
Lemma base1_none t l : ch2d_base1 t l = None <-> forall p, List.In p l -> below (vsub p t).
Proof.
  induction l as [|p l IH]; cbn; [split; [intros _ p []|reflexivity]|]. destruct (zVec3DIsTiny (zVec3DSub p t)) eqn:T.
  - rewrite IH. apply tiny_below in T. split; [intros H q [<-|I]; [exact T|apply H, I]|intros H q I; apply H; right; exact I].
  - split; [discriminate|]. intros H. exfalso. assert (K : below (zVec3DSub p t)) by (apply H; left; reflexivity). apply tiny_below in K. congruence.
Qed.
Lemma base2_none t s l : ch2d_base2 t s l = None -> forall p, List.In p l -> below (vsub p t) \/ below (cross s (vsub p t)).
Proof.
  induction l as [|p l IH]; cbn; [intros _ p []|]. destruct (zVec3DIsTiny (zVec3DSub p t)) eqn:T; cbn [negb andb].
  - intros E q [<-|I]; [left; apply tiny_below, T|apply IH; assumption].
  - destruct (zVec3DIsTiny (zVec3DOuterProd s (zVec3DSub p t))) eqn:T2; cbn [negb]; [|discriminate]. intros E q [<-|I]; [right; apply tiny_below in T2; revert T2; zvg; auto|apply IH; assumption].
Qed.
Lemma base1_some t l s r : ch2d_base1 t l = Some (s, r) -> exists pre a, l = pre ++ a :: r /\ s = vsub a t /\ forall p, List.In p pre -> below (vsub p t).
Proof.
  induction l as [|p l IH]; cbn; [discriminate|]. destruct (zVec3DIsTiny (zVec3DSub p t)) eqn:T; intros E.
  - destruct (IH E) as (pre & a & -> & S & H). exists (p :: pre), a. split; [reflexivity|]. split; [exact S|]. intros q [<-|I]; [apply tiny_below, T|apply H, I].
  - injection E as <- <-. exists [], p. split; [reflexivity|]. split; [reflexivity|intros q []].
Qed.
Lemma below_zero : below v3zero.
Proof. unfold below, v3zero. cbn [vx vy vz]. rewrite Rabs_R0. pose proof zTOL_pos. auto. Qed.
Lemma hull_none sort l : zConvexHull2DBase l = None -> zVec3DDataConvexHull2D sort l = None /\
  (l = [] \/ exists t a, List.In t l /\ List.In a l /\ forall p, List.In p l -> below (vsub p t) \/ below (cross (vsub a t) (vsub p t))).
Proof.
  intros H. split; [unfold zVec3DDataConvexHull2D, zConvexHull2D; rewrite H; reflexivity|]. unfold zConvexHull2DBase in H. destruct l as [|t r]; [left; reflexivity|right].
  assert (Z : below (vsub t t)) by (replace (vsub t t) with v3zero by (apply vec3_ext; spec_unfold; ring); apply below_zero).
  destruct (ch2d_base1 t r) as [[s r']|] eqn:E1.
  - destruct (ch2d_base2 t s r') as [[u n]|] eqn:E2; [discriminate|]. destruct (base1_some _ _ _ _ E1) as (pre & a & -> & -> & Hp). exists t, a. split; [left; reflexivity|]. split; [right; apply in_or_app; right; left; reflexivity|].
    intros p [<-|I]; [left; exact Z|]. apply in_app_or in I. destruct I as [I|[<-|I]]; [left; apply Hp, I| |apply (base2_none _ _ _ E2), I]. right. replace (cross (vsub a t) (vsub a t)) with v3zero by (apply vec3_ext; spec_unfold; ring). apply below_zero.
  - exists t, t. split; [left; reflexivity|]. split; [left; reflexivity|]. intros p [<-|I]; [left; exact Z|left; apply (proj1 (base1_none t r) E1), I].
Qed.
(** ** the dual-faced polyhedron *)
Lemma hull_ph sort l vs fs : zVec3DDataConvexHull2DPH3D sort l = Some (vs, fs) -> (3 <= length vs)%nat ->
  zVec3DDataConvexHull2D sort l = Some vs /\ length fs = (2 * (length vs - 2))%nat /\
  (forall i, (2 <= i < length vs)%nat -> nth (i - 2) fs (0, 0, 0)%nat = (0, i - 1, i)%nat /\ nth (i + length vs - 4) fs (0, 0, 0)%nat = (0, i, i - 1)%nat).
Proof.
  unfold zVec3DDataConvexHull2DPH3D. destruct (zVec3DDataConvexHull2D sort l) as [c|]; [|discriminate]. unfold zConvexHull2DToPH3D. intros E H. apply (f_equal (fun o => match o with Some y => y | None => (vs, fs) end)) in E. cbv beta iota in E.
  assert (c = vs) by congruence. subst c. assert (Ef : fs = map (fun i => (0, i - 1, i)%nat) (seq 2 (length vs - 2)) ++ map (fun i => (0, i, i - 1)%nat) (seq 2 (length vs - 2))) by congruence. clear E. subst fs.
  split; [reflexivity|]. split; [rewrite app_length, !map_length, !seq_length; lia|]. intros i I. split.
  - rewrite app_nth1 by (rewrite map_length, seq_length; lia). rewrite (nth_indep _ _ ((fun i => (0, i - 1, i)%nat) 0%nat)) by (rewrite map_length, seq_length; lia). rewrite (map_nth (fun i => (0, i - 1, i)%nat)), seq_nth by lia. repeat f_equal; lia.
  - rewrite app_nth2 by (rewrite map_length, seq_length; lia). rewrite map_length, seq_length. rewrite (nth_indep _ _ ((fun i => (0, i, i - 1)%nat) 0%nat)) by (rewrite map_length, seq_length; lia). rewrite (map_nth (fun i => (0, i, i - 1)%nat)), seq_nth by lia. repeat f_equal; lia.
Qed.
(** ** points of the hull are at "distance" HUGE_VAL *)
Lemma closest_inside o n L p : convex_loop o n L -> convex_hull L p -> zConvexHull2DClosest L p = Some (None, p).
Proof.
  intros CL H. destruct (closest_sound o n L CL p) as (d & cp & E & [(-> & -> & _)|(a & b & J & V & _)]); [exact E|]. exfalso. destruct (hull_half o n L CL p H) as (_ & S). specialize (S a b J). lra.
Qed.
(** ** a pentagon whose lower three edges are visible *)
Definition pent : list vec3 := [V3 1 0 0; V3 10 1 0; V3 0 20 0; V3 (-10) 1 0; V3 0 0 0].
Lemma pent_loop : convex_loop v3zero (V3 0 0 1) pent.
Proof.
  split; [cbn; lia|]. split; [split; [intros E; apply (f_equal vz) in E; cbn in E; lra|intros p I; cbn [pent List.In] in I; decompose [or] I; subst; try contradiction; spec_unfold; cbn; lra]|]. split.
  - intros a b q (p & s & E) I. cbn in E.
    do 6 (destruct p as [|? p]; [cbn in E; try discriminate; injection E as <- <- _; cbn [pent List.In] in I; decompose [or] I; subst; try contradiction; spec_unfold; cbn; lra|injection E as _ E]).
    cbn in E. destruct p; discriminate.
  - intros a b c (p & s & E). cbn in E.
    do 7 (destruct p as [|? p]; [cbn in E; try discriminate; injection E as <- <- <- _; spec_unfold; cbn; lra|injection E as _ E]).
    cbn in E. destruct p; discriminate.
Qed.
Lemma sqrt_dist a b : dist a b = sqrt ((vx a - vx b) * (vx a - vx b) + (vy a - vy b) * (vy a - vy b) + (vz a - vz b) * (vz a - vz b)).
Proof. reflexivity. Qed.
Lemma closest_wrong : exists o n L p d cp q, convex_loop o n L /\ dot n (vsub p o) = 0 /\ zConvexHull2DClosest L p = Some (Some d, cp) /\ convex_hull L q /\ dist p q + 1 < d.
Proof.
  set (p := V3 (-5) (-5) 0). set (B := V3 0 0 0). set (C := V3 1 0 0). set (D := V3 10 1 0).
  destruct (edge3_closest (E3 C B) p) as (d0 & c0 & E0 & (S0 & M0) & D0). { cbn. intros E. apply (f_equal vx) in E. cbn in E. lra. }
  destruct (edge3_closest (E3 D C) p) as (d1 & c1 & E1 & (S1 & M1) & D1). { cbn. intros E. apply (f_equal vx) in E. cbn in E. lra. }
  cbn [ev0 ev1] in *.
  assert (L0 : d0 = sqrt 50).
  { apply Rle_antisym.
    - rewrite D0. replace (sqrt 50) with (dist p B) by (rewrite sqrt_dist; unfold p, B; cbn [vx vy vz]; f_equal; lra). apply M0. exists 0, 1. split; [unfold weights2; lra|]. unfold comb2, B, C. apply vec3_ext; spec_unfold; cbn; ring.
    - rewrite D0, sqrt_dist. destruct S0 as (s & t & (W1 & W2 & W3) & ->). apply sqrt_le_1_alt. unfold p, B, C, comb2. spec_unfold. cbn [vx vy vz]. nra. }
  assert (L1 : sqrt 61 <= d1). { rewrite D1, sqrt_dist. destruct S1 as (s & t & (W1 & W2 & W3) & ->). apply sqrt_le_1_alt. unfold p, C, D, comb2. spec_unfold. cbn [vx vy vz]. replace t with (1 - s) by lra. nra. }
  assert (Lt : d0 < d1) by (rewrite L0; assert (sqrt 50 < sqrt 61) by (apply sqrt_lt_1; lra); lra).
  exists v3zero, (V3 0 0 1), pent, p, d0, c0, (V3 (-5) (1 / 2) 0). split; [exact pent_loop|]. split; [unfold p; spec_unfold; cbn; ring|]. split; [|split].
  - assert (T : forall x, x < 0 -> Rltb x 0 = true) by (intros; apply Rltb_true; assumption).
    unfold zConvexHull2DClosest, pent. cbn [rev app]. cbn [ch2d_scan]. fold B C D.
    rewrite T by (unfold p, B, C, zVec3DInnerProd, zVec3DOuterProd, zVec3DSub; cbn [vx vy vz]; lra). rewrite E0.
    rewrite T by (unfold p, B, C, D, zVec3DInnerProd, zVec3DOuterProd, zVec3DSub; cbn [vx vy vz]; lra). rewrite E1. replace (Rltb d0 d1) with true by (symmetry; apply Rltb_true; exact Lt). reflexivity.
  - apply (hull_mix _ (V3 (-10) 1 0) (V3 0 0 0)); [apply hull_point; cbn; tauto|apply hull_point; cbn; tauto|]. exists (1 / 2), (1 / 2). split; [unfold weights2; lra|]. unfold comb2. apply vec3_ext; spec_unfold; cbn; lra.
  - rewrite L0, sqrt_dist. unfold p. cbn [vx vy vz]. replace ((-5 - -5) * (-5 - -5) + (-5 - 1 / 2) * (-5 - 1 / 2) + (0 - 0) * (0 - 0)) with (5.5 * 5.5) by lra. rewrite sqrt_square by lra.
    assert (7 < sqrt 50) by (rewrite <- (sqrt_square 7) by lra; apply sqrt_lt_1; lra). lra.
Qed.
(** ** data meeting the hypotheses *)
Definition grid : list vec3 := [V3 0 0 0; V3 2 0 0; V3 1 1 0; V3 0 2 0; V3 2 2 0].
Lemma grid_base : zConvexHull2DBase grid = Some (V3 1 0 0, V3 0 1 0).
Proof.
  assert (T : forall v, 1 <= Rabs (vx v) \/ 1 <= Rabs (vy v) \/ 1 <= Rabs (vz v) -> zVec3DIsTiny v = false).
  { intros v H. destruct (zVec3DIsTiny v) eqn:E; [|reflexivity]. apply tiny_below in E. unfold below in E. pose proof zTOL_small. lra. }
  assert (N : forall v k, 1 <= k -> norm v = k -> (1 <= Rabs (vx v) \/ 1 <= Rabs (vy v) \/ 1 <= Rabs (vz v)) -> snd (zVec3DNormalizeDRC v) = vscale (1 / k) v).
  { intros v k K H G. unfold zVec3DNormalizeDRC, zVec3DNormalize. rewrite T by exact G. cbn [snd]. zvg. rewrite H. reflexivity. }
  unfold zConvexHull2DBase, grid. cbn [ch2d_base1 ch2d_base2]. rewrite (T (zVec3DSub (V3 2 0 0) (V3 0 0 0))) by (left; cbn; rewrite Rabs_right; lra). cbn [ch2d_base2].
  rewrite (T (zVec3DSub (V3 1 1 0) (V3 0 0 0))) by (left; cbn; rewrite Rabs_right; lra). rewrite T by (right; right; cbn; rewrite Rabs_right; lra). cbn [negb andb]. cbv zeta.
  rewrite (N (zVec3DSub (V3 2 0 0) (V3 0 0 0)) 2); [|lra| |left; cbn; rewrite Rabs_right; lra].
  - rewrite (N (zVec3DOuterProd _ _) 4); [|lra| |right; left; cbn; rewrite Rabs_right; lra].
    + f_equal. f_equal; apply vec3_ext; spec_unfold; cbn; lra.
    + zvg. unfold norm. rewrite <- (sqrt_square 4) by lra. f_equal. spec_unfold. cbn. lra.
  - zvg. unfold norm. match goal with |- sqrt ?x = _ => replace x with (2 * 2) by (spec_unfold; cbn; lra) end. apply sqrt_square. lra.
Qed.
Lemma grid_parted : parted (V3 1 0 0) (V3 0 1 0) grid /\ planar v3zero (V3 0 0 1) grid.
Proof.
  assert (G : forall x y, x = y \/ 1 <= x - y \/ 1 <= y - x -> gap x y). { intros x y [H|H]; [left; exact H|right]. pose proof zTOL_small. destruct H as [H|H]; [rewrite Rabs_right by lra|rewrite Rabs_left by lra]; lra. }
  assert (V : forall p q, List.In p grid -> List.In q grid -> vz p = 0 /\ vz q = 0 /\ (vx p = vx q \/ 1 <= vx p - vx q \/ 1 <= vx q - vx p) /\ (vy p = vy q \/ 1 <= vy p - vy q \/ 1 <= vy q - vy p)).
  { intros p q I J. cbn [grid List.In] in I, J. decompose [or] I; decompose [or] J; subst; try contradiction; cbn [vx vy vz]; lra. }
  split.
  - intros p q I J. destruct (V p q I J) as (Z1 & Z2 & X & Y). assert (D : forall v, dot v (V3 1 0 0) = vx v /\ dot v (V3 0 1 0) = vy v) by (intros; spec_unfold; cbn; lra).
    destruct (D p) as (-> & ->). destruct (D q) as (-> & ->). split; [|split; [apply G, X|intros _; apply G, Y]].
    destruct (G _ _ X) as [Ex|Ex]; [|right; left; exact Ex]. destruct (G _ _ Y) as [Ey|Ey]; [|right; right; left; exact Ey]. left. apply vec3_ext; lra.
  - split; [intros E; apply (f_equal vz) in E; cbn in E; lra|]. intros p I. destruct (V p p I I) as (Z & _). spec_unfold. cbn. lra.
Qed.
(** ** closed forms *)
Lemma hull_right sort l o nn s0 s1 : sorts sort -> planar o nn l -> zConvexHull2DBase l = Some (s0, s1) -> parted s0 s1 l -> exists L n, zVec3DDataConvexHull2D sort l = Some L /\ incl L l /\ convex_loop o n L /\
  (forall a b q, loop_edge L a b -> List.In q l -> 0 <= dot n (cross (vsub b a) (vsub q a))) /\ (forall q, List.In q l -> convex_hull L q).
Proof.
  intros S P B D. destruct (hull_ok sort l o nn s0 s1 S P B D) as (L & n & E & K & I & Pn & H1 & H2 & H3). exists L, n. split; [exact E|]. split; [exact I|]. split; [|split; assumption].
  split; [exact K|]. split; [split; [apply Pn|intros p J; apply Pn, I, J]|]. split; [intros a b q J Q; apply H1; [exact J|apply I, Q]|exact H2].
Qed.
Lemma closest_edge o n L p : convex_loop o n L -> exists d cp, zConvexHull2DClosest L p = Some (d, cp) /\
  ((d = None /\ cp = p /\ forall a b, loop_edge L a b -> 0 <= dot n (cross (vsub b a) (vsub p a))) \/ (exists a b, loop_edge L a b /\ dot n (cross (vsub b a) (vsub p a)) < 0 /\ nearest (segment a b) p cp /\ d = Some (dist p cp))).
Proof. intros CL. exact (closest_sound o n L CL p). Qed.
Lemma closest_hull o n L p a1 b1 a2 b2 : convex_loop o n L -> dot n (vsub p o) = 0 -> (exists a b, loop_edge L a b /\ dot n (cross (vsub b a) (vsub p a)) < 0) ->
  (forall a b, loop_edge L a b -> dot n (cross (vsub b a) (vsub p a)) < 0 -> (a = a1 /\ b = b1) \/ (a = a2 /\ b = b2)) ->
  exists cp, zConvexHull2DClosest L p = Some (Some (dist p cp), cp) /\ nearest (convex_hull L) p cp.
Proof. intros CL. exact (closest_two o n L CL p a1 b1 a2 b2). Qed.
