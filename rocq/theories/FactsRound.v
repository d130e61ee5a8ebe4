(** Proofs about spheres, cylinders, capsules and cones. *)
From Verif Require Import ModelShape FactsVec FactsAlg FactsMat FactsFrame FactsElem FactsTri FactsCentre FactsBox FactsObb.
Open Scope R_scope.

(** ** Offset bodies *)
Lemma dist_self_scale f p k : dist p (vadd f (vscale k (vsub p f))) = Rabs (1 - k) * dist p f.
Proof.
  unfold dist. rewrite <- norm_scale. unfold norm; f_equal. spec_unfold; ring.
Qed.
Lemma offset_nearest (S : vec3 -> Prop) p f r : nearest S p f -> 0 <= r -> r < dist p f ->
  let cp := vadd f (vscale (r / dist p f) (vsub p f)) in
  nearest (fun x => exists q, S q /\ dist q x <= r) p cp /\ dist p cp = dist p f - r.
Proof.
  intros (Hf & Hm) Hr Hd cp. assert (Hk : 0 <= r / dist p f < 1).
  { split; [apply Rmult_le_pos; [lra|left; apply Rinv_0_lt_compat; lra]|]. apply (Rmult_lt_reg_r (dist p f)); [lra|].
    unfold Rdiv. rewrite Rmult_assoc, Rinv_l by lra. lra. }
  assert (E : dist p cp = dist p f - r).
  { unfold cp. rewrite dist_self_scale, Rabs_right by lra. field. lra. }
  split; [|exact E]. split.
  - exists f. split; [exact Hf|]. unfold cp. unfold dist at 1. replace (vsub f (vadd f (vscale (r / dist p f) (vsub p f)))) with (vscale (- (r / dist p f)) (vsub p f)) by vring.
    rewrite norm_scale, Rabs_Ropp, Rabs_right by lra. fold (dist p f). right. field. lra.
  - intros x (q & Hq & Hqx). rewrite E. specialize (Hm q Hq). pose proof (dist_triangle p x q). rewrite (dist_sym x q) in H. lra.
Qed.
Lemma offset_inside (S : vec3 -> Prop) p f r : nearest S p f -> dist p f <= r ->
  nearest (fun x => exists q, S q /\ dist q x <= r) p p.
Proof.
  intros (Hf & Hm) Hd. split; [exists f; split; [exact Hf|rewrite dist_sym; exact Hd]|].
  intros x _. unfold dist at 1. replace (vsub p p) with v3zero by vring. replace (norm v3zero) with 0 by (symmetry; apply norm_zero_iff; reflexivity). apply norm_nonneg.
Qed.
Lemma dist_self p : dist p p = 0.
Proof. unfold dist. replace (vsub p p) with v3zero by vring. apply norm_zero_iff; reflexivity. Qed.

(** ** Bodies of revolution *)
Definition rev (c a : vec3) (S : R -> R -> Prop) (p : vec3) : Prop :=
  exists h w, dot a w = 0 /\ S h (norm w) /\ p = vadd (vadd c (vscale h a)) w.
Lemma rev_dist c a h w h' w' : dot a a = 1 -> dot a w = 0 -> dot a w' = 0 ->
  dist (vadd (vadd c (vscale h a)) w) (vadd (vadd c (vscale h' a)) w') = sqrt ((h - h') * (h - h') + dot (vsub w w') (vsub w w')).
Proof.
  intros Ha Hw Hw'. unfold dist, norm. f_equal.
  transitivity ((h - h') * (h - h') * dot a a + 2 * (h - h') * (dot a w - dot a w') + dot (vsub w w') (vsub w w')); [spec_unfold; ring|].
  rewrite Ha, Hw, Hw'; ring.
Qed.
Lemma same_dir w w0 : vscale (norm w) w0 = vscale (norm w0) w -> dot (vsub w w0) (vsub w w0) = (norm w - norm w0) * (norm w - norm w0).
Proof.
  intros H. assert (E : dot w w0 = norm w * norm w0).
  { destruct (Req_dec (norm w) 0) as [Z|Z].
    - assert (w = v3zero) as -> by (apply norm_zero_iff; exact Z). rewrite Z. spec_unfold; ring.
    - assert (K : norm w * dot w w0 = norm w0 * (norm w * norm w)).
      { rewrite norm_sqr. transitivity (dot w (vscale (norm w) w0)); [spec_unfold; ring|]. rewrite H. spec_unfold; ring. }
      apply (Rmult_eq_reg_l (norm w)); [|exact Z]. rewrite K. ring. }
  transitivity (dot w w - 2 * dot w w0 + dot w0 w0); [spec_unfold; ring|]. rewrite E, <- !norm_sqr. ring.
Qed.
Lemma norm_sub_ge w w' : (norm w - norm w') * (norm w - norm w') <= dot (vsub w w') (vsub w w').
Proof.
  pose proof (cauchy_norm w w') as H. assert (dot w w' <= norm w * norm w') by (eapply Rle_trans; [apply Rle_abs|exact H]).
  replace (dot (vsub w w') (vsub w w')) with (dot w w - 2 * dot w w' + dot w' w') by (spec_unfold; ring). rewrite <- !norm_sqr. lra.
Qed.
Lemma rev_nearest c a (S : R -> R -> Prop) h w h0 w0 : dot a a = 1 -> dot a w = 0 -> dot a w0 = 0 ->
  S h0 (norm w0) -> vscale (norm w) w0 = vscale (norm w0) w ->
  (forall h' r', 0 <= r' -> S h' r' -> (h - h0) * (h - h0) + (norm w - norm w0) * (norm w - norm w0) <= (h - h') * (h - h') + (norm w - r') * (norm w - r')) ->
  let p := vadd (vadd c (vscale h a)) w in let cp := vadd (vadd c (vscale h0 a)) w0 in
  nearest (rev c a S) p cp /\ dist p cp = sqrt ((h - h0) * (h - h0) + (norm w - norm w0) * (norm w - norm w0)).
Proof.
  intros Ha Hw Hw0 HS Hd Hm p cp. assert (E : dist p cp = sqrt ((h - h0) * (h - h0) + (norm w - norm w0) * (norm w - norm w0))).
  { unfold p, cp. rewrite rev_dist by assumption. rewrite (same_dir _ _ Hd). reflexivity. }
  split; [|exact E]. split; [exists h0, w0; auto|].
  intros x (h' & w' & Hw' & HS' & ->). rewrite E. unfold p. rewrite rev_dist by assumption. apply sqrt_le_1_alt.
  pose proof (norm_sub_ge w w'). specialize (Hm h' (norm w') (norm_nonneg _) HS'). lra.
Qed.
Lemma nearest_iff (S T : vec3 -> Prop) p c : (forall x, S x <-> T x) -> nearest S p c -> nearest T p c.
Proof. intros H (A & B). split; [apply H, A|intros x Hx; apply B, H, Hx]. Qed.
Lemma cyl_rev c0 c1 a l r : 0 < l -> vsub c1 c0 = vscale l a -> forall p, rev c0 a (fun h q => 0 <= h <= l /\ q <= r) p <-> in_cyl c0 c1 r p.
Proof.
  intros Hl E p. unfold rev, in_cyl. rewrite E. split.
  - intros (h & w & Hw & (Hh & Hr) & ->). exists (h / l), w.
    assert (0 <= h / l <= 1).
    { split; [apply Rmult_le_pos; [lra|left; apply Rinv_0_lt_compat; lra]|]. apply (Rmult_le_reg_r l); [lra|]. unfold Rdiv. rewrite Rmult_assoc, Rinv_l by lra. lra. }
    repeat split; try tauto; try lra.
    + replace (dot (vscale l a) w) with (l * dot a w) by (spec_unfold; ring). rewrite Hw; ring.
    + f_equal. f_equal. apply vec3_ext; spec_unfold; field; lra.
  - intros (t & w & Ht & Hw & Hr & ->). exists (t * l), w. replace (dot (vscale l a) w) with (l * dot a w) in Hw by (spec_unfold; ring).
    repeat split; try nra.
    f_equal. f_equal. vring.
Qed.
Lemma cone_rev c v a l r : 0 < l -> vsub v c = vscale l a -> forall p, rev c a (fun h q => 0 <= h <= l /\ q * l <= (l - h) * r) p <-> in_cone c v r p.
Proof.
  intros Hl E p. unfold rev, in_cone. rewrite E. split.
  - intros (h & w & Hw & (Hh & Hr) & ->). exists (h / l), w.
    assert (0 <= h / l <= 1).
    { split; [apply Rmult_le_pos; [lra|left; apply Rinv_0_lt_compat; lra]|]. apply (Rmult_le_reg_r l); [lra|]. unfold Rdiv. rewrite Rmult_assoc, Rinv_l by lra. lra. }
    repeat split; try tauto; try lra.
    + replace (dot (vscale l a) w) with (l * dot a w) by (spec_unfold; ring). rewrite Hw; ring.
    + apply (Rmult_le_reg_r l); [lra|]. replace ((1 - h / l) * r * l) with ((l - h) * r) by (field; lra). exact Hr.
    + f_equal. f_equal. apply vec3_ext; spec_unfold; field; lra.
  - intros (t & w & Ht & Hw & Hr & ->). exists (t * l), w. replace (dot (vscale l a) w) with (l * dot a w) in Hw by (spec_unfold; ring).
    repeat split; try nra.
    f_equal. f_equal. vring.
Qed.

(** ** Decomposition of a point along an axis *)
Lemma axis_split c0 c1 p : ~ negligible (vsub c1 c0) -> exists a h w,
  zVec3DNormalizeDRC (vsub c1 c0) = (norm (vsub c1 c0), a) /\ 0 < norm (vsub c1 c0) /\ dot a a = 1 /\ vsub c1 c0 = vscale (norm (vsub c1 c0)) a /\
  dot a w = 0 /\ h = dot a (vsub p c0) /\ norm w = norm (cross (vsub p c0) a) /\ w = vadd (vsub p c0) (vscale (- h) a) /\
  p = vadd (vadd c0 (vscale h a)) w.
Proof.
  intros H. destruct (normalize3_ok _ (vsub c1 c0) H) as (a & E & U & S). apply norm_unit in U.
  set (v := vsub p c0). exists a, (dot a v), (vadd v (vscale (- dot a v) a)).
  split; [exact E|]. split; [apply nonneg_norm_pos, H|]. split; [exact U|]. split; [symmetry; exact S|]. split; [|split; [reflexivity|split; [|split; [reflexivity|]]]].
  - transitivity (dot a v * (1 - dot a a)); [clearbody v; clear; spec_unfold; ring|rewrite U; ring].
  - unfold norm. f_equal. transitivity (dot v v - dot a v * dot a v * (2 - dot a a)); [clearbody v; clear; spec_unfold; ring|].
    rewrite U. transitivity (dot a a * dot v v - dot a v * dot a v); [rewrite U; ring|]. clearbody v; clear; spec_unfold; ring.
  - unfold v. clear. apply vec3_ext; spec_unfold; ring.
Qed.
Lemma axial_unique c0 c1 a h w p : 0 < norm (vsub c1 c0) -> dot a a = 1 -> vsub c1 c0 = vscale (norm (vsub c1 c0)) a ->
  dot a w = 0 -> p = vadd (vadd c0 (vscale h a)) w -> forall h' w', axial c0 c1 p h' w' <-> h' = h /\ w' = w.
Proof.
  intros Hl Ha E Hw Hp h' w'. unfold axial. set (l := norm (vsub c1 c0)) in *. clearbody l. rewrite E. subst p. split.
  - intros (D & K). assert (Da : dot a w' = 0).
    { apply (Rmult_eq_reg_l l); [|lra]. rewrite Rmult_0_r, <- D. spec_unfold; ring. }
    assert (h' = h).
    { apply (f_equal (dot a)) in K. apply (Rmult_eq_reg_l l); [|lra].
      transitivity (dot a (vadd (vscale h' (vscale l a)) (vscale l w'))).
      - transitivity (l * h' * dot a a + l * dot a w'); [rewrite Ha, Da; ring|]. clear; spec_unfold; ring.
      - rewrite <- K. transitivity (l * h * dot a a + l * dot a w); [clear; spec_unfold; ring|]. rewrite Ha, Hw; ring. }
    split; [exact H|]. subst h'.
    assert (K2 : vscale l w' = vscale l w).
    { transitivity (vsub (vscale l (vsub (vadd (vadd c0 (vscale h a)) w) c0)) (vscale h (vscale l a))); [rewrite K; clear; vring|]. clear; vring. }
    clear - K2 Hl. destruct w as [x y z], w' as [x' y' z']. unfold vscale in K2; cbn [vx vy vz] in K2. injection K2 as K1 K2 K3.
    f_equal; (eapply Rmult_eq_reg_l; [eassumption|lra]).
  - intros (-> & ->). split; [transitivity (l * dot a w); [clear; spec_unfold; ring|rewrite Hw; ring]|]. clear; vring.
Qed.

(** ** Spheres *)
Lemma ball_offset c r x : ball c r x <-> exists q, q = c /\ dist q x <= r.
Proof. unfold ball. split; [intros H; exists c; auto|intros (q & -> & H); exact H]. Qed.
Lemma single_nearest c p : nearest (fun q => q = c) p c.
Proof. split; [reflexivity|intros x ->; apply Rle_refl]. Qed.
Lemma sphere_closest s p : 0 < srad s -> exists cp, zSphere3DClosest s p = Some (dist p (scen s) - srad s, cp) /\
  nearest (ball (scen s) (srad s)) p cp /\ zSphere3DDistFromPoint s p = dist p (scen s) - srad s /\
  (dist p (scen s) <= srad s -> cp = p) /\ (srad s <= dist p (scen s) -> dist p cp = dist p (scen s) - srad s /\ dist (scen s) cp = srad s).
Proof.
  intros Hr. unfold zSphere3DClosest, zSphere3DDistFromPoint. zvg. fold (dist p (scen s)). set (c := scen s). set (r := srad s) in *.
  assert (In : dist p c <= r -> nearest (ball c r) p p).
  { intros H. eapply nearest_iff; [intros x; symmetry; apply ball_offset|]. eapply offset_inside; [apply single_nearest|exact H]. }
  destruct (Rltb_reflect (dist p c) r).
  - exists p. split; [reflexivity|]. split; [apply In; lra|]. split; [reflexivity|]. split; [reflexivity|intros; lra].
  - destruct (Reqb_reflect (dist p c) 0); [lra|]. eexists; split; [reflexivity|].
    destruct (Req_dec (dist p c) r) as [E|E].
    + rewrite E. replace (r / r) with 1 by (field; lra). replace (vadd c (vscale 1 (vsub p c))) with p by (symmetry; vring).
      split; [apply In; lra|]. split; [reflexivity|]. split; [reflexivity|]. intros _. rewrite dist_self, dist_sym. split; lra.
    + destruct (offset_nearest _ p c r (single_nearest c p)) as (N & D); [lra|lra|]. split; [eapply nearest_iff; [|exact N]; intros x; symmetry; apply ball_offset|].
      split; [reflexivity|]. split; [intros; lra|]. intros _. split; [exact D|].
      destruct N as ((q & -> & Hq) & _). pose proof (dist_triangle p (vadd c (vscale (r / dist p c) (vsub p c))) c) as T. rewrite D in T.
      rewrite (dist_sym (vadd _ _) c) in T. apply Rle_antisym; [exact Hq|lra].
Qed.
Lemma sphere_inside s p m : zSphere3DPointIsInside s p m = true <-> dist (scen s) p < srad s + m.
Proof.
  unfold zSphere3DPointIsInside, zSphere3DDistFromPoint. zvg. fold (dist p (scen s)). rewrite dist_sym.
  destruct (Rltb_reflect (dist (scen s) p - srad s) m); split; intros; try lra; try discriminate; reflexivity.
Qed.
Lemma mid_dist a b : dist (zVec3DMid a b) a = dist a b / 2 /\ dist (zVec3DMid a b) b = dist a b / 2.
Proof.
  assert (E1 : vsub (zVec3DMid a b) a = vscale (- (1/2)) (vsub a b)) by (unfold zVec3DMid; replace 0.5 with (1/2) by lra; apply vec3_ext; spec_unfold; field).
  assert (E2 : vsub (zVec3DMid a b) b = vscale (1/2) (vsub a b)) by (unfold zVec3DMid; replace 0.5 with (1/2) by lra; apply vec3_ext; spec_unfold; field).
  unfold dist. rewrite E1, E2, !norm_scale, Rabs_Ropp, Rabs_right by lra. split; lra.
Qed.
Lemma sphere_from2 v1 v2 : let s := zSphere3DFrom2 v1 v2 in
  dist (scen s) v1 = srad s /\ dist (scen s) v2 = srad s /\
  forall c r, ball c r v1 -> ball c r v2 -> srad s <= r.
Proof.
  cbv zeta. unfold zSphere3DFrom2, zSphere3DCreate; cbn [scen srad]. zvg. destruct (mid_dist v1 v2) as (A & B).
  split; [reflexivity|]. split; [rewrite A; exact B|]. intros c r H1 H2. unfold ball in *. rewrite A.
  pose proof (dist_triangle v1 c v2) as T. rewrite (dist_sym v1 c) in T. lra.
Qed.
(** the two-point ball is contained in no smaller ball and every other ball through both is larger *)
Lemma sphere_from3 v1 v2 v3 : tri_normal v1 v2 v3 <> v3zero -> exists s, zSphere3DFrom3 v1 v2 v3 = Some s /\
  dist (scen s) v1 = srad s /\ dist (scen s) v2 = srad s /\ dist (scen s) v3 = srad s /\ on_plane v1 (tri_normal v1 v2 v3) (scen s) /\
  forall c, dist c v1 = dist c v2 -> dist c v2 = dist c v3 -> srad s <= dist c v1.
Proof.
  intros H. destruct (circum_ok v1 v2 v3 H) as (c & E & P & D1 & D2). unfold zSphere3DFrom3. rewrite E. eexists; split; [reflexivity|].
  unfold zSphere3DCreate; cbn [scen srad]. zvg. repeat split; try congruence.
  intros c' K1 K2. rewrite <- D2. rewrite (dist_sym c v1), (dist_sym c' v1). unfold dist. apply norm_le_of_sqr.
  (* c' - c is orthogonal to the plane *)
  assert (Q : forall a b x y, dist a x = dist a y -> dist b x = dist b y -> dot (vsub a b) (vsub x y) = 0).
  { intros a b x y Q1 Q2. unfold dist in Q1, Q2.
    assert (S1 : dot (vsub a x) (vsub a x) = dot (vsub a y) (vsub a y)) by (rewrite <- !norm_sqr; rewrite Q1; reflexivity).
    assert (S2 : dot (vsub b x) (vsub b x) = dot (vsub b y) (vsub b y)) by (rewrite <- !norm_sqr; rewrite Q2; reflexivity).
    clear - S1 S2. destruct a, b, x, y. spec_unfold. lra. }
  assert (O2 : dot (vsub c' c) (vsub v2 v1) = 0) by (apply Q; congruence).
  assert (O3 : dot (vsub c' c) (vsub v3 v1) = 0) by (apply Q; congruence).
  (* so it is parallel to the normal, to which v1 - c is orthogonal *)
  set (n := tri_normal v1 v2 v3) in *. set (u := vsub c' c) in *.
  assert (Cu : cross n u = v3zero).
  { unfold n, tri_normal. rewrite <- (vec3_ext (vsub (vscale (dot u (vsub v2 v1)) (vsub v3 v1)) (vscale (dot u (vsub v3 v1)) (vsub v2 v1))) (cross (cross (vsub v2 v1) (vsub v3 v1)) u)).
    - rewrite O2, O3. vring.
    - clearbody u; clear; spec_unfold; ring.
    - clearbody u; clear; spec_unfold; ring.
    - clearbody u; clear; spec_unfold; ring. }
  assert (Ou : dot (vsub v1 c) u = 0).
  { assert (dot n n <> 0) by (intros Z; apply H, dot_self_zero, Z). apply (Rmult_eq_reg_l (dot n n)); [|assumption].
    unfold on_plane in P. fold n in P.
    transitivity (dot (vsub v1 c) n * dot n u + dot (cross n (vsub v1 c)) (cross n u)).
    - clearbody u n; clear; spec_unfold; ring.
    - rewrite Cu. replace (dot (vsub v1 c) n) with (- dot (vsub c v1) n) by (clearbody n; clear; spec_unfold; ring). rewrite P. clearbody n u; clear; spec_unfold; ring. }
  replace (vsub v1 c') with (vsub (vsub v1 c) u) by (unfold u; clear; vring).
  replace (dot (vsub (vsub v1 c) u) (vsub (vsub v1 c) u)) with (dot (vsub v1 c) (vsub v1 c) - 2 * dot (vsub v1 c) u + dot u u) by (clearbody u; clear; spec_unfold; ring).
  rewrite Ou. pose proof (dot_self_nonneg u). lra.
Qed.
Lemma sphere_from4 v1 v2 v3 v4 : vol6 v1 v2 v3 v4 <> 0 -> exists s, zSphere3DFrom4 v1 v2 v3 v4 = Some s /\
  dist (scen s) v1 = srad s /\ dist (scen s) v2 = srad s /\ dist (scen s) v3 = srad s /\ dist (scen s) v4 = srad s.
Proof.
  intros H. unfold zSphere3DFrom4. zvg. set (t := snd (zTri3DCreate (vsub v2 v1) (vsub v3 v1) (vsub v4 v1))).
  assert (T : tv0 t = vsub v2 v1 /\ tv1 t = vsub v3 v1 /\ tv2 t = vsub v4 v1).
  { unfold t, zTri3DCreate. destruct (zVec3DIsTiny _); auto. }
  destruct T as (T0 & T1 & T2). destruct (cone_circum t) as (c & E & D0 & D1 & D2); [rewrite T0, T1, T2; exact H|].
  rewrite E. eexists; split; [reflexivity|]. unfold zSphere3DCreate; cbn [scen srad]. zvg.
  rewrite T0 in D0. rewrite T1 in D1. rewrite T2 in D2.
  assert (N : norm c = dist c v3zero) by (unfold dist; f_equal; vring).
  assert (K : forall v, dist (vadd c v1) v = dist c (vsub v v1)) by (intros v; unfold dist; f_equal; vring).
  rewrite !K, N. replace (vsub v1 v1) with v3zero by vring. auto.
Qed.
(** 2D disks *)
Definition lift2 (v : vec2) : vec3 := V3 (x2 v) (y2 v) 0.
Lemma lift2_dist a b : dist (lift2 a) (lift2 b) = dist2 a b.
Proof. unfold dist, dist2, norm, norm_2. f_equal. unfold lift2, dot2, vsub2. spec_unfold. pcbn. ring. Qed.
Lemma dist2_sym a b : dist2 a b = dist2 b a.
Proof. rewrite <- !lift2_dist. apply dist_sym. Qed.
Lemma dist2_triangle a b c : dist2 a c <= dist2 a b + dist2 b c.
Proof. rewrite <- !lift2_dist. apply dist_triangle. Qed.
Lemma mid_dist2 a b : dist2 (zVec2DMid a b) a = dist2 a b / 2 /\ dist2 (zVec2DMid a b) b = dist2 a b / 2.
Proof.
  assert (S : forall k v, norm_2 (vscale2 k v) = Rabs k * norm_2 v).
  { intros k v. unfold norm_2. replace (dot2 (vscale2 k v) (vscale2 k v)) with (Rsqr k * dot2 v v) by (unfold Rsqr, dot2, vscale2; pcbn; ring).
    rewrite sqrt_mult by (try apply Rle_0_sqr; apply dot2_nonneg). rewrite sqrt_Rsqr_abs. reflexivity. }
  assert (E1 : vsub2 (zVec2DMid a b) a = vscale2 (- (1/2)) (vsub2 a b)) by (unfold zVec2DMid; replace 0.5 with (1/2) by lra; apply vec2_ext; unfold vsub2, vscale2; unfold zVec2DInterDiv, zVec2DCat, zVec2DSub; pcbn; lra).
  assert (E2 : vsub2 (zVec2DMid a b) b = vscale2 (1/2) (vsub2 a b)) by (unfold zVec2DMid; replace 0.5 with (1/2) by lra; apply vec2_ext; unfold vsub2, vscale2; unfold zVec2DInterDiv, zVec2DCat, zVec2DSub; pcbn; lra).
  unfold dist2. rewrite E1, E2, !S, Rabs_Ropp, Rabs_right by lra. split; lra.
Qed.
Lemma disk_from2 v1 v2 : let s := zDisk2DFrom2 v1 v2 in
  dist2 (dcen s) v1 = drad s /\ dist2 (dcen s) v2 = drad s /\ forall c r, disk c r v1 -> disk c r v2 -> drad s <= r.
Proof.
  cbv zeta. unfold zDisk2DFrom2; cbn [dcen drad]. zvg. destruct (mid_dist2 v1 v2) as (A & B).
  split; [reflexivity|]. split; [rewrite A; exact B|]. intros c r H1 H2. unfold disk in *. rewrite A.
  pose proof (dist2_triangle v1 c v2) as T. rewrite (dist2_sym v1 c) in T. lra.
Qed.
Lemma disk_from3 v1 v2 v3 : area2 v1 v2 v3 <> 0 -> exists s, zDisk2DFrom3 v1 v2 v3 = Some s /\
  dist2 (dcen s) v1 = drad s /\ dist2 (dcen s) v2 = drad s /\ dist2 (dcen s) v3 = drad s.
Proof.
  intros H. destruct (circum2_ok v1 v2 v3 H) as (c & E & D1 & D2). unfold zDisk2DFrom3. rewrite E. eexists; split; [reflexivity|].
  cbn [dcen drad]. zvg. repeat split; congruence.
Qed.
Lemma disk_inside d p m : zDisk2DPointIsInside d p m = true <-> dist2 (dcen d) p < drad d + m.
Proof.
  unfold zDisk2DPointIsInside, zDisk2DDistFromPoint. zvg.
  destruct (Rltb_reflect (dist2 (dcen d) p - drad d) m); split; intros; try lra; try discriminate; reflexivity.
Qed.

(** ** Cylinder *)
Lemma sq_clamp h h0 lo hi : (lo <= h <= hi /\ h0 = h \/ h <= lo /\ h0 = lo \/ hi <= h /\ h0 = hi) ->
  forall h', lo <= h' <= hi -> (h - h0) * (h - h0) <= (h - h') * (h - h').
Proof.
  intros [(A & ->)|[(A & ->)|(A & ->)]] h' B.
  - replace ((h - h) * (h - h)) with 0 by ring. apply sqr_nonneg.
  - assert (0 <= (h' - lo) * (h' + lo - 2 * h)) by (apply Rmult_le_pos; lra). lra.
  - assert (0 <= (hi - h') * (2 * h - hi - h')) by (apply Rmult_le_pos; lra). lra.
Qed.
Lemma sqrt_sqr_abs x : sqrt (x * x) = Rabs x.
Proof. apply sqrt_Rsqr_abs. Qed.
Lemma cyl_closest c p : ~ negligible (vsub (cc1 c) (cc0 c)) -> 0 <= crad c ->
  let l := norm (vsub (cc1 c) (cc0 c)) in
  exists dv cp h w, axial (cc0 c) (cc1 c) p h w /\ zCyl3DClosest c p = Some (dv, cp) /\ zCyl3DDistFromPoint c p = dv /\
    nearest (in_cyl (cc0 c) (cc1 c) (crad c)) p cp /\
    (l < h /\ norm w <= crad c -> dv = - dist p cp) /\ (~ (l < h /\ norm w <= crad c) -> dv = dist p cp).
Proof.
  intros Hn Hr l. destruct (axis_split (cc0 c) (cc1 c) p Hn) as (a & h & w & EN & Hl & Ua & Ea & Ow & Eh & Nw & Ew & Ep).
  fold l in EN, Hl, Ea.
  set (S := fun h q => 0 <= h <= l /\ q <= crad c).
  assert (RV : forall x, rev (cc0 c) a S x <-> in_cyl (cc0 c) (cc1 c) (crad c) x) by (apply cyl_rev; assumption).
  assert (key : forall h0 w0, dot a w0 = 0 -> S h0 (norm w0) -> vscale (norm w) w0 = vscale (norm w0) w ->
    (forall h', 0 <= h' <= l -> (h - h0) * (h - h0) <= (h - h') * (h - h')) ->
    (forall r', 0 <= r' <= crad c -> (norm w - norm w0) * (norm w - norm w0) <= (norm w - r') * (norm w - r')) ->
    nearest (in_cyl (cc0 c) (cc1 c) (crad c)) p (vadd (vadd (cc0 c) (vscale h0 a)) w0) /\
    dist p (vadd (vadd (cc0 c) (vscale h0 a)) w0) = sqrt ((h - h0) * (h - h0) + (norm w - norm w0) * (norm w - norm w0))).
  { intros h0 w0 O SS D M1 M2. destruct (rev_nearest (cc0 c) a S h w h0 w0 Ua Ow O SS D) as (N & E).
    - intros h' r' P (Q1 & Q2). specialize (M1 h' Q1). specialize (M2 r' (conj P Q2)). lra.
    - rewrite <- Ep in N, E. split; [eapply nearest_iff; [exact RV|exact N]|exact E]. }
  unfold zCyl3DClosest, zCyl3DDistFromPoint, zCyl3DClosestPrep, zCyl3DAxis. zvg. rewrite EN. cbv beta iota zeta. zvg. rewrite <- Nw, <- Eh.
  pose proof (norm_nonneg w) as Hw0.
  assert (AX : axial (cc0 c) (cc1 c) p h w) by (apply (axial_unique (cc0 c) (cc1 c) a h w p Hl Ua Ea Ow Ep); auto).
  destruct (Rleb_reflect 0 h) as [H0|H0]; [destruct (Rleb_reflect h l) as [H1|H1]|]; cbn [andb].
  - destruct (Rleb_reflect (norm w) (crad c)) as [H2|H2].
    + exists 0, p, h, w. split; [exact AX|]. split; [reflexivity|]. split; [reflexivity|]. rewrite dist_self. split; [|split; intros; lra].
      destruct (key h w Ow (conj (conj H0 H1) H2) eq_refl) as (N & _); [apply sq_clamp; lra|apply sq_clamp; lra|]. rewrite <- Ep in N. exact N.
    + assert (Ev : vsub (vsub p (cc0 c)) (vscale h a) = w) by (rewrite Ew; vring). rewrite Ev.
      destruct (Reqb_reflect (norm w) 0) as [Hz|Hz]; [lra|].
      set (w0 := vscale (crad c / norm w) w).
      assert (Nw0 : norm w0 = crad c).
      { unfold w0. rewrite norm_scale, Rabs_right; [field; lra|]. apply Rle_ge, Rmult_le_pos; [lra|left; apply Rinv_0_lt_compat; lra]. }
      destruct (key h w0) as (N & E).
      * unfold w0. transitivity (crad c / norm w * dot a w); [clear; spec_unfold; ring|rewrite Ow; ring].
      * unfold S. rewrite Nw0. lra.
      * rewrite Nw0. unfold w0. clear - Hz. apply vec3_ext; spec_unfold; field; assumption.
      * apply sq_clamp; lra.
      * rewrite Nw0. apply sq_clamp; lra.
      * assert (Ecp : vadd (vadd (cc0 c) (vscale h a)) w0 = vadd p (vscale (- (norm w - crad c) / norm w) w)).
        { rewrite Ep. unfold w0. clear - Hz. apply vec3_ext; spec_unfold; field; assumption. }
        rewrite Ecp in N, E. do 4 eexists. split; [exact AX|]. split; [reflexivity|]. split; [reflexivity|]. split; [exact N|].
        split; [intros; lra|intros _]. rewrite E, Nw0. replace ((h - h) * (h - h) + (norm w - crad c) * (norm w - crad c)) with ((norm w - crad c) * (norm w - crad c)) by ring.
        rewrite sqrt_sqr_abs, Rabs_right; lra.
  - destruct (Rltb_reflect l h); [|lra]. cbv beta iota zeta. zvg.
    assert (E1 : cc1 c = vadd (cc0 c) (vscale l a)) by (rewrite <- Ea; vring).
    destruct (Rleb_reflect (norm w) (crad c)) as [H2|H2].
    + destruct (key l w) as (N & E); [assumption|split; lra|reflexivity|apply sq_clamp; lra|apply sq_clamp; lra|].
      assert (Ecp : vadd (vadd (cc0 c) (vscale l a)) w = vadd p (vscale (- (h - l)) a)) by (rewrite Ep; clear; vring).
      rewrite Ecp in N, E. do 4 eexists. split; [exact AX|]. split; [reflexivity|]. split; [reflexivity|]. split; [exact N|].
      split; [intros _|intros; lra]. rewrite E. replace ((h - l) * (h - l) + (norm w - norm w) * (norm w - norm w)) with ((h - l) * (h - l)) by ring. rewrite sqrt_sqr_abs, Rabs_right; lra.
    + destruct (Reqb_reflect (norm w) 0) as [Hz|Hz]; [lra|].
      set (w0 := vscale (crad c / norm w) w).
      assert (Nw0 : norm w0 = crad c).
      { unfold w0. rewrite norm_scale, Rabs_right; [field; lra|]. apply Rle_ge, Rmult_le_pos; [lra|left; apply Rinv_0_lt_compat; lra]. }
      destruct (key l w0) as (N & E).
      * unfold w0. transitivity (crad c / norm w * dot a w); [clear; spec_unfold; ring|rewrite Ow; ring].
      * unfold S. rewrite Nw0. lra.
      * rewrite Nw0. unfold w0. clear - Hz. apply vec3_ext; spec_unfold; field; assumption.
      * apply sq_clamp; lra.
      * rewrite Nw0. apply sq_clamp; lra.
      * assert (Ecp : vadd (vadd (cc0 c) (vscale l a)) w0 = vadd (cc1 c) (vscale (crad c / norm w) (vsub (vadd p (vscale (- (h - l)) a)) (cc1 c)))).
        { rewrite E1, Ep. unfold w0. clear. vring. }
        rewrite Ecp in N, E. do 4 eexists. split; [exact AX|]. split; [reflexivity|]. split; [reflexivity|]. split; [exact N|].
        split; [intros; lra|intros _]. rewrite E, Nw0. unfold zSqr. f_equal. ring.
  - destruct (Rltb_reflect l h); [lra|]. cbv beta iota zeta. zvg.
    destruct (Rleb_reflect (norm w) (crad c)) as [H2|H2].
    + destruct (key 0 w) as (N & E); [assumption|split; lra|reflexivity|apply sq_clamp; lra|apply sq_clamp; lra|].
      assert (Ecp : vadd (vadd (cc0 c) (vscale 0 a)) w = vadd p (vscale (- h) a)) by (rewrite Ep; clear; vring).
      rewrite Ecp in N, E. do 4 eexists. split; [exact AX|]. split; [reflexivity|]. split; [reflexivity|]. split; [exact N|].
      split; [intros; lra|intros _]. rewrite E. replace ((h - 0) * (h - 0) + (norm w - norm w) * (norm w - norm w)) with (h * h) by ring. rewrite sqrt_sqr_abs, Rabs_left; lra.
    + destruct (Reqb_reflect (norm w) 0) as [Hz|Hz]; [lra|].
      set (w0 := vscale (crad c / norm w) w).
      assert (Nw0 : norm w0 = crad c).
      { unfold w0. rewrite norm_scale, Rabs_right; [field; lra|]. apply Rle_ge, Rmult_le_pos; [lra|left; apply Rinv_0_lt_compat; lra]. }
      destruct (key 0 w0) as (N & E).
      * unfold w0. transitivity (crad c / norm w * dot a w); [clear; spec_unfold; ring|rewrite Ow; ring].
      * unfold S. rewrite Nw0. lra.
      * rewrite Nw0. unfold w0. clear - Hz. apply vec3_ext; spec_unfold; field; assumption.
      * apply sq_clamp; lra.
      * rewrite Nw0. apply sq_clamp; lra.
      * assert (Ecp : vadd (vadd (cc0 c) (vscale 0 a)) w0 = vadd (cc0 c) (vscale (crad c / norm w) (vsub (vadd p (vscale (- h) a)) (cc0 c)))).
        { rewrite Ep. unfold w0. clear. vring. }
        rewrite Ecp in N, E. do 4 eexists. split; [exact AX|]. split; [reflexivity|]. split; [reflexivity|]. split; [exact N|].
        split; [intros; lra|intros _]. rewrite E, Nw0. unfold zSqr. f_equal. ring.
Qed.
Lemma cyl_inside c p m : ~ negligible (vsub (cc1 c) (cc0 c)) -> forall h w, axial (cc0 c) (cc1 c) p h w ->
  zCyl3DPointIsInside c p m = true <-> norm w < crad c + m /\ - m < h < norm (vsub (cc1 c) (cc0 c)) + m.
Proof.
  intros Hn h' w' AX. destruct (axis_split (cc0 c) (cc1 c) p Hn) as (a & h & w & EN & Hl & Ua & Ea & Ow & Eh & Nw & Ew & Ep).
  apply (axial_unique (cc0 c) (cc1 c) a h w p Hl Ua Ea Ow Ep) in AX. destruct AX as (-> & ->).
  unfold zCyl3DPointIsInside, zCyl3DClosestPrep, zCyl3DAxis. zvg. rewrite EN. cbv beta iota zeta. zvg. rewrite <- Nw, <- Eh.
  destruct (Rleb_reflect m (norm w - crad c)); [split; [discriminate|lra]|].
  destruct (Rltb_reflect (- m) h); cbn [andb]; [|split; [discriminate|lra]].
  destruct (Rltb_reflect h (norm (vsub (cc1 c) (cc0 c)) + m)); split; intros; try discriminate; try reflexivity; lra.
Qed.
(** every point has an axial position *)
Lemma axial_exists c0 c1 p : c1 <> c0 -> exists h w, axial c0 c1 p h w.
Proof.
  intros H. set (u := vsub c1 c0). assert (0 < norm u).
  { apply norm_pos. intros E. apply H. unfold u in E. apply vec3_ext; [apply (f_equal vx) in E|apply (f_equal vy) in E|apply (f_equal vz) in E]; revert E; spec_unfold; lra. }
  assert (Hu : norm u * norm u = dot u u) by apply norm_sqr.
  exists (dot u (vsub p c0) / norm u), (vsub (vsub p c0) (vscale (dot u (vsub p c0) / dot u u) u)). unfold axial. fold u. set (v := vsub p c0). split.
  - transitivity (dot u v - dot u v / dot u u * dot u u); [clearbody u v; clear; spec_unfold; ring|field]. nra.
  - rewrite <- Hu. clearbody u v. set (n := norm u) in *. clearbody n. clear - H0. apply vec3_ext; spec_unfold; field; lra.
Qed.

(** ** Capsule *)
Lemma segment_cyl0 c0 c1 q : segment c0 c1 q <-> in_cyl c0 c1 0 q.
Proof.
  split.
  - intros (s0 & s1 & (H0 & H1 & E) & ->). exists s1, v3zero. repeat split; try lra.
    + spec_unfold; ring.
    + right. apply norm_zero_iff. reflexivity.
    + assert (s0 = 1 - s1) as -> by lra. unfold comb2. vring.
  - intros (t & w & Ht & _ & Hw & ->). assert (w = v3zero) as -> by (apply norm_zero_iff; apply Rle_antisym; [exact Hw|apply norm_nonneg]).
    exists (1 - t), t. split; [unfold weights2; lra|]. unfold comb2. vring.
Qed.
Lemma segment_foot c0 c1 a l h w p h0 : 0 < l -> vsub c1 c0 = vscale l a -> dot a a = 1 -> dot a w = 0 -> p = vadd (vadd c0 (vscale h a)) w ->
  (0 <= h <= l /\ h0 = h \/ h <= 0 /\ h0 = 0 \/ l <= h /\ h0 = l) ->
  nearest (segment c0 c1) p (vadd c0 (vscale h0 a)).
Proof.
  intros Hl E Ua Ow Ep Hh. eapply nearest_iff; [intros x; symmetry; apply segment_cyl0|].
  eapply nearest_iff; [apply (cyl_rev c0 c1 a l 0 Hl E)|].
  destruct (rev_nearest c0 a (fun h q => 0 <= h <= l /\ q <= 0) h w h0 v3zero Ua Ow) as (N & _).
  - spec_unfold; ring.
  - split; [lra|]. right. apply norm_zero_iff. reflexivity.
  - replace (norm v3zero) with 0 by (symmetry; apply norm_zero_iff; reflexivity). vring.
  - intros h' r' Hr (Hh' & Hr'). replace (norm v3zero) with 0 by (symmetry; apply norm_zero_iff; reflexivity).
    assert (r' = 0) as -> by lra. pose proof (sq_clamp h h0 0 l Hh h' Hh'). lra.
  - rewrite <- Ep in N. replace (vadd c0 (vscale h0 a)) with (vadd (vadd c0 (vscale h0 a)) v3zero) by (clear; vring). exact N.
Qed.
Lemma capsule_closest c p : ~ negligible (vsub (cc1 c) (cc0 c)) -> 0 <= crad c ->
  exists cp h w, axial (cc0 c) (cc1 c) p h w /\ zCapsule3DClosest c p = Some (dist p cp, cp) /\
    nearest (in_capsule (cc0 c) (cc1 c) (crad c)) p cp /\
    (0 <= h <= norm (vsub (cc1 c) (cc0 c)) -> zCapsule3DDistFromPoint c p = dist p cp) /\
    (~ (0 <= h <= norm (vsub (cc1 c) (cc0 c))) -> zCapsule3DDistFromPoint c p = - dist p cp).
Proof.
  intros Hn Hr. destruct (axis_split (cc0 c) (cc1 c) p Hn) as (a & h & w & EN & Hl & Ua & Ea & Ow & Eh & Nw & Ew & Ep).
  set (l := norm (vsub (cc1 c) (cc0 c))) in *.
  unfold zCapsule3DClosest, zCapsule3DDistFromPoint, zCyl3DClosestPrep, zCyl3DAxis. zvg. rewrite EN. cbv beta iota zeta. zvg. rewrite <- Nw, <- Eh.
  pose proof (norm_nonneg w) as Hw0.
  assert (AX : axial (cc0 c) (cc1 c) p h w) by (apply (axial_unique (cc0 c) (cc1 c) a h w p Hl Ua Ea Ow Ep); auto).
  assert (FT := fun h0 => segment_foot (cc0 c) (cc1 c) a l h w p h0 Hl Ea Ua Ow Ep).
  assert (OUT : forall f, nearest (segment (cc0 c) (cc1 c)) p f -> crad c < dist p f ->
    let cp := vadd f (vscale (crad c / dist p f) (vsub p f)) in
    nearest (in_capsule (cc0 c) (cc1 c) (crad c)) p cp /\ dist p cp = dist p f - crad c) by (intros f H1 H2; apply offset_nearest; assumption).
  assert (INS : forall f, nearest (segment (cc0 c) (cc1 c)) p f -> dist p f <= crad c -> nearest (in_capsule (cc0 c) (cc1 c) (crad c)) p p) by (intros f H1 H2; eapply offset_inside; eassumption).
  destruct (Rleb_reflect 0 h) as [H0|H0]; [destruct (Rleb_reflect h l) as [H1|H1]|]; cbn [andb].
  - assert (F : nearest (segment (cc0 c) (cc1 c)) p (vadd (cc0 c) (vscale h a))) by (apply FT; lra).
    assert (D : dist p (vadd (cc0 c) (vscale h a)) = norm w) by (rewrite Ep; unfold dist; f_equal; clear; vring).
    destruct (Rleb_reflect (norm w) (crad c)) as [H2|H2].
    + exists p, h, w. split; [exact AX|]. rewrite dist_self. split; [reflexivity|]. split; [apply (INS _ F); lra|]. split; [reflexivity|intros; lra].
    + assert (Ev : vsub (vsub p (cc0 c)) (vscale h a) = w) by (rewrite Ew; vring). rewrite Ev.
      destruct (Reqb_reflect (norm w) 0) as [Hz|Hz]; [lra|].
      destruct (OUT _ F) as (N & E); [lra|]. rewrite D in N, E.
      assert (Ecp : vadd (vadd (cc0 c) (vscale h a)) (vscale (crad c / norm w) (vsub p (vadd (cc0 c) (vscale h a)))) = vadd p (vscale (- (norm w - crad c) / norm w) w)).
      { rewrite Ep. clear - Hz. apply vec3_ext; spec_unfold; field; assumption. }
      rewrite Ecp in N, E. exists (vadd p (vscale (- (norm w - crad c) / norm w) w)), h, w. split; [exact AX|]. rewrite E. split; [reflexivity|]. split; [exact N|]. split; [intros _; lra|intros; lra].
  - destruct (Rltb_reflect l h) as [Hh|Hh]; [|lra]. cbv beta iota zeta. zvg.
    assert (F : nearest (segment (cc0 c) (cc1 c)) p (cc1 c)).
    { replace (cc1 c) with (vadd (cc0 c) (vscale l a)) at 2 by (rewrite <- Ea; clear; vring). apply FT; lra. }
    change (norm (vsub p (cc1 c))) with (dist p (cc1 c)).
    destruct (Rleb_reflect (dist p (cc1 c)) (crad c)) as [H2|H2].
    + exists p, h, w. split; [exact AX|]. rewrite dist_self. split; [reflexivity|]. split; [apply (INS _ F); lra|]. split; [intros; lra|intros _].
      destruct (Rltb_reflect (dist p (cc1 c)) (crad c)); lra.
    + destruct (Reqb_reflect (dist p (cc1 c)) 0) as [Hz|Hz]; [lra|]. destruct (Rltb_reflect (dist p (cc1 c)) (crad c)); [lra|].
      destruct (OUT _ F) as (N & E); [lra|]. cbv zeta in N, E. exists (vadd (cc1 c) (vscale (crad c / dist p (cc1 c)) (vsub p (cc1 c)))), h, w. split; [exact AX|]. rewrite E. split; [reflexivity|]. split; [exact N|]. split; intros; lra.
  - destruct (Rltb_reflect l h) as [Hh|Hh]; [lra|]. cbv beta iota zeta. zvg.
    assert (F : nearest (segment (cc0 c) (cc1 c)) p (cc0 c)).
    { replace (cc0 c) with (vadd (cc0 c) (vscale 0 a)) at 2 by (clear; vring). apply FT; lra. }
    change (norm (vsub p (cc0 c))) with (dist p (cc0 c)).
    destruct (Rleb_reflect (dist p (cc0 c)) (crad c)) as [H2|H2].
    + exists p, h, w. split; [exact AX|]. rewrite dist_self. split; [reflexivity|]. split; [apply (INS _ F); lra|]. split; [intros; lra|intros _].
      destruct (Rltb_reflect (dist p (cc0 c)) (crad c)); lra.
    + destruct (Reqb_reflect (dist p (cc0 c)) 0) as [Hz|Hz]; [lra|]. destruct (Rltb_reflect (dist p (cc0 c)) (crad c)); [lra|].
      destruct (OUT _ F) as (N & E); [lra|]. cbv zeta in N, E. exists (vadd (cc0 c) (vscale (crad c / dist p (cc0 c)) (vsub p (cc0 c)))), h, w. split; [exact AX|]. rewrite E. split; [reflexivity|]. split; [exact N|]. split; intros; lra.
Qed.
Lemma nearest_margin (S : vec3 -> Prop) p cp m : nearest S p cp -> dist p cp < m <-> exists x, S x /\ dist p x < m.
Proof. intros (A & B). split; [intros H; exists cp; auto|intros (x & X & D); specialize (B x X); lra]. Qed.
Lemma axial_fun c0 c1 p h w h' w' : 0 < norm (vsub c1 c0) -> axial c0 c1 p h w -> axial c0 c1 p h' w' -> h = h' /\ w = w'.
Proof.
  intros Hl (A & B) (A' & B'). set (u := vsub c1 c0) in *. set (v := vsub p c0) in *. pose proof (norm_sqr u) as N. set (n := norm u) in *. clearbody n.
  assert (K : vadd (vscale h u) (vscale n w) = vadd (vscale h' u) (vscale n w')) by congruence.
  assert (h = h').
  { pose proof (f_equal (dot u) K) as D. assert (h * dot u u = h' * dot u u).
    { transitivity (dot u (vadd (vscale h u) (vscale n w))); [transitivity (h * dot u u + n * dot u w); [rewrite A; ring|clear; spec_unfold; ring]|].
      rewrite D. transitivity (h' * dot u u + n * dot u w'); [clear; spec_unfold; ring|rewrite A'; ring]. }
    apply (Rmult_eq_reg_r (dot u u)); [assumption|]. nra. }
  subst h'. split; [reflexivity|].
  assert (E : vscale n w = vscale n w').
  { transitivity (vsub (vadd (vscale h u) (vscale n w)) (vscale h u)); [clear; vring|]. rewrite K. clear; vring. }
  clear - E Hl. destruct w as [x y z], w' as [x' y' z']. unfold vscale in E; cbn [vx vy vz] in E. injection E as E1 E2 E3.
  f_equal; (eapply Rmult_eq_reg_l; [eassumption|lra]).
Qed.
Lemma capsule_inside c p m h w : ~ negligible (vsub (cc1 c) (cc0 c)) -> 0 <= crad c -> axial (cc0 c) (cc1 c) p h w ->
  (0 <= h <= norm (vsub (cc1 c) (cc0 c)) ->
     (zCapsule3DPointIsInside c p m = true <-> exists x, in_capsule (cc0 c) (cc1 c) (crad c) x /\ dist p x < m)) /\
  (~ (0 <= h <= norm (vsub (cc1 c) (cc0 c))) ->
     (zCapsule3DPointIsInside c p m = true <-> 0 < m \/ forall x, in_capsule (cc0 c) (cc1 c) (crad c) x -> - m < dist p x)).
Proof.
  intros Hn Hr AX. destruct (capsule_closest c p Hn Hr) as (cp & h' & w' & AX' & E & N & D1 & D2).
  destruct (axial_fun _ _ _ _ _ _ _ (nonneg_norm_pos _ Hn) AX AX') as (<- & <-). unfold zCapsule3DPointIsInside. split; intros H.
  - rewrite (D1 H). rewrite <- (nearest_margin _ p cp m N). apply Rltb_true.
  - rewrite (D2 H). rewrite Rltb_true. pose proof (norm_nonneg (vsub p cp)) as P. fold (dist p cp) in P. destruct N as (N1 & N2). split.
    + intros K. right. intros x Hx. specialize (N2 x Hx). lra.
    + intros [K|K]; [lra|]. specialize (K cp N1). lra.
Qed.
(** with zero margin no point of the capsule is reported inside *)
Lemma capsule_zero_margin c p : ~ negligible (vsub (cc1 c) (cc0 c)) -> 0 <= crad c -> in_capsule (cc0 c) (cc1 c) (crad c) p ->
  zCapsule3DPointIsInside c p 0 = false.
Proof.
  intros Hn Hr Hp. destruct (capsule_closest c p Hn Hr) as (cp & h & w & AX & E & N & D1 & D2). destruct N as (_ & N). specialize (N p Hp). rewrite dist_self in N.
  pose proof (norm_nonneg (vsub p cp)) as P. fold (dist p cp) in P. assert (dist p cp = 0) by lra.
  unfold zCapsule3DPointIsInside. apply Rltb_false.
  destruct (Rle_dec 0 h); [destruct (Rle_dec h (norm (vsub (cc1 c) (cc0 c))))|]; [rewrite D1|rewrite D2|rewrite D2]; lra.
Qed.
Lemma capsule_far : forall D, exists p, (forall x, in_capsule (V3 0 0 0) (V3 0 0 1) 1 x -> D < dist p x) /\
  zCapsule3DPointIsInside (CY (V3 0 0 0) (V3 0 0 1) 1 0) p 0 = true.
Proof.
  intros D. set (c := CY (V3 0 0 0) (V3 0 0 1) 1 0). set (k := Rabs D + 3). exists (V3 0 0 k).
  assert (K : 3 <= k /\ D + 3 <= k) by (unfold k; pose proof (Rle_abs D); pose proof (Rabs_pos D); lra).
  assert (U : norm (vsub (V3 0 0 1) (V3 0 0 0)) = 1) by (apply norm_unit; spec_unfold; ring).
  assert (Hn : ~ negligible (vsub (cc1 c) (cc0 c))) by (apply long_not_negligible; cbn [cc0 cc1 c]; rewrite U; pose proof zTOL_small; lra).
  assert (F : forall x, in_capsule (V3 0 0 0) (V3 0 0 1) 1 x -> D < dist (V3 0 0 k) x).
  { intros x (q & (s0 & s1 & (W0 & W1 & W2) & ->) & Hx).
    pose proof (dist_triangle (V3 0 0 k) x (comb2 s0 s1 (V3 0 0 0) (V3 0 0 1))) as T. rewrite (dist_sym x) in T.
    assert (k - s1 <= dist (V3 0 0 k) (comb2 s0 s1 (V3 0 0 0) (V3 0 0 1))).
    { unfold dist. destruct (norm_ge_comp (vsub (V3 0 0 k) (comb2 s0 s1 (V3 0 0 0) (V3 0 0 1)))) as (_ & _ & Z). eapply Rle_trans; [|exact Z].
      eapply Rle_trans; [|apply Rle_abs]. unfold comb2. spec_unfold. lra. }
    lra. }
  split; [exact F|].
  assert (AX : axial (cc0 c) (cc1 c) (V3 0 0 k) k v3zero).
  { cbn [cc0 cc1 c]. unfold axial. rewrite U. split; [spec_unfold; ring|vring]. }
  apply (capsule_inside c (V3 0 0 k) 0 k v3zero Hn); cbn [cc0 cc1 crad c]; try rewrite U; [lra|exact AX|lra|].
  right. intros x Hx. pose proof (norm_nonneg (vsub (V3 0 0 k) x)). destruct Hx as (q & (s0 & s1 & (W0 & W1 & W2) & ->) & Hx).
  pose proof (dist_triangle (V3 0 0 k) x (comb2 s0 s1 (V3 0 0 0) (V3 0 0 1))) as T. rewrite (dist_sym x) in T.
    assert (k - s1 <= dist (V3 0 0 k) (comb2 s0 s1 (V3 0 0 0) (V3 0 0 1))).
    { unfold dist. destruct (norm_ge_comp (vsub (V3 0 0 k) (comb2 s0 s1 (V3 0 0 0) (V3 0 0 1)))) as (_ & _ & Z). eapply Rle_trans; [|exact Z].
      eapply Rle_trans; [|apply Rle_abs]. unfold comb2. spec_unfold. lra. }
    lra.
Qed.
