(** Proofs about cones. *)
From Verif Require Import ModelShape FactsVec FactsAlg FactsMat FactsFrame FactsElem FactsTri FactsCentre FactsBox FactsObb FactsRound.
Open Scope R_scope.

(** projection criterion in the half plane *)
Lemma hproj h r h0 r0 h' r' : (h - h0) * (h' - h0) + (r - r0) * (r' - r0) <= 0 ->
  (h - h0) * (h - h0) + (r - r0) * (r - r0) <= (h - h') * (h - h') + (r - r') * (r - r').
Proof. intros H. pose proof (sqr_nonneg (h' - h0)). pose proof (sqr_nonneg (r' - r0)). lra. Qed.
Lemma div_lt_iff a b c : 0 < c -> a < b / c <-> a * c < b.
Proof.
  intros Hc. split; intros H.
  - apply (Rmult_lt_compat_r c) in H; [|exact Hc]. unfold Rdiv in H. rewrite Rmult_assoc, Rinv_l, Rmult_1_r in H by lra. exact H.
  - apply (Rmult_lt_reg_r c); [exact Hc|]. unfold Rdiv. rewrite Rmult_assoc, Rinv_l, Rmult_1_r by lra. exact H.
Qed.
Section Profile.
  Variables l r : R.
  Hypothesis Hl : 0 < l.
  Hypothesis Hr : 0 < r.
  Let S h q := 0 <= h <= l /\ q * l <= (l - h) * r.
  Lemma prof_base h q h' q' : h < 0 -> 0 <= q < r -> 0 <= q' -> S h' q' -> (h - 0) * (h - 0) + (q - q) * (q - q) <= (h - h') * (h - h') + (q - q') * (q - q').
  Proof. intros A B C (D & E). apply hproj. nra. Qed.
  Lemma prof_rim h q h' q' : 0 <= q' -> S h' q' -> r <= q -> (h < 0 \/ 0 <= h /\ l * h + r * r < q * r) ->
    (h - 0) * (h - 0) + (q - r) * (q - r) <= (h - h') * (h - h') + (q - q') * (q - q').
  Proof.
    intros A (B & C) D E. apply hproj. assert (Q : q' * l <= r * l - h' * r) by lra. assert (q' <= r) by nra.
    destruct E as [E|(E0 & E)].
    - assert (0 <= - h * h') by (apply Rmult_le_pos; lra). assert (0 <= (q - r) * (r - q')) by (apply Rmult_le_pos; lra). lra.
    - (* (q - r) r > l h, l (r - q') >= h' r *)
      assert (K : h * l * (h' * r) <= (q - r) * r * (l * (r - q'))).
      { apply Rmult_le_compat; try (apply Rmult_le_pos; lra); lra. }
      assert (0 < l * r) by (apply Rmult_lt_0_compat; lra).
      assert (h * h' <= (q - r) * (r - q')).
      { apply (Rmult_le_reg_l (l * r)); [assumption|]. lra. }
      lra.
  Qed.
  Lemma prof_apex h q h' q' : 0 <= q -> 0 <= q' -> S h' q' -> q * r < l * (h - l) ->
    (h - l) * (h - l) + (q - 0) * (q - 0) <= (h - h') * (h - h') + (q - q') * (q - q').
  Proof.
    intros A0 A (B & C) D. apply hproj.
    assert (K : q * r * (q' * l) <= l * (h - l) * ((l - h') * r)).
    { apply Rmult_le_compat; try lra; apply Rmult_le_pos; lra. }
    assert (0 < l * r) by (apply Rmult_lt_0_compat; lra).
    assert (q * q' <= (h - l) * (l - h')).
    { apply (Rmult_le_reg_l (l * r)); [assumption|]. lra. }
    lra.
  Qed.
  (** foot on the slant line: k = (r q - l (h - l)) / (l l + r r) *)
  Lemma prof_slant h q h' q' : 0 <= q' -> S h' q' -> r * l < r * h + l * q ->
    let k := (r * q - l * (h - l)) / (l * l + r * r) in
    (h - (l - k * l)) * (h - (l - k * l)) + (q - k * r) * (q - k * r) <= (h - h') * (h - h') + (q - q') * (q - q').
  Proof.
    intros A (B & C) D k. apply hproj. set (n := l * l + r * r). assert (Hn : 0 < n) by (unfold n; nra).
    assert (E1 : h - (l - k * l) = (r * h + l * q - r * l) / n * r) by (unfold k, n; field; fold n; lra).
    assert (E2 : q - k * r = (r * h + l * q - r * l) / n * l) by (unfold k, n; field; fold n; lra).
    rewrite E1, E2. set (e := (r * h + l * q - r * l) / n). assert (He : 0 < e) by (apply Rdiv_lt_0_compat; lra).
    assert (E3 : e * r * (h' - (l - k * l)) + e * l * (q' - k * r) = e * (r * h' + l * q' - r * l)) by ring.
    rewrite E3. assert (0 <= e * (r * l - r * h' - l * q')) by (apply Rmult_le_pos; lra). lra.
  Qed.
  Lemma prof_slant_in h q : ~ q * r < l * (h - l) -> q * r <= l * h + r * r ->
    let k := (r * q - l * (h - l)) / (l * l + r * r) in 0 <= k <= 1 /\ S (l - k * l) (k * r).
  Proof.
    intros A B k. assert (Hn : 0 < l * l + r * r) by nra.
    assert (Hk : 0 <= k <= 1).
    { unfold k. split; [apply Rmult_le_pos; [lra|left; apply Rinv_0_lt_compat; lra]|].
      apply (Rmult_le_reg_r (l * l + r * r)); [lra|]. unfold Rdiv. rewrite Rmult_assoc, Rinv_l, Rmult_1_r by lra. lra. }
    split; [exact Hk|]. unfold S. split; [nra|]. right. ring.
  Qed.
End Profile.

Lemma cone_closest c p : 2 * zTOL <= norm (vsub (kvert c) (kcen c)) -> 0 < krad c ->
  (forall h w, axial (kcen c) (kvert c) p h w -> w = v3zero \/ ~ negligible w) ->
  exists cp, zCone3DClosest c p = Some (dist p cp, cp) /\ zCone3DDistFromPoint c p = Some (dist p cp) /\
    nearest (in_cone (kcen c) (kvert c) (krad c)) p cp.
Proof.
  intros Hlong Hr HW. assert (Hn := long_not_negligible _ Hlong).
  destruct (axis_split (kcen c) (kvert c) p Hn) as (a & h & w & EN & Hl & Ua & Ea & Ow & Eh & Nw & Ew & Ep).
  specialize (HW h w). rewrite (axial_unique _ _ a h w p Hl Ua Ea Ow Ep) in HW. specialize (HW (conj eq_refl eq_refl)).
  set (l := norm (vsub (kvert c) (kcen c))) in *.
  assert (SW : exists s, zVec3DNormalizeDRC w = (norm w, s) /\ w = vscale (norm w) s /\ dot a s = 0 /\ (norm w <> 0 -> dot s s = 1)).
  { destruct HW as [->|HW].
    - exists v3zero. rewrite (proj2 (norm_zero_iff v3zero) eq_refl). split; [apply normalize3_tiny, zero_negligible|]. split; [vring|]. split; [spec_unfold; ring|lra].
    - destruct (normalize3_ok w w HW) as (s & E & U & Q). exists s. split; [exact E|]. split; [symmetry; exact Q|].
      pose proof (nonneg_norm_pos w HW). split; [|intros _; apply norm_unit, U].
      apply (Rmult_eq_reg_l (norm w)); [|lra]. transitivity (dot a (vscale (norm w) s)); [clear; spec_unfold; ring|]. rewrite Q, Ow; ring. }
  destruct SW as (s & ES & Es & Os & Us).
  set (T := fun h q => 0 <= h <= l /\ q * l <= (l - h) * krad c).
  assert (RV : forall x, rev (kcen c) a T x <-> in_cone (kcen c) (kvert c) (krad c) x) by (apply cone_rev; assumption).
  pose proof (norm_nonneg w) as Hw0.
  assert (key : forall h0 q0, 0 <= q0 -> T h0 q0 -> (norm w = 0 -> q0 = 0) ->
    (forall h' r', 0 <= r' -> T h' r' -> (h - h0) * (h - h0) + (norm w - q0) * (norm w - q0) <= (h - h') * (h - h') + (norm w - r') * (norm w - r')) ->
    nearest (in_cone (kcen c) (kvert c) (krad c)) p (vadd (vadd (kcen c) (vscale h0 a)) (vscale q0 s)) /\
    dist p (vadd (vadd (kcen c) (vscale h0 a)) (vscale q0 s)) = sqrt ((h - h0) * (h - h0) + (norm w - q0) * (norm w - q0))).
  { intros h0 q0 P TT Z M. assert (NQ : norm (vscale q0 s) = q0).
    { destruct (Req_dec (norm w) 0) as [Zw|Zw].
      - rewrite (Z Zw). rewrite norm_scale, Rabs_R0. ring.
      - rewrite norm_scale, (proj1 (norm_unit s) (Us Zw)), Rabs_right by lra. ring. }
    destruct (rev_nearest (kcen c) a T h w h0 (vscale q0 s) Ua Ow) as (N & E).
    - transitivity (q0 * dot a s); [clear; spec_unfold; ring|rewrite Os; ring].
    - rewrite NQ. exact TT.
    - rewrite NQ. rewrite Es at 2. clear; vring.
    - rewrite NQ. exact M.
    - rewrite NQ in E. rewrite <- Ep in N, E. split; [eapply nearest_iff; [exact RV|exact N]|exact E]. }
  unfold zCone3DClosest, zCone3DDistFromPoint, zCone3DAxis. zvg. rewrite EN. cbv beta iota zeta. zvg. rewrite <- Eh. rewrite <- Ew, ES. cbv beta iota zeta. zvg.
  assert (RIM : krad c <= norm w -> h < 0 \/ 0 <= h /\ l * h + krad c * krad c < norm w * krad c ->
    nearest (in_cone (kcen c) (kvert c) (krad c)) p (vadd (kcen c) (vscale (krad c) s)) /\
    dist p (vadd (kcen c) (vscale (krad c) s)) = sqrt (h * h + zSqr (norm w - krad c))).
  { intros H1 H2. destruct (key 0 (krad c)) as (N & E); [lra|unfold T; split; [lra|right; ring]|lra| |].
    - intros h' r' P Q. apply (prof_rim l (krad c) Hl Hr); assumption.
    - replace (vadd (kcen c) (vscale (krad c) s)) with (vadd (vadd (kcen c) (vscale 0 a)) (vscale (krad c) s)) by (clear; vring).
      split; [exact N|]. rewrite E. unfold zSqr. f_equal. ring. }
  destruct (Rltb_reflect h 0) as [H0|H0].
  - destruct (Rltb_reflect (norm w) (krad c)) as [H1|H1].
    + destruct (key 0 (norm w)) as (N & E); [lra|unfold T; split; [lra|nra]|auto| |].
      * intros h' r' P Q. apply (prof_base l (krad c)); auto.
      * replace (vadd (vadd (kcen c) (vscale 0 a)) (vscale (norm w) s)) with (vadd p (vscale (- h) a)) in N, E.
        2:{ rewrite <- Es. rewrite Ep at 1. clear; vring. }
        exists (vadd p (vscale (- h) a)). rewrite E. replace ((h - 0) * (h - 0) + (norm w - norm w) * (norm w - norm w)) with (h * h) by ring.
        rewrite sqrt_sqr_abs, Rabs_left by lra. auto.
    + destruct RIM as (N & E); [lra|auto|]. exists (vadd (kcen c) (vscale (krad c) s)). rewrite E. auto.
  - destruct (Reqb_reflect (krad c) 0); [lra|]. destruct (Reqb_reflect l 0); [lra|]. cbn [orb].
    destruct (Rltb_reflect (norm w) (l * (h - l) / krad c)) as [H1|H1]; rewrite div_lt_iff in H1 by exact Hr.
    { destruct (key l 0) as (N & E); [lra|unfold T; split; [lra|right; ring]|auto| |].
      - intros h' r' P Q. apply (prof_apex l (krad c) Hl Hr); auto.
      - replace (vadd (vadd (kcen c) (vscale l a)) (vscale 0 s)) with (kvert c) in N, E.
        2:{ rewrite <- Ea. clear; vring. }
        exists (kvert c). rewrite E. replace (zSqr (h - l) + norm w * norm w) with ((h - l) * (h - l) + (norm w - 0) * (norm w - 0)) by (unfold zSqr; ring). auto. }
    destruct (Rleb_reflect (h / l + norm w / krad c) 1) as [H2|H2].
    { destruct (key h (norm w)) as (N & _); [lra| |auto| |].
      - assert (K : h * krad c + norm w * l <= l * krad c).
        { apply (Rmult_le_compat_r (l * krad c)) in H2; [|nra]. replace ((h / l + norm w / krad c) * (l * krad c)) with (h * krad c + norm w * l) in H2 by (field; lra). lra. }
        unfold T. split; [|lra]. split; [lra|]. assert (0 <= norm w * l) by (apply Rmult_le_pos; lra). nra.
      - intros h' r' P Q. replace ((h - h) * (h - h) + (norm w - norm w) * (norm w - norm w)) with 0 by ring. pose proof (sqr_nonneg (h - h')). pose proof (sqr_nonneg (norm w - r')). lra.
      - rewrite <- Es, <- Ep in N. exists p. rewrite dist_self. auto. }
    assert (K : l * krad c < h * krad c + norm w * l).
    { apply Rnot_le_lt. intros K. apply H2. apply (Rmult_le_reg_r (l * krad c)); [nra|]. replace ((h / l + norm w / krad c) * (l * krad c)) with (h * krad c + norm w * l) by (field; lra). lra. }
    assert (NZ : norm w <> 0) by (intros Z; rewrite Z in *; nra).
    assert (L3 : norm w <= l * h / krad c + krad c <-> norm w * krad c <= l * h + krad c * krad c).
    { split; intros H3.
      - apply (Rmult_le_compat_r (krad c)) in H3; [|lra]. replace ((l * h / krad c + krad c) * krad c) with (l * h + krad c * krad c) in H3 by (field; lra). exact H3.
      - apply (Rmult_le_reg_r (krad c)); [lra|]. replace ((l * h / krad c + krad c) * krad c) with (l * h + krad c * krad c) by (field; lra). exact H3. }
    destruct (Rleb_reflect (norm w) (l * h / krad c + krad c)) as [H3|H3]; rewrite L3 in H3.
    + set (k := (krad c * norm w - l * (h - l)) / (l * l + krad c * krad c)).
      destruct (prof_slant_in l (krad c) Hl Hr h (norm w) H1 H3) as (Hk & HT). fold k in Hk, HT.
      destruct (key (l - k * l) (k * krad c)) as (N & E); [nra|exact HT|lra| |].
      * intros h' r' P Q. apply (prof_slant l (krad c)); auto; lra.
      * set (g := vadd (vscale (krad c) s) (vscale (- l) a)).
        assert (DG : dot g g = l * l + krad c * krad c).
        { unfold g. transitivity (krad c * krad c * dot s s - 2 * krad c * l * dot a s + l * l * dot a a); [clear; spec_unfold; ring|]. rewrite (Us NZ), Os, Ua. ring. }
        assert (NG : norm g * norm g = l * l + krad c * krad c) by (rewrite norm_sqr; exact DG).
        assert (LG : l <= norm g). { apply Rnot_lt_le. intros Q. pose proof (norm_nonneg g). nra. }
        assert (Ng : ~ negligible g) by (apply long_not_negligible; lra).
        rewrite (normalizeDRC_ok g Ng). set (u := vscale (1 / norm g) g).
        assert (Uu : dot u u = 1). { unfold u. transitivity (dot g g / (norm g * norm g)); [|rewrite NG, DG; field; nra]. assert (norm g <> 0) by lra. clear - H. spec_unfold. field. exact H. }
        assert (Ecp : vadd (kvert c) (vscale (dot (vsub p (kvert c)) u) u) = vadd (vadd (kcen c) (vscale (l - k * l) a)) (vscale (k * krad c) s)).
        { assert (EV : kvert c = vadd (kcen c) (vscale l a)) by (rewrite <- Ea; clear; vring).
          assert (DP : dot (vsub p (kvert c)) g = krad c * norm w - l * (h - l)).
          { rewrite EV, Ep. rewrite Es at 1. unfold g. set (nw := norm w).
            transitivity ((h - l) * krad c * dot a s - l * (h - l) * dot a a + nw * krad c * dot s s - l * nw * dot a s); [clear; clearbody nw; spec_unfold; ring|]. rewrite Ua, Os, (Us NZ). ring. }
          assert (EK : vscale (dot (vsub p (kvert c)) u) u = vscale k g).
          { replace (dot (vsub p (kvert c)) u) with (1 / norm g * dot (vsub p (kvert c)) g) by (unfold u; clear; spec_unfold; ring).
            rewrite DP. unfold k, u. rewrite <- NG. assert (norm g <> 0) by lra. clearbody g. clear - H. apply vec3_ext; spec_unfold; field; exact H. }
          rewrite EK. rewrite EV. unfold g. clear; vring. }
        rewrite <- Ecp in N, E. exists (vadd (kvert c) (vscale (dot (vsub p (kvert c)) u) u)).
        split; [reflexivity|]. split; [|exact N]. f_equal. unfold dist, norm. f_equal.
        set (v := vsub p (kvert c)). replace (vsub p (vadd (kvert c) (vscale (dot v u) u))) with (vsub v (vscale (dot v u) u)) by (unfold v; clear; vring).
        clearbody v u. clear - Uu. transitivity (dot v v * dot u u - dot v u * dot v u); [spec_unfold; ring|].
        transitivity (dot v v - dot v u * dot v u * (2 - dot u u)); [rewrite Uu; ring|spec_unfold; ring].
    + destruct RIM as (N & E); [|right; split; lra|].
      * apply Rnot_lt_le. intros Q. assert (norm w * krad c < krad c * krad c) by nra. assert (0 <= l * h) by (apply Rmult_le_pos; lra). lra.
      * exists (vadd (kcen c) (vscale (krad c) s)). rewrite E. auto.
Qed.

Lemma cone_inside c p m h w : ~ negligible (vsub (kvert c) (kcen c)) -> axial (kcen c) (kvert c) p h w ->
  let l := norm (vsub (kvert c) (kcen c)) in
  exists b, zCone3DPointIsInside c p m = Some b /\
   (b = true <-> - m < h < l + m /\ (norm w * l - krad c * (l - h)) < m * sqrt (l * l + krad c * krad c)).
Proof.
  intros Hn AX l. destruct (axis_split (kcen c) (kvert c) p Hn) as (a & h' & w' & EN & Hl & Ua & Ea & Ow & Eh & Nw & Ew & Ep).
  apply (axial_unique _ _ a h' w' p Hl Ua Ea Ow Ep) in AX. destruct AX as (-> & ->). fold l in EN, Hl, Ea.
  unfold zCone3DPointIsInside, zCone3DAxis. zvg. rewrite EN. cbv beta iota zeta. zvg.
  assert (EV : vsub p (kvert c) = vadd (vscale (h' - l) a) w').
  { assert (EV : kvert c = vadd (kcen c) (vscale l a)) by (rewrite <- Ea; clear; vring). rewrite EV. rewrite Ep at 1. clear; vring. }
  rewrite EV.
  assert (D1 : dot a (vadd (vscale (h' - l) a) w') = h' - l).
  { transitivity ((h' - l) * dot a a + dot a w'); [clear; spec_unfold; ring|rewrite Ua, Ow; ring]. }
  rewrite D1.
  assert (D2 : sqrt (dot (vadd (vscale (h' - l) a) w') (vadd (vscale (h' - l) a) w') - - (h' - l) * - (h' - l)) = norm w').
  { unfold norm. f_equal. transitivity ((h' - l) * (h' - l) * dot a a + 2 * (h' - l) * dot a w' + dot w' w' - (h' - l) * (h' - l)); [clear; spec_unfold; ring|rewrite Ua, Ow; ring]. }
  rewrite D2.
  assert (NL : norm_2 (V2 (- krad c) l) = sqrt (l * l + krad c * krad c)) by (unfold norm_2, dot2; pcbn; f_equal; ring).
  rewrite NL. set (n := sqrt (l * l + krad c * krad c)). assert (Hnn : 0 < n) by (apply sqrt_lt_R0; nra).
  destruct (Rleb_reflect (- (h' - l)) (- m)) as [H1|H1]; cbn [orb]; [exists false; split; [reflexivity|split; [discriminate|lra]]|].
  destruct (Rleb_reflect (l + m) (- (h' - l))) as [H2|H2]; cbn [orb]; [exists false; split; [reflexivity|split; [discriminate|lra]]|].
  destruct (Reqb_reflect n 0); [lra|]. eexists; split; [reflexivity|].
  rewrite Rltb_true. replace (dot2 (vscale2 (1 / n) (V2 (- krad c) l)) (V2 (- (h' - l)) (norm w'))) with ((norm w' * l - krad c * (l - h')) / n) by (unfold dot2, vscale2; pcbn; field; lra).
  split.
  - intros H. split; [lra|]. apply (Rmult_lt_compat_r n) in H; [|exact Hnn]. unfold Rdiv in H. rewrite Rmult_assoc, Rinv_l in H by lra. lra.
  - intros (_ & H). apply (Rmult_lt_reg_r n); [exact Hnn|]. unfold Rdiv. rewrite Rmult_assoc, Rinv_l by lra. lra.
Qed.
