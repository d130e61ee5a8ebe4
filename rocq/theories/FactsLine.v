(** Proofs about lines, planes and triangle centres. *)
From Verif Require Import ModelElem FactsVec FactsAlg Facts2D FactsElem FactsTri FactsTri2.
Open Scope R_scope.

(** ** lines *)
Lemma dot_vsub_expand a b : dot (vsub a b) (vsub a b) = dot a a - 2 * dot a b + dot b b.
Proof. spec_unfold; ring. Qed.
Lemma line_create p d : ~ negligible d -> exists l, zLine3DCreate p d = Some l /\ lorg l = p /\ norm (ldir l) = 1 /\ vscale (norm d) (ldir l) = d.
Proof.
  intros H. unfold zLine3DCreate. rewrite (proj2 (zVec3DIsTiny_false d) H). eexists; split; [reflexivity|]. cbn [lorg ldir].
  unfold zVec3DNormalizeNC. cbn [snd]. zvg. split; [reflexivity|]. apply unit_scale. apply nonneg_norm_pos; assumption.
Qed.
Lemma line_create_none p d : zLine3DCreate p d = None <-> negligible d.
Proof.
  unfold zLine3DCreate. rewrite <- zVec3DIsTiny_true. destruct (zVec3DIsTiny d); split; congruence.
Qed.
Lemma line_proj l p : norm (ldir l) = 1 ->
  nearest (on_line (lorg l) (ldir l)) p (zLine3DProjPoint l p) /\
  dot (vsub p (zLine3DProjPoint l p)) (ldir l) = 0 /\
  zLine3DDistFromPoint l p = dist p (zLine3DProjPoint l p).
Proof.
  intros U. apply norm_unit in U. unfold zLine3DProjPoint, zLine3DPoint, zLine3DDistFromPoint. zvg.
  destruct l as [o d]; cbn [lorg ldir] in *. set (k := dot d (vsub p o)).
  assert (O : dot (vsub p (vadd o (vscale k d))) d = 0).
  { replace (dot (vsub p (vadd o (vscale k d))) d) with (dot d (vsub p o) - k * dot d d) by (clearbody k; clear; spec_unfold; ring).
    rewrite U. unfold k. ring. }
  split; [split|split].
  - exists k. reflexivity.
  - intros x [t ->]. apply norm_le_of_sqr.
    assert (E : dot (vsub p (vadd o (vscale t d))) (vsub p (vadd o (vscale t d))) =
       dot (vsub p (vadd o (vscale k d))) (vsub p (vadd o (vscale k d))) + 2 * (k - t) * dot (vsub p (vadd o (vscale k d))) d + (k - t) * (k - t) * dot d d)
      by (clearbody k; clear; spec_unfold; ring).
    rewrite E, O, U. pose proof (sqr_nonneg (k - t)). lra.
  - exact O.
  - unfold dist, norm. f_equal.
    assert (E : dot (cross (vsub p o) d) (cross (vsub p o) d) = dot (vsub p o) (vsub p o) * dot d d - k * k) by (unfold k; clear; spec_unfold; ring).
    assert (E2 : dot (vsub p (vadd o (vscale k d))) (vsub p (vadd o (vscale k d))) = dot (vsub p o) (vsub p o) - 2 * k * dot d (vsub p o) + k * k * dot d d)
      by (clearbody k; clear; spec_unfold; ring).
    rewrite E, E2, U. fold k. ring.
Qed.
Lemma line_point_is_on l p m : norm (ldir l) = 1 ->
  zLine3DPointIsOn l p m = true <-> exists x, on_line (lorg l) (ldir l) x /\ dist p x < m.
Proof.
  intros U. destruct (line_proj l p U) as ([H1 H2] & _ & H3). unfold zLine3DPointIsOn. rewrite Rltb_true, H3. split.
  - intros H. eexists; split; [exact H1|assumption].
  - intros (x & Hx & Hd). specialize (H2 x Hx). lra.
Qed.

(** ** common perpendicular *)
Lemma perp_min o1 d1 o2 d2 p1 p2 : on_line o1 d1 p1 -> on_line o2 d2 p2 ->
  dot (vsub p1 p2) d1 = 0 -> dot (vsub p1 p2) d2 = 0 ->
  forall x y, on_line o1 d1 x -> on_line o2 d2 y -> dist p1 p2 <= dist x y.
Proof.
  intros [a ->] [b ->] H1 H2 x y [s ->] [t ->]. apply norm_le_of_sqr.
  set (w := vsub (vadd o1 (vscale a d1)) (vadd o2 (vscale b d2))) in *.
  assert (E : vsub (vadd o1 (vscale s d1)) (vadd o2 (vscale t d2)) = vadd w (vsub (vscale (s - a) d1) (vscale (t - b) d2))) by (unfold w; vring).
  rewrite E. set (z := vsub (vscale (s - a) d1) (vscale (t - b) d2)).
  assert (O : dot w z = 0). { unfold z. rewrite dot_sub_r, !dot_scale_r, H1, H2. ring. }
  assert (E2 : dot (vadd w z) (vadd w z) = dot w w + 2 * dot w z + dot z z) by (clearbody w z; clear; spec_unfold; ring).
  rewrite E2, O. pose proof (dot_self_nonneg z). lra.
Qed.
Lemma common_perp l1 l2 p1 p2 : zTOL <= gramdet (ldir l1) (ldir l2) ->
  zLine3DCommonPerpEnd l1 l2 = (p1, p2) ->
  on_line (lorg l1) (ldir l1) p1 /\ on_line (lorg l2) (ldir l2) p2 /\
  dot (vsub p1 p2) (ldir l1) = 0 /\ dot (vsub p1 p2) (ldir l2) = 0.
Proof.
  intros HD. unfold zLine3DCommonPerpEnd. cbv zeta. zvg.
  destruct l1 as [o1 d1], l2 as [o2 d2]. cbn [lorg ldir] in *. unfold gramdet in HD.
  set (r11 := dot d1 d1) in *. set (r12 := dot d1 d2) in *. set (r22 := dot d2 d2) in *. set (det := r11 * r22 - r12 * r12) in *.
  assert (Hd : zIsTiny det = false). { apply zIsTiny_false. rewrite Rabs_pos_eq; pose proof zTOL_pos; lra. }
  rewrite Hd. assert (Dpos : 0 < det) by (pose proof zTOL_pos; lra).
  intros E. injection E as <- <-. unfold zLine3DPoint. zvg. cbn [lorg ldir].
  split; [eexists; reflexivity|]. split; [eexists; reflexivity|].
  set (k1 := dot (vadd (vscale r22 d1) (vscale (- r12) d2)) (vsub o2 o1) / det).
  set (k2 := dot (vadd (vscale r12 d1) (vscale (- r11) d2)) (vsub o2 o1) / det).
  assert (K1 : k1 * det = r22 * dot d1 (vsub o2 o1) - r12 * dot d2 (vsub o2 o1)).
  { unfold k1. replace (dot (vadd (vscale r22 d1) (vscale (- r12) d2)) (vsub o2 o1)) with (r22 * dot d1 (vsub o2 o1) - r12 * dot d2 (vsub o2 o1))
      by (clearbody r22 r12; clear; spec_unfold; ring). field. lra. }
  assert (K2 : k2 * det = r12 * dot d1 (vsub o2 o1) - r11 * dot d2 (vsub o2 o1)).
  { unfold k2. replace (dot (vadd (vscale r12 d1) (vscale (- r11) d2)) (vsub o2 o1)) with (r12 * dot d1 (vsub o2 o1) - r11 * dot d2 (vsub o2 o1))
      by (clearbody r11 r12; clear; spec_unfold; ring). field. lra. }
  clearbody k1 k2.
  assert (G1 : dot (vsub (vadd o1 (vscale k1 d1)) (vadd o2 (vscale k2 d2))) d1 = - dot d1 (vsub o2 o1) + k1 * r11 - k2 * r12).
  { unfold r11, r12. clear. spec_unfold; ring. }
  assert (G2 : dot (vsub (vadd o1 (vscale k1 d1)) (vadd o2 (vscale k2 d2))) d2 = - dot d2 (vsub o2 o1) + k1 * r12 - k2 * r22).
  { unfold r22, r12. clear. spec_unfold; ring. }
  rewrite G1, G2. set (a := dot d1 (vsub o2 o1)) in *. set (b := dot d2 (vsub o2 o1)) in *. clearbody a b. clear G1 G2.
  split; apply (Rmult_eq_reg_r det); try lra; rewrite Rmult_0_l.
  - replace ((- a + k1 * r11 - k2 * r12) * det) with (- a * det + (k1 * det) * r11 - (k2 * det) * r12) by ring. rewrite K1, K2. unfold det. ring.
  - replace ((- b + k1 * r12 - k2 * r22) * det) with (- b * det + (k1 * det) * r12 - (k2 * det) * r22) by ring. rewrite K1, K2. unfold det. ring.
Qed.
Lemma line_dist_nonparallel l1 l2 : zTOL <= gramdet (ldir l1) (ldir l2) ->
  exists p1 p2, on_line (lorg l1) (ldir l1) p1 /\ on_line (lorg l2) (ldir l2) p2 /\ zDistLine3DLine3D l1 l2 = dist p1 p2 /\
    forall x y, on_line (lorg l1) (ldir l1) x -> on_line (lorg l2) (ldir l2) y -> zDistLine3DLine3D l1 l2 <= dist x y.
Proof.
  intros HD. unfold zDistLine3DLine3D. destruct (zLine3DCommonPerpEnd l1 l2) as [p1 p2] eqn:E.
  destruct (common_perp l1 l2 p1 p2 HD E) as (A1 & A2 & O1 & O2). exists p1, p2. zvg.
  split; [assumption|]. split; [assumption|]. split; [reflexivity|]. apply (perp_min _ _ _ _ p1 p2); assumption.
Qed.
Lemma gramdet_parallel a b : norm a = 1 -> norm b = 1 -> gramdet a b = 0 -> a = vscale (dot a b) b.
Proof.
  intros Ua Ub H. apply norm_unit in Ua. apply norm_unit in Ub. unfold gramdet in H. rewrite Ua, Ub in H.
  set (k := dot a b) in *.
  assert (Z : dot (vsub a (vscale k b)) (vsub a (vscale k b)) = 0).
  { replace (dot (vsub a (vscale k b)) (vsub a (vscale k b))) with (dot a a - 2 * k * dot a b + k * k * dot b b) by (clearbody k; clear; spec_unfold; ring).
    rewrite Ua, Ub. fold k. lra. }
  apply dot_self_zero in Z. replace a with (vadd (vsub a (vscale k b)) (vscale k b)) at 1 by vring. rewrite Z. vring.
Qed.
Lemma line_dist_parallel l1 l2 : norm (ldir l1) = 1 -> norm (ldir l2) = 1 -> gramdet (ldir l1) (ldir l2) = 0 ->
  exists p1 p2, on_line (lorg l1) (ldir l1) p1 /\ on_line (lorg l2) (ldir l2) p2 /\ zDistLine3DLine3D l1 l2 = dist p1 p2 /\
    forall x y, on_line (lorg l1) (ldir l1) x -> on_line (lorg l2) (ldir l2) y -> zDistLine3DLine3D l1 l2 <= dist x y.
Proof.
  intros U1 U2 HD. pose proof (gramdet_parallel _ _ U1 U2 HD) as HP.
  unfold zDistLine3DLine3D, zLine3DCommonPerpEnd. cbv zeta. zvg.
  fold (gramdet (ldir l1) (ldir l2)). rewrite HD, zIsTiny_0.
  destruct (line_proj l2 (lorg l1) U2) as ([A2 _] & O2 & _).
  set (p2 := zLine3DProjPoint l2 (lorg l1)) in *.
  exists (lorg l1), p2. assert (A1 : on_line (lorg l1) (ldir l1) (lorg l1)) by (exists 0; vring).
  split; [assumption|]. split; [assumption|]. zvg. split; [reflexivity|].
  apply (perp_min _ _ _ _ (lorg l1) p2); try assumption. rewrite HP. rewrite dot_scale_r, O2. ring.
Qed.
Lemma gramdet_unit a b : norm a = 1 -> norm b = 1 -> 0 <= gramdet a b /\ gramdet a b = 1 - dot a b * dot a b.
Proof. intros Ua Ub. apply norm_unit in Ua. apply norm_unit in Ub. pose proof (cauchy a b). unfold gramdet. rewrite Ua, Ub in *. lra. Qed.
(** the value is always the distance of some pair of points *)
Lemma line_dist_upper l1 l2 :
  exists x y, on_line (lorg l1) (ldir l1) x /\ on_line (lorg l2) (ldir l2) y /\ zDistLine3DLine3D l1 l2 = dist x y.
Proof.
  unfold zDistLine3DLine3D, zLine3DCommonPerpEnd, zLine3DProjPoint, zLine3DPoint. cbv zeta. zvg.
  destruct (zIsTiny _); zvg.
  - eexists (lorg l1), _. split; [exists 0; vring|]. split; [eexists; reflexivity|reflexivity].
  - eexists _, _. split; [eexists; reflexivity|]. split; [eexists; reflexivity|reflexivity].
Qed.
(** nearly parallel lines are treated as parallel: two crossing lines at "distance" 1 *)
Lemma line_dist_near : exists l1 l2, norm (ldir l1) = 1 /\ norm (ldir l2) = 1 /\ gramdet (ldir l1) (ldir l2) <> 0 /\
  (exists x, on_line (lorg l1) (ldir l1) x /\ on_line (lorg l2) (ldir l2) x) /\ zDistLine3DLine3D l1 l2 = 1.
Proof.
  pose proof zTOL_pos as TP. pose proof zTOL_small as TS.
  set (s := sqrt (zTOL / 2)). set (c := sqrt (1 - zTOL / 2)).
  assert (Hs2 : s * s = zTOL / 2) by (apply sqrt_sqrt; lra). assert (Hc2 : c * c = 1 - zTOL / 2) by (apply sqrt_sqrt; lra).
  assert (Hs : 0 < s) by (apply sqrt_lt_R0; lra).
  exists (L3 (V3 (1 / s) 0 0) (V3 1 0 0)), (L3 v3zero (V3 c s 0)). cbn [lorg ldir].
  split; [apply norm_unit; spec_unfold; ring|]. split; [apply norm_unit; spec_unfold; lra|].
  assert (G : gramdet (V3 1 0 0) (V3 c s 0) = zTOL / 2) by (unfold gramdet; spec_unfold; nra).
  split; [rewrite G; lra|]. split.
  { exists v3zero. split; [exists (- (1 / s)); vring|exists 0; vring]. }
  unfold zDistLine3DLine3D, zLine3DCommonPerpEnd. cbv zeta. cbn [lorg ldir]. zvg. fold (gramdet (V3 1 0 0) (V3 c s 0)). rewrite G.
  assert (T : zIsTiny (zTOL / 2) = true) by (apply zIsTiny_true; rewrite Rabs_pos_eq; lra). rewrite T.
  destruct (line_proj (L3 v3zero (V3 c s 0)) (V3 (1 / s) 0 0)) as (_ & _ & D); [apply norm_unit; cbn [ldir]; spec_unfold; lra|].
  zvg. rewrite <- D. unfold zLine3DDistFromPoint. cbn [lorg ldir]. zvg. unfold norm. apply sqrt_unique; [lra|].
  spec_unfold. field. lra.
Qed.

(** ** 2D lines *)
Lemma line2_intersect l1 l2 : ~ Rabs (cross2 (ldir2 l1) (ldir2 l2)) < zTOL ->
  exists p, zIntersectLine2D l1 l2 = Some p /\ on_line2 (lorg2 l1) (ldir2 l1) p /\ on_line2 (lorg2 l2) (ldir2 l2) p /\
    forall x, on_line2 (lorg2 l1) (ldir2 l1) x -> on_line2 (lorg2 l2) (ldir2 l2) x -> x = p.
Proof.
  intros H. destruct l1 as [[o1x o1y] [a b]], l2 as [[o2x o2y] [c d]]. cbn [lorg2 ldir2] in *. unfold cross2 in H. cbn [x2 y2] in H.
  unfold zIntersectLine2D. cbv zeta. cbn [lorg2 ldir2 x2 y2]. set (m := M2 a b (- c) (- d)).
  assert (Em : mdet2 m = - (a * d - b * c)) by (unfold m, mdet2; pcbn; ring).
  assert (Hm : ~ Rabs (mdet2 m) < zTOL) by (rewrite Em, Rabs_Ropp; assumption).
  assert (Hnz : a * d - b * c <> 0). { intros Z. apply H. rewrite Z, Rabs_R0. apply zTOL_pos. }
  destruct (solve2 m (zVec2DSub (V2 o2x o2y) (V2 o1x o1y)) Hm) as (s & Es & Hs & _). rewrite Es.
  destruct s as [s t]. change (zVec2DSub (V2 o2x o2y) (V2 o1x o1y)) with (V2 (o2x - o1x) (o2y - o1y)) in Hs.
  assert (Hs' : a * s - c * t = o2x - o1x /\ b * s - d * t = o2y - o1y).
  { unfold m, mvec2 in Hs. cbn [dxx dxy dyx dyy x2 y2] in Hs. injection Hs; intros. split; lra. }
  destruct Hs' as [S1 S2].
  eexists; split; [reflexivity|]. unfold zLine2DPoint. cbn [lorg2 ldir2 x2 y2]. zvg.
  split; [exists s; reflexivity|]. split.
  - exists t. apply vec2_ext; unfold vadd2, vscale2; cbn [x2 y2]; lra.
  - intros x [s' ->] [t' E]. unfold vadd2, vscale2 in E. cbn [x2 y2] in E. injection E; intros Ey Ex.
    assert (Z : (s' - s) * (a * d - b * c) = 0).
    { assert (Q1 : a * (s' - s) = c * (t' - t)) by lra. assert (Q2 : b * (s' - s) = d * (t' - t)) by lra.
      replace ((s' - s) * (a * d - b * c)) with (d * (a * (s' - s)) - c * (b * (s' - s))) by ring. rewrite Q1, Q2. ring. }
    apply Rmult_integral in Z. destruct Z as [Z|Z]; [|contradiction]. replace s' with s by lra. reflexivity.
Qed.
Lemma line2_parallel l1 l2 : zIntersectLine2D l1 l2 = None <-> Rabs (cross2 (ldir2 l1) (ldir2 l2)) < zTOL.
Proof.
  split.
  - intros E. destruct (Rlt_dec (Rabs (cross2 (ldir2 l1) (ldir2 l2))) zTOL) as [|N]; [assumption|].
    destruct (line2_intersect l1 l2 N) as (p & Ep & _). congruence.
  - intros H. unfold zIntersectLine2D. cbv zeta. set (m := M2 _ _ _ _).
    assert (Em : mdet2 m = - cross2 (ldir2 l1) (ldir2 l2)) by (unfold m, mdet2, cross2; pcbn; ring).
    rewrite (proj1 (solve2_none m _ mid2 ltac:(rewrite Em, Rabs_Ropp; exact H))). reflexivity.
Qed.

(** ** planes *)
Lemma plane_create o n : ~ negligible n ->
  exists pl, zPlane3DCreate o n = Some pl /\ porg pl = o /\ norm (pnorm pl) = 1 /\ vscale (norm n) (pnorm pl) = n.
Proof.
  intros H. unfold zPlane3DCreate. rewrite (proj2 (zVec3DIsTiny_false n) H). eexists; split; [reflexivity|]. cbn [porg pnorm].
  destruct (normalize3_ok n v3zero H) as (u & E & Hu). rewrite E. cbn [snd]. split; [reflexivity|]. tauto.
Qed.
Lemma plane_proj pl p : norm (pnorm pl) = 1 ->
  let '(d, q) := zPlane3DProjPoint pl p in
  d = zPlane3DDistFromPoint pl p /\ nearest (on_plane (porg pl) (pnorm pl)) p q /\ Rabs d = dist p q /\
  p = vadd q (vscale d (pnorm pl)).
Proof.
  intros U. apply norm_unit in U. unfold zPlane3DProjPoint, zPlane3DDistFromPoint. zvg. destruct pl as [o n]; cbn [porg pnorm] in *.
  set (d := dot (vsub p o) n). split; [reflexivity|].
  assert (Hd : Rabs d = dist p (vadd p (vscale (- d) n))).
  { unfold dist. replace (vsub p (vadd p (vscale (- d) n))) with (vscale d n) by vring. rewrite norm_scale. apply norm_unit in U. rewrite U. ring. }
  split; [split|split].
  - unfold on_plane. replace (dot (vsub (vadd p (vscale (- d) n)) o) n) with (dot (vsub p o) n - d * dot n n) by (clearbody d; clear; spec_unfold; ring).
    rewrite U. unfold d. ring.
  - intros x Hx. unfold on_plane in Hx. rewrite <- Hd. apply norm_unit in U.
    assert (E : d = dot (vsub p x) n). { unfold d. transitivity (dot (vsub p x) n + dot (vsub x o) n); [clear; spec_unfold; ring|rewrite Hx; ring]. }
    rewrite E. eapply Rle_trans; [apply cauchy_norm|]. rewrite U. unfold dist. lra.
  - assumption.
  - vring.
Qed.
Lemma plane_side pl p x : on_plane (porg pl) (pnorm pl) x -> zPlane3DDistFromPoint pl p = dot (vsub p x) (pnorm pl).
Proof.
  intros Hx. unfold on_plane in Hx. unfold zPlane3DDistFromPoint. zvg.
  transitivity (dot (vsub p x) (pnorm pl) + dot (vsub x (porg pl)) (pnorm pl)); [clear; spec_unfold; ring|rewrite Hx; ring].
Qed.
(** the membership test measures the angle seen from the origin of the plane *)
Lemma plane_point_is_on pl p m : 
  zPlane3DPointIsOn pl p m = true <->
  negligible (vsub p (porg pl)) \/ (~ negligible (vsub p (porg pl)) /\ Rabs (zPlane3DDistFromPoint pl p) < m * dist p (porg pl)).
Proof.
  unfold zPlane3DPointIsOn, zPlane3DDistFromPoint. cbv zeta. zvg. set (t := vsub p (porg pl)). destruct (zVec3DIsTiny t) eqn:T.
  - apply zVec3DIsTiny_true in T. tauto.
  - apply zVec3DIsTiny_false in T. rewrite zIsTol_true, (normalizeDRC_ok t T). pose proof (nonneg_norm_pos t T) as P.
    rewrite dot_scale_l, Rabs_mult. rewrite (Rabs_pos_eq (1 / norm t)) by (apply Rlt_le, Rdiv_lt_0_compat; lra).
    unfold dist. fold t. set (a := Rabs (dot t (pnorm pl))). split.
    + intros H. right. split; [assumption|]. apply (Rmult_lt_compat_r (norm t)) in H; [|assumption].
      replace (1 / norm t * a * norm t) with a in H by (field; lra). assumption.
    + intros [H|[_ H]]; [contradiction|]. apply (Rmult_lt_reg_r (norm t)); [assumption|]. replace (1 / norm t * a * norm t) with a by (field; lra). assumption.
Qed.
Lemma plane_point_is_on_far : exists pl p m, norm (pnorm pl) = 1 /\ 0 < m /\
  zPlane3DPointIsOn pl p m = true /\ ~ Rabs (zPlane3DDistFromPoint pl p) < 1000 * m.
Proof.
  exists (P3 v3zero (V3 0 0 1)), (V3 1000000 0 1), (1 / 1000).
  split; [apply norm_unit; cbn [pnorm]; spec_unfold; ring|]. split; [lra|].
  assert (D : zPlane3DDistFromPoint (P3 v3zero (V3 0 0 1)) (V3 1000000 0 1) = 1) by (unfold zPlane3DDistFromPoint; zvg; cbn [porg pnorm]; spec_unfold; ring).
  split; [|rewrite D, Rabs_R1; lra].
  apply plane_point_is_on. right. rewrite D, Rabs_R1. cbn [porg].
  assert (N : 1000000 <= norm (vsub (V3 1000000 0 1) v3zero)).
  { pose proof (norm_ge_comp (vsub (V3 1000000 0 1) v3zero)) as (H & _ & _).
    assert (E : vx (vsub (V3 1000000 0 1) v3zero) = 1000000) by (spec_unfold; ring). rewrite E in H. rewrite Rabs_pos_eq in H; lra. }
  split; [apply long_not_negligible; pose proof zTOL_small; lra|]. unfold dist. lra.
Qed.

Lemma unit_cross_det n1 n2 : norm n1 = 1 -> norm n2 = 1 -> ~ negligible (cross n1 n2) -> 0 < 1 - dot n1 n2 * dot n1 n2.
Proof.
  intros U1 U2 H. apply norm_unit in U1. apply norm_unit in U2. pose proof (dot_pos_not_negl _ H) as P.
  assert (E : dot (cross n1 n2) (cross n1 n2) = dot n1 n1 * dot n2 n2 - dot n1 n2 * dot n1 n2) by (clear; spec_unfold; ring).
  rewrite E, U1, U2 in P. lra.
Qed.
Lemma plane_meet_line pl1 pl2 : norm (pnorm pl1) = 1 -> norm (pnorm pl2) = 1 -> ~ negligible (cross (pnorm pl1) (pnorm pl2)) ->
  exists p d, zIntersectPlane3D pl1 pl2 = MeetLine (Ended p) d /\ norm d = 1 /\
    forall x, (on_plane (porg pl1) (pnorm pl1) x /\ on_plane (porg pl2) (pnorm pl2) x) <-> on_line p d x.
Proof.
  intros U1 U2 HN. pose proof (unit_cross_det _ _ U1 U2 HN) as HD.
  unfold zIntersectPlane3D. cbv zeta. zvg. rewrite (proj2 (zVec3DIsTiny_false _) HN).
  destruct pl1 as [o1 n1], pl2 as [o2 n2]. cbn [porg pnorm] in *.
  set (n := dot n1 n2) in *. set (det := 2 * (1 - n * n)).
  set (k1 := (dot n1 (vsub o1 o2) + n * dot n2 (vsub o1 o2)) / det).
  set (k2 := - (n * dot n1 (vsub o1 o2) + dot n2 (vsub o1 o2)) / det).
  set (p := vadd (vadd (zVec3DMid o1 o2) (vscale k1 n1)) (vscale k2 n2)).
  destruct (line_create p (cross n1 n2) HN) as (l & El & Eo & Ul & Ed). rewrite El.
  apply norm_unit in U1. apply norm_unit in U2.
  exists p, (ldir l). split; [reflexivity|]. split; [assumption|].
  assert (Hdet : det <> 0) by (unfold det; lra).
  assert (Ek1 : k1 * det = dot n1 (vsub o1 o2) + n * dot n2 (vsub o1 o2)) by (unfold k1; field; assumption).
  assert (Ek2 : k2 * det = - (n * dot n1 (vsub o1 o2) + dot n2 (vsub o1 o2))) by (unfold k2; field; assumption).
  set (s1 := dot n1 (vsub o1 o2)) in *. set (s2 := dot n2 (vsub o1 o2)) in *.
  assert (P1 : on_plane o1 n1 p).
  { unfold on_plane. replace (dot (vsub p o1) n1) with (- s1 / 2 + k1 * dot n1 n1 + k2 * n)
      by (unfold p, s1, n, zVec3DMid; clearbody k1 k2; clear; spec_unfold; replace 0.5 with (/ 2) by lra; field).
    rewrite U1. apply (Rmult_eq_reg_r det); [|assumption]. replace ((- s1 / 2 + k1 * 1 + k2 * n) * det) with (- s1 / 2 * det + k1 * det + k2 * det * n) by ring.
    rewrite Ek1, Ek2. unfold det. field. }
  assert (P2 : on_plane o2 n2 p).
  { unfold on_plane. replace (dot (vsub p o2) n2) with (s2 / 2 + k1 * n + k2 * dot n2 n2)
      by (unfold p, s2, n, zVec3DMid; clearbody k1 k2; clear; spec_unfold; replace 0.5 with (/ 2) by lra; field).
    rewrite U2. apply (Rmult_eq_reg_r det); [|assumption]. replace ((s2 / 2 + k1 * n + k2 * 1) * det) with (s2 / 2 * det + k1 * det * n + k2 * det) by ring.
    rewrite Ek1, Ek2. unfold det. field. }
  clearbody p. clear k1 k2 Ek1 Ek2.
  pose proof (nonneg_norm_pos _ HN) as Cpos. set (g := norm (cross n1 n2)) in *.
  assert (D1 : dot (ldir l) n1 = 0).
  { apply (Rmult_eq_reg_l g); [|lra]. rewrite <- dot_scale_l, Ed, Rmult_0_r. clear. spec_unfold; ring. }
  assert (D2 : dot (ldir l) n2 = 0).
  { apply (Rmult_eq_reg_l g); [|lra]. rewrite <- dot_scale_l, Ed, Rmult_0_r. clear. spec_unfold; ring. }
  unfold on_plane in *. intros x. split.
  - intros [X1 X2]. set (w := vsub x p).
    assert (W1 : dot w n1 = 0). { unfold w. replace (dot (vsub x p) n1) with (dot (vsub x o1) n1 - dot (vsub p o1) n1) by (clear; spec_unfold; ring). rewrite X1, P1. ring. }
    assert (W2 : dot w n2 = 0). { unfold w. replace (dot (vsub x p) n2) with (dot (vsub x o2) n2 - dot (vsub p o2) n2) by (clear; spec_unfold; ring). rewrite X2, P2. ring. }
    exists (dot w (ldir l)).
    assert (T : cross (cross n1 n2) w = v3zero).
    { replace (cross (cross n1 n2) w) with (vsub (vscale (dot w n1) n2) (vscale (dot w n2) n1)) by (clearbody w; clear; vring). rewrite W1, W2. vring. }
    rewrite <- Ed in T. set (e := ldir l) in *. apply norm_unit in Ul.
    assert (T2 : cross e w = v3zero).
    { assert (TT : vscale g (cross e w) = v3zero) by (rewrite <- T; clearbody w; clear; vring).
      assert (T3 : vscale (1 / g) (vscale g (cross e w)) = cross e w) by (apply vec3_ext; clearbody w g; spec_unfold; field; lra).
      rewrite TT in T3. rewrite <- T3. clearbody g; clear; vring. }
    assert (Ew : w = vscale (dot w e) e).
    { assert (Q : vsub (vscale (dot e e) w) (vscale (dot w e) e) = cross (cross e w) e) by (clearbody w; clear; vring).
      rewrite T2, Ul in Q. replace (cross v3zero e) with v3zero in Q by (clearbody w; clear; vring).
      replace w with (vadd (vsub (vscale 1 w) (vscale (dot w e) e)) (vscale (dot w e) e)) at 1 by (clearbody w; clear; vring). rewrite Q. clearbody w; clear; vring. }
    rewrite <- Ew. unfold w. vring.
  - intros [t ->]. split.
    + replace (dot (vsub (vadd p (vscale t (ldir l))) o1) n1) with (dot (vsub p o1) n1 + t * dot (ldir l) n1) by (clear; spec_unfold; ring). rewrite P1, D1. ring.
    + replace (dot (vsub (vadd p (vscale t (ldir l))) o2) n2) with (dot (vsub p o2) n2 + t * dot (ldir l) n2) by (clear; spec_unfold; ring). rewrite P2, D2. ring.
Qed.
Lemma plane_meet_dangling pl1 pl2 o d : zIntersectPlane3D pl1 pl2 = MeetLine o d -> deref o = None.
Proof.
  unfold zIntersectPlane3D. cbv zeta. destruct (zVec3DIsTiny _); [destruct (zIsTiny _); discriminate|].
  destruct (zLine3DCreate _ _); intros E; injection E as <- <-; reflexivity.
Qed.
Lemma plane_meet_parallel pl1 pl2 : norm (pnorm pl1) = 1 -> norm (pnorm pl2) = 1 -> cross (pnorm pl1) (pnorm pl2) = v3zero ->
  (zIntersectPlane3D pl1 pl2 = MeetSame <-> Rabs (zPlane3DDistFromPoint pl2 (porg pl1)) < zTOL) /\
  (zIntersectPlane3D pl1 pl2 = MeetNone -> forall x, ~ (on_plane (porg pl1) (pnorm pl1) x /\ on_plane (porg pl2) (pnorm pl2) x)).
Proof.
  intros U1 U2 HC.
  assert (HP : pnorm pl1 = vscale (dot (pnorm pl1) (pnorm pl2)) (pnorm pl2)).
  { apply gramdet_parallel; try assumption.
    assert (E : gramdet (pnorm pl1) (pnorm pl2) = dot (cross (pnorm pl1) (pnorm pl2)) (cross (pnorm pl1) (pnorm pl2))) by (unfold gramdet; clear; spec_unfold; ring).
    rewrite E, HC. spec_unfold; ring. }
  set (k := dot (pnorm pl1) (pnorm pl2)) in *.
  assert (Hk : k * k = 1).
  { apply norm_unit in U1. apply norm_unit in U2. rewrite HP in U1. rewrite dot_scale_l, dot_scale_r, U2 in U1. lra. }
  assert (Hka : Rabs k = 1). { destruct (Rcase_abs k); [rewrite Rabs_left by assumption|rewrite Rabs_right by assumption]; nra. }
  unfold zIntersectPlane3D. cbv zeta. zvg. rewrite HC. rewrite (proj2 (zVec3DIsTiny_true v3zero) zero_negligible).
  assert (ED : dot (pnorm pl1) (vsub (porg pl1) (porg pl2)) = k * zPlane3DDistFromPoint pl2 (porg pl1)).
  { unfold zPlane3DDistFromPoint. zvg. rewrite HP at 1. rewrite dot_scale_l, dot_comm. reflexivity. }
  rewrite ED. set (h := zPlane3DDistFromPoint pl2 (porg pl1)) in *.
  destruct (zIsTiny (k * h)) eqn:T.
  - split; [|discriminate]. split; [intros _|reflexivity]. apply zIsTiny_true in T. rewrite Rabs_mult, Hka in T. lra.
  - apply zIsTiny_false in T. rewrite Rabs_mult, Hka in T. split; [split; [discriminate|intros; lra]|].
    intros _ x [X1 X2]. unfold on_plane in *. rewrite HP, dot_scale_r in X1.
    assert (Z1 : dot (vsub x (porg pl1)) (pnorm pl2) = 0). { apply Rmult_integral in X1. destruct X1 as [X1|X1]; [rewrite X1 in Hk; lra|assumption]. }
    assert (Z : h = 0). { unfold h, zPlane3DDistFromPoint. zvg.
      replace (dot (vsub (porg pl1) (porg pl2)) (pnorm pl2)) with (dot (vsub x (porg pl2)) (pnorm pl2) - dot (vsub x (porg pl1)) (pnorm pl2)) by (clear; spec_unfold; ring).
      rewrite X2, Z1. ring. }
    rewrite Z, Rabs_R0 in T. pose proof zTOL_pos. lra.
Qed.
