(** Proofs about the centres of triangles. *)
From Verif Require Import ModelElem FactsVec FactsAlg Facts2D FactsElem FactsTri FactsTri2 FactsLine.
Open Scope R_scope.

Lemma weighted_center v0 v1 v2 w0 w1 w2 : w0 + w1 + w2 <> 0 ->
  exists c, triWeightedCenter v0 v1 v2 w0 w1 w2 = Some c /\
    vsub c v0 = vadd (vscale (w1 / (w0 + w1 + w2)) (vsub v1 v0)) (vscale (w2 / (w0 + w1 + w2)) (vsub v2 v0)).
Proof.
  intros H. unfold triWeightedCenter. cbv zeta. destruct (Reqb_reflect (w0 + w1 + w2) 0); [contradiction|].
  eexists; split; [reflexivity|]. apply vec3_ext; spec_unfold; field; assumption.
Qed.
Lemma gram_normal v0 v1 v2 : gramdet (vsub v1 v0) (vsub v2 v0) = dot (tri_normal v0 v1 v2) (tri_normal v0 v1 v2).
Proof. unfold gramdet, tri_normal. spec_unfold; ring. Qed.
Lemma gram_pos v0 v1 v2 : tri_normal v0 v1 v2 <> v3zero -> 0 < gramdet (vsub v1 v0) (vsub v2 v0).
Proof.
  intros H. rewrite gram_normal. destruct (Rle_lt_or_eq_dec _ _ (dot_self_nonneg (tri_normal v0 v1 v2))) as [|Z]; [assumption|].
  exfalso; apply H. apply dot_self_zero. lra.
Qed.
Lemma in_plane_comb v0 v1 v2 a b : dot (vadd (vscale a (vsub v1 v0)) (vscale b (vsub v2 v0))) (tri_normal v0 v1 v2) = 0.
Proof. unfold tri_normal. spec_unfold; ring. Qed.

Lemma circum_ok v0 v1 v2 : tri_normal v0 v1 v2 <> v3zero ->
  exists c, triCircumcenter v0 v1 v2 = Some c /\ on_plane v0 (tri_normal v0 v1 v2) c /\ dist c v0 = dist c v1 /\ dist c v0 = dist c v2.
Proof.
  intros H. pose proof (gram_pos _ _ _ H) as G. unfold triCircumcenter. cbv zeta. zvg.
  set (e1 := vsub v1 v0) in *. set (e2 := vsub v2 v0) in *.
  assert (R0 : dot (vsub v2 v1) (vsub v2 v1) = dot e1 e1 + dot e2 e2 - 2 * dot e1 e2) by (unfold e1, e2; clear; spec_unfold; ring).
  assert (R1 : dot (vsub v0 v2) (vsub v0 v2) = dot e2 e2) by (unfold e2; clear; spec_unfold; ring).
  rewrite R0, R1. unfold gramdet in G.
  set (a := dot e1 e1) in *. set (b := dot e2 e2) in *. set (m := dot e1 e2) in *.
  set (w0 := (a + b - 2 * m) * (b + a - (a + b - 2 * m))). set (w1 := b * (a + (a + b - 2 * m) - b)). set (w2 := a * (a + b - 2 * m + b - a)).
  assert (S : w0 + w1 + w2 = 4 * (a * b - m * m)) by (unfold w0, w1, w2; ring).
  destruct (weighted_center v0 v1 v2 w0 w1 w2) as (c & E & Hc); [lra|].
  exists c. split; [exact E|]. rewrite S in Hc. fold e1 e2 in Hc.
  assert (Ew1 : w1 / (4 * (a * b - m * m)) = b * (a - m) / (2 * (a * b - m * m))) by (unfold w1; field; lra).
  assert (Ew2 : w2 / (4 * (a * b - m * m)) = a * (b - m) / (2 * (a * b - m * m))) by (unfold w2; field; lra).
  rewrite Ew1, Ew2 in Hc. set (x := b * (a - m) / (2 * (a * b - m * m))) in *. set (y := a * (b - m) / (2 * (a * b - m * m))) in *.
  assert (X1 : x * a + y * m = a / 2) by (unfold x, y; field; lra).
  assert (X2 : x * m + y * b = b / 2) by (unfold x, y; field; lra).
  clearbody x y. split; [unfold on_plane; rewrite Hc; apply in_plane_comb|].
  assert (D1 : dot (vsub c v0) e1 = a / 2). { rewrite Hc, dot_add_l, !dot_scale_l. fold a. rewrite (dot_comm e2 e1). fold m. exact X1. }
  assert (D2 : dot (vsub c v0) e2 = b / 2). { rewrite Hc, dot_add_l, !dot_scale_l. fold b m. exact X2. }
  split; unfold dist, norm; f_equal.
  - assert (EE : dot (vsub c v1) (vsub c v1) = dot (vsub c v0) (vsub c v0) - 2 * dot (vsub c v0) e1 + a) by (unfold a, e1; clear; spec_unfold; ring).
    rewrite EE, D1. lra.
  - assert (EE : dot (vsub c v2) (vsub c v2) = dot (vsub c v0) (vsub c v0) - 2 * dot (vsub c v0) e2 + b) by (unfold b, e2; clear; spec_unfold; ring).
    rewrite EE, D2. lra.
Qed.
Lemma circum_none v0 v1 v2 : triCircumcenter v0 v1 v2 = None <-> tri_normal v0 v1 v2 = v3zero.
Proof.
  split.
  - intros E. destruct (vec3_dec (tri_normal v0 v1 v2) v3zero) as [|N]; [assumption|]. destruct (circum_ok _ _ _ N) as (c & E' & _). congruence.
  - intros H. unfold triCircumcenter, triWeightedCenter. cbv zeta. zvg. match goal with |- context [Reqb ?z 0] => replace z with 0 end.
    { destruct (Reqb_reflect 0 0); [reflexivity|contradiction]. }
    transitivity (4 * gramdet (vsub v1 v0) (vsub v2 v0)); [rewrite gram_normal, H; spec_unfold; ring|unfold gramdet; clear; spec_unfold; ring].
Qed.
Lemma barycenter_ok t : exists c, zTri3DBarycenter t = Some c /\ vscale 3 c = vadd (vadd (tv0 t) (tv1 t)) (tv2 t).
Proof.
  unfold zTri3DBarycenter. destruct (div3_spec (zVec3DAdd (zVec3DAdd (tv0 t) (tv1 t)) (tv2 t)) 3) as [[Z _]|(_ & c & E & Hc)]; [lra|]. exists c. split; [exact E|exact Hc].
Qed.

Lemma foot_exists a d p : d <> v3zero -> exists f, nearest (on_line a d) p f /\ dist p f * norm d = norm (cross (vsub p a) d).
Proof.
  intros H. pose proof (norm_pos d H) as P. pose proof (norm_sqr d) as Q. set (k := dot (vsub p a) d / dot d d).
  assert (D : 0 < dot d d) by (rewrite <- Q; nra).
  exists (vadd a (vscale k d)).
  assert (O : dot (vsub p (vadd a (vscale k d))) d = 0).
  { replace (dot (vsub p (vadd a (vscale k d))) d) with (dot (vsub p a) d - k * dot d d) by (clearbody k; clear; spec_unfold; ring). unfold k. field. lra. }
  split; [split|].
  - exists k. reflexivity.
  - intros x [t ->]. apply norm_le_of_sqr.
    assert (E : dot (vsub p (vadd a (vscale t d))) (vsub p (vadd a (vscale t d))) =
       dot (vsub p (vadd a (vscale k d))) (vsub p (vadd a (vscale k d))) + 2 * (k - t) * dot (vsub p (vadd a (vscale k d))) d + (k - t) * (k - t) * dot d d)
      by (clearbody k; clear; spec_unfold; ring).
    rewrite E, O. assert (0 <= (k - t) * (k - t) * dot d d) by (apply Rmult_le_pos; [apply sqr_nonneg|lra]). lra.
  - unfold dist, norm. rewrite <- sqrt_mult by apply dot_self_nonneg. f_equal.
    assert (E : dot (cross (vsub p a) d) (cross (vsub p a) d) = dot (vsub p (vadd a (vscale k d))) (vsub p (vadd a (vscale k d))) * dot d d
        - dot (vsub p (vadd a (vscale k d))) d * dot (vsub p (vadd a (vscale k d))) d) by (clearbody k; clear; spec_unfold; ring).
    rewrite E, O. ring.
Qed.
Lemma normal_ne v0 v1 v2 : tri_normal v0 v1 v2 <> v3zero -> v1 <> v2 /\ v2 <> v0 /\ v0 <> v1.
Proof. intros H; repeat split; intros ->; apply H; unfold tri_normal; vring. Qed.
Lemma dist_pos a b : a <> b -> 0 < dist a b.
Proof. intros H. apply norm_pos. intros Z. apply H. apply (sub3_inj _ _ b). rewrite Z. vring. Qed.
Lemma pld_of a b p r : a <> b -> norm (cross (vsub p a) (vsub b a)) = r * dist a b -> point_line_dist a b p r.
Proof.
  intros N E. destruct (foot_exists a (vsub b a) p) as (f & Hf & Ef). { intros Z. apply N. symmetry. apply (sub3_inj _ _ a). rewrite Z. vring. }
  exists f. split; [assumption|]. rewrite E in Ef. fold (dist b a) in Ef. rewrite (dist_sym b a) in Ef. pose proof (dist_pos a b N).
  apply (Rmult_eq_reg_r (dist a b)); [assumption|lra].
Qed.
Lemma incenter_ok t : tri_normal (tv0 t) (tv1 t) (tv2 t) <> v3zero ->
  exists c r, zTri3DIncenter t = Some c /\ 0 < r /\ in_triangle (tv0 t) (tv1 t) (tv2 t) c /\
    point_line_dist (tv0 t) (tv1 t) c r /\ point_line_dist (tv1 t) (tv2 t) c r /\ point_line_dist (tv2 t) (tv0 t) c r.
Proof.
  destruct t as [v0 v1 v2 n]. cbn [tv0 tv1 tv2]. intros H. destruct (normal_ne _ _ _ H) as (N12 & N20 & N01).
  pose proof (norm_pos _ H) as HN. unfold zTri3DIncenter. cbn [tv0 tv1 tv2]. zvg.
  pose proof (dist_pos _ _ N12) as P0. pose proof (dist_pos _ _ N20) as P1. pose proof (dist_pos _ _ N01) as P2.
  set (a := dist v1 v2) in *. set (b := dist v2 v0) in *. set (g := dist v0 v1) in *. set (S := a + b + g).
  destruct (weighted_center v0 v1 v2 a b g) as (c & E & Hc); [lra|]. fold S in Hc. assert (HS : 0 < S) by (unfold S; lra).
  assert (Ec : c = comb3 (a / S) (b / S) (g / S) v0 v1 v2).
  { replace c with (vadd (vsub c v0) v0) by vring. rewrite Hc. assert (E1 : a / S = 1 - b / S - g / S) by (unfold S; field; unfold S in HS; lra).
    rewrite E1. cvring. }
  exists c, (norm (tri_normal v0 v1 v2) / S). split; [assumption|]. split; [apply Rdiv_lt_0_compat; assumption|]. split.
  { exists (a / S), (b / S), (g / S). split; [|assumption]. unfold weights3. repeat split; try (apply Rlt_le, Rdiv_lt_0_compat; assumption). unfold S. field. unfold S in HS. lra. }
  set (N := tri_normal v0 v1 v2) in *.
  assert (K : forall k, 0 < k -> norm (vscale k N) = k * norm N) by (intros k Hk; rewrite norm_scale, Rabs_pos_eq by lra; reflexivity).
  assert (Kn : forall k, 0 < k -> norm (vscale (- k) N) = k * norm N) by (intros k Hk; rewrite norm_scale, Rabs_Ropp, Rabs_pos_eq by lra; reflexivity).
  assert (Ha : 0 < a / S) by (apply Rdiv_lt_0_compat; assumption). assert (Hb : 0 < b / S) by (apply Rdiv_lt_0_compat; assumption). assert (Hg : 0 < g / S) by (apply Rdiv_lt_0_compat; assumption).
  assert (E1 : a / S = 1 - b / S - g / S) by (unfold S; field; unfold S in HS; lra).
  split; [|split]; apply pld_of; try assumption.
  - replace (cross (vsub c v0) (vsub v1 v0)) with (vscale (- (g / S)) N).
    + rewrite Kn by assumption. fold g. field. lra.
    + rewrite Hc. unfold N, tri_normal. vring.
  - replace (cross (vsub c v1) (vsub v2 v1)) with (vscale (- (a / S)) N).
    + rewrite Kn by assumption. fold a. field. lra.
    + rewrite Ec, E1. unfold N, tri_normal, comb3, comb2. vring.
  - replace (cross (vsub c v2) (vsub v0 v2)) with (vscale (- (b / S)) N).
    + rewrite Kn by assumption. fold b. field. lra.
    + rewrite Ec, E1. unfold N, tri_normal, comb3, comb2. vring.
Qed.
Lemma dist_eq_dot c a b : dist c a = dist c b -> dot (vsub c (vscale (1 / 2) (vadd a b))) (vsub a b) = 0.
Proof.
  intros H. assert (Q : dot (vsub c a) (vsub c a) = dot (vsub c b) (vsub c b)) by (rewrite <- !norm_sqr; unfold dist in H; rewrite H; reflexivity).
  assert (E : dot (vsub c (vscale (1 / 2) (vadd a b))) (vsub a b) = (dot (vsub c b) (vsub c b) - dot (vsub c a) (vsub c a)) / 2) by (clear; spec_unfold; field).
  rewrite E, Q. field.
Qed.
Lemma orthocenter_ok t : tri_normal (tv0 t) (tv1 t) (tv2 t) <> v3zero ->
  exists h, zTri3DOrthocenter t = Some h /\ on_plane (tv0 t) (tri_normal (tv0 t) (tv1 t) (tv2 t)) h /\
    dot (vsub h (tv0 t)) (vsub (tv1 t) (tv2 t)) = 0 /\ dot (vsub h (tv1 t)) (vsub (tv2 t) (tv0 t)) = 0 /\
    dot (vsub h (tv2 t)) (vsub (tv0 t) (tv1 t)) = 0.
Proof.
  destruct t as [v0 v1 v2 n]. cbn [tv0 tv1 tv2]. intros H. unfold zTri3DOrthocenter. cbn [tv0 tv1 tv2]. cbv zeta. zvg.
  set (e0 := vsub (vadd v0 v1) v2). set (e1 := vsub (vadd v1 v2) v0). set (e2 := vsub (vadd v2 v0) v1).
  assert (EN : tri_normal e0 e1 e2 = vscale 4 (tri_normal v0 v1 v2)) by (unfold e0, e1, e2, tri_normal; vring).
  destruct (circum_ok e0 e1 e2) as (h & E & Hp & H1 & H2).
  { rewrite EN. intros Z. apply H. replace (tri_normal v0 v1 v2) with (vscale (1 / 4) (vscale 4 (tri_normal v0 v1 v2))) by (apply vec3_ext; spec_unfold; field).
    rewrite Z. vring. }
  exists h. split; [exact E|]. rewrite EN in Hp. split.
  - unfold on_plane in *. rewrite dot_scale_r in Hp.
    assert (EE : dot (vsub h v0) (tri_normal v0 v1 v2) = dot (vsub h e0) (tri_normal v0 v1 v2)) by (unfold e0, tri_normal; clear; spec_unfold; ring).
    rewrite EE. lra.
  - apply dist_eq_dot in H1 as G01. apply dist_eq_dot in H2 as G02. assert (H12 : dist h e1 = dist h e2) by congruence. apply dist_eq_dot in H12 as G12.
    repeat split.
    + apply (Rmult_eq_reg_l 2); [|lra]. rewrite Rmult_0_r, <- G02. unfold e0, e2. clear. spec_unfold. field.
    + apply (Rmult_eq_reg_l (-2)); [|lra]. rewrite Rmult_0_r, <- G01. unfold e0, e1. clear. spec_unfold. field.
    + apply (Rmult_eq_reg_l (-2)); [|lra]. rewrite Rmult_0_r, <- G12. unfold e1, e2. clear. spec_unfold. field.
Qed.
(** circumcentre of the tetrahedron spanned by the origin *)
Lemma cone_circum t : det3v (tv0 t) (tv1 t) (tv2 t) <> 0 ->
  exists c, zTri3DConeCircumcenter t = Some c /\ dist c v3zero = dist c (tv0 t) /\ dist c v3zero = dist c (tv1 t) /\ dist c v3zero = dist c (tv2 t).
Proof.
  destruct t as [v0 v1 v2 n]. cbn [tv0 tv1 tv2]. intros H. unfold zTri3DConeCircumcenter. cbv zeta. cbn [tv0 tv1 tv2]. zvg.
  set (w := vadd (vadd (vadd v3zero (vscale (dot v0 v0) (cross v1 v2))) (vscale (dot v1 v1) (cross v2 v0))) (vscale (dot v2 v2) (cross v0 v1))).
  set (g := det3v v0 v1 v2) in *.
  destruct (div3_spec w (2 * g)) as [[Z _]|(_ & c & E & Hc)]; [lra|]. exists c. split; [exact E|].
  assert (K : forall x, dot w x = 2 * g * dot c x) by (intros x; rewrite <- Hc, dot_scale_l; reflexivity).
  assert (G : forall x, dot w x = g * dot x x -> dist c v3zero = dist c x).
  { intros x Hx. rewrite K in Hx. assert (Q : 2 * dot c x = dot x x) by (apply (Rmult_eq_reg_l g); [lra|assumption]).
    unfold dist, norm. f_equal. rewrite !dot_vsub_expand. replace (dot c v3zero) with 0 by (spec_unfold; ring). replace (dot v3zero v3zero) with 0 by (spec_unfold; ring). lra. }
  repeat split; apply G; unfold w, g; clear; spec_unfold; ring.
Qed.

(** ** 2D centres by embedding in the plane z = 0 *)
Definition emb (v : vec2) : vec3 := V3 (x2 v) (y2 v) 0.
Lemma emb_sub a b : vsub (emb a) (emb b) = emb (vsub2 a b). Proof. apply vec3_ext; unfold emb; spec_unfold; pcbn; unfold vsub2; pcbn; ring. Qed.
Lemma emb_add a b : vadd (emb a) (emb b) = emb (vadd2 a b). Proof. apply vec3_ext; unfold emb; spec_unfold; pcbn; unfold vadd2; pcbn; ring. Qed.
Lemma emb_scale k a : vscale k (emb a) = emb (vscale2 k a). Proof. apply vec3_ext; unfold emb; spec_unfold; pcbn; unfold vscale2; pcbn; ring. Qed.
Lemma emb_dot a b : dot (emb a) (emb b) = dot2 a b. Proof. unfold emb, dot, dot2; pcbn; ring. Qed.
Lemma emb_dist a b : dist (emb a) (emb b) = dist2 a b. Proof. unfold dist, norm. rewrite emb_sub, emb_dot. reflexivity. Qed.
Lemma emb_inj a b : emb a = emb b -> a = b. Proof. unfold emb. intros H. injection H; intros. apply vec2_ext; assumption. Qed.
Lemma emb_normal a b c : tri_normal (emb a) (emb b) (emb c) = V3 0 0 (area2 a b c).
Proof. unfold tri_normal, area2, cross2. rewrite !emb_sub. unfold emb. apply vec3_ext; spec_unfold; pcbn; ring. Qed.
Lemma emb_normal_ne a b c : area2 a b c <> 0 -> tri_normal (emb a) (emb b) (emb c) <> v3zero.
Proof. intros H. rewrite emb_normal. intros Z. injection Z. assumption. Qed.
Lemma emb_weighted v0 v1 v2 a b c : triWeightedCenter (emb v0) (emb v1) (emb v2) a b c = option_map emb (triWeightedCenter2 v0 v1 v2 a b c).
Proof.
  unfold triWeightedCenter, triWeightedCenter2. cbv zeta. destruct (Reqb_reflect (a + b + c) 0); [reflexivity|]. cbn [option_map]. f_equal.
  unfold emb. pcbn. f_equal. field. assumption.
Qed.
Lemma emb_circum v0 v1 v2 : triCircumcenter (emb v0) (emb v1) (emb v2) = option_map emb (triCircumcenter2 v0 v1 v2).
Proof. unfold triCircumcenter, triCircumcenter2. cbv zeta. zvg. rewrite !emb_sub, !emb_dot. apply emb_weighted. Qed.
Lemma circum2_ok v0 v1 v2 : area2 v0 v1 v2 <> 0 ->
  exists c, triCircumcenter2 v0 v1 v2 = Some c /\ dist2 c v0 = dist2 c v1 /\ dist2 c v0 = dist2 c v2.
Proof.
  intros H. destruct (circum_ok _ _ _ (emb_normal_ne _ _ _ H)) as (c & E & _ & H1 & H2). rewrite emb_circum in E.
  destruct (triCircumcenter2 v0 v1 v2) as [c'|]; [|discriminate]. injection E as <-. rewrite !emb_dist in *. exists c'. auto.
Qed.
Lemma orthocenter2_ok t : area2 (tw0 t) (tw1 t) (tw2 t) <> 0 ->
  exists h, zTri2DOrthocenter t = Some h /\
    dot2 (vsub2 h (tw0 t)) (vsub2 (tw1 t) (tw2 t)) = 0 /\ dot2 (vsub2 h (tw1 t)) (vsub2 (tw2 t) (tw0 t)) = 0 /\
    dot2 (vsub2 h (tw2 t)) (vsub2 (tw0 t) (tw1 t)) = 0.
Proof.
  intros H. destruct (orthocenter_ok (T3 (emb (tw0 t)) (emb (tw1 t)) (emb (tw2 t)) v3zero)) as (h & E & _ & H1 & H2 & H3); [apply emb_normal_ne; assumption|].
  unfold zTri3DOrthocenter in E. cbv zeta in E. cbn [tv0 tv1 tv2] in *.
  change (triCircumcenter (vsub (vadd (emb (tw0 t)) (emb (tw1 t))) (emb (tw2 t))) (vsub (vadd (emb (tw1 t)) (emb (tw2 t))) (emb (tw0 t)))
     (vsub (vadd (emb (tw2 t)) (emb (tw0 t))) (emb (tw1 t))) = Some h) in E.
  rewrite !emb_add, !emb_sub, emb_circum in E. unfold zTri2DOrthocenter. cbv zeta. zvg.
  destruct (triCircumcenter2 _ _ _) as [c|]; [|discriminate]. injection E as <-. exists c. rewrite !emb_sub, !emb_dot in *. auto.
Qed.
Lemma emb_triangle a b c p : in_triangle (emb a) (emb b) (emb c) (emb p) -> in_triangle2 a b c p.
Proof.
  intros (s0 & s1 & s2 & Hw & E). exists s0, s1, s2. split; [assumption|]. apply emb_inj. rewrite E. unfold comb3, comb2, comb3_2, comb2_2.
  rewrite !emb_scale, !emb_add. reflexivity.
Qed.
Lemma emb_pld a b p r : point_line_dist (emb a) (emb b) (emb p) r -> point_line_dist2 a b p r.
Proof.
  intros (f & [[t Hf] Hm] & Hd). rewrite emb_sub, emb_scale, emb_add in Hf. subst f. exists (vadd2 a (vscale2 t (vsub2 b a))).
  rewrite emb_dist in Hd. split; [|assumption]. split; [exists t; reflexivity|]. intros x [s ->].
  specialize (Hm (emb (vadd2 a (vscale2 s (vsub2 b a))))). rewrite !emb_dist in Hm. apply Hm. exists s. rewrite emb_sub, emb_scale, emb_add. reflexivity.
Qed.
Lemma incenter2_ok t : area2 (tw0 t) (tw1 t) (tw2 t) <> 0 ->
  exists c r, zTri2DIncenter t = Some c /\ 0 < r /\ in_triangle2 (tw0 t) (tw1 t) (tw2 t) c /\
    point_line_dist2 (tw0 t) (tw1 t) c r /\ point_line_dist2 (tw1 t) (tw2 t) c r /\ point_line_dist2 (tw2 t) (tw0 t) c r.
Proof.
  intros H. destruct (incenter_ok (T3 (emb (tw0 t)) (emb (tw1 t)) (emb (tw2 t)) v3zero)) as (c & r & E & Hr & Hi & H1 & H2 & H3); [apply emb_normal_ne; assumption|].
  cbn [tv0 tv1 tv2] in *. unfold zTri3DIncenter in E. cbn [tv0 tv1 tv2] in E.
  change (triWeightedCenter (emb (tw0 t)) (emb (tw1 t)) (emb (tw2 t)) (dist (emb (tw1 t)) (emb (tw2 t))) (dist (emb (tw2 t)) (emb (tw0 t)))
           (dist (emb (tw0 t)) (emb (tw1 t))) = Some c) in E.
  rewrite !emb_dist, emb_weighted in E. unfold zTri2DIncenter. zvg.
  destruct (triWeightedCenter2 _ _ _ _ _ _) as [c'|]; [|discriminate]. injection E as <-. exists c', r.
  split; [reflexivity|]. split; [assumption|]. split; [apply emb_triangle; assumption|]. split; [|split]; apply emb_pld; assumption.
Qed.
Lemma barycenter2_ok t : exists c, zTri2DBarycenter t = Some c /\ vscale2 3 c = vadd2 (vadd2 (tw0 t) (tw1 t)) (tw2 t).
Proof.
  unfold zTri2DBarycenter. destruct (div2_spec (zVec2DAdd (zVec2DAdd (tw0 t) (tw1 t)) (tw2 t)) 3) as [[Z _]|(_ & c & E & Hc)]; [lra|]. exists c. split; [exact E|exact Hc].
Qed.
(** nearest vertices *)
Lemma tri_contig t p v d : zTri3DContigVert t p = (v, d) ->
  (v = tv0 t \/ v = tv1 t \/ v = tv2 t) /\ d = dist p v /\ d <= dist p (tv0 t) /\ d <= dist p (tv1 t) /\ d <= dist p (tv2 t).
Proof.
  unfold zTri3DContigVert. cbv zeta. zvg.
  assert (M : forall a b : vec3, dot (vsub p a) (vsub p a) <= dot (vsub p b) (vsub p b) -> dist p a <= dist p b) by (intros; apply sqrt_le_1_alt; assumption).
  repeat (match goal with |- context [Rleb ?a ?b] => destruct (Rleb_reflect a b) end); intros E; injection E as <- <-;
    (split; [auto|]); (split; [reflexivity|]); repeat split; apply M; lra.
Qed.
Lemma edge_contig e p v d : zEdge3DContigVert e p = (v, d) ->
  (v = ev0 e \/ v = ev1 e) /\ d = dist p v /\ d <= dist p (ev0 e) /\ d <= dist p (ev1 e).
Proof.
  unfold zEdge3DContigVert. cbv zeta. zvg.
  assert (M : forall a b : vec3, dot (vsub p a) (vsub p a) <= dot (vsub p b) (vsub p b) -> dist p a <= dist p b) by (intros; apply sqrt_le_1_alt; assumption).
  repeat (match goal with |- context [Rleb ?a ?b] => destruct (Rleb_reflect a b) end); intros E; injection E as <- <-;
    (split; [auto|]); (split; [reflexivity|]); repeat split; apply M; lra.
Qed.
(** margin tests built on the closest points *)
Lemma margin_test (S : vec3 -> Prop) p cp m : nearest S p cp -> Rltb (dist p cp) m = true <-> exists x, S x /\ dist p x < m.
Proof.
  intros [Hs Hm]. destruct (Rltb_reflect (dist p cp) m) as [L|L]; split; intros H; try discriminate.
  - exists cp; auto. - reflexivity. - destruct H as (x & Hx & Hd). specialize (Hm x Hx). lra.
Qed.
Lemma edge3_point_is_on e p m : ev0 e <> ev1 e ->
  zEdge3DPointIsOn e p m = true <-> exists x, segment (ev0 e) (ev1 e) x /\ dist p x < m.
Proof.
  intros H. destruct (edge3_closest e p H) as (d & cp & E & Hn & ->). unfold zEdge3DPointIsOn. rewrite E. apply margin_test. assumption.
Qed.
Lemma tri3_point_is_inside t p m : ~ negligible (tri_normal (tv0 t) (tv1 t) (tv2 t)) ->
  zTri3DPointIsInside t p m = true <-> exists x, in_triangle (tv0 t) (tv1 t) (tv2 t) x /\ dist p x < m.
Proof.
  intros H. destruct (tri3_closest t p (or_introl H)) as (d & cp & E & Hn & ->). unfold zTri3DPointIsInside. rewrite E. apply margin_test. assumption.
Qed.
Lemma edge3_from_origin v0 v1 : v0 <> v1 ->
  exists d s0 s1 cp, zEdge3DClosestFromOrigin v0 v1 = Some (d, s0, s1, cp) /\
    weights2 s0 s1 /\ cp = comb2 s0 s1 v0 v1 /\ d = norm cp /\ forall x, segment v0 v1 x -> norm cp <= norm x.
Proof. intros H. destruct (edge3_ok v0 v1 H) as ([[[d s0] s1] cp] & E & G). exists d, s0, s1, cp. split; [exact E|exact G]. Qed.
Lemma edge2_from_origin v0 v1 : v0 <> v1 ->
  exists d s0 s1 cp, zEdge2DClosestFromOrigin v0 v1 = Some (d, s0, s1, cp) /\
    weights2 s0 s1 /\ cp = comb2_2 s0 s1 v0 v1 /\ d = norm_2 cp /\ forall x, segment2 v0 v1 x -> norm_2 cp <= norm_2 x.
Proof. intros H. destruct (edge2_ok v0 v1 H) as ([[[d s0] s1] cp] & E & G). exists d, s0, s1, cp. split; [exact E|exact G]. Qed.
Lemma tri3_from_origin v0 v1 v2 : ~ negligible (tri_normal v0 v1 v2) ->
  exists d a b c cp, zTri3DClosestFromOrigin v0 v1 v2 = Some (d, (a, b, c, cp)) /\
    weights3 a b c /\ cp = comb3 a b c v0 v1 v2 /\ d = norm cp /\ forall x, in_triangle v0 v1 v2 x -> d <= norm x.
Proof.
  intros H. destruct (tri3_all v0 v1 v2 (or_introl H)) as ([d [[[a b] c] cp]] & E & (G1 & G2 & G3) & M). exists d, a, b, c, cp.
  split; [exact E|]. split; [exact G1|]. split; [exact G2|]. split; [exact G3|exact M].
Qed.
Lemma tri2_from_origin v0 v1 v2 : area2 v0 v1 v2 <> 0 ->
  exists d a b c cp, zTri2DClosestFromOrigin v0 v1 v2 = Some (d, (a, b, c, cp)) /\
    weights3 a b c /\ cp = comb3_2 a b c v0 v1 v2 /\ d = norm_2 cp /\ forall x, in_triangle2 v0 v1 v2 x -> d <= norm_2 x.
Proof.
  intros H. destruct (tri2_ok v0 v1 v2 H) as ([d [[[a b] c] cp]] & E & (G1 & G2 & G3) & M). exists d, a, b, c, cp.
  split; [exact E|]. split; [exact G1|]. split; [exact G2|]. split; [exact G3|exact M].
Qed.
Lemma tetra_from_origin v0 v1 v2 v3 : good_tetra v0 v1 v2 v3 ->
  exists d a b c e cp, zTetra3DClosestFromOrigin v0 v1 v2 v3 = Some (d, (a, b, c, e, cp)) /\
    weights4 a b c e /\ cp = comb4 a b c e v0 v1 v2 v3 /\ d = norm cp /\ forall x, in_tetra v0 v1 v2 v3 x -> d <= norm x.
Proof.
  intros H. destruct (tetra_ok v0 v1 v2 v3 H) as ([d [[[[a b] c] e] cp]] & E & (G1 & G2 & G3) & M). exists d, a, b, c, e, cp.
  split; [exact E|]. split; [exact G1|]. split; [exact G2|]. split; [exact G3|exact M].
Qed.
Lemma tri_creation v0 v1 v2 : let n := tri_normal v0 v1 v2 in
  (negligible n -> fst (zTri3DCreate v0 v1 v2) = false) /\
  (~ negligible n -> exists t, zTri3DCreate v0 v1 v2 = (true, t) /\ tv0 t = v0 /\ tv1 t = v1 /\ tv2 t = v2 /\
     norm (tnorm t) = 1 /\ vscale (norm n) (tnorm t) = n /\ zTri3DArea t = norm n / 2 /\
     forall p, zTri3DDistFromPointToPlane t p = dot (vsub p v0) (tnorm t)).
Proof.
  cbv zeta. unfold zTri3DCreate. cbv zeta.
  change (triOuterProd v0 v1 v2) with (cross (vsub v1 v0) (vsub v2 v1)). rewrite tri_normal_alt. split; intros H.
  - apply zVec3DIsTiny_true in H as T. rewrite T. reflexivity.
  - apply zVec3DIsTiny_false in H as T. rewrite T. pose proof (nonneg_norm_pos _ H) as P. rewrite normalizeDRC_ok by assumption. eexists. split; [reflexivity|]. cbn [tv0 tv1 tv2 tnorm].
    repeat split; try reflexivity.
    + rewrite norm_scale. rewrite Rabs_pos_eq; [field; lra|]. apply Rlt_le, Rdiv_lt_0_compat; lra.
    + apply vec3_ext; unfold vscale; pcbn; field; lra.
    + unfold zTri3DArea. cbn [tv0 tv1 tv2]. change (triOuterProd v0 v1 v2) with (cross (vsub v1 v0) (vsub v2 v1)). rewrite tri_normal_alt. zvg. lra.
    + intros p. unfold zTri3DDistFromPointToPlane. cbn [tv0 tv1 tv2 tnorm]. zvg. rewrite !dot_scale_r.
      assert (E1 : dot (vsub p v1) (tri_normal v0 v1 v2) = dot (vsub p v0) (tri_normal v0 v1 v2)) by (unfold tri_normal; clear; spec_unfold; ring).
      assert (E2 : dot (vsub p v2) (tri_normal v0 v1 v2) = dot (vsub p v0) (tri_normal v0 v1 v2)) by (unfold tri_normal; clear; spec_unfold; ring).
      rewrite E1, E2. field. lra.
Qed.
Lemma tri3_none t p : zTri3DClosest t p = None <-> tv0 t = tv1 t /\ tv1 t = tv2 t.
Proof.
  split.
  - intros E. destruct (vec3_dec (tv0 t) (tv1 t)) as [A|A]; [destruct (vec3_dec (tv1 t) (tv2 t)) as [B|B]; [auto|]|];
      exfalso; (destruct (zVec3DIsTiny (tri_normal (tv0 t) (tv1 t) (tv2 t))) eqn:T;
        [apply zVec3DIsTiny_true in T; destruct (tri3_sliver t p T) as (d & cp & E' & _); [tauto|congruence]
        |apply zVec3DIsTiny_false in T; destruct (tri3_closest t p (or_introl T)) as (d & cp & E' & _); congruence]).
  - destruct t as [v0 v1 v2 n]; cbn [tv0 tv1 tv2]. intros [-> ->]. apply tri3_point.
Qed.
