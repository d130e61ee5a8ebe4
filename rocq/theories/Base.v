(** Reals, boolean comparisons, tolerance, atan2: the ground layer of the model.

    [double] of the C code is idealised as a mathematical real.  The comparison
    operators of C become boolean functions with reflection lemmas. *)
From Coq Require Export Reals Bool List ZArith Lia Lra Psatz.
Export ListNotations.
Open Scope R_scope.

Definition Rltb (a b : R) : bool := if Rlt_dec a b then true else false.
Definition Rleb (a b : R) : bool := if Rle_dec a b then true else false.
Definition Reqb (a b : R) : bool := if Req_EM_T a b then true else false.

Lemma Rltb_reflect a b : reflect (a < b) (Rltb a b).
Proof. unfold Rltb; destruct (Rlt_dec a b); constructor; assumption. Qed.
Lemma Rleb_reflect a b : reflect (a <= b) (Rleb a b).
Proof. unfold Rleb; destruct (Rle_dec a b); constructor; assumption. Qed.
Lemma Reqb_reflect a b : reflect (a = b) (Reqb a b).
Proof. unfold Reqb; destruct (Req_EM_T a b); constructor; assumption. Qed.

Lemma Rltb_true a b : Rltb a b = true <-> a < b.
Proof. destruct (Rltb_reflect a b); split; intros; try congruence; auto; contradiction. Qed.
Lemma Rltb_false a b : Rltb a b = false <-> b <= a.
Proof. destruct (Rltb_reflect a b); split; intros; try congruence; lra. Qed.
Lemma Rleb_true a b : Rleb a b = true <-> a <= b.
Proof. destruct (Rleb_reflect a b); split; intros; try congruence; auto; contradiction. Qed.
Lemma Rleb_false a b : Rleb a b = false <-> b < a.
Proof. destruct (Rleb_reflect a b); split; intros; try congruence; lra. Qed.
Lemma Reqb_true a b : Reqb a b = true <-> a = b.
Proof. destruct (Reqb_reflect a b); split; intros; try congruence; auto; contradiction. Qed.
Lemma Reqb_false a b : Reqb a b = false <-> a <> b.
Proof. destruct (Reqb_reflect a b); split; intros; try congruence; auto; contradiction. Qed.

(** destruct one comparison of the goal or of a hypothesis *)
Ltac rcase1 :=
  match goal with
  | |- context [Rltb ?a ?b] => destruct (Rltb_reflect a b)
  | |- context [Rleb ?a ?b] => destruct (Rleb_reflect a b)
  | |- context [Reqb ?a ?b] => destruct (Reqb_reflect a b)
  | H : context [Rltb ?a ?b] |- _ => destruct (Rltb_reflect a b)
  | H : context [Rleb ?a ?b] |- _ => destruct (Rleb_reflect a b)
  | H : context [Reqb ?a ?b] |- _ => destruct (Reqb_reflect a b)
  end.

(** ZM (zm/zm_misc.h, not in the repo): [zTOL] is 1.0e-12,
    [zIsTol(x,tol)] is [fabs(x) < tol], [zIsTiny(x)] is [zIsTol(x,zTOL)]. *)
Definition zTOL : R := / (10 ^ 12).
Lemma zTOL_pos : 0 < zTOL.
Proof. unfold zTOL; apply Rinv_0_lt_compat; apply pow_lt; lra. Qed.
Lemma zTOL_small : zTOL < / 1000000.
Proof. unfold zTOL. apply Rinv_lt_contravar; simpl; nra. Qed.
Global Opaque zTOL.

Definition zIsTol (x tol : R) : bool := Rltb (Rabs x) tol.
Definition zIsTiny (x : R) : bool := zIsTol x zTOL.

Lemma zIsTol_true x t : zIsTol x t = true <-> Rabs x < t.
Proof. apply Rltb_true. Qed.
Lemma zIsTol_false x t : zIsTol x t = false <-> t <= Rabs x.
Proof. apply Rltb_false. Qed.
Lemma zIsTiny_true x : zIsTiny x = true <-> Rabs x < zTOL.
Proof. apply Rltb_true. Qed.
Lemma zIsTiny_false x : zIsTiny x = false <-> zTOL <= Rabs x.
Proof. apply Rltb_false. Qed.
Lemma zIsTiny_0 : zIsTiny 0 = true.
Proof. apply zIsTiny_true. rewrite Rabs_R0. apply zTOL_pos. Qed.
Lemma zIsTiny_false_neq x : zIsTiny x = false -> x <> 0.
Proof. intros H ->. rewrite zIsTiny_0 in H; discriminate. Qed.

Definition zSqr (x : R) : R := x * x.

(** ZM: zMin, zMax, zLimit(v,min,max) = zMin(zMax(v,min),max) *)
Definition zMax (a b : R) : R := if Rltb b a then a else b.
Definition zMin (a b : R) : R := if Rltb a b then a else b.
Definition zLimit (v mn mx : R) : R := zMin (zMax v mn) mx.

(** C library atan2 (no signed zeros: atan2(0,0) = 0, and atan2(0,x) = PI for
    x < 0). *)
Definition atan2 (y x : R) : R :=
  if Rltb 0 x then atan (y / x)
  else if Rltb x 0 then (if Rltb y 0 then atan (y / x) - PI else atan (y / x) + PI)
  else if Rltb 0 y then PI / 2
  else if Rltb y 0 then - (PI / 2)
  else 0.

(** basic real-number lemmas *)

Lemma sqr_nonneg (x : R) : 0 <= x * x.
Proof. nra. Qed.

Lemma sum2_sqr_zero x y : x * x + y * y = 0 -> x = 0 /\ y = 0.
Proof. intros; split; nra. Qed.
Lemma sum3_sqr_zero x y z : x * x + y * y + z * z = 0 -> x = 0 /\ y = 0 /\ z = 0.
Proof. intros; repeat split; nra. Qed.

Lemma sqrt_sqr' x : 0 <= x -> sqrt x * sqrt x = x.
Proof. apply sqrt_sqrt. Qed.

Lemma sqrt_pos_lt x : 0 < x -> 0 < sqrt x.
Proof. apply sqrt_lt_R0. Qed.

Lemma sqrt_unique x y : 0 <= y -> y * y = x -> sqrt x = y.
Proof. intros Hy <-. apply sqrt_square; assumption. Qed.

Lemma sqrt_eq_0' x : 0 <= x -> sqrt x = 0 -> x = 0.
Proof. intros; apply sqrt_eq_0; auto. Qed.

Lemma cos2_sin2 t : cos t * cos t + sin t * sin t = 1.
Proof. pose proof (sin2_cos2 t) as H. unfold Rsqr in H. lra. Qed.
Lemma sin2_cos2' t : sin t * sin t = 1 - cos t * cos t.
Proof. pose proof (cos2_sin2 t). lra. Qed.

Lemma cos_atan_pos t : 0 < cos (atan t).
Proof.
  apply cos_gt_0; destruct (atan_bound t); lra.
Qed.

Lemma tan_atan_sc t : sin (atan t) = t * cos (atan t).
Proof.
  pose proof (cos_atan_pos t) as Hc.
  pose proof (tan_atan t) as Ht. unfold tan in Ht.
  assert (E : sin (atan t) = sin (atan t) / cos (atan t) * cos (atan t)) by (field; lra).
  rewrite E at 1. rewrite Ht. reflexivity.
Qed.

Lemma cos_atan_inv t : cos (atan t) = / sqrt (1 + t * t).
Proof.
  pose proof (cos_atan_pos t) as Hc.
  pose proof (tan_atan_sc t) as Hs.
  pose proof (cos2_sin2 (atan t)) as H.
  rewrite Hs in H.
  assert (Hp : 0 < sqrt (1 + t * t)) by (apply sqrt_lt_R0; nra).
  assert (Hq : sqrt (1 + t * t) * sqrt (1 + t * t) = 1 + t * t) by (apply sqrt_sqrt; nra).
  assert (Hm : (cos (atan t) * sqrt (1 + t * t)) * (cos (atan t) * sqrt (1 + t * t)) = 1).
  { transitivity (cos (atan t) * cos (atan t) * (sqrt (1 + t * t) * sqrt (1 + t * t))); [ring|].
    rewrite Hq. transitivity (cos (atan t) * cos (atan t) + t * cos (atan t) * (t * cos (atan t))); [ring|exact H]. }
  assert (Hpp : 0 < cos (atan t) * sqrt (1 + t * t)) by (apply Rmult_lt_0_compat; assumption).
  assert (cos (atan t) * sqrt (1 + t * t) = 1) by nra.
  apply (Rmult_eq_reg_r (sqrt (1 + t * t))); [|lra].
  rewrite Rinv_l; lra.
Qed.

(** hypot *)
Definition hyp (x y : R) : R := sqrt (x * x + y * y).
Lemma hyp_nonneg x y : 0 <= hyp x y.
Proof. apply sqrt_pos. Qed.
Lemma hyp_sqr x y : hyp x y * hyp x y = x * x + y * y.
Proof. apply sqrt_sqrt; nra. Qed.
Lemma hyp_pos x y : x <> 0 \/ y <> 0 -> 0 < hyp x y.
Proof. intros H. apply sqrt_lt_R0. destruct H; nra. Qed.

Lemma hyp_scale x y : x <> 0 -> hyp x y = Rabs x * sqrt (1 + (y / x) * (y / x)).
Proof.
  intros Hx. unfold hyp.
  replace (x * x + y * y) with ((x * x) * (1 + (y/x)*(y/x))) by (field; auto).
  pose proof (sqr_nonneg (y/x)). pose proof (sqr_nonneg x).
  rewrite sqrt_mult; try lra.
  rewrite <- (sqrt_Rsqr_abs x). reflexivity.
Qed.

(** the polar-coordinate characterisation of atan2 *)
Lemma atan2_polar y x :
  x = hyp x y * cos (atan2 y x) /\ y = hyp x y * sin (atan2 y x).
Proof.
  unfold atan2.
  destruct (Rltb_reflect 0 x) as [Hx|Hx].
  - rewrite hyp_scale by lra.
    rewrite tan_atan_sc, cos_atan_inv.
    assert (Hp : 0 < sqrt (1 + y / x * (y / x))) by (apply sqrt_lt_R0; pose proof (sqr_nonneg (y/x)); lra).
    rewrite Rabs_right by lra. split; field; lra.
  - destruct (Rltb_reflect x 0) as [Hx'|Hx'].
    + rewrite hyp_scale by lra.
      assert (Hp : 0 < sqrt (1 + y / x * (y / x))) by (apply sqrt_lt_R0; pose proof (sqr_nonneg (y/x)); lra).
      rewrite Rabs_left by lra.
      destruct (Rltb_reflect y 0) as [Hy|Hy].
      * rewrite cos_minus, sin_minus, cos_PI, sin_PI.
        rewrite tan_atan_sc, cos_atan_inv. split; field; lra.
      * rewrite neg_cos, neg_sin. rewrite tan_atan_sc, cos_atan_inv. split; field; lra.
    + assert (x = 0) by lra; subst x. unfold hyp.
      destruct (Rltb_reflect 0 y) as [Hy|Hy].
      * rewrite cos_PI2, sin_PI2. replace (0*0+y*y) with (y*y) by ring.
        rewrite sqrt_square by lra. split; ring.
      * destruct (Rltb_reflect y 0) as [Hy'|Hy'].
        -- rewrite cos_neg, sin_neg, cos_PI2, sin_PI2.
           replace (0*0+y*y) with ((-y)*(-y)) by ring.
           rewrite sqrt_square by lra. split; ring.
        -- assert (y = 0) by lra; subst y.
           replace (0*0+0*0) with 0 by ring. rewrite sqrt_0, sin_0. split; ring.
Qed.

Lemma atan2_cos y x : x <> 0 \/ y <> 0 -> cos (atan2 y x) = x / hyp x y.
Proof.
  intros H. pose proof (hyp_pos x y H). destruct (atan2_polar y x) as [Hx _].
  apply (Rmult_eq_reg_l (hyp x y)); [|lra]. rewrite <- Hx. field; lra.
Qed.
Lemma atan2_sin y x : x <> 0 \/ y <> 0 -> sin (atan2 y x) = y / hyp x y.
Proof.
  intros H. pose proof (hyp_pos x y H). destruct (atan2_polar y x) as [_ Hy].
  apply (Rmult_eq_reg_l (hyp x y)); [|lra]. rewrite <- Hy. field; lra.
Qed.

Lemma atan2_cos_unit y x : x * x + y * y = 1 -> cos (atan2 y x) = x.
Proof.
  intros H. destruct (atan2_polar y x) as [Hx _].
  unfold hyp in Hx. rewrite H, sqrt_1 in Hx. lra.
Qed.
Lemma atan2_sin_unit y x : x * x + y * y = 1 -> sin (atan2 y x) = y.
Proof.
  intros H. destruct (atan2_polar y x) as [_ Hy].
  unfold hyp in Hy. rewrite H, sqrt_1 in Hy. lra.
Qed.

Lemma atan_nonneg t : 0 <= t -> 0 <= atan t.
Proof.
  intros [H|<-]; [|rewrite atan_0; lra].
  pose proof (atan_increasing 0 t H). rewrite atan_0 in *. lra.
Qed.
Lemma atan_neg t : t < 0 -> atan t < 0.
Proof. intros H. pose proof (atan_increasing t 0 H). rewrite atan_0 in *. lra. Qed.
Lemma atan_nonpos t : t <= 0 -> atan t <= 0.
Proof. intros [H| ->]; [left; apply atan_neg; assumption | rewrite atan_0; lra]. Qed.

Lemma atan2_range y x : - PI < atan2 y x <= PI.
Proof.
  pose proof PI_RGT_0. unfold atan2.
  destruct (Rltb_reflect 0 x) as [Hx|Hx].
  { destruct (atan_bound (y/x)); lra. }
  destruct (Rltb_reflect x 0) as [Hx'|Hx'].
  - destruct (atan_bound (y/x)).
    destruct (Rltb_reflect y 0) as [Hy|Hy].
    + assert (0 <= y / x).
      { unfold Rdiv. assert (/ x < 0) by (apply Rinv_lt_0_compat; auto). nra. }
      assert (0 < y / x).
      { unfold Rdiv. assert (/ x < 0) by (apply Rinv_lt_0_compat; auto). nra. }
      pose proof (atan_increasing 0 (y/x) H3). rewrite atan_0 in *. lra.
    + assert (y / x <= 0).
      { unfold Rdiv. assert (/ x < 0) by (apply Rinv_lt_0_compat; auto). nra. }
      pose proof (atan_nonpos _ H2). lra.
  - repeat rcase1; lra.
Qed.

(** sine and cosine together determine an angle of the principal range *)
Lemma angle_unique a b :
  - PI < a <= PI -> - PI < b <= PI -> cos a = cos b -> sin a = sin b -> a = b.
Proof.
  intros Ha Hb Hc Hs.
  assert (H1 : cos (a - b) = 1).
  { rewrite cos_minus. rewrite Hc, Hs. apply cos2_sin2. }
  assert (H2 : sin (a - b) = 0).
  { rewrite sin_minus. rewrite Hc, Hs. ring. }
  set (d := a - b) in *.
  assert (Hd : - (2 * PI) < d < 2 * PI) by (unfold d; lra).
  assert (d = 0); [|unfold d in *; lra].
  destruct (Rtotal_order d 0) as [H|[H|H]]; auto; exfalso.
  - destruct (Rtotal_order d (- PI)) as [K|[K|K]].
    + assert (sin (d + 2 * PI) = 0) by (rewrite sin_plus, sin_2PI, cos_2PI, H2; ring).
      assert (0 < sin (d + 2 * PI)) by (apply sin_gt_0; lra). lra.
    + rewrite K in H1. rewrite cos_neg, cos_PI in H1. lra.
    + assert (0 < sin (- d)) by (apply sin_gt_0; lra). rewrite sin_neg in *. lra.
  - destruct (Rtotal_order d PI) as [K|[K|K]].
    + assert (0 < sin d) by (apply sin_gt_0; lra). lra.
    + rewrite K in H1. rewrite cos_PI in H1. lra.
    + assert (sin (2 * PI - d) = 0) by (rewrite sin_minus, sin_2PI, cos_2PI, H2; ring).
      assert (0 < sin (2 * PI - d)) by (apply sin_gt_0; lra). lra.
Qed.

Lemma atan2_scale r t : 0 < r -> - PI < t <= PI -> atan2 (r * sin t) (r * cos t) = t.
Proof.
  intros Hr Ht.
  assert (Hh : hyp (r * cos t) (r * sin t) = r).
  { unfold hyp. apply sqrt_unique; [lra|].
    replace (r * cos t * (r * cos t) + r * sin t * (r * sin t))
      with (r * r * (cos t * cos t + sin t * sin t)) by ring.
    rewrite cos2_sin2. ring. }
  destruct (atan2_polar (r * sin t) (r * cos t)) as [Hc Hs].
  rewrite Hh in Hc, Hs.
  apply angle_unique; auto using atan2_range.
  - apply (Rmult_eq_reg_l r); lra.
  - apply (Rmult_eq_reg_l r); lra.
Qed.

Lemma atan2_nonneg y x : 0 <= y -> 0 <= atan2 y x <= PI.
Proof.
  intros Hy. pose proof PI_RGT_0. pose proof (atan2_range y x) as [_ H2]. split; [|exact H2].
  unfold atan2.
  destruct (Rltb_reflect 0 x) as [Hx|Hx].
  - apply atan_nonneg. unfold Rdiv. assert (0 < / x) by (apply Rinv_0_lt_compat; auto). nra.
  - destruct (Rltb_reflect x 0).
    + destruct (Rltb_reflect y 0); [lra|]. destruct (atan_bound (y/x)); lra.
    + repeat rcase1; lra.
Qed.

Lemma Rabs_sqr x : Rabs x * Rabs x = x * x.
Proof. unfold Rabs; destruct (Rcase_abs x); ring. Qed.

Lemma sqr_le_abs x y : x * x <= y * y -> Rabs x <= Rabs y.
Proof. intros. apply Rsqr_le_abs_0. exact H. Qed.

Lemma zMax_Rmax a b : zMax a b = Rmax a b.
Proof. unfold zMax, Rmax. destruct (Rltb_reflect b a), (Rle_dec a b); lra. Qed.
Lemma zMin_Rmin a b : zMin a b = Rmin a b.
Proof. unfold zMin, Rmin. destruct (Rltb_reflect a b), (Rle_dec a b); lra. Qed.
