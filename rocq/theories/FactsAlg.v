(** Algebra of 3x3 matrices and rotations (specification level). *)
From Verif Require Export Spec.
Open Scope R_scope.

Lemma mat3_ext a b :
  cxx a = cxx b -> cxy a = cxy b -> cxz a = cxz b ->
  cyx a = cyx b -> cyy a = cyy b -> cyz a = cyz b ->
  czx a = czx b -> czy a = czy b -> czz a = czz b -> a = b.
Proof. destruct a, b; simpl; intros; subst; reflexivity. Qed.

(** turn an equation between explicit matrices/vectors into its components *)
Ltac minj H :=
  apply (f_equal (fun m => (cxx m, cxy m, cxz m, cyx m, cyy m, cyz m, czx m, czy m, czz m))) in H;
  spec_unfold; injection H; clear H.
Ltac mring := apply mat3_ext; spec_unfold; ring.
Ltac vring := apply vec3_ext; spec_unfold; ring.

Lemma mmul_assoc a b c : mmul a (mmul b c) = mmul (mmul a b) c.
Proof. mring. Qed.
Lemma mmul_id_l a : mmul mid a = a.
Proof. mring. Qed.
Lemma mmul_id_r a : mmul a mid = a.
Proof. mring. Qed.
Lemma mvec_mmul a b v : mvec (mmul a b) v = mvec a (mvec b v).
Proof. vring. Qed.
Lemma mvec_id v : mvec mid v = v.
Proof. vring. Qed.
Lemma mvec_add m a b : mvec m (vadd a b) = vadd (mvec m a) (mvec m b).
Proof. vring. Qed.
Lemma mvec_sub m a b : mvec m (vsub a b) = vsub (mvec m a) (mvec m b).
Proof. vring. Qed.
Lemma mvec_scale m k a : mvec m (vscale k a) = vscale k (mvec m a).
Proof. vring. Qed.
Lemma mvec_zero m : mvec m v3zero = v3zero.
Proof. vring. Qed.
Lemma mtr_mtr a : mtr (mtr a) = a.
Proof. mring. Qed.
Lemma mtr_mmul a b : mtr (mmul a b) = mmul (mtr b) (mtr a).
Proof. mring. Qed.
Lemma mtr_mid : mtr mid = mid.
Proof. mring. Qed.
Lemma mdet_mmul a b : mdet (mmul a b) = mdet a * mdet b.
Proof. spec_unfold; ring. Qed.
Lemma mdet_mtr a : mdet (mtr a) = mdet a.
Proof. spec_unfold; ring. Qed.
Lemma mdet_mid : mdet mid = 1.
Proof. spec_unfold; ring. Qed.
Lemma dot_mvec m a b : dot (mvec m a) b = dot a (mvec (mtr m) b).
Proof. spec_unfold; ring. Qed.
Lemma mdet_cols a b c : mdet (cols3 a b c) = det3v a b c.
Proof. spec_unfold; ring. Qed.

(** textbook adjugate *)
Definition madj (m : mat3) : mat3 :=
  mtr (cols3 (cross (col1 m) (col2 m)) (cross (col2 m) (col0 m)) (cross (col0 m) (col1 m))).
Lemma madj_r m : mmul m (madj m) = mscale (mdet m) mid.
Proof. unfold madj; mring. Qed.
Lemma madj_l m : mmul (madj m) m = mscale (mdet m) mid.
Proof. unfold madj; mring. Qed.

Lemma mscale_1 m : mscale 1 m = m.
Proof. mring. Qed.
Lemma mscale_mscale a b m : mscale a (mscale b m) = mscale (a * b) m.
Proof. mring. Qed.
Lemma mmul_mscale_l k a b : mmul (mscale k a) b = mscale k (mmul a b).
Proof. mring. Qed.
Lemma mmul_mscale_r k a b : mmul a (mscale k b) = mscale k (mmul a b).
Proof. mring. Qed.

(** a one-sided inverse is two-sided and unique *)
Lemma left_inv_right a b : mmul a b = mid -> mmul b a = mid.
Proof.
  intros H.
  assert (D : mdet a * mdet b = 1) by (rewrite <- mdet_mmul, H; apply mdet_mid).
  assert (Da : mdet a <> 0) by (intros E; rewrite E in D; lra).
  assert (Eb : mscale (mdet a) b = madj a).
  { rewrite <- (mmul_id_r (madj a)), <- H, mmul_assoc, madj_l, mmul_mscale_l, mmul_id_l. reflexivity. }
  assert (Eb' : b = mscale (/ mdet a) (madj a)).
  { rewrite <- Eb, mscale_mscale, Rinv_l, mscale_1 by exact Da. reflexivity. }
  rewrite Eb', mmul_mscale_l, madj_l, mscale_mscale, Rinv_l, mscale_1 by exact Da. reflexivity.
Qed.
Lemma inv_unique a b c : mmul a b = mid -> mmul a c = mid -> b = c.
Proof.
  intros H1 H2. apply left_inv_right in H1.
  rewrite <- (mmul_id_l c), <- H1, <- mmul_assoc, H2, mmul_id_r. reflexivity.
Qed.
Lemma det_inv a b : mmul a b = mid -> mdet a <> 0.
Proof.
  intros H E. assert (D : mdet a * mdet b = 1) by (rewrite <- mdet_mmul, H; apply mdet_mid).
  rewrite E in D; lra.
Qed.

(** ** rotations *)
Lemma rotation_tr_r m : rotation m -> mmul m (mtr m) = mid.
Proof. intros [H _]. apply left_inv_right, H. Qed.
Lemma rotation_mtr m : rotation m -> rotation (mtr m).
Proof.
  intros H. split; [rewrite mtr_mtr; apply rotation_tr_r, H|rewrite mdet_mtr; apply H].
Qed.
Lemma rotation_mid : rotation mid.
Proof. split; [rewrite mtr_mid; apply mmul_id_l|apply mdet_mid]. Qed.
Lemma rotation_mmul a b : rotation a -> rotation b -> rotation (mmul a b).
Proof.
  intros [Ha Da] [Hb Db]. split.
  - rewrite mtr_mmul, <- mmul_assoc, (mmul_assoc (mtr a)), Ha, mmul_id_l. exact Hb.
  - rewrite mdet_mmul, Da, Db; ring.
Qed.
Lemma rotation_adj m : rotation m -> madj m = mtr m.
Proof.
  intros [H D]. apply left_inv_right in H.
  rewrite <- (mmul_id_r (madj m)), <- H, mmul_assoc, madj_l, D, mscale_1, mmul_id_l. reflexivity.
Qed.
Lemma rotation_cross m : rotation m ->
  cross (col1 m) (col2 m) = col0 m /\ cross (col2 m) (col0 m) = col1 m /\ cross (col0 m) (col1 m) = col2 m.
Proof.
  intros H. apply rotation_adj in H. unfold madj in H.
  apply (f_equal mtr) in H. rewrite !mtr_mtr in H.
  minj H; intros. repeat split; apply vec3_ext; spec_unfold; assumption.
Qed.
Lemma rotation_cols m : rotation m <->
  norm (col0 m) = 1 /\ norm (col1 m) = 1 /\ norm (col2 m) = 1 /\
  dot (col0 m) (col1 m) = 0 /\ dot (col1 m) (col2 m) = 0 /\ dot (col2 m) (col0 m) = 0 /\ mdet m = 1.
Proof.
  rewrite <- !norm_unit. split.
  - intros [H D]. minj H; intros. repeat split; lra.
  - intros (A & B & C & X & Y & Z & D). split; [|exact D].
    apply mat3_ext; spec_unfold; lra.
Qed.
(** the 18 scalar equations of a rotation *)
Lemma rotation_eqs m : rotation m ->
  (cxx m * cxx m + cxy m * cxy m + cxz m * cxz m = 1 /\
   cyx m * cyx m + cyy m * cyy m + cyz m * cyz m = 1 /\
   czx m * czx m + czy m * czy m + czz m * czz m = 1 /\
   cxx m * cyx m + cxy m * cyy m + cxz m * cyz m = 0 /\
   cyx m * czx m + cyy m * czy m + cyz m * czz m = 0 /\
   czx m * cxx m + czy m * cxy m + czz m * cxz m = 0) /\
  (cxx m * cxx m + cyx m * cyx m + czx m * czx m = 1 /\
   cxy m * cxy m + cyy m * cyy m + czy m * czy m = 1 /\
   cxz m * cxz m + cyz m * cyz m + czz m * czz m = 1 /\
   cxx m * cxy m + cyx m * cyy m + czx m * czy m = 0 /\
   cxy m * cxz m + cyy m * cyz m + czy m * czz m = 0 /\
   cxz m * cxx m + cyz m * cyx m + czz m * czx m = 0) /\
  (cxx m = cyy m * czz m - cyz m * czy m /\ cxy m = cyz m * czx m - cyx m * czz m /\
   cxz m = cyx m * czy m - cyy m * czx m /\
   cyx m = czy m * cxz m - czz m * cxy m /\ cyy m = czz m * cxx m - czx m * cxz m /\
   cyz m = czx m * cxy m - czy m * cxx m /\
   czx m = cxy m * cyz m - cxz m * cyy m /\ czy m = cxz m * cyx m - cxx m * cyz m /\
   czz m = cxx m * cyy m - cxy m * cyx m).
Proof.
  intros H. pose proof (rotation_tr_r m H) as Hr. destruct (rotation_cross m H) as (Ca & Cb & Cc).
  destruct H as [H _]. split; [minj H; intros; repeat split; lra|].
  split; [minj Hr; intros; repeat split; lra|].
  apply (f_equal (fun v => (vx v, vy v, vz v))) in Ca, Cb, Cc. spec_unfold.
  injection Ca; injection Cb; injection Cc; intros. repeat split; lra.
Qed.
Lemma rotation_dot m a b : rotation m -> dot (mvec m a) (mvec m b) = dot a b.
Proof. intros [H _]. rewrite dot_mvec, <- mvec_mmul, H, mvec_id. reflexivity. Qed.
Lemma rotation_norm m a : rotation m -> norm (mvec m a) = norm a.
Proof. intros H. unfold norm. rewrite rotation_dot; auto. Qed.
Lemma rotation_dist m a b : rotation m -> dist (mvec m a) (mvec m b) = dist a b.
Proof. intros H. unfold dist. rewrite <- mvec_sub. apply rotation_norm, H. Qed.
Lemma cross_mvec_adj m a b : mvec (mtr (madj m)) (cross a b) = cross (mvec m a) (mvec m b).
Proof. unfold madj; vring. Qed.
Lemma rotation_cross_mvec m a b : rotation m -> cross (mvec m a) (mvec m b) = mvec m (cross a b).
Proof. intros H. rewrite <- cross_mvec_adj, rotation_adj, mtr_mtr by exact H. reflexivity. Qed.
Lemma rotation_inv_l m v : rotation m -> mvec (mtr m) (mvec m v) = v.
Proof. intros [H _]. rewrite <- mvec_mmul, H, mvec_id. reflexivity. Qed.
Lemma rotation_inv_r m v : rotation m -> mvec m (mvec (mtr m) v) = v.
Proof. intros H. rewrite <- mvec_mmul, (rotation_tr_r m H), mvec_id. reflexivity. Qed.

Lemma rotation_rotx t : rotation (rotx t).
Proof. pose proof (cos2_sin2 t). split; [apply mat3_ext|]; spec_unfold; lra. Qed.
Lemma rotation_roty t : rotation (roty t).
Proof. pose proof (cos2_sin2 t). split; [apply mat3_ext|]; spec_unfold; lra. Qed.
Lemma rotation_rotz t : rotation (rotz t).
Proof. pose proof (cos2_sin2 t). split; [apply mat3_ext|]; spec_unfold; lra. Qed.
Lemma rotx_add a b : mmul (rotx a) (rotx b) = rotx (a + b).
Proof. apply mat3_ext; spec_unfold; rewrite ?cos_plus, ?sin_plus; ring. Qed.
Lemma roty_add a b : mmul (roty a) (roty b) = roty (a + b).
Proof. apply mat3_ext; spec_unfold; rewrite ?cos_plus, ?sin_plus; ring. Qed.
Lemma rotz_add a b : mmul (rotz a) (rotz b) = rotz (a + b).
Proof. apply mat3_ext; spec_unfold; rewrite ?cos_plus, ?sin_plus; ring. Qed.

Lemma mvec_ext a b : (forall v, mvec a v = mvec b v) -> a = b.
Proof.
  intros H. pose proof (H (V3 1 0 0)) as H1. pose proof (H (V3 0 1 0)) as H2. pose proof (H (V3 0 0 1)) as H3.
  apply (f_equal (fun v => (vx v, vy v, vz v))) in H1, H2, H3. spec_unfold.
  injection H1; injection H2; injection H3; intros. apply mat3_ext; lra.
Qed.
