(** Proofs about 2x2 matrices, 2D coordinates and frames. *)
From Verif Require Import Base Spec ModelVec Model2D FactsVec.
From Coq Require Import Lra Psatz.
Open Scope R_scope.

Lemma mat2_ext a b : dxx a = dxx b -> dxy a = dxy b -> dyx a = dyx b -> dyy a = dyy b -> a = b.
Proof. destruct a, b; cbn; intros; subst; reflexivity. Qed.

Ltac un2 := cbv beta iota zeta delta [zMat2DCreate zMat2DCreateAngle b2x b2y zMat2DRow zMat2DT zMat2DTDRC zMat2DAdd zMat2DSub
  zMat2DMul zMat2DDyad zMat2DDet zMat2DAdj zMulMat2DVec2D zMulMat2DTVec2D zMulAdjMat2DVec2D of_b2 zMulMat2DMat2D
  zMulMat2DTMat2D zMulMat2DMat2DT zMat2DRotSC zMat2DRot zCoord2DMul zCoord2DInterDiv zCoord2DXform zCoord2DCascade
  zFrame2DCreateAngle zXform2D zXform2DInv zFrame2DInv zFrame2DCascade zFrame2DXform zFrame2DFromCoord2D
  zVec2DAdd zVec2DSub zVec2DRev zVec2DMul zVec2DCat zVec2DInterDiv zVec2DRot
  mmul2 mvec2 mtr2 mdet2 rows2 mid2 rot2 vadd2 vsub2 vneg2 vscale2 dot2 cross2 v2zero
  x2 y2 dxx dxy dyx dyy fpos2 fatt2 cpos2 cang2] in *; refold2.
Ltac m2 := un2; try (apply mat2_ext || apply vec2_ext); pcbn; try ring.

Lemma mul2_vec m v : zMulMat2DVec2D m v = mvec2 m v. Proof. reflexivity. Qed.
Lemma mul2_tvec m v : zMulMat2DTVec2D m v = mvec2 (mtr2 m) v. Proof. reflexivity. Qed.
Lemma mul2_mat a b : zMulMat2DMat2D a b = mmul2 a b. Proof. reflexivity. Qed.
Lemma mul2_tmat a b : zMulMat2DTMat2D a b = mmul2 (mtr2 a) b. Proof. m2. Qed.
Lemma mul2_matt a b : zMulMat2DMat2DT a b = mmul2 a (mtr2 b). Proof. m2. Qed.
Lemma t2_spec m : zMat2DT m = mtr2 m /\ zMat2DTDRC m = mtr2 m. Proof. split; m2. Qed.
Lemma mmul2_assoc a b c : mmul2 a (mmul2 b c) = mmul2 (mmul2 a b) c. Proof. m2. Qed.
Lemma mvec2_mmul2 a b v : mvec2 (mmul2 a b) v = mvec2 a (mvec2 b v). Proof. m2. Qed.
Lemma mmul2_id_l a : mmul2 mid2 a = a. Proof. m2. Qed.
Lemma mmul2_id_r a : mmul2 a mid2 = a. Proof. m2. Qed.
Lemma mvec2_id v : mvec2 mid2 v = v. Proof. m2. Qed.
Lemma mvec2_add m a b : mvec2 m (vadd2 a b) = vadd2 (mvec2 m a) (mvec2 m b). Proof. m2. Qed.
Lemma mvec2_sub m a b : mvec2 m (vsub2 a b) = vsub2 (mvec2 m a) (mvec2 m b). Proof. m2. Qed.
Lemma mdet2_mmul2 a b : mdet2 (mmul2 a b) = mdet2 a * mdet2 b. Proof. un2; ring. Qed.

Lemma adj2 m : mmul2 (zMat2DAdj m) m = M2 (mdet2 m) 0 0 (mdet2 m) /\ mmul2 m (zMat2DAdj m) = M2 (mdet2 m) 0 0 (mdet2 m).
Proof. split; m2. Qed.
Lemma mul_adj2 m v : zMulAdjMat2DVec2D m v = mvec2 (zMat2DAdj m) v. Proof. m2. Qed.

Lemma inv2_some m : ~ Rabs (mdet2 m) < zTOL ->
  exists im, zMat2DInv m = Some im /\ mmul2 m im = mid2 /\ mmul2 im m = mid2.
Proof.
  intros H. assert (Hd : mdet2 m <> 0).
  { intros E. apply H. rewrite E, Rabs_R0. apply zTOL_pos. }
  unfold zMat2DInv, zIsTiny. fold (mdet2 m). change (zMat2DDet m) with (mdet2 m).
  unfold zIsTol; destruct (Rltb_reflect (Rabs (mdet2 m)) zTOL) as [T|T]; [exfalso; apply H; exact T|].
  eexists; split; [reflexivity|]. destruct m as [a b c d]. un2. split; apply mat2_ext; pcbn; field; lra.
Qed.
Lemma inv2_none m : Rabs (mdet2 m) < zTOL <-> zMat2DInv m = None.
Proof.
  unfold zMat2DInv, zIsTiny. change (zMat2DDet m) with (mdet2 m).
  unfold zIsTol; destruct (Rltb_reflect (Rabs (mdet2 m)) zTOL) as [T|T]; split; intros; congruence || contradiction || auto.
Qed.
Lemma solve2 m v : ~ Rabs (mdet2 m) < zTOL ->
  exists x, zMulInvMat2DVec2D m v = Some x /\ mvec2 m x = v /\ forall y, mvec2 m y = v -> y = x.
Proof.
  intros H. destruct (inv2_some m H) as (im & E & I1 & I2).
  assert (Hd : mdet2 m <> 0).
  { intros E0. apply H. rewrite E0, Rabs_R0. apply zTOL_pos. }
  unfold zMulInvMat2DVec2D. change (zMat2DDet m) with (mdet2 m).
  unfold zMat2DInv in E. change (zMat2DDet m) with (mdet2 m) in E.
  destruct (zIsTiny (mdet2 m)); [discriminate|]. injection E as <-.
  assert (K : zVec2DMul (zMulAdjMat2DVec2D m v) (1 / mdet2 m) = mvec2 (zMat2DMul (zMat2DAdj m) (1 / mdet2 m)) v) by m2.
  eexists; split; [reflexivity|]. rewrite K. split.
  - rewrite <- mvec2_mmul2, I1, mvec2_id. reflexivity.
  - intros y <-. rewrite <- mvec2_mmul2, I2, mvec2_id. reflexivity.
Qed.
Lemma solvem2 m a : ~ Rabs (mdet2 m) < zTOL ->
  exists x, zMulInvMat2DMat2D m a = Some x /\ mmul2 m x = a /\ forall y, mmul2 m y = a -> y = x.
Proof.
  intros H. destruct (inv2_some m H) as (im & E & I1 & I2).
  unfold zMulInvMat2DMat2D. change (zMat2DDet m) with (mdet2 m).
  unfold zMat2DInv in E. change (zMat2DDet m) with (mdet2 m) in E.
  destruct (zIsTiny (mdet2 m)); [discriminate|]. injection E as <-.
  match goal with |- exists x, Some ?t = _ /\ _ =>
    assert (K : t = mmul2 (zMat2DMul (zMat2DAdj m) (1 / mdet2 m)) a) by m2 end.
  eexists; split; [reflexivity|]. rewrite K. split.
  - rewrite mmul2_assoc, I1, mmul2_id_l. reflexivity.
  - intros y <-. rewrite mmul2_assoc, I2, mmul2_id_l. reflexivity.
Qed.
Lemma solve2_none m v a : Rabs (mdet2 m) < zTOL -> zMulInvMat2DVec2D m v = None /\ zMulInvMat2DMat2D m a = None.
Proof.
  intros H. unfold zMulInvMat2DVec2D, zMulInvMat2DMat2D, zIsTiny. change (zMat2DDet m) with (mdet2 m).
  unfold zIsTol; destruct (Rltb_reflect (Rabs (mdet2 m)) zTOL) as [T|T]; [auto|contradiction].
Qed.

(** ** rotations *)
Lemma cs1 t : cos t * cos t + sin t * sin t = 1.
Proof. pose proof (sin2_cos2 t) as H. unfold Rsqr in H. lra. Qed.
Lemma rot2_rotation t : rotation2 (rot2 t).
Proof. pose proof (cs1 t). split; un2; [apply mat2_ext; pcbn|]; nra. Qed.
Lemma rot2_plus a b : mmul2 (rot2 a) (rot2 b) = rot2 (a + b).
Proof. unfold rot2. rewrite cos_plus, sin_plus. unfold rows2, mmul2; cbn [dxx dxy dyx dyy]. apply mat2_ext; cbn [dxx dxy dyx dyy]; ring. Qed.
Lemma rot2_tr t : mtr2 (rot2 t) = rot2 (- t).
Proof. unfold rot2. rewrite cos_neg, sin_neg. unfold rows2, mtr2; cbn [dxx dxy dyx dyy]. apply mat2_ext; cbn [dxx dxy dyx dyy]; ring. Qed.
Lemma rot2_0 : rot2 0 = mid2.
Proof. unfold rot2. rewrite cos_0, sin_0. m2. Qed.
(** every proper rotation is [c -s; s c] with c^2+s^2=1 *)
Lemma rotation2_form m : rotation2 m ->
  dyy m = dxx m /\ dyx m = - dxy m /\ dxx m * dxx m + dxy m * dxy m = 1.
Proof.
  destruct m as [a b c d]. intros [H D]. un2. injection H as H1 H2 H3 H4.
  assert (E : (a - d) * (a - d) + (b + c) * (b + c) = 0) by nra.
  assert (a - d = 0) by (apply Rsqr_0_uniq; unfold Rsqr; nra). assert (b + c = 0) by (apply Rsqr_0_uniq; unfold Rsqr; nra). repeat split; nra.
Qed.
Lemma rotation2_tr_r m : rotation2 m -> mmul2 m (mtr2 m) = mid2.
Proof. intros H. destruct (rotation2_form m H) as (A & B & C). destruct m as [a b c d]. un2. subst. apply mat2_ext; pcbn; nra. Qed.
Lemma rotation2_mmul a b : rotation2 a -> rotation2 b -> rotation2 (mmul2 a b).
Proof.
  intros [A DA] [B DB]. split; [|rewrite mdet2_mmul2, DA, DB; ring].
  replace (mtr2 (mmul2 a b)) with (mmul2 (mtr2 b) (mtr2 a)) by m2.
  rewrite <- mmul2_assoc, (mmul2_assoc (mtr2 a)), A, mmul2_id_l. exact B.
Qed.
Lemma rotation2_tr m : rotation2 m -> rotation2 (mtr2 m).
Proof.
  intros H. split. 2:{ destruct H as [_ D]. un2. lra. }
  replace (mtr2 (mtr2 m)) with m by (destruct m; reflexivity). apply rotation2_tr_r, H.
Qed.
Lemma angle2_rot m : rotation2 m -> rot2 (zMat2DAngle m) = m /\ - PI < zMat2DAngle m <= PI.
Proof.
  intros H. destruct (rotation2_form m H) as (A & B & C).
  split; [|unfold zMat2DAngle; apply atan2_range].
  set (t := atan2 (dxy m) (dxx m)).
  assert (Hc : cos t = dxx m) by (apply atan2_cos_unit; exact C).
  assert (Hs : sin t = dxy m) by (apply atan2_sin_unit; exact C).
  assert (E : zMat2DAngle m = t).
  { unfold zMat2DAngle. rewrite A, B.
    replace (dxy m - - dxy m) with (2 * sin t) by lra. replace (dxx m + dxx m) with (2 * cos t) by lra.
    apply atan2_scale; [lra|]. apply atan2_range. }
  rewrite E. unfold rot2. rewrite Hc, Hs. apply mat2_ext; cbn; lra.
Qed.
Lemma angle2_of_rot t : - PI < t <= PI -> zMat2DAngle (rot2 t) = t.
Proof.
  intros H. unfold zMat2DAngle, rot2, rows2; cbn [dxx dxy dyx dyy].
  replace (sin t - - sin t) with (2 * sin t) by lra. replace (cos t + cos t) with (2 * cos t) by lra.
  apply atan2_scale; [lra|exact H].
Qed.
Lemma error2_spec m1 m2 : rotation2 m1 -> rotation2 m2 ->
  mmul2 (rot2 (zMat2DError m1 m2)) m2 = m1 /\ - PI < zMat2DError m1 m2 <= PI.
Proof.
  intros H1 H2. split; [|unfold zMat2DError; apply atan2_range].
  assert (H : rotation2 (mmul2 m1 (mtr2 m2))) by (apply rotation2_mmul; [exact H1|apply rotation2_tr, H2]).
  assert (E : zMat2DError m1 m2 = zMat2DAngle (mmul2 m1 (mtr2 m2))).
  { unfold zMat2DError, zMat2DAngle. f_equal; un2; ring. }
  rewrite E. destruct (angle2_rot _ H) as [-> _].
  rewrite <- mmul2_assoc. destruct H2 as [-> _]. apply mmul2_id_r.
Qed.
Lemma rotm2_spec m t : zMat2DRot m t = mmul2 (rot2 t) m.
Proof. m2. Qed.

(** ** coordinates and frames *)
Definition act2c (c : coord2) (p : vec2) : vec2 := vadd2 (mvec2 (rot2 (cang2 c)) p) (cpos2 c).

Lemma rot2_vec v t : zVec2DRot v t = mvec2 (rot2 t) v. Proof. m2. Qed.
Lemma from_coord_att c : fatt2 (zFrame2DFromCoord2D c) = rot2 (cang2 c). Proof. reflexivity. Qed.
Lemma from_coord_act c p : zXform2D (zFrame2DFromCoord2D c) p = act2c c p. Proof. reflexivity. Qed.
Lemma frame2_ext a b : fpos2 a = fpos2 b -> fatt2 a = fatt2 b -> a = b.
Proof. destruct a, b; cbn; intros; subst; reflexivity. Qed.
Lemma from_coord_cascade a b :
  zFrame2DFromCoord2D (zCoord2DCascade a b) = zFrame2DCascade (zFrame2DFromCoord2D a) (zFrame2DFromCoord2D b).
Proof.
  apply frame2_ext; [|cbn [fatt2 zFrame2DCascade]; rewrite mul2_mat, !from_coord_att, rot2_plus; reflexivity].
  cbn -[cos sin]. m2.
Qed.
Lemma from_coord_xform a b :
  zFrame2DFromCoord2D (zCoord2DXform a b) = zFrame2DXform (zFrame2DFromCoord2D a) (zFrame2DFromCoord2D b).
Proof.
  apply frame2_ext.
  - cbn [fpos2 zFrame2DXform]. unfold zXform2DInv. rewrite mul2_tvec, from_coord_att, rot2_tr, <- rot2_vec. reflexivity.
  - cbn [fatt2 zFrame2DXform]. rewrite mul2_tmat, !from_coord_att, rot2_tr, rot2_plus. unfold zCoord2DXform, zFrame2DFromCoord2D.
    cbn [cang2]. f_equal. lra.
Qed.
Lemma coord_cascade_xform a b : zCoord2DCascade a (zCoord2DXform a b) = b.
Proof.
  destruct a as [p t], b as [q u]. unfold zCoord2DCascade, zCoord2DXform; cbn [cpos2 cang2]. f_equal; [|lra].
  assert (H : forall v, zVec2DRot (zVec2DRot v (- t)) t = v).
  { intros v. rewrite !rot2_vec. rewrite <- mvec2_mmul2, rot2_plus.
    replace (t + - t) with 0 by lra. rewrite rot2_0. apply mvec2_id. }
  rewrite H. m2.
Qed.
Lemma coord_xform_cascade a b : zCoord2DXform a (zCoord2DCascade a b) = b.
Proof.
  destruct a as [p t], b as [q u]. unfold zCoord2DCascade, zCoord2DXform; cbn [cpos2 cang2]. f_equal; [|lra].
  assert (H : forall v, zVec2DRot (zVec2DRot v t) (- t) = v).
  { intros v. rewrite !rot2_vec. rewrite <- mvec2_mmul2, rot2_plus.
    replace (- t + t) with 0 by lra. rewrite rot2_0. apply mvec2_id. }
  rewrite <- (H q) at 2. f_equal. m2.
Qed.
Lemma coord_cascade_assoc a b c :
  zCoord2DCascade (zCoord2DCascade a b) c = zCoord2DCascade a (zCoord2DCascade b c).
Proof.
  destruct a as [p t], b as [q u], c as [r w]. unfold zCoord2DCascade; cbn [cpos2 cang2]. f_equal; [|ring].
  rewrite !rot2_vec. change (vadd2 (mvec2 (rot2 (t + u)) r) (vadd2 (mvec2 (rot2 t) q) p) =
          vadd2 (mvec2 (rot2 t) (vadd2 (mvec2 (rot2 u) r) q)) p).
  rewrite mvec2_add, <- rot2_plus, mvec2_mmul2. m2.
Qed.
Lemma xform2_act f p : zXform2D f p = vadd2 (mvec2 (fatt2 f) p) (fpos2 f). Proof. reflexivity. Qed.
Lemma xform2_inv f p : rotation2 (fatt2 f) -> zXform2DInv f (zXform2D f p) = p /\ zXform2D f (zXform2DInv f p) = p.
Proof.
  intros H. unfold zXform2DInv, zXform2D. change zMulMat2DVec2D with mvec2. split; rewrite mul2_tvec.
  - replace (zVec2DSub (zVec2DAdd (mvec2 (fatt2 f) p) (fpos2 f)) (fpos2 f)) with (mvec2 (fatt2 f) p) by m2.
    rewrite <- mvec2_mmul2. destruct H as [-> _]. apply mvec2_id.
  - rewrite <- mvec2_mmul2, (rotation2_tr_r _ H), mvec2_id. m2.
Qed.
Lemma frame2_inv_act f p : rotation2 (fatt2 f) -> zXform2D (zFrame2DInv f) p = zXform2DInv f p.
Proof. intros H. m2. Qed.
Lemma frame2_cascade_act f g p : zXform2D (zFrame2DCascade f g) p = zXform2D f (zXform2D g p).
Proof. m2. Qed.
Lemma frame2_xform_act f g p : zXform2D (zFrame2DXform f g) p = zXform2DInv f (zXform2D g p).
Proof. m2. Qed.
Lemma frame2_rigid f g : rotation2 (fatt2 f) -> rotation2 (fatt2 g) ->
  rotation2 (fatt2 (zFrame2DInv f)) /\ rotation2 (fatt2 (zFrame2DCascade f g)) /\ rotation2 (fatt2 (zFrame2DXform f g)).
Proof.
  intros Hf Hg. refine (conj _ (conj _ _)).
  - cbn [fatt2 zFrame2DInv]. destruct (t2_spec (fatt2 f)) as [-> _]. apply rotation2_tr, Hf.
  - change (fatt2 (zFrame2DCascade f g)) with (mmul2 (fatt2 f) (fatt2 g)). apply rotation2_mmul; assumption.
  - change (fatt2 (zFrame2DXform f g)) with (zMulMat2DTMat2D (fatt2 f) (fatt2 g)). rewrite mul2_tmat. apply rotation2_mmul; [apply rotation2_tr|]; assumption.
Qed.
Lemma coord_of_frame f : rotation2 (fatt2 f) -> zFrame2DFromCoord2D (zCoord2DFromFrame2D f) = f.
Proof.
  intros H. apply frame2_ext; [reflexivity|]. rewrite from_coord_att. unfold zCoord2DFromFrame2D; cbn [cang2].
  apply angle2_rot, H.
Qed.
Lemma frame_of_coord c : - PI < cang2 c <= PI -> zCoord2DFromFrame2D (zFrame2DFromCoord2D c) = c.
Proof.
  intros H. destruct c as [p t]. unfold zCoord2DFromFrame2D. rewrite from_coord_att. cbn [cang2] in *.
  rewrite angle2_of_rot by assumption. reflexivity.
Qed.
Lemma coord_interdiv c1 c2 : zCoord2DInterDiv c1 c2 0 = c1 /\ zCoord2DInterDiv c1 c2 1 = c2.
Proof.
  destruct c1 as [[a b] t], c2 as [[c d] u]. split; un2; f_equal; try (apply vec2_ext; pcbn); ring.
Qed.
