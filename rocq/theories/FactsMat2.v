(** Composite statements used by PropsMat.v. *)
From Verif Require Export FactsMat FactsRot FactsEig.
Open Scope R_scope.

(** ** composite statements used by PropsMat.v *)
Lemma rot3_isometry aa v w :
  exists v' w', zVec3DRot v aa = Some v' /\ zVec3DRot w aa = Some w' /\
    dot v' w' = dot v w /\ norm v' = norm v /\
    zVec3DRot (cross v w) aa = Some (cross v' w') /\
    zVec3DRot aa aa = Some aa.
Proof.
  exists (mvec (zMat3DFromAA aa) v), (mvec (zMat3DFromAA aa) w). rewrite !fromaa_rot.
  pose proof (fromaa_rotation aa) as H.
  split; [reflexivity|]. split; [reflexivity|]. split; [apply rotation_dot, H|]. split; [apply rotation_norm, H|].
  split; [f_equal; rewrite rotation_cross_mvec by exact H; reflexivity|].
  f_equal. destruct (zVec3DIsTiny aa) eqn:E.
  - apply zVec3DIsTiny_true in E. rewrite fromaa_tiny, mvec_id by exact E. reflexivity.
  - apply zVec3DIsTiny_false in E. destruct (fromaa_ok aa E) as (n & U & V & ->).
    rewrite <- V at 2 3. rewrite rodm_axis by exact U. reflexivity.
Qed.
Lemma fromaa_full aa :
  rotation (zMat3DFromAA aa) /\ mvec (zMat3DFromAA aa) aa = aa /\
  (negligible aa -> zMat3DFromAA aa = mid) /\
  (~ negligible aa -> mtrace (zMat3DFromAA aa) = 1 + 2 * cos (norm aa) /\
     exists n, norm n = 1 /\ vscale (norm aa) n = aa /\ zMat3DFromAA aa = rodm n (norm aa)).
Proof.
  split; [apply fromaa_rotation|]. split.
  { destruct (rot3_isometry aa aa aa) as (_ & _ & _ & _ & _ & _ & _ & K). rewrite fromaa_rot in K. injection K as K. exact K. }
  split; [apply fromaa_tiny|]. intros N. destruct (fromaa_ok aa N) as (n & U & V & E). split; [|eauto].
  rewrite E. apply rodm_trace, U.
Qed.
Lemma rot3_add n a b v : norm n = 1 -> 2 * zTOL <= a -> 2 * zTOL <= b ->
  exists w, zVec3DRot v (vscale a n) = Some w /\
    zVec3DRot w (vscale b n) = zVec3DRot v (vscale (a + b) n).
Proof.
  intros U Ha Hb. pose proof zTOL_pos. rewrite !fromaa_rot, !fromaa_axis by (assumption || lra).
  eexists. split; [reflexivity|]. rewrite fromaa_rot, fromaa_axis, !rodm_mvec by assumption. f_equal.
  rewrite rodrigues_add by assumption. f_equal; ring.
Qed.
Lemma rot3_example : zVec3DRot (V3 1 0 0) (V3 0 0 PI) = Some (V3 (-1) 0 0).
Proof.
  rewrite fromaa_rot. f_equal. replace (V3 0 0 PI) with (vscale PI (V3 0 0 1)) by (unfold vscale; cbn; f_equal; ring).
  rewrite fromaa_axis.
  - rewrite rodm_mvec. unfold rodrigues. rewrite cos_PI, sin_PI. spec_unfold. f_equal; ring.
  - unfold norm, dot; cbn. apply sqrt_unique; lra.
  - pose proof zTOL_small. pose proof PI2_3_2. unfold PI2 in *. lra.
Qed.
Lemma det3_correct a b : zMat3DDet a = mdet a /\ zMat3DDet (mmul a b) = zMat3DDet a * zMat3DDet b.
Proof. zmat. split; [reflexivity|]. apply mdet_mmul. Qed.
Lemma wc_example : well_conditioned (M3 2 0 0 1 3 0 0 0 (-1)).
Proof.
  exists 3. pose proof zTOL_small. pose proof zTOL_pos. split; [|split; [lra|]].
  - intros [|[|[|r]]] [|[|[|c]]]; apply Rabs_le; unfold mnth, vnth, col0, col1, col2; cbn [cxx cxy cxz cyx cyy cyz czx czy czz vx vy vz]; lra.
  - replace (mdet (M3 2 0 0 1 3 0 0 0 (-1))) with (-6) by (spec_unfold; ring). unfold Rabs; destruct Rcase_abs; lra.
Qed.
Lemma singular_unreported m : mdet m = 0 ->
  (forall old, fst (zMat3DInv m old) = true /\ forall im, snd (zMat3DInv m old) <> Computed im) /\
  (forall v old, fst (zMulInvMat3DVec3D m v old) = true /\ forall x, snd (zMulInvMat3DVec3D m v old) <> Computed x) /\
  (forall a old, fst (zMulInvMat3DMat3D m a old) = true /\ forall x, snd (zMulInvMat3DMat3D m a old) <> Computed x).
Proof.
  intros H. split; [intros; apply inv_singular, H|]. split; intros; [apply mulinv_v_singular, H|apply mulinv_m_singular, H].
Qed.
Lemma rpy_full m t rm :
  zMat3DRotRoll m t rm = mmul (rotx t) m /\ zMat3DRotPitch m t rm = mmul (roty t) m /\
  zMat3DRotYaw m t rm = mmul (rotz t) m /\
  zMat3DRotRollDRC m t = mmul (rotx t) m /\ zMat3DRotPitchDRC m t = mmul (roty t) m /\
  zMat3DRotYawDRC m t = mmul (rotz t) m.
Proof.
  rewrite roll_spec, pitch_spec, yaw_spec, rollDRC_spec, pitchDRC_spec, yawDRC_spec. repeat split.
Qed.
Lemma rpy_sequence (l : list (nat * R)) m :
  let step m (p : nat * R) := match fst p with O => zMat3DRotRollDRC m (snd p) | 1%nat => zMat3DRotPitchDRC m (snd p)
                              | _ => zMat3DRotYawDRC m (snd p) end in
  (rotation m -> rotation (fold_left step l m)) /\
  fold_left step (rev (map (fun p => (fst p, - snd p)) l)) (fold_left step l m) = m.
Proof.
  intros step.
  assert (B : forall m k t, step (step m (k, t)) (k, - t) = m).
  { intros m0 k t. unfold step; cbn [fst snd].
    destruct k as [|[|k]]; rewrite ?rollDRC_spec, ?pitchDRC_spec, ?yawDRC_spec, mmul_assoc,
      ?rotx_add, ?roty_add, ?rotz_add; (replace (- t + t) with 0 by ring || replace (t + - t) with 0 by ring);
      unfold rotx, roty, rotz; rewrite cos_0, sin_0; destruct m0; spec_unfold; f_equal; ring. }
  assert (K : forall m p, rotation m -> rotation (step m p)).
  { intros m0 [k t] H. unfold step; cbn [fst snd].
    destruct k as [|[|k]]; rewrite ?rollDRC_spec, ?pitchDRC_spec, ?yawDRC_spec; apply rotation_mmul; auto;
      [apply rotation_rotx|apply rotation_roty|apply rotation_rotz]. }
  split.
  - revert m. induction l as [|p l IH]; intros m H; [exact H|]. cbn [fold_left]. apply IH, K, H.
  - revert m. induction l as [|[k t] l IH]; intros m; [reflexivity|].
    cbn [map rev fold_left fst snd]. rewrite fold_left_app, IH. cbn [fold_left fst snd]. apply B.
Qed.
Lemma adj_full m : mmul (zMat3DAdj m) m = mscale (mdet m) mid /\ mmul m (zMat3DAdj m) = mscale (mdet m) mid.
Proof. destruct (adj_correct m) as (A & B). rewrite (proj1 (det3_correct m m)) in *. split; assumption. Qed.
