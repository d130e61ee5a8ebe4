(** Proofs: angles between vectors, attitude increments, orthonormalisation. *)
From Verif Require Import Base Spec SpecGeom ModelVec ModelMat ModelEP FactsVec FactsAlg FactsMat FactsRot FactsMat2 FactsElem.
Open Scope R_scope.

(** ** angles *)
Lemma lagrange3 a b : dot (cross a b) (cross a b) = dot a a * dot b b - dot a b * dot a b.
Proof. spec_unfold; ring. Qed.
Lemma hyp_angle k a b : k * k = dot (cross a b) (cross a b) -> hyp (dot a b) k = norm a * norm b.
Proof.
  intros H. unfold hyp. rewrite H, lagrange3. unfold norm. rewrite <- sqrt_mult by apply dot_self_nonneg. f_equal. ring.
Qed.
Lemma angle_plain a b : let t := zVec3DAngle a b None in
  0 <= t <= PI /\ dot a b = norm a * norm b * cos t /\ norm (cross a b) = norm a * norm b * sin t.
Proof.
  unfold zVec3DAngle. zvg. cbv zeta. set (k := norm (cross a b)).
  assert (K : k * k = dot (cross a b) (cross a b)) by apply norm_sqr.
  split; [apply atan2_nonneg; apply norm_nonneg|]. destruct (atan2_polar k (dot a b)) as [A B].
  rewrite (hyp_angle k a b K) in A, B. split; [exact A|exact B].
Qed.
Lemma angle_signed a b n : zVec3DAngle a b (Some n) = if Rltb (dot (cross a b) n) 0 then atan2 (- norm (cross a b)) (dot a b) else zVec3DAngle a b None.
Proof. unfold zVec3DAngle. zvg. cbv zeta. destruct (Rltb _ _); reflexivity. Qed.
Lemma angle_about a b n : norm n = 1 -> dot n a = 0 -> dot n b = 0 ->
  let t := zVec3DAngle a b (Some n) in - PI < t <= PI /\ vscale (norm a) b = vscale (norm b) (rodrigues n t a).
Proof.
  intros U A B t. apply norm_unit in U. set (k := dot (cross a b) n).
  assert (E : cross a b = vscale k n).
  { (* (n x a) . b = k and n is orthogonal to a and b *)
    assert (N : cross n (cross a b) = v3zero).
    { transitivity (vsub (vscale (dot n b) a) (vscale (dot n a) b)); [vring|]. rewrite A, B. vring. }
    assert (M : vsub (vscale (dot n n) (cross a b)) (vscale k n) = vneg (cross n (cross n (cross a b)))) by (unfold k; vring).
    rewrite N, U in M. replace (cross a b) with (vadd (vsub (vscale 1 (cross a b)) (vscale k n)) (vscale k n)) by vring.
    rewrite M. vring. }
  assert (K : k * k = dot (cross a b) (cross a b)).
  { rewrite E. transitivity (k * k * dot n n); [rewrite U; ring|spec_unfold; ring]. }
  assert (NK : norm (cross a b) = Rabs k).
  { unfold norm. rewrite <- K. apply sqrt_Rsqr_abs. }
  assert (T : t = atan2 k (dot a b)).
  { unfold t. rewrite angle_signed. fold k. destruct (Rltb_reflect k 0).
    - rewrite NK, Rabs_left by lra. f_equal. ring.
    - unfold zVec3DAngle. zvg. cbv zeta. rewrite NK, Rabs_right by lra. reflexivity. }
  rewrite T. split; [apply atan2_range|]. destruct (atan2_polar k (dot a b)) as [P Q]. rewrite (hyp_angle k a b K) in P, Q.
  set (th := atan2 k (dot a b)) in *. clearbody th. clear T t.
  destruct (Req_dec (norm a) 0) as [Z|Z].
  { apply norm_zero_iff in Z. subst a. assert (Z0 : norm v3zero = 0) by (apply norm_zero_iff; reflexivity). rewrite Z0. unfold rodrigues. vring. }
  assert (S : vscale (norm a * norm a) b = vscale (norm a) (vscale (norm b) (rodrigues n th a))).
  { transitivity (vadd (vscale (norm a * norm b * cos th) a) (vscale (norm a * norm b * sin th) (cross n a))).
    - rewrite <- P, <- Q, norm_sqr. replace (vscale k (cross n a)) with (cross (cross a b) a) by (rewrite E; vring). vring.
    - unfold rodrigues. rewrite A. generalize (norm a) (norm b). intros. vring. }
  assert (forall x y, vscale (norm a) x = vscale (norm a) y -> x = y) as I.
  { intros x y H. pose proof (f_equal vx H). pose proof (f_equal vy H). pose proof (f_equal vz H). clear - Z H0 H1 H2.
    destruct x as [x1 x2' x3]; destruct y as [y1 y2' y3]. unfold vscale in *; pcbn. apply Rmult_eq_reg_l in H0, H1, H2; try assumption. subst; reflexivity. }
  apply I. rewrite <- S. generalize (norm a). intros. vring.
Qed.
Lemma angle_symmetry a b n : zVec3DAngle b a None = zVec3DAngle a b None /\
  (dot (cross a b) n <> 0 -> zVec3DAngle b a (Some n) = - zVec3DAngle a b (Some n)).
Proof.
  assert (C : cross b a = vneg (cross a b)) by vring. assert (D : dot b a = dot a b) by (spec_unfold; ring).
  assert (N : norm (cross b a) = norm (cross a b)). { unfold norm. f_equal. rewrite C. spec_unfold; ring. }
  assert (O : forall s c, 0 < s -> atan2 (- s) c = - atan2 s c).
  { intros s c S. unfold atan2.
    replace (- s / c) with (- (s / c)) by (unfold Rdiv; ring). rewrite atan_opp.
    repeat rcase1; try lra. }
  split; [unfold zVec3DAngle; zvg; cbv zeta; rewrite N, D; reflexivity|].
  intros H. rewrite !angle_signed. rewrite D, N. replace (dot (cross b a) n) with (- dot (cross a b) n) by (spec_unfold; ring).
  assert (NP : 0 < norm (cross a b)).
  { destruct (norm_nonneg (cross a b)) as [L|L]; [exact L|]. symmetry in L. apply norm_zero_iff in L. rewrite L in H. exfalso. apply H. spec_unfold; ring. }
  assert (PL : zVec3DAngle b a None = atan2 (norm (cross a b)) (dot a b)) by (unfold zVec3DAngle; zvg; cbv zeta; rewrite N, D; reflexivity).
  assert (PL' : zVec3DAngle a b None = atan2 (norm (cross a b)) (dot a b)) by (unfold zVec3DAngle; zvg; cbv zeta; reflexivity).
  rewrite PL, PL'. destruct (Rltb_reflect (dot (cross a b) n) 0); destruct (Rltb_reflect (- dot (cross a b) n) 0); try lra; rewrite !O by exact NP; ring.
Qed.
Lemma angle2_ok a b : let t := zVec2DAngle a b in - PI < t <= PI /\ vscale2 (norm_2 a) b = vscale2 (norm_2 b) (mvec2 (rot2 t) a).
Proof.
  intros t. split; [apply atan2_range|]. unfold t, zVec2DAngle.
  change (zVec2DOuterProd a b) with (cross2 a b). change (zVec2DInnerProd a b) with (dot2 a b).
  destruct (atan2_polar (cross2 a b) (dot2 a b)) as [P Q]. set (th := atan2 (cross2 a b) (dot2 a b)) in *. clearbody th. clear t.
  assert (H : hyp (dot2 a b) (cross2 a b) = norm_2 a * norm_2 b).
  { unfold hyp, norm_2. rewrite <- sqrt_mult by apply dot2_nonneg. f_equal. unfold dot2, cross2. ring. }
  rewrite H in P, Q. pose proof (norm_2_sqr a) as NA.
  destruct (Req_dec (norm_2 a) 0) as [Z|Z].
  { rewrite Z in *. assert (x2 a = 0 /\ y2 a = 0) as [X Y]. { unfold dot2 in NA. nra. }
    unfold vscale2, mvec2, rot2, rows2; pcbn. rewrite X, Y. apply vec2_ext; pcbn; ring. }
  set (na := norm_2 a) in *. set (nb := norm_2 b) in *. clearbody na nb.
  unfold vscale2, mvec2, rot2, rows2; pcbn. unfold dot2, cross2 in *; pcbn.
  apply vec2_ext; pcbn; apply (Rmult_eq_reg_l na); try exact Z.
  - transitivity (x2 b * (x2 a * x2 a + y2 a * y2 a)); [rewrite <- NA; ring|].
    transitivity ((na * nb * cos th) * x2 a - (na * nb * sin th) * y2 a); [rewrite <- P, <- Q; ring|ring].
  - transitivity (y2 b * (x2 a * x2 a + y2 a * y2 a)); [rewrite <- NA; ring|].
    transitivity ((na * nb * sin th) * x2 a + (na * nb * cos th) * y2 a); [rewrite <- P, <- Q; ring|ring].
Qed.
(** ** the rotation vector from one vector to another *)
Lemma aaerror_ok a b : ~ negligible (cross a b) ->
  let aa := zVec3DAAError a b in
  norm aa = zVec3DAngle a b None /\ dot aa a = 0 /\ dot aa b = 0 /\
  (~ negligible aa -> exists r, zVec3DRot a aa = Some r /\ vscale (norm a) b = vscale (norm b) r).
Proof.
  intros H aa. set (d := cross a b) in *.
  assert (NP : 0 < norm d) by (apply norm_pos; intros Z; apply H; rewrite Z; pose proof zTOL_pos; unfold negligible, v3zero; pcbn; rewrite Rabs_R0; auto).
  set (th := zVec3DAngle a b None). destruct (angle_plain a b) as ((T0 & T1) & TC & TS). fold th in T0, T1, TC, TS. fold d in TS.
  assert (E : aa = vscale (th / norm d) d).
  { unfold aa, zVec3DAAError, th, zVec3DAngle. zvg. fold d. rewrite (proj2 (zVec3DIsTiny_false d) H). cbv zeta. reflexivity. }
  assert (NA : norm aa = th).
  { rewrite E, norm_scale, Rabs_right; [field; lra|]. apply Rle_ge, Rmult_le_pos; [exact T0|left; apply Rinv_0_lt_compat, NP]. }
  split; [exact NA|].
  assert (Da : dot d a = 0) by (unfold d; spec_unfold; ring). assert (Db : dot d b = 0) by (unfold d; spec_unfold; ring).
  split; [rewrite E; transitivity (th / norm d * dot d a); [spec_unfold; ring|rewrite Da; ring]|].
  split; [rewrite E; transitivity (th / norm d * dot d b); [spec_unfold; ring|rewrite Db; ring]|].
  intros L. destruct (rot3_spec a aa L) as (n & Un & En & R). exists (rodrigues n (norm aa) a). split; [exact R|].
  (* n = d / |d| *)
  assert (TP : 0 < th).
  { destruct T0 as [P|Z]; [exact P|]. exfalso. rewrite <- Z, sin_0 in TS. lra. }
  assert (En' : n = vscale (1 / norm d) d).
  { transitivity (vscale (1 / th) (vscale th n)); [apply vec3_ext; spec_unfold; field; lra|]. rewrite <- NA, En, NA, E. apply vec3_ext; spec_unfold; field; split; lra. }
  assert (Dn : dot (cross a b) n = norm d).
  { rewrite En'. fold d. transitivity (dot d d / norm d); [spec_unfold; field; lra|]. rewrite <- norm_sqr. field. lra. }
  destruct (angle_about a b n Un) as (_ & A).
  { rewrite En'. transitivity (1 / norm d * dot d a); [spec_unfold; ring|rewrite Da; ring]. }
  { rewrite En'. transitivity (1 / norm d * dot d b); [spec_unfold; ring|rewrite Db; ring]. }
  rewrite angle_signed, (proj2 (Rltb_false _ _)) in A by lra. fold th in A. rewrite NA. exact A.
Qed.
Lemma aaerror_parallel a b : negligible (cross a b) -> zVec3DAAError a b = v3zero.
Proof. intros H. unfold zVec3DAAError. zvg. rewrite (proj2 (zVec3DIsTiny_true _) H). reflexivity. Qed.
Lemma zero_negl : negligible v3zero.
Proof. pose proof zTOL_pos. unfold negligible, v3zero; pcbn. rewrite Rabs_R0. auto. Qed.
Lemma aaerror_opposite : exists a b r, norm a = 1 /\ norm b = 1 /\ zVec3DAngle a b None = PI /\
  zVec3DRot a (zVec3DAAError a b) = Some r /\ vscale (norm a) b <> vscale (norm b) r.
Proof.
  exists (V3 1 0 0), (V3 (-1) 0 0). 
  assert (Z : zVec3DAAError (V3 1 0 0) (V3 (-1) 0 0) = v3zero).
  { apply aaerror_parallel. replace (cross (V3 1 0 0) (V3 (-1) 0 0)) with v3zero by vring. apply zero_negl. }
  exists (V3 1 0 0). split; [apply norm_unit; spec_unfold; ring|]. split; [apply norm_unit; spec_unfold; ring|].
  assert (NZ : norm v3zero = 0) by (apply norm_zero_iff; reflexivity).
  split.
  { unfold zVec3DAngle. zvg. cbv zeta. replace (cross (V3 1 0 0) (V3 (-1) 0 0)) with v3zero by vring.
    replace (dot (V3 1 0 0) (V3 (-1) 0 0)) with (1 * cos PI) by (rewrite cos_PI; spec_unfold; ring). rewrite NZ. replace 0 with (1 * sin PI) at 1 by (rewrite sin_PI; ring).
    pose proof PI_RGT_0. apply atan2_scale; lra. }
  split; [rewrite Z, fromaa_rot, (fromaa_tiny _ zero_negl); f_equal; vring|].
  assert (N1 : norm (V3 1 0 0) = 1) by (apply norm_unit; spec_unfold; ring). assert (N2 : norm (V3 (-1) 0 0) = 1) by (apply norm_unit; spec_unfold; ring).
  rewrite N1, N2. intros C. apply (f_equal vx) in C. spec_unfold. lra.
Qed.
(** ** polar coordinates *)
Lemma polar_ok r t p : norm (zVec3DCreatePolar r t p) = Rabs r /\
  (0 < r -> 0 <= t <= PI -> zVec3DAngle (V3 0 0 1) (zVec3DCreatePolar r t p) None = t) /\
  (0 < r -> 0 < t < PI -> - PI < p <= PI -> atan2 (vy (zVec3DCreatePolar r t p)) (vx (zVec3DCreatePolar r t p)) = p).
Proof.
  pose proof (sin2_cos2 t) as E1. pose proof (sin2_cos2 p) as E2. unfold Rsqr in E1, E2.
  split; [|split].
  - unfold norm. rewrite <- sqrt_Rsqr_abs. f_equal. unfold zVec3DCreatePolar, dot, Rsqr; pcbn.
    transitivity (r * r * ((sin t * sin t) * (sin p * sin p + cos p * cos p) + cos t * cos t)); [ring|]. rewrite E2. transitivity (r * r * (sin t * sin t + cos t * cos t)); [ring|rewrite E1; ring].
  - intros R T. unfold zVec3DAngle. zvg. cbv zeta.
    assert (S : 0 <= sin t) by (apply sin_ge_0; lra).
    assert (N : norm (cross (V3 0 0 1) (zVec3DCreatePolar r t p)) = r * sin t).
    { unfold norm. apply sqrt_unique; [apply Rmult_le_pos; lra|]. unfold zVec3DCreatePolar; spec_unfold.
      transitivity (r * r * (sin t * sin t) * (sin p * sin p + cos p * cos p)); [rewrite E2; ring|ring]. }
    rewrite N. replace (dot (V3 0 0 1) (zVec3DCreatePolar r t p)) with (r * cos t) by (unfold zVec3DCreatePolar; spec_unfold; ring).
    pose proof PI_RGT_0. apply atan2_scale; lra.
  - intros R T P. unfold zVec3DCreatePolar; pcbn. assert (S : 0 < sin t) by (apply sin_gt_0; lra).
    apply atan2_scale; [apply Rmult_lt_0_compat; lra|exact P].
Qed.
Lemma rot90_ok v : zVec2DRot90CCW v = mvec2 (rot2 (PI / 2)) v /\ zVec2DRot90CW v = mvec2 (rot2 (- (PI / 2))) v.
Proof.
  unfold mvec2, rot2, rows2, zVec2DRot90CCW, zVec2DRot90CW; pcbn. rewrite cos_neg, sin_neg, cos_PI2, sin_PI2.
  split; apply vec2_ext; pcbn; ring.
Qed.
(** ** attitude increments *)
Lemma vdif_ok v w dt : (zVec3DDif v w dt = None <-> dt = 0) /\ (dt <> 0 -> exists d, zVec3DDif v w dt = Some d /\ vadd v (vscale dt d) = w).
Proof.
  unfold zVec3DDif, zVec3DDiv. destruct (Reqb_reflect dt 0) as [Z|Z].
  - split; [tauto|]. intros; contradiction.
  - split; [split; [discriminate|contradiction]|]. intros _. eexists; split; [reflexivity|]. zvg. apply vec3_ext; spec_unfold; field; exact Z.
Qed.
Lemma rotcat_dif m w dt : rotation m -> ~ negligible (vscale dt w) -> norm (vscale dt w) < PI -> zTOL <= 2 * sin (norm (vscale dt w)) -> dt <> 0 ->
  zMat3DDif m (zMat3DRotCat m w dt) dt = Some w.
Proof.
  intros Rm L N S Z. unfold zMat3DDif, zMat3DRotCat, zMat3DRot, zMat3DError. zmat. rewrite zmul_spec.
  rewrite <- mmul_assoc, (rotation_tr_r m Rm), mmul_id_r, aa_recover by assumption.
  unfold zVec3DDiv. destruct (Reqb_reflect dt 0); [contradiction|]. f_equal. zvg. apply vec3_ext; spec_unfold; field; exact Z.
Qed.
Lemma dif_rotcat m m' dt w : rotation m -> rotation m' -> let r := mmul m' (mtr m) in norm (skewv r) = 0 \/ 4 * zTOL <= norm (skewv r) ->
  zMat3DDif m m' dt = Some w -> zMat3DRotCat m w dt = m'.
Proof.
  intros Rm Rm' r S. unfold zMat3DDif, zVec3DDiv. destruct (Reqb_reflect dt 0) as [|Z]; [discriminate|]. injection 1 as <-.
  unfold zMat3DRotCat, zMat3DRot, zMat3DError. zmat. fold r.
  replace (zVec3DMul (zVec3DMul (zMat3DToAA r) (1 / dt)) dt) with (zMat3DToAA r) by (zvg; apply vec3_ext; spec_unfold; field; exact Z).
  rewrite aa_roundtrip; [|apply rotation_mmul; [exact Rm'|apply rotation_mtr, Rm]|exact S].
  unfold r. rewrite <- mmul_assoc. destruct Rm as [-> _]. apply mmul_id_r.
Qed.
Lemma aa_compose a b : let r := mmul (zMat3DFromAA b) (zMat3DFromAA a) in norm (skewv r) = 0 \/ 4 * zTOL <= norm (skewv r) ->
  forall v, zVec3DRot v (zAACascade a b) = match zVec3DRot v a with Some w => zVec3DRot w b | None => None end.
Proof.
  intros r S v. rewrite !fromaa_rot. f_equal. unfold zAACascade. zmat. fold r.
  rewrite aa_roundtrip; [|apply rotation_mmul; apply fromaa_rotation|exact S]. unfold r. apply mvec_mmul.
Qed.
Lemma aa_error a b : let r := mmul (zMat3DFromAA a) (mtr (zMat3DFromAA b)) in norm (skewv r) = 0 \/ 4 * zTOL <= norm (skewv r) ->
  mmul (zMat3DFromAA (zAAError a b)) (zMat3DFromAA b) = zMat3DFromAA a.
Proof.
  intros r S. unfold zAAError, zMat3DError. zmat. fold r.
  rewrite aa_roundtrip; [|apply rotation_mmul; [|apply rotation_mtr]; apply fromaa_rotation|exact S].
  unfold r. rewrite <- mmul_assoc. destruct (fromaa_rotation b) as [-> _]. apply mmul_id_r.
Qed.
Lemma rotmat_ok r m : rotation r -> zRotMat3DInv r (zRotMat3D r m) = m /\ zRotMat3D r (zRotMat3DInv r m) = m /\
  zRotMat3D r m = mmul r (mmul m (mtr r)) /\ mtrace (zRotMat3D r m) = mtrace m /\ mdet (zRotMat3D r m) = mdet m.
Proof.
  intros Hr. unfold zRotMat3DInv, zRotMat3D. zmat. pose proof (rotation_tr_r r Hr) as A. destruct Hr as [B D].
  split; [|split; [|split; [|split]]].
  - rewrite <- !mmul_assoc, B, mmul_id_r, mmul_assoc, B. apply mmul_id_l.
  - rewrite !mmul_assoc, A, mmul_id_l, <- mmul_assoc, A. apply mmul_id_r.
  - symmetry. apply mmul_assoc.
  - assert (C : forall a b, mtrace (mmul a b) = mtrace (mmul b a)) by (intros; unfold mtrace; spec_unfold; ring).
    rewrite C, mmul_assoc, B, mmul_id_l. reflexivity.
  - rewrite !mdet_mmul, D. replace (mdet (mtr r)) with (mdet r) by (spec_unfold; ring). rewrite D. ring.
Qed.
(** ** orthonormalisation *)
Lemma isorthonormal_ok m : zMat3DIsOrthonormal m = true <->
  forall r c, (r < 3)%nat -> (c < 3)%nat -> Rabs (mnth (mmul (mtr m) m) r c - mnth mid r c) < zTOL.
Proof.
  unfold zMat3DIsOrthonormal. rewrite !andb_true_iff, !zIsTiny_true.
  replace (zVec3DInnerProd (bx m) (bx m)) with (dot (col0 m) (col0 m)) by reflexivity.
  replace (zVec3DInnerProd (by_ m) (by_ m)) with (dot (col1 m) (col1 m)) by reflexivity.
  replace (zVec3DInnerProd (bz m) (bz m)) with (dot (col2 m) (col2 m)) by reflexivity.
  replace (zVec3DInnerProd (bx m) (by_ m)) with (dot (col0 m) (col1 m)) by reflexivity.
  replace (zVec3DInnerProd (by_ m) (bz m)) with (dot (col1 m) (col2 m)) by reflexivity.
  replace (zVec3DInnerProd (bz m) (bx m)) with (dot (col2 m) (col0 m)) by reflexivity.
  assert (E : forall r c, (r < 3)%nat -> (c < 3)%nat -> mnth (mmul (mtr m) m) r c = 
    dot (match r with 0%nat => col0 m | 1%nat => col1 m | _ => col2 m end) (match c with 0%nat => col0 m | 1%nat => col1 m | _ => col2 m end)).
  { intros r c Hr Hc. destruct r as [|[|[|r]]]; [| | |lia]; destruct c as [|[|[|c]]]; try lia; reflexivity. }
  assert (S : forall a b, dot a b = dot b a) by (intros; spec_unfold; ring).
  split.
  - intros (((((A & B) & C) & D) & F) & G) r c Hr Hc. rewrite E by assumption.
    destruct r as [|[|[|r]]]; [| | |lia]; destruct c as [|[|[|c]]]; try lia; unfold mnth, mid, rows3, vnth, col0, col1, col2; pcbn; fold (col0 m) (col1 m) (col2 m); rewrite ?Rminus_0_r; try assumption;
     rewrite S; assumption.
  - intros H. pose proof (H 0%nat 0%nat ltac:(lia) ltac:(lia)) as A. pose proof (H 1%nat 1%nat ltac:(lia) ltac:(lia)) as B. pose proof (H 2%nat 2%nat ltac:(lia) ltac:(lia)) as C.
    pose proof (H 0%nat 1%nat ltac:(lia) ltac:(lia)) as D. pose proof (H 1%nat 2%nat ltac:(lia) ltac:(lia)) as F. pose proof (H 2%nat 0%nat ltac:(lia) ltac:(lia)) as G.
    rewrite E in A, B, C, D, F, G by lia. unfold mid, rows3 in *. cbn [mnth vnth vx vy vz cxx cxy cxz cyx cyy cyz czx czy czz col0 col1 col2 row0 row1 row2] in A, B, C, D, F, G. rewrite ?Rminus_0_r in *. tauto.
Qed.
Lemma isrighthand_ok m : zMat3DIsRightHand m = true <-> 0 < mdet m.
Proof. unfold zMat3DIsRightHand. rewrite Rltb_true. reflexivity. Qed.
Lemma ident_checks m : rotation m -> zMat3DIsOrthonormal m = true /\ zMat3DIsRightHand m = true.
Proof.
  intros [A B]. split; [|apply isrighthand_ok; lra]. apply isorthonormal_ok. intros. rewrite A, Rminus_diag_eq, Rabs_R0 by reflexivity. apply zTOL_pos.
Qed.
Lemma orthonormal_cols x y z : dot x x = 1 -> dot y y = 1 -> dot z z = 1 -> dot x y = 0 -> dot y z = 0 -> dot z x = 0 ->
  mmul (mtr (cols3 x y z)) (cols3 x y z) = mid.
Proof.
  intros X Y Z XY YZ ZX. apply mat3_ext; destruct x as [x1 x2' x3]; destruct y as [y1 y2' y3]; destruct z as [z1 z2' z3]; revert X Y Z XY YZ ZX; spec_unfold; intros; lra.
Qed.
Lemma orthonormalize_core v w : ~ negligible v -> ~ negligible (residual w v) ->
  let d1 := vscale (1 / norm v) v in let d2 := vscale (1 / norm (residual w v)) (residual w v) in
  dot d1 d1 = 1 /\ dot d2 d2 = 1 /\ dot d1 d2 = 0 /\ 0 < norm v /\ 0 < norm (residual w v) /\ 0 < dot d2 w.
Proof.
  intros V W d1 d2.
  assert (NV : 0 < norm v) by (apply norm_pos; intros Z; apply V; rewrite Z; apply zero_negl).
  assert (NW : 0 < norm (residual w v)) by (apply norm_pos; intros Z; apply W; rewrite Z; apply zero_negl).
  assert (U : forall u, 0 < norm u -> dot (vscale (1 / norm u) u) (vscale (1 / norm u) u) = 1).
  { intros u P. transitivity (dot u u / (norm u * norm u)); [spec_unfold; field; lra|rewrite norm_sqr, <- norm_sqr; field; lra]. }
  assert (VV : 0 < dot v v) by (rewrite <- norm_sqr; nra).
  assert (O : dot v (residual w v) = 0).
  { transitivity (dot v w - dot v w / dot v v * dot v v); [unfold residual; set (k := dot v w / dot v v); clearbody k; clear; spec_unfold; ring|field; lra]. }
  split; [apply U, NV|]. split; [apply U, NW|]. split.
  { unfold d1, d2. transitivity (1 / norm v * (1 / norm (residual w v)) * dot v (residual w v)); [generalize (residual w v) (norm v) (norm (residual w v)); clear; intros; spec_unfold; ring|rewrite O; ring]. }
  split; [exact NV|]. split; [exact NW|].
  assert (DW : dot (residual w v) w = dot (residual w v) (residual w v)).
  { transitivity (dot (residual w v) (residual w v) + dot v w / dot v v * dot v (residual w v)); [|rewrite O; ring].
    unfold residual; set (k := dot v w / dot v v); clearbody k; clear; spec_unfold; ring. }
  unfold d2. replace (dot (vscale (1 / norm (residual w v)) (residual w v)) w) with (1 / norm (residual w v) * dot (residual w v) w) by (generalize (residual w v) (norm (residual w v)); clear; intros; spec_unfold; ring).
  rewrite DW, <- norm_sqr. apply Rmult_lt_0_compat; [apply Rdiv_lt_0_compat; lra|nra].
Qed.
Lemma orthonormalize_ok src i j : (i < 3)%nat -> (j < 3)%nat ->
  (i = j -> zMat3DOrthonormalize src i j = None) /\
  (i <> j -> ~ negligible (mcol src i) -> ~ negligible (residual (mcol src j) (mcol src i)) ->
    exists m k1 k2, zMat3DOrthonormalize src i j = Some m /\ mmul (mtr m) m = mid /\
      0 < k1 /\ mcol src i = vscale k1 (mcol m i) /\ 0 < k2 /\ residual (mcol src j) (mcol src i) = vscale k2 (mcol m j) /\ 0 < dot (mcol m j) (mcol src j) /\
      mdet m = (if Nat.eqb ((i + 1) mod 3) j then 1 else -1)).
Proof.
  intros Hi Hj. assert (MI : (i mod 3 = i)%nat) by (apply Nat.mod_small; exact Hi). assert (MJ : (j mod 3 = j)%nat) by (apply Nat.mod_small; exact Hj).
  split; [intros ->; unfold zMat3DOrthonormalize; rewrite Nat.eqb_refl; reflexivity|].
  intros N V W. set (v := mcol src i) in *. set (w := mcol src j) in *.
  destruct (orthonormalize_core v w V W) as (U1 & U2 & O & P1 & P2 & P3).
  set (d1 := vscale (1 / norm v) v) in *. set (d2 := vscale (1 / norm (residual w v)) (residual w v)) in *.
  assert (VI : zMat3DVec src i = v) by (unfold v; destruct i as [|[|[|i]]]; try lia; reflexivity).
  assert (VJ : zMat3DVec src j = w) by (unfold w; destruct j as [|[|[|j]]]; try lia; reflexivity).
  assert (OR : zVec3DOrthogonalize w v = Some (residual w v)).
  { destruct (orth3_spec w v V) as (p & o & Ep & Eo & -> & _). rewrite Eo. f_equal. unfold zVec3DProj in Ep. rewrite (proj2 (zVec3DIsTiny_false v) V) in Ep. injection Ep as <-. reflexivity. }
  assert (U3 : dot (cross d1 d2) (cross d1 d2) = 1) by (rewrite lagrange3, U1, U2, O; ring).
  assert (NN : norm (cross d1 d2) = 1) by (apply norm_unit, U3).
  assert (L3 : ~ negligible (cross d1 d2)).
  { intros (A & B & C). pose proof zTOL_small. apply Rabs_def2 in A, B, C. unfold dot in U3. nra. }
  assert (RES : zMat3DOrthonormalize src i j = Some (set_vec (set_vec (set_vec src i d1) j d2) (Nat.modulo (3 - i - j) 3) (cross d1 d2))).
  { unfold zMat3DOrthonormalize. rewrite MI, MJ. rewrite (proj2 (Nat.eqb_neq i j) N). rewrite VI, VJ.
    rewrite (proj2 (zVec3DIsTiny_false v) V), OR, (proj2 (zVec3DIsTiny_false _) W), normalizeDRC_ok by exact W. fold d2.
    replace (snd (zVec3DNormalize v v)) with d1 by (symmetry; apply (normalizeDRC_ok v V)).
    change (zVec3DOuterProd d1 d2) with (cross d1 d2). rewrite (proj2 (zVec3DIsTiny_false _) L3), normalizeDRC_ok by exact L3. rewrite NN.
    f_equal. f_equal. apply vec3_ext; spec_unfold; field. }
  exists (set_vec (set_vec (set_vec src i d1) j d2) (Nat.modulo (3 - i - j) 3) (cross d1 d2)), (norm v), (norm (residual w v)).
  assert (E1 : v = vscale (norm v) d1) by (unfold d1; apply vec3_ext; spec_unfold; field; lra).
  assert (E2 : residual w v = vscale (norm (residual w v)) d2). { unfold d2. generalize (residual w v) P2. clear. intros. apply vec3_ext; spec_unfold; field; lra. }
  split; [exact RES|]. clear RES.
  assert (S : forall a b, dot a b = dot b a) by (intros; spec_unfold; ring).
  assert (Q1 : dot d1 (cross d1 d2) = 0) by (clear; spec_unfold; ring). assert (Q2 : dot d2 (cross d1 d2) = 0) by (clear; spec_unfold; ring).
  assert (D1 : det3v d1 d2 (cross d1 d2) = 1) by (rewrite <- U3; unfold det3v; clear; spec_unfold; ring).
  set (c := cross d1 d2) in *. clearbody c.
  pose proof (S d2 d1) as O'. rewrite O in O'. pose proof (S c d1) as Q1'. rewrite Q1 in Q1'. pose proof (S c d2) as Q2'. rewrite Q2 in Q2'.
  destruct i as [|[|[|i]]]; try lia; destruct j as [|[|[|j]]]; try lia; cbn [Nat.sub Nat.add Nat.modulo Nat.divmod Nat.eqb fst snd set_vec];
  (split; [apply orthonormal_cols; assumption|]); (split; [exact P1|]); (split; [etransitivity; [exact E1|reflexivity]|]); (split; [exact P2|]); (split; [etransitivity; [exact E2|reflexivity]|]); (split; [exact P3|]);
  clearbody d1 d2; revert D1; unfold det3v, of_b, bx, by_, bz; clear; spec_unfold; intros; lra.
Qed.
(** ** examples *)
Lemma angle_example : norm (V3 0 0 1) = 1 /\ dot (V3 0 0 1) (V3 1 0 0) = 0 /\ dot (V3 0 0 1) (V3 0 1 0) = 0 /\ ~ negligible (cross (V3 1 0 0) (V3 0 1 0)).
Proof.
  split; [apply norm_unit; spec_unfold; ring|]. split; [spec_unfold; ring|]. split; [spec_unfold; ring|].
  replace (cross (V3 1 0 0) (V3 0 1 0)) with (V3 0 0 1) by vring. intros (_ & _ & H). pcbn. rewrite Rabs_R1 in H. pose proof zTOL_small. lra.
Qed.
Lemma rotcat_example : ~ negligible (vscale (1 / 2) (V3 0 0 (PI / 2))) /\ norm (vscale (1 / 2) (V3 0 0 (PI / 2))) < PI /\ zTOL <= 2 * sin (norm (vscale (1 / 2) (V3 0 0 (PI / 2)))).
Proof.
  pose proof PI_RGT_0. pose proof PI2_3_2. pose proof zTOL_small.
  assert (N : norm (vscale (1 / 2) (V3 0 0 (PI / 2))) = PI / 4). { unfold norm. apply sqrt_unique; [lra|spec_unfold; field]. }
  split; [|rewrite N, sin_PI4; split; [lra|]].
  - intros (_ & _ & L). unfold vscale in L; pcbn. rewrite Rabs_right in L; lra.
  - assert (0 < sqrt 2) by (apply sqrt_lt_R0; lra). assert (sqrt 2 <= 2). { apply Rsqr_incr_0; try lra. rewrite Rsqr_sqrt by lra. unfold Rsqr. lra. }
    apply Rle_trans with (2 * (1 / 2)); [lra|]. apply Rmult_le_compat_l; [lra|]. unfold Rdiv. apply Rmult_le_compat_l; [lra|]. apply Rinv_le_contravar; lra.
Qed.
Lemma orthonormalize_left : exists m', zMat3DOrthonormalize mid 0 2 = Some m' /\ mdet mid = 1 /\ mdet m' = -1.
Proof.
  destruct (orthonormalize_ok mid 0 2 ltac:(lia) ltac:(lia)) as (_ & H). destruct H as (m & k1 & k2 & E & _ & _ & _ & _ & _ & _ & D).
  - discriminate.
  - intros (A & _). revert A. unfold mcol, mid, rows3, col0; pcbn. rewrite Rabs_R1. pose proof zTOL_small. lra.
  - intros (_ & _ & A). revert A. unfold residual, mcol, mid, rows3, col0, col2; spec_unfold. match goal with |- Rabs ?x < _ -> _ => replace x with 1 by field end.
    rewrite Rabs_R1. pose proof zTOL_small. lra.
  - exists m. split; [exact E|]. split; [spec_unfold; ring|exact D].
Qed.
