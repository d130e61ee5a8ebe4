(** Proofs about attitude representations: roll/pitch/yaw, Euler angles, angle-axis. *)
From Verif Require Export FactsMat.
Open Scope R_scope.

(** ** incremental roll / pitch / yaw *)
Lemma roll_spec m t rm : zMat3DRotRoll m t rm = mmul (rotx t) m.
Proof. unfold zMat3DRotRoll. apply mat3_ext; mod_unfold; ring. Qed.
Lemma pitch_spec m t rm : zMat3DRotPitch m t rm = mmul (roty t) m.
Proof. unfold zMat3DRotPitch. apply mat3_ext; mod_unfold; ring. Qed.
Lemma yaw_spec m t rm : zMat3DRotYaw m t rm = mmul (rotz t) m.
Proof. unfold zMat3DRotYaw. apply mat3_ext; mod_unfold; ring. Qed.
Lemma rollDRC_spec m t : zMat3DRotRollDRC m t = mmul (rotx t) m.
Proof. unfold zMat3DRotRollDRC. apply mat3_ext; mod_unfold; ring. Qed.
Lemma pitchDRC_spec m t : zMat3DRotPitchDRC m t = mmul (roty t) m.
Proof. unfold zMat3DRotPitchDRC. apply mat3_ext; mod_unfold; ring. Qed.
Lemma yawDRC_spec m t : zMat3DRotYawDRC m t = mmul (rotz t) m.
Proof. unfold zMat3DRotYawDRC. apply mat3_ext; mod_unfold; ring. Qed.

(** ** ZYX *)
Lemma zyx_spec a e t : zMat3DFromZYX a e t = mmul (rotz a) (mmul (roty e) (rotx t)).
Proof. unfold zMat3DFromZYX, zMat3DFromZYXSC. apply mat3_ext; mod_unfold; ring. Qed.
Lemma zyx_rotation a e t : rotation (zMat3DFromZYX a e t).
Proof.
  rewrite zyx_spec. apply rotation_mmul; [apply rotation_rotz|].
  apply rotation_mmul; [apply rotation_roty|apply rotation_rotx].
Qed.
Lemma zyx_roundtrip m : rotation m ->
  let e := zMat3DToZYX m in zMat3DFromZYX (vx e) (vy e) (vz e) = m.
Proof.
  intros H. pose proof (rotation_eqs m H) as (C & R & X). unfold zMat3DToZYX. cbv zeta. pcbn.
  destruct (atan2_polar (cxy m) (cxx m)) as (Px & Py).
  set (a := atan2 (cxy m) (cxx m)) in *. set (r := hyp (cxx m) (cxy m)) in *.
  pose proof (cos2_sin2 a) as S. pose proof (hyp_nonneg (cxx m) (cxy m)) as Hr. fold r in Hr.
  set (ca := cos a) in *. set (sa := sin a) in *.
  assert (Er : cxx m * ca + cxy m * sa = r).
  { rewrite Px, Py. transitivity (r * (ca * ca + sa * sa)); [ring|rewrite S; ring]. }
  rewrite Er.
  assert (Ue : r * r + (- cxz m) * (- cxz m) = 1).
  { unfold r. rewrite hyp_sqr. lra. }
  set (p := czx m * sa - czy m * ca). set (q := - cyx m * sa + cyy m * ca).
  destruct C as (C1 & C2 & C3 & C4 & C5 & C6). destruct R as (R1 & R2 & R3 & R4 & R5 & R6).
  destruct X as (X1 & X2 & X3 & X4 & X5 & X6 & X7 & X8 & X9).
  assert (W : - sa * cxx m + ca * cxy m = 0) by (rewrite Px, Py; ring).
  assert (Ut : q * q + p * p = 1).
  { assert (E : (- sa * cxx m + ca * cxy m) * (- sa * cxx m + ca * cxy m) + q * q + p * p =
       sa * sa * (cxx m * cxx m + cyx m * cyx m + czx m * czx m)
       - 2 * sa * ca * (cxx m * cxy m + cyx m * cyy m + czx m * czy m)
       + ca * ca * (cxy m * cxy m + cyy m * cyy m + czy m * czy m)) by (unfold p, q; ring).
    rewrite W, R1, R2, R4 in E. lra. }
  unfold zMat3DFromZYX. fold a; fold ca; fold sa.
  rewrite (atan2_cos_unit _ _ Ue), (atan2_sin_unit _ _ Ue), (atan2_cos_unit _ _ Ut), (atan2_sin_unit _ _ Ut).
  (* components of the 2nd and 3rd columns along u = (ca,sa) and w = (-sa,ca) *)
  assert (U1 : ca * cyx m + sa * cyy m = - cxz m * p).
  { unfold p. rewrite X4, X5, Px, Py. ring. }
  assert (U2 : ca * czx m + sa * czy m = - cxz m * q).
  { unfold q. rewrite X7, X8, Px, Py. ring. }
  assert (U3 : cyz m = r * p).
  { unfold p. rewrite X6, Px, Py. ring. }
  assert (U4 : czz m = r * q).
  { unfold q. rewrite X9, Px, Py. ring. }
  unfold zMat3DFromZYXSC. apply mat3_ext; mod_unfold_g.
  - lra. - lra. - ring.
  - transitivity (ca * (- cxz m * p) - sa * q); [ring|]. rewrite <- U1. unfold q; refold3.
    transitivity (cyx m * (ca * ca + sa * sa)); [ring|rewrite S; ring].
  - transitivity (sa * (- cxz m * p) + ca * q); [ring|]. rewrite <- U1. unfold q; refold3.
    transitivity (cyy m * (ca * ca + sa * sa)); [ring|rewrite S; ring].
  - rewrite U3; ring.
  - transitivity (ca * (- cxz m * q) + sa * p); [ring|]. rewrite <- U2. unfold p; refold3.
    transitivity (czx m * (ca * ca + sa * sa)); [ring|rewrite S; ring].
  - transitivity (sa * (- cxz m * q) - ca * p); [ring|]. rewrite <- U2. unfold p; refold3.
    transitivity (czy m * (ca * ca + sa * sa)); [ring|rewrite S; ring].
  - rewrite U4; ring.
Qed.
Lemma zyx_recover a e t : - PI < a <= PI -> - PI / 2 < e < PI / 2 -> - PI < t <= PI ->
  zMat3DToZYX (zMat3DFromZYX a e t) = V3 a e t.
Proof.
  intros Ha He Ht. assert (Hc : 0 < cos e) by (apply cos_gt_0; lra).
  unfold zMat3DToZYX, zMat3DFromZYX, zMat3DFromZYXSC, zMat3DCreate, of_b. cbv zeta. pcbn.
  rewrite (atan2_scale (cos e) a) by assumption.
  pose proof (cos2_sin2 a) as S.
  f_equal.
  - replace (- - sin e) with (1 * sin e) by ring.
    replace (cos e * cos a * cos a + cos e * sin a * sin a) with (1 * cos e)
      by (transitivity (cos e * (cos a * cos a + sin a * sin a)); [rewrite S; ring|ring]).
    apply atan2_scale; lra.
  - match goal with |- atan2 ?y ?x = _ => replace y with (1 * sin t); [replace x with (1 * cos t)|] end.
    + apply atan2_scale; lra.
    + transitivity (cos t * (cos a * cos a + sin a * sin a)); [rewrite S; ring|ring].
    + transitivity (sin t * (cos a * cos a + sin a * sin a)); [rewrite S; ring|ring].
Qed.

(** ** ZYZ *)
Lemma zyz_spec h p b : zMat3DFromZYZ h p b = mmul (rotz h) (mmul (roty p) (rotz b)).
Proof. unfold zMat3DFromZYZ, zMat3DFromZYZSC. apply mat3_ext; mod_unfold; ring. Qed.
Lemma zyz_rotation h p b : rotation (zMat3DFromZYZ h p b).
Proof.
  rewrite zyz_spec. apply rotation_mmul; [apply rotation_rotz|].
  apply rotation_mmul; [apply rotation_roty|apply rotation_rotz].
Qed.
Lemma zyz_roundtrip m : rotation m ->
  let e := zMat3DToZYZ m in zMat3DFromZYZ (vx e) (vy e) (vz e) = m.
Proof.
  intros H. pose proof (rotation_eqs m H) as (C & R & X). unfold zMat3DToZYZ. cbv zeta. pcbn.
  destruct (atan2_polar (czy m) (czx m)) as (Px & Py).
  set (a := atan2 (czy m) (czx m)) in *. set (r := hyp (czx m) (czy m)) in *.
  pose proof (cos2_sin2 a) as S.
  set (ca := cos a) in *. set (sa := sin a) in *.
  assert (Er : czx m * ca + czy m * sa = r).
  { rewrite Px, Py. transitivity (r * (ca * ca + sa * sa)); [ring|rewrite S; ring]. }
  rewrite Er.
  assert (Ue : czz m * czz m + r * r = 1).
  { unfold r. rewrite hyp_sqr. lra. }
  set (p := - cxx m * sa + cxy m * ca). set (q := - cyx m * sa + cyy m * ca).
  destruct C as (C1 & C2 & C3 & C4 & C5 & C6). destruct R as (R1 & R2 & R3 & R4 & R5 & R6).
  destruct X as (X1 & X2 & X3 & X4 & X5 & X6 & X7 & X8 & X9).
  assert (W : - sa * czx m + ca * czy m = 0) by (rewrite Px, Py; ring).
  assert (Ut : q * q + p * p = 1).
  { assert (E : (- sa * czx m + ca * czy m) * (- sa * czx m + ca * czy m) + q * q + p * p =
       sa * sa * (cxx m * cxx m + cyx m * cyx m + czx m * czx m)
       - 2 * sa * ca * (cxx m * cxy m + cyx m * cyy m + czx m * czy m)
       + ca * ca * (cxy m * cxy m + cyy m * cyy m + czy m * czy m)) by (unfold p, q; ring).
    rewrite W, R1, R2, R4 in E. lra. }
  unfold zMat3DFromZYZ. fold a; fold ca; fold sa.
  rewrite (atan2_cos_unit _ _ Ue), (atan2_sin_unit _ _ Ue), (atan2_cos_unit _ _ Ut), (atan2_sin_unit _ _ Ut).
  assert (U1 : ca * cxx m + sa * cxy m = czz m * q).
  { unfold q. rewrite X1, X2, Px, Py. ring. }
  assert (U2 : ca * cyx m + sa * cyy m = - czz m * p).
  { unfold p. rewrite X4, X5, Px, Py. ring. }
  assert (U3 : cxz m = - r * q).
  { unfold q. rewrite X3, Px, Py. ring. }
  assert (U4 : cyz m = r * p).
  { unfold p. rewrite X6, Px, Py. ring. }
  unfold zMat3DFromZYZSC. apply mat3_ext; mod_unfold_g.
  - transitivity (ca * (czz m * q) - sa * p); [ring|]. rewrite <- U1. unfold p; refold3.
    transitivity (cxx m * (ca * ca + sa * sa)); [ring|rewrite S; ring].
  - transitivity (sa * (czz m * q) + ca * p); [ring|]. rewrite <- U1. unfold p; refold3.
    transitivity (cxy m * (ca * ca + sa * sa)); [ring|rewrite S; ring].
  - rewrite U3; ring.
  - transitivity (ca * (- czz m * p) - sa * q); [ring|]. rewrite <- U2. unfold q; refold3.
    transitivity (cyx m * (ca * ca + sa * sa)); [ring|rewrite S; ring].
  - transitivity (sa * (- czz m * p) + ca * q); [ring|]. rewrite <- U2. unfold q; refold3.
    transitivity (cyy m * (ca * ca + sa * sa)); [ring|rewrite S; ring].
  - rewrite U4; ring.
  - lra. - lra. - ring.
Qed.
Lemma zyz_recover h p b : - PI < h <= PI -> 0 < p < PI -> - PI < b <= PI ->
  zMat3DToZYZ (zMat3DFromZYZ h p b) = V3 h p b.
Proof.
  intros Hh Hp Hb. assert (Hs : 0 < sin p) by (apply sin_gt_0; lra).
  unfold zMat3DToZYZ, zMat3DFromZYZ, zMat3DFromZYZSC, zMat3DCreate, of_b. cbv zeta. pcbn.
  rewrite (Rmult_comm (sin h)), (Rmult_comm (cos h) (sin p)).
  rewrite (atan2_scale (sin p) h) by assumption.
  pose proof (cos2_sin2 h) as S.
  f_equal.
  - match goal with |- atan2 ?y ?x = _ => replace y with (1 * sin p); [replace x with (1 * cos p) by ring|] end.
    + apply atan2_scale; lra.
    + transitivity (sin p * (cos h * cos h + sin h * sin h)); [rewrite S; ring|ring].
  - match goal with |- atan2 ?y ?x = _ => replace y with (1 * sin b); [replace x with (1 * cos b)|] end.
    + apply atan2_scale; lra.
    + transitivity (cos b * (cos h * cos h + sin h * sin h)); [rewrite S; ring|ring].
    + transitivity (sin b * (cos h * cos h + sin h * sin h)); [rewrite S; ring|ring].
Qed.

(** ** angle-axis *)
Lemma rodm_mvec n t v : mvec (rodm n t) v = rodrigues n t v.
Proof. unfold rodm, rodrigues. vring. Qed.
Lemma rodm_rotation n t : norm n = 1 -> rotation (rodm n t).
Proof.
  intros H. assert (D : dot n n = 1) by (apply norm_unit, H).
  split.
  - apply mvec_ext. intros v. rewrite mvec_mmul, mvec_id.
    assert (K : forall w, dot (mvec (mtr (rodm n t)) (mvec (rodm n t) v)) w = dot v w).
    { intros w. rewrite dot_mvec, mtr_mtr, !rodm_mvec. apply rodrigues_dot, H. }
    pose proof (K (V3 1 0 0)) as K1. pose proof (K (V3 0 1 0)) as K2. pose proof (K (V3 0 0 1)) as K3.
    set (w := mvec _ _) in *. apply vec3_ext; unfold dot in *; pcbn; lra.
  - pose proof (cos2_sin2 t) as S. set (c := cos t) in *. set (s := sin t) in *.
    assert (E : mdet (rodm n t) = c * c * c + c * c * (1 - c) * dot n n + c * s * s * dot n n
              + (1 - c) * s * s * dot n n * dot n n).
    { unfold rodm; fold c; fold s. spec_unfold; ring. }
    rewrite E, D. replace (s * s) with (1 - c * c) by lra.
    transitivity (c * c * c + c * c * (1 - c) + c * (s * s) + (1 - c) * (s * s)); [ring|].
    replace (s * s) with (1 - c * c) by lra. ring.
Qed.
Lemma fromaa_tiny aa : negligible aa -> zMat3DFromAA aa = mid.
Proof. intros H. unfold zMat3DFromAA. rewrite (proj2 (zVec3DIsTiny_true aa) H). reflexivity. Qed.
Lemma fromaa_ok aa : ~ negligible aa ->
  exists n, norm n = 1 /\ vscale (norm aa) n = aa /\ zMat3DFromAA aa = rodm n (norm aa).
Proof.
  intros H. pose proof (nonneg_norm_pos aa H) as Hp. exists (vscale (1 / norm aa) aa).
  destruct (unit_scale aa Hp) as (U & V). split; [exact U|]. split; [exact V|].
  unfold zMat3DFromAA. rewrite (proj2 (zVec3DIsTiny_false aa) H). cbv zeta. zvec.
  set (n := vscale (1 / norm aa) aa) in *. apply norm_unit in U.
  set (l := norm aa) in *. clearbody l n. destruct n as [x y z].
  unfold rodm. assert (E : z * z = 1 - x * x - y * y) by (spec_unfold; lra).
  apply mat3_ext; mod_unfold; ring_simplify; ring [E].
Qed.
Lemma fromaa_rot v aa : zVec3DRot v aa = Some (mvec (zMat3DFromAA aa) v).
Proof.
  destruct (zVec3DIsTiny aa) eqn:E.
  - apply zVec3DIsTiny_true in E. rewrite rot3_tiny, fromaa_tiny, mvec_id by assumption. reflexivity.
  - apply zVec3DIsTiny_false in E. destruct (fromaa_ok aa E) as (n & U & V & ->).
    destruct (rot3_spec v aa E) as (n' & U' & V' & ->). f_equal.
    assert (n = n').
    { pose proof (nonneg_norm_pos aa E) as Hp. rewrite <- V' in V at 2.
      apply (f_equal (vscale (/ norm aa))) in V. destruct n as [a b c], n' as [a' b' c'].
      unfold vscale in V; pcbn. injection V as V1 V2 V3.
      assert (Q : forall k, / norm aa * (norm aa * k) = k) by (intros; field; lra).
      rewrite !Q in *. subst; reflexivity. }
    subst n'. rewrite rodm_mvec. reflexivity.
Qed.
Lemma fromaa_rotation aa : rotation (zMat3DFromAA aa).
Proof.
  destruct (zVec3DIsTiny aa) eqn:E.
  - apply zVec3DIsTiny_true in E. rewrite fromaa_tiny by assumption. apply rotation_mid.
  - apply zVec3DIsTiny_false in E. destruct (fromaa_ok aa E) as (n & U & V & ->).
    apply rodm_rotation, U.
Qed.
Lemma rodm_trace n t : norm n = 1 -> mtrace (rodm n t) = 1 + 2 * cos t.
Proof.
  intros H. apply norm_unit in H. transitivity (3 * cos t + (1 - cos t) * dot n n).
  - unfold rodm. spec_unfold; ring.
  - rewrite H; ring.
Qed.
Lemma rodm_axis n t k : norm n = 1 -> mvec (rodm n t) (vscale k n) = vscale k n.
Proof. intros H. rewrite rodm_mvec. apply rodrigues_axis, H. Qed.

Lemma skewv_rodm n t : skewv (rodm n t) = vscale (2 * sin t) n.
Proof. unfold skewv, rodm. vring. Qed.

Lemma not_negligible_norm v : ~ negligible v -> zTOL <= norm v.
Proof.
  intros H. destruct (Rle_or_lt zTOL (norm v)) as [?|L]; auto. exfalso; apply H.
  destruct (norm_ge_comp v) as (A & B & C). unfold negligible. lra.
Qed.

(** angle-axis -> matrix -> angle-axis *)
Lemma aa_recover aa : ~ negligible aa -> norm aa < PI -> zTOL <= 2 * sin (norm aa) ->
  zMat3DToAA (zMat3DFromAA aa) = aa.
Proof.
  intros H Hl Hs. destruct (fromaa_ok aa H) as (n & U & V & E). rewrite E.
  pose proof zTOL_pos as Ht. pose proof (not_negligible_norm aa H) as Hn.
  set (l := norm aa) in *.
  unfold zMat3DToAA. cbv zeta. fold (skewv (rodm n l)). rewrite skewv_rodm. zvec.
  rewrite norm_scale, U, Rmult_1_r, (Rabs_right (2 * sin l)) by lra.
  change (cxx (rodm n l) + cyy (rodm n l) + czz (rodm n l)) with (mtrace (rodm n l)).
  rewrite rodm_trace by exact U.
  replace (1 + 2 * cos l - 1) with (2 * cos l) by ring.
  rewrite atan2_scale by lra.
  assert (T1 : zIsTiny l = false) by (apply zIsTiny_false; rewrite Rabs_right; lra). rewrite T1.
  assert (T2 : zIsTiny (2 * sin l) = false) by (apply zIsTiny_false; rewrite Rabs_right; lra). rewrite T2.
  cbn [negb]. rewrite <- V. apply vec3_ext; unfold vscale; pcbn; field; lra.
Qed.

(** half turn: the vector is recovered up to sign *)
Lemma rodm_pi n : rodm n PI = madd (mscale 2 (outer n n)) (mscale (-1) mid).
Proof. unfold rodm. rewrite cos_PI, sin_PI. mring. Qed.

Section HalfTurn.
(* one branch of the singular case: diagonal entry 2a²-1 is the largest *)
Lemma halfturn_branch a b c : a * a + b * b + c * c = 1 -> b * b <= a * a -> c * c <= a * a ->
  let s := sqrt ((1/2) * (2 * (a * a) - 1) + (1/2)) in
  0 < s /\ exists e, (e = 1 \/ e = -1) /\ s = e * a /\ (1/2) * (2 * (a * b)) / s = e * b /\ (1/2) * (2 * (a * c)) / s = e * c.
Proof.
  intros H Hb Hc s.
  assert (Es : s = Rabs a).
  { unfold s. replace ((1/2) * (2 * (a * a) - 1) + (1/2)) with (Rsqr a) by (unfold Rsqr; field). apply sqrt_Rsqr_abs. }
  assert (Ha : a <> 0) by (intros ->; nra).
  split; [rewrite Es; apply Rabs_pos_lt, Ha|].
  exists (if Rle_dec 0 a then 1 else -1).
  rewrite Es. unfold Rabs. destruct (Rcase_abs a); destruct (Rle_dec 0 a); try lra.
  - split; [right; reflexivity|]. split; [ring|]. split; field; lra.
  - split; [left; reflexivity|]. split; [ring|]. split; field; lra.
Qed.
End HalfTurn.

Lemma atan2_pi : atan2 0 (-2) = PI.
Proof.
  pose proof PI_RGT_0. rewrite <- (atan2_scale 2 PI) at 1 by lra.
  rewrite sin_PI, cos_PI. f_equal; lra.
Qed.
Lemma PI_not_tiny : zIsTiny PI = false.
Proof.
  apply zIsTiny_false. pose proof PI_RGT_0. rewrite Rabs_right by lra.
  pose proof zTOL_small. pose proof (PI2_3_2). unfold PI2 in *. lra.
Qed.
Lemma toaa_halfturn n : norm n = 1 ->
  exists e, (e = 1 \/ e = -1) /\ zMat3DToAA (rodm n PI) = vscale (e * PI) n.
Proof.
  intros U. pose proof U as D. apply norm_unit in D.
  unfold zMat3DToAA. cbv zeta. fold (skewv (rodm n PI)). rewrite skewv_rodm, sin_PI. zvec.
  rewrite norm_scale, Rmult_0_r, Rabs_R0, Rmult_0_l.
  change (cxx (rodm n PI) + cyy (rodm n PI) + czz (rodm n PI)) with (mtrace (rodm n PI)).
  rewrite rodm_trace, cos_PI by exact U. replace (1 + 2 * -1 - 1) with (-2) by ring.
  rewrite atan2_pi, PI_not_tiny, zIsTiny_0. cbn [negb].
  rewrite rodm_pi. destruct n as [x y z].
  assert (S : x * x + y * y + z * z = 1) by (spec_unfold; lra). clear U D.
  set (m := madd _ _).
  assert (Mxx : cxx m = 2 * (x * x) - 1) by (unfold m; spec_unfold_g; ring).
  assert (Myy : cyy m = 2 * (y * y) - 1) by (unfold m; spec_unfold_g; ring).
  assert (Mzz : czz m = 2 * (z * z) - 1) by (unfold m; spec_unfold_g; ring).
  assert (Mxy : cxy m = 2 * (x * y)) by (unfold m; spec_unfold_g; ring).
  assert (Mxz : cxz m = 2 * (x * z)) by (unfold m; spec_unfold_g; ring).
  assert (Myx : cyx m = 2 * (y * x)) by (unfold m; spec_unfold_g; ring).
  assert (Myz : cyz m = 2 * (y * z)) by (unfold m; spec_unfold_g; ring).
  assert (Mzx : czx m = 2 * (z * x)) by (unfold m; spec_unfold_g; ring).
  assert (Mzy : czy m = 2 * (z * y)) by (unfold m; spec_unfold_g; ring).
  clearbody m.
  assert (B0 : y * y <= x * x -> z * z <= x * x -> exists e, (e = 1 \/ e = -1) /\
     V3 (PI * sqrt (1 / 2 * cxx m + 1 / 2)) (PI * (1 / 2 * cxy m / sqrt (1 / 2 * cxx m + 1 / 2)))
       (PI * (1 / 2 * cxz m / sqrt (1 / 2 * cxx m + 1 / 2))) = vscale (e * PI) (V3 x y z)).
  { intros L1 L2. rewrite Mxx, Mxy, Mxz.
    destruct (halfturn_branch x y z ltac:(lra) L1 L2) as (Hs & e & He & E1 & E2 & E3).
    exists e. split; [exact He|]. unfold vscale; pcbn. rewrite E1 in *. f_equal; [ring|rewrite E2; ring|rewrite E3; ring]. }
  assert (B1 : x * x <= y * y -> z * z <= y * y -> exists e, (e = 1 \/ e = -1) /\
     V3 (PI * (1 / 2 * cyx m / sqrt (1 / 2 * cyy m + 1 / 2))) (PI * sqrt (1 / 2 * cyy m + 1 / 2))
       (PI * (1 / 2 * cyz m / sqrt (1 / 2 * cyy m + 1 / 2))) = vscale (e * PI) (V3 x y z)).
  { intros L1 L2. rewrite Myy, Myx, Myz.
    destruct (halfturn_branch y z x ltac:(lra) L2 L1) as (Hs & e & He & E1 & E2 & E3).
    exists e. split; [exact He|]. unfold vscale; pcbn. rewrite E1 in *. f_equal; [rewrite E3; ring|ring|rewrite E2; ring]. }
  assert (B2 : x * x <= z * z -> y * y <= z * z -> exists e, (e = 1 \/ e = -1) /\
     V3 (PI * (1 / 2 * czx m / sqrt (1 / 2 * czz m + 1 / 2))) (PI * (1 / 2 * czy m / sqrt (1 / 2 * czz m + 1 / 2)))
       (PI * sqrt (1 / 2 * czz m + 1 / 2)) = vscale (e * PI) (V3 x y z)).
  { intros L1 L2. rewrite Mzz, Mzx, Mzy.
    destruct (halfturn_branch z x y ltac:(lra) L1 L2) as (Hs & e & He & E1 & E2 & E3).
    exists e. split; [exact He|]. unfold vscale; pcbn. rewrite E1 in *. f_equal; [rewrite E2; ring|rewrite E3; ring|ring]. }
  destruct (Rltb_reflect (cyy m) (cxx m)) as [A|A];
  [destruct (Rltb_reflect (czz m) (cxx m)) as [B|B]|destruct (Rltb_reflect (czz m) (cyy m)) as [B|B]];
  cbv beta iota zeta delta [Nat.modulo Nat.divmod Nat.add Nat.sub fst snd vset ve vscale vx vy vz me zMat3DVec bx by_ bz];
  refold3g; fold (vscale 1 (V3 1 1 1)).
  - apply B0; lra.
  - apply B2; lra.
  - apply B1; lra.
  - apply B2; lra.
Qed.

(** ** every rotation is an axis rotation *)
Lemma rot_skew m : rotation m ->
  dot (skewv m) (skewv m) = (3 - mtrace m) * (1 + mtrace m) /\
  (forall r c, (r < 3)%nat -> (c < 3)%nat -> vnth (skewv m) r * vnth (skewv m) c =
     (1 + mtrace m) * (mnth m r c + mnth m c r - (if Nat.eqb r c then mtrace m - 1 else 0))).
Proof.
  intros H. pose proof (rotation_eqs m H) as (C & R & X).
  destruct C as (C1 & C2 & C3 & C4 & C5 & C6). destruct R as (R1 & R2 & R3 & R4 & R5 & R6).
  destruct X as (X1 & X2 & X3 & X4 & X5 & X6 & X7 & X8 & X9). clear H.
  destruct m as [xx xy xz yx yy yz zx zy zz]. unfold skewv, mtrace. pcbn.
  assert (Qx : (yz - zy) * (yz - zy) = (1 + (xx + yy + zz)) * (xx + xx - (xx + yy + zz - 1))).
  { transitivity (yz * yz + zy * zy - 2 * (yz * zy)); [ring|].
    replace (yz * zy) with (yy * zz - xx) by lra. replace (yz * yz) with (1 - xz * xz - zz * zz) by lra.
    replace (zy * zy) with (1 - xy * xy - yy * yy) by lra.
    replace (xz * xz) with (1 - xx * xx - xy * xy) by lra. ring. }
  assert (Qy : (zx - xz) * (zx - xz) = (1 + (xx + yy + zz)) * (yy + yy - (xx + yy + zz - 1))).
  { transitivity (zx * zx + xz * xz - 2 * (zx * xz)); [ring|].
    replace (zx * xz) with (zz * xx - yy) by lra. replace (zx * zx) with (1 - zy * zy - zz * zz) by lra.
    replace (xz * xz) with (1 - xx * xx - xy * xy) by lra.
    replace (zy * zy) with (1 - xy * xy - yy * yy) by lra. ring. }
  assert (Qz : (xy - yx) * (xy - yx) = (1 + (xx + yy + zz)) * (zz + zz - (xx + yy + zz - 1))).
  { transitivity (xy * xy + yx * yx - 2 * (xy * yx)); [ring|].
    replace (xy * yx) with (xx * yy - zz) by lra. replace (xy * xy) with (1 - xz * xz - xx * xx) by lra.
    replace (yx * yx) with (1 - yz * yz - yy * yy) by lra.
    replace (xz * xz) with (1 - yz * yz - zz * zz) by lra. ring. }
  assert (Qxy : (yz - zy) * (zx - xz) = (1 + (xx + yy + zz)) * (yx + xy)).
  { transitivity (yz * zx - xz * yz - zx * zy + zy * xz); [ring|].
    replace (yz * zx) with (xy + yx * zz) by lra. replace (zy * xz) with (yx + zz * xy) by lra.
    replace (xz * yz) with (- xx * yx - xy * yy) by lra. replace (zx * zy) with (- xx * xy - yx * yy) by lra. ring. }
  assert (Qyz : (zx - xz) * (xy - yx) = (1 + (xx + yy + zz)) * (zy + yz)).
  { transitivity (zx * xy - yx * zx - xy * xz + xz * yx); [ring|].
    replace (zx * xy) with (yz + zy * xx) by lra. replace (xz * yx) with (zy + xx * yz) by lra.
    replace (yx * zx) with (- yy * zy - yz * zz) by lra. replace (xy * xz) with (- yy * yz - zy * zz) by lra. ring. }
  assert (Qzx : (xy - yx) * (yz - zy) = (1 + (xx + yy + zz)) * (xz + zx)).
  { transitivity (xy * yz - zy * xy - yz * yx + yx * zy); [ring|].
    replace (xy * yz) with (zx + xz * yy) by lra. replace (yx * zy) with (xz + yy * zx) by lra.
    replace (zy * xy) with (- zz * xz - zx * xx) by lra. replace (yz * yx) with (- zz * zx - xz * xx) by lra. ring. }
  split.
  - unfold dot; pcbn. rewrite Qx, Qy, Qz. ring.
  - intros r c Hr Hc. destruct r as [|[|[|r]]]; try lia; destruct c as [|[|[|c]]]; try lia;
    cbn [vnth mnth col0 col1 col2 vx vy vz cxx cxy cxz cyx cyy cyz czx czy czz Nat.eqb]; lra.
Qed.

Lemma rot_is_rodm m : rotation m -> skewv m <> v3zero ->
  let l := norm (skewv m) in
  m = rodm (vscale (1 / l) (skewv m)) (atan2 l (mtrace m - 1)) /\
  2 * sin (atan2 l (mtrace m - 1)) = l /\ 2 * cos (atan2 l (mtrace m - 1)) = mtrace m - 1.
Proof.
  intros H N l. destruct (rot_skew m H) as (Hl & Q).
  assert (Hp : 0 < l) by (apply norm_pos, N).
  pose proof (norm_sqr (skewv m)) as Hn. fold l in Hn. rewrite Hl in Hn.
  set (t := mtrace m) in *.
  assert (Ht : 0 < (3 - t) * (1 + t)) by nra.
  assert (Ht' : 1 + t <> 0 /\ 3 - t <> 0) by (split; intros E; rewrite E in Ht; lra).
  assert (Hh : hyp (t - 1) l = 2).
  { unfold hyp. apply sqrt_unique; [lra|]. rewrite Hn. ring. }
  assert (Ec : 2 * cos (atan2 l (t - 1)) = t - 1).
  { rewrite atan2_cos by lra. rewrite Hh. field. }
  assert (Es : 2 * sin (atan2 l (t - 1)) = l).
  { rewrite atan2_sin by lra. rewrite Hh. field. }
  split; [|split; assumption].
  set (a := atan2 l (t - 1)) in *. 
  assert (E1 : cos a = (t - 1) / 2) by lra. assert (E2 : sin a = l / 2) by lra.
  unfold rodm. rewrite E1, E2.
  assert (K : forall r c, (r < 3)%nat -> (c < 3)%nat ->
     (1 - (t - 1) / 2) * ((1 / l * vnth (skewv m) r) * (1 / l * vnth (skewv m) c)) =
     (mnth m r c + mnth m c r - (if Nat.eqb r c then t - 1 else 0)) / 2).
  { intros r c Hr Hc. transitivity ((1 - (t - 1) / 2) * (vnth (skewv m) r * vnth (skewv m) c) / (l * l)); [field; lra|].
    rewrite Q by assumption. fold t. rewrite Hn. field. lra. }
  pose proof (K 0 0 ltac:(lia) ltac:(lia))%nat as K00. pose proof (K 1 1 ltac:(lia) ltac:(lia))%nat as K11.
  pose proof (K 2 2 ltac:(lia) ltac:(lia))%nat as K22. pose proof (K 0 1 ltac:(lia) ltac:(lia))%nat as K01.
  pose proof (K 1 2 ltac:(lia) ltac:(lia))%nat as K12. pose proof (K 2 0 ltac:(lia) ltac:(lia))%nat as K20.
  clear K Q. cbn [vnth mnth col0 col1 col2 vx vy vz Nat.eqb skewv] in *.
  assert (L : forall w, l / 2 * (1 / l * w) = w / 2) by (intros; field; lra).
  set (kx := 1 / l * (cyz m - czy m)) in *. set (ky := 1 / l * (czx m - cxz m)) in *. set (kz := 1 / l * (cxy m - cyx m)) in *.
  pose proof (L (cyz m - czy m)) as Lx. pose proof (L (czx m - cxz m)) as Ly. pose proof (L (cxy m - cyx m)) as Lz.
  fold kx in Lx. fold ky in Ly. fold kz in Lz.
  assert (Esk : vscale (1 / l) (skewv m) = V3 kx ky kz) by reflexivity. rewrite Esk.
  clearbody kx ky kz. clear L E1 E2. clearbody t.
  apply mat3_ext; spec_unfold_g; lra.
Qed.

Lemma sin_le_id x : 0 <= x -> sin x <= x.
Proof. intros [H| <-]; [left; apply sin_lt_x; exact H|rewrite sin_0; lra]. Qed.

Lemma vscale_inj k a b : k <> 0 -> vscale k a = vscale k b -> a = b.
Proof.
  intros Hk H. apply (f_equal (vscale (/ k))) in H. destruct a as [a1 a2 a3], b as [b1 b2 b3].
  unfold vscale in H; pcbn. rewrite <- !Rmult_assoc, Rinv_l, !Rmult_1_l in H by exact Hk. exact H.
Qed.
Lemma fromaa_axis n t : norm n = 1 -> 2 * zTOL <= t -> zMat3DFromAA (vscale t n) = rodm n t.
Proof.
  intros U Ht. pose proof zTOL_pos as Hz.
  assert (En : norm (vscale t n) = t) by (rewrite norm_scale, U, Rabs_right; lra).
  assert (N : ~ negligible (vscale t n)) by (apply long_not_negligible; lra).
  destruct (fromaa_ok _ N) as (n' & U' & V' & E). rewrite E, En in *.
  f_equal. eapply (vscale_inj t); [lra|exact V'].
Qed.
Lemma rodm_neg n : rodm (vscale (-1) n) PI = rodm n PI.
Proof. rewrite !rodm_pi. mring. Qed.

(** symmetric rotations are the identity or half turns *)
Lemma sym_rotation m : rotation m -> skewv m = v3zero ->
  m = mid \/ exists n, norm n = 1 /\ m = rodm n PI.
Proof.
  intros H S. destruct (rot_skew m H) as (Hl & _). rewrite S in Hl.
  unfold skewv, v3zero in S. injection S as S1 S2 S3.
  unfold mtrace in Hl. replace (dot v3zero v3zero) with 0 in Hl by (spec_unfold; ring).
  destruct m as [xx xy xz yx yy yz zx zy zz]. pcbn.
  assert (yz = zy) by lra. assert (zx = xz) by lra. assert (xy = yx) by lra. subst yz zx xy.
  clear S1 S2 S3.
  pose proof (rotation_eqs _ H) as (C & R & X). pcbn.
  destruct C as (C1 & C2 & C3 & C4 & C5 & C6). destruct R as (R1 & R2 & R3 & R4 & R5 & R6).
  destruct X as (X1 & X2 & X3 & X4 & X5 & X6 & X7 & X8 & X9).
  symmetry in Hl. apply Rmult_integral in Hl. destruct Hl as [Hl|Hl].
  - left. assert (B : xx <= 1 /\ yy <= 1 /\ zz <= 1) by (repeat split; nra).
    assert (B1 : xx = 1 /\ yy = 1 /\ zz = 1) by lra. destruct B1 as (-> & -> & ->).
    assert (B2 : yx = 0 /\ xz = 0 /\ zy = 0) by (repeat split; nra). destruct B2 as (-> & -> & ->).
    apply mat3_ext; spec_unfold_g; ring.
  - right.
    assert (Pxy : (1 + xx) * (1 + yy) = yx * yx) by lra.
    assert (Pyz : (1 + yy) * (1 + zz) = zy * zy) by lra.
    assert (Pzx : (1 + zz) * (1 + xx) = xz * xz) by lra.
    assert (Px : (1 + xx) * zy = yx * xz) by lra.
    assert (Py : (1 + yy) * xz = yx * zy) by lra.
    assert (Pz : (1 + zz) * yx = xz * zy) by lra.
    assert (B : -1 <= xx /\ -1 <= yy /\ -1 <= zz) by (repeat split; nra).
    (* pick a positive diagonal of (m+1)/2 *)
    assert (K : 0 < 1 + xx \/ 0 < 1 + yy \/ 0 < 1 + zz) by lra.
    assert (G : forall n, norm n = 1 -> 2 * (vx n * vx n) = 1 + xx -> 2 * (vy n * vy n) = 1 + yy ->
      2 * (vz n * vz n) = 1 + zz -> 2 * (vx n * vy n) = yx -> 2 * (vy n * vz n) = zy -> 2 * (vz n * vx n) = xz ->
      M3 xx yx xz yx yy zy xz zy zz = rodm n PI).
    { intros n _ G1 G2 G3 G4 G5 G6. rewrite rodm_pi. apply mat3_ext; spec_unfold_g; lra. }
    assert (Hn : forall n, 2 * (vx n * vx n) = 1 + xx -> 2 * (vy n * vy n) = 1 + yy ->
      2 * (vz n * vz n) = 1 + zz -> norm n = 1).
    { intros n G1 G2 G3. apply norm_unit. unfold dot. lra. }
    destruct K as [K|[K|K]].
    + set (s := sqrt ((1 + xx) / 2)). assert (Hs : 0 < s) by (apply sqrt_pos_lt; lra).
      assert (Ss : s * s = (1 + xx) / 2) by (apply sqrt_sqr'; lra).
      assert (F : forall p q, (p / (2 * s)) * (q / (2 * s)) = p * q / (4 * ((1 + xx) / 2))) by (intros; rewrite <- Ss; field; lra).
      assert (F' : forall p, s * (p / (2 * s)) = p / 2) by (intros; field; lra).
      exists (V3 s (yx / (2 * s)) (xz / (2 * s))).
      assert (G2 : 2 * (yx / (2 * s) * (yx / (2 * s))) = 1 + yy) by (rewrite F, <- Pxy; field; lra).
      assert (G3 : 2 * (xz / (2 * s) * (xz / (2 * s))) = 1 + zz) by (rewrite F, <- Pzx; field; lra).
      assert (N : norm (V3 s (yx / (2 * s)) (xz / (2 * s))) = 1) by (apply Hn; pcbn; lra).
      split; [exact N|]. apply G; pcbn; auto; try lra.
      * rewrite F'; lra.
      * rewrite F, <- Px. field; lra.
      * rewrite Rmult_comm with (r1 := xz / _), F'; lra.
    + set (s := sqrt ((1 + yy) / 2)). assert (Hs : 0 < s) by (apply sqrt_pos_lt; lra).
      assert (Ss : s * s = (1 + yy) / 2) by (apply sqrt_sqr'; lra).
      assert (F : forall p q, (p / (2 * s)) * (q / (2 * s)) = p * q / (4 * ((1 + yy) / 2))) by (intros; rewrite <- Ss; field; lra).
      assert (F' : forall p, s * (p / (2 * s)) = p / 2) by (intros; field; lra).
      exists (V3 (yx / (2 * s)) s (zy / (2 * s))).
      assert (G1 : 2 * (yx / (2 * s) * (yx / (2 * s))) = 1 + xx) by (rewrite F, <- Pxy; field; lra).
      assert (G3 : 2 * (zy / (2 * s) * (zy / (2 * s))) = 1 + zz) by (rewrite F, <- Pyz; field; lra).
      assert (N : norm (V3 (yx / (2 * s)) s (zy / (2 * s))) = 1) by (apply Hn; pcbn; lra).
      split; [exact N|]. apply G; pcbn; auto; try lra.
      * rewrite Rmult_comm with (r1 := yx / _), F'; lra.
      * rewrite F'; lra.
      * rewrite F, (Rmult_comm zy), <- Py. field; lra.
    + set (s := sqrt ((1 + zz) / 2)). assert (Hs : 0 < s) by (apply sqrt_pos_lt; lra).
      assert (Ss : s * s = (1 + zz) / 2) by (apply sqrt_sqr'; lra).
      assert (F : forall p q, (p / (2 * s)) * (q / (2 * s)) = p * q / (4 * ((1 + zz) / 2))) by (intros; rewrite <- Ss; field; lra).
      assert (F' : forall p, s * (p / (2 * s)) = p / 2) by (intros; field; lra).
      exists (V3 (xz / (2 * s)) (zy / (2 * s)) s).
      assert (G1 : 2 * (xz / (2 * s) * (xz / (2 * s))) = 1 + xx) by (rewrite F, <- Pzx; field; lra).
      assert (G2 : 2 * (zy / (2 * s) * (zy / (2 * s))) = 1 + yy) by (rewrite F, <- Pyz; field; lra).
      assert (N : norm (V3 (xz / (2 * s)) (zy / (2 * s)) s) = 1) by (apply Hn; pcbn; lra).
      split; [exact N|]. apply G; pcbn; auto; try lra.
      * rewrite F, <- Pz. field; lra.
      * rewrite Rmult_comm with (r1 := zy / _), F'; lra.
      * rewrite F'; lra.
Qed.

Lemma toaa_ident : zMat3DToAA mid = v3zero.
Proof.
  unfold zMat3DToAA. cbv zeta. fold (skewv mid).
  replace (skewv mid) with v3zero by (apply vec3_ext; unfold skewv; spec_unfold; ring). zvec.
  replace (norm v3zero) with 0 by (symmetry; unfold norm; apply sqrt_unique; spec_unfold; ring || lra).
  replace (cxx mid + cyy mid + czz mid - 1) with 2 by (spec_unfold; ring).
  replace (atan2 0 2) with 0.
  - rewrite zIsTiny_0. reflexivity.
  - pose proof PI_RGT_0. rewrite <- (atan2_scale 2 0) at 1 by lra. rewrite sin_0, cos_0. f_equal; lra.
Qed.

Lemma aa_roundtrip m : rotation m -> norm (skewv m) = 0 \/ 4 * zTOL <= norm (skewv m) ->
  zMat3DFromAA (zMat3DToAA m) = m.
Proof.
  intros H [L|L].
  - apply norm_zero_iff in L. destruct (sym_rotation m H L) as [->|(n & U & ->)].
    + rewrite toaa_ident. apply fromaa_tiny, zero_negligible.
    + destruct (toaa_halfturn n U) as (e & He & ->). pose proof PI_RGT_0. pose proof zTOL_small.
      pose proof PI2_3_2. unfold PI2 in *.
      assert (2 * zTOL <= PI) by lra.
      destruct He as [->| ->].
      * rewrite Rmult_1_l. apply fromaa_axis; auto.
      * replace (vscale (-1 * PI) n) with (vscale PI (vscale (-1) n)) by vring.
        rewrite fromaa_axis; [apply rodm_neg| |assumption].
        rewrite norm_scale, U, Rmult_1_r. unfold Rabs. destruct Rcase_abs; lra.
  - pose proof zTOL_pos as Hz. assert (N : skewv m <> v3zero).
    { intros E. apply norm_zero_iff in E. lra. }
    destruct (rot_is_rodm m H N) as (E & Es & Ec). set (l := norm (skewv m)) in *.
    set (a := atan2 l (mtrace m - 1)) in *.
    assert (Ha : 0 <= a) by (apply atan2_nonneg; lra).
    pose proof (sin_le_id a Ha) as Hsa.
    assert (U : norm (vscale (1 / l) (skewv m)) = 1) by (apply unit_scale; unfold l in *; lra).
    transitivity (zMat3DFromAA (vscale a (vscale (1 / l) (skewv m)))).
    + f_equal. unfold zMat3DToAA. cbv zeta. fold (skewv m). zvec. fold l.
      change (cxx m + cyy m + czz m) with (mtrace m). fold a.
      assert (T1 : zIsTiny a = false) by (apply zIsTiny_false; rewrite Rabs_right; lra). rewrite T1.
      assert (T2 : zIsTiny l = false) by (apply zIsTiny_false; rewrite Rabs_right; lra). rewrite T2.
      cbn [negb]. apply vec3_ext; unfold vscale; pcbn; field; lra.
    + rewrite fromaa_axis; [symmetry; exact E|exact U|lra].
Qed.
(** a half-turn vector comes back up to sign *)
Lemma aa_recover_pi aa : norm aa = PI ->
  zMat3DToAA (zMat3DFromAA aa) = aa \/ zMat3DToAA (zMat3DFromAA aa) = vneg aa.
Proof.
  intros H. pose proof PI_RGT_0. pose proof zTOL_small. pose proof PI2_3_2. unfold PI2 in *.
  assert (N : ~ negligible aa) by (apply long_not_negligible; lra).
  destruct (fromaa_ok aa N) as (n & U & V & E). rewrite E, H in *.
  destruct (toaa_halfturn n U) as (e & He & ->). rewrite <- V.
  destruct He as [->| ->]; [left|right]; vring.
Qed.
