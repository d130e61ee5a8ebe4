(** Facts about Euler parameters (ModelEP.v) and angular velocity conversions. *)
From Coquelicot Require Import Coquelicot.
From Verif Require Export FactsMat2 ModelEP.
Open Scope R_scope.

Ltac qdes := repeat match goal with q : quat |- _ => destruct q as [? ? ? ?] end.
Ltac qred := cbv beta iota zeta delta [qunit qnorm2 qneg qdot qmul exv of_ex zMat3DFromEP zEPRotVec3D zEPVel2AngVel zAngVel2EPVel
  zEPCascade zEPMul zEPSub zEPAdd zEPRev zEPInnerProd zSqr qw qx qy qz
  zVec3DOuterProd zVec3DMul zVec3DCat zVec3DSqrNorm zVec3DInnerProd zVec3DAdd zVec3DSub zVec3DRev zMat3DCreate of_b vx vy vz cxx cxy cxz cyx cyy cyz czx czy czz] in *;
  spec_unfold.

Lemma quat_ext a b : qw a = qw b -> qx a = qx b -> qy a = qy b -> qz a = qz b -> a = b.
Proof. destruct a as [? ? ? ?], b as [? ? ? ?]; pcbn; intros; subst; reflexivity. Qed.

Lemma qdot_spec p q : zEPInnerProd p q = qdot p q.
Proof. qdes; qred; ring. Qed.

(** ** matrix of a quaternion *)
Lemma fromep_mmul p q : zMat3DFromEP (qmul p q) = mmul (zMat3DFromEP p) (zMat3DFromEP q).
Proof. apply mat3_ext; qdes; qred; ring. Qed.
Lemma fromep_orth q : mmul (mtr (zMat3DFromEP q)) (zMat3DFromEP q) = mscale (qnorm2 q * qnorm2 q) mid.
Proof. apply mat3_ext; qdes; qred; ring. Qed.
Lemma fromep_det q : mdet (zMat3DFromEP q) = qnorm2 q * qnorm2 q * qnorm2 q.
Proof. qdes; qred; ring. Qed.
Lemma fromep_rotation q : qunit q -> rotation (zMat3DFromEP q).
Proof.
  intros H. split.
  - rewrite fromep_orth, H. mring.
  - rewrite fromep_det, H. ring.
Qed.
Lemma fromep_neg q : zMat3DFromEP (qneg q) = zMat3DFromEP q.
Proof. apply mat3_ext; qdes; qred; ring. Qed.
Lemma eprot_spec q v : zEPRotVec3D q v = mvec (zMat3DFromEP q) v.
Proof. destruct v as [x y z]. apply vec3_ext; qdes; qred; ring. Qed.
Lemma cascade_spec p q : zEPCascade p q = qmul q p.
Proof. apply quat_ext; qdes; qred; ring. Qed.
Lemma qnorm2_mul p q : qnorm2 (qmul p q) = qnorm2 p * qnorm2 q.
Proof. qdes; qred; ring. Qed.
Lemma cascade_full p q : qunit p -> qunit q ->
  qunit (zEPCascade p q) /\ zMat3DFromEP (zEPCascade p q) = mmul (zMat3DFromEP q) (zMat3DFromEP p).
Proof.
  intros Hp Hq. rewrite cascade_spec. split; [|apply fromep_mmul].
  unfold qunit in *. rewrite qnorm2_mul, Hp, Hq; ring.
Qed.

(** two unit quaternions give the same matrix only if they are equal or opposite *)
Lemma fromep_inj p q : qunit p -> qunit q -> zMat3DFromEP p = zMat3DFromEP q -> p = q \/ p = qneg q.
Proof.
  intros Hp Hq H.
  assert (E : qdot p q * qdot p q = 1).
  { destruct p as [a b c d], q as [e f g h].
    assert (T : mtrace (mmul (mtr (zMat3DFromEP (Q4 a b c d))) (zMat3DFromEP (Q4 e f g h)))
              = 4 * (qdot (Q4 a b c d) (Q4 e f g h) * qdot (Q4 a b c d) (Q4 e f g h)) - qnorm2 (Q4 a b c d) * qnorm2 (Q4 e f g h)).
    { qred; ring. }
    rewrite <- H in T at 1. rewrite fromep_orth, Hp, Hq in T.
    replace (mtrace (mscale (1 * 1) mid)) with 3 in T by (spec_unfold; ring). lra. }
  assert (D : forall e, e * qdot p q = 1 -> e * e = 1 ->
     (qw p - e * qw q) * (qw p - e * qw q) + (qx p - e * qx q) * (qx p - e * qx q)
     + (qy p - e * qy q) * (qy p - e * qy q) + (qz p - e * qz q) * (qz p - e * qz q) = 0).
  { intros e He Hee. transitivity (qnorm2 p - 2 * (e * qdot p q) + (e * e) * qnorm2 q).
    - unfold qnorm2, qdot. ring.
    - unfold qunit in *. rewrite Hp, Hq, He, Hee. ring. }
  assert (S : forall a b c d, a * a + b * b + c * c + d * d = 0 -> a = 0 /\ b = 0 /\ c = 0 /\ d = 0).
  { intros a b c d K. assert (a * a = 0) by nra. assert (b * b = 0) by nra. assert (c * c = 0) by nra.
    assert (d * d = 0) by nra. repeat split; apply Rsqr_0_uniq; unfold Rsqr; assumption. }
  assert (C : qdot p q = 1 \/ qdot p q = -1).
  { assert (K : (qdot p q - 1) * (qdot p q + 1) = 0) by lra. apply Rmult_integral in K. lra. }
  destruct C as [C|C].
  - left. destruct (S _ _ _ _ (D 1 ltac:(lra) ltac:(lra))) as (A1 & A2 & A3 & A4). apply quat_ext; lra.
  - right. destruct (S _ _ _ _ (D (-1) ltac:(lra) ltac:(lra))) as (A1 & A2 & A3 & A4).
    apply quat_ext; unfold qneg; cbn; lra.
Qed.

(** ** extraction *)
Definition epcore (m : mat3) : quat :=
  let e := (1/2) * sqrt (1 + mtrace m) in let k := (1/4) / e in
  Q4 e (k * (cyz m - czy m)) (k * (czx m - cxz m)) (k * (cxy m - cyx m)).

Lemma epcore_spec m : rotation m -> 0 < 1 + mtrace m -> qunit (epcore m) /\ zMat3DFromEP (epcore m) = m.
Proof.
  intros H Hs. destruct (rot_skew m H) as (_ & Q).
  pose proof (Q 0%nat 0%nat ltac:(lia) ltac:(lia)) as Q00. pose proof (Q 1%nat 1%nat ltac:(lia) ltac:(lia)) as Q11.
  pose proof (Q 2%nat 2%nat ltac:(lia) ltac:(lia)) as Q22. pose proof (Q 0%nat 1%nat ltac:(lia) ltac:(lia)) as Q01.
  pose proof (Q 0%nat 2%nat ltac:(lia) ltac:(lia)) as Q02. pose proof (Q 1%nat 2%nat ltac:(lia) ltac:(lia)) as Q12.
  clear Q. unfold skewv, mnth, vnth, col0, col1, col2 in *. cbn [Nat.eqb] in *. pcbn.
  assert (Hq : 0 < sqrt (1 + mtrace m)) by (apply sqrt_pos_lt, Hs).
  pose proof (sqrt_sqr' (1 + mtrace m) ltac:(lra)) as Hqq.
  unfold epcore. cbv zeta. set (s := 1 + mtrace m) in *. set (r := sqrt s) in *.
  replace ((1/4) / (1/2 * r)) with (/ (2 * r)) by (field; lra).
  set (d1 := cyz m - czy m) in *. set (d2 := czx m - cxz m) in *. set (d3 := cxy m - cyx m) in *.
  assert (K : / (2 * r) * / (2 * r) = / (4 * s)) by (rewrite <- Hqq; field; lra).
  assert (Es : / (4 * s) * s = 1 / 4) by (field; lra).
  assert (Er : r * / (2 * r) = 1 / 2) by (field; lra).
  set (k := / (2 * r)) in *. set (k2 := / (4 * s)) in *. unfold mtrace in s.
  assert (P1 : (k * d1) * (k * d1) = 1/4 * (cxx m + cxx m - (mtrace m - 1))).
  { transitivity (k * k * (d1 * d1)); [ring|]. rewrite K, Q00, <- Rmult_assoc, Es. unfold mtrace. ring. }
  assert (P2 : (k * d2) * (k * d2) = 1/4 * (cyy m + cyy m - (mtrace m - 1))).
  { transitivity (k * k * (d2 * d2)); [ring|]. rewrite K, Q11, <- Rmult_assoc, Es. unfold mtrace. ring. }
  assert (P3 : (k * d3) * (k * d3) = 1/4 * (czz m + czz m - (mtrace m - 1))).
  { transitivity (k * k * (d3 * d3)); [ring|]. rewrite K, Q22, <- Rmult_assoc, Es. unfold mtrace. ring. }
  assert (P12 : (k * d1) * (k * d2) = 1/4 * (cyx m + cxy m)).
  { transitivity (k * k * (d1 * d2)); [ring|]. rewrite K, Q01, <- Rmult_assoc, Es. ring. }
  assert (P13 : (k * d1) * (k * d3) = 1/4 * (czx m + cxz m)).
  { transitivity (k * k * (d1 * d3)); [ring|]. rewrite K, Q02, <- Rmult_assoc, Es. ring. }
  assert (P23 : (k * d2) * (k * d3) = 1/4 * (czy m + cyz m)).
  { transitivity (k * k * (d2 * d3)); [ring|]. rewrite K, Q12, <- Rmult_assoc, Es. ring. }
  assert (W0 : (1/2 * r) * (1/2 * r) = 1/4 * s) by (rewrite <- Hqq; field).
  assert (W1 : forall d, (1/2 * r) * (k * d) = 1/4 * d).
  { intros d. transitivity (1/2 * (r * k) * d); [ring|]. rewrite Er. field. }
  unfold mtrace in *.
  split.
  - unfold qunit, qnorm2. pcbn. rewrite P1, P2, P3, W0. unfold s. field.
  - unfold zMat3DFromEP, zMat3DCreate, zSqr. cbv zeta. unfold of_b. pcbn.
    rewrite P1, P2, P3, W0, !W1. 
    replace (k * d3 * (k * d1)) with (k * d1 * (k * d3)) by ring.
    rewrite P12, P13, P23. unfold s, d1, d2, d3.
    apply mat3_ext; pcbn; field.
Qed.

Definition turn1 : quat := Q4 0 1 0 0.
Definition turn2 : quat := Q4 0 0 1 0.
Definition turn3 : quat := Q4 0 0 0 1.
Lemma rot_turn m q : qunit q -> rotation m -> rotation (mmul m (zMat3DFromEP q)).
Proof. intros. apply rotation_mmul; [assumption|apply fromep_rotation; assumption]. Qed.
Lemma turn_back m q : q = turn1 \/ q = turn2 \/ q = turn3 -> mmul (mmul m (zMat3DFromEP q)) (zMat3DFromEP q) = m.
Proof.
  intros H. rewrite <- mmul_assoc. replace (mmul (zMat3DFromEP q) (zMat3DFromEP q)) with mid; [apply mmul_id_r|].
  symmetry. rewrite <- fromep_mmul. destruct H as [-> | [-> | ->]]; apply mat3_ext; unfold turn1, turn2, turn3; qred; ring.
Qed.
Lemma turn_case m q : q = turn1 \/ q = turn2 \/ q = turn3 -> rotation m ->
  0 < 1 + mtrace (mmul m (zMat3DFromEP q)) ->
  qunit (qmul (epcore (mmul m (zMat3DFromEP q))) q) /\
  zMat3DFromEP (qmul (epcore (mmul m (zMat3DFromEP q))) q) = m.
Proof.
  intros Hq H Hs. assert (U : qunit q) by (destruct Hq as [-> | [-> | ->]]; unfold turn1, turn2, turn3; qred; ring).
  destruct (epcore_spec _ (rot_turn m q U H) Hs) as (A & B). split.
  - unfold qunit in *. rewrite qnorm2_mul, A, U; ring.
  - rewrite fromep_mmul, B. apply turn_back, Hq.
Qed.
Lemma turn_mat m : 
  mmul m (zMat3DFromEP turn1) = M3 (cxx m) (cxy m) (cxz m) (- cyx m) (- cyy m) (- cyz m) (- czx m) (- czy m) (- czz m) /\
  mmul m (zMat3DFromEP turn2) = M3 (- cxx m) (- cxy m) (- cxz m) (cyx m) (cyy m) (cyz m) (- czx m) (- czy m) (- czz m) /\
  mmul m (zMat3DFromEP turn3) = M3 (- cxx m) (- cxy m) (- cxz m) (- cyx m) (- cyy m) (- cyz m) (czx m) (czy m) (czz m).
Proof. repeat split; apply mat3_ext; unfold turn1, turn2, turn3; qred; ring. Qed.

Lemma toep_roundtrip m : rotation m -> exists q, zMat3DToEP m = Some q /\ qunit q /\ zMat3DFromEP q = m.
Proof.
  intros H. destruct (turn_mat m) as (T1 & T2 & T3). unfold zMat3DToEP.
  set (s0 := cxx m + cyy m + czz m + 1). set (s1 := cxx m - cyy m - czz m + 1).
  set (s2 := - cxx m + cyy m - czz m + 1). set (s3 := - cxx m - cyy m + czz m + 1).
  assert (S : s0 + s1 + s2 + s3 = 4) by (unfold s0, s1, s2, s3; ring).
  assert (C0 : 0 < s0 -> qunit (epcore m) /\ zMat3DFromEP (epcore m) = m).
  { intros K. apply epcore_spec; [exact H|]. unfold mtrace. unfold s0 in K. lra. }
  assert (C1 : 0 < s1 -> _) by (intros K; apply (turn_case m turn1); [tauto|exact H|rewrite T1; unfold mtrace; pcbn; unfold s1 in K; lra]).
  assert (C2 : 0 < s2 -> _) by (intros K; apply (turn_case m turn2); [tauto|exact H|rewrite T2; unfold mtrace; pcbn; unfold s2 in K; lra]).
  assert (C3 : 0 < s3 -> _) by (intros K; apply (turn_case m turn3); [tauto|exact H|rewrite T3; unfold mtrace; pcbn; unfold s3 in K; lra]).
  rewrite T1 in C1. rewrite T2 in C2. rewrite T3 in C3.
  assert (F : forall i s, (i = 0%nat /\ s = s0 \/ i = 1%nat /\ s = s1 \/ i = 2%nat /\ s = s2 \/ i = 3%nat /\ s = s3) -> 0 < s ->
    exists q, (if Rleb s 0 then None
  else
    let e := (1/2) * sqrt s in
    let k := (1/4) / e in
    Some match i with
         | 0%nat => Q4 e (k * (me m 1 2 - me m 2 1)) (k * (me m 2 0 - me m 0 2)) (k * (me m 0 1 - me m 1 0))
         | 1%nat => Q4 (k * (me m 1 2 - me m 2 1)) e (k * (me m 1 0 + me m 0 1)) (k * (me m 0 2 + me m 2 0))
         | 2%nat => Q4 (k * (me m 2 0 - me m 0 2)) (k * (me m 1 0 + me m 0 1)) e (k * (me m 2 1 + me m 1 2))
         | _ => Q4 (k * (me m 0 1 - me m 1 0)) (k * (me m 0 2 + me m 2 0)) (k * (me m 2 1 + me m 1 2)) e
         end) = Some q /\ qunit q /\ zMat3DFromEP q = m).
  { intros i s Hi Hs. destruct (Rleb_reflect s 0) as [?|_]; [lra|].
    cbv zeta. eexists. split; [reflexivity|].
    cbn [me ve zMat3DVec bx by_ bz vx vy vz].
    destruct Hi as [(-> & ->)|[(-> & ->)|[(-> & ->)|(-> & ->)]]].
    - replace s0 with (1 + mtrace m) in * by (unfold s0, mtrace; ring). apply C0, Hs.
    - specialize (C1 Hs). unfold epcore, mtrace, qmul, turn1 in C1. pcbn.
      replace (1 + (cxx m + - cyy m + - czz m)) with s1 in C1 by (unfold s1; ring).
      match type of C1 with qunit ?a /\ _ => match goal with |- qunit ?b /\ _ => replace b with a; [exact C1|] end end.
      apply quat_ext; pcbn; ring.
    - specialize (C2 Hs). unfold epcore, mtrace, qmul, turn2 in C2. pcbn.
      replace (1 + (- cxx m + cyy m + - czz m)) with s2 in C2 by (unfold s2; ring).
      match type of C2 with qunit ?a /\ _ => match goal with |- qunit ?b /\ _ => replace b with a; [exact C2|] end end.
      apply quat_ext; pcbn; ring.
    - specialize (C3 Hs). unfold epcore, mtrace, qmul, turn3 in C3. pcbn.
      replace (1 + (- cxx m + - cyy m + czz m)) with s3 in C3 by (unfold s3; ring).
      match type of C3 with qunit ?a /\ _ => match goal with |- qunit ?b /\ _ => replace b with a; [exact C3|] end end.
      apply quat_ext; pcbn; ring. }
  destruct (Rltb_reflect s0 s1); [destruct (Rltb_reflect s1 s2); [destruct (Rltb_reflect s2 s3)|destruct (Rltb_reflect s1 s3)]
    |destruct (Rltb_reflect s0 s2); [destruct (Rltb_reflect s2 s3)|destruct (Rltb_reflect s0 s3)]];
  (first [apply (F 0%nat s0) | apply (F 1%nat s1) | apply (F 2%nat s2) | apply (F 3%nat s3)]; [tauto|lra]).
Qed.

(** ** normalisation *)
Lemma qnorm2_nonneg q : 0 <= qnorm2 q.
Proof. unfold qnorm2. nra. Qed.
Lemma epnormalize_spec q :
  (sqrt (qnorm2 q) < zTOL /\ zEPNormalize q = (false, q)) \/
  (zTOL <= sqrt (qnorm2 q) /\ exists u, zEPNormalize q = (true, u) /\ qunit u /\ qscale (sqrt (qnorm2 q)) u = q).
Proof.
  unfold zEPNormalize, zEPNorm. rewrite qdot_spec. change (qdot q q) with (qnorm2 q). cbv zeta.
  pose proof (sqrt_pos (qnorm2 q)) as Hp. pose proof zTOL_pos as Ht.
  destruct (zIsTiny (sqrt (qnorm2 q))) eqn:E.
  - left. apply zIsTiny_true in E. rewrite Rabs_right in E by lra. split; [exact E|reflexivity].
  - right. apply zIsTiny_false in E. rewrite Rabs_right in E by lra. split; [exact E|].
    pose proof (sqrt_sqr' _ (qnorm2_nonneg q)) as Hs. set (n := sqrt (qnorm2 q)) in *.
    eexists. split; [reflexivity|]. split.
    + unfold qunit. transitivity (qnorm2 q / (n * n)); [|rewrite Hs; field; nra].
      unfold qnorm2, of_ex, exv, zVec3DMul; pcbn. field; lra.
    + apply quat_ext; unfold qscale, of_ex, exv, zVec3DMul; pcbn; field; lra.
Qed.
Lemma epnormalize_scaled k u : qunit u -> zTOL <= k -> zEPNormalize (qscale k u) = (true, u).
Proof.
  intros U K. pose proof zTOL_pos as Ht.
  assert (N : qnorm2 (qscale k u) = k * k).
  { transitivity (k * k * qnorm2 u); [unfold qnorm2, qscale; pcbn; ring|]. rewrite U; ring. }
  assert (S : sqrt (qnorm2 (qscale k u)) = k) by (rewrite N; apply sqrt_unique; [lra|reflexivity]).
  destruct (epnormalize_spec (qscale k u)) as [(L & _)|(L & w & E & W & Q)]; rewrite S in *; [lra|].
  rewrite E. f_equal. pose proof (f_equal qw Q) as A. pose proof (f_equal qx Q) as B.
  pose proof (f_equal qy Q) as C. pose proof (f_equal qz Q) as D. unfold qscale in *; pcbn.
  apply quat_ext; eapply Rmult_eq_reg_l; eauto; lra.
Qed.

(** ** angle-axis *)
Lemma createaa_unit t n : qunit (zEPCreateAA t n).
Proof.
  unfold zEPCreateAA. destruct (zVec3DIsTiny n) eqn:E; [qred; ring|].
  apply zVec3DIsTiny_false in E. pose proof (nonneg_norm_pos n E) as Hp. zvec.
  pose proof (cos2_sin2 (1/2 * t)) as S. set (c := cos _) in *. set (s := sin _) in *.
  unfold qunit, of_ex. transitivity (c * c + (s / norm n) * (s / norm n) * dot n n); [unfold qnorm2, dot, vscale; pcbn; ring|].
  rewrite <- norm_sqr. transitivity (c * c + s * s); [field; lra|exact S].
Qed.
Lemma half_angle t : cos (1/2 * t) * cos (1/2 * t) - sin (1/2 * t) * sin (1/2 * t) = cos t /\
  2 * (sin (1/2 * t) * cos (1/2 * t)) = sin t.
Proof.
  replace (cos t) with (cos (2 * (1/2 * t))) by (f_equal; field).
  replace (sin t) with (sin (2 * (1/2 * t))) by (f_equal; field).
  rewrite cos_2a, sin_2a. split; ring.
Qed.
Lemma fromep_axis c s n : c * c + s * s = 1 -> norm n = 1 ->
  zMat3DFromEP (of_ex c (vscale s n)) =
  madd (madd (mscale (c * c - s * s) mid) (mscale (1 - (c * c - s * s)) (outer n n))) (mscale (2 * (s * c)) (hat n)).
Proof.
  intros Hc U. apply norm_unit in U. replace 1 with (c * c + s * s) at 1 by exact Hc.
  unfold dot in U. destruct n as [x y z]. pcbn.
  assert (Z : z * z = 1 - x * x - y * y) by lra.
  apply mat3_ext; qred; try ring.
  - transitivity (c * c + s * s * (x * x) - s * s * (y * y) - s * s * (z * z)); [ring|]. rewrite Z. ring.
  - transitivity (c * c - s * s * (x * x) + s * s * (y * y) - s * s * (z * z)); [ring|]. rewrite Z. ring.
  - transitivity (c * c - s * s * (x * x) - s * s * (y * y) + s * s * (z * z)); [ring|]. rewrite Z. ring.
Qed.
Lemma createaa_mat t n : ~ negligible n ->
  exists u, norm u = 1 /\ vscale (norm n) u = n /\ zMat3DFromEP (zEPCreateAA t n) = rodm u t.
Proof.
  intros E. pose proof (nonneg_norm_pos n E) as Hp. destruct (unit_scale n Hp) as (U & V).
  exists (vscale (1 / norm n) n). split; [exact U|]. split; [exact V|].
  unfold zEPCreateAA. rewrite (proj2 (zVec3DIsTiny_false n) E). zvec.
  destruct (half_angle t) as (Hc & Hs). pose proof (cos2_sin2 (1/2 * t)) as CS.
  set (u := vscale (1 / norm n) n) in *.
  replace (vscale (sin (1/2 * t) / norm n) n) with (vscale (sin (1/2 * t)) u)
    by (apply vec3_ext; unfold u, vscale; pcbn; field; lra).
  rewrite fromep_axis by assumption. rewrite Hc, Hs. reflexivity.
Qed.
Lemma aa2ep_mat aa : qunit (zAA2EP aa) /\ zMat3DFromEP (zAA2EP aa) = zMat3DFromAA aa.
Proof.
  split; [apply createaa_unit|]. unfold zAA2EP. zvec. destruct (zVec3DIsTiny aa) eqn:E.
  - unfold zEPCreateAA. rewrite E. apply zVec3DIsTiny_true in E. rewrite fromaa_tiny by exact E.
    apply mat3_ext; qred; ring.
  - apply zVec3DIsTiny_false in E. destruct (createaa_mat (norm aa) aa E) as (u & U & V & ->).
    destruct (fromaa_ok aa E) as (n & U' & V' & ->). f_equal.
    pose proof (nonneg_norm_pos aa E) as Hp. apply (vscale_inj (norm aa)); [lra|]. congruence.
Qed.
Lemma atan2_sin_pos y x : 0 < y -> 0 < atan2 y x.
Proof.
  intros H. pose proof (atan2_nonneg y x ltac:(lra)) as (A & _).
  destruct (Req_dec (atan2 y x) 0) as [E|?]; [|lra].
  pose proof (atan2_sin y x ltac:(lra)) as S. rewrite E, sin_0 in S.
  pose proof (hyp_pos x y ltac:(lra)). assert (0 < y / hyp x y) by (apply Rdiv_lt_0_compat; lra). lra.
Qed.
Lemma ep2aa_roundtrip q : qunit q -> norm (exv q) = 0 \/ zTOL <= norm (exv q) ->
  zMat3DFromAA (zEP2AA q) = zMat3DFromEP q /\
  (zTOL <= norm (exv q) -> zAA2EP (zEP2AA q) = q).
Proof.
  intros U H. pose proof zTOL_pos as Ht. unfold zEP2AA. zvec. cbv zeta.
  assert (N : norm (exv q) * norm (exv q) = dot (exv q) (exv q)) by apply norm_sqr.
  assert (W : qw q * qw q + norm (exv q) * norm (exv q) = 1).
  { rewrite N. unfold qunit, qnorm2 in U. unfold dot, exv; pcbn. lra. }
  destruct H as [H|H].
  - rewrite H, zIsTiny_0. split; [|lra].
    rewrite fromaa_tiny by (repeat split; cbn; rewrite Rabs_R0; exact Ht).
    assert (Z : exv q = v3zero) by (apply norm_zero_iff, H). unfold exv, v3zero in Z. injection Z as Z1 Z2 Z3.
    rewrite H in W. assert (Hw : qw q * qw q = 1) by lra.
    symmetry. apply mat3_ext; qred; rewrite ?Z1, ?Z2, ?Z3, ?Hw; ring.
  - assert (T : zIsTiny (norm (exv q)) = false) by (apply zIsTiny_false; rewrite Rabs_right; lra). rewrite T.
    set (s := norm (exv q)) in *. set (a := atan2 s (qw q)).
    assert (Ca : cos a = qw q) by (apply atan2_cos_unit; lra).
    assert (Sa : sin a = s) by (apply atan2_sin_unit; lra).
    assert (Pa : 0 < a) by (apply atan2_sin_pos; lra).
    pose proof (sin_le_id a ltac:(lra)) as La. rewrite Sa in La.
    destruct (unit_scale (exv q) ltac:(fold s; lra)) as (Un & Vn). fold s in Un, Vn.
    set (n := vscale (1 / s) (exv q)) in *.
    assert (E : vscale (2 * a / s) (exv q) = vscale (2 * a) n) by (apply vec3_ext; unfold n, vscale; pcbn; field; lra).
    rewrite E. split.
    + rewrite fromaa_axis by (assumption || lra).
      replace q with (of_ex (qw q) (vscale s n)) by (rewrite Vn; apply quat_ext; reflexivity).
      rewrite fromep_axis by (assumption || lra). unfold rodm.
      replace (cos (2 * a)) with (qw q * qw q - s * s) by (rewrite cos_2a, Ca, Sa; ring).
      replace (sin (2 * a)) with (2 * (s * qw q)) by (rewrite sin_2a, Ca, Sa; ring). reflexivity.
    + intros _. unfold zAA2EP, zEPCreateAA. zvec.
      assert (Nn : norm (vscale (2 * a) n) = 2 * a) by (rewrite norm_scale, Un, Rabs_right; lra).
      assert (NN : ~ negligible (vscale (2 * a) n)) by (apply long_not_negligible; lra).
      rewrite (proj2 (zVec3DIsTiny_false _) NN), Nn.
      replace (1/2 * (2 * a)) with a by field. rewrite Ca, Sa.
      replace (vscale (s / (2 * a)) (vscale (2 * a) n)) with (exv q); [apply quat_ext; reflexivity|].
      rewrite <- Vn. apply vec3_ext; unfold vscale; pcbn; field; lra.
Qed.

(** ** spherical interpolation *)
Lemma qcauchy p q : qunit p -> qunit q -> Rabs (qdot p q) <= 1.
Proof.
  intros Hp Hq. 
  assert (A : 0 <= qnorm2 (qadd p q)) by apply qnorm2_nonneg.
  assert (B : 0 <= qnorm2 (qadd p (qneg q))) by apply qnorm2_nonneg.
  assert (A' : qnorm2 (qadd p q) = qnorm2 p + qnorm2 q + 2 * qdot p q) by (unfold qnorm2, qadd, qdot; pcbn; ring).
  assert (B' : qnorm2 (qadd p (qneg q)) = qnorm2 p + qnorm2 q - 2 * qdot p q) by (unfold qnorm2, qadd, qneg, qdot; pcbn; ring).
  unfold qunit in *. apply Rabs_le. lra.
Qed.
Lemma qcomb2 a p b q : qnorm2 (qadd (qscale a p) (qscale b q)) = a * a * qnorm2 p + b * b * qnorm2 q + 2 * (a * b) * qdot p q.
Proof. unfold qnorm2, qadd, qscale, qdot; pcbn; ring. Qed.
Lemma epcat_spec p k q : zEPCat p k q = zEPNormalize (qadd p (qscale k q)).
Proof. reflexivity. Qed.
Lemma epmul_spec p k : zEPMul p k = qscale k p.
Proof. reflexivity. Qed.
Lemma eprev_spec p : zEPRev p = qneg p.
Proof. reflexivity. Qed.
Lemma epnormalize_unit u : qunit u -> zEPNormalize u = (true, u).
Proof.
  intros U. pose proof zTOL_small. replace u with (qscale 1 u) at 1 by (apply quat_ext; unfold qscale; pcbn; ring).
  apply epnormalize_scaled; [exact U|lra].
Qed.

(** the second end point on the hemisphere of the first *)
Definition qnear (p q : quat) : quat := if Rltb (qdot p q) 0 then qneg q else q.
Lemma qnear_spec p q : qunit p -> qunit q ->
  qunit (qnear p q) /\ qdot p (qnear p q) = Rabs (qdot p q) /\ (qnear p q = q \/ qnear p q = qneg q).
Proof.
  intros Hp Hq. unfold qnear. destruct (Rltb_reflect (qdot p q) 0) as [L|L].
  - split; [unfold qunit, qnorm2, qneg in *; pcbn; lra|]. split; [|tauto].
    rewrite Rabs_left by lra. unfold qdot, qneg; pcbn; ring.
  - split; [exact Hq|]. split; [|tauto]. rewrite Rabs_right by lra. reflexivity.
Qed.
Lemma interdiv_unfold p q t : qunit p -> qunit q ->
  let th := acos (Rabs (qdot p q)) in
  zEPInterDiv p q t =
  zEPNormalize (if zIsTiny (sin th) then snd (zEPNormalize (qadd (qscale (1 - t) p) (qscale t (qnear p q))))
    else snd (zEPNormalize (qadd (qscale (sin (th - th * t)) p) (qscale (sin (th * t)) (qnear p q))))).
Proof.
  intros Hp Hq. pose proof (qcauchy p q Hp Hq) as B. unfold zEPInterDiv, qnear. rewrite qdot_spec.
  destruct (Rltb_reflect (qdot p q) 0) as [L|L].
  - rewrite Rabs_left in * by lra. destruct (Rltb_reflect 1 (- qdot p q)); [lra|]. reflexivity.
  - rewrite Rabs_right in * by lra. destruct (Rltb_reflect 1 (qdot p q)); [lra|]. reflexivity.
Qed.

(** on an arc of non-negligible length: constant-speed motion along the great circle *)
Lemma slerp_arc p q : qunit p -> qunit q ->
  let th := acos (Rabs (qdot p q)) in
  zTOL <= sin th ->
  exists u, qunit u /\ qdot p u = 0 /\
    (forall t, zEPInterDiv p q t = (true, qadd (qscale (cos (t * th)) p) (qscale (sin (t * th)) u))) /\
    qadd (qscale (cos th) p) (qscale (sin th) u) = qnear p q.
Proof.
  intros Hp Hq th Hs. pose proof (qcauchy p q Hp Hq) as B. pose proof zTOL_pos as Ht. pose proof zTOL_small as Hts.
  destruct (qnear_spec p q Hp Hq) as (Hn & Hd & _).
  assert (Hc : cos th = Rabs (qdot p q)) by (apply cos_acos; pose proof (Rabs_pos (qdot p q)); lra).
  pose proof (cos2_sin2 th) as CS.
  set (u := qscale (/ sin th) (qadd (qnear p q) (qscale (- cos th) p))).
  assert (Hpu : qdot p u = 0).
  { unfold u. transitivity (/ sin th * (qdot p (qnear p q) - cos th * qnorm2 p)).
    - unfold qdot, qscale, qadd, qnorm2; pcbn; ring.
    - rewrite Hd, Hp, Hc. ring. }
  assert (Hu : qunit u).
  { unfold qunit, u. transitivity (/ sin th * / sin th * (qnorm2 (qnear p q) - 2 * cos th * qdot p (qnear p q) + cos th * cos th * qnorm2 p)).
    - unfold qdot, qscale, qadd, qnorm2; pcbn; ring.
    - rewrite Hd, <- Hc. unfold qunit in *. rewrite Hn, Hp.
      replace (1 - 2 * cos th * cos th + cos th * cos th * 1) with (sin th * sin th) by lra. field; lra. }
  assert (Hnear : qadd (qscale (cos th) p) (qscale (sin th) u) = qnear p q).
  { unfold u. apply quat_ext; unfold qadd, qscale; pcbn; field; lra. }
  exists u. split; [exact Hu|]. split; [exact Hpu|]. split; [|exact Hnear].
  intros t. rewrite interdiv_unfold by assumption. cbv zeta. fold th.
  assert (T : zIsTiny (sin th) = false) by (apply zIsTiny_false; rewrite Rabs_right; lra). rewrite T.
  rewrite (Rmult_comm th t). set (g := qadd (qscale (cos (t * th)) p) (qscale (sin (t * th)) u)).
  assert (Hg : qunit g).
  { unfold qunit, g. rewrite qcomb2, Hpu, Hp, Hu. pose proof (cos2_sin2 (t * th)). lra. }
  replace (qadd (qscale (sin (th - t * th)) p) (qscale (sin (t * th)) (qnear p q))) with (qscale (sin th) g).
  - rewrite epnormalize_scaled by (assumption || lra). cbn [snd]. apply epnormalize_unit, Hg.
  - rewrite <- Hnear. unfold g. rewrite sin_minus. apply quat_ext; unfold qadd, qscale; pcbn; ring.
Qed.

Lemma slerp_unit p q t : qunit p -> qunit q ->
  exists r, zEPInterDiv p q t = (true, r) /\ qunit r /\
    (t = 0 -> r = p) /\ (t = 1 -> r = q \/ r = qneg q) /\
    (0 <= t <= 1 -> Rabs (qdot p q) <= qdot p r).
Proof.
  intros Hp Hq. pose proof (qcauchy p q Hp Hq) as B. pose proof zTOL_pos as Ht. pose proof zTOL_small as Hts.
  destruct (qnear_spec p q Hp Hq) as (Hn & Hd & Hor).
  pose proof (Rabs_pos (qdot p q)) as Hc0.
  set (th := acos (Rabs (qdot p q))).
  assert (Hc : cos th = Rabs (qdot p q)) by (apply cos_acos; lra).
  pose proof (acos_bound (Rabs (qdot p q))) as Hb. fold th in Hb.
  destruct (Rlt_or_le (sin th) zTOL) as [L|L].
  - rewrite interdiv_unfold by assumption. cbv zeta. fold th.
    assert (S0 : 0 <= sin th) by (apply sin_ge_0; lra).
    assert (T : zIsTiny (sin th) = true) by (apply zIsTiny_true; rewrite Rabs_right; lra). rewrite T.
    set (g := qadd (qscale (1 - t) p) (qscale t (qnear p q))).
    assert (Ng : qnorm2 g = 1 - 2 * (t * (1 - t)) * (1 - Rabs (qdot p q))).
    { unfold g. rewrite qcomb2, Hp, Hn, Hd. ring. }
    assert (Lg : 1/2 <= qnorm2 g) by (rewrite Ng; pose proof (Rle_0_sqr (t - 1/2)) as Q; unfold Rsqr in Q; nra).
    assert (Sg : zTOL <= sqrt (qnorm2 g)).
    { apply Rle_trans with (1/2); [lra|]. apply Rsqr_incr_0; [|lra|apply sqrt_pos].
      rewrite Rsqr_sqrt by lra. unfold Rsqr. lra. }
    destruct (epnormalize_spec g) as [(K & _)|(_ & r & E & Hr & Hg)]; [lra|].
    rewrite E. cbn [snd]. rewrite epnormalize_unit by exact Hr. exists r. split; [reflexivity|]. split; [exact Hr|].
    assert (U : forall u, qunit u -> g = u -> r = u).
    { intros u Hu Eu. rewrite Eu, epnormalize_unit in E by exact Hu. injection E as E. auto. }
    split; [|split].
    + intros ->. apply U; [exact Hp|]. unfold g. apply quat_ext; unfold qadd, qscale; pcbn; ring.
    + intros ->. assert (r = qnear p q) as ->; [|exact Hor]. apply U; [exact Hn|].
      unfold g. apply quat_ext; unfold qadd, qscale; pcbn; ring.
    + intros Ht1. 
      assert (D : sqrt (qnorm2 g) * qdot p r = 1 - t + t * Rabs (qdot p q)).
      { transitivity (qdot p (qscale (sqrt (qnorm2 g)) r)); [unfold qdot, qscale; pcbn; ring|].
        rewrite Hg. unfold g. transitivity ((1 - t) * qnorm2 p + t * qdot p (qnear p q));
          [unfold qdot, qadd, qscale, qnorm2; pcbn; ring|]. rewrite Hp, Hd. ring. }
      assert (S1 : sqrt (qnorm2 g) <= 1).
      { rewrite <- sqrt_1. apply sqrt_le_1; [apply qnorm2_nonneg|lra|]. rewrite Ng.
        assert (Q1 : 0 <= t * (1 - t)) by nra. assert (Q2 : 0 <= t * (1 - t) * (1 - Rabs (qdot p q))) by (apply Rmult_le_pos; lra). lra. }
      pose proof (qcauchy p r Hp Hr) as Br. 
      assert (P : 0 < sqrt (qnorm2 g)) by lra. set (n := sqrt (qnorm2 g)) in *.
      set (c := Rabs (qdot p q)) in *. set (d := qdot p r) in *.
      assert (n * c <= n * d) by (rewrite D; nra). nra.
  - destruct (slerp_arc p q Hp Hq L) as (u & Hu & Hpu & E & Hnear). fold th in E, Hnear.
    rewrite E. eexists. split; [reflexivity|]. split; [|split; [|split]].
    + unfold qunit. rewrite qcomb2, Hpu, Hp, Hu. pose proof (cos2_sin2 (t * th)). lra.
    + intros ->. rewrite Rmult_0_l, cos_0, sin_0. apply quat_ext; unfold qadd, qscale; pcbn; ring.
    + intros ->. rewrite Rmult_1_l. rewrite Hnear. exact Hor.
    + intros Ht1. replace (qdot p (qadd (qscale (cos (t * th)) p) (qscale (sin (t * th)) u))) with (cos (t * th)).
      * rewrite <- Hc. apply cos_decr_1; try lra; nra.
      * symmetry. transitivity (cos (t * th) * qnorm2 p + sin (t * th) * qdot p u);
          [unfold qdot, qadd, qscale, qnorm2; pcbn; ring|]. rewrite Hp, Hpu. ring.
Qed.

(** the arc in terms of attitude matrices *)
Lemma fromep_trace p q : mtrace (mmul (mtr (zMat3DFromEP p)) (zMat3DFromEP q)) = 4 * (qdot p q * qdot p q) - qnorm2 p * qnorm2 q.
Proof. qdes; qred; ring. Qed.
Lemma slerp_matrix m1 m2 : rotation m1 -> rotation m2 ->
  (forall t, exists m, zMat3DInterDiv m1 m2 t = Some m /\ rotation m) /\
  zMat3DInterDiv m1 m2 0 = Some m1 /\ zMat3DInterDiv m1 m2 1 = Some m2 /\
  (4 * (zTOL * zTOL) <= 3 - mtrace (mmul (mtr m1) m2) ->
   exists n phi, norm n = 1 /\ 0 <= phi <= PI /\ m2 = mmul (rodm n phi) m1 /\
     forall t, zMat3DInterDiv m1 m2 t = Some (mmul (rodm n (t * phi)) m1)).
Proof.
  intros H1 H2. destruct (toep_roundtrip m1 H1) as (p & Ep & Hp & Fp). destruct (toep_roundtrip m2 H2) as (q & Eq & Hq & Fq).
  unfold zMat3DInterDiv. rewrite Ep, Eq. split; [|split; [|split]].
  - intros t. destruct (slerp_unit p q t Hp Hq) as (r & E & Hr & _). rewrite E. eexists; split; [reflexivity|].
    apply fromep_rotation, Hr.
  - destruct (slerp_unit p q 0 Hp Hq) as (r & E & Hr & H0 & _). rewrite E. cbn [snd]. rewrite H0 by reflexivity. congruence.
  - destruct (slerp_unit p q 1 Hp Hq) as (r & E & Hr & _ & H0 & _). rewrite E. cbn [snd].
    destruct (H0 eq_refl) as [-> | ->]; rewrite ?fromep_neg; congruence.
  - intros L. pose proof (qcauchy p q Hp Hq) as B. pose proof (Rabs_pos (qdot p q)) as Hc0. pose proof zTOL_pos as Ht.
    set (th := acos (Rabs (qdot p q))).
    assert (Hc : cos th = Rabs (qdot p q)) by (apply cos_acos; lra).
    pose proof (acos_bound (Rabs (qdot p q))) as Hb. fold th in Hb.
    assert (Hs : zTOL <= sin th).
    { rewrite <- Fp, <- Fq, fromep_trace, Hp, Hq in L. rewrite <- (Rabs_sqr (qdot p q)), <- Hc in L.
      pose proof (cos2_sin2 th). apply Rsqr_incr_0; [unfold Rsqr; lra|lra|apply sin_ge_0; lra]. }
    assert (Hb2 : th <= PI / 2).
    { destruct (Rle_or_lt th (PI/2)) as [?|K]; auto. exfalso. assert (cos th < 0) by (apply cos_lt_0; lra). lra. }
    destruct (slerp_arc p q Hp Hq Hs) as (u & Hu & Hpu & E & Hnear). fold th in E, Hnear.
    exists (qvec (qmul u (qconj p))), (2 * th).
    assert (Hn : norm (qvec (qmul u (qconj p))) = 1).
    { apply norm_unit. transitivity (qnorm2 u * qnorm2 p - qdot p u * qdot p u).
      - qdes. unfold qvec, dot, qmul, qconj, qnorm2, qdot; pcbn; ring.
      - rewrite Hu, Hp, Hpu. ring. }
    assert (K : forall t, zMat3DFromEP (qadd (qscale (cos (t * th)) p) (qscale (sin (t * th)) u)) =
                mmul (rodm (qvec (qmul u (qconj p))) (t * (2 * th))) m1).
    { intros t. rewrite <- Fp. set (n := qvec (qmul u (qconj p))) in *.
      replace (qadd (qscale (cos (t * th)) p) (qscale (sin (t * th)) u))
        with (qmul (of_ex (cos (t * th)) (vscale (sin (t * th)) n)) p).
      - rewrite fromep_mmul, fromep_axis by (exact Hn || apply cos2_sin2). f_equal. unfold rodm.
        replace (t * (2 * th)) with (2 * (t * th)) by ring.
        replace (cos (2 * (t * th))) with (cos (t * th) * cos (t * th) - sin (t * th) * sin (t * th)) by (rewrite cos_2a; ring).
        replace (sin (2 * (t * th))) with (2 * (sin (t * th) * cos (t * th))) by (rewrite sin_2a; ring). reflexivity.
      - assert (A : qmul (qmul u (qconj p)) p = u).
        { transitivity (qscale (qnorm2 p) u).
          - clear. qdes. apply quat_ext; unfold qmul, qconj, qscale, qnorm2; pcbn; ring.
          - rewrite Hp. apply quat_ext; unfold qscale; pcbn; ring. }
        assert (W : qmul u (qconj p) = of_ex 0 n).
        { apply quat_ext; unfold n, qvec, of_ex; pcbn; try reflexivity. rewrite <- Hpu.
          unfold qmul, qconj, qdot; pcbn; ring. }
        rewrite <- A at 1. rewrite W. clear. qdes. destruct n as [n1 n2 n3].
        apply quat_ext; unfold qmul, qadd, qscale, of_ex, vscale; pcbn; ring. }
    split; [exact Hn|]. split; [lra|]. split.
    + replace (2 * th) with (1 * (2 * th)) by ring. rewrite <- K, Rmult_1_l, Hnear.
      destruct (qnear_spec p q Hp Hq) as (_ & _ & [-> | ->]); rewrite ?fromep_neg; congruence.
    + intros t. rewrite E. cbn [snd]. rewrite K. reflexivity.
Qed.
