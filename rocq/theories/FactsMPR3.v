(** Penetration depth by portal refinement: what the displacement does. *)
From Verif Require Import FactsElem FactsGJK4 FactsGJK5.
From Verif Require Export FactsMPR2.
From Coq Require Import List Lra Lia.
Import ListNotations.
Open Scope R_scope.

Lemma hull_comb3 L a b c w0 w1 w2 : List.In a L -> List.In b L -> List.In c L -> 0 <= w0 -> 0 <= w1 -> 0 <= w2 -> w0 + w1 + w2 = 1 -> convex_hull L (comb3 w0 w1 w2 a b c).
Proof.
  intros A B C W0 W1 W2 WS. destruct (Req_dec (w0 + w1) 0) as [Z|Z].
  - replace (comb3 w0 w1 w2 a b c) with c; [constructor; exact C|]. replace w0 with 0 by lra. replace w1 with 0 by lra. replace w2 with 1 by lra. apply vec3_ext; mring.
  - apply (hull_mix L (comb2 (w0 / (w0 + w1)) (w1 / (w0 + w1)) a b) c); [|constructor; exact C|].
    + apply (hull_mix L a b); [constructor; exact A|constructor; exact B|]. exists (w0 / (w0 + w1)), (w1 / (w0 + w1)). split; [|reflexivity]. unfold weights2. repeat split; try (apply Rmult_le_pos; [lra|left; apply Rinv_0_lt_compat; lra]). field. exact Z.
    + exists (w0 + w1), w2. split; [unfold weights2; lra|]. apply vec3_ext; unfold comb3, comb2, vadd, vscale; cbn [vx vy vz]; field; exact Z.
Qed.
Lemma norm_comb3 M c0 c1 c2 x y z : norm x <= M -> norm y <= M -> norm z <= M -> norm (comb3 c0 c1 c2 x y z) <= (Rabs c0 + Rabs c1 + Rabs c2) * M.
Proof.
  intros X Y Z. unfold comb3, comb2. eapply Rle_trans; [apply norm_triangle|]. pose proof (norm_triangle (vscale c0 x) (vscale c1 y)) as T. rewrite !norm_scale in *. pose proof (Rabs_pos c0) as P0. pose proof (Rabs_pos c1) as P1. pose proof (Rabs_pos c2) as P2.
  assert (Rabs c0 * norm x <= Rabs c0 * M) by (apply Rmult_le_compat_l; assumption). assert (Rabs c1 * norm y <= Rabs c1 * M) by (apply Rmult_le_compat_l; assumption). assert (Rabs c2 * norm z <= Rabs c2 * M) by (apply Rmult_le_compat_l; assumption). lra.
Qed.
Lemma clip_weight s e S : - e <= s -> 0 < e -> 1 <= S -> 0 <= Rmax s 0 /\ 0 <= Rmax s 0 - s <= e /\ Rabs (Rmax s 0 / S - s) <= (Rmax s 0 - s) + (Rmax s 0 - Rmax s 0 / S).
Proof.
  intros H E HS. set (p := Rmax s 0). assert (P0 : 0 <= p) by apply Rmax_r. assert (PS : s <= p) by apply Rmax_l. assert (PE : p - s <= e) by (unfold p, Rmax; destruct (Rle_dec s 0); lra).
  split; [exact P0|]. split; [lra|]. assert (D : p / S <= p). { apply (Rmult_le_reg_r S); [lra|]. unfold Rdiv. rewrite Rmult_assoc, Rinv_l by lra. rewrite Rmult_1_r. rewrite <- (Rmult_1_r p) at 1. apply Rmult_le_compat_l; assumption. }
  replace (p / S - s) with ((p - s) - (p - p / S)) by ring. apply Rabs_le. lra.
Qed.
Lemma nearly_touching l1 l2 M a1 a2 a3 b1 b2 b3 w : (forall x, difference l1 l2 x -> norm x <= M) -> List.In a1 l1 -> List.In a2 l1 -> List.In a3 l1 -> List.In b1 l2 -> List.In b2 l2 -> List.In b3 l2 ->
  tri_nearly zTOL (vsub a1 b1) (vsub a2 b2) (vsub a3 b3) w -> touching (6 * zTOL * M) l1 l2 w.
Proof.
  intros BM A1 A2 A3 B1 B2 B3 (s0 & s1 & s2 & SS & H0 & H1 & H2 & ->). pose proof zTOL_pos as TP. set (S := Rmax s0 0 + Rmax s1 0 + Rmax s2 0).
  assert (S1 : 1 <= S) by (unfold S; pose proof (Rmax_l s0 0); pose proof (Rmax_l s1 0); pose proof (Rmax_l s2 0); lra).
  destruct (clip_weight s0 zTOL S H0 TP S1) as (P0 & Q0 & C0). destruct (clip_weight s1 zTOL S H1 TP S1) as (P1 & Q1 & C1). destruct (clip_weight s2 zTOL S H2 TP S1) as (P2 & Q2 & C2).
  set (p0 := Rmax s0 0) in *. set (p1 := Rmax s1 0) in *. set (p2 := Rmax s2 0) in *. assert (SN : S <> 0) by lra. assert (DS : p0 / S + p1 / S + p2 / S = 1) by (unfold S in *; field; exact SN).
  assert (W : forall p, 0 <= p -> 0 <= p / S) by (intros p P; apply Rmult_le_pos; [exact P|left; apply Rinv_0_lt_compat; lra]).
  exists (comb3 (p0 / S) (p1 / S) (p2 / S) a1 a2 a3), (comb3 (p0 / S) (p1 / S) (p2 / S) b1 b2 b3). split; [apply hull_comb3; auto|]. split; [apply hull_comb3; auto|]. unfold dist.
  match goal with |- norm ?v <= _ => replace v with (comb3 (p0 / S - s0) (p1 / S - s1) (p2 / S - s2) (vsub a1 b1) (vsub a2 b2) (vsub a3 b3)) by (apply vec3_ext; mring) end.
  assert (M0 : 0 <= M) by (eapply Rle_trans; [apply (norm_nonneg (vsub a1 b1))|apply BM; exists a1, b1; auto]).
  eapply Rle_trans; [apply (norm_comb3 M); apply BM; [exists a1, b1|exists a2, b2|exists a3, b3]; auto|]. apply Rmult_le_compat_r; [exact M0|]. assert (SE : S = p0 + p1 + p2) by reflexivity. lra.
Qed.
Lemma separating_all l1 l2 n k e t : norm n = 1 -> (forall x, difference l1 l2 x -> dot n x <= k + e) -> k <= dot n t -> separating e l1 l2 t.
Proof.
  intros U H K. exists n. split; [exact U|]. intros x1 x2 X1 X2.
  assert (Q : - (k + e) <= dot (vsub x1 x2) (vneg n)). { revert x1 x2 X1 X2. apply hull_difference. intros x X. specialize (H x X). replace (dot x (vneg n)) with (- dot n x) by mring. lra. }
  replace (dot (vsub x1 x2) (vneg n)) with (- dot n (vsub x1 x2)) in Q by mring. replace (dot n (vsub x1 (vadd x2 t))) with (dot n (vsub x1 x2) - dot n t) by mring. lra.
Qed.
Lemma negl_norm v : negligible v -> norm v <= 2 * zTOL.
Proof.
  intros (X & Y & Z). pose proof zTOL_pos as TP. unfold norm. rewrite <- (sqrt_Rsqr (2 * zTOL)) by lra. apply sqrt_le_1_alt. unfold Rsqr, dot.
  assert (Q : forall x, Rabs x < zTOL -> x * x <= zTOL * zTOL). { intros x L. rewrite <- (Rabs_right (x * x)) by (apply Rle_ge, Rle_0_sqr). rewrite Rabs_mult. pose proof (Rabs_pos x). apply Rmult_le_compat; lra. }
  pose proof (Q _ X). pose proof (Q _ Y). pose proof (Q _ Z). pose proof (Rle_0_sqr zTOL) as T2. unfold Rsqr in T2. lra.
Qed.
(** moved by depth along dir the second set is apart from the first, and no more than just apart *)
Lemma mpr_depth : forall fuel iter l1 l2 M depth pos dir, (forall x, difference l1 l2 x -> norm x <= M) -> zMPRDepth fuel iter l1 l2 = Some (Some (depth, pos, dir)) ->
  (depth = 0 /\ dir = v3zero \/ 0 < depth /\ norm dir = 1) /\ separating (2 * zTOL) l1 l2 (vscale depth dir) /\ touching (6 * zTOL * (M + 1)) l1 l2 (vscale depth dir).
Proof.
  intros fuel iter l1 l2 M depth pos dir BM E. pose proof zTOL_pos as TP. destruct (mpr_portal fuel iter l1 l2 M depth pos dir BM E) as (D & [PR|(a & b & n & A & B & _ & V & U & H)]); (split; [exact D|]).
  - destruct PR as (c1 & c2 & c0 & a1 & a2 & a3 & b1 & b2 & b3 & n & k & _ & _ & _ & _ & A1 & A2 & A3 & B1 & B2 & B3 & U & K1 & K2 & K3 & H & NE & _). split.
    + apply (separating_all l1 l2 n k); [exact U|intros x X; specialize (H x X); lra|]. destruct NE as (s0 & s1 & s2 & SS & _ & _ & _ & ->).
      replace (dot n (comb3 s0 s1 s2 (vsub a1 b1) (vsub a2 b2) (vsub a3 b3))) with (s0 * dot n (vsub a1 b1) + s1 * dot n (vsub a2 b2) + s2 * dot n (vsub a3 b3)) by mring. rewrite K1, K2, K3. replace (s0 * k + s1 * k + s2 * k) with ((s0 + s1 + s2) * k) by ring. rewrite SS. lra.
    + destruct (nearly_touching l1 l2 M _ _ _ _ _ _ _ BM A1 A2 A3 B1 B2 B3 NE) as (x1 & x2 & X1 & X2 & L). exists x1, x2. split; [exact X1|]. split; [exact X2|]. lra.
  - assert (M0 : 0 <= M) by (eapply Rle_trans; [apply (norm_nonneg (vsub a b))|apply BM; exists a, b; auto]). assert (MT : 0 <= zTOL * M) by (apply Rmult_le_pos; lra). destruct V as [V|(Z & NG)].
    + rewrite V. split; [apply (separating_all l1 l2 n (dot n (vsub a b))); [exact U|intros x X; specialize (H x X); lra|lra]|]. exists a, b. split; [constructor; exact A|]. split; [constructor; exact B|]. unfold dist. replace (vsub (vsub a b) (vsub a b)) with v3zero by (apply vec3_ext; mring). unfold norm. replace (dot v3zero v3zero) with 0 by mring. rewrite sqrt_0. lra.
    + pose proof (negl_norm _ NG) as NN. replace (vscale depth dir) with v3zero by (rewrite Z; apply vec3_ext; mring). split.
      * apply (separating_all l1 l2 n 0); [exact U| |replace (dot n v3zero) with 0 by mring; lra]. intros x X. specialize (H x X). pose proof (cauchy_norm n (vsub a b)) as C. rewrite U in C. pose proof (Rle_abs (dot n (vsub a b))). lra.
      * exists a, b. split; [constructor; exact A|]. split; [constructor; exact B|]. unfold dist. replace (vsub (vsub a b) v3zero) with (vsub a b) by (apply vec3_ext; mring). lra.
Qed.
(** it says yes only where zMPR does, and no only where zMPR does or the rounds are used up *)
Lemma mpr_answer : forall fuel iter l1 l2, match zMPRDepth fuel iter l1 l2 with
  | Some (Some _) => zMPR fuel l1 l2 = Some true
  | Some None => zMPR fuel l1 l2 = Some false \/ zMPR fuel l1 l2 = Some true /\ forall j, (j <= iter)%nat -> zMPRDepth fuel j l1 l2 = Some None
  | None => True end.
Proof.
  assert (LE : forall l1 l2 s0 iter s1 s2 s3 j, mprDepthLoop iter l1 l2 s0 s1 s2 s3 = Some None -> (j <= iter)%nat -> mprDepthLoop j l1 l2 s0 s1 s2 s3 = Some None).
  { intros l1 l2 s0. induction iter as [|iter IH]; intros s1 s2 s3 j E L; [replace j with 0%nat by lia; reflexivity|]. destruct j as [|j]; [reflexivity|]. cbn [mprDepthLoop] in *. destruct (mprSimplexDir s1 s2 s3) as [n|]; [|discriminate]. destruct (mprSupportMap l1 l2 n) as [s|]; [|discriminate].
    destruct (mprIsReached s1 s2 s3 s n); [destruct (mprCalcDepth _ _ _) as [(e, w)|]; [|discriminate]; destruct (normalizeNC w); [|discriminate]; destruct (mprDepthPair s0 s1 s2 s3); discriminate|]. destruct (mprExpand s0 s1 s2 s3 s) as [[t1 t2] t3]. apply IH; [exact E|lia]. }
  intros fuel iter l1 l2. unfold zMPRDepth, zMPR. destruct (mprFindPortal fuel l1 l2) as [|s0 s1 s2 s3|s1|s0 s1| |]; auto; [|destruct (normalizeNC _); auto]. rewrite refine_same. destruct (mprRefinePortal fuel l1 l2 s0 s1 s2 s3) as [| |t1 t2 t3]; auto.
  destruct (mprDepthLoop iter l1 l2 s0 t1 t2 t3) as [[r|]|] eqn:E; auto. right. split; [reflexivity|]. intros j L. apply (LE _ _ _ iter); assumption.
Qed.
(** ** It need not be the least displacement *)
Definition mA : list vec3 := [V3 10 0 0; V3 (-14) 0 0; V3 0 1 0; V3 0 (-1) 0; V3 0 0 1; V3 0 0 (-1)].
Lemma norm_x x : norm (V3 x 0 0) = Rabs x.
Proof. unfold norm, dot. cbn [vx vy vz]. replace (x * x + 0 * 0 + 0 * 0) with (Rsqr x) by (unfold Rsqr; ring). apply sqrt_Rsqr_abs. Qed.
Ltac rdec := repeat match goal with
  | |- context [Rltb ?a ?b] => first [replace (Rltb a b) with true by (symmetry; apply Rltb_true; lra)|replace (Rltb a b) with false by (symmetry; apply Bool.not_true_iff_false; rewrite Rltb_true; lra)]
  | |- context [Rleb ?a ?b] => first [replace (Rleb a b) with true by (symmetry; apply Rleb_true; lra)|replace (Rleb a b) with false by (symmetry; apply Bool.not_true_iff_false; rewrite Rleb_true; lra)]
  | |- context [Reqb ?a ?b] => first [replace (Reqb a b) with true by (symmetry; apply Reqb_true; lra)|replace (Reqb a b) with false by (symmetry; apply Bool.not_true_iff_false; rewrite Reqb_true; lra)]
  end; cbn [andb orb negb].
Lemma m_bary : barycenterOf mA = Some (V3 (-4 / 6) 0 0).
Proof.
  unfold barycenterOf, mA, zVec3DDiv. cbn [fold_left length]. unfold zVec3DAdd, v3zero. cbn [vx vy vz]. replace (INR 6) with 6 by (cbn; ring). rdec. f_equal. unfold zVec3DMul. cbn [vx vy vz]. f_equal; field.
Qed.
Lemma z_bary : barycenterOf [v3zero] = Some v3zero.
Proof. unfold barycenterOf, zVec3DDiv. cbn [fold_left length]. unfold zVec3DAdd, v3zero. cbn [vx vy vz INR]. rdec. f_equal. unfold zVec3DMul. cbn [vx vy vz]. f_equal; field. Qed.
Lemma m_run fuel iter : zMPRDepth fuel iter mA [v3zero] = Some (Some (10, V3 5 0 0, V3 1 0 0)).
Proof.
  pose proof tol_small as TS. unfold zMPRDepth, mprFindPortal, mprOrigin. rewrite m_bary, z_bary. cbv zeta. cbn [ms_v ms_v1 ms_v2].
  assert (T0 : zVec3DIsTiny (zVec3DSub (V3 (-4 / 6) 0 0) v3zero) = false). { apply Bool.not_true_iff_false. rewrite tiny_neg. intros (X & _ & _). unfold zVec3DSub, v3zero in X. cbn [vx] in X. rewrite Rabs_left in X by lra. lra. }
  rewrite T0. cbn [ms_v ms_v1 ms_v2].
  assert (N0 : normalizeNC (zVec3DRev (zVec3DSub (V3 (-4 / 6) 0 0) v3zero)) = Some (V3 1 0 0)).
  { replace (zVec3DRev (zVec3DSub (V3 (-4 / 6) 0 0) v3zero)) with (V3 (2 / 3) 0 0) by (unfold zVec3DRev, zVec3DSub, v3zero; cbn [vx vy vz]; f_equal; lra). unfold normalizeNC, zVec3DNormalizeNC. cbn [snd]. zvg. rewrite norm_x, Rabs_right by lra. rdec. f_equal. unfold vscale. cbn [vx vy vz]. f_equal; field. }
  rewrite N0.
  assert (S1 : mprSupportMap mA [v3zero] (V3 1 0 0) = Some (MPS (V3 10 0 0) (V3 10 0 0) v3zero)).
  { unfold mprSupportMap, supportMap, mA. cbn [fold_left fst snd]. unfold zVec3DInnerProd. cbn [vx vy vz snd fst]. repeat (rdec; cbn [snd fst]). f_equal. f_equal. unfold zVec3DSub, v3zero. cbn [vx vy vz]. f_equal; ring. }
  rewrite S1. cbn [ms_v ms_v1 ms_v2]. unfold zVec3DInnerProd at 1. cbn [vx vy vz]. rdec.
  assert (T1 : zVec3DIsTiny (zVec3DOuterProd (V3 10 0 0) (zVec3DSub (V3 (-4 / 6) 0 0) v3zero)) = true).
  { apply tiny_neg. unfold negligible, zVec3DOuterProd, zVec3DSub, v3zero. cbn [vx vy vz]. match goal with |- Rabs ?a < _ /\ Rabs ?b < _ /\ Rabs ?c < _ => replace a with 0 by ring; replace b with 0 by ring; replace c with 0 by ring end. rewrite Rabs_R0. lra. }
  rewrite T1.
  assert (T2 : zVec3DIsTiny (V3 10 0 0) = false). { apply Bool.not_true_iff_false. rewrite tiny_neg. intros (X & _ & _). cbn [vx] in X. rewrite Rabs_right in X by lra. lra. }
  rewrite T2. cbn [ms_v ms_v1 ms_v2].
  assert (N1 : normalizeNC (V3 10 0 0) = Some (V3 1 0 0)). { unfold normalizeNC, zVec3DNormalizeNC. cbn [snd]. zvg. rewrite norm_x, Rabs_right by lra. rdec. f_equal. unfold vscale. cbn [vx vy vz]. f_equal; field. }
  rewrite N1. change (zVec3DNorm (V3 10 0 0)) with (norm (V3 10 0 0)). rewrite norm_x, Rabs_right by lra. f_equal. f_equal. f_equal. f_equal. rewrite mid_half. unfold vscale, vadd, v3zero. cbn [vx vy vz]. f_equal; lra.
Qed.
Lemma mpr_least : exists l1 l2 fuel iter depth pos dir, zMPRDepth fuel iter l1 l2 = Some (Some (depth, pos, dir)) /\ depth = 10 /\ exists t, norm t = 1 /\ separating 0 l1 l2 t.
Proof.
  exists mA, [v3zero], 0%nat, 0%nat, 10, (V3 5 0 0), (V3 1 0 0). split; [apply m_run|]. split; [reflexivity|]. assert (U : norm (V3 0 1 0) = 1) by (unfold norm, dot; cbn [vx vy vz]; replace (0 * 0 + 1 * 1 + 0 * 0) with 1 by ring; apply sqrt_1).
  exists (V3 0 1 0). split; [exact U|]. apply (separating_all mA [v3zero] (V3 0 1 0) 1); [exact U| |unfold dot; cbn [vx vy vz]; lra].
  intros x (a & b & A & [<-|[]] & ->). unfold dot, vsub, v3zero. cbn [vx vy vz]. unfold mA in A. cbn [List.In] in A. destruct A as [<-|[<-|[<-|[<-|[<-|[<-|[]]]]]]]; cbn [vx vy vz]; lra.
Qed.
