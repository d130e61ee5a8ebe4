(** Penetration depth by portal refinement: what is returned. *)
From Verif Require Import FactsElem FactsGJK4 FactsGJK5.
From Verif Require Export FactsMPR.
From Coq Require Import List Lra Lia.
Import ListNotations.
Open Scope R_scope.

(** ** The centre *)
Fixpoint vtotal (l : list vec3) : vec3 := match l with [] => v3zero | x :: r => vadd x (vtotal r) end.
Lemma fold_total : forall l a, fold_left zVec3DAdd l a = vadd a (vtotal l).
Proof. induction l as [|x l IH]; intros a; cbn [fold_left vtotal]; [apply vec3_ext; mring|]. rewrite IH. zvg. apply vec3_ext; mring. Qed.
Lemma mean_hull L : forall l, l <> [] -> incl l L -> convex_hull L (vscale (1 / INR (length l)) (vtotal l)).
Proof.
  induction l as [|x l IH]; [congruence|]. intros _ I. destruct l as [|y r].
  - cbn [length INR vtotal]. replace (vscale (1 / 1) (vadd x v3zero)) with x; [constructor; apply I; left; reflexivity|]. replace (1 / 1) with 1 by field. apply vec3_ext; mring.
  - assert (IHs : convex_hull L (vscale (1 / INR (length (y :: r))) (vtotal (y :: r)))) by (apply IH; [discriminate|intros z Z; apply I; right; exact Z]). set (k := length (y :: r)) in *. set (m := vtotal (y :: r)) in *.
    assert (KP : 0 < INR k) by (apply lt_0_INR; subst k; cbn; lia). change (length (x :: y :: r)) with (S k). change (vtotal (x :: y :: r)) with (vadd x m). rewrite S_INR.
    apply (hull_mix L x (vscale (1 / INR k) m)); [constructor; apply I; left; reflexivity|exact IHs|]. exists (1 / (INR k + 1)), (INR k / (INR k + 1)). split.
    + unfold weights2. repeat split; try (apply Rmult_le_pos; [lra|left; apply Rinv_0_lt_compat; lra]). field. lra.
    + unfold comb2. apply vec3_ext; unfold vadd, vscale; cbn [vx vy vz]; field; lra.
Qed.
Lemma barycenter_hull l c : barycenterOf l = Some c -> convex_hull l c.
Proof.
  destruct l as [|x r]; [discriminate|]. pose proof (mean_hull (x :: r) (x :: r) ltac:(discriminate) (incl_refl _)) as H. unfold barycenterOf. rewrite fold_total. unfold zVec3DDiv. revert H. generalize (INR (length (x :: r))) (vtotal (x :: r)). intros k m H.
  destruct (Reqb k 0); [discriminate|]. intros E. injection E as <-. replace (zVec3DMul (vadd v3zero m) (1 / k)) with (vscale (1 / k) m); [exact H|]. zvg. apply vec3_ext; mring.
Qed.
(** ** Slots *)
Definition slot_ok (l1 l2 : list vec3) (s : mslot) : Prop := List.In (ms_v1 s) l1 /\ List.In (ms_v2 s) l2 /\ ms_v s = vsub (ms_v1 s) (ms_v2 s).
Definition centre_ok (l1 l2 : list vec3) (s : mslot) : Prop := convex_hull l1 (ms_v1 s) /\ convex_hull l2 (ms_v2 s) /\ dist (ms_v s) (vsub (ms_v1 s) (ms_v2 s)) <= 10 * zTOL /\ (~ negligible (vsub (ms_v1 s) (ms_v2 s)) -> ms_v s = vsub (ms_v1 s) (ms_v2 s)).
Lemma support_slot l1 l2 v s : mprSupportMap l1 l2 v = Some s -> slot_ok l1 l2 s.
Proof.
  unfold mprSupportMap. intros E. destruct l1 as [|a1 r1]; [discriminate|]. destruct (support_ok (a1 :: r1) v ltac:(discriminate)) as (p1 & E1 & I1 & _). rewrite E1 in E.
  destruct l2 as [|a2 r2]; [discriminate|]. destruct (support_ok (a2 :: r2) (zVec3DRev v) ltac:(discriminate)) as (p2 & E2 & I2 & _). rewrite E2 in E. injection E as <-. repeat split; assumption.
Qed.
Lemma slot_diff l1 l2 s : slot_ok l1 l2 s -> difference l1 l2 (ms_v s).
Proof. intros (A & B & C). exists (ms_v1 s), (ms_v2 s). auto. Qed.
Lemma expand_ok l1 l2 s0 s1 s2 s3 s t1 t2 t3 : slot_ok l1 l2 s1 -> slot_ok l1 l2 s2 -> slot_ok l1 l2 s3 -> slot_ok l1 l2 s -> mprExpand s0 s1 s2 s3 s = (t1, t2, t3) -> slot_ok l1 l2 t1 /\ slot_ok l1 l2 t2 /\ slot_ok l1 l2 t3.
Proof. intros A B C D. unfold mprExpand. cbv zeta. destruct (Rltb _ _); destruct (Rltb _ _); intros K; injection K as <- <- <-; auto. Qed.
Lemma loop_ok l1 l2 : forall fuel s0 s1 s2 dir t0 t1 t2 t3, slot_ok l1 l2 s1 -> slot_ok l1 l2 s2 -> mprPortalLoop fuel l1 l2 s0 s1 s2 dir = ToRefine t0 t1 t2 t3 -> t0 = s0 /\ slot_ok l1 l2 t1 /\ slot_ok l1 l2 t2 /\ slot_ok l1 l2 t3.
Proof.
  induction fuel as [|fuel IH]; intros s0 s1 s2 dir t0 t1 t2 t3 A B; [discriminate|]. cbn [mprPortalLoop]. destruct (mprSupportMap l1 l2 dir) as [s3|] eqn:E; [|discriminate]. apply support_slot in E. destruct (Rltb _ _); [discriminate|].
  destruct (Rleb _ _); [destruct (mprSimplexDir s0 s1 s3); [|discriminate]; apply IH; assumption|]. destruct (Rleb _ _); [destruct (mprSimplexDir s0 s3 s2); [|discriminate]; apply IH; assumption|]. intros K. injection K as <- <- <- <-. auto.
Qed.
Lemma loop_kind l1 l2 : forall fuel s0 s1 s2 dir, match mprPortalLoop fuel l1 l2 s0 s1 s2 dir with AtPoint _ | OnSeg _ _ => False | _ => True end.
Proof.
  induction fuel as [|fuel IH]; intros s0 s1 s2 dir; [exact I|]. cbn [mprPortalLoop]. destruct (mprSupportMap l1 l2 dir) as [s3|]; [|exact I]. destruct (Rltb _ _); [exact I|].
  destruct (Rleb _ _); [destruct (mprSimplexDir s0 s1 s3); [apply IH|exact I]|]. destruct (Rleb _ _); [destruct (mprSimplexDir s0 s3 s2); [apply IH|exact I]|exact I].
Qed.
Lemma tiny_neg v : zVec3DIsTiny v = true <-> negligible v.
Proof. unfold zVec3DIsTiny, zVec3DIsTol, negligible. rewrite !andb_true_iff. unfold zIsTol. rewrite !Rltb_true. tauto. Qed.
Lemma find_ok fuel l1 l2 : match mprFindPortal fuel l1 l2 with
  | ToRefine s0 s1 s2 s3 => centre_ok l1 l2 s0 /\ slot_ok l1 l2 s1 /\ slot_ok l1 l2 s2 /\ slot_ok l1 l2 s3
  | AtPoint s1 => slot_ok l1 l2 s1 /\ negligible (ms_v s1) /\ exists n, norm n = 1 /\ forall x, difference l1 l2 x -> dot x n <= dot (ms_v s1) n
  | OnSeg s0 s1 => slot_ok l1 l2 s1 /\ exists n, norm n = 1 /\ forall x, difference l1 l2 x -> dot x n <= dot (ms_v s1) n
  | _ => True end.
Proof.
  unfold mprFindPortal. destruct (mprOrigin l1 l2) as [s0'|] eqn:E; [|exact I]. cbv zeta.
  assert (C0 : centre_ok l1 l2 (if zVec3DIsTiny (ms_v s0') then MPS (V3 (vx (ms_v s0') + zTOL * 10) (vy (ms_v s0')) (vz (ms_v s0'))) (ms_v1 s0') (ms_v2 s0') else s0')).
  { unfold mprOrigin in E. destruct (barycenterOf l1) as [c1|] eqn:E1; [|discriminate]. destruct (barycenterOf l2) as [c2|] eqn:E2; [|discriminate]. apply barycenter_hull in E1, E2. injection E as <-. cbn [ms_v ms_v1 ms_v2]. zvg. pose proof zTOL_pos as TP.
    destruct (zVec3DIsTiny (vsub c1 c2)) eqn:T; unfold centre_ok; cbn [ms_v ms_v1 ms_v2]; (split; [exact E1|]); (split; [exact E2|]).
    - split; [|intros K; exfalso; apply K, tiny_neg, T]. unfold dist. match goal with |- norm ?v <= _ => replace v with (vscale (10 * zTOL) (V3 1 0 0)) by (apply vec3_ext; mring) end. rewrite norm_scale, Rabs_right by lra. unfold norm, dot. cbn [vx vy vz]. replace (1 * 1 + 0 * 0 + 0 * 0) with 1 by ring. rewrite sqrt_1. lra.
    - split; [|reflexivity]. unfold dist. replace (vsub (vsub c1 c2) (vsub c1 c2)) with v3zero by (apply vec3_ext; mring). unfold norm. replace (dot v3zero v3zero) with 0 by mring. rewrite sqrt_0. lra. }
  revert C0. match goal with |- centre_ok l1 l2 ?x -> _ => generalize x end. intros s0 C0.
  destruct (normalizeNC (zVec3DRev (ms_v s0))) as [dir|] eqn:E0; [|exact I]. destruct (mprSupportMap l1 l2 dir) as [s1|] eqn:E1; [|exact I]. pose proof (support_slot _ _ _ _ E1) as O1. destruct (Rltb _ _); [exact I|].
  destruct (zVec3DIsTiny (zVec3DOuterProd (ms_v s1) (ms_v s0))).
  - assert (X : exists n, norm n = 1 /\ forall x, difference l1 l2 x -> dot x n <= dot (ms_v s1) n) by (exists dir; split; [exact (normalize_unit _ _ E0)|exact (mpr_support _ _ _ _ E1)]).
    destruct (zVec3DIsTiny (ms_v s1)) eqn:T; [|split; assumption]. split; [exact O1|]. split; [apply tiny_neg; exact T|exact X].
  - destruct (normalizeNC (zVec3DOuterProd (ms_v s1) (ms_v s0))) as [dir2|]; [|exact I]. destruct (mprSupportMap l1 l2 dir2) as [s2|] eqn:E2; [|exact I]. apply support_slot in E2. destruct (Rltb _ _); [exact I|].
    destruct (mprSimplexDir s0 s1 s2) as [dir3|]; [|exact I]. destruct (Rltb _ _).
    + pose proof (loop_kind l1 l2 fuel s0 s2 s1 (zVec3DRev dir3)) as K. destruct (mprPortalLoop fuel l1 l2 s0 s2 s1 (zVec3DRev dir3)) as [|t0 t1 t2 t3| | | |] eqn:P; try exact I; try (destruct K). apply loop_ok in P as (-> & P); auto.
    + pose proof (loop_kind l1 l2 fuel s0 s1 s2 dir3) as K. destruct (mprPortalLoop fuel l1 l2 s0 s1 s2 dir3) as [|t0 t1 t2 t3| | | |] eqn:P; try exact I; try (destruct K). apply loop_ok in P as (-> & P); auto.
Qed.
Lemma refine_ok l1 l2 : forall fuel s0 s1 s2 s3 t1 t2 t3, slot_ok l1 l2 s1 -> slot_ok l1 l2 s2 -> slot_ok l1 l2 s3 -> mprRefinePortal fuel l1 l2 s0 s1 s2 s3 = RPortal t1 t2 t3 -> slot_ok l1 l2 t1 /\ slot_ok l1 l2 t2 /\ slot_ok l1 l2 t3.
Proof.
  induction fuel as [|fuel IH]; intros s0 s1 s2 s3 t1 t2 t3 A B C; [discriminate|]. cbn [mprRefinePortal]. destruct (mprSimplexDir s1 s2 s3) as [d|]; [|discriminate]. destruct (Rltb _ _); [intros K; injection K as <- <- <-; auto|].
  destruct (mprSupportMap l1 l2 d) as [s|] eqn:E; [|discriminate]. apply support_slot in E. destruct (_ || _)%bool; [discriminate|]. destruct (mprExpand s0 s1 s2 s3 s) as [[u1 u2] u3] eqn:X. destruct (expand_ok _ _ _ _ _ _ _ _ _ _ A B C E X) as (A' & B' & C'). apply IH; assumption.
Qed.
(** the portal search answers as zMPR does *)
Lemma refine_same l1 l2 : forall fuel s0 s1 s2 s3, mprRefine fuel l1 l2 s0 s1 s2 s3 = match mprRefinePortal fuel l1 l2 s0 s1 s2 s3 with RBroken => None | RApart => Some false | RPortal _ _ _ => Some true end.
Proof.
  induction fuel as [|fuel IH]; intros s0 s1 s2 s3; [reflexivity|]. cbn [mprRefine mprRefinePortal]. destruct (mprSimplexDir s1 s2 s3) as [d|]; [|reflexivity]. destruct (Rltb _ _); [reflexivity|].
  destruct (mprSupportMap l1 l2 d) as [s|]; [|reflexivity]. destruct (_ || _)%bool; [reflexivity|]. destruct (mprExpand s0 s1 s2 s3 s) as [[u1 u2] u3]. apply IH.
Qed.
(** ** The contact point *)
Lemma gp3 a b c : zVec3DGrassmannProd a b c = dot a (cross b c). Proof. reflexivity. Qed.
Lemma mix_comb sum b0 b1 b2 b3 p0 p1 p2 p3 : sum <> 0 -> mprMix sum b0 b1 b2 b3 p0 p1 p2 p3 = comb4 (b0 / sum) (b1 / sum) (b2 / sum) (b3 / sum) p0 p1 p2 p3.
Proof. intros _. unfold mprMix, zVec3DMul, zVec3DCat. apply vec3_ext; unfold comb4, comb3, comb2, vadd, vscale, v3zero, Rdiv; cbn [vx vy vz]; ring. Qed.
Lemma mid_half a b : zVec3DMid a b = vscale (1 / 2) (vadd a b).
Proof. apply vec3_ext; unfold zVec3DMid, vscale, vadd; cbn [vx vy vz]; lra. Qed.
Lemma depth_pair l1 l2 s0 s1 s2 s3 pos n : slot_ok l1 l2 s1 -> slot_ok l1 l2 s2 -> slot_ok l1 l2 s3 -> mprSimplexDir s1 s2 s3 = Some n -> mprDepthPair s0 s1 s2 s3 = Some pos ->
  exists w0 w1 w2 w3, w0 + w1 + w2 + w3 = 1 /\
    let q1 := comb4 w0 w1 w2 w3 (ms_v1 s0) (ms_v1 s1) (ms_v1 s2) (ms_v1 s3) in let q2 := comb4 w0 w1 w2 w3 (ms_v2 s0) (ms_v2 s1) (ms_v2 s2) (ms_v2 s3) in
    pos = vscale (1 / 2) (vadd q1 q2) /\ (vsub q1 q2 = vscale w0 (vsub (vsub (ms_v1 s0) (ms_v2 s0)) (ms_v s0)) \/ w0 = 0 /\ exists h, vsub q1 q2 = vscale h n).
Proof.
  intros (_ & _ & V1) (_ & _ & V2) (_ & _ & V3) SD. unfold mprDepthPair. rewrite SD. cbv zeta. rewrite !gp3. rewrite V1, V2, V3. clear SD V1 V2 V3.
  set (x1 := vsub (ms_v1 s1) (ms_v2 s1)). set (x2 := vsub (ms_v1 s2) (ms_v2 s2)). set (x3 := vsub (ms_v1 s3) (ms_v2 s3)). set (x0 := ms_v s0).
  destruct (Rltb _ zTOL).
  - set (sum := dot n (cross x2 x3) + dot n (cross x3 x1) + dot n (cross x1 x2)). destruct (Reqb_reflect sum 0) as [|N]; [discriminate|]. intros K. injection K as <-. rewrite mid_half, !mix_comb by exact N.
    exists (0 / sum), (dot n (cross x2 x3) / sum), (dot n (cross x3 x1) / sum), (dot n (cross x1 x2) / sum). split; [unfold sum in *; field; exact N|]. cbv zeta. split; [reflexivity|]. right. split; [unfold Rdiv; ring|].
    exists (dot x1 (cross x2 x3) / sum). clearbody sum. apply vec3_ext; unfold x1, x2, x3, comb4, comb3, comb2, vadd, vsub, vscale, dot, cross; cbn [vx vy vz]; field; exact N.
  - set (b0 := dot x3 (cross x1 x2)). set (b1 := dot x0 (cross x3 x2)). set (b2 := dot x3 (cross x0 x1)). set (b3 := dot x0 (cross x2 x1)). set (sum := b0 + b1 + b2 + b3). destruct (Reqb_reflect sum 0) as [|N]; [discriminate|]. intros K. injection K as <-. rewrite mid_half, !mix_comb by exact N.
    exists (b0 / sum), (b1 / sum), (b2 / sum), (b3 / sum). split; [unfold sum in *; field; exact N|]. cbv zeta. split; [reflexivity|]. left. clearbody sum.
    apply vec3_ext; unfold b0, b1, b2, b3, x0, x1, x2, x3, comb4, comb3, comb2, vadd, vsub, vscale, dot, cross; cbn [vx vy vz]; field; exact N.
Qed.
(** ** The whole function *)
Lemma normalize_back v n : normalizeNC v = Some n -> v = vscale (norm v) n.
Proof.
  unfold normalizeNC, zVec3DNormalizeNC. cbn [snd]. zvg. destruct (Reqb_reflect (norm v) 0) as [|N]; [discriminate|]. intros K. injection K as <-. apply vec3_ext; unfold vscale; cbn [vx vy vz]; field; exact N.
Qed.
Lemma simplex_dir s1 s2 s3 n : mprSimplexDir s1 s2 s3 = Some n -> norm n = 1 /\ dot n (ms_v s2) = dot n (ms_v s1) /\ dot n (ms_v s3) = dot n (ms_v s1).
Proof.
  intros E. split; [exact (normalize_unit _ _ E)|]. revert E. unfold mprSimplexDir, normalizeNC, zVec3DNormalizeNC. cbn [snd]. zvg. destruct (Reqb _ 0); [discriminate|]. intros K. injection K as <-. generalize (1 / norm (cross (vsub (ms_v s2) (ms_v s1)) (vsub (ms_v s3) (ms_v s1)))). intros k.
  split; apply Rminus_diag_uniq; unfold dot, vscale, cross, vsub; cbn [vx vy vz]; ring.
Qed.
Lemma sq_diff_bound x y M : norm x <= M -> norm y <= M -> dot (vsub x y) (vsub x y) <= 4 * (M * M).
Proof.
  intros X Y. assert (T : norm (vsub x y) <= 2 * M). { replace (vsub x y) with (vadd x (vscale (-1) y)) by (apply vec3_ext; mring). eapply Rle_trans; [apply norm_triangle|]. rewrite norm_scale, Rabs_left by lra. lra. }
  rewrite <- norm_sqr. pose proof (norm_nonneg (vsub x y)). replace (4 * (M * M)) with ((2 * M) * (2 * M)) by ring. apply Rmult_le_compat; assumption.
Qed.
Lemma depth_loop l1 l2 M s0 : (forall x, difference l1 l2 x -> norm x <= M) -> centre_ok l1 l2 s0 -> forall iter s1 s2 s3 depth pos dir, slot_ok l1 l2 s1 -> slot_ok l1 l2 s2 -> slot_ok l1 l2 s3 ->
  mprDepthLoop iter l1 l2 s0 s1 s2 s3 = Some (Some (depth, pos, dir)) -> 0 < depth /\ norm dir = 1 /\ portal_result l1 l2 M depth pos dir.
Proof.
  intros BM (C1 & C2 & C3 & C4). induction iter as [|iter IH]; intros s1 s2 s3 depth pos dir O1 O2 O3; [discriminate|]. cbn [mprDepthLoop]. destruct (mprSimplexDir s1 s2 s3) as [n|] eqn:SD; [|discriminate].
  destruct (mprSupportMap l1 l2 n) as [s|] eqn:ES; [|discriminate]. destruct (mprIsReached s1 s2 s3 s n) eqn:RE.
  - destruct (mprCalcDepth (ms_v s1) (ms_v s2) (ms_v s3)) as [(e, w)|] eqn:CD; [|discriminate]. destruct (normalizeNC w) as [d|] eqn:NW; [|discriminate]. destruct (mprDepthPair s0 s1 s2 s3) as [ps|] eqn:DP; [|discriminate]. intros K. injection K as <- <- <-.
    pose proof (BM _ (slot_diff _ _ _ O1)) as N1. pose proof (BM _ (slot_diff _ _ _ O2)) as N2. pose proof (BM _ (slot_diff _ _ _ O3)) as N3.
    apply (calc_depth _ _ _ _ _ (4 * (M * M))) in CD; try (apply sq_diff_bound; assumption). destruct CD as (-> & NE & LE). change (sqrt (dot w w)) with (norm w). pose proof (normalize_back _ _ NW) as WB. pose proof (normalize_unit _ _ NW) as UN.
    split; [|split; [exact UN|]]. { revert NW. unfold normalizeNC. zvg. destruct (Reqb_reflect (norm w) 0) as [|Z]; [discriminate|]. intros _. pose proof (norm_nonneg w). lra. }
    destruct (simplex_dir _ _ _ _ SD) as (UD & D2 & D3). pose proof (depth_pair l1 l2 s0 s1 s2 s3 ps n O1 O2 O3 SD DP) as PP.
    destruct O1 as (A1 & B1 & V1). destruct O2 as (A2 & B2 & V2). destruct O3 as (A3 & B3 & V3).
    exists (ms_v1 s0), (ms_v2 s0), (ms_v s0), (ms_v1 s1), (ms_v1 s2), (ms_v1 s3), (ms_v2 s1), (ms_v2 s2), (ms_v2 s3), n, (dot n (ms_v s1)). rewrite <- V1, <- V2, <- V3, <- WB.
    repeat (split; [assumption || reflexivity|]). split; [|split; [exact NE|split; [|exact PP]]].
    + intros x X. pose proof (mpr_support _ _ _ _ ES x X) as MS. unfold mprIsReached in RE. apply andb_true_iff in RE as (RE & _). apply andb_true_iff in RE as (RE & _). apply Rltb_true in RE. revert RE. zvg. intros RE. rewrite (dot_comm n x), (dot_comm n). lra.
    + intros q Q. specialize (LE q Q). lra.
  - destruct (mprExpand s0 s1 s2 s3 s) as [[t1 t2] t3] eqn:X. destruct (expand_ok _ _ _ _ _ _ _ _ _ _ O1 O2 O3 (support_slot _ _ _ _ ES) X) as (P1 & P2 & P3). apply IH; assumption.
Qed.
Lemma mpr_portal : forall fuel iter l1 l2 M depth pos dir, (forall x, difference l1 l2 x -> norm x <= M) -> zMPRDepth fuel iter l1 l2 = Some (Some (depth, pos, dir)) ->
  (depth = 0 /\ dir = v3zero \/ 0 < depth /\ norm dir = 1) /\
  (portal_result l1 l2 M depth pos dir \/
   exists a b n, List.In a l1 /\ List.In b l2 /\ pos = vscale (1 / 2) (vadd a b) /\ (vscale depth dir = vsub a b \/ depth = 0 /\ negligible (vsub a b)) /\ norm n = 1 /\ forall x, difference l1 l2 x -> dot n x <= dot n (vsub a b)).
Proof.
  intros fuel iter l1 l2 M depth pos dir BM. unfold zMPRDepth. pose proof (find_ok fuel l1 l2) as FO. destruct (mprFindPortal fuel l1 l2) as [|s0 s1 s2 s3|s1|s0 s1| |]; try discriminate.
  - destruct FO as (C0 & O1 & O2 & O3). destruct (mprRefinePortal fuel l1 l2 s0 s1 s2 s3) as [| |t1 t2 t3] eqn:R; try discriminate. destruct (refine_ok _ _ _ _ _ _ _ _ _ _ O1 O2 O3 R) as (P1 & P2 & P3).
    intros E. destruct (depth_loop l1 l2 M s0 BM C0 iter t1 t2 t3 depth pos dir P1 P2 P3 E) as (D & U & PR). auto.
  - destruct FO as ((A & B & V) & NG & n & U & H). intros K. injection K as <- <- <-. split; [left; auto|]. right. exists (ms_v1 s1), (ms_v2 s1), n. rewrite <- V. repeat (split; [assumption || apply mid_half|]). split; [right; auto|]. split; [exact U|]. intros x X. rewrite !(dot_comm n). apply H, X.
  - destruct FO as ((A & B & V) & n & U & H). destruct (normalizeNC (ms_v s1)) as [d|] eqn:NW; [|discriminate]. intros K. injection K as <- <- <-. change (zVec3DNorm (ms_v s1)) with (norm (ms_v s1)). split.
    + right. split; [|exact (normalize_unit _ _ NW)]. revert NW. unfold normalizeNC. zvg. destruct (Reqb_reflect (norm (ms_v s1)) 0) as [|Z]; [discriminate|]. intros _. pose proof (norm_nonneg (ms_v s1)). lra.
    + right. exists (ms_v1 s1), (ms_v2 s1), n. rewrite <- V. repeat (split; [assumption || apply mid_half|]). split; [left; symmetry; apply normalize_back; exact NW|]. split; [exact U|]. intros x X. rewrite !(dot_comm n). apply H, X.
Qed.
