(** Penetration depth by portal refinement: a run that refines a portal. *)
From Verif Require Import FactsElem FactsGJK4 FactsGJK5.
From Verif Require Export FactsMPR3.
From Coq Require Import List Lra Lia.
Import ListNotations.
Open Scope R_scope.

(** ** More rounds do not change the result *)
Lemma portal_more l1 l2 : forall f g s0 s1 s2 dir, (f <= g)%nat -> match mprPortalLoop f l1 l2 s0 s1 s2 dir with MFuel => True | p => mprPortalLoop g l1 l2 s0 s1 s2 dir = p end.
Proof.
  induction f as [|f IH]; intros g s0 s1 s2 dir L; [exact I|]. destruct g as [|g]; [lia|]. cbn [mprPortalLoop]. destruct (mprSupportMap l1 l2 dir) as [s3|]; [|reflexivity]. destruct (Rltb _ _); [reflexivity|].
  destruct (Rleb _ _); [destruct (mprSimplexDir s0 s1 s3); [apply IH; lia|reflexivity]|]. destruct (Rleb _ _); [destruct (mprSimplexDir s0 s3 s2); [apply IH; lia|reflexivity]|reflexivity].
Qed.
Lemma find_more l1 l2 f g : (f <= g)%nat -> match mprFindPortal f l1 l2 with MFuel => True | p => mprFindPortal g l1 l2 = p end.
Proof.
  intros L. unfold mprFindPortal. destruct (mprOrigin l1 l2) as [s0'|]; [|reflexivity]. cbv zeta. match goal with |- context [if zVec3DIsTiny (ms_v s0') then ?a else ?b] => generalize (if zVec3DIsTiny (ms_v s0') then a else b) end. intros s0.
  destruct (normalizeNC _) as [dir|]; [|reflexivity]. destruct (mprSupportMap l1 l2 dir) as [s1|]; [|reflexivity]. destruct (Rltb _ _); [reflexivity|]. destruct (zVec3DIsTiny _); [destruct (zVec3DIsTiny _); reflexivity|].
  destruct (normalizeNC _) as [dir2|]; [|reflexivity]. destruct (mprSupportMap l1 l2 dir2) as [s2|]; [|reflexivity]. destruct (Rltb _ _); [reflexivity|]. destruct (mprSimplexDir s0 s1 s2) as [dir3|]; [|reflexivity]. destruct (Rltb _ _); apply portal_more; exact L.
Qed.
Lemma refine_more l1 l2 : forall f g s0 s1 s2 s3, (f <= g)%nat -> match mprRefinePortal f l1 l2 s0 s1 s2 s3 with RBroken => True | p => mprRefinePortal g l1 l2 s0 s1 s2 s3 = p end.
Proof.
  induction f as [|f IH]; intros g s0 s1 s2 s3 L; [exact I|]. destruct g as [|g]; [lia|]. cbn [mprRefinePortal]. destruct (mprSimplexDir s1 s2 s3) as [d|]; [|exact I]. destruct (Rltb _ _); [reflexivity|]. destruct (mprSupportMap l1 l2 d) as [s|]; [|exact I].
  destruct (_ || _)%bool; [reflexivity|]. destruct (mprExpand s0 s1 s2 s3 s) as [[u1 u2] u3]. apply IH; lia.
Qed.
Lemma rounds_more l1 l2 s0 r : forall i j s1 s2 s3, (i <= j)%nat -> mprDepthLoop i l1 l2 s0 s1 s2 s3 = Some (Some r) -> mprDepthLoop j l1 l2 s0 s1 s2 s3 = Some (Some r).
Proof.
  induction i as [|i IH]; intros j s1 s2 s3 L; [discriminate|]. destruct j as [|j]; [lia|]. cbn [mprDepthLoop]. destruct (mprSimplexDir s1 s2 s3) as [d|]; [|discriminate]. destruct (mprSupportMap l1 l2 d) as [s|]; [|discriminate].
  destruct (mprIsReached s1 s2 s3 s d); [auto|]. destruct (mprExpand s0 s1 s2 s3 s) as [[u1 u2] u3]. apply IH; lia.
Qed.
Lemma mpr_more : forall fuel fuel' iter iter' l1 l2 r, (fuel <= fuel')%nat -> (iter <= iter')%nat -> zMPRDepth fuel iter l1 l2 = Some (Some r) -> zMPRDepth fuel' iter' l1 l2 = Some (Some r).
Proof.
  intros fuel fuel' iter iter' l1 l2 r LF LI. unfold zMPRDepth. pose proof (find_more l1 l2 fuel fuel' LF) as F. destruct (mprFindPortal fuel l1 l2) as [|s0 s1 s2 s3|s1|s0 s1| |]; try discriminate; rewrite F; auto.
  pose proof (refine_more l1 l2 fuel fuel' s0 s1 s2 s3 LF) as R. destruct (mprRefinePortal fuel l1 l2 s0 s1 s2 s3) as [| |u1 u2 u3]; try discriminate. rewrite R. apply rounds_more. exact LI.
Qed.
(** ** A tetrahedron *)
Definition tA : list vec3 := [V3 1 1 0; V3 (-1) (-1) 1; V3 0 (-1) 0; V3 (-4) 1 (-1)].
Lemma norm_is v k : 0 <= k -> dot v v = k * k -> norm v = k.
Proof. intros K E. unfold norm. rewrite E. apply sqrt_square. exact K. Qed.
Lemma normalize_is v k n : 0 < k -> dot v v = k * k -> vscale k n = v -> normalizeNC v = Some n.
Proof.
  intros K E V. unfold normalizeNC, zVec3DNormalizeNC. cbn [snd]. zvg. rewrite (norm_is v k) by (lra || assumption). rdec. f_equal. rewrite <- V. apply vec3_ext; unfold vscale; cbn [vx vy vz]; field; lra.
Qed.
Ltac vnum := unfold vscale, vsub, vneg, vadd, cross, dot, v3zero; cbn [vx vy vz].
Ltac veq := vnum; f_equal; lra.
Lemma t_bary : barycenterOf tA = Some (V3 (-1) 0 0).
Proof. unfold barycenterOf, tA, zVec3DDiv. cbn [fold_left length]. unfold zVec3DAdd, v3zero. cbn [vx vy vz]. replace (INR 4) with 4 by (cbn; ring). rdec. f_equal. unfold zVec3DMul. cbn [vx vy vz]. f_equal; field. Qed.
Lemma t_support d p : List.In p tA -> supportMap tA d = Some p -> mprSupportMap tA [v3zero] d = Some (MPS p p v3zero).
Proof. intros _ E. unfold mprSupportMap. rewrite E. cbn [supportMap fold_left fst]. f_equal. f_equal. zvg. apply vec3_ext; vnum; ring. Qed.
Ltac tsup := apply t_support; [cbn [tA List.In]; tauto|]; unfold supportMap, tA; cbn [fold_left fst snd]; unfold zVec3DInnerProd; cbn [vx vy vz snd fst]; repeat (rdec; cbn [snd fst]); reflexivity.
Definition t0 := MPS (V3 (-1) 0 0) (V3 (-1) 0 0) v3zero.
Definition t1 := MPS (V3 1 1 0) (V3 1 1 0) v3zero.
Definition t2 := MPS (V3 (-1) (-1) 1) (V3 (-1) (-1) 1) v3zero.
Definition t3 := MPS (V3 0 (-1) 0) (V3 0 (-1) 0) v3zero.
Lemma t_find fuel : mprFindPortal (S fuel) tA [v3zero] = ToRefine t0 t1 t2 t3.
Proof.
  pose proof tol_small as TS. unfold mprFindPortal, mprOrigin. rewrite t_bary, z_bary. cbv zeta. cbn [ms_v ms_v1 ms_v2]. replace (zVec3DSub (V3 (-1) 0 0) v3zero) with (V3 (-1) 0 0) by (zvg; veq).
  assert (T0 : zVec3DIsTiny (V3 (-1) 0 0) = false). { apply Bool.not_true_iff_false. rewrite tiny_neg. intros (X & _ & _). cbn [vx] in X. rewrite Rabs_left in X by lra. lra. }
  rewrite T0. fold t0. change (ms_v t0) with (V3 (-1) 0 0). rewrite (normalize_is _ 1 (V3 1 0 0)); [|lra|zvg; vnum; lra|zvg; veq].
  assert (S1 : mprSupportMap tA [v3zero] (V3 1 0 0) = Some t1) by tsup. rewrite S1. change (ms_v t1) with (V3 1 1 0). zvg.
  replace (dot (V3 1 1 0) (V3 1 0 0)) with 1 by (vnum; lra). rdec. replace (cross (V3 1 1 0) (V3 (-1) 0 0)) with (V3 0 0 1) by veq.
  assert (T1 : zVec3DIsTiny (V3 0 0 1) = false). { apply Bool.not_true_iff_false. rewrite tiny_neg. intros (_ & _ & X). cbn [vz] in X. rewrite Rabs_right in X by lra. lra. }
  rewrite T1. rewrite (normalize_is _ 1 (V3 0 0 1)); [|lra|vnum; lra|veq]. assert (S2 : mprSupportMap tA [v3zero] (V3 0 0 1) = Some t2) by tsup. rewrite S2. change (ms_v t2) with (V3 (-1) (-1) 1). zvg.
  replace (dot (V3 (-1) (-1) 1) (V3 0 0 1)) with 1 by (vnum; lra). rdec.
  unfold mprSimplexDir at 1. change (ms_v t1) with (V3 1 1 0). change (ms_v t2) with (V3 (-1) (-1) 1). change (ms_v t0) with (V3 (-1) 0 0). zvg. rewrite (normalize_is _ 3 (V3 (1 / 3) (-2 / 3) (-2 / 3))); [|lra|vnum; lra|veq]. zvg.
  replace (dot (V3 (1 / 3) (-2 / 3) (-2 / 3)) (V3 (-1) 0 0)) with (-1 / 3) by (vnum; lra). rdec. cbn [mprPortalLoop].
  assert (S3 : mprSupportMap tA [v3zero] (V3 (1 / 3) (-2 / 3) (-2 / 3)) = Some t3) by tsup. rewrite S3. rewrite !gp3. zvg. change (ms_v t1) with (V3 1 1 0). change (ms_v t2) with (V3 (-1) (-1) 1). change (ms_v t0) with (V3 (-1) 0 0). change (ms_v t3) with (V3 0 (-1) 0).
  vnum. rdec. reflexivity.
Qed.
Lemma t_dir : mprSimplexDir t1 t2 t3 = Some (V3 (2 / 3) (-1 / 3) (2 / 3)).
Proof. unfold mprSimplexDir. change (ms_v t1) with (V3 1 1 0). change (ms_v t2) with (V3 (-1) (-1) 1). change (ms_v t3) with (V3 0 (-1) 0). zvg. apply (normalize_is _ 3); [lra|vnum; lra|veq]. Qed.
Lemma t_run fuel iter : zMPRDepth (S fuel) (S iter) tA [v3zero] = Some (Some (1 / 3, V3 0 0 0, V3 (2 / 3) (-1 / 3) (2 / 3))).
Proof.
  pose proof tol_small as TS. unfold zMPRDepth. rewrite t_find. cbn [mprRefinePortal]. rewrite t_dir. zvg. change (ms_v t1) with (V3 1 1 0). replace (dot (V3 1 1 0) (V3 (2 / 3) (-1 / 3) (2 / 3))) with (1 / 3) by (vnum; lra). rdec.
  cbn [mprDepthLoop]. rewrite t_dir.
  assert (S4 : exists p, mprSupportMap tA [v3zero] (V3 (2 / 3) (-1 / 3) (2 / 3)) = Some (MPS p p v3zero) /\ dot p (V3 (2 / 3) (-1 / 3) (2 / 3)) <= 1 / 3).
  { destruct (support_ok tA (V3 (2 / 3) (-1 / 3) (2 / 3)) ltac:(discriminate)) as (p & E & I & _). exists p. split; [apply t_support; assumption|]. unfold tA in I. cbn [List.In] in I. destruct I as [<-|[<-|[<-|[<-|[]]]]]; vnum; lra. }
  destruct S4 as (p & -> & LP). unfold mprIsReached. cbn [ms_v]. zvg. change (ms_v t1) with (V3 1 1 0). change (ms_v t2) with (V3 (-1) (-1) 1). change (ms_v t3) with (V3 0 (-1) 0).
  replace (dot (V3 1 1 0) (V3 (2 / 3) (-1 / 3) (2 / 3))) with (1 / 3) by (vnum; lra). replace (dot (V3 (-1) (-1) 1) (V3 (2 / 3) (-1 / 3) (2 / 3))) with (1 / 3) by (vnum; lra). replace (dot (V3 0 (-1) 0) (V3 (2 / 3) (-1 / 3) (2 / 3))) with (1 / 3) by (vnum; lra). rdec.
  assert (CD : mprCalcDepth (V3 1 1 0) (V3 (-1) (-1) 1) (V3 0 (-1) 0) = Some (1 / 3 * (1 / 3), V3 (2 / 9) (-1 / 9) (2 / 9))).
  { unfold mprCalcDepth, zVec3DSqrNorm. zvg. replace (vsub (V3 (-1) (-1) 1) (V3 1 1 0)) with (V3 (-2) (-2) 1) by veq. replace (vsub (V3 0 (-1) 0) (V3 1 1 0)) with (V3 (-1) (-2) 0) by veq.
    replace (dot (V3 (-1) (-2) 0) (V3 (-1) (-2) 0)) with 5 by (vnum; lra). replace (dot (V3 (-2) (-2) 1) (V3 (-2) (-2) 1)) with 9 by (vnum; lra). replace (dot (V3 (-2) (-2) 1) (V3 (-1) (-2) 0)) with 6 by (vnum; lra).
    replace (dot (V3 1 1 0) (V3 (-1) (-2) 0)) with (-3) by (vnum; lra). replace (dot (V3 1 1 0) (V3 (-2) (-2) 1)) with (-4) by (vnum; lra). rdec.
    replace ((-3 * 6 - 5 * -4) / (5 * 9 - 6 * 6)) with (2 / 9) by field. replace ((- (2 / 9) * 6 - -3) / 5) with (1 / 3) by field. rdec. 
    replace (vadd (vadd (V3 1 1 0) (vscale (2 / 9) (V3 (-2) (-2) 1))) (vscale (1 / 3) (V3 (-1) (-2) 0))) with (V3 (2 / 9) (-1 / 9) (2 / 9)) by veq. f_equal. f_equal. vnum. lra. }
  rewrite CD. rewrite (normalize_is _ (1 / 3) (V3 (2 / 3) (-1 / 3) (2 / 3))); [|lra|vnum; lra|veq]. rewrite sqrt_square by lra.
  assert (DP : mprDepthPair t0 t1 t2 t3 = Some (V3 0 0 0)).
  { unfold mprDepthPair. rewrite t_dir. cbv zeta. rewrite !gp3. change (ms_v t1) with (V3 1 1 0). change (ms_v t2) with (V3 (-1) (-1) 1). change (ms_v t0) with (V3 (-1) 0 0). change (ms_v t3) with (V3 0 (-1) 0). vnum. rdec. rewrite mid_half. unfold mprMix. cbn [t0 t1 t2 t3 ms_v1 ms_v2]. zvg. f_equal. vnum. f_equal; lra. }
  rewrite DP. reflexivity.
Qed.
