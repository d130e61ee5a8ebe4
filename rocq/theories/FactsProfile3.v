(** The identified transformation: statements for the caller. *)
From Verif Require Import Base Spec SpecGeom SpecData SpecPCA SpecBox SpecProfile ModelVec ModelMat ModelFrame ModelElem ModelData ModelPCA ModelProfile FactsVec FactsAlg FactsMat FactsEig FactsObb FactsData FactsData2 FactsPCA FactsSvd FactsProfile FactsProfile2.
From Coq Require Import Lia Lra.
Open Scope R_scope.

Lemma frame_inv fuel src dest l1 l2 s' d' f : holds src l1 -> holds dest l2 -> zVec3DDataIdentFrame fuel src dest = Some (s', d', IFrame f) ->
  l1 <> [] /\ length l1 = length l2 /\ (3 <= length l1)%nat /\ scatter l1 <> 0 /\ exists rank u sv v, svd_cols (xcov l1 l2) u sv v rank /\ fatt f = attm v u /\
    fpos f = vsub (vmean l2) (vscale ((vx sv + vy sv + vz sv) / scatter l1) (mvec (attm v u) (vmean l1))).
Proof.
  intros H1 H2 E. destruct (ident_inv _ _ _ _ _ _ _ _ H1 H2 E) as [(_ & A)|(L & N & rank & u & sv & v & SC & A)]; [discriminate|].
  split; [intros ->; cbn in N; lia|]. split; [exact L|]. split; [exact N|]. unfold identified_by in A. destruct (Reqb_reflect (scatter l1) 0) as [Z|Z]; [discriminate|]. injection A as ->. split; [exact Z|]. exists rank, u, sv, v. auto.
Qed.
Lemma scatter_pos l : l <> [] -> 0 <= scatter l.
Proof. intros NE. rewrite scatter_dot. rewrite <- (mean_const 0 l NE). apply mean_le; [exact NE|]. intros p. apply dot_pos. Qed.
Lemma ident_total fuel src dest l1 l2 s' d' r : holds src l1 -> holds dest l2 -> zVec3DDataIdentFrame fuel src dest = Some (s', d', r) ->
  match r with
  | INull => length l1 <> length l2 \/ (length l1 < 3)%nat
  | INaN _ => length l1 = length l2 /\ (3 <= length l1)%nat /\ exists c, forall p, List.In p l1 -> p = c
  | IFrame _ => length l1 = length l2 /\ (3 <= length l1)%nat /\ ~ exists c, forall p, List.In p l1 -> p = c
  end.
Proof.
  intros H1 H2 E. destruct (ident_inv _ _ _ _ _ _ _ _ H1 H2 E) as [(B & ->)|(L & N & rank & u & sv & v & SC & A)]; [exact B|].
  assert (NE : l1 <> []) by (intros ->; cbn in N; lia). unfold identified_by in A. destruct (Reqb_reflect (scatter l1) 0) as [Z|Z]; subst r; (split; [exact L|]; split; [exact N|]); rewrite <- scatter_zero by exact NE; exact Z.
Qed.
Lemma ident_best fuel src dest l1 l2 s' d' f s : holds src l1 -> holds dest l2 -> zVec3DDataIdentFrame fuel src dest = Some (s', d', IFrame f) ->
  0 < s -> zTOL <= s * s -> correlated s l1 l2 ->
  (forall q, isometry q -> agreement q l1 l2 <= agreement (fatt f) l1 l2) /\
  (forall x, Rabs (dot (mvec (fatt f) x) (mvec (fatt f) x) - dot x x) <= 2 * (zTOL / (s * s)) * dot x x) /\
  (forall q c, isometry q -> misfit (fatt f) (vsub (vmean l2) (mvec (fatt f) (vmean l1))) l1 l2 <= misfit q c l1 l2 + 2 * (zTOL / (s * s)) * scatter l1) /\
  fpos f = vsub (vmean l2) (vscale (agreement (fatt f) l1 l2 / scatter l1) (mvec (fatt f) (vmean l1))).
Proof.
  intros H1 H2 E S0 S1 C. destruct (frame_inv _ _ _ _ _ _ _ _ H1 H2 E) as (NE & L & N & Z & rank & u & sv & v & SC & EA & EP).
  pose proof (corr_full _ _ _ _ _ _ SC s S0 S1 C) as F. rewrite EA. repeat split.
  - intros q I. exact (best_full _ _ _ _ _ _ SC s q F I).
  - intros x. exact (near_iso _ _ _ _ _ _ SC s x S0 F).
  - intros q c I. pose proof (misfit_att l1 l2 u sv v rank s NE L SC S0 F) as A. pose proof (misfit_iso q c l1 l2 NE L I) as B. pose proof (best_full _ _ _ _ _ _ SC s q F I). lra.
  - rewrite EP, (sum_full _ _ _ _ _ _ SC s F). reflexivity.
Qed.
Lemma ident_loose fuel src dest l1 l2 s' d' f : holds src l1 -> holds dest l2 -> zVec3DDataIdentFrame fuel src dest = Some (s', d', IFrame f) ->
  (forall q, isometry q -> agreement q l1 l2 <= agreement (fatt f) l1 l2 + 3 * sqrt zTOL) /\
  exists k, k * scatter l1 <= agreement (fatt f) l1 l2 <= k * scatter l1 + 3 * zTOL /\ fpos f = vsub (vmean l2) (vscale k (mvec (fatt f) (vmean l1))).
Proof.
  intros H1 H2 E. destruct (frame_inv _ _ _ _ _ _ _ _ H1 H2 E) as (NE & L & N & Z & rank & u & sv & v & SC & EA & EP). rewrite EA. split.
  - intros q I. exact (best_loose _ _ _ _ _ _ SC q I).
  - exists ((vx sv + vy sv + vz sv) / scatter l1). split; [|exact EP]. pose proof (sv_sum _ _ _ _ _ _ SC). replace ((vx sv + vy sv + vz sv) / scatter l1 * scatter l1) with (vx sv + vy sv + vz sv) by (field; exact Z). lra.
Qed.
(** ** determinants *)
Lemma att_det m u sv v rank : svd_cols m u sv v rank -> exists k, 0 < k /\ mdet (attm v u) = k * mdet m.
Proof.
  intros (RO & K & _). unfold attm. rewrite mdet_mmul, mdet_mtr. assert (DU : mdet u = 1) by (destruct RO; assumption). rewrite DU, Rmult_1_r.
  assert (C : forall i, (i < 3)%nat -> exists k, 0 < k /\ axis v i = vscale k (wcol m u i)).
  { intros i Hi. pose proof zTOL_pos as T. destruct (K i Hi) as [(A & B & C)|(A & B & C)]; [exists 1; split; [lra|rewrite C; vring]|]. exists (/ norm (wcol m u i)). split; [|exact C]. apply Rinv_0_lt_compat, sqrt_lt_R0. lra. }
  destruct (C 0%nat ltac:(lia)) as (a & A0 & A1). destruct (C 1%nat ltac:(lia)) as (b & B0 & B1). destruct (C 2%nat ltac:(lia)) as (c & C0 & C1). exists (a * b * c). split; [apply Rmult_lt_0_compat; [apply Rmult_lt_0_compat|]; assumption|].
  rewrite <- (cols3_col v). cbn [axis] in A1, B1, C1. rewrite A1, B1, C1, mdet_cols. assert (W : mdet m = det3v (wcol m u 0) (wcol m u 1) (wcol m u 2)).
  { rewrite <- (Rmult_1_r (mdet m)), <- DU, <- (mdet_mtr m), <- mdet_mmul. rewrite <- mdet_cols. f_equal. }
  rewrite W. generalize (wcol m u 0), (wcol m u 1), (wcol m u 2). intros. unfold det3v. spec_unfold. ring.
Qed.
Lemma dot_ext a b : (forall y, dot a y = dot b y) -> a = b.
Proof. intros H. pose proof (H (V3 1 0 0)) as X. pose proof (H (V3 0 1 0)) as Y. pose proof (H (V3 0 0 1)) as Z. unfold dot in *. cbn [vx vy vz] in *. apply vec3_ext; lra. Qed.
Lemma det_kernel m x : x <> v3zero -> mvec (mtr m) x = v3zero -> mdet m = 0.
Proof.
  intros N Z. destruct (Req_dec (mdet m) 0) as [|D]; [assumption|exfalso]. apply N. rewrite <- mdet_mtr in D. pose proof (madj_l (mtr m)) as A.
  assert (X : mvec (mmul (madj (mtr m)) (mtr m)) x = vscale (mdet (mtr m)) x) by (rewrite A; generalize (mdet (mtr m)); intros d; vring). rewrite mvec_mmul, Z, mvec_zero in X.
  pose proof (f_equal vx X) as X1. pose proof (f_equal vy X) as X2. pose proof (f_equal vz X) as X3. cbn [v3zero vscale vx vy vz] in X1, X2, X3. apply vec3_ext; cbn [v3zero vx vy vz]; (apply (Rmult_eq_reg_l (mdet (mtr m))); [lra|exact D]).
Qed.
Lemma flat_det l1 l2 : l1 <> [] -> coplanar l1 -> mdet (xcov l1 l2) = 0.
Proof.
  intros NE (n & c & Nn & H). apply (det_kernel _ n Nn). apply dot_ext. intros y. assert (E : dot (mvec (mtr (xcov l1 l2)) n) y = dot n (mvec (xcov l1 l2) y)) by (rewrite dot_mvec, mtr_mtr; reflexivity). rewrite E, xcov_quad.
  assert (G : dot (vmean l1) n = c).
  { pose proof (centred l1 n NE) as C. rewrite (mean_ext' _ (fun _ => c - dot (vmean l1) n)) in C by (intros p I; rewrite <- (H p I); spec_unfold; ring). rewrite mean_const in C by exact NE. lra. }
  rewrite (pmean_ext _ (fun p q => 0 * 0)). 2: { intros p q I. assert (D : dot (vsub p (vmean l1)) n = 0) by (pose proof (H p (in_combine_l _ _ _ _ I)); spec_unfold; lra). rewrite D. ring. }
  rewrite pmean_scale. spec_unfold. ring.
Qed.
Lemma three_coplanar l : length l = 3%nat -> coplanar l.
Proof.
  intros L. destruct l as [|a [|b [|c [|d l]]]]; try discriminate.
  assert (P : forall n, n <> v3zero -> dot n (vsub b a) = 0 -> dot n (vsub c a) = 0 -> coplanar [a; b; c]).
  { intros n N B C. exists n, (dot a n). split; [exact N|]. intros p [<-|[<-|[<-|[]]]]; [reflexivity| |]; spec_unfold; lra. }
  assert (NZ : forall e, e <> v3zero \/ e = v3zero). { intros e. destruct (Req_dec (norm e) 0) as [E|E]; [right; apply norm_zero_iff; exact E|left; intros ->; apply E; apply norm_zero_iff; reflexivity]. }
  destruct (NZ (cross (vsub b a) (vsub c a))) as [N|Z].
  - apply (P _ N); spec_unfold; ring.
  - (* collinear *)
    assert (PERP : forall e, exists n, n <> v3zero /\ dot n e = 0).
    { intros e. destruct (Req_dec (vx e) 0) as [X|X]; [exists (V3 1 0 0); split; [intros Q; injection Q; lra|unfold dot; cbn [vx vy vz]; rewrite X; ring]|]. exists (V3 (- vy e) (vx e) 0). split; [intros Q; injection Q; intros; lra|unfold dot; cbn [vx vy vz]; ring]. }
    destruct (NZ (vsub b a)) as [N|Zb].
    + destruct (PERP (vsub b a)) as (n & Nn & D). apply (P n Nn D).
      assert (X : vscale (dot (vsub b a) (vsub b a)) (vsub c a) = vscale (dot (vsub b a) (vsub c a)) (vsub b a)).
      { assert (T : vsub (vscale (dot (vsub b a) (vsub c a)) (vsub b a)) (vscale (dot (vsub b a) (vsub b a)) (vsub c a)) = cross (vsub b a) (cross (vsub b a) (vsub c a))) by vring. rewrite Z in T. assert (T0 : cross (vsub b a) v3zero = v3zero) by vring. rewrite T0 in T.
        revert T. generalize (vscale (dot (vsub b a) (vsub c a)) (vsub b a)), (vscale (dot (vsub b a) (vsub b a)) (vsub c a)). intros A B T. pose proof (f_equal vx T) as T1. pose proof (f_equal vy T) as T2. pose proof (f_equal vz T) as T3. cbn [vx vy vz v3zero vsub] in T1, T2, T3. apply vec3_ext; lra. }
      assert (Y : dot (vsub b a) (vsub b a) * dot n (vsub c a) = dot (vsub b a) (vsub c a) * dot n (vsub b a)).
      { transitivity (dot n (vscale (dot (vsub b a) (vsub b a)) (vsub c a))); [spec_unfold; ring|]. rewrite X. spec_unfold; ring. }
      rewrite D, Rmult_0_r in Y. assert (Q : dot (vsub b a) (vsub b a) <> 0). { intros Q. apply N, norm_zero_iff. unfold norm. rewrite Q. apply sqrt_0. }
      apply (Rmult_eq_reg_l (dot (vsub b a) (vsub b a))); [lra|exact Q].
    + destruct (PERP (vsub c a)) as (n & Nn & D). apply (P n Nn); [rewrite Zb; spec_unfold; ring|exact D].
Qed.

Lemma det_kernel_r m x : x <> v3zero -> mvec m x = v3zero -> mdet m = 0.
Proof. intros N Z. rewrite <- mdet_mtr. apply (det_kernel _ x N). rewrite mtr_mtr. exact Z. Qed.
Lemma flat_det2 l1 l2 : l1 <> [] -> length l1 = length l2 -> coplanar l2 -> mdet (xcov l1 l2) = 0.
Proof.
  intros NE L (n & c & Nn & H). assert (NE2 : l2 <> []) by (intros ->; destruct l1; [congruence|discriminate]). apply (det_kernel_r _ n Nn). apply dot_ext. intros y. assert (E : dot (mvec (xcov l1 l2) n) y = dot y (mvec (xcov l1 l2) n)) by (spec_unfold; ring). rewrite E, xcov_quad.
  assert (G : dot (vmean l2) n = c).
  { pose proof (centred l2 n NE2) as C. rewrite (mean_ext' _ (fun _ => c - dot (vmean l2) n)) in C by (intros p I; rewrite <- (H p I); spec_unfold; ring). rewrite mean_const in C by exact NE2. lra. }
  rewrite (pmean_ext _ (fun p q => 0 * 0)). 2: { intros p q I. assert (D : dot (vsub q (vmean l2)) n = 0) by (pose proof (H q (in_combine_r _ _ _ _ I)); spec_unfold; lra). rewrite D. ring. }
  rewrite pmean_scale. spec_unfold. ring.
Qed.
Lemma ident_flat fuel src dest l1 l2 s' d' f : holds src l1 -> holds dest l2 -> zVec3DDataIdentFrame fuel src dest = Some (s', d', IFrame f) ->
  coplanar l1 \/ coplanar l2 \/ length l1 = 3%nat -> mdet (fatt f) = 0.
Proof.
  intros H1 H2 E C. destruct (frame_inv _ _ _ _ _ _ _ _ H1 H2 E) as (NE & L & N & Z & rank & u & sv & v & SC & EA & EP). rewrite EA. destruct (att_det _ _ _ _ _ SC) as (k & _ & ->).
  assert (D : mdet (xcov l1 l2) = 0) by (destruct C as [C|[C|C]]; [apply flat_det; assumption|apply flat_det2; assumption|apply flat_det; [assumption|apply three_coplanar; exact C]]). rewrite D. ring.
Qed.
