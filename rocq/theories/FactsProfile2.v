(** The identified transformation: best fit, recovery, planar points. *)
From Verif Require Import Base Spec SpecGeom SpecData SpecPCA SpecBox SpecProfile ModelVec ModelMat ModelFrame ModelElem ModelData ModelPCA ModelProfile FactsVec FactsAlg FactsMat FactsEig FactsObb FactsData FactsData2 FactsPCA FactsSvd FactsProfile.
From Coq Require Import Lia Lra.
Open Scope R_scope.

Lemma gain u a l1 l2 : rotation u -> agreement a l1 l2 =
  dot (mvec a (axis u 0)) (wcol (xcov l1 l2) u 0) + dot (mvec a (axis u 1)) (wcol (xcov l1 l2) u 1) + dot (mvec a (axis u 2)) (wcol (xcov l1 l2) u 2).
Proof.
  intros RO. assert (E : forall i, dot (mvec a (axis u i)) (wcol (xcov l1 l2) u i) = pmean (fun p q => dot (vsub p (vmean l1)) (axis u i) * dot (vsub q (vmean l2)) (mvec a (axis u i))) l1 l2).
  { intros i. unfold wcol. rewrite <- xcov_quad. assert (SY : forall x y, dot x y = dot y x) by (intros; spec_unfold; ring). rewrite SY, (dot_mvec (mtr (xcov l1 l2))), mtr_mtr. reflexivity. }
  rewrite !E, <- !pmean_add. unfold agreement. apply pmean_ext. intros p q _. rewrite (ax_lin u RO a (vsub p (vmean l1))).
  generalize (mvec a (axis u 0)), (mvec a (axis u 1)), (mvec a (axis u 2)). intros x y z. generalize (vsub q (vmean l2)), (vsub p (vmean l1)), (axis u 0), (axis u 1), (axis u 2). intros. spec_unfold. ring.
Qed.
Section Cols.
Variables (l1 l2 : list vec3) (u : mat3) (sv : vec3) (v : mat3) (rank : nat).
Let m := xcov l1 l2.
Hypothesis (SC : svd_cols m u sv v rank).
Let att := attm v u.
Let w i := wcol m u i.
Lemma cols_rot : rotation u. Proof. destruct SC as (H & _). exact H. Qed.
Lemma cols_ok i : (i < 3)%nat -> sv_ok (w i) (vnth sv i) (axis v i).
Proof. destruct SC as (_ & H & _). apply H. Qed.
Lemma gain_att : agreement att l1 l2 = dot (axis v 0) (w 0) + dot (axis v 1) (w 1) + dot (axis v 2) (w 2).
Proof. rewrite (gain u) by exact cols_rot. unfold att. rewrite !(svd_att m u sv v rank) by (exact SC || lia). reflexivity. Qed.
Lemma gain_att_i i : (i < 3)%nat -> vnth sv i <= dot (axis v i) (w i) < vnth sv i + zTOL /\ norm (w i) < dot (axis v i) (w i) + sqrt zTOL /\ (vnth sv i <> 0 -> dot (axis v i) (w i) = norm (w i) /\ vnth sv i = norm (w i)).
Proof.
  intros Hi. pose proof zTOL_pos as T. pose proof (sqrt_lt_R0 _ T) as T2. destruct (sv_cases _ _ _ (cols_ok i Hi)) as [(A & B & C & D)|(A & B & C & D & E & F)].
  - rewrite A, <- C. pose proof (dot_pos (axis v i)). split; [lra|]. split; [|lra]. assert (norm (axis v i) < sqrt zTOL) by (unfold norm; apply sqrt_lt_1; lra). lra.
  - assert (X : dot (axis v i) (w i) = norm (w i)). { rewrite D at 1. pose proof (norm_sqr (axis v i)) as N. rewrite C in N. rewrite <- E. replace (dot (axis v i) (vscale (vnth sv i) (axis v i))) with (vnth sv i * dot (axis v i) (axis v i)) by (spec_unfold; ring). rewrite <- N. ring. }
    rewrite X, E. split; [lra|]. split; [lra|]. intros _. auto.
Qed.
Lemma gain_iso q i : isometry q -> (i < 3)%nat -> dot (mvec q (axis u i)) (w i) <= norm (w i).
Proof.
  intros I Hi. eapply Rle_trans; [apply dot_cs|]. assert (N : norm (mvec q (axis u i)) = 1) by (unfold norm; rewrite iso_dot by exact I; destruct (ax_unit u cols_rot i Hi) as [-> _]; apply sqrt_1). rewrite N. lra.
Qed.
Lemma best_loose q : isometry q -> agreement q l1 l2 <= agreement att l1 l2 + 3 * sqrt zTOL.
Proof.
  intros I. rewrite gain_att, (gain u q l1 l2) by exact cols_rot. fold m. pose proof (gain_iso q 0 I ltac:(lia)). pose proof (gain_iso q 1 I ltac:(lia)). pose proof (gain_iso q 2 I ltac:(lia)).
  destruct (gain_att_i 0%nat ltac:(lia)) as (_ & A0 & _). destruct (gain_att_i 1%nat ltac:(lia)) as (_ & A1 & _). destruct (gain_att_i 2%nat ltac:(lia)) as (_ & A2 & _). unfold w in *. lra.
Qed.
Lemma sv_sum : vx sv + vy sv + vz sv <= agreement att l1 l2 <= vx sv + vy sv + vz sv + 3 * zTOL.
Proof.
  rewrite gain_att. destruct (gain_att_i 0%nat ltac:(lia)) as (A0 & _). destruct (gain_att_i 1%nat ltac:(lia)) as (A1 & _). destruct (gain_att_i 2%nat ltac:(lia)) as (A2 & _). cbn [vnth] in *. lra.
Qed.
(** *** with correlation in every direction *)
Definition full (s : R) : Prop := forall i, (i < 3)%nat -> s <= norm (w i) /\ vnth sv i = norm (w i) /\ dot (axis v i) (w i) = norm (w i) /\ norm (axis v i) = 1 /\ w i = vscale (vnth sv i) (axis v i).
Lemma cols_full s : 0 < s -> zTOL <= s * s -> (forall i, (i < 3)%nat -> s <= norm (w i)) -> full s.
Proof.
  intros S0 S1 H i Hi. specialize (H i Hi). split; [exact H|]. pose proof (norm_sqr (w i)) as N. destruct (sv_cases _ _ _ (cols_ok i Hi)) as [(A & B & C & D)|(A & B & C & D & E & F)].
  - exfalso. rewrite C in B. fold (w i) in B. nra.
  - destruct (gain_att_i i Hi) as (_ & _ & X). destruct (X ltac:(lra)) as [X1 X2]. auto.
Qed.
Lemma corr_full s : 0 < s -> zTOL <= s * s -> correlated s l1 l2 -> full s.
Proof.
  intros S0 S1 C. apply cols_full; auto. intros i Hi. destruct (ax_unit u cols_rot i Hi) as [_ N1]. destruct (C _ N1) as (y & Ny & Hy). rewrite <- xcov_quad in Hy. fold m in Hy. eapply Rle_trans; [exact Hy|].
  assert (E : dot (axis u i) (mvec m y) = dot (w i) y) by (unfold w, wcol; rewrite dot_mvec, mtr_mtr; reflexivity). rewrite E. eapply Rle_trans; [apply dot_cs|]. rewrite Ny. lra.
Qed.
Lemma best_full s q : full s -> isometry q -> agreement q l1 l2 <= agreement att l1 l2.
Proof.
  intros F I. rewrite gain_att, (gain u q l1 l2) by exact cols_rot. fold m. pose proof (gain_iso q 0 I ltac:(lia)). pose proof (gain_iso q 1 I ltac:(lia)). pose proof (gain_iso q 2 I ltac:(lia)).
  destruct (F 0%nat ltac:(lia)) as (_ & _ & A0 & _). destruct (F 1%nat ltac:(lia)) as (_ & _ & A1 & _). destruct (F 2%nat ltac:(lia)) as (_ & _ & A2 & _). unfold w in *. lra.
Qed.
Lemma sum_full s : full s -> vx sv + vy sv + vz sv = agreement att l1 l2.
Proof. intros F. rewrite gain_att. destruct (F 0%nat ltac:(lia)) as (_ & B0 & A0 & _). destruct (F 1%nat ltac:(lia)) as (_ & B1 & A1 & _). destruct (F 2%nat ltac:(lia)) as (_ & B2 & A2 & _). cbn [vnth] in *. lra. Qed.
Lemma near_orth s i j : 0 < s -> full s -> (i < 3)%nat -> (j < 3)%nat -> i <> j -> Rabs (dot (axis v i) (axis v j)) <= zTOL / (s * s).
Proof.
  intros S0 F Hi Hj N. destruct SC as (_ & _ & O & _). specialize (O i j Hi Hj N). destruct (F i Hi) as (G1 & G2 & _ & _ & G3). destruct (F j Hj) as (H1 & H2 & _ & _ & H3). fold (w i) (w j) in O. rewrite G3, H3 in O.
  replace (dot (vscale (vnth sv i) (axis v i)) (vscale (vnth sv j) (axis v j))) with (vnth sv i * vnth sv j * dot (axis v i) (axis v j)) in O by (spec_unfold; ring). rewrite !Rabs_mult, (Rabs_right (vnth sv i)), (Rabs_right (vnth sv j)) in O by lra.
  apply Rmult_le_reg_r with (s * s); [nra|]. unfold Rdiv. rewrite Rmult_assoc, Rinv_l by nra. pose proof (Rabs_pos (dot (axis v i) (axis v j))) as P. set (r := Rabs (dot (axis v i) (axis v j))) in *. clearbody r. rewrite G2, H2 in O. set (a := norm (w i)) in *. set (b := norm (w j)) in *. clearbody a b. assert (s * s <= a * b) by nra. nra.
Qed.
Lemma near_iso s x : 0 < s -> full s -> Rabs (dot (mvec att x) (mvec att x) - dot x x) <= 2 * (zTOL / (s * s)) * dot x x.
Proof.
  intros S0 F. set (a := dot (axis u 0) x). set (b := dot (axis u 1) x). set (c := dot (axis u 2) x).
  assert (X : mvec att x = vadd (vadd (vscale a (axis v 0)) (vscale b (axis v 1))) (vscale c (axis v 2))) by (unfold att; rewrite (ax_lin u cols_rot), !(svd_att m u sv v rank) by (exact SC || lia); reflexivity).
  assert (XX : dot x x = a * a + b * b + c * c) by (rewrite (ax_dot u cols_rot); reflexivity).
  assert (V : forall i, (i < 3)%nat -> dot (axis v i) (axis v i) = 1) by (intros i Hi; destruct (F i Hi) as (_ & _ & _ & N & _); rewrite <- norm_sqr, N; ring).
  pose proof (near_orth s 0 1 S0 F ltac:(lia) ltac:(lia) ltac:(lia)) as O1. pose proof (near_orth s 1 2 S0 F ltac:(lia) ltac:(lia) ltac:(lia)) as O2. pose proof (near_orth s 0 2 S0 F ltac:(lia) ltac:(lia) ltac:(lia)) as O3.
  rewrite X, XX. assert (E : dot (vadd (vadd (vscale a (axis v 0)) (vscale b (axis v 1))) (vscale c (axis v 2))) (vadd (vadd (vscale a (axis v 0)) (vscale b (axis v 1))) (vscale c (axis v 2))) =
    a * a * dot (axis v 0) (axis v 0) + b * b * dot (axis v 1) (axis v 1) + c * c * dot (axis v 2) (axis v 2) + 2 * (a * b * dot (axis v 0) (axis v 1) + b * c * dot (axis v 1) (axis v 2) + a * c * dot (axis v 0) (axis v 2))) by (spec_unfold; ring).
  rewrite E, !V by lia. set (e := zTOL / (s * s)) in *. set (p := dot (axis v 0) (axis v 1)) in *. set (q := dot (axis v 1) (axis v 2)) in *. set (r := dot (axis v 0) (axis v 2)) in *. clearbody a b c e p q r. clear - O1 O2 O3.
  replace (a * a * 1 + b * b * 1 + c * c * 1 + 2 * (a * b * p + b * c * q + a * c * r) - (a * a + b * b + c * c)) with (2 * (a * b * p + b * c * q + a * c * r)) by ring.
  assert (Q : forall y z t, Rabs t <= e -> Rabs (y * z * t) <= e * ((y * y + z * z) / 2)).
  { intros y z t H. rewrite !Rabs_mult. pose proof (Rabs_pos y). pose proof (Rabs_pos z). pose proof (Rabs_pos t). pose proof (Rabs_sqr y). pose proof (Rabs_sqr z). set (y' := Rabs y) in *. set (z' := Rabs z) in *. set (t' := Rabs t) in *. clearbody y' z' t'.
    pose proof (Rle_0_sqr (y' - z')) as SQ. unfold Rsqr in SQ. assert (y' * z' <= (y * y + z * z) / 2) by lra. assert (0 <= y' * z') by (apply Rmult_le_pos; assumption). rewrite (Rmult_comm e). apply Rle_trans with (y' * z' * e); [apply Rmult_le_compat_l; assumption|apply Rmult_le_compat_r; lra]. }
  rewrite Rabs_mult, (Rabs_right 2) by lra. pose proof (Rabs_triang (a * b * p + b * c * q) (a * c * r)). pose proof (Rabs_triang (a * b * p) (b * c * q)). pose proof (Q a b p O1). pose proof (Q b c q O2). pose proof (Q a c r O3). lra.
Qed.
End Cols.
Lemma Rabs_le_inv' x y : Rabs x <= y -> - y <= x <= y.
Proof. unfold Rabs. destruct (Rcase_abs x); lra. Qed.
Lemma centred l t : l <> [] -> mean (fun p => dot (vsub p (vmean l)) t) l = 0.
Proof.
  intros NE. pose proof (len_pos l NE) as LP. unfold mean at 1. assert (E : forall g, rsum (fun p => dot (vsub p g) t) l = vx t * (rsum vx l - INR (length l) * vx g) + vy t * (rsum vy l - INR (length l) * vy g) + vz t * (rsum vz l - INR (length l) * vz g)).
  { intros g. clear. induction l as [|a l IH]; [cbn; ring|]. change (length (a :: l)) with (Datatypes.S (length l)). rewrite S_INR. unfold rsum in *. cbn [fold_right]. rewrite IH. unfold dot, vsub. cbn [vx vy vz]. ring. }
  rewrite E. unfold vmean, mean. cbn [vx vy vz]. field. lra.
Qed.
Lemma rsum_ext' f g l : (forall p, List.In p l -> f p = g p) -> rsum f l = rsum g l.
Proof. induction l as [|a l IH]; intros H; [reflexivity|]. unfold rsum in *. cbn [fold_right]. rewrite IH by (intros; apply H; right; assumption). rewrite (H a) by (left; reflexivity). reflexivity. Qed.
Lemma mean_ext' f g l : (forall p, List.In p l -> f p = g p) -> mean f l = mean g l.
Proof. intros H. unfold mean. rewrite (rsum_ext' f g) by exact H. reflexivity. Qed.
Lemma mean_const k l : l <> [] -> mean (fun _ => k) l = k.
Proof.
  intros NE. pose proof (len_pos l NE) as LP. unfold mean. assert (RS : rsum (fun _ => k) l = INR (length l) * k) by (clear; induction l as [|b l IH]; [cbn; ring|]; change (length (b :: l)) with (Datatypes.S (length l)); rewrite S_INR; unfold rsum in *; cbn [fold_right]; rewrite IH; ring). rewrite RS. field. lra.
Qed.
Lemma rsum_le' f g l : (forall p, f p <= g p) -> rsum f l <= rsum g l.
Proof. intros H. induction l as [|a l IH]; unfold rsum in *; cbn [fold_right]; [lra|]. pose proof (H a). lra. Qed.
Lemma mean_le f g l : l <> [] -> (forall p, f p <= g p) -> mean f l <= mean g l.
Proof. intros NE H. pose proof (len_pos l NE) as LP. unfold mean, Rdiv. apply Rmult_le_compat_r; [apply Rlt_le, Rinv_0_lt_compat; exact LP|apply rsum_le'; exact H]. Qed.
Lemma mean_scale k f l : mean (fun p => k * f p) l = k * mean f l.
Proof. unfold mean. assert (RS : rsum (fun p => k * f p) l = k * rsum f l) by (clear; induction l as [|b l IH]; [cbn; ring|]; unfold rsum in *; cbn [fold_right]; rewrite IH; ring). rewrite RS. unfold Rdiv. ring. Qed.
Lemma scatter_dot l : scatter l = mean (fun q => dot (vsub q (vmean l)) (vsub q (vmean l))) l.
Proof. unfold scatter. apply mean_ext'. intros p _. unfold dist. apply norm_sqr. Qed.
Lemma misfit_split a c l1 l2 : l1 <> [] -> length l1 = length l2 -> misfit a c l1 l2 =
  mean (fun p => dot (mvec a (vsub p (vmean l1))) (mvec a (vsub p (vmean l1)))) l1 + scatter l2 - 2 * agreement a l1 l2 + dist (vadd (mvec a (vmean l1)) c) (vmean l2) * dist (vadd (mvec a (vmean l1)) c) (vmean l2).
Proof.
  intros NE L. assert (NE2 : l2 <> []) by (intros ->; destruct l1; [congruence|discriminate]).
  set (g1 := vmean l1). set (g2 := vmean l2). set (t := vsub (vadd (mvec a g1) c) g2).
  assert (E : misfit a c l1 l2 = pmean (fun p q => dot (mvec a (vsub p g1)) (mvec a (vsub p g1)) + (dot (vsub q g2) (vsub q g2) + ((-2) * dot (mvec a (vsub p g1)) (vsub q g2) + (dot t t + (2 * dot (vsub p g1) (mvec (mtr a) t) + (-2) * dot (vsub q g2) t))))) l1 l2).
  { apply pmean_ext. intros p q _. rewrite <- dot_mvec. unfold dist. rewrite norm_sqr. unfold t. rewrite !mvec_sub. generalize (mvec a p), (mvec a g1). intros. spec_unfold. ring. }
  rewrite E, !pmean_add, !pmean_scale. rewrite (pmean_fst (fun p => dot (mvec a (vsub p g1)) (mvec a (vsub p g1)))), (pmean_snd (fun q => dot (vsub q g2) (vsub q g2))), (pmean_fst (fun _ => dot t t)), (pmean_fst (fun p => dot (vsub p g1) (mvec (mtr a) t))), (pmean_snd (fun q => dot (vsub q g2) t)) by exact L.
  unfold g1, g2. rewrite !centred by assumption. fold g1 g2. fold (agreement a l1 l2). unfold dist. rewrite !norm_sqr. fold t.
  rewrite mean_const by exact NE. assert (S2 : mean (fun q => dot (vsub q g2) (vsub q g2)) l2 = scatter l2) by (symmetry; apply scatter_dot).
  rewrite S2. unfold agreement. fold g1 g2. ring.
Qed.
Lemma misfit_iso q c l1 l2 : l1 <> [] -> length l1 = length l2 -> isometry q -> scatter l1 + scatter l2 - 2 * agreement q l1 l2 <= misfit q c l1 l2.
Proof.
  intros NE L I. rewrite misfit_split by assumption. rewrite (mean_ext' _ (fun p => dot (vsub p (vmean l1)) (vsub p (vmean l1)))) by (intros p _; apply iso_dot; exact I). rewrite <- scatter_dot.
  pose proof (norm_nonneg (vsub (vadd (mvec q (vmean l1)) c) (vmean l2))). unfold dist. nra.
Qed.
Lemma misfit_att l1 l2 u sv v rank s : l1 <> [] -> length l1 = length l2 -> svd_cols (xcov l1 l2) u sv v rank -> 0 < s -> full l1 l2 u sv v s ->
  misfit (attm v u) (vsub (vmean l2) (mvec (attm v u) (vmean l1))) l1 l2 <= (1 + 2 * (zTOL / (s * s))) * scatter l1 + scatter l2 - 2 * agreement (attm v u) l1 l2.
Proof.
  intros NE L SC S0 F. rewrite misfit_split by assumption. set (a := attm v u).
  assert (Z : dist (vadd (mvec a (vmean l1)) (vsub (vmean l2) (mvec a (vmean l1)))) (vmean l2) = 0) by (unfold dist; apply norm_zero_iff; vring). rewrite Z.
  assert (M : mean (fun p => dot (mvec a (vsub p (vmean l1))) (mvec a (vsub p (vmean l1)))) l1 <= (1 + 2 * (zTOL / (s * s))) * scatter l1).
  { rewrite scatter_dot, <- mean_scale. apply mean_le; [exact NE|]. intros p. pose proof (near_iso l1 l2 u sv v rank SC s (vsub p (vmean l1)) S0 F) as N. apply Rabs_le_inv' in N. unfold a. lra. }
  lra.
Qed.
