(** The transformation that made the points is found again. *)
From Verif Require Import Base Spec SpecGeom SpecData SpecPCA SpecBox SpecProfile ModelVec ModelMat ModelFrame ModelElem ModelData ModelPCA ModelProfile FactsVec FactsAlg FactsMat FactsEig FactsObb FactsData FactsData2 FactsPCA FactsSvd FactsProfile FactsProfile2 FactsProfile3.
From Coq Require Import Lia Lra.
Open Scope R_scope.

Lemma mean_map f g l : mean f (map g l) = mean (fun p => f (g p)) l.
Proof. unfold mean. rewrite map_length. f_equal. induction l as [|a l IH]; [reflexivity|]. unfold rsum in *. cbn [map fold_right]. rewrite IH. reflexivity. Qed.
Lemma mean_dot t l : mean (fun p => dot t p) l = dot t (vmean l).
Proof.
  unfold vmean, mean. assert (E : rsum (fun p => dot t p) l = vx t * rsum vx l + vy t * rsum vy l + vz t * rsum vz l) by (induction l as [|a l IH]; [cbn; ring|]; unfold rsum in *; cbn [fold_right]; rewrite IH; unfold dot; ring). rewrite E. unfold dot. cbn [vx vy vz]. unfold Rdiv. ring.
Qed.
Lemma vmean_dot t l : dot t (vmean l) = mean (fun p => dot t p) l. Proof. symmetry. apply mean_dot. Qed.
Lemma mean_addc f c l : l <> [] -> mean (fun p => f p + c) l = mean f l + c.
Proof.
  intros NE. pose proof (len_pos l NE) as LP. unfold mean. assert (E : rsum (fun p => f p + c) l = rsum f l + INR (length l) * c) by (clear; induction l as [|a l IH]; [cbn; ring|]; change (length (a :: l)) with (Datatypes.S (length l)); rewrite S_INR; unfold rsum in *; cbn [fold_right]; rewrite IH; ring). rewrite E. field. lra.
Qed.
Lemma vmean_similar k f l : l <> [] -> vmean (similar k f l) = vadd (vscale k (mvec (fatt f) (vmean l))) (fpos f).
Proof.
  intros NE. apply dot_ext. intros t. assert (SY : forall x y, dot x y = dot y x) by (intros; spec_unfold; ring). rewrite (SY _ t), (SY _ t), vmean_dot. unfold similar. rewrite mean_map.
  rewrite (mean_ext' _ (fun p => k * dot (mvec (mtr (fatt f)) t) p + dot t (fpos f))). 2: { intros p _. rewrite dot_mvec, mtr_mtr. generalize (mvec (fatt f) p). intros. spec_unfold. ring. }
  rewrite mean_addc, mean_scale, mean_dot by exact NE. rewrite dot_mvec, mtr_mtr. generalize (mvec (fatt f) (vmean l)). intros. spec_unfold. ring.
Qed.
Lemma pmean_map f g l : pmean f l (map g l) = mean (fun p => f p (g p)) l.
Proof. unfold pmean, mean. f_equal. induction l as [|a l IH]; [reflexivity|]. unfold psum, rsum in *. cbn [map combine fold_right fst snd]. rewrite IH. reflexivity. Qed.
Section Similar.
Variables (l1 : list vec3) (k : R) (f : frame3) (s : R).
Hypothesis (NE : l1 <> []) (I : isometry (fatt f)) (K0 : 0 < k) (S0 : 0 < s) (S1 : zTOL <= (k * s) * (k * s)) (EX : extends s l1).
Let l2 := similar k f l1.
Let m := xcov l1 l2.
Let C := covm l1 (vmean l1).
Let R := fatt f.
Lemma c_sym x y : dot (mvec C x) y = dot x (mvec C y).
Proof. unfold C. rewrite dot_mvec. pose proof (cov_sym l1 (vmean l1)) as S. unfold symmetric in S. rewrite S. reflexivity. Qed.
Lemma sim_quad x y : dot x (mvec m y) = k * dot x (mvec C (mvec (mtr R) y)).
Proof.
  unfold m, C. rewrite xcov_quad, cov_quad. unfold l2 at 2. unfold similar. rewrite pmean_map, <- mean_scale. apply mean_ext'. intros p _. unfold l2. rewrite vmean_similar by exact NE. fold R.
  replace (vsub (vadd (vscale k (mvec R p)) (fpos f)) (vadd (vscale k (mvec R (vmean l1))) (fpos f))) with (vscale k (mvec R (vsub p (vmean l1)))) by (rewrite mvec_sub; vring).
  rewrite <- (dot_mvec R (vsub p (vmean l1)) y). generalize (mvec R (vsub p (vmean l1))). intros. spec_unfold. ring.
Qed.
Lemma sim_m y : mvec m y = vscale k (mvec C (mvec (mtr R) y)).
Proof. apply dot_ext. intros x. assert (SY : forall x y, dot x y = dot y x) by (intros; spec_unfold; ring). rewrite (SY _ x), (SY _ x), sim_quad. generalize (mvec C (mvec (mtr R) y)). intros. spec_unfold. ring. Qed.
Lemma sim_mt x : mvec (mtr m) x = vscale k (mvec R (mvec C x)).
Proof.
  apply dot_ext. intros y. assert (E : dot (mvec (mtr m) x) y = dot x (mvec m y)) by (rewrite dot_mvec, mtr_mtr; reflexivity). rewrite E, sim_quad, <- c_sym, <- (dot_mvec R). generalize (mvec R (mvec C x)). intros. spec_unfold. ring.
Qed.
Lemma sim_mmt x : mvec (mmul m (mtr m)) x = vscale (k * k) (mvec C (mvec C x)).
Proof. rewrite mvec_mmul, sim_mt, sim_m. rewrite mvec_scale, (iso_inv_l R) by exact I. rewrite mvec_scale. vring. Qed.
Lemma c_pos x : s * dot x x <= dot x (mvec C x).
Proof.
  pose proof (dot_pos x) as P. destruct (Req_dec (norm x) 0) as [Z|Z].
  - apply norm_zero_iff in Z. rewrite Z. rewrite mvec_zero. spec_unfold. lra.
  - pose proof (norm_nonneg x). assert (N : norm (vscale (/ norm x) x) = 1) by (rewrite norm_scale, Rabs_right by (apply Rle_ge, Rlt_le, Rinv_0_lt_compat; lra); field; exact Z).
    pose proof (EX _ N) as H1. unfold spread in H1. rewrite <- cov_quad in H1. fold C in H1. rewrite mvec_scale in H1. replace (dot (vscale (/ norm x) x) (vscale (/ norm x) (mvec C x))) with (/ norm x * / norm x * dot x (mvec C x)) in H1 by (spec_unfold; ring).
    rewrite <- norm_sqr. set (n := norm x) in *. set (q := dot x (mvec C x)) in *. clearbody n q. apply (Rmult_le_compat_r (n * n)) in H1; [|nra]. replace (/ n * / n * q * (n * n)) with q in H1 by (field; exact Z). lra.
Qed.
Section Col.
Variables (u : mat3) (sv : vec3) (v : mat3) (rank : nat) (i : nat).
Hypothesis (SC : svd_cols m u sv v rank) (Hi : (i < 3)%nat).
Let a := axis u i.
Let d := norm (wcol m u i).
Let y := vsub (vscale k (mvec C a)) (vscale d a).
Lemma a_unit : dot a a = 1 /\ norm a = 1.
Proof. apply ax_unit; [destruct SC as (H & _); exact H|exact Hi]. Qed.
Lemma d_eq : d = k * norm (mvec C a).
Proof. unfold d, wcol. rewrite sim_mt, norm_scale, Rabs_right by lra. fold a. f_equal. unfold norm. rewrite iso_dot by exact I. reflexivity. Qed.
Lemma d_ge : k * s <= d.
Proof.
  rewrite d_eq. apply Rmult_le_compat_l; [lra|]. pose proof (c_pos a) as P. destruct a_unit as [A1 A2]. rewrite A1 in P. pose proof (dot_cs a (mvec C a)) as H. rewrite A2 in H. lra.
Qed.
Lemma y_le : norm y * d <= 2 * zTOL.
Proof.
  destruct SC as (_ & _ & _ & RES & _). specialize (RES i Hi). fold a in RES. rewrite <- norm_sqr in RES. fold d in RES. rewrite sim_mmt in RES.
  replace (vsub (vscale (k * k) (mvec C (mvec C a))) (vscale (d * d) a)) with (vadd (vscale k (mvec C y)) (vscale d y)) in RES by (unfold y; rewrite mvec_sub, !mvec_scale; vring).
  pose proof (dot_cs y (vadd (vscale k (mvec C y)) (vscale d y))) as H. replace (dot y (vadd (vscale k (mvec C y)) (vscale d y))) with (k * dot y (mvec C y) + d * dot y y) in H by (spec_unfold; ring).
  pose proof (c_pos y) as P. pose proof (dot_pos y) as PY. pose proof (norm_nonneg y) as NY. pose proof (norm_sqr y) as SQ. pose proof d_ge as DG. pose proof zTOL_pos.
  set (q := dot y (mvec C y)) in *. set (t := norm (vadd (vscale k (mvec C y)) (vscale d y))) in *. set (n := norm y) in *. rewrite <- SQ in *. clearbody q t n d. clear - H P PY NY DG RES K0 S0 H0.
  assert (0 <= q) by nra. assert (0 <= k * q) by nra. assert (d * (n * n) <= n * (2 * zTOL)) by nra. destruct (Req_dec n 0) as [->|Z]; [lra|]. apply (Rmult_le_reg_l n); [lra|]. lra.
Qed.
Lemma att_col : (zTOL <= d * d) -> vsub (mvec (attm v u) a) (mvec R a) = vscale (/ d) (mvec R y).
Proof.
  intros B. unfold a at 1. rewrite (svd_att m u sv v rank) by assumption. pose proof d_ge as DG. assert (D0 : 0 < d) by nra. destruct SC as (_ & OK & _). destruct (OK i Hi) as [(A1 & _)|(_ & _ & A)]; [pose proof (norm_sqr (wcol m u i)) as Q; fold d in Q; lra|].
  rewrite A. fold d. unfold wcol. fold a. rewrite sim_mt. unfold y. rewrite mvec_sub, !mvec_scale. generalize (mvec R (mvec C a)), (mvec R a). intros e1 e2. apply vec3_ext; spec_unfold; cbn [vx vy vz]; field; lra.
Qed.
Lemma col_err : norm (vsub (mvec (attm v u) a) (mvec R a)) <= 2 * (zTOL / ((k * s) * (k * s))).
Proof.
  pose proof d_ge as DG. assert (KS : 0 < k * s) by (apply Rmult_lt_0_compat; assumption). rewrite att_col by nra. rewrite norm_scale, Rabs_right by (apply Rle_ge, Rlt_le, Rinv_0_lt_compat; lra). assert (E : norm (mvec R y) = norm y) by (unfold norm; rewrite iso_dot by exact I; reflexivity). rewrite E.
  pose proof y_le as Y. pose proof (norm_nonneg y) as N. pose proof zTOL_pos as T. set (n := norm y) in *. clearbody n. clearbody d. clear - DG KS Y N T.
  set (e := k * s) in *. clearbody e. apply (Rmult_le_reg_r (d * d)); [nra|]. replace (/ d * n * (d * d)) with (n * d) by (field; lra). apply Rle_trans with (2 * zTOL); [exact Y|]. replace (2 * (zTOL / (e * e)) * (d * d)) with (2 * zTOL * ((d / e) * (d / e))) by (field; lra).
  assert (1 <= d / e) by (apply (Rmult_le_reg_r e); [lra|]; unfold Rdiv; rewrite Rmult_assoc, Rinv_l by lra; lra). set (g := d / e) in *. clearbody g. assert (1 <= g * g) by nra. nra.
Qed.
Lemma tr_err : Rabs (k * dot a (mvec C a) - d) <= 2 * zTOL / (k * s).
Proof.
  pose proof d_ge as DG. assert (KS : 0 < k * s) by (apply Rmult_lt_0_compat; assumption). destruct a_unit as [A1 A2]. assert (E : k * dot a (mvec C a) - d = dot a y). { unfold y. replace (dot a (vsub (vscale k (mvec C a)) (vscale d a))) with (k * dot a (mvec C a) - d * dot a a) by (spec_unfold; ring). rewrite A1. ring. }
  rewrite E. eapply Rle_trans; [apply dot_cs_abs|]. rewrite A2, Rmult_1_l. pose proof y_le as Y. pose proof (norm_nonneg y) as N. apply (Rmult_le_reg_r (k * s)); [exact KS|]. unfold Rdiv. rewrite Rmult_assoc, Rinv_l by lra. nra.
Qed.
End Col.
Section Whole.
Variables (u : mat3) (sv : vec3) (v : mat3) (rank : nat).
Hypothesis (SC : svd_cols m u sv v rank).
Let e := zTOL / ((k * s) * (k * s)).
Lemma e_bounds : 0 <= e <= 1.
Proof. assert (KS : 0 < k * s) by (apply Rmult_lt_0_compat; assumption). pose proof zTOL_pos. assert (P : 0 < (k * s) * (k * s)) by nra. unfold e, Rdiv. split; [apply Rlt_le, Rmult_lt_0_compat; [assumption|apply Rinv_0_lt_compat; exact P]|]. apply (Rmult_le_reg_r ((k * s) * (k * s))); [exact P|]. rewrite Rmult_assoc, Rinv_l by lra. lra. Qed.
Lemma att_err x : norm (vsub (mvec (attm v u) x) (mvec R x)) <= 6 * e * norm x.
Proof.
  assert (RO : rotation u) by (destruct SC as (H & _); exact H). rewrite (ax_lin u RO (attm v u) x), (ax_lin u RO R x).
  pose proof (col_err u sv v rank 0 SC ltac:(lia)) as C0. pose proof (col_err u sv v rank 1 SC ltac:(lia)) as C1. pose proof (col_err u sv v rank 2 SC ltac:(lia)) as C2. fold e in C0, C1, C2.
  assert (B : forall i, (i < 3)%nat -> Rabs (dot (axis u i) x) <= norm x) by (intros i Hi; eapply Rle_trans; [apply dot_cs_abs|]; destruct (ax_unit u RO i Hi) as [_ ->]; lra).
  pose proof (B 0%nat ltac:(lia)) as B0. pose proof (B 1%nat ltac:(lia)) as B1. pose proof (B 2%nat ltac:(lia)) as B2.
  set (p0 := dot (axis u 0) x) in *. set (p1 := dot (axis u 1) x) in *. set (p2 := dot (axis u 2) x) in *.
  set (a0 := mvec (attm v u) (axis u 0)) in *. set (a1 := mvec (attm v u) (axis u 1)) in *. set (a2 := mvec (attm v u) (axis u 2)) in *. set (r0 := mvec R (axis u 0)) in *. set (r1 := mvec R (axis u 1)) in *. set (r2 := mvec R (axis u 2)) in *.
  replace (vsub (vadd (vadd (vscale p0 a0) (vscale p1 a1)) (vscale p2 a2)) (vadd (vadd (vscale p0 r0) (vscale p1 r1)) (vscale p2 r2))) with (vadd (vadd (vscale p0 (vsub a0 r0)) (vscale p1 (vsub a1 r1))) (vscale p2 (vsub a2 r2))) by vring.
  pose proof (norm_add (vadd (vscale p0 (vsub a0 r0)) (vscale p1 (vsub a1 r1))) (vscale p2 (vsub a2 r2))) as T1. pose proof (norm_add (vscale p0 (vsub a0 r0)) (vscale p1 (vsub a1 r1))) as T2. rewrite norm_scale in T1. rewrite !norm_scale in T2.
  assert (M : forall p n, Rabs p <= norm x -> 0 <= n -> n <= 2 * e -> Rabs p * n <= 2 * e * norm x) by (intros p n A P Q; rewrite (Rmult_comm (2 * e)); apply Rmult_le_compat; auto; apply Rabs_pos).
  pose proof (M p0 _ B0 (norm_nonneg _) C0). pose proof (M p1 _ B1 (norm_nonneg _) C1). pose proof (M p2 _ B2 (norm_nonneg _) C2). lra.
Qed.
Lemma scatter_axes : scatter l1 = dot (axis u 0) (mvec C (axis u 0)) + dot (axis u 1) (mvec C (axis u 1)) + dot (axis u 2) (mvec C (axis u 2)).
Proof.
  assert (RO : rotation u) by (destruct SC as (H & _); exact H). unfold C. rewrite !cov_quad, scatter_dot. unfold mean. unfold Rdiv. rewrite <- !Rmult_plus_distr_r. f_equal. generalize (vmean l1). intros g. clear - RO. induction l1 as [|p l IH]; [cbn; ring|]. unfold rsum in *. cbn [fold_right]. rewrite IH, (ax_dot u RO (vsub p g) (vsub p g)). spec_unfold. ring.
Qed.
Lemma scatter_ge : 3 * s <= scatter l1.
Proof.
  assert (RO : rotation u) by (destruct SC as (H & _); exact H). rewrite scatter_axes. assert (B : forall i, (i < 3)%nat -> s <= dot (axis u i) (mvec C (axis u i))) by (intros i Hi; pose proof (c_pos (axis u i)) as P; destruct (ax_unit u RO i Hi) as [A _]; rewrite A in P; lra).
  pose proof (B 0%nat ltac:(lia)). pose proof (B 1%nat ltac:(lia)). pose proof (B 2%nat ltac:(lia)). lra.
Qed.
Lemma scale_err : Rabs (k - (vx sv + vy sv + vz sv) / scatter l1) <= 2 * (k * e).
Proof.
  pose proof scatter_ge as SG. pose proof (tr_err u sv v rank 0 SC ltac:(lia)) as T0. pose proof (tr_err u sv v rank 1 SC ltac:(lia)) as T1. pose proof (tr_err u sv v rank 2 SC ltac:(lia)) as T2.
  assert (SVE : forall i, (i < 3)%nat -> vnth sv i = norm (wcol m u i)).
  { intros i Hi. destruct SC as (_ & OK & _). pose proof (d_ge u sv v rank i SC Hi) as DG. assert (KS : 0 < k * s) by (apply Rmult_lt_0_compat; assumption). destruct (OK i Hi) as [(A1 & _)|(_ & A & _)]; [|exact A]. pose proof (norm_sqr (wcol m u i)). nra. }
  rewrite <- (SVE 0%nat) in T0 by lia. rewrite <- (SVE 1%nat) in T1 by lia. rewrite <- (SVE 2%nat) in T2 by lia. cbn [vnth] in T0, T1, T2.
  assert (TT : Rabs (k * scatter l1 - (vx sv + vy sv + vz sv)) <= 6 * zTOL / (k * s)).
  { rewrite scatter_axes. set (a0 := dot (axis u 0) (mvec C (axis u 0))) in *. set (a1 := dot (axis u 1) (mvec C (axis u 1))) in *. set (a2 := dot (axis u 2) (mvec C (axis u 2))) in *.
    replace (k * (a0 + a1 + a2) - (vx sv + vy sv + vz sv)) with ((k * a0 - vx sv) + (k * a1 - vy sv) + (k * a2 - vz sv)) by ring. pose proof (Rabs_triang ((k * a0 - vx sv) + (k * a1 - vy sv)) (k * a2 - vz sv)). pose proof (Rabs_triang (k * a0 - vx sv) (k * a1 - vy sv)). unfold Rdiv in *. lra. }
  set (t := vx sv + vy sv + vz sv) in *. set (so := scatter l1) in *. clearbody t so. assert (P : 0 < so) by lra. replace (k - t / so) with ((k * so - t) / so) by (field; lra). unfold Rdiv at 1. rewrite Rabs_mult, (Rabs_right (/ so)) by (apply Rle_ge, Rlt_le, Rinv_0_lt_compat; exact P).
  apply (Rmult_le_reg_r so); [exact P|]. rewrite Rmult_assoc, Rinv_l, Rmult_1_r by lra. eapply Rle_trans; [exact TT|]. assert (E : 6 * zTOL / (k * s) = 2 * (k * e) * (3 * s)) by (unfold e; field; split; lra). rewrite E. apply Rmult_le_compat_l; [|exact SG]. pose proof e_bounds. nra.
Qed.
Lemma pos_err : norm (vsub (vsub (vmean l2) (vscale ((vx sv + vy sv + vz sv) / scatter l1) (mvec (attm v u) (vmean l1)))) (fpos f)) <= 20 * (k * e) * norm (vmean l1).
Proof.
  unfold l2. rewrite vmean_similar by exact NE. fold R. pose proof scale_err as SE. set (t := (vx sv + vy sv + vz sv) / scatter l1) in *. pose proof (att_err (vmean l1)) as AE. pose proof e_bounds as EB. set (g := vmean l1) in *.
  set (a := mvec (attm v u) g) in *. set (r := mvec R g) in *. assert (NR : norm r = norm g) by (unfold r, norm; rewrite iso_dot by exact I; reflexivity).
  replace (vsub (vsub (vadd (vscale k r) (fpos f)) (vscale t a)) (fpos f)) with (vadd (vscale (- k) (vsub a r)) (vscale (k - t) a)) by vring.
  pose proof (norm_add (vscale (- k) (vsub a r)) (vscale (k - t) a)) as T. rewrite !norm_scale in T. rewrite Rabs_Ropp, (Rabs_right k) in T by lra. pose proof (norm_add (vsub a r) r) as T3. replace (vadd (vsub a r) r) with a in T3 by vring. rewrite NR in T3. pose proof (norm_nonneg g) as NG. pose proof (norm_nonneg a) as NA.
  assert (A7 : norm a <= 7 * norm g) by nra. eapply Rle_trans; [exact T|]. assert (Q : Rabs (k - t) * norm a <= 2 * (k * e) * (7 * norm g)) by (apply Rmult_le_compat; auto; apply Rabs_pos). assert (Q2 : k * norm (vsub a r) <= k * (6 * e * norm g)) by (apply Rmult_le_compat_l; lra). lra.
Qed.
End Whole.
End Similar.
Lemma mdet_scale k m : mdet (mscale k m) = k * k * k * mdet m. Proof. spec_unfold. ring. Qed.
Lemma iso_det m : isometry m -> mdet m * mdet m = 1.
Proof. intros H. rewrite <- (mdet_mtr m) at 1. rewrite <- mdet_mmul, H. apply mdet_mid. Qed.
Lemma pd_det c s : symmetric c -> 0 < s -> (forall x, s * dot x x <= dot x (mvec c x)) -> 0 < mdet c.
Proof.
  intros SY S0 H. apply symmetric_eqs in SY. destruct SY as (S1 & S2 & S3).
  assert (Q : forall x, x <> v3zero -> 0 < dot x (mvec c x)). { intros x N. assert (P : 0 < dot x x). { pose proof (dot_pos x) as P. destruct (Req_dec (dot x x) 0) as [Z|]; [|lra]. exfalso. apply N, norm_zero_iff. unfold norm. rewrite Z. apply sqrt_0. } pose proof (H x). nra. }
  assert (A1 : 0 < cxx c). { assert (N : V3 1 0 0 <> v3zero) by (intros X; injection X; lra). pose proof (Q _ N) as P. spec_unfold. cbn [vx vy vz] in P. lra. }
  assert (A2 : 0 < cxx c * cyy c - cxy c * cxy c).
  { assert (N : V3 (- cxy c) (cxx c) 0 <> v3zero) by (intros X; injection X; lra). pose proof (Q _ N) as P. assert (E : dot (V3 (- cxy c) (cxx c) 0) (mvec c (V3 (- cxy c) (cxx c) 0)) = cxx c * (cxx c * cyy c - cxy c * cxy c)) by (spec_unfold; cbn [vx vy vz]; rewrite <- S1; ring). rewrite E in P. nra. }
  set (x := V3 (cxy c * cyz c - czx c * cyy c) (cxy c * czx c - cxx c * cyz c) (cxx c * cyy c - cxy c * cxy c)). assert (N : x <> v3zero) by (intros X; injection X; intros; lra). pose proof (Q _ N) as P.
  assert (E : dot x (mvec c x) = (cxx c * cyy c - cxy c * cxy c) * mdet c) by (unfold x; spec_unfold; cbn [vx vy vz]; rewrite <- S1, <- S2, <- S3; ring). rewrite E in P. nra.
Qed.
Lemma sim_det l1 k f s : l1 <> [] -> isometry (fatt f) -> 0 < k -> 0 < s -> extends s l1 -> 0 < mdet (xcov l1 (similar k f l1)) * mdet (fatt f).
Proof.
  intros NE I K0 S0 EX. assert (M : xcov l1 (similar k f l1) = mscale k (mmul (covm l1 (vmean l1)) (mtr (fatt f)))).
  { apply mvec_ext. intros y. rewrite (sim_m l1 k f NE y). rewrite <- mvec_mmul. generalize (mmul (covm l1 (vmean l1)) (mtr (fatt f))). intros a. vring. }
  rewrite M, mdet_scale, mdet_mmul, mdet_mtr. pose proof (iso_det _ I) as D. pose proof (pd_det _ s (cov_sym l1 (vmean l1)) S0 (c_pos l1 s EX)) as P. replace (k * k * k * (mdet (covm l1 (vmean l1)) * mdet (fatt f)) * mdet (fatt f)) with (k * k * k * mdet (covm l1 (vmean l1)) * (mdet (fatt f) * mdet (fatt f))) by ring. rewrite D.
  assert (0 < k * k * k) by (apply Rmult_lt_0_compat; [apply Rmult_lt_0_compat|]; assumption). nra.
Qed.
Lemma ident_recover fuel src dest l k f s s' d' r : holds src l -> holds dest (similar k f l) -> (3 <= length l)%nat -> zVec3DDataIdentFrame fuel src dest = Some (s', d', r) ->
  isometry (fatt f) -> 0 < k -> 0 < s -> zTOL <= (k * s) * (k * s) -> extends s l ->
  exists g, r = IFrame g /\ let e := zTOL / ((k * s) * (k * s)) in
    (forall x, norm (vsub (mvec (fatt g) x) (mvec (fatt f) x)) <= 6 * e * norm x) /\
    norm (vsub (fpos g) (fpos f)) <= 20 * (k * e) * norm (vmean l) /\ 0 < mdet (fatt g) * mdet (fatt f).
Proof.
  intros H1 H2 N E I K0 S0 S1 EX. assert (NE : l <> []) by (intros ->; cbn in N; lia). destruct (ident_inv _ _ _ _ _ _ _ _ H1 H2 E) as [([B|B] & _)|(L & _ & rank & u & sv & v & SC & A)]; [unfold similar in B; rewrite map_length in B; congruence|lia|].
  pose proof (scatter_ge l k f s EX u sv v rank SC) as SG. unfold identified_by in A. destruct (Reqb_reflect (scatter l) 0) as [Z|Z]; [lra|]. eexists. split; [exact A|]. cbn [fatt fpos]. cbv zeta. split; [|split].
  - intros x. exact (att_err l k f s NE I K0 S0 S1 EX u sv v rank SC x).
  - exact (pos_err l k f s NE I K0 S0 S1 EX u sv v rank SC).
  - destruct (att_det _ _ _ _ _ SC) as (a & A0 & ->). pose proof (sim_det l k f s NE I K0 S0 EX) as D. nra.
Qed.
Definition tetra : list vec3 := [V3 11 1 1; V3 11 (-1) (-1); V3 9 1 (-1); V3 9 (-1) 1].
Lemma tetra_mean : vmean tetra = V3 10 0 0.
Proof. unfold vmean, mean, rsum, tetra. cbn [fold_right length INR vx vy vz]. f_equal; lra. Qed.
Lemma tetra_extends : extends 1 tetra.
Proof.
  intros x N. rewrite tetra_mean. unfold spread, mean, rsum, tetra. cbn [fold_right length INR]. pose proof (norm_sqr x) as Q. rewrite N in Q. unfold dot, vsub in *. cbn [vx vy vz] in *. nra.
Qed.
Lemma ident_scale_refuted : exists src dest l f, holds src l /\ holds dest (map (vscale 2) l) /\ (exists fuel s' d', zVec3DDataIdentFrame fuel src dest = Some (s', d', IFrame f)) /\
  9 <= dist (act f (vmean l)) (vmean (map (vscale 2) l)).
Proof.
  set (f0 := F3 (V3 0 0 0) mid). assert (E2 : map (vscale 2) tetra = similar 2 f0 tetra) by (unfold similar, f0, tetra; cbn [map fatt fpos]; repeat f_equal; vring).
  assert (H1 : holds (zVecXDDataAssignArray tetra) tetra) by (split; [constructor|eexists; reflexivity]). assert (H2 : holds (zVecXDDataAssignArray (similar 2 f0 tetra)) (similar 2 f0 tetra)) by (split; [constructor|eexists; reflexivity]).
  destruct (ident_done _ _ _ _ H1 H2) as (fuel & s' & d' & r & E & _). pose proof zTOL_pos as T0. pose proof zTOL_small as T1.
  destruct (ident_recover fuel _ _ tetra 2 f0 1 s' d' r H1 H2) as (g & -> & A & B & _); auto; try lra; try exact tetra_extends; try (cbn; lia); try (unfold isometry, f0; cbn [fatt]; rewrite mtr_mid; apply mmul_id_l).
  exists (zVecXDDataAssignArray tetra), (zVecXDDataAssignArray (similar 2 f0 tetra)), tetra, g. rewrite E2. split; [exact H1|]. split; [exact H2|]. split; [eauto|].
  rewrite vmean_similar by discriminate. rewrite tetra_mean in *. specialize (A (V3 10 0 0)). set (e := zTOL / (2 * 1 * (2 * 1))) in *. assert (EE : e < / 1000000) by (unfold e; lra). assert (E0 : 0 <= e) by (unfold e; lra). clearbody e. unfold f0 in A, B |- *. cbn [fatt fpos] in *. rewrite mvec_id in *.
  assert (N10 : norm (V3 10 0 0) = 10) by (unfold norm, dot; cbn [vx vy vz]; replace (10 * 10 + 0 * 0 + 0 * 0) with (10 * 10) by ring; apply sqrt_square; lra). rewrite N10 in *.
  unfold dist, act. set (a := vsub (mvec (fatt g) (V3 10 0 0)) (V3 10 0 0)) in *. set (b := vsub (fpos g) (V3 0 0 0)) in *.
  assert (X : V3 10 0 0 = vsub (vadd a b) (vsub (vadd (fpos g) (mvec (fatt g) (V3 10 0 0))) (vadd (vscale 2 (V3 10 0 0)) (V3 0 0 0)))) by (unfold a, b; apply vec3_ext; spec_unfold; cbn [vx vy vz]; ring).
  set (c := vsub (vadd (fpos g) (mvec (fatt g) (V3 10 0 0))) (vadd (vscale 2 (V3 10 0 0)) (V3 0 0 0))) in *.
  assert (Y : norm (V3 10 0 0) <= norm a + norm b + norm c). { rewrite X at 1. replace (vsub (vadd a b) c) with (vadd (vadd a b) (vscale (-1) c)) by vring. pose proof (norm_add (vadd a b) (vscale (-1) c)). pose proof (norm_add a b). rewrite norm_scale in H. replace (Rabs (-1)) with 1 in H by (unfold Rabs; destruct (Rcase_abs (-1)); lra). lra. }
  rewrite N10 in Y. lra.
Qed.
(** ** the decomposition, for the caller *)
Lemma svd_ok fuel m rank u sv v : zMat3DSVD fuel m = Some (rank, u, sv, v) -> rotation u /\ (rank <= 3)%nat /\
  (forall i, (i < 3)%nat -> (vnth sv i = 0 /\ dot (axis v i) (axis v i) < zTOL) \/ (0 < vnth sv i /\ zTOL <= vnth sv i * vnth sv i /\ norm (axis v i) = 1)) /\
  rank = length (filter (fun i => Rltb 0 (vnth sv i)) [0; 1; 2]%nat) /\
  (forall i j, (i < 3)%nat -> (j < 3)%nat -> i <> j -> vnth sv i * vnth sv j * Rabs (dot (axis v i) (axis v j)) < zTOL) /\
  (forall x, let y := vsub (mvec m x) (vadd (vadd (vscale (vx sv * dot (axis v 0) x) (axis u 0)) (vscale (vy sv * dot (axis v 1) x) (axis u 1))) (vscale (vz sv * dot (axis v 2) x) (axis u 2))) in
     dot y y <= (3 - INR rank) * zTOL * dot x x).
Proof.
  intros E. pose proof (svd_inv _ _ _ _ _ _ E) as SC. pose proof SC as (RO & K & O & _ & RK). pose proof zTOL_pos as T. split; [exact RO|].
  assert (CN : forall w, (cnt w <= 1)%nat) by (intros w; unfold cnt; destruct (Rltb _ _); lia). split; [pose proof (CN (wcol m u 0)); pose proof (CN (wcol m u 1)); pose proof (CN (wcol m u 2)); lia|]. split; [|split; [|split]].
  - intros i Hi. destruct (sv_cases _ _ _ (K i Hi)) as [(A & B & C & D)|(A & B & C & D)]; [left|right]; auto.
  - assert (CE : forall i, (i < 3)%nat -> cnt (wcol m u i) = if Rltb 0 (vnth sv i) then 1%nat else 0%nat). { intros i Hi. destruct (sv_cases _ _ _ (K i Hi)) as [(A & B & C & D)|(A & B & C & D & D' & D2)]; destruct (Rltb_reflect 0 (vnth sv i)); try lra; auto. }
    rewrite RK, !CE by lia. cbn [filter]. destruct (Rltb 0 (vnth sv 0)), (Rltb 0 (vnth sv 1)), (Rltb 0 (vnth sv 2)); reflexivity.
  - intros i j Hi Hj N. specialize (O i j Hi Hj N). destruct (sv_cases _ _ _ (K i Hi)) as [(A & _)|(A & B & C & D & _)]; [rewrite A; lra|]. destruct (sv_cases _ _ _ (K j Hj)) as [(A' & _)|(A' & B' & C' & D' & _)]; [rewrite A'; lra|].
    rewrite D, D' in O. replace (dot (vscale (vnth sv i) (axis v i)) (vscale (vnth sv j) (axis v j))) with (vnth sv i * vnth sv j * dot (axis v i) (axis v j)) in O by (spec_unfold; ring). rewrite !Rabs_mult, (Rabs_right (vnth sv i)), (Rabs_right (vnth sv j)) in O by lra. exact O.
  - intros x. exact (svd_rest_le m u sv v rank x SC).
Qed.
