(** Proofs about the singular value decomposition. *)
From Verif Require Import Base Spec SpecGeom SpecData SpecPCA SpecBox SpecProfile ModelVec ModelMat ModelFrame ModelElem ModelData ModelPCA ModelProfile FactsVec FactsAlg FactsMat FactsEig FactsObb FactsData FactsData2 FactsPCA.
From Coq Require Import Lia Lra.
Open Scope R_scope.

Definition wcol (m u : mat3) (i : nat) : vec3 := mvec (mtr m) (axis u i).
(** what one turn leaves: singular value and column *)
Definition sv_ok (w : vec3) (s : R) (v : vec3) : Prop :=
  (dot w w < zTOL /\ s = 0 /\ v = w) \/ (zTOL <= dot w w /\ s = norm w /\ v = vscale (/ norm w) w).
Definition cnt (w : vec3) : nat := if Rltb (dot w w) zTOL then 0%nat else 1%nat.
Lemma dot_pos v : 0 <= dot v v. Proof. spec_unfold. nra. Qed.
Lemma tiny_sq x : 0 <= x -> zIsTiny x = Rltb x zTOL.
Proof. intros H. unfold zIsTiny, zIsTol. rewrite Rabs_right by lra. destruct (Rltb_reflect x zTOL); [|]; destruct (Rltb_reflect x zTOL); auto; lra. Qed.
Lemma svd_step sv v r i w : (i < 3)%nat -> ve sv i = dot w w -> zMat3DVec v i = w ->
  exists s c, zMat3DSVDStep (sv, v, r) i = Some (vset sv i s, set_vec v i c, (r + cnt w)%nat) /\ sv_ok w s c.
Proof.
  intros Hi E1 E2. unfold zMat3DSVDStep, cnt, sv_ok. rewrite E1. pose proof (dot_pos w) as P. rewrite tiny_sq by exact P. pose proof zTOL_pos as T.
  destruct (Rltb_reflect (dot w w) zTOL) as [L|G].
  - exists 0, w. split; [|left; auto]. rewrite Nat.add_0_r. f_equal. f_equal. f_equal. rewrite <- E2. destruct i as [|[|[|i]]]; try lia; destruct v as [a1 a2 a3 a4 a5 a6 a7 a8 a9]; reflexivity.
  - destruct (Rltb_reflect (dot w w) 0) as [B|_]; [lra|]. exists (norm w), (vscale (/ norm w) w). fold (norm w). assert (N : 0 < norm w) by (apply sqrt_lt_R0; lra).
    split; [|right; repeat split; lra]. unfold zVec3DDiv. destruct (Reqb_reflect (norm w) 0) as [Z|_]; [lra|]. rewrite Nat.add_1_r. f_equal. f_equal. f_equal.
    + rewrite E2. unfold zVec3DMul. f_equal. apply vec3_ext; spec_unfold; cbn [vx vy vz]; unfold Rdiv; ring.
Qed.
Lemma ve_vset_ne v i j x : i <> j -> (i < 3)%nat -> (j < 3)%nat -> ve (vset v i x) j = ve v j.
Proof. intros N I J. destruct i as [|[|[|i]]]; try lia; destruct j as [|[|[|j]]]; try lia; reflexivity. Qed.
Lemma vec_set_ne v i j x : i <> j -> (i < 3)%nat -> (j < 3)%nat -> zMat3DVec (set_vec v i x) j = zMat3DVec v j.
Proof. intros N I J. destruct i as [|[|[|i]]]; try lia; destruct j as [|[|[|j]]]; try lia; reflexivity. Qed.
Lemma mmt_sym m : symmetric (mmul m (mtr m)).
Proof. unfold symmetric. rewrite mtr_mmul, mtr_mtr. reflexivity. Qed.
Lemma mmt_quad m x y : dot x (mvec (mmul m (mtr m)) y) = dot (mvec (mtr m) x) (mvec (mtr m) y).
Proof. rewrite mvec_mmul. rewrite (dot_mvec (mtr m)), mtr_mtr. reflexivity. Qed.
(** the decomposition, column by column *)
Definition svd_cols (m u : mat3) (sv : vec3) (v : mat3) (rank : nat) : Prop :=
  rotation u /\ (forall i, (i < 3)%nat -> sv_ok (wcol m u i) (vnth sv i) (axis v i)) /\
  (forall i j, (i < 3)%nat -> (j < 3)%nat -> i <> j -> Rabs (dot (wcol m u i) (wcol m u j)) < zTOL) /\
  (forall i, (i < 3)%nat -> norm (vsub (mvec (mmul m (mtr m)) (axis u i)) (vscale (dot (wcol m u i) (wcol m u i)) (axis u i))) < 2 * zTOL) /\
  rank = (cnt (wcol m u 0) + cnt (wcol m u 1) + cnt (wcol m u 2))%nat.
Lemma svd_total fuel m sv0 u : zMat3DSymEig fuel (zMulMat3DMat3DT m m) = Some (sv0, u) ->
  exists rank sv v, zMat3DSVD fuel m = Some (rank, u, sv, v) /\ svd_cols m u sv v rank.
Proof.
  intros E. unfold zMat3DSVD. rewrite E. rewrite zmmt_spec in E. pose proof (mmt_sym m) as SY.
  destruct (pca_values fuel _ sv0 u SY E) as (RO & V & _ & Off). destruct (symeig_residual fuel _ sv0 u SY E) as (R0 & R1 & R2).
  assert (V' : forall i, (i < 3)%nat -> vnth sv0 i = dot (wcol m u i) (wcol m u i)) by (intros i Hi; rewrite V by exact Hi; apply mmt_quad).
  pose proof (V' 0%nat ltac:(lia)) as V0. pose proof (V' 1%nat ltac:(lia)) as V1. pose proof (V' 2%nat ltac:(lia)) as V2. cbn [vnth] in V0, V1, V2.
  rewrite zmtm_spec. set (v0 := mmul (mtr m) u). assert (C : forall i, (i < 3)%nat -> zMat3DVec v0 i = wcol m u i) by (intros i Hi; destruct i as [|[|[|i]]]; try lia; reflexivity). clearbody v0.
  destruct (svd_step sv0 v0 0 0 (wcol m u 0) ltac:(lia) V0 (C 0%nat ltac:(lia))) as (s0 & c0 & E0 & K0). rewrite E0.
  destruct (svd_step (vset sv0 0 s0) (set_vec v0 0 c0) (0 + cnt (wcol m u 0)) 1 (wcol m u 1) ltac:(lia)) as (s1 & c1 & E1 & K1); [rewrite ve_vset_ne by lia; exact V1|rewrite vec_set_ne by lia; apply C; lia|]. rewrite E1.
  destruct (svd_step (vset (vset sv0 0 s0) 1 s1) (set_vec (set_vec v0 0 c0) 1 c1) (0 + cnt (wcol m u 0) + cnt (wcol m u 1)) 2 (wcol m u 2) ltac:(lia)) as (s2 & c2 & E2 & K2); [rewrite !ve_vset_ne by lia; exact V2|rewrite !vec_set_ne by lia; apply C; lia|]. rewrite E2.
  do 3 eexists. split; [reflexivity|]. split; [exact RO|]. split; [|split; [|split; [|reflexivity]]].
  - intros i Hi. destruct i as [|[|[|i]]]; try lia; cbn [vnth vset vx vy vz axis]; [destruct c0 as [x y z]; exact K0|destruct c1 as [x y z]; exact K1|destruct c2 as [x y z]; exact K2].
  - intros i j Hi Hj N. unfold wcol. rewrite <- mmt_quad. apply Off; assumption.
  - intros i Hi. destruct i as [|[|[|i]]]; try lia; rewrite <- V' by lia; assumption.
Qed.
Lemma svd_inv fuel m rank u sv v : zMat3DSVD fuel m = Some (rank, u, sv, v) -> svd_cols m u sv v rank.
Proof.
  intros E. destruct (zMat3DSymEig fuel (zMulMat3DMat3DT m m)) as [[sv0 u0]|] eqn:Q.
  - destruct (svd_total fuel m sv0 u0 Q) as (r & s & w & E' & K). rewrite E in E'. injection E' as -> -> -> ->. exact K.
  - unfold zMat3DSVD in E. rewrite Q in E. discriminate.
Qed.
Lemma svd_terminates m : exists fuel r, zMat3DSVD fuel m = Some r.
Proof.
  destruct (symeig_terminates_ex (zMulMat3DMat3DT m m)) as (n & [sv0 u] & E); [rewrite zmmt_spec; apply mmt_sym|]. destruct (svd_total n m sv0 u E) as (r & s & w & E' & _). eauto.
Qed.
(** ** algebra along orthonormal axes *)
Lemma dot_cs a b : dot a b <= norm a * norm b.
Proof.
  pose proof (norm_nonneg a). pose proof (norm_nonneg b). pose proof (norm_sqr a) as A. pose proof (norm_sqr b) as B.
  destruct (Rle_lt_dec (dot a b) (norm a * norm b)) as [|L]; [assumption|exfalso].
  assert (Q : dot a a * dot b b - dot a b * dot a b = dot (cross a b) (cross a b)) by (clear; spec_unfold; ring). pose proof (dot_pos (cross a b)). rewrite <- A, <- B in Q.
  assert (P0 : 0 <= norm a * norm b) by nra. nra.
Qed.
Lemma dot_cs_abs a b : Rabs (dot a b) <= norm a * norm b.
Proof. apply Rabs_le. split; [|apply dot_cs]. pose proof (dot_cs (vneg a) b) as H. assert (E : norm (vneg a) = norm a) by (unfold norm; f_equal; spec_unfold; ring). rewrite E in H. assert (E2 : dot (vneg a) b = - dot a b) by (spec_unfold; ring). lra. Qed.
Lemma norm_add a b : norm (vadd a b) <= norm a + norm b.
Proof.
  pose proof (norm_nonneg a). pose proof (norm_nonneg b). pose proof (norm_nonneg (vadd a b)). pose proof (norm_sqr a). pose proof (norm_sqr b). pose proof (norm_sqr (vadd a b)) as E. pose proof (dot_cs a b).
  assert (dot (vadd a b) (vadd a b) = dot a a + dot b b + 2 * dot a b) by (spec_unfold; ring). nra.
Qed.
Lemma norm_scale k a : norm (vscale k a) = Rabs k * norm a.
Proof.
  pose proof (norm_nonneg (vscale k a)). pose proof (norm_nonneg a). pose proof (Rabs_pos k). apply Rsqr_inj; [assumption|nra|]. unfold Rsqr. rewrite norm_sqr. pose proof (norm_sqr a) as A. pose proof (Rabs_sqr k) as K.
  replace (Rabs k * norm a * (Rabs k * norm a)) with ((Rabs k * Rabs k) * (norm a * norm a)) by ring. rewrite A. replace (Rabs k * Rabs k) with (k * k) by lra. spec_unfold. ring.
Qed.
Section Axes.
Variable u : mat3.
Hypothesis RO : rotation u.
Let a i := axis u i.
Lemma ax_mvec x : mvec (mtr u) x = V3 (dot (axis u 0) x) (dot (axis u 1) x) (dot (axis u 2) x).
Proof. apply vec3_ext; cbn [axis vx vy vz]; spec_unfold; ring. Qed.
Lemma ax_expand x : x = vadd (vadd (vscale (dot (axis u 0) x) (axis u 0)) (vscale (dot (axis u 1) x) (axis u 1))) (vscale (dot (axis u 2) x) (axis u 2)).
Proof. rewrite <- (rotation_inv_r u x RO) at 1. rewrite ax_mvec. cbn [axis]. vring. Qed.
Lemma ax_dot x y : dot x y = dot (axis u 0) x * dot (axis u 0) y + dot (axis u 1) x * dot (axis u 1) y + dot (axis u 2) x * dot (axis u 2) y.
Proof. rewrite <- (rotation_dot _ x y (rotation_mtr _ RO)), !ax_mvec. reflexivity. Qed.
Lemma ax_unit i : (i < 3)%nat -> dot (axis u i) (axis u i) = 1 /\ norm (axis u i) = 1.
Proof. intros Hi. destruct (rot_col_unit u RO) as (A & B & C). destruct i as [|[|[|i]]]; try lia; cbn [axis]; rewrite <- ?norm_sqr; rewrite ?A, ?B, ?C; lra. Qed.
Lemma ax_map m i : (i < 3)%nat -> mvec (mmul m (mtr u)) (axis u i) = axis m i.
Proof. intros Hi. rewrite mvec_mmul. replace (axis m i) with (axis (mmul m mid) i) by (rewrite mmul_id_r; reflexivity). destruct RO as [Ho _]. rewrite <- Ho. destruct i as [|[|[|i]]]; try lia; cbn [axis]; vring. Qed.
Lemma ax_lin m x : mvec m x = vadd (vadd (vscale (dot (axis u 0) x) (mvec m (axis u 0))) (vscale (dot (axis u 1) x) (mvec m (axis u 1)))) (vscale (dot (axis u 2) x) (mvec m (axis u 2))).
Proof. rewrite (ax_expand x) at 1. rewrite !mvec_add, !mvec_scale. reflexivity. Qed.
End Axes.
Lemma lt3 (P : nat -> Prop) : P 0%nat -> P 1%nat -> P 2%nat -> forall i, (i < 3)%nat -> P i.
Proof. intros A B C i Hi. destruct i as [|[|[|i]]]; try lia; assumption. Qed.
Lemma sv_cases w s v : sv_ok w s v -> (s = 0 /\ dot v v < zTOL /\ v = w /\ cnt w = 0%nat) \/ (0 < s /\ zTOL <= s * s /\ norm v = 1 /\ w = vscale s v /\ s = norm w /\ cnt w = 1%nat).
Proof.
  pose proof zTOL_pos as T. unfold cnt. intros [(A & B & C)|(A & B & C)]; destruct (Rltb_reflect (dot w w) zTOL) as [L|G]; try lra; [left|right]; subst v s; [auto|].
  assert (N : 0 < norm w) by (apply sqrt_lt_R0; lra). split; [exact N|]. split; [rewrite norm_sqr; exact A|]. split; [|split; [|auto]].
  - rewrite norm_scale, Rabs_right by (apply Rle_ge, Rlt_le, Rinv_0_lt_compat, N). field. lra.
  - apply vec3_ext; spec_unfold; cbn [vx vy vz]; field; lra.
Qed.
(** what remains of [m x] after the decomposition *)
Definition svd_rest (m u : mat3) (sv : vec3) (v : mat3) (x : vec3) : vec3 :=
  vsub (mvec m x) (vadd (vadd (vscale (vx sv * dot (axis v 0) x) (axis u 0)) (vscale (vy sv * dot (axis v 1) x) (axis u 1))) (vscale (vz sv * dot (axis v 2) x) (axis u 2))).
Lemma svd_rest_le m u sv v rank x : svd_cols m u sv v rank -> dot (svd_rest m u sv v x) (svd_rest m u sv v x) <= (3 - INR rank) * zTOL * dot x x.
Proof.
  intros (RO & K & _ & _ & ->). rewrite !plus_INR.
  assert (Q : forall i, (i < 3)%nat -> let t := dot (wcol m u i) x - vnth sv i * dot (axis v i) x in t * t <= (1 - INR (cnt (wcol m u i))) * zTOL * dot x x).
  { intros i Hi t. destruct (sv_cases _ _ _ (K i Hi)) as [(A & B & C & D)|(A & B & C & D & E & F)].
    - unfold t. rewrite A, D, <- C. cbn [INR]. pose proof (dot_cs_abs (axis v i) x) as CS. pose proof (norm_sqr (axis v i)). pose proof (norm_sqr x). pose proof (Rabs_sqr (dot (axis v i) x)). pose proof (Rabs_pos (dot (axis v i) x)). pose proof (norm_nonneg (axis v i)). pose proof (norm_nonneg x). pose proof (dot_pos x).
      assert (X : Rabs (dot (axis v i) x) * Rabs (dot (axis v i) x) <= (norm (axis v i) * norm x) * (norm (axis v i) * norm x)) by (apply Rmult_le_compat; lra). nra.
    - unfold t. rewrite F. cbn [INR]. assert (Z : dot (wcol m u i) x - vnth sv i * dot (axis v i) x = 0) by (rewrite D; spec_unfold; ring). rewrite Z. pose proof (dot_pos x). nra. }
  assert (E : forall i, (i < 3)%nat -> dot (axis u i) (svd_rest m u sv v x) = dot (wcol m u i) x - vnth sv i * dot (axis v i) x).
  { assert (IU : isometry u) by (destruct RO as [Ho _]; exact Ho). destruct (iso_axes u IU) as (C1 & C2 & C3 & C4 & C5 & C6).
    assert (B : forall i, dot (axis u i) (mvec m x) = dot (wcol m u i) x) by (intros i; unfold wcol; rewrite dot_mvec, mtr_mtr; reflexivity).
    unfold svd_rest. apply lt3; rewrite <- B; cbn [axis vnth] in *;
    match goal with |- dot ?e (vsub ?a (vadd (vadd (vscale ?k0 ?e0) (vscale ?k1 ?e1)) (vscale ?k2 ?e2))) = _ =>
      replace (dot e (vsub a (vadd (vadd (vscale k0 e0) (vscale k1 e1)) (vscale k2 e2)))) with (dot e a - (k0 * dot e e0 + k1 * dot e e1 + k2 * dot e e2)) by (spec_unfold; ring) end;
    assert (SYM : forall p q, dot p q = dot q p) by (intros; spec_unfold; ring);
    rewrite ?C1, ?C2, ?C3, ?C4, ?C5, ?C6, ?(SYM (col1 u) (col0 u)), ?(SYM (col2 u) (col1 u)), ?(SYM (col0 u) (col2 u)), ?C1, ?C2, ?C3, ?C4, ?C5, ?C6; ring. }
  rewrite (ax_dot u RO). rewrite !E by lia. pose proof (Q 0%nat ltac:(lia)) as Q0. pose proof (Q 1%nat ltac:(lia)) as Q1. pose proof (Q 2%nat ltac:(lia)) as Q2. cbv zeta in Q0, Q1, Q2. lra.
Qed.
Definition attm (v u : mat3) : mat3 := mmul v (mtr u).
Lemma svd_att m u sv v rank i : svd_cols m u sv v rank -> (i < 3)%nat -> mvec (attm v u) (axis u i) = axis v i.
Proof. intros (RO & _) Hi. apply ax_map; assumption. Qed.
