(** Proofs about elevation maps: heights, ranges, regions. *)
From Verif Require Import Base Spec SpecTerra ModelVec ModelMat ModelTerra FactsAlg FactsVec FactsMat FactsTerra FactsTerra2 FactsColor.
From Coq Require Import List ZArith Lra Lia Permutation.
Import ListNotations.
Open Scope R_scope.

(** the square of a place *)
Definition in_square (t : terra) (i j : Z) (x y : R) : Prop :=
  zTerraX t i <= x < zTerraX t (i + 1) /\ zTerraY t j <= y < zTerraY t (j + 1).

Lemma sq_index u0 d u i : 0 < d -> u0 + IZR i * d <= u < u0 + IZR (i + 1) * d -> Int_part ((u - u0) / d) = i.
Proof.
  intros D [H1 H2]. rewrite plus_IZR in H2. set (r := (u - u0) / d). assert (U : u = u0 + r * d) by (unfold r; field; lra).
  apply int_part_eq. split; apply Rnot_lt_le || apply Rnot_le_lt; intros K; rewrite U in H1, H2; nra.
Qed.

Lemma base_sq t i j x y : 0 < tdx t -> 0 < tdy t -> zmin t <= zmax t -> in_square t i j x y -> valid t i j = true ->
  zTerraGetBaseGrid t (V3 x y (1/2 * (zmin t + zmax t))) (0%Z, 0%Z) = Some (Some (grid t i j), (i, j)).
Proof.
  intros DX DY HZ [QX QY] V. unfold zTerraGetBaseGrid; cbn [vx vy vz].
  destruct (Rltb_reflect (1/2 * (zmin t + zmax t)) (zmin t)); [lra|]. destruct (Rltb_reflect (zmax t) (1/2 * (zmin t + zmax t))); [lra|]. cbn [orb].
  destruct (Reqb_reflect (tdx t) 0); [lra|]. destruct (Reqb_reflect (tdy t) 0); [lra|]. cbn [orb].
  rewrite (sq_index _ _ x i DX QX), (sq_index _ _ y j DY QY). unfold zTerraGrid. rewrite V. reflexivity.
Qed.

Lemma nc_valid t i j : valid t i j = true -> zTerraGridNC t i j = Some (grid t i j).
Proof.
  intros V. apply valid_iff in V. unfold zTerraGridNC.
  destruct (Z.leb_spec 0 (i * ny t + j)); [|nia]. destruct (Z.ltb_spec (i * ny t + j) (nx t * ny t)); [|nia]. cbn [andb].
  f_equal. f_equal; [rewrite Z.div_add_l by lia; rewrite Z.div_small by lia; lia|rewrite Z.add_comm, Z.mod_add by lia; apply Z.mod_small; lia].
Qed.

(** weights *)
Definition wsum (d0 d1 d2 d3 : R) : R := d1 * d2 * d3 + d2 * d3 * d0 + d3 * d0 * d1 + d0 * d1 * d2.
Lemma w_mean w0 w1 w2 w3 z0 z1 z2 z3 lo hi : 0 <= w0 -> 0 <= w1 -> 0 <= w2 -> 0 <= w3 -> 0 < w0 + w1 + w2 + w3 ->
  lo <= z0 <= hi -> lo <= z1 <= hi -> lo <= z2 <= hi -> lo <= z3 <= hi ->
  lo <= (w0 * z0 + w1 * z1 + w2 * z2 + w3 * z3) / (w0 + w1 + w2 + w3) <= hi.
Proof.
  intros. split.
  - apply Rmult_le_reg_r with (w0 + w1 + w2 + w3); [assumption|]. unfold Rdiv. rewrite Rmult_assoc, Rinv_l by lra.
    assert (w0 * lo <= w0 * z0) by (apply Rmult_le_compat_l; lra). assert (w1 * lo <= w1 * z1) by (apply Rmult_le_compat_l; lra). assert (w2 * lo <= w2 * z2) by (apply Rmult_le_compat_l; lra). assert (w3 * lo <= w3 * z3) by (apply Rmult_le_compat_l; lra). lra.
  - apply Rmult_le_reg_r with (w0 + w1 + w2 + w3); [assumption|]. unfold Rdiv. rewrite Rmult_assoc, Rinv_l by lra.
    assert (w0 * z0 <= w0 * hi) by (apply Rmult_le_compat_l; lra). assert (w1 * z1 <= w1 * hi) by (apply Rmult_le_compat_l; lra). assert (w2 * z2 <= w2 * hi) by (apply Rmult_le_compat_l; lra). assert (w3 * z3 <= w3 * hi) by (apply Rmult_le_compat_l; lra). lra.
Qed.

Definition node_d (t : terra) (x y : R) (i j : Z) : R := (zSqr (x - zTerraX t i) + zSqr (y - zTerraY t j)) * tvar (grid t i j).

Lemma zTerraZ_sq t i j x y : 0 < tdx t -> 0 < tdy t -> zmin t <= zmax t -> in_square t i j x y -> valid t i j = true -> valid t (i + 1) (j + 1) = true ->
  let z a b := plane_z (tprm (grid t a b)) x y in
  let d0 := node_d t x y i j in let d1 := node_d t x y i (j + 1) in let d2 := node_d t x y (i + 1) j in let d3 := node_d t x y (i + 1) (j + 1) in
  zTerraZ t x y = if Reqb (wsum d0 d1 d2 d3) 0 then None else
    Some (Some ((d1 * d2 * d3 * z i j + d2 * d3 * d0 * z i (j + 1)%Z + d3 * d0 * d1 * z (i + 1)%Z j + d0 * d1 * d2 * z (i + 1)%Z (j + 1)%Z) / wsum d0 d1 d2 d3)).
Proof.
  intros DX DY HZ Q V V3. cbv zeta. unfold zTerraZ. rewrite (base_sq t i j x y DX DY HZ Q V).
  assert (V1 : valid t i (j + 1) = true) by (apply valid_iff; apply valid_iff in V, V3; lia).
  assert (V2 : valid t (i + 1) j = true) by (apply valid_iff; apply valid_iff in V, V3; lia).
  unfold zTerraZGrid. rewrite !nc_valid by assumption.
  fold (node_d t x y i j) (node_d t x y i (j + 1)) (node_d t x y (i + 1) j) (node_d t x y (i + 1) (j + 1)).
  reflexivity.
Qed.

Lemma node_pos t x y i j : 0 < tvar (grid t i j) -> (x <> zTerraX t i \/ y <> zTerraY t j) -> 0 < node_d t x y i j.
Proof.
  intros P N. unfold node_d, zSqr. apply Rmult_lt_0_compat; [|exact P].
  assert (A : forall u, u <> 0 -> 0 < u * u) by (intros; nra).
  destruct N as [N | N].
  - pose proof (A (x - zTerraX t i) ltac:(lra)). pose proof (Rle_0_sqr (y - zTerraY t j)) as H1. unfold Rsqr in H1. lra.
  - pose proof (A (y - zTerraY t j) ltac:(lra)). pose proof (Rle_0_sqr (x - zTerraX t i)) as H1. unfold Rsqr in H1. lra.
Qed.
Lemma node_nonneg t x y i j : 0 <= tvar (grid t i j) -> 0 <= node_d t x y i j.
Proof. intros P. unfold node_d, zSqr. apply Rmult_le_pos; [|exact P]. apply Rplus_le_le_0_compat; apply Rle_0_sqr. Qed.

(** inside the map, with positive variances *)
Lemma terra_height t i j x y : 0 < tdx t -> 0 < tdy t -> zmin t <= zmax t -> in_square t i j x y -> valid t i j = true -> valid t (i + 1) (j + 1) = true ->
  (forall a b, (i <= a <= i + 1)%Z -> (j <= b <= j + 1)%Z -> 0 < tvar (grid t a b)) ->
  exists z, zTerraZ t x y = Some (Some z) /\
   (forall lo hi, (forall a b, (i <= a <= i + 1)%Z -> (j <= b <= j + 1)%Z -> lo <= plane_z (tprm (grid t a b)) x y <= hi) -> lo <= z <= hi) /\
   (x = zTerraX t i -> y = zTerraY t j -> z = plane_z (tprm (grid t i j)) x y).
Proof.
  intros DX DY HZ Q V V3 P. rewrite (zTerraZ_sq t i j x y DX DY HZ Q V V3). cbv zeta.
  assert (QX : x < zTerraX t (i + 1)) by apply Q. assert (QY : y < zTerraY t (j + 1)) by apply Q.
  pose proof (node_nonneg t x y i j ltac:(left; apply P; lia)) as D0.
  pose proof (node_pos t x y i (j + 1) ltac:(apply P; lia) ltac:(right; lra)) as D1.
  pose proof (node_pos t x y (i + 1) j ltac:(apply P; lia) ltac:(left; lra)) as D2.
  pose proof (node_pos t x y (i + 1) (j + 1) ltac:(apply P; lia) ltac:(left; lra)) as D3.
  set (d0 := node_d t x y i j) in *. set (d1 := node_d t x y i (j + 1)) in *. set (d2 := node_d t x y (i + 1) j) in *. set (d3 := node_d t x y (i + 1) (j + 1)) in *.
  assert (W0 : 0 < d1 * d2 * d3) by (apply Rmult_lt_0_compat; [apply Rmult_lt_0_compat|]; assumption).
  assert (W1 : 0 <= d2 * d3 * d0) by (apply Rmult_le_pos; [apply Rmult_le_pos|]; lra).
  assert (W2 : 0 <= d3 * d0 * d1) by (apply Rmult_le_pos; [apply Rmult_le_pos|]; lra).
  assert (W3 : 0 <= d0 * d1 * d2) by (apply Rmult_le_pos; [apply Rmult_le_pos|]; lra).
  unfold wsum. destruct (Reqb_reflect (d1 * d2 * d3 + d2 * d3 * d0 + d3 * d0 * d1 + d0 * d1 * d2) 0) as [Z | _]; [lra|].
  eexists. split; [reflexivity|]. split.
  - intros lo hi B. apply w_mean; try lra; apply B; lia.
  - intros -> ->. assert (Z : d0 = 0) by (unfold d0, node_d, zSqr; ring). rewrite Z. clear W0 W1 W2 W3 Z. clearbody d1 d2 d3. field. lra.
Qed.

(** flat ground at height zero: nought divided by nought *)
Lemma fits_zero l : Forall (fun p => vz p = 0) l -> fits l v3zero.
Proof.
  intros F x. unfold cost.
  assert (Z : rsum (fun p => (plane_z v3zero (vx p) (vy p) - vz p) * (plane_z v3zero (vx p) (vy p) - vz p)) l = 0).
  { induction F as [|p l H F IH]; [reflexivity|]. unfold rsum in *. cbn [fold_right]. rewrite IH, H. unfold plane_z, v3zero; cbn. ring. }
  assert (N : 0 <= rsum (fun p => (plane_z x (vx p) (vy p) - vz p) * (plane_z x (vx p) (vy p) - vz p)) l).
  { clear. induction l as [|p l IH]; [unfold rsum; cbn; lra|]. unfold rsum in *. cbn [fold_right]. set (u := plane_z x (vx p) (vy p) - vz p). assert (0 <= u * u) by nra. lra. }
  rewrite Z. unfold dot at 1 2, vsub, v3zero; cbn [vx vy vz]. unfold dot. lra.
Qed.
Lemma online_zero l s : online l s -> Forall (fun p => vz p = 0) l -> s = 0.
Proof.
  induction 1 as [|l s p k O IH F]; intros H; [reflexivity|].
  assert (K : k = v3zero) by (apply (fits_unique _ _ _ F); apply fits_zero; exact H).
  apply Forall_app in H. destruct H as [H1 H2]. inversion H2; subst. rewrite IH by exact H1. unfold plane_z, v3zero; cbn. rewrite H3. ring.
Qed.

Lemma terra_flat_refuted x0 y0 dx dy xs ys z0 z1 l p x y i j : 0 < dx -> 0 < dy -> z0 <= 0 <= z1 -> Forall (fun p => vz p = 0) l ->
  (0 <= i < xs - 1)%Z -> (0 <= j < ys - 1)%Z -> x0 + IZR i * dx <= x < x0 + IZR (i + 1) * dx -> y0 + IZR j * dy <= y < y0 + IZR (j + 1) * dy ->
  In p l -> x0 + IZR i * dx <= vx p < x0 + IZR (i + 1) * dx -> y0 + IZR j * dy <= vy p < y0 + IZR (j + 1) * dy ->
  exists t t', zTerraAllocGrid x0 y0 dx dy xs ys z0 z1 = Some t /\ zTerraIdent t l = Some t' /\ zTerraZ t' x y = None.
Proof.
  intros DX DY HZ F Hi Hj QX QY IN PX PY.
  assert (FZ : Forall (fun p => z0 <= vz p <= z1) ([] ++ l)) by (cbn; eapply Forall_impl; [|exact F]; cbn; intros a ->; exact HZ).
  destruct (alloc_spec x0 y0 dx dy xs ys z0 z1 ltac:(lia) ltac:(lia)) as (t & E & A1 & A2 & A3 & A4 & A5 & A6 & A7 & A8 & _ & _ & _ & _ & _ & G).
  destruct (loop_in l _ t (0%Z, 0%Z) G) as (t2 & E2 & S2 & G2); [rewrite A3; exact DX|rewrite A4; exact DY|rewrite A7, A8; exact FZ|].
  exists t, (zTerraCheckTravs (zTerraForm t2)). split; [exact E|]. split; [unfold zTerraIdent; rewrite E2; reflexivity|].
  set (t' := zTerraCheckTravs (zTerraForm t2)).
  assert (S' : same_frame t t') by (exact S2).
  pose proof S' as (X1 & X2 & X3 & X4 & X5 & X6 & X7 & X8 & X9 & X10 & X11 & X12 & X13).
  assert (VV : forall a b, (i <= a <= i + 1)%Z -> (j <= b <= j + 1)%Z -> valid t2 a b = true).
  { intros a b HA HB. rewrite (valid_same _ _ _ _ S2). apply valid_iff. rewrite A5, A6. lia. }
  assert (V' : forall a b, (i <= a <= i + 1)%Z -> (j <= b <= j + 1)%Z -> tvar (grid t' a b) = 0).
  { intros a b HA HB. unfold t', zTerraCheckTravs; cbn [grid with_grid]. replace (valid (zTerraForm t2) a b) with true by (symmetry; exact (VV a b HA HB)).
    cbn [tvar]. unfold zTerraForm; cbn [grid with_grid]. rewrite (VV a b HA HB). cbn [tvar zTerraCellForm].
    specialize (G2 a b (VV a b HA HB)). cbv beta in G2. rewrite app_nil_l in G2. destruct G2 as (_ & _ & s & ON & SV & _).
    rewrite (online_zero _ _ ON) in SV by (apply Forall_forall; intros q Q; apply filter_In in Q; rewrite Forall_forall in F; apply F; apply Q).
    assert (L : (0 < length (filter (wf t a b) l))%nat).
    { assert (I : In p (filter (wf t a b) l)).
      { apply filter_In. split; [exact IN|]. unfold wf. apply in_window_iff. rewrite A1, A2, A3, A4. unfold window.
        rewrite plus_IZR in PX, PY.
        assert (IZR i <= IZR a <= IZR i + 1) by (rewrite <- plus_IZR; split; apply IZR_le; lia).
        assert (IZR j <= IZR b <= IZR j + 1) by (rewrite <- plus_IZR; split; apply IZR_le; lia).
        split; split; nra. }
      destruct (filter (wf t a b) l); [destruct I|cbn; lia]. }
    apply lt_0_INR in L. apply Rmult_eq_reg_l with (INR (length (filter (wf t a b) l))); lra. }
  rewrite (zTerraZ_sq t' i j x y).
  - cbv zeta. unfold node_d. rewrite !V' by lia. unfold wsum. rewrite !Rmult_0_r, !Rplus_0_r. destruct (Reqb_reflect 0 0); [reflexivity|lra].
  - rewrite X7, A3. exact DX.
  - rewrite X8, A4. exact DY.
  - rewrite X5, X6, A7, A8. lra.
  - unfold in_square, zTerraX, zTerraY. rewrite X1, X3, X7, X8, A1, A2, A3, A4. auto.
  - exact (VV i j ltac:(lia) ltac:(lia)).
  - exact (VV (i + 1)%Z (j + 1)%Z ltac:(lia) ltac:(lia)).
Qed.

(** the last row: an access outside the array *)
Lemma terra_edge_refuted t i j x y : 0 < tdx t -> 0 < tdy t -> zmin t <= zmax t -> valid t i j = true -> i = (nx t - 1)%Z -> in_square t i j x y -> zTerraZ t x y = None.
Proof.
  intros DX DY HZ V I Q. unfold zTerraZ. rewrite (base_sq t i j x y DX DY HZ Q V).
  assert (N : zTerraZGrid t x y (i + 1) (j + 1) = None).
  { unfold zTerraZGrid, zTerraGridNC. apply valid_iff in V. destruct (Z.ltb_spec ((i + 1) * ny t + (j + 1)) (nx t * ny t)); [nia|]. rewrite Bool.andb_false_r. reflexivity. }
  rewrite N. destruct (zTerraZGrid t x y i j) as [[? ?]|]; [|reflexivity]. destruct (zTerraZGrid t x y i (j + 1)) as [[? ?]|]; [|reflexivity]. destruct (zTerraZGrid t x y (i + 1) j) as [[? ?]|]; reflexivity.
Qed.

(** the last column: cells of the next row are taken *)
Definition two_levels : terra :=
  Terra 0 2 0 1 0 1 1 1 1 0 1 3 2 (fun i j => TC 0 (V3 0 0 1) 1 true (V3 0 0 (if (j =? 0)%Z then 1 else 0)) ZMAT3DIDENT 0).
Lemma terra_column_refuted : zTerraZ two_levels (1/2) (3/2) = Some (Some (1/2)) /\
  (forall i, (0 <= i < 3)%Z -> zTerraCellZ (grid two_levels i 1) (1/2) (3/2) = 0).
Proof.
  split.
  - unfold zTerraZ. rewrite (base_sq two_levels 0%Z 1%Z); [|cbn; lra|cbn; lra|cbn; lra|unfold in_square, zTerraX, zTerraY, two_levels; cbn; lra|reflexivity].
    unfold zTerraZGrid, zTerraGridNC. cbn -[Rplus Rmult Rminus Rdiv Reqb].
    unfold zTerraCellZ, zTerraX, zTerraY, two_levels, zSqr; cbn [tprm vx vy vz xmin ymin tdx tdy tvar].
    match goal with |- context [Reqb ?a 0] => destruct (Reqb_reflect a 0) as [Z | _] end; [exfalso; cbn in Z; lra|].
    do 2 f_equal. cbn. lra.
  - intros i _. unfold zTerraCellZ; cbn. lra.
Qed.

(** range of heights *)
Definition bounds (z : R) (r : option (R * R)) : Prop := match r with None => False | Some (a, b) => a <= z <= b end.
Lemma zrange_row_spec t i j : forall r, let r' := zrange_row t i j r in
  (forall z, bounds z r -> bounds z r') /\ (forall k, (0 < k <= j)%nat -> bounds (tz (grid t i (ny t - Z.of_nat k))) r') /\
  (forall a b, r' = Some (a, b) -> ((exists k, (0 < k <= j)%nat /\ a = tz (grid t i (ny t - Z.of_nat k))) \/ exists b', r = Some (a, b')) /\ ((exists k, (0 < k <= j)%nat /\ b = tz (grid t i (ny t - Z.of_nat k))) \/ exists a', r = Some (a', b))).
Proof.
  induction j as [|j IH]; intros r; cbv zeta.
  - cbn [zrange_row]. split; [auto|]. split; [lia|]. intros a b ->. split; right; eauto.
  - remember (S j) as j1. subst j1. cbn [zrange_row]. set (z0 := tz (grid t i (ny t - Z.of_nat (S j)))).
    set (r1 := Some (match r with None => (z0, z0) | Some (a, b) => (if Rltb z0 a then z0 else a, if Rltb b z0 then z0 else b) end)).
    destruct (IH r1) as (I1 & I2 & I3).
    assert (B0 : bounds z0 r1).
    { unfold r1, bounds. destruct r as [[a b]|]; [|lra]. destruct (Rltb_reflect z0 a), (Rltb_reflect b z0); lra. }
    split; [|split].
    + intros z B. apply I1. unfold r1, bounds in *. destruct r as [[a b]|]; [|contradiction]. destruct (Rltb_reflect z0 a), (Rltb_reflect b z0); lra.
    + intros k K. destruct (Nat.eq_dec k (S j)) as [-> | N]; [apply I1; exact B0|apply I2; lia].
    + intros a b E. destruct (I3 a b E) as [J1 J2]. split.
      * destruct J1 as [(k & K & ->) | (b' & J)]; [left; exists k; split; [lia|reflexivity]|].
        unfold r1 in J. destruct r as [[a1 b1]|]; [|injection J as <- <-; left; exists (S j); split; [lia|reflexivity]].
        injection J as J _. destruct (Rltb z0 a1); [left; exists (S j); split; [lia|symmetry; exact J]|right; exists b1; congruence].
      * destruct J2 as [(k & K & ->) | (b' & J)]; [left; exists k; split; [lia|reflexivity]|].
        unfold r1 in J. destruct r as [[a1 b1]|]; [|injection J as <- <-; left; exists (S j); split; [lia|reflexivity]].
        injection J as _ J. destruct (Rltb b1 z0); [left; exists (S j); split; [lia|symmetry; exact J]|right; exists a1; congruence].
Qed.
Lemma zrange_rows_spec t n : forall r, let r' := zrange_rows t n r in let m := Z.to_nat (ny t) in
  (forall z, bounds z r -> bounds z r') /\ (forall i k, (0 < i <= n)%nat -> (0 < k <= m)%nat -> bounds (tz (grid t (nx t - Z.of_nat i) (ny t - Z.of_nat k))) r') /\
  (forall a b, r' = Some (a, b) -> ((exists i k, (0 < i <= n)%nat /\ (0 < k <= m)%nat /\ a = tz (grid t (nx t - Z.of_nat i) (ny t - Z.of_nat k))) \/ exists b', r = Some (a, b')) /\
     ((exists i k, (0 < i <= n)%nat /\ (0 < k <= m)%nat /\ b = tz (grid t (nx t - Z.of_nat i) (ny t - Z.of_nat k))) \/ exists a', r = Some (a', b))).
Proof.
  induction n as [|n IH]; intros r; cbv zeta.
  - cbn [zrange_rows]. split; [auto|]. split; [lia|]. intros a b ->. split; right; eauto.
  - cbn [zrange_rows]. destruct (zrange_row_spec t (nx t - Z.of_nat (S n)) (Z.to_nat (ny t)) r) as (R1 & R2 & R3).
    set (r1 := zrange_row t (nx t - Z.of_nat (S n)) (Z.to_nat (ny t)) r) in *. destruct (IH r1) as (I1 & I2 & I3).
    split; [auto|]. split.
    + intros i k Hi Hk. destruct (Nat.eq_dec i (S n)) as [-> | N]; [apply I1, R2; exact Hk|apply I2; [lia|exact Hk]].
    + intros a b E. destruct (I3 a b E) as [J1 J2]. split.
      * destruct J1 as [(i & k & Hi & Hk & ->) | (b' & J)]; [left; exists i, k; split; [lia|auto]|].
        destruct (R3 _ _ J) as [[(k & Hk & ->) | (b'' & K)] _]; [left; exists (S n), k; split; [lia|auto]|right; eauto].
      * destruct J2 as [(i & k & Hi & Hk & ->) | (b' & J)]; [left; exists i, k; split; [lia|auto]|].
        destruct (R3 _ _ J) as [_ [(k & Hk & ->) | (b'' & K)]]; [left; exists (S n), k; split; [lia|auto]|right; eauto].
Qed.
Lemma terra_zrange t : (0 < nx t)%Z -> (0 < ny t)%Z -> exists a b, zTerraZRange t = Some (a, b) /\
  (forall i j, valid t i j = true -> a <= tz (grid t i j) <= b) /\
  (exists i j, valid t i j = true /\ a = tz (grid t i j)) /\ (exists i j, valid t i j = true /\ b = tz (grid t i j)).
Proof.
  intros NX NY. unfold zTerraZRange. destruct (zrange_rows_spec t (Z.to_nat (nx t)) None) as (_ & I2 & I3). cbv zeta in *.
  set (r := zrange_rows t (Z.to_nat (nx t)) None) in *.
  assert (B : forall i j, valid t i j = true -> bounds (tz (grid t i j)) r).
  { intros i j V. apply valid_iff in V. specialize (I2 (Z.to_nat (nx t - i)) (Z.to_nat (ny t - j)) ltac:(lia) ltac:(lia)).
    rewrite !Z2Nat.id in I2 by lia. replace (nx t - (nx t - i))%Z with i in I2 by lia. replace (ny t - (ny t - j))%Z with j in I2 by lia. exact I2. }
  pose proof (B 0%Z 0%Z ltac:(apply valid_iff; lia)) as B0. destruct r as [[a b]|] eqn:R; [|contradiction].
  exists a, b. split; [reflexivity|]. split; [exact B|]. destruct (I3 a b eq_refl) as [[(i & k & Hi & Hk & E) | (? & ?)] [(i' & k' & Hi' & Hk' & E') | (? & ?)]]; try discriminate.
  split; do 2 eexists; (split; [|first [exact E | exact E']]); apply valid_iff; lia.
Qed.

(** the nodes cover the region asked for, up to one interval *)
Lemma terra_region x0 x1 y0 y1 z0 z1 dx dy : zTOL <= dx -> zTOL <= dy -> x0 <= x1 -> y0 <= y1 ->
  exists t, zTerraAllocRegion x0 x1 y0 y1 z0 z1 dx dy = Some t /\ xmin t = x0 /\ ymin t = y0 /\ tdx t = dx /\ tdy t = dy /\ zmin t = z0 /\ zmax t = z1 /\
  (0 < nx t)%Z /\ (0 < ny t)%Z /\ xmax t = zTerraX t (nx t - 1) /\ xmax t <= x1 < xmax t + dx /\ ymax t = zTerraY t (ny t - 1) /\ ymax t <= y1 < ymax t + dy.
Proof.
  intros HX HY LX LY. pose proof zTOL_pos as TP. unfold zTerraAllocRegion.
  destruct (Rltb_reflect dx zTOL); [lra|]. destruct (Rltb_reflect dy zTOL); [lra|]. cbn [orb].
  assert (K : forall a b d, a <= b -> 0 < d -> (0 <= Int_part ((b - a) / d))%Z /\ a + IZR (Int_part ((b - a) / d)) * d <= b < a + IZR (Int_part ((b - a) / d)) * d + d).
  { intros a b d AB D. set (r := (b - a) / d). assert (U : b = a + r * d) by (unfold r; field; lra). destruct (base_Int_part r) as [B1 B2].
    assert (R0 : 0 <= r) by (apply Rmult_le_reg_r with d; [exact D|lra]).
    split; [assert (-1 < Int_part r)%Z; [apply lt_IZR; lra|lia]|]. rewrite U. split; nra. }
  destruct (K x0 x1 dx LX ltac:(lra)) as [A1 A2]. destruct (K y0 y1 dy LY ltac:(lra)) as [B1 B2].
  destruct (alloc_spec x0 y0 dx dy (Int_part ((x1 - x0) / dx) + 1) (Int_part ((y1 - y0) / dy) + 1) z0 z1 ltac:(lia) ltac:(lia)) as (t & E & C1 & C2 & C3 & C4 & C5 & C6 & C7 & C8 & C9 & C10 & _).
  exists t. split; [exact E|]. rewrite C5, C6, C9, C10. unfold zTerraX, zTerraY. rewrite C1, C2, C3, C4.
  replace (Int_part ((x1 - x0) / dx) + 1 - 1)%Z with (Int_part ((x1 - x0) / dx)) by lia. replace (Int_part ((y1 - y0) / dy) + 1 - 1)%Z with (Int_part ((y1 - y0) / dy)) by lia.
  repeat match goal with |- _ /\ _ => split end; try assumption; try reflexivity; try lia; lra.
Qed.
