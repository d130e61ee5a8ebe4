(** Proofs about the 3x3 matrix model: algebra, inverse, attitudes. *)
From Verif Require Export FactsVec FactsAlg ModelMat.
Open Scope R_scope.

Ltac mod_unfold :=
  lazy beta iota zeta delta [me mset ve vset zMat3DVec set_vec bx by_ bz of_b zMat3DCreate zMat3DRow zMat3DAdj zMat3DAdjRow
    zMulAdjMat3DVec3DRow zMulAdjMat3DVec3D zMat3DRowBalancing zMat3DColBalancing ZMAT3DZERO ZMAT3DIDENT
    zMat3DRotRPYSC zMat3DRotRPYSCDRC zVec3DTripleProdToMat3D
    vx vy vz cxx cxy cxz cyx cyy cyz czx czy czz] in *; refold3; spec_unfold.

Ltac mod_unfold_g :=
  lazy beta iota zeta delta [me mset ve vset zMat3DVec set_vec bx by_ bz of_b zMat3DCreate zMat3DRow zMat3DAdj zMat3DAdjRow
    zMulAdjMat3DVec3DRow zMulAdjMat3DVec3D zMat3DRowBalancing zMat3DColBalancing ZMAT3DZERO ZMAT3DIDENT
    zMat3DRotRPYSC zMat3DRotRPYSCDRC zVec3DTripleProdToMat3D
    vx vy vz cxx cxy cxz cyx cyy cyz czx czy czz]; refold3g; spec_unfold_g.

(** ** model functions = specification vocabulary *)
Lemma zmv_spec m v : zMulMat3DVec3D m v = mvec m v.
Proof. reflexivity. Qed.
Lemma zmtv_spec m v : zMulMat3DTVec3D m v = mvec (mtr m) v.
Proof. reflexivity. Qed.
Lemma zmm_spec a b : zMulMat3DMat3D a b = mmul a b.
Proof. reflexivity. Qed.
Lemma zmtm_spec a b : zMulMat3DTMat3D a b = mmul (mtr a) b.
Proof. reflexivity. Qed.
Lemma zmmt_spec a b : zMulMat3DMat3DT a b = mmul a (mtr b).
Proof. reflexivity. Qed.
Lemma zt_spec m : zMat3DT m = mtr m.
Proof. reflexivity. Qed.
Lemma zident_spec : ZMAT3DIDENT = mid.
Proof. reflexivity. Qed.
Lemma zdet_spec m : zMat3DDet m = mdet m.
Proof. unfold zMat3DDet. spec_unfold; ring. Qed.
Lemma zadj_spec m : zMat3DAdj m = madj m.
Proof. apply mat3_ext; unfold madj; mod_unfold; ring. Qed.
Lemma zmul3_spec m k : zMat3DMul m k = mscale k m.
Proof. reflexivity. Qed.
Lemma zmadd_spec a b : zMat3DAdd a b = madd a b.
Proof. reflexivity. Qed.
Lemma zadjv_spec m v : zMulAdjMat3DVec3D m v = mvec (madj m) v.
Proof. apply vec3_ext; unfold madj; mod_unfold; ring. Qed.
Lemma zadjm_spec a b : zMulAdjMat3DMat3D a b = mmul (madj a) b.
Proof. unfold zMulAdjMat3DMat3D. rewrite !zadjv_spec. reflexivity. Qed.
Lemma zhat_spec v : zVec3DOuterProdToMat3D v = hat v.
Proof. reflexivity. Qed.
Lemma zdyad_spec a b : zMat3DDyad a b = outer a b.
Proof. reflexivity. Qed.
Lemma ztripm_spec a b v : mvec (zVec3DTripleProdToMat3D a b) v = cross a (cross b v).
Proof. apply vec3_ext; unfold zVec3DTripleProdToMat3D, zMat3DCreate, of_b; spec_unfold; ring. Qed.
Lemma zdouble_spec a v : mvec (zVec3DDoubleOuterProdToMat3D a) v = cross a (cross a v).
Proof. apply vec3_ext; unfold zVec3DDoubleOuterProdToMat3D; spec_unfold; ring. Qed.
Lemma zcatdouble_spec m k a v :
  mvec (zMat3DCatVec3DDoubleOuterProd m k a) v = vadd (mvec m v) (vscale k (cross a (cross a v))).
Proof. apply vec3_ext; unfold zMat3DCatVec3DDoubleOuterProd; spec_unfold; ring. Qed.
Lemma zTDRC_spec m : zMat3DTDRC m = mtr m.
Proof. reflexivity. Qed.
Ltac zmat := rewrite ?zmv_spec, ?zmtv_spec, ?zmm_spec, ?zmtm_spec, ?zmmt_spec, ?zt_spec, ?zident_spec,
  ?zdet_spec, ?zadj_spec, ?zmul3_spec, ?zadjv_spec, ?zadjm_spec, ?zmadd_spec, ?zhat_spec, ?zdyad_spec in *.

(** ** adjugate and inverse *)
Lemma adj_correct m :
  mmul m (zMat3DAdj m) = mscale (zMat3DDet m) mid /\ mmul (zMat3DAdj m) m = mscale (zMat3DDet m) mid.
Proof. zmat. split; [apply madj_r|apply madj_l]. Qed.

Definition mdiag (v : vec3) : mat3 := rows3 (vx v) 0 0 0 (vy v) 0 0 0 (vz v).
Definition vinv (v : vec3) : vec3 := V3 (/ vx v) (/ vy v) (/ vz v).
Definition nozero (s : vec3) : Prop := vx s <> 0 /\ vy s <> 0 /\ vz s <> 0.
Lemma rowbal_spec m s : zMat3DRowBalancing m s = mmul (mdiag (vinv s)) m.
Proof. apply mat3_ext; unfold mdiag, vinv; mod_unfold; unfold Rdiv; ring. Qed.
Lemma colbal_spec m s : zMat3DColBalancing m s = mmul m (mdiag (vinv s)).
Proof. apply mat3_ext; unfold mdiag, vinv; mod_unfold; unfold Rdiv; ring. Qed.
Lemma dem_spec v s : zVec3DDem v s = mvec (mdiag (vinv s)) v.
Proof. apply vec3_ext; unfold mdiag, vinv, zVec3DDem; spec_unfold; unfold Rdiv; ring. Qed.
Lemma mdiag_inv s : nozero s -> mmul (mdiag s) (mdiag (vinv s)) = mid.
Proof.
  intros (A & B & C). destruct s as [a b c]. apply mat3_ext; unfold mdiag, vinv; spec_unfold; field; auto.
Qed.
Lemma mdiag_inv' s : nozero s -> mmul (mdiag (vinv s)) (mdiag s) = mid.
Proof. intros H. apply left_inv_right, mdiag_inv, H. Qed.
Lemma hasZero_false s : hasZero s = false <-> nozero s.
Proof.
  unfold hasZero, nozero. rewrite !orb_false_iff, !Reqb_false. tauto.
Qed.
Lemma mdet_mdiag s : mdet (mdiag s) = vx s * vy s * vz s.
Proof. unfold mdiag; spec_unfold; ring. Qed.

(** what balancing achieves: m = diag(sr) mb diag(sc), no zero scale *)
Lemma balance_spec m rf mb sr sc : zMat3DBalance m = Some (rf, mb, sr, sc) ->
  nozero sr /\ nozero sc /\ mb = mmul (mdiag (vinv sr)) (mmul m (mdiag (vinv sc))).
Proof.
  unfold zMat3DBalance. destruct (ratio_lt _ _).
  - destruct (hasZero (zMat3DRowBalancingScale m)) eqn:E1; [discriminate|].
    destruct (hasZero (zMat3DColBalancingScale _)) eqn:E2; [discriminate|].
    apply hasZero_false in E1, E2. intros H; inversion H; subst.
    split; [auto|split; [auto|]]. rewrite colbal_spec, rowbal_spec, mmul_assoc. reflexivity.
  - destruct (hasZero (zMat3DColBalancingScale m)) eqn:E1; [discriminate|].
    destruct (hasZero (zMat3DRowBalancingScale _)) eqn:E2; [discriminate|].
    apply hasZero_false in E1, E2. intros H; inversion H; subst.
    split; [auto|split; [auto|]]. rewrite rowbal_spec, colbal_spec. reflexivity.
Qed.
Lemma balance_back m rf mb sr sc : zMat3DBalance m = Some (rf, mb, sr, sc) ->
  m = mmul (mdiag sr) (mmul mb (mdiag sc)).
Proof.
  intros H. apply balance_spec in H. destruct H as (Hr & Hc & ->).
  rewrite <- !mmul_assoc, mdiag_inv' by exact Hc. rewrite mmul_id_r.
  rewrite mmul_assoc, mdiag_inv by exact Hr. rewrite mmul_id_l. reflexivity.
Qed.
Lemma inv0_spec m im : zMat3DInv0 m = Some im -> mmul m im = mid.
Proof.
  unfold zMat3DInv0. zmat. destruct (zIsTiny (mdet m)) eqn:E; [discriminate|].
  apply zIsTiny_false_neq in E. intros H; inversion H. zmat.
  rewrite mmul_mscale_r, madj_r, mscale_mscale.
  replace (1 / mdet m * mdet m) with 1 by (field; auto). apply mscale_1.
Qed.
Lemma mtr_diag_cancel mb im sr sc : nozero sr -> nozero sc -> mmul mb im = mid ->
  mmul (mmul (mdiag sr) (mmul mb (mdiag sc))) (mmul (mdiag (vinv sc)) (mmul im (mdiag (vinv sr)))) = mid.
Proof.
  intros Hr Hc H. rewrite <- !mmul_assoc. rewrite (mmul_assoc (mdiag sc) (mdiag (vinv sc))), mdiag_inv by exact Hc.
  rewrite mmul_id_l, (mmul_assoc mb), H, mmul_id_l. apply mdiag_inv, Hr.
Qed.
Lemma inv_sound m old b im : zMat3DInv m old = (b, Computed im) -> mmul m im = mid /\ mmul im m = mid.
Proof.
  unfold zMat3DInv. destruct (zMat3DBalance m) as [[[[rf mb] sr] sc]|] eqn:E; [|discriminate].
  destruct (zMat3DInv0 mb) as [im0|] eqn:E0; [|discriminate].
  intros H; injection H as _ H. pose proof (balance_back _ _ _ _ _ E) as Hm.
  apply balance_spec in E. destruct E as (Hr & Hc & _). apply inv0_spec in E0.
  assert (K : mmul m im = mid).
  { rewrite Hm. destruct rf; subst im; rewrite !rowbal_spec, !colbal_spec.
    - rewrite <- (mmul_assoc (mdiag (vinv sc))). apply mtr_diag_cancel; assumption.
    - apply mtr_diag_cancel; assumption. }
  split; [exact K|apply left_inv_right, K].
Qed.
Lemma mulinv_v_sound m v old b x : zMulInvMat3DVec3D m v old = (b, Computed x) -> mvec m x = v.
Proof.
  unfold zMulInvMat3DVec3D. destruct (zMat3DBalance m) as [[[[rf mb] sr] sc]|] eqn:E; [|discriminate].
  unfold zMulInvMat3DVec3D0. zmat. destruct (zIsTiny (mdet mb)) eqn:T; [discriminate|].
  apply zIsTiny_false_neq in T. intros H; injection H as _ H. subst x. zvec. zmat.
  rewrite (balance_back _ _ _ _ _ E). apply balance_spec in E. destruct E as (Hr & Hc & _).
  rewrite !dem_spec, !mvec_mmul. rewrite <- (mvec_mmul (mdiag sc)), mdiag_inv, mvec_id by exact Hc.
  rewrite mvec_scale, <- (mvec_mmul mb), madj_r.
  rewrite <- mvec_scale, <- mvec_mmul, <- mvec_scale, <- mvec_mmul.
  rewrite (mmul_mscale_r), mmul_id_r.
  assert (Ev : mvec (mmul (mscale (mdet mb) (mdiag sr)) (mdiag (vinv sr))) (vscale (1 / mdet mb) v) =
          mvec (mmul (mdiag sr) (mdiag (vinv sr))) v).
  { rewrite mmul_mscale_l. rewrite mdiag_inv by exact Hr. destruct v as [a b' c].
    apply vec3_ext; spec_unfold; field; exact T. }
  rewrite Ev, mdiag_inv, mvec_id by exact Hr. reflexivity.
Qed.
Lemma mulinv_m_sound m a old b x : zMulInvMat3DMat3D m a old = (b, Computed x) -> mmul m x = a.
Proof.
  unfold zMulInvMat3DMat3D. destruct (zMat3DBalance m) as [[[[rf mb] sr] sc]|] eqn:E; [|discriminate].
  unfold zMulInvMat3DMat3D0. zmat. destruct (zIsTiny (mdet mb)) eqn:T; [discriminate|].
  apply zIsTiny_false_neq in T. intros H; injection H as _ H. subst x.
  rewrite !rowbal_spec. zmat.
  rewrite (balance_back _ _ _ _ _ E). apply balance_spec in E. destruct E as (Hr & Hc & _).
  rewrite <- !mmul_assoc, (mmul_assoc (mdiag sc)), mdiag_inv, mmul_id_l by exact Hc.
  rewrite mmul_mscale_r, (mmul_assoc mb), madj_r, mmul_mscale_l, mscale_mscale, mmul_id_l.
  replace (1 / mdet mb * mdet mb) with 1 by (field; exact T).
  rewrite mscale_1, mmul_assoc, mdiag_inv, mmul_id_l by exact Hr. reflexivity.
Qed.

(** singular matrices: never a computed result, never a null pointer *)
Lemma inv_singular m old : mdet m = 0 ->
  fst (zMat3DInv m old) = true /\ forall im, snd (zMat3DInv m old) <> Computed im.
Proof.
  intros D. split.
  - unfold zMat3DInv. destruct (zMat3DBalance m) as [[[[rf mb] sr] sc]|]; [|reflexivity].
    destruct (zMat3DInv0 mb); reflexivity.
  - intros im H. destruct (zMat3DInv m old) as [b o] eqn:E. simpl in H; subst o.
    apply inv_sound in E. destruct E as [E _]. apply det_inv in E. auto.
Qed.
Lemma balance_det m rf mb sr sc : zMat3DBalance m = Some (rf, mb, sr, sc) -> mdet m = 0 -> mdet mb = 0.
Proof.
  intros H D. apply balance_spec in H. destruct H as (_ & _ & ->).
  rewrite !mdet_mmul, D. ring.
Qed.
Lemma mulinv_v_singular m v old : mdet m = 0 ->
  fst (zMulInvMat3DVec3D m v old) = true /\ forall x, snd (zMulInvMat3DVec3D m v old) <> Computed x.
Proof.
  intros D. unfold zMulInvMat3DVec3D.
  destruct (zMat3DBalance m) as [[[[rf mb] sr] sc]|] eqn:E; [|split; [reflexivity|discriminate]].
  unfold zMulInvMat3DVec3D0. zmat. rewrite (balance_det _ _ _ _ _ E D), zIsTiny_0.
  split; [reflexivity|discriminate].
Qed.
Lemma mulinv_m_singular m a old : mdet m = 0 ->
  fst (zMulInvMat3DMat3D m a old) = true /\ forall x, snd (zMulInvMat3DMat3D m a old) <> Computed x.
Proof.
  intros D. unfold zMulInvMat3DMat3D.
  destruct (zMat3DBalance m) as [[[[rf mb] sr] sc]|] eqn:E; [|split; [reflexivity|discriminate]].
  unfold zMulInvMat3DMat3D0. zmat. rewrite (balance_det _ _ _ _ _ E D), zIsTiny_0.
  split; [reflexivity|discriminate].
Qed.

(** completeness: a well-conditioned matrix is inverted *)
Lemma balmax_spec v :
  (forall i, (i < 3)%nat -> ve v i <= zMat3DBalancingMax v) /\
  (exists i, (i < 3)%nat /\ zMat3DBalancingMax v = ve v i).
Proof.
  unfold zMat3DBalancingMax, zMat3DBalancingMinMaxIndex. destruct v as [x y z]. cbn [vx vy vz ve].
  destruct (Rltb_reflect y x) as [A|A]; cbn [ve vx vy vz];
  (match goal with |- context [Rltb ?a ?b] => destruct (Rltb_reflect a b) as [B|B] end);
  try (match goal with |- context [Rltb ?a ?b] => destruct (Rltb_reflect a b) as [C|C] end);
  cbn [fst snd ve vx vy vz];
  (split; [intros [|[|[|k]]] Hk; try lia; cbn [ve vx vy vz]; lra|]);
  first [exists 0%nat; split; [lia|reflexivity] | exists 1%nat; split; [lia|reflexivity] | exists 2%nat; split; [lia|reflexivity]].
Qed.
Lemma balmax_abs a b c l : Rabs a <= l -> Rabs b <= l -> Rabs c <= l ->
  let s := zMat3DBalancingMax (V3 (Rabs a) (Rabs b) (Rabs c)) in
  0 <= s <= l /\ Rabs a <= s /\ Rabs b <= s /\ Rabs c <= s /\ (s = 0 -> a = 0 /\ b = 0 /\ c = 0).
Proof.
  intros A B C s. destruct (balmax_spec (V3 (Rabs a) (Rabs b) (Rabs c))) as (M & (i & Hi & E)).
  fold s in M, E. pose proof (M 0%nat ltac:(lia)) as M0. pose proof (M 1%nat ltac:(lia)) as M1.
  pose proof (M 2%nat ltac:(lia)) as M2. cbn [ve vx vy vz] in *.
  pose proof (Rabs_pos a). pose proof (Rabs_pos b). pose proof (Rabs_pos c).
  repeat split; try lra.
  - destruct i as [|[|[|i]]]; cbn [ve vx vy vz] in E; lra || lia.
  - destruct (Req_dec a 0) as [?|N]; auto. apply Rabs_pos_lt in N. lra.
  - destruct (Req_dec b 0) as [?|N]; auto. apply Rabs_pos_lt in N. lra.
  - destruct (Req_dec c 0) as [?|N]; auto. apply Rabs_pos_lt in N. lra.
Qed.
Lemma entries_le9 m l : entries_le m l <->
  (Rabs (cxx m) <= l /\ Rabs (cxy m) <= l /\ Rabs (cxz m) <= l) /\
  (Rabs (cyx m) <= l /\ Rabs (cyy m) <= l /\ Rabs (cyz m) <= l) /\
  (Rabs (czx m) <= l /\ Rabs (czy m) <= l /\ Rabs (czz m) <= l).
Proof.
  split.
  - intros H. repeat split.
    + apply (H 0 0)%nat. + apply (H 1 0)%nat. + apply (H 2 0)%nat.
    + apply (H 0 1)%nat. + apply (H 1 1)%nat. + apply (H 2 1)%nat.
    + apply (H 0 2)%nat. + apply (H 1 2)%nat. + apply (H 2 2)%nat.
  - intros ((A & B & C) & (D & E & F) & (G & H & I)) r c.
    destruct c as [|[|c]], r as [|[|r]]; assumption.
Qed.
Definition vle (s : vec3) (l : R) : Prop :=
  (0 < vx s <= l) /\ (0 < vy s <= l) /\ (0 < vz s <= l).
Lemma rowscale_spec m l : entries_le m l -> mdet m <> 0 ->
  vle (zMat3DRowBalancingScale m) l /\ entries_le (zMat3DRowBalancing m (zMat3DRowBalancingScale m)) 1.
Proof.
  intros H D. apply entries_le9 in H. destruct H as ((A & B & C) & (E & F & G) & (I & J & K)).
  pose proof (balmax_abs _ _ _ _ A E I) as (H0 & L0 & L1 & L2 & Z0).
  pose proof (balmax_abs _ _ _ _ B F J) as (H1 & L3 & L4 & L5 & Z1).
  pose proof (balmax_abs _ _ _ _ C G K) as (H2 & L6 & L7 & L8 & Z2).
  unfold zMat3DRowBalancingScale, zMat3DRowBalancing. cbn [me ve zMat3DVec bx by_ bz vx vy vz].
  set (s0 := zMat3DBalancingMax (V3 (Rabs (cxx m)) _ _)) in *.
  set (s1 := zMat3DBalancingMax (V3 (Rabs (cxy m)) _ _)) in *.
  set (s2 := zMat3DBalancingMax (V3 (Rabs (cxz m)) _ _)) in *.
  assert (N0 : s0 <> 0).
  { intros W. apply Z0 in W. destruct W as (W1 & W2 & W3). apply D. spec_unfold. rewrite W1, W2, W3. ring. }
  assert (N1 : s1 <> 0).
  { intros W. apply Z1 in W. destruct W as (W1 & W2 & W3). apply D. spec_unfold. rewrite W1, W2, W3. ring. }
  assert (N2 : s2 <> 0).
  { intros W. apply Z2 in W. destruct W as (W1 & W2 & W3). apply D. spec_unfold. rewrite W1, W2, W3. ring. }
  assert (Q : forall a s, 0 < s -> Rabs a <= s -> Rabs (a / s) <= 1).
  { intros a s Hs Ha. unfold Rdiv. rewrite Rabs_mult, Rabs_inv, (Rabs_right s) by lra.
    apply (Rmult_le_reg_r s); [lra|]. rewrite Rmult_assoc, Rinv_l by lra. lra. }
  split; [unfold vle; pcbn; lra|]. apply entries_le9.
  unfold zMat3DCreate, of_b; pcbn. repeat split; apply Q; lra.
Qed.
Lemma colscale_spec m l : entries_le m l -> mdet m <> 0 ->
  vle (zMat3DColBalancingScale m) l /\ entries_le (zMat3DColBalancing m (zMat3DColBalancingScale m)) 1.
Proof.
  intros H D. apply entries_le9 in H. destruct H as ((A & B & C) & (E & F & G) & (I & J & K)).
  pose proof (balmax_abs _ _ _ _ A B C) as (H0 & L0 & L1 & L2 & Z0).
  pose proof (balmax_abs _ _ _ _ E F G) as (H1 & L3 & L4 & L5 & Z1).
  pose proof (balmax_abs _ _ _ _ I J K) as (H2 & L6 & L7 & L8 & Z2).
  unfold zMat3DColBalancingScale, zMat3DColBalancing. cbn [me ve zMat3DVec bx by_ bz vx vy vz].
  set (s0 := zMat3DBalancingMax (V3 (Rabs (cxx m)) _ _)) in *.
  set (s1 := zMat3DBalancingMax (V3 (Rabs (cyx m)) _ _)) in *.
  set (s2 := zMat3DBalancingMax (V3 (Rabs (czx m)) _ _)) in *.
  assert (N0 : s0 <> 0).
  { intros W. apply Z0 in W. destruct W as (W1 & W2 & W3). apply D. spec_unfold. rewrite W1, W2, W3. ring. }
  assert (N1 : s1 <> 0).
  { intros W. apply Z1 in W. destruct W as (W1 & W2 & W3). apply D. spec_unfold. rewrite W1, W2, W3. ring. }
  assert (N2 : s2 <> 0).
  { intros W. apply Z2 in W. destruct W as (W1 & W2 & W3). apply D. spec_unfold. rewrite W1, W2, W3. ring. }
  assert (Q : forall a s, 0 < s -> Rabs a <= s -> Rabs (a / s) <= 1).
  { intros a s Hs Ha. unfold Rdiv. rewrite Rabs_mult, Rabs_inv, (Rabs_right s) by lra.
    apply (Rmult_le_reg_r s); [lra|]. rewrite Rmult_assoc, Rinv_l by lra. lra. }
  split; [unfold vle; pcbn; lra|]. apply entries_le9.
  unfold zMat3DCreate, of_b; pcbn. repeat split; apply Q; lra.
Qed.
Lemma vle_nozero s l : vle s l -> nozero s.
Proof. intros (A & B & C). unfold nozero. lra. Qed.
Lemma vle_prod s l : vle s l -> 0 < vx s * vy s * vz s <= l * l * l.
Proof.
  intros ((A & A') & (B & B') & (C & C')). split.
  - apply Rmult_lt_0_compat; [apply Rmult_lt_0_compat|]; lra.
  - apply Rmult_le_compat; try lra; [apply Rmult_le_pos; lra|apply Rmult_le_compat; lra].
Qed.
Lemma mdet_vinv s : nozero s -> mdet (mdiag (vinv s)) * (vx s * vy s * vz s) = 1.
Proof. intros (A & B & C). rewrite mdet_mdiag. unfold vinv; pcbn. field; auto. Qed.
Lemma balance_some m l : entries_le m l -> mdet m <> 0 ->
  exists rf mb sr sc, zMat3DBalance m = Some (rf, mb, sr, sc) /\
    exists p, 0 < p <= l * l * l /\ mdet m = p * mdet mb.
Proof.
  intros H D. unfold zMat3DBalance.
  assert (K : forall sr sc, nozero sr -> nozero sc -> 0 < (vx sr * vy sr * vz sr) * (vx sc * vy sc * vz sc) <= l * l * l ->
     exists p, 0 < p <= l * l * l /\ mdet m = p * mdet (mmul (mdiag (vinv sr)) (mmul m (mdiag (vinv sc))))).
  { intros sr sc Hr Hc Hp. eexists; split; [exact Hp|]. rewrite !mdet_mmul.
    pose proof (mdet_vinv sr Hr) as E1. pose proof (mdet_vinv sc Hc) as E2.
    set (p := vx sr * vy sr * vz sr) in *. set (q := vx sc * vy sc * vz sc) in *.
    transitivity ((mdet (mdiag (vinv sr)) * p) * (mdet (mdiag (vinv sc)) * q) * mdet m); [rewrite E1, E2; ring|ring]. }
  destruct (ratio_lt _ _).
  - destruct (rowscale_spec m l H D) as (V & U). rewrite (proj2 (hasZero_false _) (vle_nozero _ _ V)).
    set (sr := zMat3DRowBalancingScale m) in *.
    assert (D' : mdet (zMat3DRowBalancing m sr) <> 0).
    { rewrite rowbal_spec, mdet_mmul. pose proof (mdet_vinv sr (vle_nozero _ _ V)).
      intros E. apply Rmult_integral in E. destruct E as [E|E]; [rewrite E in *; lra|auto]. }
    destruct (colscale_spec _ 1 U D') as (V' & _). rewrite (proj2 (hasZero_false _) (vle_nozero _ _ V')).
    set (sc := zMat3DColBalancingScale _) in *.
    do 4 eexists; split; [reflexivity|].
    rewrite colbal_spec, rowbal_spec, <- mmul_assoc.
    apply K; [eapply vle_nozero, V|eapply vle_nozero, V'|].
    pose proof (vle_prod _ _ V). pose proof (vle_prod _ _ V'). nra.
  - destruct (colscale_spec m l H D) as (V & U). rewrite (proj2 (hasZero_false _) (vle_nozero _ _ V)).
    set (sc := zMat3DColBalancingScale m) in *.
    assert (D' : mdet (zMat3DColBalancing m sc) <> 0).
    { rewrite colbal_spec, mdet_mmul. pose proof (mdet_vinv sc (vle_nozero _ _ V)).
      intros E. apply Rmult_integral in E. destruct E as [E|E]; [auto|rewrite E in *; lra]. }
    destruct (rowscale_spec _ 1 U D') as (V' & _). rewrite (proj2 (hasZero_false _) (vle_nozero _ _ V')).
    set (sr := zMat3DRowBalancingScale _) in *.
    do 4 eexists; split; [reflexivity|].
    rewrite rowbal_spec, colbal_spec.
    apply K; [eapply vle_nozero, V'|eapply vle_nozero, V|].
    pose proof (vle_prod _ _ V). pose proof (vle_prod _ _ V'). nra.
Qed.
Lemma wc_balance m : well_conditioned m ->
  exists rf mb sr sc, zMat3DBalance m = Some (rf, mb, sr, sc) /\ zIsTiny (mdet mb) = false.
Proof.
  intros (l & H & Hl & C). pose proof zTOL_pos.
  assert (L3 : 0 < l * l * l) by (apply Rmult_lt_0_compat; [apply Rmult_lt_0_compat|]; lra).
  assert (D : mdet m <> 0) by (intros E; rewrite E, Rabs_R0 in C; nra).
  destruct (balance_some m l H D) as (rf & mb & sr & sc & E & p & Hp & Ed).
  exists rf, mb, sr, sc. split; [exact E|]. apply zIsTiny_false.
  rewrite Ed, Rabs_mult, (Rabs_right p) in C by lra.
  pose proof (Rabs_pos (mdet mb)). apply (Rmult_le_reg_l (l * l * l)); [exact L3|]. nra.
Qed.
Lemma inv_complete m old : well_conditioned m ->
  exists im, zMat3DInv m old = (true, Computed im) /\ mmul m im = mid /\ mmul im m = mid.
Proof.
  intros H. destruct (wc_balance m H) as (rf & mb & sr & sc & E & T).
  assert (K : exists im, zMat3DInv m old = (true, Computed im)).
  { unfold zMat3DInv. rewrite E. unfold zMat3DInv0. zmat. rewrite T. eauto. }
  destruct K as [im K]. exists im. split; [exact K|]. eapply inv_sound, K.
Qed.
Lemma mulinv_v_complete m v old : well_conditioned m ->
  exists x, zMulInvMat3DVec3D m v old = (true, Computed x) /\ mvec m x = v /\ forall y, mvec m y = v -> y = x.
Proof.
  intros H. destruct (wc_balance m H) as (rf & mb & sr & sc & E & T).
  assert (K : exists x, zMulInvMat3DVec3D m v old = (true, Computed x)).
  { unfold zMulInvMat3DVec3D. rewrite E. unfold zMulInvMat3DVec3D0. zmat. rewrite T. eauto. }
  destruct K as [x K]. exists x. split; [exact K|]. pose proof (mulinv_v_sound _ _ _ _ _ K) as Hx.
  split; [exact Hx|]. intros y Hy. destruct (inv_complete m mid H) as (im & _ & _ & I).
  rewrite <- (mvec_id y), <- (mvec_id x), <- I, !mvec_mmul, Hx, Hy. reflexivity.
Qed.
Lemma mulinv_m_complete m a old : well_conditioned m ->
  exists x, zMulInvMat3DMat3D m a old = (true, Computed x) /\ mmul m x = a /\ forall y, mmul m y = a -> y = x.
Proof.
  intros H. destruct (wc_balance m H) as (rf & mb & sr & sc & E & T).
  assert (K : exists x, zMulInvMat3DMat3D m a old = (true, Computed x)).
  { unfold zMulInvMat3DMat3D. rewrite E. unfold zMulInvMat3DMat3D0. zmat. rewrite T. eauto. }
  destruct K as [x K]. exists x. split; [exact K|]. pose proof (mulinv_m_sound _ _ _ _ _ K) as Hx.
  split; [exact Hx|]. intros y Hy. destruct (inv_complete m mid H) as (im & _ & _ & I).
  rewrite <- (mmul_id_l y), <- (mmul_id_l x), <- I, <- !mmul_assoc, Hx, Hy. reflexivity.
Qed.
