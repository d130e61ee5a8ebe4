(** Proofs about the Jacobi eigenvalue iteration of zMat3DSymEig. *)
From Verif Require Export FactsMat.
Open Scope R_scope.

Definition pair_ok (i j : nat) : Prop := (i = 0 /\ j = 1)%nat \/ (i = 1 /\ j = 2)%nat \/ (i = 2 /\ j = 0)%nat.

Lemma symmetric_eqs m : symmetric m <-> cxy m = cyx m /\ cyz m = czy m /\ czx m = cxz m.
Proof.
  unfold symmetric. split.
  - intros H. minj H; intros. repeat split; lra.
  - intros (A & B & C). apply mat3_ext; spec_unfold; lra.
Qed.

(** the rotation parameters chosen by the code *)
Definition jt (p q a : R) : R :=
  let v := (1/2) * (q - p) / a in
  let ti := sqrt (v * v + 1) in
  - v + (if Rltb v 0 then ti else - ti).
Lemma jt_eq p q a : a <> 0 -> jt p q a * (q - p) = a * (1 - jt p q a * jt p q a).
Proof.
  intros Ha. unfold jt. cbv zeta. set (v := 1 / 2 * (q - p) / a).
  assert (Eq : q - p = 2 * v * a) by (unfold v; field; exact Ha). rewrite Eq.
  set (ti := sqrt (v * v + 1)). assert (S : ti * ti = v * v + 1) by (apply sqrt_sqr'; nra).
  assert (K : forall w, w * w = v * v + 1 -> (- v + w) * (2 * v * a) = a * (1 - (- v + w) * (- v + w))).
  { intros w Hw. transitivity (a * (1 - (w * w - 2 * v * w + v * v))); [rewrite Hw; ring|ring]. }
  destruct (Rltb v 0); apply K; [exact S|rewrite <- S; ring].
Qed.
Definition jc (t : R) : R := 1 / sqrt (t * t + 1).
Lemma jc_eq t : jc t * jc t * (1 + t * t) = 1.
Proof.
  unfold jc. assert (S : sqrt (t * t + 1) * sqrt (t * t + 1) = t * t + 1) by (apply sqrt_sqr'; nra).
  assert (P : 0 < sqrt (t * t + 1)) by (apply sqrt_pos_lt; nra).
  transitivity ((t * t + 1) / (sqrt (t * t + 1) * sqrt (t * t + 1))); [field; lra|].
  rewrite S. field. nra.
Qed.
(** scalar facts of one rotation *)
Lemma jrot_scalar p q a t c : c * c * (1 + t * t) = 1 -> t * (q - p) = a * (1 - t * t) ->
  let s := t * c in
  c * c + s * s = 1 /\
  c * c * p - 2 * c * s * a + s * s * q = p - t * a /\
  s * s * p + 2 * c * s * a + c * c * q = q + t * a /\
  c * s * p + (c * c - s * s) * a - c * s * q = 0.
Proof.
  intros Hc Ht s. unfold s.
  assert (H1 : c * c + t * c * (t * c) = 1) by lra.
  split; [exact H1|].
  assert (E : c * (t * c) * p + (c * c - t * c * (t * c)) * a - c * (t * c) * q = 0).
  { transitivity (c * c * (a * (1 - t * t) - t * (q - p))); [ring|rewrite Ht; ring]. }
  split; [|split; [|exact E]].
  - transitivity (p * (c * c + t * c * (t * c)) - t * a * (c * c * (1 + t * t))
       + t * (c * c) * (t * (q - p) - a * (1 - t * t))); [ring|]. rewrite H1, Hc, Ht. ring.
  - transitivity (q * (c * c + t * c * (t * c)) + t * a * (c * c * (1 + t * t))
       + t * (c * c) * (a * (1 - t * t) - t * (q - p))); [ring|]. rewrite H1, Hc, Ht. ring.
Qed.
(** plane rotation that the code applies from the right for the index pair *)
Definition jmat (i j : nat) (c s : R) : mat3 :=
  match i, j with
  | 0%nat, _ => rows3 c s 0 (- s) c 0 0 0 1
  | 1%nat, _ => rows3 1 0 0 0 c s 0 (- s) c
  | _, _ => rows3 c 0 (- s) 0 1 0 s 0 c
  end.
Lemma jmat_rotation i j c s : pair_ok i j -> c * c + s * s = 1 -> rotation (jmat i j c s).
Proof.
  intros [[-> ->]|[[-> ->]|[-> ->]]] H; (split; [apply mat3_ext|]); unfold jmat; spec_unfold; lra.
Qed.

Definition rotbody (m r : mat3) (i j : nat) (t c s : R) : mat3 * mat3 :=
    let tmp1 := t * me m j i in
    let m := mset m i j 0 in
    let m := mset m j i 0 in
    let m := mset m i i (me m i i - tmp1) in
    let m := mset m j j (me m j j + tmp1) in
    let body (st : mat3 * mat3) (k : nat) : mat3 * mat3 :=
      let '(m, r) := st in
      let tmp1 := me r i k in
      let tmp2 := me r j k in
      let r := mset r i k (c * tmp1 - s * tmp2) in
      let r := mset r j k (s * tmp1 + c * tmp2) in
      if (Nat.eqb k i || Nat.eqb k j)%bool then (m, r)
      else
        let tmp1 := me m k i in
        let tmp2 := me m k j in
        let m := mset m i k (c * tmp1 - s * tmp2) in
        let m := mset m k i (c * tmp1 - s * tmp2) in
        let m := mset m j k (s * tmp1 + c * tmp2) in
        let m := mset m k j (s * tmp1 + c * tmp2) in
        (m, r) in
    fold_left body [0; 1; 2]%nat (m, r).
Lemma symeigrot_body m r i j : zMat3DSymEigRot m r i j =
  if zIsTiny (me m j i) then (m, r)
  else rotbody m r i j (jt (me m i i) (me m j j) (me m j i)) (jc (jt (me m i i) (me m j j) (me m j i)))
    (jt (me m i i) (me m j j) (me m j i) * jc (jt (me m i i) (me m j j) (me m j i))).
Proof. reflexivity. Qed.

Ltac jred := lazy beta iota zeta delta [rotbody fold_left Nat.eqb orb jmat me mset ve vset zMat3DVec set_vec bx by_ bz of_b
    vx vy vz cxx cxy cxz cyx cyy cyz czx czy czz fst snd]; refold3g.

Lemma symeigrot_tiny m r i j : Rabs (me m j i) < zTOL -> zMat3DSymEigRot m r i j = (m, r).
Proof. intros H. unfold zMat3DSymEigRot. apply zIsTiny_true in H. rewrite H. reflexivity. Qed.

Lemma symeigrot_spec m r i j : pair_ok i j -> symmetric m -> zTOL <= Rabs (me m j i) ->
  exists J, rotation J /\
    snd (zMat3DSymEigRot m r i j) = mmul r J /\
    fst (zMat3DSymEigRot m r i j) = mmul (mtr J) (mmul m J) /\
    symmetric (fst (zMat3DSymEigRot m r i j)) /\
    me (fst (zMat3DSymEigRot m r i j)) j i = 0 /\
    offsq (fst (zMat3DSymEigRot m r i j)) = offsq m - me m j i * me m j i.
Proof.
  intros P S H. apply zIsTiny_false in H. pose proof (zIsTiny_false_neq _ H) as Ha.
  set (a := me m j i) in *. set (p := me m i i). set (q := me m j j).
  pose proof (jt_eq p q a Ha) as Ht. set (t := jt p q a) in *.
  pose proof (jc_eq t) as Hc. set (c := jc t) in *.
  destruct (jrot_scalar p q a t c Hc Ht) as (U & Ep & Eq & Eo). set (s := t * c) in *.
  apply symmetric_eqs in S.
  exists (jmat i j c s). split; [apply jmat_rotation; assumption|].
  assert (D : zMat3DSymEigRot m r i j =
    (mset (mset (mset (mset (mset (mset (mset (mset m i j 0) j i 0) i i (p - t * a)) j j (q + t * a))
        i (3 - i - j) (c * me m (3 - i - j) i - s * me m (3 - i - j) j))
        (3 - i - j) i (c * me m (3 - i - j) i - s * me m (3 - i - j) j))
        j (3 - i - j) (s * me m (3 - i - j) i + c * me m (3 - i - j) j))
        (3 - i - j) j (s * me m (3 - i - j) i + c * me m (3 - i - j) j), mmul r (jmat i j c s))).
  { rewrite symeigrot_body. fold a. rewrite H. fold p q. fold t. fold c. fold s. clearbody t c s.
    destruct P as [[-> ->]|[[-> ->]|[-> ->]]];
    apply injective_projections; apply mat3_ext; unfold p, q, a;
    cbv beta iota delta [Nat.sub]; unfold mmul, mvec; jred; spec_unfold_g; ring. }
  rewrite D. cbn [fst snd]. clear D. split; [reflexivity|].
  destruct S as (S1 & S2 & S3).
  destruct P as [[-> ->]|[[-> ->]|[-> ->]]]; cbv beta iota delta [Nat.sub];
  unfold a, p, q in Ep, Eq, Eo; unfold a, p, q;
  lazy beta iota zeta delta [me ve zMat3DVec bx by_ bz vx vy vz] in Ep, Eq, Eo; refold3.
  - split; [apply mat3_ext; unfold mtr, mmul, mvec; jred; spec_unfold_g; nra|].
    split; [apply symmetric_eqs; jred; repeat split; lra|].
    split; [jred; reflexivity|unfold offsq; jred; nra].
  - split; [apply mat3_ext; unfold mtr, mmul, mvec; jred; spec_unfold_g; nra|].
    split; [apply symmetric_eqs; jred; repeat split; lra|].
    split; [jred; reflexivity|unfold offsq; jred; nra].
  - split; [apply mat3_ext; unfold mtr, mmul, mvec; jred; spec_unfold_g; nra|].
    split; [apply symmetric_eqs; jred; repeat split; lra|].
    split; [jred; reflexivity|unfold offsq; jred; nra].
Qed.

(** ** the loop *)
Definition jinv (m : mat3) (st : jstate) : Prop :=
  symmetric (jl st) /\ rotation (jb st) /\ mmul m (jb st) = mmul (jb st) (jl st) /\ pair_ok (ji st) (jj st).
Definition pivot (st : jstate) : R := me (jl st) (jj st) (ji st).
Definition pmax (st : jstate) : Prop :=
  Rabs (cxy (jl st)) <= Rabs (pivot st) /\ Rabs (cyz (jl st)) <= Rabs (pivot st) /\ Rabs (czx (jl st)) <= Rabs (pivot st).

Lemma step_spec m st st' stop : jinv m st -> zMat3DSymEigStep st = (st', stop) ->
  jinv m st' /\ offsq (jl st') <= offsq (jl st) /\
  (zTOL <= Rabs (pivot st) -> offsq (jl st') = offsq (jl st) - pivot st * pivot st) /\
  (stop = true -> offs_lt (jl st') zTOL) /\
  (stop = false -> zTOL <= Rabs (pivot st') /\ pmax st').
Proof.
  intros (Hs & Hr & Hm & Hp) E. unfold zMat3DSymEigStep in E.
  assert (K : exists l b, zMat3DSymEigRot (jl st) (jb st) (ji st) (jj st) = (l, b) /\
     symmetric l /\ rotation b /\ mmul m b = mmul b l /\ Rabs (me l (jj st) (ji st)) < zTOL /\
     offsq l <= offsq (jl st) /\ (zTOL <= Rabs (pivot st) -> offsq l = offsq (jl st) - pivot st * pivot st)).
  { destruct (Rle_or_lt zTOL (Rabs (me (jl st) (jj st) (ji st)))) as [L|L].
    - destruct (symeigrot_spec (jl st) (jb st) _ _ Hp Hs L) as (J & HJ & E1 & E2 & E3 & E4 & E5).
      destruct (zMat3DSymEigRot (jl st) (jb st) (ji st) (jj st)) as [l b]. cbn [fst snd] in *.
      exists l, b. split; [reflexivity|]. split; [exact E3|].
      split; [subst b; apply rotation_mmul; assumption|]. split.
      { subst l b. rewrite mmul_assoc, Hm, <- !mmul_assoc, (mmul_assoc J), (rotation_tr_r J HJ), mmul_id_l. reflexivity. }
      split; [rewrite E4, Rabs_R0; apply zTOL_pos|]. split; [rewrite E5; nra|]. intros _. exact E5.
    - rewrite symeigrot_tiny by exact L. exists (jl st), (jb st). split; [reflexivity|].
      repeat (split; [first [assumption|lra]|]). unfold pivot. lra. }
  destruct K as (l & b & Er & Hs' & Hr' & Hm' & Hz & Ho & Ho'). rewrite Er in E.
  pose proof (proj1 (symmetric_eqs l) Hs') as (S1 & S2 & S3).
  set (i := ji st) in *. set (j := jj st) in *.
  destruct Hp as [[Ei Ej]|[[Ei Ej]|[Ei Ej]]]; rewrite Ei, Ej in E, Hz;
  cbv beta iota zeta delta [Nat.modulo Nat.divmod Nat.add Nat.sub fst snd] in E;
  lazy beta iota zeta delta [me ve zMat3DVec bx by_ bz vx vy vz] in E, Hz; refold3;
  (match type of E with context [Rltb ?x ?y] => destruct (Rltb_reflect x y) as [C|C] end;
   cbv beta iota in E;
   lazy beta iota zeta delta [me ve zMat3DVec bx by_ bz vx vy vz] in E; refold3;
   injection E as <- <-;
   (split; [split; [exact Hs'|split; [exact Hr'|split; [exact Hm'|unfold pair_ok; cbn; tauto]]]|]);
   cbn [jl]; (split; [exact Ho|]); (split; [exact Ho'|]);
   (split; [intros T; apply zIsTiny_true in T; unfold offs_lt; rewrite ?S1, ?S2, <- ?S3 in *; repeat split; lra
           |intros T; apply zIsTiny_false in T; unfold pmax, pivot; cbn [ji jj jl];
            lazy beta iota zeta delta [me ve zMat3DVec bx by_ bz vx vy vz]; refold3g;
            rewrite ?S1, ?S2, <- ?S3 in *; repeat split; lra])).
Qed.

Lemma loop_inv m fuel : forall st st', jinv m st -> zMat3DSymEigLoop fuel st = Some st' ->
  jinv m st' /\ offs_lt (jl st') zTOL.
Proof.
  induction fuel as [|f IH]; intros st st' H E; [discriminate|]. cbn [zMat3DSymEigLoop] in E.
  destruct (zMat3DSymEigStep st) as [st1 stop] eqn:Es.
  destruct (step_spec m st st1 stop H Es) as (H1 & _ & _ & Hst & _).
  destruct stop; [injection E as <-; auto|]. eapply IH; eauto.
Qed.
Lemma pmax_offsq st : pmax st -> offsq (jl st) <= 3 * (pivot st * pivot st).
Proof.
  intros (A & B & C). unfold offsq.
  assert (Q : forall x y, Rabs x <= Rabs y -> x * x <= y * y).
  { intros x y Hxy. rewrite <- (Rabs_sqr x), <- (Rabs_sqr y). pose proof (Rabs_pos x). nra. }
  apply Q in A, B, C. lra.
Qed.
Lemma pivot_offsq m st : jinv m st -> pivot st * pivot st <= offsq (jl st).
Proof.
  intros (Hs & _ & _ & Hp). apply symmetric_eqs in Hs. destruct Hs as (S1 & S2 & S3).
  unfold pivot, offsq. rewrite S1, S2, S3.
  pose proof (sqr_nonneg (cyx (jl st))). pose proof (sqr_nonneg (czy (jl st))). pose proof (sqr_nonneg (cxz (jl st))).
  destruct Hp as [[-> ->]|[[-> ->]|[-> ->]]];
  lazy beta iota zeta delta [me ve zMat3DVec bx by_ bz vx vy vz]; refold3g; lra.
Qed.
Lemma loop_term m n : forall st, jinv m st -> zTOL <= Rabs (pivot st) -> pmax st ->
  offsq (jl st) * (2/3) ^ n < zTOL * zTOL -> exists st', zMat3DSymEigLoop (S n) st = Some st'.
Proof.
  induction n as [|n IH]; intros st H T P L.
  - exfalso. pose proof (pivot_offsq m st H). rewrite <- (Rabs_sqr (pivot st)) in H0.
    pose proof zTOL_pos. cbn [pow] in L. nra.
  - remember (S n) as k. cbn [zMat3DSymEigLoop]. subst k.
    destruct (zMat3DSymEigStep st) as [st1 stop] eqn:Es.
    destruct (step_spec m st st1 stop H Es) as (H1 & _ & Ho & _ & Hc). destruct stop; [eauto|].
    destruct (Hc eq_refl) as (T1 & P1). apply IH; auto.
    pose proof (pmax_offsq st P). rewrite (Ho T).
    assert (0 < (2/3)^n) by (apply pow_lt; lra).
    eapply Rle_lt_trans; [|exact L]. cbn [pow].
    apply Rle_trans with (2 / 3 * offsq (jl st) * (2/3)^n); [apply Rmult_le_compat_r; lra|right; ring].
Qed.
Lemma jinv_init m : symmetric m -> jinv m (JS m ZMAT3DIDENT 0 1).
Proof.
  intros H. split; [exact H|]. split; [apply rotation_mid|]. split; [|left; auto].
  cbn [jb jl]. rewrite zident_spec, mmul_id_l, mmul_id_r. reflexivity.
Qed.
(** termination with an explicit number of iterations *)
Lemma symeig_terminates m n : symmetric m -> offsq m * (2/3) ^ n < zTOL * zTOL ->
  exists r, zMat3DSymEig (S (S n)) m = Some r.
Proof.
  intros H L. pose proof (jinv_init m H) as I0.
  assert (K : exists st, zMat3DSymEigLoop (S (S n)) (JS m ZMAT3DIDENT 0 1) = Some st).
  { remember (S n) as k. cbn [zMat3DSymEigLoop]. subst k.
    destruct (zMat3DSymEigStep _) as [st1 stop] eqn:Es.
    destruct (step_spec m _ st1 stop I0 Es) as (H1 & Hle & _ & _ & Hc). destruct stop; [eauto|].
    destruct (Hc eq_refl) as (T1 & P1). eapply loop_term; eauto. cbn [jl] in Hle.
    assert (0 < (2/3)^n) by (apply pow_lt; lra). eapply Rle_lt_trans; [|exact L].
    apply Rmult_le_compat_r; lra. }
  destruct K as [st K]. unfold zMat3DSymEig. rewrite K. eauto.
Qed.
Lemma symeig_terminates_ex m : symmetric m -> exists n r, zMat3DSymEig n m = Some r.
Proof.
  intros H. pose proof zTOL_pos as Ht. 
  assert (Ho : 0 <= offsq m) by (unfold offsq; nra).
  destruct (pow_lt_1_zero (2/3)) with (y := zTOL * zTOL / (offsq m + 1)) as (N & HN).
  - rewrite Rabs_right; lra.
  - apply Rdiv_lt_0_compat; nra.
  - exists (S (S N)). apply symeig_terminates; [exact H|]. pose proof (HN N (le_n N)) as K.
    assert (P : 0 < (2/3)^N) by (apply pow_lt; lra). rewrite Rabs_right in K by lra.
    apply (Rmult_lt_compat_l (offsq m + 1)) in K; [|lra].
    replace ((offsq m + 1) * (zTOL * zTOL / (offsq m + 1))) with (zTOL * zTOL) in K by (field; lra). nra.
Qed.
Lemma symeig_spec fuel m val base : symmetric m -> zMat3DSymEig fuel m = Some (val, base) ->
  rotation base /\ exists d, symmetric d /\ mmul m base = mmul base d /\ m = mmul base (mmul d (mtr base)) /\
    val = V3 (cxx d) (cyy d) (czz d) /\ offs_lt d zTOL.
Proof.
  intros H E. unfold zMat3DSymEig in E.
  destruct (zMat3DSymEigLoop fuel _) as [st|] eqn:L; [|discriminate]. injection E as <- <-.
  destruct (loop_inv m fuel _ _ (jinv_init m H) L) as ((Hs & Hr & Hm & _) & Ho).
  split; [exact Hr|]. exists (jl st). split; [exact Hs|]. split; [exact Hm|]. split; [|split; [reflexivity|exact Ho]].
  rewrite mmul_assoc, <- Hm, <- mmul_assoc, (rotation_tr_r _ Hr), mmul_id_r. reflexivity.
Qed.
(** eigenvalue residuals *)
Lemma sum_sqr_lt a b e : 0 < e -> Rabs a < e -> Rabs b < e -> sqrt (a * a + b * b) < 2 * e.
Proof.
  intros He A B. pose proof (Rabs_sqr a). pose proof (Rabs_sqr b). pose proof (Rabs_pos a). pose proof (Rabs_pos b).
  rewrite <- (sqrt_unique ((2*e)*(2*e)) (2*e)) by lra. apply sqrt_lt_1; nra.
Qed.
Lemma symeig_residual fuel m val base : symmetric m -> zMat3DSymEig fuel m = Some (val, base) ->
  norm (vsub (mvec m (col0 base)) (vscale (vx val) (col0 base))) < 2 * zTOL /\
  norm (vsub (mvec m (col1 base)) (vscale (vy val) (col1 base))) < 2 * zTOL /\
  norm (vsub (mvec m (col2 base)) (vscale (vz val) (col2 base))) < 2 * zTOL.
Proof.
  intros H E. destruct (symeig_spec _ _ _ _ H E) as (Hr & d & Hs & Hm & _ & -> & (O1 & O2 & O3)).
  apply symmetric_eqs in Hs. destruct Hs as (S1 & S2 & S3). pose proof zTOL_pos as Ht. pcbn.
  assert (C0 : mvec m (col0 base) = mvec base (col0 d)).
  { change (col0 (mmul m base) = col0 (mmul base d)). rewrite Hm; reflexivity. }
  assert (C1 : mvec m (col1 base) = mvec base (col1 d)).
  { change (col1 (mmul m base) = col1 (mmul base d)). rewrite Hm; reflexivity. }
  assert (C2 : mvec m (col2 base) = mvec base (col2 d)).
  { change (col2 (mmul m base) = col2 (mmul base d)). rewrite Hm; reflexivity. }
  rewrite C0, C1, C2.
  replace (vsub (mvec base (col0 d)) (vscale (cxx d) (col0 base))) with (mvec base (V3 0 (cxy d) (cxz d))) by vring.
  replace (vsub (mvec base (col1 d)) (vscale (cyy d) (col1 base))) with (mvec base (V3 (cyx d) 0 (cyz d))) by vring.
  replace (vsub (mvec base (col2 d)) (vscale (czz d) (col2 base))) with (mvec base (V3 (czx d) (czy d) 0)) by vring.
  rewrite !rotation_norm by exact Hr. unfold norm, dot; pcbn.
  rewrite <- S1, <- S2, <- S3. repeat split.
  - replace (0 * 0 + cxy d * cxy d + czx d * czx d) with (cxy d * cxy d + czx d * czx d) by ring. apply sum_sqr_lt; assumption.
  - replace (cxy d * cxy d + 0 * 0 + cyz d * cyz d) with (cxy d * cxy d + cyz d * cyz d) by ring. apply sum_sqr_lt; assumption.
  - replace (czx d * czx d + cyz d * cyz d + 0 * 0) with (czx d * czx d + cyz d * cyz d) by ring. apply sum_sqr_lt; assumption.
Qed.

(** the eigenvector reported for the least eigenvalue *)
Lemma quad_lower l d1 d2 d3 a b c e x y z : 0 < e -> l <= d1 -> l <= d2 -> l <= d3 ->
  Rabs a < e -> Rabs b < e -> Rabs c < e ->
  (l - 2 * e) * (x * x + y * y + z * z) <=
  d1 * (x * x) + d2 * (y * y) + d3 * (z * z) + 2 * (a * (x * y)) + 2 * (b * (y * z)) + 2 * (c * (z * x)).
Proof.
  intros He H1 H2 H3 A B C.
  assert (P : forall a u v, Rabs a < e -> - (e * (u * u + v * v)) <= 2 * (a * (u * v))).
  { intros a0 u v Ha. apply Rabs_def2 in Ha. destruct Ha as [U L].
    destruct (Rle_dec 0 (u * v)); [pose proof (Rle_0_sqr (u - v)) as Q | pose proof (Rle_0_sqr (u + v)) as Q]; unfold Rsqr in Q; nra. }
  pose proof (P a x y A). pose proof (P b y z B). pose proof (P c z x C).
  assert (l * (x * x) <= d1 * (x * x)) by (apply Rmult_le_compat_r; [nra | lra]).
  assert (l * (y * y) <= d2 * (y * y)) by (apply Rmult_le_compat_r; [nra | lra]).
  assert (l * (z * z) <= d3 * (z * z)) by (apply Rmult_le_compat_r; [nra | lra]).
  nra.
Qed.
Lemma symeigmin_ok fuel m v : symmetric m -> zMat3DSymEigMin fuel m = Some v ->
  norm v = 1 /\
  exists lam, norm (vsub (mvec m v) (vscale lam v)) < 2 * zTOL /\
    forall x, (lam - 2 * zTOL) * dot x x <= dot x (mvec m x).
Proof.
  intros H E. unfold zMat3DSymEigMin in E. destruct (zMat3DSymEig fuel m) as [[val base]|] eqn:Q; [|discriminate].
  injection E as <-.
  destruct (symeig_residual _ _ _ _ H Q) as (R0 & R1 & R2).
  destruct (symeig_spec _ _ _ _ H Q) as (Hr & d & Hs & Hm & Hm2 & -> & (O1 & O2 & O3)).
  assert (L : forall lam, lam <= cxx d -> lam <= cyy d -> lam <= czz d ->
     forall x, (lam - 2 * zTOL) * dot x x <= dot x (mvec m x)).
  { intros lam A B C x. set (y := mvec (mtr base) x).
    assert (Y : dot y y = dot x x).
    { unfold y. destruct Hr as [Ho _]. assert (K : mvec base (mvec (mtr base) x) = x).
      { rewrite <- mvec_mmul. replace (mmul base (mtr base)) with mid. vring. symmetry. apply left_inv_right. exact Ho. }
      transitivity (dot x (mvec base (mvec (mtr base) x))); [clear; spec_unfold; ring | rewrite K; reflexivity]. }
    assert (X : dot x (mvec m x) = dot y (mvec d y)).
    { rewrite Hm2, !mvec_mmul. fold y. unfold y at 2. generalize (mvec d y). intros w. clear. spec_unfold; ring. }
    rewrite X, <- Y. apply symmetric_eqs in Hs. destruct Hs as (S1 & S2 & S3). pose proof zTOL_pos.
    pose proof (quad_lower lam (cxx d) (cyy d) (czz d) _ _ _ zTOL (vx y) (vy y) (vz y) ltac:(lra) A B C O1 O2 O3) as P.
    clear - P S1 S2 S3. clearbody y. destruct d as [a1 a2 a3 b1 b2 b3 c1 c2 c3]; destruct y as [y1 y2 y3].
    spec_unfold. cbn in *. subst. nra. }
  assert (U : norm (col0 base) = 1 /\ norm (col1 base) = 1 /\ norm (col2 base) = 1).
  { destruct Hr as [Ho _]. unfold norm. 
    assert (dot (col0 base) (col0 base) = 1 /\ dot (col1 base) (col1 base) = 1 /\ dot (col2 base) (col2 base) = 1) as (a & b & c).
    { pose proof (f_equal cxx Ho) as A. pose proof (f_equal cyy Ho) as B. pose proof (f_equal czz Ho) as C.
      clear - A B C. spec_unfold. cbn in *. repeat split; lra. }
    rewrite a, b, c. rewrite sqrt_1. auto. }
  destruct U as (U0 & U1 & U2). unfold zMat3DEigMinID; pcbn.
  destruct (Rltb_reflect (cxx d) (cyy d)); [destruct (Rltb_reflect (cxx d) (czz d)) | destruct (Rltb_reflect (cyy d) (czz d))].
  - split; [exact U0|]. exists (cxx d). split; [exact R0|]. apply L; lra.
  - split; [exact U2|]. exists (czz d). split; [exact R2|]. apply L; lra.
  - split; [exact U1|]. exists (cyy d). split; [exact R1|]. apply L; lra.
  - split; [exact U2|]. exists (czz d). split; [exact R2|]. apply L; lra.
Qed.
