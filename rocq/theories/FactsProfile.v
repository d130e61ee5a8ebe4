(** Proofs about the identification of a transformation from two lists of points. *)
From Verif Require Import Base Spec SpecGeom SpecData SpecPCA SpecBox SpecProfile ModelVec ModelMat ModelFrame ModelElem ModelData ModelPCA ModelProfile FactsVec FactsAlg FactsMat FactsEig FactsObb FactsData FactsData2 FactsPCA FactsSvd.
From Coq Require Import Lia Lra.
Open Scope R_scope.

(** ** sums over pairs *)
Lemma psum_ext f g l : (forall p q, List.In (p, q) l -> f p q = g p q) -> psum f l = psum g l.
Proof. induction l as [|[p q] l IH]; intros H; [reflexivity|]. unfold psum in *. cbn [fold_right fst snd]. rewrite IH by (intros; apply H; right; assumption). rewrite (H p q) by (left; reflexivity). reflexivity. Qed.
Lemma psum_add f g l : psum (fun p q => f p q + g p q) l = psum f l + psum g l.
Proof. induction l as [|pq l IH]; unfold psum in *; cbn [fold_right]; [ring|]. rewrite IH. ring. Qed.
Lemma psum_scale k f l : psum (fun p q => k * f p q) l = k * psum f l.
Proof. induction l as [|pq l IH]; unfold psum in *; cbn [fold_right]; [ring|]. rewrite IH. ring. Qed.
Lemma pmean_ext f g l1 l2 : (forall p q, List.In (p, q) (combine l1 l2) -> f p q = g p q) -> pmean f l1 l2 = pmean g l1 l2.
Proof. intros H. unfold pmean. rewrite (psum_ext f g) by exact H. reflexivity. Qed.
Lemma pmean_add f g l1 l2 : pmean (fun p q => f p q + g p q) l1 l2 = pmean f l1 l2 + pmean g l1 l2.
Proof. unfold pmean. rewrite psum_add. unfold Rdiv. ring. Qed.
Lemma pmean_scale k f l1 l2 : pmean (fun p q => k * f p q) l1 l2 = k * pmean f l1 l2.
Proof. unfold pmean. rewrite psum_scale. unfold Rdiv. ring. Qed.
Lemma psum_fst f l1 : forall l2, length l1 = length l2 -> psum (fun p _ => f p) (combine l1 l2) = rsum f l1.
Proof. induction l1 as [|a l1 IH]; intros [|b l2] L; try discriminate; [reflexivity|]. unfold psum, rsum in *. cbn [combine fold_right fst snd]. rewrite IH by (injection L; auto). reflexivity. Qed.
Lemma psum_snd f l1 : forall l2, length l1 = length l2 -> psum (fun _ q => f q) (combine l1 l2) = rsum f l2.
Proof. induction l1 as [|a l1 IH]; intros [|b l2] L; try discriminate; [reflexivity|]. unfold psum, rsum in *. cbn [combine fold_right fst snd]. rewrite IH by (injection L; auto). reflexivity. Qed.
Lemma pmean_fst f l1 l2 : length l1 = length l2 -> pmean (fun p _ => f p) l1 l2 = mean f l1.
Proof. intros L. unfold pmean, mean. rewrite psum_fst by exact L. reflexivity. Qed.
Lemma pmean_snd f l1 l2 : length l1 = length l2 -> pmean (fun _ q => f q) l1 l2 = mean f l2.
Proof. intros L. unfold pmean, mean. rewrite psum_snd, L by exact L. reflexivity. Qed.
(** ** the cross covariance *)
Definition xcov (l1 l2 : list vec3) : mat3 :=
  let e := fun f g => pmean (fun p q => f (vsub p (vmean l1)) * g (vsub q (vmean l2))) l1 l2 in
  M3 (e vx vx) (e vy vx) (e vz vx) (e vx vy) (e vy vy) (e vz vy) (e vx vz) (e vy vz) (e vz vz).
Lemma xcov_quad l1 l2 x y : dot x (mvec (xcov l1 l2) y) = pmean (fun p q => dot (vsub p (vmean l1)) x * dot (vsub q (vmean l2)) y) l1 l2.
Proof.
  transitivity (vx x * vx y * pmean (fun p q => vx (vsub p (vmean l1)) * vx (vsub q (vmean l2))) l1 l2 + vx x * vy y * pmean (fun p q => vx (vsub p (vmean l1)) * vy (vsub q (vmean l2))) l1 l2 + vx x * vz y * pmean (fun p q => vx (vsub p (vmean l1)) * vz (vsub q (vmean l2))) l1 l2
    + vy x * vx y * pmean (fun p q => vy (vsub p (vmean l1)) * vx (vsub q (vmean l2))) l1 l2 + vy x * vy y * pmean (fun p q => vy (vsub p (vmean l1)) * vy (vsub q (vmean l2))) l1 l2 + vy x * vz y * pmean (fun p q => vy (vsub p (vmean l1)) * vz (vsub q (vmean l2))) l1 l2
    + vz x * vx y * pmean (fun p q => vz (vsub p (vmean l1)) * vx (vsub q (vmean l2))) l1 l2 + vz x * vy y * pmean (fun p q => vz (vsub p (vmean l1)) * vy (vsub q (vmean l2))) l1 l2 + vz x * vz y * pmean (fun p q => vz (vsub p (vmean l1)) * vz (vsub q (vmean l2))) l1 l2).
  - unfold xcov. cbv zeta. unfold mvec, dot, row0, row1, row2. cbn [cxx cxy cxz cyx cyy cyz czx czy czz vx vy vz]. ring.
  - rewrite <- !pmean_scale, <- !pmean_add. apply pmean_ext. intros p q _. unfold dot. ring.
Qed.
Lemma ident_fold g1 g2 l1 : forall l2 so m, length l1 = length l2 ->
  fold_left (fun s pq => ident_body g1 g2 s (fst pq) (snd pq)) (combine l1 l2) (so, m) =
  (so + rsum (fun p => dist p g1 * dist p g1) l1,
   let e := fun f g => psum (fun p q => f (vsub p g1) * g (vsub q g2)) (combine l1 l2) in
   M3 (cxx m + e vx vx) (cxy m + e vy vx) (cxz m + e vz vx) (cyx m + e vx vy) (cyy m + e vy vy) (cyz m + e vz vy) (czx m + e vx vz) (czy m + e vy vz) (czz m + e vz vz)).
Proof.
  induction l1 as [|a l1 IH]; intros [|b l2] so m L; try discriminate.
  - cbn. f_equal; [ring|]. apply mat3_ext2; cbn [cxx cxy cxz cyx cyy cyz czx czy czz]; ring.
  - cbn [combine fold_left]. unfold ident_body at 2. cbn [fst snd]. rewrite IH by (injection L; auto). f_equal.
    + unfold rsum. cbn [fold_right]. replace (zVec3DSqrNorm (zVec3DSub a g1)) with (dist a g1 * dist a g1) by (unfold dist; rewrite norm_sqr; unfold zVec3DSqrNorm, zVec3DInnerProd, zVec3DSub; spec_unfold; cbn [vx vy vz]; ring). ring.
    + cbv zeta. apply mat3_ext2; unfold zMat3DAddDyad, zVec3DCat, zVec3DSub, of_b, bx, by_, bz, vsub, psum; cbn [cxx cxy cxz cyx cyy cyz czx czy czz vx vy vz fold_right fst snd]; ring.
Qed.
Lemma while2_spec {T} (body : T -> vec3 -> vec3 -> T) fuel : forall d1 d2 s, wf d1 -> wf d2 -> (length (rest d1) < fuel)%nat -> length (rest d1) = length (rest d2) ->
  exists d1' d2', while_fetch2 fuel d1 d2 s body = Some (d1', d2', fold_left (fun s pq => body s (fst pq) (snd pq)) (combine (rest d1) (rest d2)) s) /\
    wf d1' /\ contents d1' = contents d1 /\ wf d2' /\ contents d2' = contents d2.
Proof.
  induction fuel as [|k IH]; intros d1 d2 s W1 W2 L LL; [lia|]. cbn [while_fetch2]. destruct (fetch_spec d1 W1) as (V1 & X1 & C1 & P1 & _). destruct (fetch_spec d2 W2) as (V2 & X2 & C2 & P2 & _).
  destruct (zVecXDDataFetch d1) as [e1 p1]. destruct (zVecXDDataFetch d2) as [e2 p2]. cbn [fst snd] in *. pose proof (place_ok d1 W1) as K1. pose proof (place_ok d2 W2) as K2.
  assert (RR : forall (d e : data vec3) i, contents e = contents d -> place e = advance (contents d) (Some i) -> rest e = skipn (Datatypes.S i) (contents d)).
  { intros d e i CC PP. unfold rest. rewrite PP, CC. cbn [advance]. destruct (Nat.ltb (Datatypes.S i) (length (contents d))) eqn:Q; [reflexivity|]. apply Nat.ltb_ge in Q. cbn [after]. symmetry. apply skipn_all2. exact Q. }
  unfold rest in L, LL |- *. destruct (place d1) as [i|] eqn:Q1; cbn [cur after] in *.
  - destruct (skipn_cons _ _ K1) as (v & E1 & F1). rewrite V1, E1, F1 in *. destruct (place d2) as [j|] eqn:Q2; cbn [cur after] in *; [|cbn in LL; lia].
    destruct (skipn_cons _ _ K2) as (w & E2 & F2). rewrite V2, E2, F2 in *. cbn [combine fold_left fst snd]. cbn [length] in L, LL.
    pose proof (RR d1 e1 i C1 P1) as R1. pose proof (RR d2 e2 j C2 P2) as R2.
    destruct (IH e1 e2 (body s v w) X1 X2) as (d1' & d2' & H & H1 & H2 & H3 & H4); [rewrite R1; lia|rewrite R1, R2; lia|].
    exists d1', d2'. rewrite H, R1, R2. repeat split; auto; congruence.
  - rewrite V1. exists e1, d2. repeat split; auto.
Qed.
Definition holds (d : data vec3) (l : list vec3) : Prop := user_data d /\ exists d', zVecXDDataToAddrList d = Some (d', l).
Lemma ident_null fuel src dest l1 l2 : holds src l1 -> holds dest l2 -> length l1 <> length l2 \/ (length l1 < 3)%nat -> zVec3DDataIdentFrame fuel src dest = Some (src, dest, INull).
Proof.
  intros [U1 D1] [U2 D2] H. destruct (data_of _ _ U1 D1) as [W1 C1]. destruct (data_of _ _ U2 D2) as [W2 C2]. unfold zVec3DDataIdentFrame. rewrite !size_spec, C1, C2 by assumption.
  destruct (Nat.eqb (length l1) (length l2)) eqn:E; [|reflexivity]. cbn [negb]. apply Nat.eqb_eq in E. destruct H as [H|H]; [congruence|].
  unfold IDENT_FRAME_MINSIZ. rewrite (proj2 (Nat.ltb_lt _ _) H). reflexivity.
Qed.
Definition identified_by (l1 l2 : list vec3) (u : mat3) (sv : vec3) (v : mat3) : identified :=
  if Reqb (scatter l1) 0 then INaN (attm v u)
  else IFrame (F3 (vsub (vmean l2) (vscale ((vx sv + vy sv + vz sv) / scatter l1) (mvec (attm v u) (vmean l1)))) (attm v u)).
Lemma ident_run fuel src dest l1 l2 : holds src l1 -> holds dest l2 -> length l1 = length l2 -> (3 <= length l1)%nat ->
  exists src' dest', contents src' = l1 /\ contents dest' = l2 /\ wf src' /\ wf dest' /\
  zVec3DDataIdentFrame fuel src dest = match zMat3DSVD fuel (xcov l1 l2) with None => None | Some (_, u, sv, v) => Some (src', dest', identified_by l1 l2 u sv v) end.
Proof.
  intros [U1 D1] [U2 D2] L N. destruct (data_of _ _ U1 D1) as [W1 C1]. destruct (data_of _ _ U2 D2) as [W2 C2]. unfold zVec3DDataIdentFrame. rewrite !size_spec, C1, C2 by assumption.
  rewrite L, Nat.eqb_refl. cbn [negb]. rewrite (proj2 (Nat.ltb_ge _ _)) by (unfold IDENT_FRAME_MINSIZ; lia).
  assert (NE1 : l1 <> []) by (intros ->; cbn in N; lia). assert (NE2 : l2 <> []) by (intros ->; cbn in L; lia). pose proof (len_pos l1 NE1) as LP.
  destruct (bary_eq src l1 U1 D1 NE1) as (s1 & -> & X1 & Y1). destruct (bary_eq dest l2 U2 D2 NE2) as (s2 & -> & X2 & Y2).
  destruct (rewind_spec s1 X1) as (A1 & A2 & A3 & _). destruct (rewind_spec s2 X2) as (B1 & B2 & B3 & _).
  assert (R1 : rest (zVecXDDataRewind s1) = l1) by (unfold rest; rewrite A2, A3, first_after; exact Y1). assert (R2 : rest (zVecXDDataRewind s2) = l2) by (unfold rest; rewrite B2, B3, first_after; exact Y2).
  destruct (while2_spec (ident_body (vmean l1) (vmean l2)) (fuel_of s1) _ _ (0, ZMAT3DZERO) A1 B1) as (t1 & t2 & H & H1 & H2 & H3 & H4).
  - rewrite R1. unfold fuel_of. rewrite size_spec, Y1 by exact X1. lia.
  - rewrite R1, R2. exact L.
  - rewrite H. rewrite R1, R2, ident_fold by exact L. cbv zeta. rewrite size_spec, H2, A2, Y1 by exact H1. exists t1, t2. split; [congruence|]. split; [congruence|]. split; [exact H1|]. split; [exact H3|].
    unfold ident_solve, zMat3DDiv. destruct (Reqb_reflect (INR (length l1)) 0) as [Z|_]; [lra|].
    match goal with |- context [zMat3DSVD fuel ?M] => assert (EM : M = xcov l1 l2) end.
    { unfold xcov, pmean. cbv zeta. apply mat3_ext2; unfold zMat3DMul, zVec3DMul, ZMAT3DZERO, of_b, bx, by_, bz, Rdiv; cbn [cxx cxy cxz cyx cyy cyz czx czy czz vx vy vz]; ring. }
    rewrite EM. destruct (zMat3DSVD fuel (xcov l1 l2)) as [[[[rank u] sv] v]|]; [|reflexivity].
    unfold identified_by. rewrite zmmt_spec, zmv_spec. fold (attm v u).
    assert (ES : (0 + rsum (fun p => dist p (vmean l1) * dist p (vmean l1)) l1) / INR (length l1) = scatter l1) by (unfold scatter, mean; rewrite Rplus_0_l; reflexivity).
    rewrite ES. destruct (Reqb (scatter l1) 0); [reflexivity|]. reflexivity.
Qed.
Lemma ident_inv fuel src dest l1 l2 s' d' r : holds src l1 -> holds dest l2 -> zVec3DDataIdentFrame fuel src dest = Some (s', d', r) ->
  ((length l1 <> length l2 \/ (length l1 < 3)%nat) /\ r = INull) \/
  (length l1 = length l2 /\ (3 <= length l1)%nat /\ exists rank u sv v, svd_cols (xcov l1 l2) u sv v rank /\ r = identified_by l1 l2 u sv v).
Proof.
  intros H1 H2 E. destruct (Nat.eq_dec (length l1) (length l2)) as [L|L]; [destruct (le_lt_dec 3 (length l1)) as [N|N]|].
  - right. split; [exact L|]. split; [exact N|]. destruct (ident_run fuel src dest l1 l2 H1 H2 L N) as (s & d & _ & _ & _ & _ & Q). rewrite Q in E. destruct (zMat3DSVD fuel (xcov l1 l2)) as [[[[rank u] sv] v]|] eqn:S; [|discriminate]. injection E as _ _ <-.
    exists rank, u, sv, v. split; [exact (svd_inv _ _ _ _ _ _ S)|reflexivity].
  - left. split; [auto|]. rewrite (ident_null fuel src dest l1 l2 H1 H2) in E by auto. injection E as _ _ <-. reflexivity.
  - left. split; [auto|]. rewrite (ident_null fuel src dest l1 l2 H1 H2) in E by auto. injection E as _ _ <-. reflexivity.
Qed.
Lemma ident_done src dest l1 l2 : holds src l1 -> holds dest l2 -> exists fuel s' d' r, zVec3DDataIdentFrame fuel src dest = Some (s', d', r) /\
  (exists x, zVecXDDataToAddrList s' = Some (x, l1)) /\ (exists x, zVecXDDataToAddrList d' = Some (x, l2)).
Proof.
  intros H1 H2. destruct (Nat.eq_dec (length l1) (length l2)) as [L|L]; [destruct (le_lt_dec 3 (length l1)) as [N|N]|].
  - destruct (svd_terminates (xcov l1 l2)) as (fuel & [[[rank u] sv] v] & E). destruct (ident_run fuel src dest l1 l2 H1 H2 L N) as (s & d & C1 & C2 & W1 & W2 & Q). rewrite E in Q. exists fuel, s, d. eexists. split; [exact Q|].
    destruct (to_addr_list s W1) as (a & Ea & _). destruct (to_addr_list d W2) as (b & Eb & _). rewrite C1 in Ea. rewrite C2 in Eb. eauto.
  - exists O. do 3 eexists. split; [exact (ident_null 0 src dest l1 l2 H1 H2 ltac:(auto))|]. destruct H1, H2. auto.
  - exists O. do 3 eexists. split; [exact (ident_null 0 src dest l1 l2 H1 H2 ltac:(auto))|]. destruct H1, H2. auto.
Qed.
Lemma rsum_sq_zero f l : (forall p, 0 <= f p) -> rsum f l = 0 <-> (forall p, List.In p l -> f p = 0).
Proof.
  intros F. induction l as [|a l IH]; unfold rsum in *; cbn [fold_right]; [split; [intros _ p []|reflexivity]|].
  assert (P : 0 <= fold_right (fun p s => f p + s) 0 l) by (clear IH; induction l as [|b l IH]; cbn [fold_right]; [lra|pose proof (F b); lra]). pose proof (F a) as Fa.
  split; [intros Z p [<-|I]; [lra|apply IH; [lra|exact I]]|]. intros H. rewrite (H a) by (left; reflexivity). rewrite (match IH with conj _ h => h end) by (intros; apply H; right; assumption). ring.
Qed.
Lemma scatter_zero l : l <> [] -> (scatter l = 0 <-> exists c, forall p, List.In p l -> p = c).
Proof.
  intros NE. pose proof (len_pos l NE) as LP. unfold scatter, mean. assert (Z : forall x, x / INR (length l) = 0 <-> x = 0) by (intros x; split; [intros H; apply (Rmult_eq_reg_r (/ INR (length l))); [unfold Rdiv in H; lra|apply Rinv_neq_0_compat; lra]|intros ->; unfold Rdiv; ring]).
  rewrite Z, rsum_sq_zero by (intros p; pose proof (norm_nonneg (vsub p (vmean l))); unfold dist; nra). split.
  - intros H. exists (vmean l). intros p I. specialize (H p I). unfold dist in H. assert (N : norm (vsub p (vmean l)) = 0) by nra. apply norm_zero_iff in N. pose proof (f_equal vx N). pose proof (f_equal vy N). pose proof (f_equal vz N). apply vec3_ext; spec_unfold; cbn [vx vy vz] in *; unfold vsub, v3zero in *; cbn [vx vy vz] in *; lra.
  - intros (c & H). assert (M : vmean l = c).
    { assert (S : forall f, rsum f l = INR (length l) * f c). { intros f. clear NE LP Z. induction l as [|a l IH]; [cbn; ring|]. change (length (a :: l)) with (Datatypes.S (length l)). rewrite S_INR. unfold rsum in *. cbn [fold_right]. rewrite IH by (intros; apply H; right; assumption). rewrite (H a) by (left; reflexivity). ring. }
      unfold vmean, mean. apply vec3_ext; cbn [vx vy vz]; rewrite S; field; lra. }
    intros p I. rewrite M, (H p I). unfold dist. assert (N : norm (vsub c c) = 0) by (apply norm_zero_iff; vring). rewrite N. ring.
Qed.
