(** Tangents and normals of a surface. *)
From Verif Require Import Base Spec SpecMesh SpecNurbs ModelNurbs FactsAlg FactsVec FactsElem FactsNurbs FactsNurbs2 FactsNurbs8.
From Coq Require Import List Lra Lia.
Import ListNotations.
Open Scope R_scope.

Section Ts.
  Variable n : nurbs.
  Variables u v : R.
  Variables su sv : nat.
  Definition Du (i : nat) : R := zBSplineParamBasisDiff1 (nu_0 n) u i (bs_order (nu_0 n)) su.
  Definition Dv (j : nat) : R := zBSplineParamBasisDiff1 (nu_1 n) v j (bs_order (nu_1 n)) sv.
  Definition Pv (i : nat) : vec3 := vsum (fun j => vscale (zNURBS3DWeight n i j * Bv n v sv j) (zNURBS3DCP n i j)) (Iv n sv).
  Definition Dpv (i : nat) : vec3 := vsum (fun j => vscale (zNURBS3DWeight n i j * Dv j) (zNURBS3DCP n i j)) (Iv n sv).
  Definition wv (i : nat) : R := rsum (fun j => zNURBS3DWeight n i j * Bv n v sv j) (Iv n sv).
  Definition dwv (i : nat) : R := rsum (fun j => zNURBS3DWeight n i j * Dv j) (Iv n sv).
  Definition numu : vec3 := vsum (fun i => vscale (Du i) (Pv i)) (Iu n su).
  Definition numv : vec3 := vsum (fun i => vscale (Bu n u su i) (Dpv i)) (Iu n su).
  Definition denu : R := rsum (fun i => Du i * wv i) (Iu n su).
  Definition denv : R := rsum (fun i => Bu n u su i * dwv i) (Iu n su).
End Ts.

Lemma fold4 (a b : nat -> R) (X : nat -> vec3) l : forall p q d e,
  fold_left (fun '(pv, dpv, dv, ddv) j => (zVec3DCat pv (a j) (X j), zVec3DCat dpv (b j) (X j), dv + a j, ddv + b j)) l (p, q, d, e) =
  (vadd p (vsum (fun j => vscale (a j) (X j)) l), vadd q (vsum (fun j => vscale (b j) (X j)) l), d + rsum a l, e + rsum b l).
Proof.
  induction l as [|j l IH]; intros p q d e.
  - cbn. f_equal; [f_equal; [f_equal|]|]; try (apply vec3_ext; cbn; ring); ring.
  - cbn [fold_left]. rewrite IH, !vsum_cons, !rsum_cons. f_equal; [f_equal; [f_equal|]|]; try (zvg; apply vec3_ext; spec_unfold; ring); ring.
Qed.
Lemma fold6 (a b : nat -> R) (X Y : nat -> vec3) (c d : nat -> R) l : forall p q r x y z,
  fold_left (fun '(p, tu, tv, den, dubv, budv) i => (zVec3DCat p (a i) (X i), zVec3DCat tu (b i) (X i), zVec3DCat tv (a i) (Y i), den + a i * c i, dubv + b i * c i, budv + a i * d i)) l (p, q, r, x, y, z) =
  (vadd p (vsum (fun i => vscale (a i) (X i)) l), vadd q (vsum (fun i => vscale (b i) (X i)) l), vadd r (vsum (fun i => vscale (a i) (Y i)) l), x + rsum (fun i => a i * c i) l, y + rsum (fun i => b i * c i) l, z + rsum (fun i => a i * d i) l).
Proof.
  induction l as [|i l IH]; intros p q r x y z.
  - cbn. f_equal; [f_equal; [f_equal; [f_equal; [f_equal|]|]|]|]; try (apply vec3_ext; cbn; ring); ring.
  - cbn [fold_left]. rewrite IH, !vsum_cons, !rsum_cons. f_equal; [f_equal; [f_equal; [f_equal; [f_equal|]|]|]|]; try (zvg; apply vec3_ext; spec_unfold; ring); ring.
Qed.

Lemma ts_eval seg n u v : let su := zBSplineParamSeg seg (nu_0 n) u in let sv := zBSplineParamSeg seg (nu_1 n) v in in_net n su sv = true ->
  zNURBS3DVecTSpace seg n u v = Some (if zIsTiny (den n u v su sv) then None else
    let p := vscale (1 / den n u v su sv) (num n u v su sv) in
    let tu := vsub (numu n u v su sv) (vscale (denu n u v su sv) p) in
    let tv := vsub (numv n u v su sv) (vscale (denv n u v su sv) p) in
    Some (p, (if zVec3DIsTiny (cross tu tv) then v3zero else snd (zVec3DNormalizeDRC (cross tu tv))), (if zVec3DIsTiny tu then tu else snd (zVec3DNormalizeDRC tu)), (if zVec3DIsTiny tv then tv else snd (zVec3DNormalizeDRC tv)))).
Proof.
  intros su sv H. unfold zNURBS3DVecTSpace. fold su sv. rewrite H.
  rewrite (fold_ext _ (fun '(p, tu, tv, den, dubv, budv) i => (zVec3DCat p (Bu n u su i) (Pv n v sv i), zVec3DCat tu (Du n u su i) (Pv n v sv i), zVec3DCat tv (Bu n u su i) (Dpv n v sv i), den + Bu n u su i * wv n v sv i, dubv + Du n u su i * wv n v sv i, budv + Bu n u su i * dwv n v sv i))).
  2: { intros [[[[[p tu] tv] d] e] f] i. rewrite (fold4 (fun j => zNURBS3DWeight n i j * Bv n v sv j) (fun j => zNURBS3DWeight n i j * Dv n v sv j) (fun j => zNURBS3DCP n i j)). cbv zeta beta iota. rewrite !Rplus_0_l.
       replace (vadd v3zero (vsum (fun j => vscale (zNURBS3DWeight n i j * Bv n v sv j) (zNURBS3DCP n i j)) (active (nu_1 n) sv))) with (Pv n v sv i) by (unfold Pv, Iv; apply vec3_ext; cbn; ring).
       replace (vadd v3zero (vsum (fun j => vscale (zNURBS3DWeight n i j * Dv n v sv j) (zNURBS3DCP n i j)) (active (nu_1 n) sv))) with (Dpv n v sv i) by (unfold Dpv, Iv; apply vec3_ext; cbn; ring). reflexivity. }
  rewrite (fold6 (Bu n u su) (Du n u su) (Pv n v sv) (Dpv n v sv) (wv n v sv) (dwv n v sv)). fold (Iu n su). rewrite !Rplus_0_l.
  replace (vadd v3zero (vsum (fun i => vscale (Bu n u su i) (Pv n v sv i)) (Iu n su))) with (num n u v su sv) by (apply vec3_ext; cbn; ring).
  replace (vadd v3zero (vsum (fun i => vscale (Du n u su i) (Pv n v sv i)) (Iu n su))) with (numu n u v su sv) by (apply vec3_ext; cbn; ring).
  replace (vadd v3zero (vsum (fun i => vscale (Bu n u su i) (Dpv n v sv i)) (Iu n su))) with (numv n u v su sv) by (apply vec3_ext; cbn; ring).
  change (rsum (fun i => Bu n u su i * wv n v sv i) (Iu n su)) with (den n u v su sv). change (rsum (fun i => Du n u su i * wv n v sv i) (Iu n su)) with (denu n u v su sv). change (rsum (fun i => Bu n u su i * dwv n v sv i) (Iu n su)) with (denv n u v su sv).
  destruct (zIsTiny (den n u v su sv)) eqn:T; [reflexivity|]. unfold zVec3DDiv. destruct (Reqb_reflect (den n u v su sv) 0) as [Z|Z].
  - exfalso. rewrite Z in T. unfold zIsTiny, zIsTol in T. rewrite Rabs_R0 in T. destruct (Rltb_reflect 0 zTOL); [discriminate|]. pose proof zTOL_pos. lra.
  - assert (CT : forall a k b, zVec3DCat a (- k) b = vsub a (vscale k b)) by (intros; zvg; apply vec3_ext; spec_unfold; ring). assert (CR : forall a b, zVec3DOuterProd a b = cross a b) by (intros; zvg; reflexivity).
    rewrite !CT, CR. reflexivity.
Qed.

Lemma ts_point seg n u v p nn t1 t2 : zNURBS3DVecTSpace seg n u v = Some (Some (p, nn, t1, t2)) -> zNURBS3DVec seg n u v = Some (Some p).
Proof.
  intros E. destruct (in_net n (zBSplineParamSeg seg (nu_0 n) u) (zBSplineParamSeg seg (nu_1 n) v)) eqn:I; [|unfold zNURBS3DVecTSpace in E; rewrite I in E; discriminate].
  rewrite ts_eval in E by exact I. rewrite vec_eval by exact I. injection E as E. destruct (zIsTiny _); [discriminate|]. cbv zeta in E. injection E as <- _ _ _. reflexivity.
Qed.

(** * Segments off the knots *)
Lemma seg_near seg o n ks t : finds seg -> good_knots o n ks -> in_domain o n ks t -> off_knots ks t -> exists e, 0 < e /\ forall x, Rabs (x - t) < e -> in_domain o n ks x /\ seg o ks x = seg o ks t.
Proof.
  intros F G D O. destruct (F o n ks t G D) as ((A & B) & (C & E) & P). pose proof G as (ON & L & M & _). set (k := seg o ks t) in *.
  pose proof (O k ltac:(lia)) as O1. pose proof (O (S k) ltac:(lia)) as O2. exists (Rmin (t - knot_of ks k) (knot_of ks (S k) - t)). split; [apply Rmin_glb_lt; lra|].
  intros x X. pose proof (Rmin_l (t - knot_of ks k) (knot_of ks (S k) - t)). pose proof (Rmin_r (t - knot_of ks k) (knot_of ks (S k) - t)). apply Rabs_def2 in X.
  pose proof (M o k ltac:(lia)). pose proof (M (S k) n ltac:(lia)). assert (DX : in_domain o n ks x) by (unfold in_domain; lra). split; [exact DX|].
  destruct (F o n ks x G DX) as ((A' & B') & (C' & E') & P'). set (k' := seg o ks x) in *. destruct (Nat.lt_trichotomy k' k) as [Q|[Q|Q]]; [|exact Q|].
  - pose proof (M (S k') k ltac:(lia)). lra.
  - pose proof (M (S k) k' ltac:(lia)). lra.
Qed.

Lemma vsum_x {A} (f : A -> vec3) l : vx (vsum f l) = rsum (fun a => vx (f a)) l.
Proof. induction l as [|a l IH]; [reflexivity|]. rewrite vsum_cons, rsum_cons, <- IH. reflexivity. Qed.
Lemma vsum_y {A} (f : A -> vec3) l : vy (vsum f l) = rsum (fun a => vy (f a)) l.
Proof. induction l as [|a l IH]; [reflexivity|]. rewrite vsum_cons, rsum_cons, <- IH. reflexivity. Qed.
Lemma vsum_z {A} (f : A -> vec3) l : vz (vsum f l) = rsum (fun a => vz (f a)) l.
Proof. induction l as [|a l IH]; [reflexivity|]. rewrite vsum_cons, rsum_cons, <- IH. reflexivity. Qed.

Lemma dl_quot f g x f' g' : derivable_pt_lim f x f' -> derivable_pt_lim g x g' -> g x <> 0 -> derivable_pt_lim (fun t => 1 / g t * f t) x (1 / g x * (f' - g' * (1 / g x * f x))).
Proof.
  intros Hf Hg N. apply dl_ext with (fun t => f t / g t); [intros; unfold Rdiv; ring|]. eapply dl_eq; [apply (derivable_pt_lim_div f g x f' g' Hf Hg N)|]. unfold Rsqr. field. exact N.
Qed.

Lemma unitize w : exists k, 0 < k /\ w = vscale k (if zVec3DIsTiny w then w else snd (zVec3DNormalizeDRC w)).
Proof.
  destruct (zVec3DIsTiny w) eqn:T; [exists 1; split; [lra|apply vec3_ext; spec_unfold; ring]|].
  apply zVec3DIsTiny_false in T. rewrite normalizeDRC_ok by exact T. exists (norm w). assert (P : 0 < norm w).
  { destruct (Rle_lt_or_eq_dec 0 (norm w) (norm_nonneg w)) as [H|H]; [exact H|]. exfalso. apply T. symmetry in H. apply norm_zero_iff in H. rewrite H. unfold negligible. cbn. rewrite Rabs_R0. pose proof zTOL_pos. lra. }
  split; [exact P|]. apply vec3_ext; spec_unfold; field; lra.
Qed.

Lemma tangents seg n u v : finds seg -> good_nurbs n -> in_params n u v -> weights_from zTOL n -> off_knots (bs_knot (nu_0 n)) u -> off_knots (bs_knot (nu_1 n)) v ->
  exists p nn t1 t2 k1 k2, zNURBS3DVecTSpace seg n u v = Some (Some (p, nn, t1, t2)) /\ zNURBS3DVec seg n u v = Some (Some p) /\
    0 < k1 /\ travels (fun x => zNURBS3DVec seg n x v) u (vscale k1 t1) /\ 0 < k2 /\ travels (fun x => zNURBS3DVec seg n u x) v (vscale k2 t2) /\
    (norm t1 = 1 \/ negligible t1) /\ (norm t2 = 1 \/ negligible t2) /\ (nn = v3zero \/ (norm nn = 1 /\ dot nn t1 = 0 /\ dot nn t2 = 0 /\ 0 < dot nn (cross t1 t2))).
Proof.
  intros F G D W O0 O1. destruct (found seg n u v F G D) as (I & A0 & A1 & S0 & S1). pose proof (ts_eval seg n u v I) as E. pose proof (vec_eval seg n u v I) as EV.
  destruct G as [G0 G1]. destruct D as [D0 D1]. pose proof (seg_near seg _ _ _ _ F G0 D0 O0) as (e0 & P0 & N0). pose proof (seg_near seg _ _ _ _ F G1 D1 O1) as (e1 & P1 & N1).
  fold (zBSplineParamSeg seg (nu_0 n) u) in N0. fold (zBSplineParamSeg seg (nu_1 n) v) in N1.
  set (su := zBSplineParamSeg seg (nu_0 n) u) in *. set (sv := zBSplineParamSeg seg (nu_1 n) v) in *. cbv zeta in E.
  pose proof (den_from n u v su sv A0 A1 S0 S1 zTOL W) as KD. pose proof zTOL_pos as TP.
  assert (TF : forall d, zTOL <= d -> zIsTiny d = false). { intros d Hd. unfold zIsTiny, zIsTol. rewrite Rabs_right by lra. destruct (Rltb_reflect d zTOL); [lra|reflexivity]. }
  rewrite (TF _ KD) in E, EV.
  set (p := vscale (1 / den n u v su sv) (num n u v su sv)) in *. set (tu := vsub (numu n u v su sv) (vscale (denu n u v su sv) p)) in *. set (tv := vsub (numv n u v su sv) (vscale (denv n u v su sv) p)) in *.
  destruct (unitize tu) as (k1 & K1 & E1). destruct (unitize tv) as (k2 & K2 & E2). set (t1 := if zVec3DIsTiny tu then tu else snd (zVec3DNormalizeDRC tu)) in *. set (t2 := if zVec3DIsTiny tv then tv else snd (zVec3DNormalizeDRC tv)) in *.
  eexists p, _, t1, t2, (k1 / den n u v su sv), (k2 / den n u v su sv). split; [exact E|]. split; [exact EV|].
  assert (DP : 0 < den n u v su sv) by lra. assert (DN : den n u v su sv <> 0) by lra.
  assert (BU : forall i, derivable_pt_lim (fun x => Bu n x su i) u (Du n u su i)).
  { intros i. unfold Bu, Du. apply basis_diff with (bs_order (nu_0 n)); [apply (as_up _ _ _ _ A0)|apply (as_pos _ _ _ _ A0)|lia]. }
  assert (BV : forall j, derivable_pt_lim (fun x => Bv n x sv j) v (Dv n v sv j)).
  { intros j. unfold Bv, Dv. apply basis_diff with (bs_order (nu_1 n)); [apply (as_up _ _ _ _ A1)|apply (as_pos _ _ _ _ A1)|lia]. }
  split; [apply Rdiv_lt_0_compat; lra|]. split.
  { exists (fun x => vscale (1 / den n x v su sv) (num n x v su sv)). split.
    - exists e0. split; [exact P0|]. intros x X. destruct (N0 x X) as [DX SX]. fold (zBSplineParamSeg seg (nu_0 n) x) in SX.
      destruct (found seg n x v F (conj G0 G1) (conj DX D1)) as (I' & A0' & A1' & S0' & S1'). rewrite vec_eval by exact I'. rewrite SX in *. fold sv in A0', A1', S0', S1' |- *. rewrite TF by (apply (den_from n x v su sv); assumption). reflexivity.
    - assert (DD : derivable_pt_lim (fun x => den n x v su sv) u (denu n u v su sv)).
      { unfold den, denu. apply (dl_sum (fun i x => Bu n x su i * wv n v sv i)). intros i. apply dl_ext with (fun x => wv n v sv i * Bu n x su i); [intros; ring|]. apply dl_eq with (wv n v sv i * Du n u su i); [|ring]. apply derivable_pt_lim_scal, BU. }
      assert (DX : derivable_pt_lim (fun x => vx (num n x v su sv)) u (vx (numu n u v su sv)) /\ derivable_pt_lim (fun x => vy (num n x v su sv)) u (vy (numu n u v su sv)) /\ derivable_pt_lim (fun x => vz (num n x v su sv)) u (vz (numu n u v su sv))).
      { unfold num, numu. repeat split; (eapply dl_ext; [intros x; symmetry; first [apply vsum_x|apply vsum_y|apply vsum_z]|]); rewrite ?vsum_x, ?vsum_y, ?vsum_z.
        - apply (dl_sum (fun i x => vx (vscale (Bu n x su i) (Pv n v sv i)))). intros i. cbn [vx vscale]. apply dl_ext with (fun x => vx (Pv n v sv i) * Bu n x su i); [intros; ring|]. apply dl_eq with (vx (Pv n v sv i) * Du n u su i); [|ring]. apply derivable_pt_lim_scal, BU.
        - apply (dl_sum (fun i x => vy (vscale (Bu n x su i) (Pv n v sv i)))). intros i. cbn [vy vscale]. apply dl_ext with (fun x => vy (Pv n v sv i) * Bu n x su i); [intros; ring|]. apply dl_eq with (vy (Pv n v sv i) * Du n u su i); [|ring]. apply derivable_pt_lim_scal, BU.
        - apply (dl_sum (fun i x => vz (vscale (Bu n x su i) (Pv n v sv i)))). intros i. cbn [vz vscale]. apply dl_ext with (fun x => vz (Pv n v sv i) * Bu n x su i); [intros; ring|]. apply dl_eq with (vz (Pv n v sv i) * Du n u su i); [|ring]. apply derivable_pt_lim_scal, BU. }
      replace (vscale (k1 / den n u v su sv) t1) with (vscale (1 / den n u v su sv) tu) by (rewrite E1 at 1; apply vec3_ext; spec_unfold; field; exact DN). unfold tu, p. cbn [vx vy vz vscale vsub].
      destruct DX as (DX & DY & DZ). split; [|split]; [apply (dl_quot _ _ u _ _ DX DD DN)|apply (dl_quot _ _ u _ _ DY DD DN)|apply (dl_quot _ _ u _ _ DZ DD DN)]. }
  split; [apply Rdiv_lt_0_compat; lra|]. split.
  { exists (fun x => vscale (1 / den n u x su sv) (num n u x su sv)). split.
    - exists e1. split; [exact P1|]. intros x X. destruct (N1 x X) as [DX SX]. fold (zBSplineParamSeg seg (nu_1 n) x) in SX.
      destruct (found seg n u x F (conj G0 G1) (conj D0 DX)) as (I' & A0' & A1' & S0' & S1'). rewrite vec_eval by exact I'. rewrite SX in *. fold su in A0', A1', S0', S1' |- *. rewrite TF by (apply (den_from n u x su sv); assumption). reflexivity.
    - assert (DD : derivable_pt_lim (fun x => den n u x su sv) v (denv n u v su sv)).
      { unfold den, denv. apply (dl_sum (fun i x => Bu n u su i * wv n x sv i)). intros i. apply derivable_pt_lim_scal. unfold wv, dwv. apply (dl_sum (fun j x => zNURBS3DWeight n i j * Bv n x sv j)). intros j. apply derivable_pt_lim_scal, BV. }
      assert (DI : forall i, derivable_pt_lim (fun x => vx (Pv n x sv i)) v (vx (Dpv n v sv i)) /\ derivable_pt_lim (fun x => vy (Pv n x sv i)) v (vy (Dpv n v sv i)) /\ derivable_pt_lim (fun x => vz (Pv n x sv i)) v (vz (Dpv n v sv i))).
      { intros i. unfold Pv, Dpv. repeat split; (eapply dl_ext; [intros x; symmetry; first [apply vsum_x|apply vsum_y|apply vsum_z]|]); rewrite ?vsum_x, ?vsum_y, ?vsum_z.
        - apply (dl_sum (fun j x => vx (vscale (zNURBS3DWeight n i j * Bv n x sv j) (zNURBS3DCP n i j)))). intros j. cbn [vx vscale]. apply dl_ext with (fun x => zNURBS3DWeight n i j * vx (zNURBS3DCP n i j) * Bv n x sv j); [intros; ring|]. apply dl_eq with (zNURBS3DWeight n i j * vx (zNURBS3DCP n i j) * Dv n v sv j); [|ring]. apply derivable_pt_lim_scal, BV.
        - apply (dl_sum (fun j x => vy (vscale (zNURBS3DWeight n i j * Bv n x sv j) (zNURBS3DCP n i j)))). intros j. cbn [vy vscale]. apply dl_ext with (fun x => zNURBS3DWeight n i j * vy (zNURBS3DCP n i j) * Bv n x sv j); [intros; ring|]. apply dl_eq with (zNURBS3DWeight n i j * vy (zNURBS3DCP n i j) * Dv n v sv j); [|ring]. apply derivable_pt_lim_scal, BV.
        - apply (dl_sum (fun j x => vz (vscale (zNURBS3DWeight n i j * Bv n x sv j) (zNURBS3DCP n i j)))). intros j. cbn [vz vscale]. apply dl_ext with (fun x => zNURBS3DWeight n i j * vz (zNURBS3DCP n i j) * Bv n x sv j); [intros; ring|]. apply dl_eq with (zNURBS3DWeight n i j * vz (zNURBS3DCP n i j) * Dv n v sv j); [|ring]. apply derivable_pt_lim_scal, BV. }
      assert (DX : derivable_pt_lim (fun x => vx (num n u x su sv)) v (vx (numv n u v su sv)) /\ derivable_pt_lim (fun x => vy (num n u x su sv)) v (vy (numv n u v su sv)) /\ derivable_pt_lim (fun x => vz (num n u x su sv)) v (vz (numv n u v su sv))).
      { unfold num, numv. repeat split; (eapply dl_ext; [intros x; symmetry; first [apply vsum_x|apply vsum_y|apply vsum_z]|]); rewrite ?vsum_x, ?vsum_y, ?vsum_z.
        - apply (dl_sum (fun i x => vx (vscale (Bu n u su i) (Pv n x sv i)))). intros i. cbn [vx vscale]. apply derivable_pt_lim_scal, DI.
        - apply (dl_sum (fun i x => vy (vscale (Bu n u su i) (Pv n x sv i)))). intros i. cbn [vy vscale]. apply derivable_pt_lim_scal, DI.
        - apply (dl_sum (fun i x => vz (vscale (Bu n u su i) (Pv n x sv i)))). intros i. cbn [vz vscale]. apply derivable_pt_lim_scal, DI. }
      replace (vscale (k2 / den n u v su sv) t2) with (vscale (1 / den n u v su sv) tv) by (rewrite E2 at 1; apply vec3_ext; spec_unfold; field; exact DN). unfold tv, p. cbn [vx vy vz vscale vsub].
      destruct DX as (DX & DY & DZ). split; [|split]; [apply (dl_quot _ _ v _ _ DX DD DN)|apply (dl_quot _ _ v _ _ DY DD DN)|apply (dl_quot _ _ v _ _ DZ DD DN)]. }
  assert (UN : forall w, norm (if zVec3DIsTiny w then w else snd (zVec3DNormalizeDRC w)) = 1 \/ negligible (if zVec3DIsTiny w then w else snd (zVec3DNormalizeDRC w))).
  { intros w. destruct (zVec3DIsTiny w) eqn:T; [right; apply zVec3DIsTiny_true, T|left]. apply zVec3DIsTiny_false in T. rewrite normalizeDRC_ok by exact T. apply unit_scale, nonneg_norm_pos, T. }
  split; [apply UN|]. split; [apply UN|]. destruct (zVec3DIsTiny (cross tu tv)) eqn:T; [left; reflexivity|right].
  apply zVec3DIsTiny_false in T. pose proof (UN (cross tu tv)) as UC. rewrite (proj2 (zVec3DIsTiny_false _) T) in UC. rewrite normalizeDRC_ok by exact T. split; [apply unit_scale, nonneg_norm_pos, T|].
  assert (CP : 0 < norm (cross tu tv)).
  { destruct (Rle_lt_or_eq_dec 0 _ (norm_nonneg (cross tu tv))) as [H|H]; [exact H|]. exfalso. apply T. symmetry in H. apply norm_zero_iff in H. rewrite H. unfold negligible. cbn. rewrite Rabs_R0. lra. }
  assert (X1 : t1 = vscale (1 / k1) tu) by (rewrite E1; apply vec3_ext; spec_unfold; field; lra). assert (X2 : t2 = vscale (1 / k2) tv) by (rewrite E2; apply vec3_ext; spec_unfold; field; lra). rewrite X1, X2. clearbody t1 t2.
  assert (Z1 : dot (cross tu tv) tu = 0) by (clear; clearbody tu tv; spec_unfold; ring). assert (Z2 : dot (cross tu tv) tv = 0) by (clear; clearbody tu tv; spec_unfold; ring).
  pose proof (norm_sqr (cross tu tv)) as NS. clearbody tu tv.
  split; [transitivity (1 / norm (cross tu tv) * (1 / k1) * dot (cross tu tv) tu); [generalize (norm (cross tu tv)); intros; spec_unfold; ring|rewrite Z1; ring]|].
  split; [transitivity (1 / norm (cross tu tv) * (1 / k2) * dot (cross tu tv) tv); [generalize (norm (cross tu tv)); intros; spec_unfold; ring|rewrite Z2; ring]|].
  replace (dot (vscale (1 / norm (cross tu tv)) (cross tu tv)) (cross (vscale (1 / k1) tu) (vscale (1 / k2) tv))) with (1 / norm (cross tu tv) * (1 / k1) * (1 / k2) * dot (cross tu tv) (cross tu tv)) by (generalize (norm (cross tu tv)); intros; spec_unfold; ring).
  rewrite <- NS. replace (1 / norm (cross tu tv) * (1 / k1) * (1 / k2) * (norm (cross tu tv) * norm (cross tu tv))) with (norm (cross tu tv) / (k1 * k2)) by (field; lra). apply Rdiv_lt_0_compat; [exact CP|nra].
Qed.
