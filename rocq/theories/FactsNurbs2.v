(** Evaluation of a surface as a double sum; convex hull; affine maps. *)
From Verif Require Import Base Spec SpecMesh SpecNurbs ModelNurbs FactsAlg FactsElem FactsNurbs SpecGJK FactsGJK3.
From Coq Require Import List Lra Lia.
Import ListNotations.
Open Scope R_scope.

Section Ev.
  Variable n : nurbs.
  Variables u v : R.
  Variables su sv : nat.
  Definition Bu (i : nat) : R := zBSplineParamBasis (nu_0 n) u i (bs_order (nu_0 n)) su.
  Definition Bv (j : nat) : R := zBSplineParamBasis (nu_1 n) v j (bs_order (nu_1 n)) sv.
  Definition Iu : list nat := active (nu_0 n) su.
  Definition Iv : list nat := active (nu_1 n) sv.
  Definition num : vec3 := vsum (fun i => vscale (Bu i) (vsum (fun j => vscale (zNURBS3DWeight n i j * Bv j) (zNURBS3DCP n i j)) Iv)) Iu.
  Definition den : R := rsum (fun i => Bu i * rsum (fun j => zNURBS3DWeight n i j * Bv j) Iv) Iu.
End Ev.

Lemma vsum_cons {A} (f : A -> vec3) a l : vsum f (a :: l) = vadd (f a) (vsum f l).
Proof. reflexivity. Qed.
Lemma vsum_ext {A} (f g : A -> vec3) l : (forall a, List.In a l -> f a = g a) -> vsum f l = vsum g l.
Proof. intros H. induction l as [|a l IH]; [reflexivity|]. rewrite !vsum_cons. f_equal; [apply H; left; reflexivity|]. apply IH. intros; apply H; right; assumption. Qed.
Lemma vsum_plus {A} (f g : A -> vec3) l : vsum (fun a => vadd (f a) (g a)) l = vadd (vsum f l) (vsum g l).
Proof. induction l as [|a l IH]; [cbn; apply vec3_ext; spec_unfold; ring|]. rewrite !vsum_cons, IH. apply vec3_ext; spec_unfold; ring. Qed.
Lemma vsum_scale {A} (f : A -> vec3) k l : vsum (fun a => vscale k (f a)) l = vscale k (vsum f l).
Proof. induction l as [|a l IH]; [cbn; apply vec3_ext; spec_unfold; ring|]. rewrite !vsum_cons, IH. apply vec3_ext; spec_unfold; ring. Qed.
Lemma vsum_const {A} (f : A -> R) c l : vsum (fun a => vscale (f a) c) l = vscale (rsum f l) c.
Proof. induction l as [|a l IH]; [cbn; apply vec3_ext; spec_unfold; ring|]. rewrite vsum_cons, rsum_cons, IH. apply vec3_ext; spec_unfold; ring. Qed.
Lemma vsum_app {A} (f : A -> vec3) l1 l2 : vsum f (l1 ++ l2) = vadd (vsum f l1) (vsum f l2).
Proof. induction l1 as [|a l IH]; cbn [app]; [apply vec3_ext; cbn; ring|]. rewrite !vsum_cons, IH. apply vec3_ext; spec_unfold; ring. Qed.

Lemma fold_cat (a : nat -> R) (X : nat -> vec3) (d : nat -> R) l : forall p0 d0,
  fold_left (fun '(p, den) i => (zVec3DCat p (a i) (X i), den + d i)) l (p0, d0) = (vadd p0 (vsum (fun i => vscale (a i) (X i)) l), d0 + rsum d l).
Proof.
  induction l as [|i l IH]; intros p0 d0.
  - cbn. f_equal; [|ring]. apply vec3_ext; cbn; ring.
  - cbn [fold_left]. rewrite IH, vsum_cons, rsum_cons. f_equal; [|ring]. apply vec3_ext; spec_unfold; unfold zVec3DCat; cbn [vx vy vz]; ring.
Qed.
Lemma fold_ext {A B} (f g : A -> B -> A) l : (forall a b, f a b = g a b) -> forall a, fold_left f l a = fold_left g l a.
Proof. intros H. induction l as [|b l IH]; intros a; [reflexivity|]. cbn. rewrite H. apply IH. Qed.

Lemma vec_eval seg n u v : let su := zBSplineParamSeg seg (nu_0 n) u in let sv := zBSplineParamSeg seg (nu_1 n) v in in_net n su sv = true ->
  zNURBS3DVec seg n u v = Some (if zIsTiny (den n u v su sv) then None else Some (vscale (1 / den n u v su sv) (num n u v su sv))).
Proof.
  intros su sv H. unfold zNURBS3DVec. fold su sv. rewrite H.
  rewrite (fold_ext _ (fun '(p, d) i => (zVec3DCat p (Bu n u su i) (vsum (fun j => vscale (zNURBS3DWeight n i j * Bv n v sv j) (zNURBS3DCP n i j)) (Iv n sv)),
    d + Bu n u su i * rsum (fun j => zNURBS3DWeight n i j * Bv n v sv j) (Iv n sv)))).
  2: { intros [p d] i. rewrite (fold_cat (fun j => zNURBS3DWeight n i j * Bv n v sv j) (fun j => zNURBS3DCP n i j) (fun j => zNURBS3DWeight n i j * Bv n v sv j)).
       unfold Bu. cbv zeta beta iota. rewrite Rplus_0_l. f_equal. match goal with |- ?g => idtac g end. f_equal. apply vec3_ext; cbn; ring. }
  rewrite (fold_cat (Bu n u su) (fun i => vsum (fun j => vscale (zNURBS3DWeight n i j * Bv n v sv j) (zNURBS3DCP n i j)) (Iv n sv)) (fun i => Bu n u su i * rsum (fun j => zNURBS3DWeight n i j * Bv n v sv j) (Iv n sv))).
  fold (Iu n su). fold (num n u v su sv) (den n u v su sv). rewrite Rplus_0_l. replace (vadd v3zero (num n u v su sv)) with (num n u v su sv) by (apply vec3_ext; cbn; ring).
  destruct (zIsTiny (den n u v su sv)) eqn:T; [reflexivity|]. unfold zVec3DDiv. destruct (Reqb_reflect (den n u v su sv) 0) as [Z|Z].
  - exfalso. rewrite Z in T. unfold zIsTiny, zIsTol in T. rewrite Rabs_R0 in T. destruct (Rltb_reflect 0 zTOL); [discriminate|]. pose proof zTOL_pos. lra.
  - reflexivity.
Qed.

Lemma found_seg seg o n ks sl t : finds seg -> good_knots o n ks -> in_domain o n ks t -> at_seg (BS o ks sl) t o (seg o ks t) /\ (seg o ks t < n)%nat.
Proof.
  intros F G D. destruct (F o n ks t G D) as ((A & B) & (C & E) & P). destruct G as (O & L & M & _). split; [|exact B].
  constructor; try assumption. intros i j H. apply M. rewrite L. lia.
Qed.
Lemma found seg n u v : finds seg -> good_nurbs n -> in_params n u v -> let su := zBSplineParamSeg seg (nu_0 n) u in let sv := zBSplineParamSeg seg (nu_1 n) v in
  in_net n su sv = true /\ at_seg (nu_0 n) u (bs_order (nu_0 n)) su /\ at_seg (nu_1 n) v (bs_order (nu_1 n)) sv /\ (su < nu_n0 n)%nat /\ (sv < nu_n1 n)%nat.
Proof.
  intros F [G0 G1] [D0 D1]. destruct n as [[o0 k0 s0] [o1 k1 s1] n0 n1 net]. unfold zBSplineParamSeg, in_net. cbn [nu_0 nu_1 nu_n0 nu_n1 bs_order bs_knot] in *. cbv zeta.
  destruct (found_seg seg _ _ _ s0 _ F G0 D0) as [A0 B0]. destruct (found_seg seg _ _ _ s1 _ F G1 D1) as [A1 B1].
  split; [|auto]. pose proof (as_ord _ _ _ _ A0). pose proof (as_ord _ _ _ _ A1).
  repeat (apply andb_true_intro; split); try (apply Nat.leb_le; assumption); apply Nat.ltb_lt; assumption.
Qed.

Lemma hull_vsum {A} L (l : list A) f P : (forall a, List.In a l -> 0 <= f a /\ ((f a = 0 /\ P a = v3zero) \/ exists q, convex_hull L q /\ P a = vscale (f a) q)) -> 0 < rsum f l ->
  exists q, convex_hull L q /\ vsum P l = vscale (rsum f l) q.
Proof.
  intros H. induction l as [|a l IH]; [cbn; intros; lra|]. rewrite vsum_cons, rsum_cons. intros T.
  assert (N : 0 <= rsum f l) by (apply rsum_pos; intros x Hx; apply (H x); right; exact Hx).
  destruct (H a ltac:(left; reflexivity)) as [H0 H1]. assert (H' : forall x, List.In x l -> 0 <= f x /\ ((f x = 0 /\ P x = v3zero) \/ exists q, convex_hull L q /\ P x = vscale (f x) q)) by (intros x Hx; apply H; right; exact Hx).
  destruct (Req_dec (rsum f l) 0) as [Z|Z].
  - assert (W : vsum P l = v3zero).
    { clear - H' Z. revert Z. induction l as [|b l IH]; intros Z; [reflexivity|]. rewrite rsum_cons in Z. rewrite vsum_cons.
      assert (N : 0 <= rsum f l) by (apply rsum_pos; intros x Hx; apply (H' x); right; exact Hx). destruct (H' b ltac:(left; reflexivity)) as [B0 B1].
      rewrite IH; [|intros; apply H'; right; assumption|lra]. destruct B1 as [[_ E]|(q & _ & E)]; rewrite E; [|replace (f b) with 0 by lra]; apply vec3_ext; spec_unfold; ring. }
    rewrite W, Z. destruct H1 as [[E _]|(q & Q & E)]; [lra|]. exists q. split; [exact Q|]. rewrite E. apply vec3_ext; spec_unfold; ring.
  - destruct (IH H' ltac:(lra)) as (q & Q & E). rewrite E. destruct H1 as [[E1 E2]|(q' & Q' & E')].
    + exists q. split; [exact Q|]. rewrite E1, E2. apply vec3_ext; spec_unfold; ring.
    + exists (comb2 (f a / (f a + rsum f l)) (rsum f l / (f a + rsum f l)) q' q). split.
      * apply hull_mix with q' q; [exact Q'|exact Q|]. eexists _, _. split; [|reflexivity]. unfold weights2. repeat split.
        -- apply Rmult_le_pos; [lra|]. left. apply Rinv_0_lt_compat. lra.
        -- apply Rmult_le_pos; [lra|]. left. apply Rinv_0_lt_compat. lra.
        -- field. lra.
      * rewrite E'. unfold comb2. apply vec3_ext; spec_unfold; field; lra.
Qed.

Lemma active_lt p t s k : at_seg p t (bs_order p) s -> (s < k)%nat -> forall i, List.In i (active p s) -> (i < k)%nat.
Proof. intros A H i Hi. unfold active in Hi. apply in_seq in Hi. pose proof (as_ord _ _ _ _ A). lia. Qed.

Lemma den_inner n v sv i : at_seg (nu_1 n) v (bs_order (nu_1 n)) sv -> (sv < nu_n1 n)%nat -> (i < nu_n0 n)%nat -> forall a, weights_from a n -> a <= rsum (fun j => zNURBS3DWeight n i j * Bv n v sv j) (Iv n sv).
Proof.
  intros A S I a W. unfold Iv. replace a with (a * rsum (fun j => Bv n v sv j) (active (nu_1 n) sv)) at 1 by (unfold Bv, active; rewrite basis_sum by exact A; ring).
  rewrite <- rsum_scale. apply rsum_le. intros j Hj. apply Rmult_le_compat_r; [apply basis_nonneg, A|]. apply W; [exact I|]. exact (active_lt _ _ _ _ A S _ Hj).
Qed.
Lemma den_from n u v su sv : at_seg (nu_0 n) u (bs_order (nu_0 n)) su -> at_seg (nu_1 n) v (bs_order (nu_1 n)) sv -> (su < nu_n0 n)%nat -> (sv < nu_n1 n)%nat -> forall a, weights_from a n -> a <= den n u v su sv.
Proof.
  intros A0 A1 S0 S1 a W. unfold den, Iu. replace a with (rsum (fun i => Bu n u su i * a) (active (nu_0 n) su)) at 1.
  2: { rewrite (rsum_ext _ (fun i => a * Bu n u su i)) by (intros; ring). rewrite rsum_scale. unfold Bu, active. rewrite basis_sum by exact A0. ring. }
  apply rsum_le. intros i Hi. apply Rmult_le_compat_l; [apply basis_nonneg, A0|]. apply den_inner; auto. exact (active_lt _ _ _ _ A0 S0 _ Hi).
Qed.

Lemma vec_defined seg n u v : finds seg -> good_nurbs n -> in_params n u v -> weights_from zTOL n -> exists p, zNURBS3DVec seg n u v = Some (Some p).
Proof.
  intros F G D W. destruct (found seg n u v F G D) as (I & A0 & A1 & S0 & S1). rewrite vec_eval by exact I. pose proof (den_from n u v _ _ A0 A1 S0 S1 zTOL W) as K. pose proof zTOL_pos.
  unfold zIsTiny, zIsTol. rewrite Rabs_right by lra. destruct (Rltb_reflect (den n u v (zBSplineParamSeg seg (nu_0 n) u) (zBSplineParamSeg seg (nu_1 n) v)) zTOL); [lra|]. eexists. reflexivity.
Qed.
Lemma vec_never_wild seg n u v : finds seg -> good_nurbs n -> in_params n u v -> zNURBS3DVec seg n u v <> None.
Proof. intros F G D. destruct (found seg n u v F G D) as (I & _). rewrite vec_eval by exact I. discriminate. Qed.

Lemma control_in n i j : (i < nu_n0 n)%nat -> (j < nu_n1 n)%nat -> List.In (zNURBS3DCP n i j) (control_points n).
Proof. intros I J. unfold control_points. apply in_map_iff. exists (i, j). split; [reflexivity|]. apply in_prod; apply in_seq; lia. Qed.

Lemma vec_hull seg n u v p : finds seg -> good_nurbs n -> in_params n u v -> weights_from 0 n -> zNURBS3DVec seg n u v = Some (Some p) -> convex_hull (control_points n) p.
Proof.
  intros F G D W E. destruct (found seg n u v F G D) as (I & A0 & A1 & S0 & S1). rewrite vec_eval in E by exact I.
  set (su := zBSplineParamSeg seg (nu_0 n) u) in *. set (sv := zBSplineParamSeg seg (nu_1 n) v) in *.
  pose proof (den_from n u v _ _ A0 A1 S0 S1 0 W) as K. destruct (zIsTiny (den n u v su sv)) eqn:T; [discriminate|]. injection E as E.
  assert (P : 0 < den n u v su sv). { unfold zIsTiny, zIsTol in T. rewrite Rabs_right in T by lra. destruct (Rltb_reflect (den n u v su sv) zTOL); [discriminate|]. pose proof zTOL_pos. lra. }
  destruct (hull_vsum (control_points n) (Iu n su) (fun i => Bu n u su i * rsum (fun j => zNURBS3DWeight n i j * Bv n v sv j) (Iv n sv))
    (fun i => vscale (Bu n u su i) (vsum (fun j => vscale (zNURBS3DWeight n i j * Bv n v sv j) (zNURBS3DCP n i j)) (Iv n sv)))) as (q & Q & EQ).
  - intros i Hi. assert (Li : (i < nu_n0 n)%nat) by exact (active_lt _ _ _ _ A0 S0 _ Hi). pose proof (basis_nonneg _ _ _ _ i A0) as B. fold (Bu n u su i) in B.
    pose proof (den_inner n v sv i A1 S1 Li 0 W) as N. split; [apply Rmult_le_pos; assumption|].
    assert (C : forall j, List.In j (Iv n sv) -> 0 <= zNURBS3DWeight n i j * Bv n v sv j /\ ((zNURBS3DWeight n i j * Bv n v sv j = 0 /\ vscale (zNURBS3DWeight n i j * Bv n v sv j) (zNURBS3DCP n i j) = v3zero) \/
      exists q, convex_hull (control_points n) q /\ vscale (zNURBS3DWeight n i j * Bv n v sv j) (zNURBS3DCP n i j) = vscale (zNURBS3DWeight n i j * Bv n v sv j) q)).
    { intros j Hj. assert (Lj : (j < nu_n1 n)%nat) by exact (active_lt _ _ _ _ A1 S1 _ Hj). split; [apply Rmult_le_pos; [apply W; assumption|apply basis_nonneg, A1]|].
      right. exists (zNURBS3DCP n i j). split; [apply hull_point, control_in; assumption|reflexivity]. }
    destruct (Req_dec (rsum (fun j => zNURBS3DWeight n i j * Bv n v sv j) (Iv n sv)) 0) as [Z|Z].
    + left. rewrite Z. split; [ring|]. assert (E0 : vsum (fun j => vscale (zNURBS3DWeight n i j * Bv n v sv j) (zNURBS3DCP n i j)) (Iv n sv) = v3zero).
      { clear - C Z. revert Z C. generalize (Iv n sv). intros l. induction l as [|j l IH]; intros Z C; [reflexivity|]. rewrite rsum_cons in Z. rewrite vsum_cons.
        assert (0 <= rsum (fun j => zNURBS3DWeight n i j * Bv n v sv j) l) by (apply rsum_pos; intros; apply C; right; assumption). destruct (C j ltac:(left; reflexivity)) as [C0 _].
        rewrite IH; [|lra|intros; apply C; right; assumption]. replace (zNURBS3DWeight n i j * Bv n v sv j) with 0 by lra. apply vec3_ext; spec_unfold; ring. }
      rewrite E0. apply vec3_ext; spec_unfold; ring.
    + right. destruct (hull_vsum (control_points n) (Iv n sv) _ _ C ltac:(lra)) as (q & Q & EQ). exists q. split; [exact Q|]. rewrite EQ. apply vec3_ext; spec_unfold; ring.
  - exact P.
  - fold (num n u v su sv) in EQ. fold (den n u v su sv) in EQ. rewrite EQ in E. subst p. replace (vscale (1 / den n u v su sv) (vscale (den n u v su sv) q)) with q; [exact Q|].
    apply vec3_ext; spec_unfold; field; lra.
Qed.

(** * Affine maps *)
Lemma vsum_lin {A} M (f : A -> vec3) l : mvec M (vsum f l) = vsum (fun a => mvec M (f a)) l.
Proof. induction l as [|a l IH]; [cbn; apply vec3_ext; spec_unfold; ring|]. rewrite !vsum_cons, <- IH. apply vec3_ext; spec_unfold; ring. Qed.
Lemma vec_affine seg n u v g c M : (forall p, g p = vadd c (mvec M p)) -> zNURBS3DVec seg (map_cp g n) u v = option_map (option_map g) (zNURBS3DVec seg n u v).
Proof.
  intros H. destruct (in_net n (zBSplineParamSeg seg (nu_0 n) u) (zBSplineParamSeg seg (nu_1 n) v)) eqn:I.
  2: { unfold zNURBS3DVec. change (in_net (map_cp g n)) with (in_net n). change (nu_0 (map_cp g n)) with (nu_0 n). change (nu_1 (map_cp g n)) with (nu_1 n). rewrite I. reflexivity. }
  rewrite (vec_eval seg n) by exact I. rewrite (vec_eval seg (map_cp g n)) by exact I. change (nu_0 (map_cp g n)) with (nu_0 n). change (nu_1 (map_cp g n)) with (nu_1 n).
  set (su := zBSplineParamSeg seg (nu_0 n) u). set (sv := zBSplineParamSeg seg (nu_1 n) v). change (den (map_cp g n) u v su sv) with (den n u v su sv).
  cbn [option_map]. f_equal. destruct (zIsTiny (den n u v su sv)) eqn:T; [reflexivity|]. cbn [option_map]. f_equal. rewrite H.
  assert (Z : den n u v su sv <> 0). { intros Z. rewrite Z in T. unfold zIsTiny, zIsTol in T. rewrite Rabs_R0 in T. destruct (Rltb_reflect 0 zTOL); [discriminate|]. pose proof zTOL_pos. lra. }
  assert (E : num (map_cp g n) u v su sv = vadd (vscale (den n u v su sv) c) (mvec M (num n u v su sv))).
  { unfold num at 1. change (Iu (map_cp g n) su) with (Iu n su). change (Iv (map_cp g n) sv) with (Iv n sv). change (Bu (map_cp g n) u su) with (Bu n u su). change (Bv (map_cp g n) v sv) with (Bv n v sv).
    rewrite (vsum_ext _ (fun i => vadd (vscale (Bu n u su i * rsum (fun j => zNURBS3DWeight n i j * Bv n v sv j) (Iv n sv)) c)
      (mvec M (vscale (Bu n u su i) (vsum (fun j => vscale (zNURBS3DWeight n i j * Bv n v sv j) (zNURBS3DCP n i j)) (Iv n sv)))))).
    - rewrite vsum_plus, vsum_const, <- vsum_lin. reflexivity.
    - intros i _. rewrite (vsum_ext _ (fun j => vadd (vscale (zNURBS3DWeight n i j * Bv n v sv j) c) (mvec M (vscale (zNURBS3DWeight n i j * Bv n v sv j) (zNURBS3DCP n i j))))).
      + rewrite vsum_plus, vsum_const, <- vsum_lin. apply vec3_ext; spec_unfold; ring.
      + intros j _. unfold zNURBS3DWeight, zNURBS3DCP, map_cp, set_net. cbn [nu_net nc_cp nc_w]. rewrite H. apply vec3_ext; spec_unfold; ring. }
  rewrite E. apply vec3_ext; spec_unfold; field; exact Z.
Qed.
