(** Certificates for the nearest point; runs of the GJK algorithm with a wrong answer *)
From Verif Require Export FactsGJK4 FactsMisc2.
From Coq Require Import List Lia.
Import ListNotations.
Open Scope R_scope.

Lemma total_sub : forall a b, length a = length b -> total (map (fun p => fst p - snd p) (combine a b)) = total a - total b.
Proof. induction a as [|x a IH]; intros [|y b] L; try discriminate; cbn [combine map total fst snd]; [ring|]. rewrite IH by (cbn in L; congruence). ring. Qed.
Lemma wsum_sub : forall a b ws, length a = length b -> wsum (map (fun p => fst p - snd p) (combine a b)) ws = vsub (wsum a ws) (wsum b ws).
Proof.
  induction a as [|x a IH]; intros [|y b] ws L; try discriminate; cbn [combine map wsum fst snd]; [apply vec3_ext; spec_unfold; ring|].
  destruct ws as [|w ws]; [apply vec3_ext; spec_unfold; ring|]. rewrite IH by (cbn in L; congruence). apply vec3_ext; spec_unfold; ring.
Qed.
Lemma sub_zero : forall a b, length a = length b -> Forall (fun c => c = 0) (map (fun p => fst p - snd p) (combine a b)) -> a = b.
Proof. induction a as [|x a IH]; intros [|y b] L F; try discriminate; [reflexivity|]. cbn [combine map] in F. apply Forall_cons_iff in F as [F1 F2]. cbn in F1. f_equal; [lra|]. apply IH; [cbn in L; congruence|exact F2]. Qed.
Lemma closest_cert ws ss : (1 <= length ws <= 4)%nat -> affine_indep ws -> sturdy_list ws -> length ss = length ws -> Forall (fun s => 0 <= s) ss -> total ss = 1 ->
  (forall y, List.In y ws -> dot (wsum ss ws) (wsum ss ws) <= dot y (wsum ss ws)) -> closestOf ws = Some (ss, wsum ss ws).
Proof.
  intros L I S SL SP ST SM. destruct (closestOf_ok ws L I S) as (ss' & v' & E & SL' & SP' & ST' & -> & SM'). rewrite E.
  set (v := wsum ss ws) in *. set (v' := wsum ss' ws) in *.
  assert (A : total ss' * dot v v <= dot v' v). { apply dot_lin_ge; [exact SL'|exact SP'|exact SM]. }
  assert (B : total ss * dot v' v' <= dot v v'). { apply dot_lin_ge; [exact SL|exact SP|exact SM']. }
  rewrite ST, ST' in *. assert (EQ : vsub v' v = v3zero).
  { apply dot_self_zero. pose proof (dot_self_nonneg (vsub v' v)) as P. replace (dot (vsub v' v) (vsub v' v)) with (dot v' v' - dot v' v - dot v v' + dot v v) in * by (clear; spec_unfold; ring). lra. }
  assert (W : ss' = ss).
  { apply sub_zero; [congruence|]. apply I; [rewrite map_length, combine_length; lia|rewrite total_sub by congruence; lra|]. rewrite wsum_sub by congruence. exact EQ. }
  unfold v', v. rewrite W. reflexivity.
Qed.
Lemma loop_next fuel l1 l2 s v dv p1 p2 w s' v' : gjkSupportMap l1 l2 v = Some (p1, p2, w) -> checkDupSlot s w = false -> (dv = None \/ exists d, dv = Some d /\ zTOL < d - dot w v) ->
  simplexClosest (addSlot s w p1 p2) = Some (s', v') -> Nat.ltb (sx_n s') 4 = true -> gjkLoop (S fuel) l1 l2 s v dv = gjkLoop fuel l1 l2 s' v' (Some (dot v' v')).
Proof.
  intros E D H C N. cbn [gjkLoop]. rewrite E, D. cbn [orb]. destruct H as [->|(d & -> & H)].
  - rewrite C, N. zvg. reflexivity.
  - zvg. destruct (Rleb_reflect (d - dot w v) zTOL); [lra|]. rewrite C, N. zvg. reflexivity.
Qed.
Lemma loop_dup fuel l1 l2 s v dv p1 p2 w : gjkSupportMap l1 l2 v = Some (p1, p2, w) -> checkDupSlot s w = true -> gjkLoop (S fuel) l1 l2 s v dv = Done s v.
Proof. intros E D. cbn [gjkLoop]. rewrite E, D. reflexivity. Qed.
Lemma sturdy_by ws : (forall a b c, List.In a ws -> List.In b ws -> List.In c ws -> vx (tri_normal a b c) = 0 /\ vy (tri_normal a b c) = 0 /\ (vz (tri_normal a b c) = 0 \/ zTOL <= Rabs (vz (tri_normal a b c)))) -> sturdy_list ws.
Proof.
  intros H a b c A B C. destruct (H a b c A B C) as (X & Y & [Z|Z]); [left|right].
  - apply vec3_ext; cbn; assumption.
  - intros (_ & _ & N). lra.
Qed.
Lemma indep_pair a b : dot (vsub b a) (vsub b a) <> 0 -> affine_indep [a; b].
Proof. intros H. apply (indep_insert [a] b [] (vsub b a) (dot a (vsub b a))); [apply indep_one|intros y [<-|[]]; reflexivity|]. intros E. apply H. replace (dot (vsub b a) (vsub b a)) with (dot b (vsub b a) - dot a (vsub b a)) by (clear; spec_unfold; ring). lra. Qed.
Lemma indep_triple a b c v : dot (vsub b a) (vsub b a) <> 0 -> dot b v = dot a v -> dot c v <> dot a v -> affine_indep [a; b; c].
Proof. intros H E N. apply (indep_insert [a; b] c [] v (dot a v)); [apply indep_pair; exact H|intros y [<-|[<-|[]]]; [reflexivity|exact E]|exact N]. Qed.

(** numbers *)
Ltac nums := unfold tri_normal, dot, cross, vsub, vadd, vscale, vneg, v3zero, comb2, zVec3DInnerProd, zVec3DRev, zVec3DSub, zVec3DAdd in *; cbn [vx vy vz] in *.
Ltac rl := repeat match goal with |- context [Rltb ?a ?b] => (replace (Rltb a b) with true by (destruct (Rltb_reflect a b); [reflexivity|exfalso; nums; lra])) || (replace (Rltb a b) with false by (destruct (Rltb_reflect a b); [exfalso; nums; lra|reflexivity])); cbn [fst snd] end.
Ltac rq := repeat match goal with |- context [Reqb ?a ?b] => (replace (Reqb a b) with true by (destruct (Reqb_reflect a b); [reflexivity|exfalso; lra])) || (replace (Reqb a b) with false by (destruct (Reqb_reflect a b); [exfalso; lra|reflexivity])) end.
Ltac tiny := repeat match goal with |- context [zIsTiny ?a] => (replace (zIsTiny a) with true by (unfold zIsTiny, zIsTol; destruct (Rltb_reflect (Rabs a) zTOL) as [|X]; [reflexivity|exfalso; apply X; rewrite Rabs_right by lra; pose proof tol_small; lra])) ||
  (replace (zIsTiny a) with false by (unfold zIsTiny, zIsTol; destruct (Rltb_reflect (Rabs a) zTOL) as [X|]; [exfalso; rewrite Rabs_right in X by lra; pose proof tol_small; lra|reflexivity])) end.
Ltac veq := apply vec3_ext; nums; lra.

Ltac ins H := cbn in H; repeat (destruct H as [H|H]; [subst|]); [..|destruct H].
Ltac flat := apply sturdy_by; intros a b c A B C; cbn [List.In] in A, B, C; repeat (destruct A as [<-|A]; [|]); try destruct A; repeat (destruct B as [<-|B]; [|]); try destruct B; repeat (destruct C as [<-|C]; [|]); try destruct C;
  (split; [nums; lra|split; [nums; lra|]]); first [left; nums; lra|right; nums; rewrite Rabs_right by lra; lra|right; nums; rewrite Rabs_left by lra; lra].
Ltac cert := first [cbn [length]; lia|reflexivity|repeat (apply Forall_cons; [lra|]); apply Forall_nil|cbn [total]; lra].
Definition msl (w : vec3) (sw sy : bool) (s : R) := SL sw sy w (Some (w, v3zero)) s.
Ltac runstep ws ss un := unfold simplexClosest, addSlot; cbn [sx_slot map fillSlot sw_w sw_y sl_w sl_p sl_s msl slotInit filter];
    rewrite (closest_cert ws ss);
    [cbn [putWeights map sw_y msl slotInit sw_w sl_w sl_p]; unfold minimizeSlot; cbn [sl_s sw_y sl_w sl_p]; tiny; cbn [sw_y sl_w sl_p sl_s sw_w filter length]; f_equal; f_equal; cbn [wsum]; un; veq
    |cert| |un; flat|cert|cert|cert|cbn [wsum List.In]; intros y Hy; repeat (destruct Hy as [<-|Hy]; [|]); try destruct Hy; un; nums; lra].

(** ** A point deep inside, reported as separate *)
Definition mA := V3 (-2) (1/2) 0. Definition mB := V3 (-1) (-1/2) 0. Definition mC := V3 (1/2) (-2/5) 0. Definition mD := V3 1 (1/2) 0. Definition mE := V3 0 0 1. Definition mF := V3 0 0 (-1).
Definition mset := [mD; mA; mB; mC; mE; mF].
Ltac mun := unfold mA, mB, mC, mD, mE, mF in *.
Lemma m_support l v p : supportMap l (vneg v) = Some p -> gjkSupportMap l [v3zero] v = Some (p, v3zero, p).
Proof. intros E. unfold gjkSupportMap. zvg. rewrite E. cbn [supportMap fold_left fst]. zvg. replace (vsub p v3zero) with p; [reflexivity|]. apply vec3_ext; spec_unfold; ring. Qed.
Ltac supp un := apply m_support; unfold supportMap; cbn [fold_left fst snd]; un; rl; reflexivity.
Lemma m_run : gjkLoop 4 mset [v3zero] simplexInit mD None = Done (SX 2 [msl mA false true 0; msl mD true true (1/2); msl mB true true (1/2); slotInit]) v3zero.
Proof.
  pose proof tol_small as TS.
  rewrite (loop_next 3 mset [v3zero] simplexInit mD None mA v3zero mA (SX 1 [msl mA true true 1; slotInit; slotInit; slotInit]) mA).
  2: { unfold mset. supp mun. }
  2: reflexivity. 2: left; reflexivity.
  2: { unfold simplexClosest. cbn. unfold minimizeSlot. cbn [sl_s]. tiny. reflexivity. }
  2: reflexivity.
  rewrite (loop_next 2 mset [v3zero] _ mA _ mD v3zero mD (SX 2 [msl mA true true (1/3); msl mD true true (2/3); slotInit; slotInit]) (V3 0 (1/2) 0)).
  2: { unfold mset. supp mun. }
  2: { unfold checkDupSlot, zVec3DMatch. cbn. rq. reflexivity. }
  2: { right. eexists. split; [reflexivity|]. mun. nums. lra. }
  2: { runstep [mA; mD] [1/3; 2/3] mun. apply indep_pair. mun. nums. lra. }
  2: reflexivity.
  rewrite (loop_next 1 mset [v3zero] _ (V3 0 (1/2) 0) _ mB v3zero mB (SX 2 [msl mA false true 0; msl mD true true (1/2); msl mB true true (1/2); slotInit]) v3zero).
  2: { unfold mset. supp mun. }
  2: { unfold checkDupSlot, zVec3DMatch. cbn. rq. reflexivity. }
  2: { right. eexists. split; [reflexivity|]. mun. nums. lra. }
  2: { runstep [mA; mD; mB] [0; 1/2; 1/2] mun. apply (indep_triple _ _ _ (V3 0 1 0)); mun; nums; lra. }
  2: reflexivity.
  apply (loop_dup 0 mset [v3zero] _ v3zero _ mD v3zero mD).
  - unfold mset. supp mun.
  - unfold checkDupSlot, zVec3DMatch. cbn. rq. reflexivity.
Qed.
Lemma m_inside x : norm x <= 1 / 20 -> convex_hull mset x.
Proof.
  intros H. assert (C : -1/20 <= vx x <= 1/20 /\ -1/20 <= vy x <= 1/20 /\ -1/20 <= vz x <= 1/20).
  { pose proof (norm_sqr x) as Q. pose proof (norm_nonneg x). assert (N : dot x x <= 1/20 * (1/20)) by nra. revert N. clear. destruct x as [a b c]. nums. intros N. repeat split; nra. }
  destruct C as (X & Y & Z).
  set (a := vx x) in *. set (b := vy x) in *. set (c := vz x) in *.
  replace x with (wsum [11/162 + 1/6 + a/3 + b/3; 13/162 - a/3 + 2/3*b; 1/6 - b; 30/162; 1/6 + c/2; 1/6 - c/2] mset).
  - apply hull_wsum; [|cbn [total]; lra]. unfold mset. repeat (apply Forall2_cons; [split; [lra|right; constructor; cbn; tauto]|]). constructor.
  - unfold mset. cbn [wsum]. mun. apply vec3_ext; nums; fold a b c; lra.
Qed.
Lemma m_check old : gjkCheck old (SX 2 [msl mA false true 0; msl mD true true (1/2); msl mB true true (1/2); slotInit]) = false.
Proof.
  pose proof tol_small as TS. unfold gjkCheck. cbn [sx_n sx_slot nth sl_w msl]. destruct (zEdge3DPointIsOnLine (E3 mA mD) v3zero zTOL old) eqn:E; [exfalso|reflexivity].
  destruct (edge_proj (E3 mA mD) v3zero old) as [_ K]; [cbn [ev0 ev1]; mun; nums; intros (X & _); cbn [vx] in X; rewrite Rabs_right in X by lra; lra|]. apply K in E; [|lra].
  cbn [ev0 ev1] in E. destruct E as [(X & _)|(x & (t & ->) & X)].
  - mun. nums. cbn [vx] in X. rewrite Rabs_right in X by lra. lra.
  - unfold dist in X. assert (Q : 1/4 <= norm (vsub v3zero (vadd mA (vscale t (vsub mD mA))))); [|lra].
    apply Rsqr_incr_0_var; [|apply norm_nonneg]. unfold Rsqr. rewrite norm_sqr. mun. nums. pose proof (Rle_0_sqr (2 - 3 * t)) as SQ. unfold Rsqr in SQ. lra.
Qed.
Lemma gjk_misses old : exists l1 l2 c, zGJK 4 old l1 l2 = Some (c, c, false) /\ convex_hull l2 c /\ forall x, dist c x <= 1 / 20 -> convex_hull l1 x.
Proof.
  exists mset, [v3zero], v3zero. split; [|split].
  - unfold zGJK, mset at 1. zvg. replace (vsub mD v3zero) with mD by (unfold mD; veq). rewrite m_run. cbn [sx_slot gjkPair sw_w sl_p sl_s msl slotInit].
    rewrite m_check. zvg. f_equal. f_equal. f_equal; mun; veq.
  - constructor. left. reflexivity.
  - intros x H. apply m_inside. unfold dist in H. replace (vsub v3zero x) with (vscale (-1) x) in H by (apply vec3_ext; spec_unfold; ring). rewrite norm_scale in H. replace (Rabs (-1)) with 1 in H by (rewrite Rabs_left; lra). lra.
Qed.
(** ** Points half a metre apart, reported as colliding *)
Definition fD := V3 3 (7/2) 0. Definition fA := V3 1 (-1) 0. Definition fB := V3 1 1 0. Definition fC := V3 (1/2) (-1/2) 0.
Definition fset := [fD; fA; fB; fC].
Ltac fun' := unfold fA, fB, fC, fD in *.
Lemma f_run : gjkLoop 5 fset [v3zero] simplexInit fD None = Done (SX 2 [msl fA false true 0; msl fC true true (4/5); msl fB true true (1/5); slotInit]) (V3 (3/5) (-1/5) 0).
Proof.
  pose proof tol_small as TS.
  rewrite (loop_next 4 fset [v3zero] simplexInit fD None fA v3zero fA (SX 1 [msl fA true true 1; slotInit; slotInit; slotInit]) fA).
  2: { unfold fset. supp fun'. }
  2: reflexivity. 2: left; reflexivity.
  2: { unfold simplexClosest. cbn. unfold minimizeSlot. cbn [sl_s]. tiny. reflexivity. }
  2: reflexivity.
  rewrite (loop_next 3 fset [v3zero] _ fA _ fD v3zero fD (SX 2 [msl fA true true (87/97); msl fD true true (10/97); slotInit; slotInit]) (V3 (117/97) (-52/97) 0)).
  2: { unfold fset. supp fun'. }
  2: { unfold checkDupSlot, zVec3DMatch. cbn. rq. reflexivity. }
  2: { right. eexists. split; [reflexivity|]. fun'. nums. lra. }
  2: { runstep [fA; fD] [87/97; 10/97] fun'. apply indep_pair. fun'. nums. lra. }
  2: reflexivity.
  rewrite (loop_next 2 fset [v3zero] _ (V3 (117/97) (-52/97) 0) _ fB v3zero fB (SX 2 [msl fA true true (1/2); msl fD false true 0; msl fB true true (1/2); slotInit]) (V3 1 0 0)).
  2: { unfold fset. supp fun'. }
  2: { unfold checkDupSlot, zVec3DMatch. cbn. rq. reflexivity. }
  2: { right. eexists. split; [reflexivity|]. fun'. nums. lra. }
  2: { runstep [fA; fD; fB] [1/2; 0; 1/2] fun'. apply (indep_triple _ _ _ (V3 9 (-4) 0)); fun'; nums; lra. }
  2: reflexivity.
  rewrite (loop_next 1 fset [v3zero] _ (V3 1 0 0) _ fC v3zero fC (SX 2 [msl fA false true 0; msl fC true true (4/5); msl fB true true (1/5); slotInit]) (V3 (3/5) (-1/5) 0)).
  2: { unfold fset. supp fun'. }
  2: { unfold checkDupSlot, zVec3DMatch. cbn. rq. reflexivity. }
  2: { right. eexists. split; [reflexivity|]. fun'. nums. lra. }
  2: { runstep [fA; fC; fB] [0; 4/5; 1/5] fun'. apply (indep_triple _ _ _ (V3 1 1 0)); fun'; nums; lra. }
  2: reflexivity.
  apply (loop_dup 0 fset [v3zero] _ (V3 (3/5) (-1/5) 0) _ fB v3zero fB).
  - unfold fset. supp fun'.
  - unfold checkDupSlot, zVec3DMatch. cbn. rq. reflexivity.
Qed.
Lemma f_check old : gjkCheck old (SX 2 [msl fA false true 0; msl fC true true (4/5); msl fB true true (1/5); slotInit]) = true.
Proof.
  pose proof tol_small as TS. unfold gjkCheck. cbn [sx_n sx_slot nth sl_w msl].
  destruct (edge_proj (E3 fA fC) v3zero old) as [_ K]; [cbn [ev0 ev1]; fun'; nums; intros (X & _); cbn [vx] in X; rewrite Rabs_left in X by lra; lra|]. apply K; [lra|].
  right. exists v3zero. cbn [ev0 ev1]. split; [exists 2; fun'; veq|]. unfold dist. replace (vsub v3zero v3zero) with (vscale 0 v3zero) by veq. rewrite norm_scale, Rabs_R0. lra.
Qed.
Lemma gjk_false_alarm old : exists l1 l2 c1 c2, zGJK 5 old l1 l2 = Some (c1, c2, true) /\ forall x1 x2, convex_hull l1 x1 -> convex_hull l2 x2 -> 1 / 2 <= dist x1 x2.
Proof.
  exists fset, [v3zero], (V3 (3/5) (-1/5) 0), v3zero. split.
  - unfold zGJK, fset at 1. zvg. replace (vsub fD v3zero) with fD by (unfold fD; veq). rewrite f_run. cbn [sx_slot gjkPair sw_w sl_p sl_s msl slotInit].
    rewrite f_check. zvg. f_equal. f_equal. f_equal; fun'; veq.
  - intros x1 x2 H1 H2. set (v := V3 (3/5) (-1/5) 0).
    assert (Q : 2/5 <= dot (vsub x1 x2) v).
    { revert x1 x2 H1 H2. apply hull_difference. intros x (a & b & Ha & [<-|[]] & ->). unfold v. cbn in Ha. destruct Ha as [<-|[<-|[<-|[<-|[]]]]]; fun'; nums; lra. }
    unfold dist. pose proof (dot_le_norm (vsub x1 x2) v) as C. assert (NV : norm v * norm v = 2/5) by (rewrite norm_sqr; unfold v; nums; lra). pose proof (norm_nonneg v). pose proof (norm_nonneg (vsub x1 x2)).
    assert (norm v <= 4/5) by nra. nra.
Qed.
