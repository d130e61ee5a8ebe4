(** Simplices of affinely independent points and their points nearest to the origin *)
From Verif Require Export SpecGJK ModelGJK FactsTri2 FactsSat FactsElem.
From Coq Require Import List Lia.
Import ListNotations.
Open Scope R_scope.

(** * Weighted sums *)
Lemma lin_nil_r ss : wsum ss [] = v3zero.
Proof. destruct ss; reflexivity. Qed.
Lemma dot_lin v : forall ss ws k, length ss = length ws -> (forall y, List.In y ws -> dot y v = k) -> dot (wsum ss ws) v = total ss * k.
Proof.
  induction ss as [|s ss IH]; intros [|w ws] k L H; cbn [length wsum total] in *; try discriminate.
  - rewrite dot_comm. clear. spec_unfold. ring.
  - specialize (IH ws k ltac:(congruence) (fun y Hy => H y (or_intror Hy))). pose proof (H w (or_introl eq_refl)) as Hw.
    replace (dot (vadd (vscale s w) (wsum ss ws)) v) with (s * dot w v + dot (wsum ss ws) v) by (clear; spec_unfold; ring). rewrite IH, Hw. ring.
Qed.
Lemma dot_lin_ge v : forall ss ws k, length ss = length ws -> Forall (fun s => 0 <= s) ss -> (forall y, List.In y ws -> k <= dot y v) -> total ss * k <= dot (wsum ss ws) v.
Proof.
  induction ss as [|s ss IH]; intros [|w ws] k L P H; cbn [length wsum total] in *; try discriminate.
  - clear. spec_unfold. lra.
  - inversion P as [|? ? P1 P2 EE]; subst. specialize (IH ws k ltac:(congruence) P2 (fun y Hy => H y (or_intror Hy))). pose proof (H w (or_introl eq_refl)) as Hw.
    replace (dot (vadd (vscale s w) (wsum ss ws)) v) with (s * dot w v + dot (wsum ss ws) v) by (clear; spec_unfold; ring). nra.
Qed.
(** complementary slackness *)
Lemma slack v : forall ss ws k, length ss = length ws -> Forall (fun s => 0 <= s) ss -> (forall y, List.In y ws -> k <= dot y v) -> dot (wsum ss ws) v <= total ss * k ->
  Forall2 (fun s y => 0 < s -> dot y v = k) ss ws.
Proof.
  induction ss as [|s ss IH]; intros [|w ws] k L P H E; cbn [length wsum total] in *; try discriminate; [constructor|].
  inversion P as [|? ? P1 P2 EE]; subst. pose proof (H w (or_introl eq_refl)) as Hw.
  pose proof (dot_lin_ge v ss ws k ltac:(congruence) P2 (fun y Hy => H y (or_intror Hy))) as G.
  replace (dot (vadd (vscale s w) (wsum ss ws)) v) with (s * dot w v + dot (wsum ss ws) v) in E by (clear; spec_unfold; ring).
  constructor.
  - intros Hs. apply Rle_antisym; [|exact Hw]. apply Rmult_le_reg_l with s; [exact Hs|]. lra.
  - apply IH; [congruence|exact P2|intros y Hy; apply H; right; exact Hy|]. nra.
Qed.
Lemma lin_app : forall s1 w1 s2 w2, length s1 = length w1 -> wsum (s1 ++ s2) (w1 ++ w2) = vadd (wsum s1 w1) (wsum s2 w2).
Proof.
  induction s1 as [|s s1 IH]; intros [|w w1] s2 w2 L; cbn [app wsum length] in *; try discriminate.
  - apply vec3_ext; spec_unfold; ring.
  - rewrite IH by congruence. apply vec3_ext; spec_unfold; ring.
Qed.
Lemma total_app s1 s2 : total (s1 ++ s2) = total s1 + total s2.
Proof. induction s1; cbn [app total]; lra. Qed.
Lemma split_len {A B} (cs : list A) (a : list B) x b : length cs = length (a ++ x :: b) -> exists ca c cb, cs = ca ++ c :: cb /\ length ca = length a /\ length cb = length b.
Proof.
  revert cs. induction a as [|y a IH]; intros [|c cs] L; cbn [app length] in L; try discriminate.
  - exists [], c, cs. repeat split. cbn. congruence.
  - destruct (IH cs ltac:(congruence)) as (ca & c' & cb & -> & L1 & L2). exists (c :: ca), c', cb. cbn. auto.
Qed.
(** * Affine independence *)
Lemma indep_drop a x b : affine_indep (a ++ x :: b) -> affine_indep (a ++ b).
Proof.
  intros H cs L T E. rewrite app_length in L. set (ca := firstn (length a) cs). set (cb := skipn (length a) cs).
  assert (EC : cs = ca ++ cb) by (symmetry; apply firstn_skipn).
  assert (La : length ca = length a) by (unfold ca; rewrite firstn_length; lia).
  assert (Lb : length cb = length b) by (unfold cb; rewrite skipn_length; lia).
  clearbody ca cb. subst cs. specialize (H (ca ++ 0 :: cb)).
  rewrite !app_length in *. cbn [length] in H. specialize (H ltac:(lia)). rewrite total_app in *. cbn [total] in H. specialize (H ltac:(lra)).
  rewrite lin_app in * by exact La. cbn [wsum] in H.
  assert (G : vadd (wsum ca a) (vadd (vscale 0 x) (wsum cb b)) = v3zero) by (rewrite <- E; clear; apply vec3_ext; spec_unfold; ring).
  specialize (H G). apply Forall_app in H as [H1 H2]. apply Forall_inv_tail in H2. apply Forall_app; auto.
Qed.
Lemma indep_filter {A} (f : A -> bool) (g : A -> vec3) l : forall p, affine_indep (p ++ map g l) -> affine_indep (p ++ map g (filter f l)).
Proof.
  induction l as [|x l IH]; intros p H; cbn [map filter] in *; [exact H|].
  destruct (f x); cbn [map].
  - specialize (IH (p ++ [g x])). rewrite <- !app_assoc in IH. cbn [app] in IH. auto.
  - apply IH. eapply indep_drop; exact H.
Qed.
Lemma indep_insert a x b v k : affine_indep (a ++ b) -> (forall y, List.In y (a ++ b) -> dot y v = k) -> dot x v <> k -> affine_indep (a ++ x :: b).
Proof.
  intros H K N cs L T E. destruct (split_len cs a x b L) as (ca & c & cb & -> & La & Lb).
  rewrite total_app in T. cbn [total] in T. rewrite lin_app in E by exact La. cbn [wsum] in E.
  assert (G : dot (vadd (wsum ca a) (vadd (vscale c x) (wsum cb b))) v = 0) by (rewrite E; clear; spec_unfold; ring).
  replace (dot (vadd (wsum ca a) (vadd (vscale c x) (wsum cb b))) v) with (dot (wsum ca a) v + c * dot x v + dot (wsum cb b) v) in G by (clear; spec_unfold; ring).
  rewrite (dot_lin v ca a k La) in G by (intros; apply K, in_or_app; auto). rewrite (dot_lin v cb b k Lb) in G by (intros; apply K, in_or_app; auto).
  assert (C0 : c = 0).
  { assert (Z : c * (dot x v - k) = 0). { replace (total ca) with (- (c + total cb)) in G by lra. lra. }
    apply Rmult_integral in Z as [Z|Z]; [exact Z|lra]. }
  subst c. assert (H' : Forall (fun c => c = 0) (ca ++ cb)).
  { apply H; [rewrite !app_length; lia|rewrite total_app; lra|]. rewrite lin_app by exact La. rewrite <- E. clear. apply vec3_ext; spec_unfold; ring. }
  apply Forall_app in H' as [H1 H2]. apply Forall_app; auto.
Qed.
Lemma indep_one a : affine_indep [a].
Proof. intros [|c [|? ?]] L T E; try discriminate. cbn in T. constructor; [lra|constructor]. Qed.
Lemma indep2 a b : affine_indep [a; b] -> a <> b.
Proof.
  intros H ->. specialize (H [1; -1] eq_refl). cbn [total wsum] in H. specialize (H ltac:(lra)).
  assert (F : Forall (fun c => c = 0) [1; -1]) by (apply H; clear; apply vec3_ext; spec_unfold; ring). inversion F; lra.
Qed.
Lemma indep3 a b c : affine_indep [a; b; c] -> tri_normal a b c <> v3zero.
Proof.
  intros H N. unfold tri_normal in N.
  assert (NE : vsub b a <> v3zero).
  { intros Z. assert (F : Forall (fun c => c = 0) [1; -1; 0]).
    { apply H; [reflexivity|cbn; lra|]. cbn [wsum]. clear - Z. assert (X : vx b = vx a /\ vy b = vy a /\ vz b = vz a). { pose proof (f_equal vx Z). pose proof (f_equal vy Z). pose proof (f_equal vz Z). spec_unfold. cbn in *. lra. }
      apply vec3_ext; spec_unfold; cbn; lra. }
    inversion F; lra. }
  destruct (cross_zero_parallel _ _ NE N) as (k & K).
  assert (F : Forall (fun c => c = 0) [k - 1; - k; 1]).
  { apply H; [reflexivity|cbn; lra|]. cbn [wsum]. clear - K. pose proof (f_equal vx K). pose proof (f_equal vy K). pose proof (f_equal vz K). apply vec3_ext; spec_unfold; cbn in *; lra. }
  inversion F as [|? ? ? F1]; subst. inversion F1 as [|? ? ? F2]; subst. inversion F2; lra.
Qed.
Lemma cramer p q x : vscale (dot (cross p q) (cross p q)) x =
  vadd (vadd (vscale (dot x (cross q (cross p q))) p) (vscale (dot p (cross x (cross p q))) q)) (vscale (dot (cross p q) x) (cross p q)).
Proof. apply vec3_ext; spec_unfold; ring. Qed.
Lemma indep4 a b c d : affine_indep [a; b; c; d] -> vol6 a b c d <> 0.
Proof.
  intros H V. assert (H3 : tri_normal a b c <> v3zero) by (apply indep3; exact (indep_drop [a; b; c] d [] H)).
  unfold vol6 in V. unfold tri_normal in H3.
  set (p := vsub b a) in *. set (q := vsub c a) in *. set (x := vsub d a) in *.
  pose proof (cramer p q x) as C. replace (dot (cross p q) x) with 0 in C by (rewrite <- V; unfold det3v; clear; spec_unfold; ring).
  set (N2 := dot (cross p q) (cross p q)) in *. set (A := dot x (cross q (cross p q))) in *. set (B := dot p (cross x (cross p q))) in *.
  assert (F : Forall (fun c => c = 0) [A + B - N2; - A; - B; N2]).
  { apply H; [reflexivity|cbn; lra|]. cbn [wsum]. clearbody N2 A B. unfold p, q, x in C. clear - C. pose proof (f_equal vx C) as X. pose proof (f_equal vy C) as Y. pose proof (f_equal vz C) as Z. clear C.
    apply vec3_ext; spec_unfold; cbn in *; lra. }
  apply H3. inversion F as [|? ? ? F1]; subst. inversion F1 as [|? ? ? F2]; subst. inversion F2 as [|? ? ? F3]; subst. inversion F3 as [|? ? F4 ?]; subst.
  apply dot_self_zero. exact F4.
Qed.
(** * The point nearest to the origin supports the simplex *)
Lemma segment_min v y : (forall t, 0 <= t <= 1 -> norm v <= norm (vadd v (vscale t (vsub y v)))) -> dot v v <= dot y v.
Proof.
  intros H. destruct (Rle_lt_dec (dot v v) (dot y v)) as [G|G]; [exact G|exfalso].
  set (d := vsub y v) in *. set (b := dot v v - dot y v). assert (Hb : 0 < b) by (unfold b; lra).
  assert (E1 : dot d v = - b) by (unfold d, b; clear; spec_unfold; ring).
  pose proof (dot_self_nonneg d) as D0. set (t := b / (b + dot d d)).
  assert (P : 0 < b + dot d d) by lra.
  assert (Ht : 0 < t <= 1). { unfold t. split; [apply Rdiv_lt_0_compat; lra|]. apply Rmult_le_reg_r with (b + dot d d); [lra|]. unfold Rdiv. rewrite Rmult_assoc, Rinv_l by lra. lra. }
  assert (Tb : t * (b + dot d d) = b) by (unfold t; field; lra).
  specialize (H t ltac:(lra)). assert (H2 : norm v * norm v <= norm (vadd v (vscale t d)) * norm (vadd v (vscale t d))) by (pose proof (norm_nonneg v); nra).
  rewrite !norm_sqr in H2. replace (dot (vadd v (vscale t d)) (vadd v (vscale t d))) with (dot v v + 2 * t * dot d v + t * t * dot d d) in H2 by (clear; spec_unfold; ring).
  rewrite E1 in H2. assert (t * (t * dot d d) = t * (b - t * b)) by (f_equal; lra). nra.
Qed.
(** * Well-posed simplices *)
Definition sturdy_list (ws : list vec3) : Prop := forall a b c, List.In a ws -> List.In b ws -> List.In c ws -> tri_normal a b c = v3zero \/ ~ negligible (tri_normal a b c).
Lemma face_ok ws a b c : sturdy_list ws -> List.In a ws -> List.In b ws -> List.In c ws -> tri_normal a b c <> v3zero -> ~ negligible (tri_normal a b c).
Proof. intros H A B C N. destruct (H a b c A B C); [contradiction|assumption]. Qed.
Lemma closestOf_ok ws : (1 <= length ws <= 4)%nat -> affine_indep ws -> sturdy_list ws ->
  exists ss v, closestOf ws = Some (ss, v) /\ length ss = length ws /\ Forall (fun s => 0 <= s) ss /\ total ss = 1 /\ v = wsum ss ws /\ forall y, List.In y ws -> dot v v <= dot y v.
Proof.
  intros L I S.
  assert (CB : forall t v y, vadd v (vscale t (vsub y v)) = vadd (vscale (1 - t) v) (vscale t y)) by (intros; apply vec3_ext; spec_unfold; ring).
  destruct ws as [|a [|b [|c [|d [|e ws]]]]]; cbn [length] in L; try lia.
  - exists [1], a. cbn. repeat split; try (repeat (apply Forall_cons; [lra|]); apply Forall_nil); try lra.
    + apply vec3_ext; spec_unfold; ring.
    + intros y [->|[]]; lra.
  - cbn [closestOf]. destruct (edge3_ok a b (indep2 _ _ I)) as ([[[d s0] s1] v] & E & (W & C & _ & M)). rewrite E. destruct W as (W0 & W1 & WS).
    exists [s0; s1], v. cbn [length total wsum]. repeat split; try (repeat (apply Forall_cons; [lra|]); apply Forall_nil); try lra.
    + rewrite C. unfold comb2. apply vec3_ext; spec_unfold; ring.
    + intros y Hy. apply segment_min. intros t Ht. apply M. rewrite CB.
      destruct Hy as [<-|[<-|[]]]; [exists ((1 - t) * s0 + t), ((1 - t) * s1)|exists ((1 - t) * s0), ((1 - t) * s1 + t)]; (split; [unfold weights2; nra|rewrite C; unfold comb2; apply vec3_ext; spec_unfold; ring]).
  - cbn [closestOf]. pose proof (face_ok _ a b c S ltac:(cbn; auto) ltac:(cbn; auto) ltac:(cbn; auto) (indep3 _ _ _ I)) as NN.
    destruct (tri3_all a b c (or_introl NN)) as ([d [[[s0 s1] s2] v]] & E & (W & C & D) & M). rewrite E. destruct W as (W0 & W1 & W2 & WS). cbn [fst] in M. rewrite D in M.
    exists [s0; s1; s2], v. cbn [length total wsum]. repeat split; try (repeat (apply Forall_cons; [lra|]); apply Forall_nil); try lra.
    + rewrite C. unfold comb3, comb2. apply vec3_ext; spec_unfold; ring.
    + intros y Hy. apply segment_min. intros t Ht. apply M. rewrite CB.
      destruct Hy as [<-|[<-|[<-|[]]]]; [exists ((1 - t) * s0 + t), ((1 - t) * s1), ((1 - t) * s2)|exists ((1 - t) * s0), ((1 - t) * s1 + t), ((1 - t) * s2)|exists ((1 - t) * s0), ((1 - t) * s1), ((1 - t) * s2 + t)];
       (split; [unfold weights3; nra|rewrite C; unfold comb3, comb2; apply vec3_ext; spec_unfold; ring]).
  - cbn [closestOf]. pose proof (indep4 _ _ _ _ I) as V.
    assert (F : forall x y z, List.In x [a; b; c; d] -> List.In y [a; b; c; d] -> List.In z [a; b; c; d] -> tri_normal x y z <> v3zero -> ~ negligible (tri_normal x y z)) by (intros; eapply face_ok; eauto).
    assert (GT : good_tetra a b c d).
    { split; [exact V|]. repeat split; apply F; cbn [List.In]; auto; intros Z; apply V.
      - replace (vol6 a b c d) with (dot (vsub b a) (tri_normal b c d)) by (unfold vol6, tri_normal; clear; spec_unfold; ring). rewrite Z. clear. spec_unfold. ring.
      - replace (vol6 a b c d) with (dot (vsub b c) (tri_normal c d a)) by (unfold vol6, tri_normal; clear; spec_unfold; ring). rewrite Z. clear. spec_unfold. ring.
      - replace (vol6 a b c d) with (dot (vsub d c) (tri_normal d a b)) by (unfold vol6, tri_normal; clear; spec_unfold; ring). rewrite Z. clear. spec_unfold. ring.
      - replace (vol6 a b c d) with (dot (vsub d a) (tri_normal a b c)) by (unfold vol6, tri_normal; clear; spec_unfold; ring). rewrite Z. clear. spec_unfold. ring. }
    destruct (tetra_ok a b c d GT) as ([e [[[[s0 s1] s2] s3] v]] & E & (W & C & D) & M). rewrite E. destruct W as (W0 & W1 & W2 & W3 & WS). cbn [fst] in M. rewrite D in M.
    exists [s0; s1; s2; s3], v. cbn [length total wsum]. repeat split; try (repeat (apply Forall_cons; [lra|]); apply Forall_nil); try lra.
    + rewrite C. unfold comb4, comb3, comb2. apply vec3_ext; spec_unfold; ring.
    + intros y Hy. apply segment_min. intros t Ht. apply M. rewrite CB.
      destruct Hy as [<-|[<-|[<-|[<-|[]]]]]; [exists ((1 - t) * s0 + t), ((1 - t) * s1), ((1 - t) * s2), ((1 - t) * s3)|exists ((1 - t) * s0), ((1 - t) * s1 + t), ((1 - t) * s2), ((1 - t) * s3)|exists ((1 - t) * s0), ((1 - t) * s1), ((1 - t) * s2 + t), ((1 - t) * s3)|exists ((1 - t) * s0), ((1 - t) * s1), ((1 - t) * s2), ((1 - t) * s3 + t)];
       (split; [unfold weights4; nra|rewrite C; unfold comb4, comb3, comb2; apply vec3_ext; spec_unfold; ring]).
Qed.
