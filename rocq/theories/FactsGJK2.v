(** The loop of the GJK algorithm: invariant and exits *)
From Verif Require Export FactsGJK.
From Coq Require Import List Lia.
Import ListNotations.
Open Scope R_scope.

(** * Support points *)
Lemma support_fold dir : forall t a x, x = dot a dir -> exists p y, fold_left (fun s v => if Rltb (snd s) (zVec3DInnerProd v dir) then (v, zVec3DInnerProd v dir) else s) t (a, x) = (p, y) /\
   y = dot p dir /\ (p = a \/ List.In p t) /\ x <= y /\ forall q, List.In q t -> dot q dir <= y.
Proof.
  induction t as [|b t IH]; intros a x E; cbn [fold_left].
  - exists a, x. split; [reflexivity|]. split; [exact E|]. split; [auto|]. split; [lra|]. intros q [].
  - cbn [snd]. cbv zeta. zvg. destruct (Rltb_reflect x (dot b dir)) as [L|L].
    + destruct (IH b (dot b dir) eq_refl) as (p & y & F & Y & M & Ly & Q). exists p, y. split; [exact F|]. split; [exact Y|]. split; [|split; [lra|]].
      * destruct M as [->|M]; cbn; auto.
      * intros q [<-|Hq]; [exact Ly|auto].
    + destruct (IH a x E) as (p & y & F & Y & M & Ly & Q). exists p, y. split; [exact F|]. split; [exact Y|]. split; [|split; [lra|]].
      * destruct M as [->|M]; cbn; auto.
      * intros q [<-|Hq]; [lra|auto].
Qed.
Lemma support_ok l dir : l <> [] -> exists p, supportMap l dir = Some p /\ List.In p l /\ forall q, List.In q l -> dot q dir <= dot p dir.
Proof.
  destruct l as [|a t]; [congruence|]. intros _. unfold supportMap. destruct (support_fold dir t a (zVec3DInnerProd a dir) ltac:(zvg; reflexivity)) as (p & y & F & Y & M & Ly & Q).
  rewrite F. cbn [fst]. exists p. split; [reflexivity|]. split; [destruct M; cbn; auto|]. intros q [<-|Hq]; [revert Ly; zvg; lra|]. rewrite <- Y. auto.
Qed.
Lemma gjk_support l1 l2 v : l1 <> [] -> l2 <> [] -> exists p1 p2, gjkSupportMap l1 l2 v = Some (p1, p2, vsub p1 p2) /\ List.In p1 l1 /\ List.In p2 l2 /\
  forall x, difference l1 l2 x -> dot (vsub p1 p2) v <= dot x v.
Proof.
  intros N1 N2. unfold gjkSupportMap. zvg. destruct (support_ok l1 (vneg v) N1) as (p1 & E1 & I1 & M1). destruct (support_ok l2 v N2) as (p2 & E2 & I2 & M2).
  rewrite E1, E2. exists p1, p2. zvg. split; [reflexivity|]. split; [exact I1|]. split; [exact I2|].
  intros x (a & b & Ha & Hb & ->). specialize (M1 a Ha). specialize (M2 b Hb). revert M1 M2. clear. intros.
  replace (dot (vsub p1 p2) v) with (- dot p1 (vneg v) - dot p2 v) by (spec_unfold; ring). replace (dot (vsub a b) v) with (- dot a (vneg v) - dot b v) by (spec_unfold; ring). lra.
Qed.
Lemma match_eq v w : zVec3DMatch v w = true <-> v = w.
Proof.
  unfold zVec3DMatch. rewrite !Bool.andb_true_iff. split.
  - intros [[A B] C]. apply vec3_ext; [revert A|revert B|revert C]; match goal with |- Reqb ?a ?b = true -> _ => destruct (Reqb_reflect a b) end; congruence.
  - intros ->. repeat split; match goal with |- Reqb ?a ?b = true => destruct (Reqb_reflect a b) end; congruence.
Qed.

(** * Invariant *)
Definition ok_slot (l1 l2 : list vec3) (sl : slot) : Prop := exists p1 p2, sl_p sl = Some (p1, p2) /\ List.In p1 l1 /\ List.In p2 l2 /\ sl_w sl = vsub p1 p2.
Definition ok_slots (l1 l2 : list vec3) (l : list slot) : Prop := Forall (fun sl => sw_y sl = true -> ok_slot l1 l2 sl) l.
Definition slot_g (sl : slot) (g : R) : Prop := 0 <= g /\ (sw_y sl = false -> g = 0) /\ (if sw_w sl then sl_s sl = g /\ zTOL <= g else sl_s sl = 0 /\ g < zTOL).
Definition ys (l : list slot) : list vec3 := map sl_w (filter sw_y l).
Record inv (l1 l2 : list vec3) (s : simplex) (v : vec3) (g : list R) : Prop := {
  inv_len : length (sx_slot s) = 4%nat;
  inv_ok : ok_slots l1 l2 (sx_slot s);
  inv_g : Forall2 slot_g (sx_slot s) g;
  inv_tot : total g = 1;
  inv_v : v = wsum g (map sl_w (sx_slot s));
  inv_min : forall y, List.In y (ys (sx_slot s)) -> dot v v <= dot y v;
  inv_ind : affine_indep (ys (sx_slot s));
  inv_n : sx_n s = length (filter sw_w (sx_slot s)) }.

(** minimised weights *)
Definition same_key (a b : slot) : Prop := sw_y a = sw_y b /\ sl_w a = sl_w b /\ sl_p a = sl_p b.
Lemma minimize_g sl g : sl_s sl = g -> 0 <= g -> (sw_y sl = false -> g = 0) -> slot_g (minimizeSlot sl) g.
Proof.
  intros E G Y. unfold slot_g, minimizeSlot, zIsTiny, zIsTol. rewrite E, (Rabs_right g) by lra. destruct (Rltb_reflect g zTOL) as [L|L]; cbn [sw_w sl_s sw_y]; repeat split; auto; lra.
Qed.
Lemma minimize_key sl : same_key (minimizeSlot sl) sl.
Proof. unfold minimizeSlot. destruct (zIsTiny (sl_s sl)); repeat split. Qed.
Lemma put_ok : forall l ss, length ss = length (filter sw_y l) -> Forall (fun s => 0 <= s) ss -> Forall (fun sl => sw_y sl = false -> sl_s sl = 0) l ->
  exists g, Forall2 slot_g (map minimizeSlot (putWeights l ss)) g /\ total g = total ss /\ wsum g (map sl_w l) = wsum ss (ys l) /\
    Forall2 same_key (map minimizeSlot (putWeights l ss)) l.
Proof.
  induction l as [|sl l IH]; intros ss L P Z; cbn [filter map putWeights length] in *.
  - destruct ss; [|discriminate]. exists []. repeat split; constructor.
  - apply Forall_cons_iff in Z as [Z1 Z2]. unfold ys. cbn [filter]. destruct (sw_y sl) eqn:Y.
    + destruct ss as [|s ss]; [discriminate|]. apply Forall_cons_iff in P as [P1 P2]. destruct (IH ss ltac:(cbn in L; congruence) P2 Z2) as (g & G & T & W & K).
      exists (s :: g). cbn [map total wsum]. repeat split.
      * constructor; [|exact G]. apply minimize_g; cbn; [reflexivity|exact P1|discriminate].
      * rewrite T. reflexivity.
      * rewrite W. reflexivity.
      * constructor; [|exact K]. destruct (minimize_key (SL (sw_w sl) true (sl_w sl) (sl_p sl) s)) as (A & B & C). repeat split; cbn in *; congruence.
    + destruct (IH ss L P Z2) as (g & G & T & W & K). exists (0 :: g). cbn [map total wsum]. repeat split.
      * constructor; [|exact G]. apply minimize_g; [auto|lra|reflexivity].
      * rewrite T. lra.
      * rewrite W. unfold ys. apply vec3_ext; spec_unfold; ring.
      * constructor; [|exact K]. apply minimize_key.
Qed.
Lemma same_ys a b : Forall2 same_key a b -> ys a = ys b.
Proof. induction 1 as [|x y a b (A & B & C) F IH]; [reflexivity|]. unfold ys in *. cbn [filter]. rewrite A. destruct (sw_y y); cbn [map]; congruence. Qed.
Lemma same_ws a b : Forall2 same_key a b -> map sl_w a = map sl_w b.
Proof. induction 1 as [|x y a b (A & B & C) F IH]; [reflexivity|]. cbn [map]. congruence. Qed.
Lemma same_len a b : Forall2 same_key a b -> length a = length b.
Proof. induction 1; cbn; congruence. Qed.
Lemma same_ok l1 l2 a b : Forall2 same_key a b -> ok_slots l1 l2 b -> ok_slots l1 l2 a.
Proof.
  induction 1 as [|x y a b (A & B & C) F IH]; intros H; [constructor|]. apply Forall_cons_iff in H as [H1 H2]. constructor; [|apply IH; exact H2].
  intros Y. rewrite A in Y. destruct (H1 Y) as (p1 & p2 & ?). exists p1, p2. rewrite B, C. assumption.
Qed.
(** adding a slot *)
Definition sync (sl : slot) : slot := SL (sw_w sl) (sw_w sl) (sl_w sl) (sl_p sl) (sl_s sl).
Definition ws_of (l : list slot) : list vec3 := map sl_w (filter sw_w l).
Lemma fill_ok l1 l2 p1 p2 : List.In p1 l1 -> List.In p2 l2 -> forall l, Forall (fun sl => sw_w sl = true -> ok_slot l1 l2 sl) l -> Forall (fun sl => sw_w sl = false -> sl_s sl = 0) l ->
  (length (filter sw_w l) < length l)%nat -> let l' := fillSlot (map sync l) (vsub p1 p2) p1 p2 in
  length l' = length l /\ ok_slots l1 l2 l' /\ Forall (fun sl => sw_y sl = false -> sl_s sl = 0) l' /\ exists a b, ys l' = a ++ vsub p1 p2 :: b /\ ws_of l = a ++ b.
Proof.
  intros I1 I2. induction l as [|sl l IH]; intros O Z L; cbv zeta; cbn [map fillSlot length filter] in *; [lia|].
  apply Forall_cons_iff in O as [O1 O2]. apply Forall_cons_iff in Z as [Z1 Z2]. cbn [sync sw_y].
  assert (M : forall l, Forall (fun sl => sw_w sl = true -> ok_slot l1 l2 sl) l -> ok_slots l1 l2 (map sync l)).
  { clear. intros l H. apply Forall_map. eapply Forall_impl; [|exact H]. intros a Ha Y. destruct (Ha Y) as (x & y & ?). exists x, y. exact H0. }
  assert (M2 : forall l, Forall (fun sl => sw_w sl = false -> sl_s sl = 0) l -> Forall (fun sl => sw_y sl = false -> sl_s sl = 0) (map sync l)).
  { clear. intros l H. apply Forall_map. eapply Forall_impl; [|exact H]. intros a Ha Y. exact (Ha Y). }
  destruct (sw_w sl) eqn:W.
  - cbn [length] in L. destruct (IH O2 Z2 ltac:(lia)) as (H1 & H2 & H3 & a & b & E1 & E2). cbn [length]. split; [congruence|]. split; [|split].
    + constructor; [|exact H2]. intros _. destruct (O1 eq_refl) as (x & y & ?). exists x, y. assumption.
    + constructor; [|exact H3]. cbn. rewrite W. discriminate.
    + exists (sl_w sl :: a), b. unfold ys, ws_of in *. cbn [filter sync sw_y]. rewrite W. cbn [map app sl_w]. rewrite E1, E2. split; reflexivity.
  - cbn [length]. rewrite map_length. split; [reflexivity|]. split; [|split].
    + constructor; [|apply M; exact O2]. intros _. exists p1, p2. auto.
    + constructor; [|apply M2; exact Z2]. cbn. discriminate.
    + exists [], (ws_of l). unfold ys, ws_of. cbn [filter sw_y map sl_w app]. rewrite W. split; [|reflexivity]. f_equal.
      clear. induction l as [|x l IH]; [reflexivity|]. cbn [map filter sync sw_y]. destruct (sw_w x); cbn [map]; [rewrite IH; reflexivity|exact IH].
Qed.
Lemma step_ok l1 l2 s p1 p2 : sturdy l1 l2 -> List.In p1 l1 -> List.In p2 l2 -> length (sx_slot s) = 4%nat -> Forall (fun sl => sw_w sl = true -> ok_slot l1 l2 sl) (sx_slot s) ->
  Forall (fun sl => sw_w sl = false -> sl_s sl = 0) (sx_slot s) -> (length (filter sw_w (sx_slot s)) < 4)%nat ->
  (forall a b, ws_of (sx_slot s) = a ++ b -> affine_indep (a ++ vsub p1 p2 :: b)) ->
  exists s' v' g, simplexClosest (addSlot s (vsub p1 p2) p1 p2) = Some (s', v') /\ inv l1 l2 s' v' g /\ exists a b, ys (sx_slot s') = a ++ vsub p1 p2 :: b /\ ws_of (sx_slot s) = a ++ b.
Proof.
  intros ST I1 I2 L O Z N IND.
  destruct (fill_ok l1 l2 p1 p2 I1 I2 (sx_slot s) O Z ltac:(lia)) as (L' & O' & Z' & a & b & E1 & E2).
  unfold simplexClosest, addSlot. cbn [sx_slot]. change (map (fun sl => SL (sw_w sl) (sw_w sl) (sl_w sl) (sl_p sl) (sl_s sl)) (sx_slot s)) with (map sync (sx_slot s)).
  set (l' := fillSlot (map sync (sx_slot s)) (vsub p1 p2) p1 p2) in *. fold (ys l').
  assert (YD : forall y, List.In y (ys l') -> difference l1 l2 y).
  { intros y Hy. apply in_map_iff in Hy as (sl & <- & Hs). apply filter_In in Hs as [Hs Y]. unfold ok_slots in O'. rewrite Forall_forall in O'. destruct (O' sl Hs Y) as (q1 & q2 & _ & J1 & J2 & ->). exists q1, q2. auto. }
  assert (YL : length (ys l') = S (length (filter sw_w (sx_slot s)))).
  { rewrite E1, app_length. cbn [length]. replace (length (filter sw_w (sx_slot s))) with (length (ws_of (sx_slot s))) by (unfold ws_of; apply map_length). rewrite E2, app_length. lia. }
  assert (YI : affine_indep (ys l')) by (rewrite E1; apply IND; exact E2).
  destruct (closestOf_ok (ys l') ltac:(lia) YI) as (ss & v & EC & SL & SP & ST1 & SV & SM).
  { intros x y z Hx Hy Hz. apply ST; auto. }
  rewrite EC. destruct (put_ok l' ss) as (g & G & T & W & K); [rewrite SL; unfold ys; apply map_length|exact SP|exact Z'|].
  exists (SX (length (filter sw_w (map minimizeSlot (putWeights l' ss)))) (map minimizeSlot (putWeights l' ss))), v, g.
  split; [reflexivity|]. split.
  - constructor; cbn [sx_slot sx_n].
    + rewrite (same_len _ _ K). congruence.
    + exact (same_ok _ _ _ _ K O').
    + exact G.
    + congruence.
    + rewrite (same_ws _ _ K), W. exact SV.
    + rewrite (same_ys _ _ K). exact SM.
    + rewrite (same_ys _ _ K). exact YI.
    + reflexivity.
  - exists a, b. cbn [sx_slot]. rewrite (same_ys _ _ K). auto.
Qed.
(** * What the invariant says *)
Lemma slack' v : forall ss ws k, Forall2 (fun s y => 0 <= s /\ (s = 0 \/ k <= dot y v)) ss ws -> total ss * k <= dot (wsum ss ws) v.
Proof.
  induction ss as [|s ss IH]; intros ws k F; inversion F as [|? ? ? ? [F1 F2] F3]; subst; cbn [wsum total]; [clear; spec_unfold; lra|].
  specialize (IH _ _ F3). match goal with |- _ <= dot (vadd (vscale s ?y) ?x) v => replace (dot (vadd (vscale s y) x) v) with (s * dot y v + dot x v) by (clear; spec_unfold; ring) end.
  destruct F2 as [->|F2]; nra.
Qed.
Lemma slack2 v : forall ss ws k, Forall2 (fun s y => 0 <= s /\ (s = 0 \/ k <= dot y v)) ss ws -> dot (wsum ss ws) v <= total ss * k -> Forall2 (fun s y => 0 < s -> dot y v = k) ss ws.
Proof.
  induction ss as [|s ss IH]; intros ws k F E; inversion F as [|? y ? ws' [F1 F2] F3]; subst; constructor.
  - intros Hs. pose proof (slack' v ss ws' k F3) as G. cbn [wsum total] in E. replace (dot (vadd (vscale s y) (wsum ss ws')) v) with (s * dot y v + dot (wsum ss ws') v) in E by (clear; spec_unfold; ring).
    destruct F2 as [F2|F2]; [lra|]. apply Rle_antisym; [|exact F2]. apply Rmult_le_reg_l with s; [exact Hs|]. lra.
  - apply IH; [exact F3|]. cbn [wsum total] in E. replace (dot (vadd (vscale s y) (wsum ss ws')) v) with (s * dot y v + dot (wsum ss ws') v) in E by (clear; spec_unfold; ring).
    destruct F2 as [->|F2]; nra.
Qed.
Lemma inv_pairs l1 l2 s v g : inv l1 l2 s v g -> Forall2 (fun h y => 0 <= h /\ (h = 0 \/ dot v v <= dot y v)) g (map sl_w (sx_slot s)).
Proof.
  intros I. pose proof (inv_g _ _ _ _ _ I) as G. pose proof (inv_min _ _ _ _ _ I) as M. revert M. generalize (dot v v). intros k M.
  revert M. unfold ys. clear I. induction G as [|sl h l g (G1 & G2 & G3) G IH]; intros M; [constructor|]. cbn [map]. constructor.
  - split; [exact G1|]. destruct (sw_y sl) eqn:Y; [right|left; auto]. apply M. cbn [filter]. rewrite Y. left. reflexivity.
  - apply IH. intros y Hy. apply M. cbn [filter]. destruct (sw_y sl); [right|]; exact Hy.
Qed.
Lemma inv_slack l1 l2 s v g : inv l1 l2 s v g -> Forall2 (fun h y => 0 < h -> dot y v = dot v v) g (map sl_w (sx_slot s)).
Proof.
  intros I. apply slack2; [exact (inv_pairs _ _ _ _ _ I)|]. rewrite (inv_tot _ _ _ _ _ I), <- (inv_v _ _ _ _ _ I). lra.
Qed.
Lemma inv_active l1 l2 s v g : inv l1 l2 s v g -> forall y, List.In y (ws_of (sx_slot s)) -> dot y v = dot v v.
Proof.
  intros I. pose proof (inv_g _ _ _ _ _ I) as G. pose proof (inv_slack _ _ _ _ _ I) as F. revert F. generalize (dot v v). intros k F y. unfold ws_of.
  revert F. clear I. induction G as [|sl h l g (G1 & G2 & G3) G IH]; intros F Hy; [destruct Hy|]. cbn [map filter] in *. inversion F as [|? ? ? ? F1 F2]; subst.
  destruct (sw_w sl); [|auto]. destruct Hy as [<-|Hy]; [|auto]. apply F1. pose proof zTOL_pos. lra.
Qed.
Lemma inv_wy l1 l2 s v g : inv l1 l2 s v g -> Forall (fun sl => sw_w sl = true -> sw_y sl = true) (sx_slot s).
Proof.
  intros I. pose proof (inv_g _ _ _ _ _ I) as G. clear I. induction G as [|sl h l g' (G1 & G2 & G3) G IH]; constructor; [|exact IH].
  intros W. rewrite W in G3. destruct (sw_y sl); [reflexivity|]. pose proof zTOL_pos. lra.
Qed.
Lemma filter_filter_w (l : list slot) : Forall (fun sl => sw_w sl = true -> sw_y sl = true) l -> filter sw_w (filter sw_y l) = filter sw_w l.
Proof.
  induction 1 as [|sl l H F IH]; [reflexivity|]. cbn [filter]. destruct (sw_y sl) eqn:Y; cbn [filter]; destruct (sw_w sl) eqn:W; try congruence. specialize (H eq_refl). discriminate.
Qed.
Lemma inv_indep l1 l2 s v g : inv l1 l2 s v g -> affine_indep (ws_of (sx_slot s)).
Proof.
  intros I. pose proof (inv_ind _ _ _ _ _ I) as H. unfold ws_of. rewrite <- (filter_filter_w _ (inv_wy _ _ _ _ _ I)). exact (indep_filter sw_w sl_w _ [] H).
Qed.
Lemma inv_step l1 l2 s v g p1 p2 : sturdy l1 l2 -> inv l1 l2 s v g -> (sx_n s < 4)%nat -> List.In p1 l1 -> List.In p2 l2 -> dot (vsub p1 p2) v <> dot v v ->
  exists s' v' g', simplexClosest (addSlot s (vsub p1 p2) p1 p2) = Some (s', v') /\ inv l1 l2 s' v' g' /\ exists a b, ys (sx_slot s') = a ++ vsub p1 p2 :: b /\ ws_of (sx_slot s) = a ++ b.
Proof.
  intros ST I N I1 I2 NE. apply step_ok; auto.
  - exact (inv_len _ _ _ _ _ I).
  - pose proof (inv_ok _ _ _ _ _ I) as O. pose proof (inv_wy _ _ _ _ _ I) as W. unfold ok_slots in O. rewrite Forall_forall in *. auto.
  - pose proof (inv_g _ _ _ _ _ I) as G. clear I. induction G as [|sl h l g' (G1 & G2 & G3) G IH]; constructor; [|exact IH]. intros W. rewrite W in G3. tauto.
  - rewrite <- (inv_n _ _ _ _ _ I). exact N.
  - intros a b E. apply indep_insert with v (dot v v).
    + rewrite <- E. exact (inv_indep _ _ _ _ _ I).
    + intros y Hy. rewrite <- E in Hy. exact (inv_active _ _ _ _ _ I y Hy).
    + exact NE.
Qed.
Lemma init_step l1 l2 p1 p2 : sturdy l1 l2 -> List.In p1 l1 -> List.In p2 l2 ->
  exists s' v' g', simplexClosest (addSlot simplexInit (vsub p1 p2) p1 p2) = Some (s', v') /\ inv l1 l2 s' v' g' /\ v' = vsub p1 p2.
Proof.
  intros ST I1 I2. destruct (step_ok l1 l2 simplexInit p1 p2 ST I1 I2) as (s' & v' & g' & E & I & a & b & Y & W).
  - reflexivity.
  - repeat (apply Forall_cons; [cbn; discriminate|]). apply Forall_nil.
  - repeat (apply Forall_cons; [cbn; reflexivity|]). apply Forall_nil.
  - cbn. lia.
  - intros a b E. cbn in E. symmetry in E. apply app_eq_nil in E as [-> ->]. apply indep_one.
  - exists s', v', g'. split; [exact E|]. split; [exact I|]. unfold simplexClosest in E. cbn in E. injection E as _ E. auto.
Qed.
(** four active slots: the origin is reached *)
Lemma perp_zero p q r v : det3v p q r <> 0 -> dot p v = 0 -> dot q v = 0 -> dot r v = 0 -> v = v3zero.
Proof.
  intros D P Q W. assert (H : vscale (det3v p q r) v = v3zero).
  { replace (vscale (det3v p q r) v) with (vadd (vadd (vscale (dot p v) (cross q r)) (vscale (dot q v) (cross r p))) (vscale (dot r v) (cross p q))) by (clear; apply vec3_ext; spec_unfold; ring).
    rewrite P, Q, W. clear. apply vec3_ext; spec_unfold; ring. }
  pose proof (f_equal vx H) as X. pose proof (f_equal vy H) as Y. pose proof (f_equal vz H) as Z. revert D X Y Z. generalize (det3v p q r). clear. intros d D X Y Z. cbn in *.
  apply vec3_ext; cbn; [apply Rmult_integral in X|apply Rmult_integral in Y|apply Rmult_integral in Z]; tauto.
Qed.
Lemma inv_full l1 l2 s v g : inv l1 l2 s v g -> (sx_n s = 4)%nat -> v = v3zero.
Proof.
  intros I N. pose proof (inv_indep _ _ _ _ _ I) as D. pose proof (inv_active _ _ _ _ _ I) as A. rewrite (inv_n _ _ _ _ _ I) in N.
  assert (L : length (ws_of (sx_slot s)) = 4%nat) by (unfold ws_of; rewrite map_length; exact N).
  destruct (ws_of (sx_slot s)) as [|a [|b [|c [|d [|? ?]]]]]; try discriminate L. pose proof (indep4 _ _ _ _ D) as V.
  pose proof (A a ltac:(cbn; auto)) as Ha. pose proof (A b ltac:(cbn; auto)) as Hb. pose proof (A c ltac:(cbn; auto)) as Hc. pose proof (A d ltac:(cbn; auto)) as Hd.
  apply (perp_zero _ _ _ v V); [replace (dot (vsub b a) v) with (dot b v - dot a v) by (clear; spec_unfold; ring)|replace (dot (vsub c a) v) with (dot c v - dot a v) by (clear; spec_unfold; ring)|replace (dot (vsub d a) v) with (dot d v - dot a v) by (clear; spec_unfold; ring)]; lra.
Qed.
Lemma inv_le4 l1 l2 s v g : inv l1 l2 s v g -> (sx_n s <= 4)%nat.
Proof. intros I. rewrite (inv_n _ _ _ _ _ I), <- (inv_len _ _ _ _ _ I). generalize (sx_slot s). clear. intros l. induction l as [|x l IH]; cbn; [lia|]. destruct (sw_w x); cbn; lia. Qed.
(** * The loop *)
Definition started l1 l2 s v dv : Prop := (s = simplexInit /\ dv = None) \/ exists g, inv l1 l2 s v g /\ dv = Some (dot v v) /\ (sx_n s < 4)%nat.
Definition finished l1 l2 s v : Prop := exists g, inv l1 l2 s v g /\ forall x, difference l1 l2 x -> dot v v - zTOL <= dot x v.
Lemma loop_ok l1 l2 : l1 <> [] -> l2 <> [] -> sturdy l1 l2 -> forall fuel s v dv, started l1 l2 s v dv ->
  match gjkLoop fuel l1 l2 s v dv with OutOfFuel => True | Broken => False | Done s' v' => finished l1 l2 s' v' end.
Proof.
  intros N1 N2 ST. induction fuel as [|fuel IH]; intros s v dv H; cbn [gjkLoop]; [exact I|].
  destruct (gjk_support l1 l2 v N1 N2) as (p1 & p2 & E & I1 & I2 & M). rewrite E. zvg.
  assert (NX : forall s' v' g', inv l1 l2 s' v' g' -> match (if Nat.ltb (sx_n s') 4 then gjkLoop fuel l1 l2 s' v' (Some (zVec3DSqrNorm v')) else Done s' v') with OutOfFuel => True | Broken => False | Done s'' v'' => finished l1 l2 s'' v'' end).
  { intros s' v' g' I'. destruct (Nat.ltb_spec (sx_n s') 4) as [L|L].
    - apply IH. right. exists g'. split; [exact I'|]. split; [zvg; reflexivity|exact L].
    - pose proof (inv_le4 _ _ _ _ _ I'). assert (V : v' = v3zero) by (apply (inv_full _ _ _ _ _ I'); lia). exists g'. split; [exact I'|]. intros x _. rewrite V. pose proof zTOL_pos.
      replace (dot v3zero v3zero) with 0 by (clear; spec_unfold; ring). replace (dot x v3zero) with 0 by (clear; spec_unfold; ring). lra. }
  destruct H as [[-> ->]|(g & I & -> & N)].
  - cbn [orb]. replace (checkDupSlot simplexInit (vsub p1 p2)) with false by reflexivity. cbn [orb].
    destruct (init_step l1 l2 p1 p2 ST I1 I2) as (s' & v' & g' & EC & I' & _). rewrite EC. apply (NX s' v' g' I').
  - destruct (checkDupSlot s (vsub p1 p2)) eqn:DUP; cbn [orb].
    + exists g. split; [exact I|]. intros x Hx. apply existsb_exists in DUP as (sl & Hs & B). apply andb_prop in B as [Y B]. apply match_eq in B.
      specialize (M x Hx). pose proof (inv_min _ _ _ _ _ I (sl_w sl)) as Q. rewrite B in Q. pose proof zTOL_pos.
      assert (dot v v <= dot (vsub p1 p2) v); [|lra]. apply Q. rewrite <- B. unfold ys. apply in_map. apply filter_In. auto.
    + destruct (Rleb_reflect (dot v v - dot (vsub p1 p2) v) zTOL) as [L|L].
      * exists g. split; [exact I|]. intros x Hx. specialize (M x Hx). lra.
      * destruct (inv_step l1 l2 s v g p1 p2 ST I N I1 I2) as (s' & v' & g' & EC & I' & _); [pose proof zTOL_pos; lra|]. rewrite EC. apply (NX s' v' g' I').
Qed.
