(** Enclosing balls: what is guaranteed of the answers *)
From Verif Require Import Base Spec SpecGeom SpecBall ModelVec ModelElem ModelShape ModelBall FactsVec FactsAlg FactsElem FactsCentre FactsRound FactsBall FactsBall2.
From Coq Require Import List Lia Lra Permutation.
Import ListNotations.
Open Scope R_scope.

Lemma good2_more s l b : incl s l -> good2 s b -> good2 l b.
Proof. intros I (d & E & J & N & L & O & M & P). exists d. repeat (split; [assumption || (eapply incl_tran; eassumption) || (eapply least_more; eassumption)|]). exact P. Qed.
Lemma direct2_rev_nil b p : zBoundingBall2DDirect (rev []) = Some b -> contains inside2 b p = false.
Proof. apply direct2_nil. Qed.
Lemma recursive2 l : l <> [] -> exists b, zVec2DDataBoundingBallRecursive l = Some b /\ good2 l b.
Proof.
  intros N. unfold zVec2DDataBoundingBallRecursive. destruct (recursive inside2 zBoundingBall2DDirect 3 l []) as [b|] eqn:E.
  - exists b. split; [reflexivity|]. destruct l as [|p l]; [contradiction|]. destruct (rec_some inside2 zBoundingBall2DDirect 3 ltac:(discriminate) direct2_nil _ _ _ E) as (s & D & I & L & S & _).
    apply (good2_more s); [exact I|]. apply good_direct; assumption.
  - exfalso. revert E. apply rec_total; [apply direct2_total|cbn; lia].
Qed.
Lemma iterative2 l : l <> [] -> exists N b w, (forall fuel, (N <= fuel)%nat -> zVec2DDataBoundingBall fuel l = Found (Some b) w) /\ good2 l b /\
  (w = false -> forall p, List.In p l -> contains inside2 b p = true).
Proof.
  intros NE. destruct (ball_answer inside2 zBoundingBall2DDirect 3 l) as (N & b & w & l' & Q & R & C & A).
  - intros l' _. apply rec_total; [intros s H; apply direct2_total; rewrite rev_length; exact H|cbn; lia].
  - exists N, b, w. split; [exact A|]. split; [|exact C]. destruct l' as [|p l']; [apply Permutation_sym, Permutation_nil in Q; contradiction|].
    destruct (rec_some inside2 (fun s => zBoundingBall2DDirect (rev s)) 3 ltac:(discriminate) direct2_rev_nil _ _ _ R) as (s & D & I & L & S & _).
    apply (good2_more (rev s)).
    + intros x Hx. apply in_rev in Hx. apply (Permutation_in x (Permutation_sym Q)), I, Hx.
    + apply good_direct; [rewrite rev_length; exact L|intros Z; apply S; rewrite <- (rev_involutive s), Z; reflexivity|exact D].
Qed.
Lemma contains2 b d p : fball b = Some d -> contains inside2 b p = true -> dist2 (dcen d) p < drad d + zTOL.
Proof. intros E. unfold contains. rewrite E. unfold inside2. apply disk_inside. Qed.
Lemma contains3 b d p : fball b = Some d -> contains inside3 b p = true -> dist (scen d) p < srad d + zTOL.
Proof. intros E. unfold contains. rewrite E. unfold inside3. apply sphere_inside. Qed.

(** ** in space *)
Definition good3 (s : list vec3) (b : found vec3 sphere3) : Prop :=
  exists d, fball b = Some d /\ incl (fpoints b) s /\ fpoints b <> [] /\ (length (fpoints b) <= 4)%nat /\ on_sphere (scen d) (srad d) (fpoints b) /\ 0 <= srad d /\
    ((length (fpoints b) <= 2)%nat \/ (length s <= 3)%nat -> least_ball (srad d) s).
Lemma good3_pair a b s : List.In a s -> List.In b s -> good3 s (FD [a; b] (Some (zSphere3DFrom2 a b))).
Proof.
  intros A B. exists (zSphere3DFrom2 a b). cbn [fball fpoints]. split; [reflexivity|].
  split; [intros x [<-|[<-|[]]]; assumption|]. split; [discriminate|]. split; [cbn; lia|]. split; [apply test2_on|]. split.
  - rewrite <- (test2_on a b a (or_introl eq_refl)). apply norm_nonneg.
  - intros _. apply test2_least; assumption.
Qed.
Lemma first_in {A} : forall (l : list (option A)) x, firstOf l = Some x -> List.In (Some x) l.
Proof. induction l as [|[y|] l IH]; intros x H; [discriminate| |]; cbn in H; [injection H as <-; left; reflexivity|right; apply IH, H]. Qed.
Lemma first_none {A} : forall (l : list (option A)), firstOf l = None -> forall x, List.In x l -> x = None.
Proof. induction l as [|[y|] l IH]; intros H x; [intros []|discriminate|]. cbn in H. intros [<-|I]; [reflexivity|apply IH; assumption]. Qed.
Lemma test2_some a b c d x : zBoundingBall3DTest2 a b c d = Some x -> x = FD [a; b] (Some (zSphere3DFrom2 a b)) /\ inside3 (zSphere3DFrom2 a b) c = true /\ inside3 (zSphere3DFrom2 a b) d = true.
Proof. unfold zBoundingBall3DTest2. destruct (inside3 (zSphere3DFrom2 a b) c), (inside3 (zSphere3DFrom2 a b) d); cbn; intros H; try discriminate. injection H as <-. auto. Qed.
Lemma good3_four a b c d s x : List.In a s -> List.In b s -> List.In c s -> List.In d s -> (4 <= length s)%nat -> zBoundingBall3D4 a b c d = Some x -> good3 s x.
Proof.
  intros A B C D L. unfold zBoundingBall3D4.
  destruct (firstOf [zBoundingBall3DTest2 a b c d; zBoundingBall3DTest2 a c b d; zBoundingBall3DTest2 a d b c; zBoundingBall3DTest2 b c a d; zBoundingBall3DTest2 b d a c; zBoundingBall3DTest2 c d a b]) as [y|] eqn:E1.
  - intros H. injection H as ->. apply first_in in E1. cbn in E1.
    repeat (destruct E1 as [E1|E1]; [apply test2_some in E1; destruct E1 as (-> & _); apply good3_pair; assumption|]). destruct E1.
  - clear E1. destruct (firstOf [zBoundingBall3DTest3 a b c d; zBoundingBall3DTest3 a b d c; zBoundingBall3DTest3 b c d a]) as [y|] eqn:E2.
    + intros H. injection H as ->. apply first_in in E2. cbn in E2.
      assert (G : forall p q r t, List.In p s -> List.In q s -> List.In r s -> zBoundingBall3DTest3 p q r t = Some x -> good3 s x).
      { intros p q r t P Q R. unfold zBoundingBall3DTest3. destruct (zSphere3DFrom3 p q r) as [k|] eqn:K; [|discriminate]. destruct (inside3 k t); [|discriminate]. intros H. injection H as <-.
        exists k. cbn [fball fpoints]. split; [reflexivity|]. split; [intros y [<-|[<-|[<-|[]]]]; assumption|]. split; [discriminate|]. split; [cbn; lia|].
        split; [apply (from3_on _ _ _ _ K)|]. split; [rewrite <- (from3_on _ _ _ _ K p (or_introl eq_refl)); apply norm_nonneg|]. cbn [length]. intros Z. exfalso. lia. }
      destruct E2 as [E2|[E2|[E2|[]]]]; eapply G; try exact E2; assumption.
    + clear E2. unfold zBoundingBall3DTest4. destruct (zSphere3DFrom4 a b c d) as [k|] eqn:K; [|discriminate]. intros H. injection H as <-.
      assert (V : vol6 a b c d <> 0).
      { intros Z. unfold zSphere3DFrom4 in K. unfold zTri3DConeCircumcenter in K. cbv zeta in K.
        replace (zVec3DGrassmannProd _ _ _) with 0 in K; [|].
        - unfold zVec3DDiv in K. destruct (Reqb_reflect (2 * 0) 0); [discriminate|lra].
        - rewrite <- Z. unfold zTri3DCreate. destruct (zVec3DIsTiny _); cbn [snd tv0 tv1 tv2]; unfold vol6; zvg; spec_unfold; ring. }
      destruct (sphere_from4 a b c d V) as (k' & K' & D1 & D2 & D3 & D4). rewrite K in K'. injection K' as <-.
      exists k. cbn [fball fpoints]. split; [reflexivity|]. split; [intros y [<-|[<-|[<-|[<-|[]]]]]; assumption|]. split; [discriminate|]. split; [cbn; lia|].
      split; [intros y [<-|[<-|[<-|[<-|[]]]]]; assumption|]. split; [rewrite <- D1; apply norm_nonneg|]. cbn [length]. intros Z. exfalso. lia.
Qed.
Lemma inside_own a b : inside3 (zSphere3DFrom2 a b) b = true.
Proof. unfold inside3. apply sphere_inside. rewrite (test2_on a b b (or_intror (or_introl eq_refl))). pose proof zTOL_pos. lra. Qed.
Lemma good3_three a b c : exists x, zBoundingBall3D4 a b c c = Some x /\ good3 [a; b; c] x.
Proof.
  unfold zBoundingBall3D4.
  destruct (firstOf [zBoundingBall3DTest2 a b c c; zBoundingBall3DTest2 a c b c; zBoundingBall3DTest2 a c b c; zBoundingBall3DTest2 b c a c; zBoundingBall3DTest2 b c a c; zBoundingBall3DTest2 c c a b]) as [y|] eqn:E1.
  - exists y. split; [reflexivity|]. apply first_in in E1. cbn in E1.
    repeat (destruct E1 as [E1|E1]; [apply test2_some in E1; destruct E1 as (-> & _); apply good3_pair; cbn; auto|]). destruct E1.
  - pose proof (first_none _ E1) as F.
    assert (T1 : inside3 (zSphere3DFrom2 a b) c = false).
    { pose proof (F _ (or_introl eq_refl)) as K. unfold zBoundingBall3DTest2 in K. destruct (inside3 (zSphere3DFrom2 a b) c); [discriminate|reflexivity]. }
    assert (T2 : inside3 (zSphere3DFrom2 a c) b = false).
    { pose proof (F _ (or_intror (or_introl eq_refl))) as K. unfold zBoundingBall3DTest2 in K. rewrite inside_own in K. destruct (inside3 (zSphere3DFrom2 a c) b); [discriminate|reflexivity]. }
    assert (T3 : inside3 (zSphere3DFrom2 b c) a = false).
    { pose proof (F _ (or_intror (or_intror (or_intror (or_introl eq_refl))))) as K. unfold zBoundingBall3DTest2 in K. rewrite inside_own in K. destruct (inside3 (zSphere3DFrom2 b c) a); [discriminate|reflexivity]. }
    apply test2_out in T1, T2, T3. pose proof (acute_normal a b c T3 T2 T1) as N.
    destruct (sphere_from3 a b c N) as (k & K & Da & Db & Dc & _).
    assert (I : inside3 k c = true) by (unfold inside3; apply sphere_inside; rewrite Dc; pose proof zTOL_pos; lra).
    unfold zBoundingBall3DTest3 at 1. rewrite K, I. cbn [firstOf]. eexists. split; [reflexivity|]. exists k. cbn [fball fpoints]. split; [reflexivity|]. split; [apply incl_refl|]. split; [discriminate|].
    split; [cbn; lia|]. split; [apply (from3_on _ _ _ _ K)|]. split; [rewrite <- Da; apply norm_nonneg|]. intros _. apply (acute_least a b c k); try assumption; apply Rlt_le; assumption.
Qed.
Lemma good3_direct s b : (length s <= 4)%nat -> s <> [] -> zBoundingBall3DDirect s = Some b -> good3 s b.
Proof.
  intros L N E. destruct s as [|x [|y [|z [|w [|v s]]]]]; [contradiction| | | | |cbn in L; lia]; cbn in E.
  - injection E as <-. exists (zSphere3DCreate x 0 0). unfold zSphere3DCreate. cbn [fball fpoints scen srad]. split; [reflexivity|]. split; [apply incl_refl|]. split; [discriminate|]. split; [cbn; lia|].
    split; [|split; [lra|]].
    + intros p [<-|[]]. unfold dist. replace (vsub x x) with v3zero by vring. apply norm_zero_iff. reflexivity.
    + intros _ c r H. eapply Rle_trans; [|apply (H x); left; reflexivity]. apply norm_nonneg.
  - injection E as <-. apply good3_pair; cbn; auto.
  - destruct (good3_three x y z) as (t & T & G). rewrite E in T. injection T as <-. exact G.
  - apply (good3_four x y z w); cbn; auto.
Qed.
Lemma direct3_small s : (length s <= 3)%nat -> zBoundingBall3DDirect s <> None.
Proof. intros L. destruct s as [|x [|y [|z [|w s]]]]; try discriminate; [|cbn in L; lia]. cbn. destruct (good3_three x y z) as (t & T & _). rewrite T. discriminate. Qed.
Lemma direct3_nil b p : zBoundingBall3DDirect [] = Some b -> contains inside3 b p = false.
Proof.
  cbn. intros E. injection E as <-. unfold contains. cbn [fball]. destruct (inside3 (zSphere3DCreate v3zero (-1) 0) p) eqn:K; [|reflexivity]. exfalso. unfold inside3 in K. apply sphere_inside in K. unfold zSphere3DCreate in K. cbn [scen srad] in K.
  pose proof zTOL_small. pose proof (norm_nonneg (vsub v3zero p)) as T. fold (dist v3zero p) in T. lra.
Qed.
Lemma good3_more s l b : incl s l -> (length s <= length l)%nat -> good3 s b -> good3 l b.
Proof.
  intros I Ln (d & E & J & N & L & O & P & M). exists d. repeat (split; [assumption || (eapply incl_tran; eassumption)|]).
  intros K. apply (least_more3 _ s); [exact I|]. apply M. lia.
Qed.
Lemma recursive3 l b : l <> [] -> zVec3DDataBoundingBallRecursive l = Some b -> good3 l b.
Proof.
  intros N E. destruct l as [|p l]; [contradiction|]. destruct (rec_some inside3 zBoundingBall3DDirect 4 ltac:(discriminate) direct3_nil _ _ _ E) as (s & D & I & L & S & K).
  apply (good3_more s); [exact I|exact K|]. apply good3_direct; assumption.
Qed.
Lemma rec_total_small {P B} inside (direct : list P -> option (found P B)) DIM m : (forall s, (length s <= m)%nat -> direct s <> None) ->
  forall pl sh, (length pl + length sh <= m)%nat -> recursive inside direct DIM pl sh <> None.
Proof.
  intros T. induction pl as [|p pl IH]; intros sh L; [apply T; cbn in L; lia|]. cbn. destruct (Nat.eqb (length sh) DIM) eqn:D; [apply T; lia|].
  assert (K : recursive inside direct DIM pl sh <> None) by (apply IH; cbn in L; lia). destruct (recursive inside direct DIM pl sh) as [b|]; [|contradiction].
  destruct (contains inside b p); [discriminate|]. apply IH. cbn in *. lia.
Qed.
Lemma iterative3 l : l <> [] -> exists N r, (forall fuel, (N <= fuel)%nat -> zVec3DDataBoundingBall fuel l = r) /\
  ((r = Crashed /\ (3 < length l)%nat) \/ exists b w, r = Found (Some b) w /\ good3 l b /\ (w = false -> forall p, List.In p l -> contains inside3 b p = true)).
Proof.
  intros NE. destruct (Nat.le_gt_cases (length l) 3) as [S|S].
  - destruct (ball_answer inside3 zBoundingBall3DDirect 4 l) as (N & b & w & l' & Q & R & C & A).
    { intros l' Q. apply (rec_total_small _ _ _ 3); [intros s H; apply direct3_small; rewrite rev_length; exact H|]. apply Permutation_length in Q. cbn. lia. }
    exists N, (Found (Some b) w). split; [exact A|]. right. exists b, w. split; [reflexivity|]. split; [|exact C].
    destruct l' as [|p l']; [apply Permutation_sym, Permutation_nil in Q; contradiction|]. pose proof (Permutation_length Q) as QL.
    destruct (rec_some inside3 (fun s => zBoundingBall3DDirect (rev s)) 4 ltac:(discriminate) direct3_nil _ _ _ R) as (s & D & I & L & NS & K).
    apply (good3_more (rev s)).
    + intros x Hx. apply in_rev in Hx. apply (Permutation_in x (Permutation_sym Q)), I, Hx.
    + rewrite rev_length. lia.
    + apply good3_direct; [rewrite rev_length; exact L|intros Z; apply NS; rewrite <- (rev_involutive s), Z; reflexivity|exact D].
  - destruct (ball_answer_or inside3 zBoundingBall3DDirect 4 l) as (N & r & A & [->|(b & w & l' & Q & R & C & ->)]).
    + exists N, Crashed. split; [exact A|]. left. split; [reflexivity|exact S].
    + exists N, (Found (Some b) w). split; [exact A|]. right. exists b, w. split; [reflexivity|]. split; [|exact C].
      destruct l' as [|p l']; [apply Permutation_sym, Permutation_nil in Q; contradiction|]. pose proof (Permutation_length Q) as QL.
      destruct (rec_some inside3 (fun s => zBoundingBall3DDirect (rev s)) 4 ltac:(discriminate) direct3_nil _ _ _ R) as (s & D & I & L & NS & K).
      apply (good3_more (rev s)).
      * intros x Hx. apply in_rev in Hx. apply (Permutation_in x (Permutation_sym Q)), I, Hx.
      * rewrite rev_length. lia.
      * apply good3_direct; [rewrite rev_length; exact L|intros Z; apply NS; rewrite <- (rev_involutive s), Z; reflexivity|exact D].
Qed.
