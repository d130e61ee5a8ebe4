(** Enclosing balls: the stack machine computes what the recursion computes *)
From Verif Require Import Base Spec SpecGeom SpecBall ModelVec ModelElem ModelShape ModelBall.
From Coq Require Import List Lia Permutation.
Import ListNotations.
Open Scope nat_scope.

Section Welzl.
Context {P B : Type} (inside : B -> P -> bool) (direct : list P -> option (found P B)) (DIM : nat).
Notation rd := (round inside direct DIM).
Notation rds := (rounds inside direct DIM).
Notation sec := (second inside direct DIM).
Notation rec := (recursive inside (fun s => direct (rev s)) DIM).
Definition goes (d : bbdata) (bb : option (found P B)) (o : outcome) : Prop := exists n, rds n d bb = Some o.
Definition follow (x : outcome) (o : outcome) : Prop := match x with Next d bb => goes d bb o | y => y = o end.
Lemma goes_round d bb o : follow (rd d bb) o -> goes d bb o.
Proof.
  unfold follow. destruct (rd d bb) as [d' bb'|d' bb'|] eqn:E.
  - intros (n & H). exists (S n). cbn. rewrite E. exact H.
  - intros <-. exists 1. cbn. rewrite E. reflexivity.
  - intros <-. exists 1. cbn. rewrite E. reflexivity.
Qed.
Lemma goes_inv d bb o : goes d bb o -> follow (rd d bb) o.
Proof.
  intros (n & H). destruct n as [|n]; [discriminate|]. cbn in H. destruct (rd d bb) as [d' bb'|d' bb'|] eqn:E; cbn.
  - exists n. exact H.
  - congruence.
  - congruence.
Qed.
Lemma machine : forall ps pss sh asv bb0 o, length sh <= DIM ->
  match rec ps sh with
  | Some b => follow (back (BD ps pss sh (repeat SAVE (length ps)) asv) (Some b)) o
  | None => o = Crash
  end -> goes (BD ps pss sh (repeat SAVE (length ps)) asv) bb0 o.
Proof.
  induction ps as [|p rest IH]; intros pss sh asv bb0 o L H.
  - apply goes_round. unfold round, nextAction, second. cbn. cbn in H. destruct (direct (rev sh)) as [b|]; [exact H|symmetry; exact H].
  - cbn [recursive] in H. apply goes_round. unfold round. cbn [nextAction actionstack repeat length].
    destruct (Nat.eqb (length sh) DIM) eqn:D.
    + unfold second. cbn [pointstack shellstack]. rewrite D. cbn [orb]. destruct (direct (rev sh)) as [b|]; [exact H|symmetry; exact H].
    + unfold second at 1. cbn [pointstack shellstack nextAction actionstack]. rewrite D. cbn [orb savePoint pointstack actionstack shellstack pointsave actionsave follow].
      apply Nat.eqb_neq in D. apply IH; [exact L|]. destruct (rec rest sh) as [b|]; [|exact H].
      cbn [back revertPoint pointsave actionsave pointstack shellstack actionstack]. unfold follow at 1.
      apply goes_round. unfold round. cbn [nextAction actionstack]. unfold second. cbn [pointstack shellstack].
      apply Nat.eqb_neq in D. rewrite D. cbn [orb nextAction actionstack].
      destruct (contains inside b p) eqn:C.
      * cbn [setAction actionstack pointstack pointsave shellstack actionsave]. exact H.
      * unfold addShell. cbn [pointstack shellstack]. apply Nat.eqb_neq in D. replace (Nat.ltb (length sh) DIM) with true by (symmetry; apply Nat.ltb_lt; lia).
        cbn [savePoint pointstack actionstack shellstack pointsave actionsave follow].
        apply IH; [cbn; lia|]. destruct (rec rest (p :: sh)) as [b'|]; [|exact H].
        cbn [back revertPoint pointsave actionsave pointstack shellstack actionstack]. unfold follow at 1.
        apply goes_round. unfold round. cbn [nextAction actionstack revertShell shellstack setAction pointstack pointsave actionsave].
        cbn [length repeat] in H. unfold back in H |- *. cbn [revertPoint pointsave actionsave pointstack shellstack actionstack] in H |- *.
        destruct pss as [|q pss]; [exact H|]. destruct asv as [|a asv]; [exact H|].
        unfold revertPoint in H |- *. cbn [pointsave actionsave pointstack shellstack actionstack follow] in H |- *. pose proof (goes_inv _ _ _ H) as G. unfold round in G. cbn [nextAction actionstack] in G.
        destruct a; [exact G|exact G|]. unfold second. cbn [pointstack shellstack nextAction actionstack].
        apply Nat.eqb_neq in D. rewrite D. cbn [orb follow]. exact H.
Qed.
Lemma rounds_more : forall n m d bb o, n <= m -> rds n d bb = Some o -> rds m d bb = Some o.
Proof.
  induction n as [|n IH]; intros m d bb o L H; [discriminate|]. destruct m as [|m]; [lia|]. cbn in *. destruct (rd d bb); try exact H. apply IH; [lia|exact H].
Qed.
(** the loop over the tries, in terms of the recursion *)
Fixpoint attempts (n : nat) (l : list P) (bb : option (found P B)) : answer :=
  match n with
  | O => Found bb true
  | S k => match rec l [] with
           | None => Crashed
           | Some b => match pickOut inside (Some b) (rev l) with None => Found (Some b) false | Some (q, r) => attempts k (q :: rev r) (Some b) end
           end
  end.
Lemma pick_length b : forall l q r, pickOut inside b l = Some (q, r) -> Permutation l (q :: r).
Proof.
  induction l as [|p l IH]; intros q r H; [discriminate|]. cbn in H. destruct (match b with Some x => contains inside x p | None => false end).
  - destruct (pickOut inside b l) as [[q' r']|]; [|discriminate]. injection H as <- <-. rewrite (IH _ _ eq_refl). apply perm_swap.
  - injection H as <- <-. reflexivity.
Qed.
Lemma repeat_map {A} (x : A) n : map (fun _ => x) (repeat x n) = repeat x n.
Proof. induction n; cbn; congruence. Qed.
Lemma tries_spec : forall n l bb, exists N, forall fuel, N <= fuel ->
  tries inside direct DIM n fuel (BD l [] [] (repeat SAVE (length l)) []) bb = attempts n l bb.
Proof.
  induction n as [|n IH]; intros l bb; [exists 0; reflexivity|].
  pose proof (fun o => machine l [] [] [] bb o (Nat.le_0_l _)) as M. cbn [attempts]. destruct (rec l []) as [b|].
  - specialize (M _ eq_refl). cbn [back revertPoint pointsave] in M. destruct M as (k & M).
    destruct (pickOut inside (Some b) (rev l)) as [[q r]|] eqn:K.
    + destruct (IH (q :: rev r) (Some b)) as (N & HN). exists (Nat.max k N). intros fuel L. cbn [tries]. rewrite (rounds_more k fuel _ _ _ ltac:(lia) M).
      unfold reorder. cbn [pointstack pointsave shellstack actionstack actionsave]. rewrite K, repeat_map.
      replace (length l) with (length (q :: rev r)); [apply HN; lia|].
      apply pick_length in K. apply Permutation_length in K. rewrite rev_length in K. cbn in *. rewrite rev_length. lia.
    + exists k. intros fuel L. cbn [tries]. rewrite (rounds_more k fuel _ _ _ L M). unfold reorder. cbn [pointstack]. rewrite K. reflexivity.
  - specialize (M _ eq_refl). destruct M as (k & M). exists k. intros fuel L. cbn [tries]. rewrite (rounds_more k fuel _ _ _ L M). reflexivity.
Qed.
Lemma ball_machine l : exists N, forall fuel, N <= fuel -> boundingBall inside direct DIM fuel l = attempts ZEO_BOUNDINGBALL_MAX_RETRY_NUM (rev l) None.
Proof.
  destruct (tries_spec ZEO_BOUNDINGBALL_MAX_RETRY_NUM (rev l) None) as (N & H). exists N. intros fuel L. rewrite <- (H fuel L).
  unfold boundingBall, dataAlloc. rewrite rev_length. reflexivity.
Qed.
Lemma pick_none b : forall l, pickOut inside (Some b) l = None -> forall p, List.In p l -> contains inside b p = true.
Proof.
  induction l as [|q l IH]; intros H p; [intros []|]. cbn in H. destruct (contains inside b q) eqn:C; [|discriminate].
  destruct (pickOut inside (Some b) l) as [[? ?]|]; [discriminate|]. intros [<-|K]; [exact C|]. apply IH; [reflexivity|exact K].
Qed.
Lemma attempts_spec : forall n l bb, n <> 0 -> attempts n l bb <> Crashed ->
  exists b w l', attempts n l bb = Found (Some b) w /\ Permutation l l' /\ rec l' [] = Some b /\ (w = false -> forall p, List.In p l -> contains inside b p = true).
Proof.
  induction n as [|n IH]; intros l bb N H; [lia|]. cbn [attempts] in *. destruct (rec l []) as [b|] eqn:R; [|contradiction].
  destruct (pickOut inside (Some b) (rev l)) as [[q r]|] eqn:K.
  - assert (Pm : Permutation l (q :: rev r)).
    { apply pick_length in K. rewrite (Permutation_rev l), K. apply perm_skip, Permutation_rev. }
    destruct n as [|n].
    + exists b, true, l. cbn. repeat split; try assumption; try reflexivity. discriminate.
    + destruct (IH (q :: rev r) (Some b) ltac:(lia) H) as (b' & w & l' & E & Q & R' & C). exists b', w, l'. repeat split; try assumption.
      * rewrite Pm. exact Q.
      * intros W p I. apply C; [exact W|]. rewrite <- Pm. exact I.
  - exists b, false, l. repeat split; try reflexivity; try assumption. intros _ p I. apply (pick_none _ _ K). rewrite <- in_rev. exact I.
Qed.
Lemma ball_answer l : (forall l', Permutation l l' -> rec l' [] <> None) ->
  exists N b w l', Permutation l l' /\ rec l' [] = Some b /\ (w = false -> forall p, List.In p l -> contains inside b p = true) /\
    forall fuel, N <= fuel -> boundingBall inside direct DIM fuel l = Found (Some b) w.
Proof.
  intros NC. destruct (ball_machine l) as (N & H).
  assert (A : forall n l0 bb, Permutation l l0 -> attempts n l0 bb <> Crashed).
  { induction n as [|n IH]; intros l0 bb Q; [discriminate|]. cbn. pose proof (NC l0 Q) as K. destruct (rec l0 []) as [b|]; [|contradiction].
    destruct (pickOut inside (Some b) (rev l0)) as [[q r]|] eqn:E; [|discriminate]. apply IH. rewrite Q. apply pick_length in E. rewrite (Permutation_rev l0), E. apply perm_skip, Permutation_rev. }
  destruct (attempts_spec ZEO_BOUNDINGBALL_MAX_RETRY_NUM (rev l) None) as (b & w & l' & E & Q & R & C); [discriminate|apply A, Permutation_rev|].
  exists N, b, w, l'. repeat split.
  - rewrite (Permutation_rev l). exact Q.
  - exact R.
  - intros W p I. apply C; [exact W|]. apply -> in_rev. exact I.
  - intros fuel L. rewrite H by exact L. exact E.
Qed.
(** in three dimensions the routine may stop on a null pointer *)
Lemma ball_answer_or l : exists N r, (forall fuel, N <= fuel -> boundingBall inside direct DIM fuel l = r) /\
  (r = Crashed \/ exists b w l', Permutation l l' /\ rec l' [] = Some b /\ (w = false -> forall p, List.In p l -> contains inside b p = true) /\ r = Found (Some b) w).
Proof.
  destruct (ball_machine l) as (N & H). exists N, (attempts ZEO_BOUNDINGBALL_MAX_RETRY_NUM (rev l) None). split; [exact H|].
  destruct (attempts ZEO_BOUNDINGBALL_MAX_RETRY_NUM (rev l) None) as [| |r w] eqn:E; [|left; reflexivity|].
  - destruct (attempts_spec ZEO_BOUNDINGBALL_MAX_RETRY_NUM (rev l) None) as (b & w & l' & E' & _); [discriminate|rewrite E; discriminate|rewrite E in E'; discriminate].
  - right. destruct (attempts_spec ZEO_BOUNDINGBALL_MAX_RETRY_NUM (rev l) None) as (b & w' & l' & E' & Q & R & C); [discriminate|rewrite E; discriminate|].
    rewrite E in E'. injection E' as -> ->. exists b, w', l'. repeat split; try assumption.
    + rewrite (Permutation_rev l). exact Q.
    + intros W p I. apply C; [exact W|]. apply -> in_rev. exact I.
Qed.
End Welzl.

Section Rec.
Context {P B : Type} (inside : B -> P -> bool) (direct : list P -> option (found P B)) (DIM : nat).
Notation rec := (recursive inside direct DIM).
Lemma rec_from : forall pl sh b, length sh <= DIM -> rec pl sh = Some b -> exists s, direct (s ++ sh) = Some b /\ incl s pl /\ length (s ++ sh) <= DIM /\ length s <= length pl.
Proof.
  induction pl as [|p pl IH]; intros sh b L H.
  - exists []. repeat split; [exact H|intros x []|exact L|cbn; lia].
  - cbn in H. destruct (Nat.eqb (length sh) DIM) eqn:D.
    + exists []. repeat split; [exact H|intros x []|exact L|cbn; lia].
    + apply Nat.eqb_neq in D. destruct (rec pl sh) as [b0|] eqn:R; [|discriminate]. destruct (contains inside b0 p).
      * injection H as <-. destruct (IH _ _ L R) as (s & E & I & K & J). exists s. repeat split; [exact E|intros x Hx; right; apply I, Hx|exact K|cbn; lia].
      * destruct (IH (p :: sh) b ltac:(cbn; lia) H) as (s & E & I & K & J). exists (s ++ [p]). rewrite <- app_assoc. cbn [app]. repeat split; [exact E| |exact K|rewrite app_length; cbn; lia].
        intros x Hx. apply in_app_iff in Hx. destruct Hx as [Hx|[<-|[]]]; [right; apply I, Hx|left; reflexivity].
Qed.
Lemma rec_total : (forall s, length s <= DIM -> direct s <> None) -> forall pl sh, length sh <= DIM -> rec pl sh <> None.
Proof.
  intros T. induction pl as [|p pl IH]; intros sh L; [apply T, L|]. cbn. destruct (Nat.eqb (length sh) DIM) eqn:D; [apply T, L|]. apply Nat.eqb_neq in D.
  pose proof (IH sh L) as K. destruct (rec pl sh) as [b|]; [|contradiction]. destruct (contains inside b p); [discriminate|]. apply IH. cbn. lia.
Qed.
Lemma rec_some : DIM <> 0 -> (forall b p, direct [] = Some b -> contains inside b p = false) ->
  forall p pl b, rec (p :: pl) [] = Some b -> exists s, direct s = Some b /\ incl s (p :: pl) /\ length s <= DIM /\ s <> [] /\ length s <= length (p :: pl).
Proof.
  intros D0 N p pl b H. cbn in H. destruct DIM as [|D] eqn:ED; [contradiction|]. rewrite <- ED in *.
  destruct (rec pl []) as [b0|] eqn:R; [|discriminate]. destruct (contains inside b0 p) eqn:C.
  - injection H as <-. destruct (rec_from pl [] b0 (Nat.le_0_l _) R) as (s & E & I & K & J). rewrite app_nil_r in *. exists s. repeat split; [exact E|intros x Hx; right; apply I, Hx|exact K| |cbn; lia].
    intros ->. rewrite (N _ p E) in C. discriminate.
  - destruct (rec_from pl [p] b ltac:(cbn; lia) H) as (s & E & I & K & J). exists (s ++ [p]). repeat split; [exact E| |exact K| |rewrite app_length; cbn; lia].
    + intros x Hx. apply in_app_iff in Hx. destruct Hx as [Hx|[<-|[]]]; [right; apply I, Hx|left; reflexivity].
    + intros Z. apply app_eq_nil in Z. destruct Z. discriminate.
Qed.
End Rec.
