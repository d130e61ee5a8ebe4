(** Lists of shapes. *)
From Verif Require Import Base Spec SpecShape SpecMulti ModelMulti FactsMulti FactsMulti2 FactsMulti3.
From Verif Require Export ModelShapeList.
From Coq Require Import List Lra Lia.
Import ListNotations.
Open Scope R_scope.

Lemma run_app {A} : forall h k (l : list A), listRun l (h ++ k) = let '(l', r) := listRun l h in let '(l'', r') := listRun l' k in (l'', r ++ r').
Proof.
  induction h as [|[a|] h IH]; intros k l; cbn [app listRun].
  - destruct (listRun l k). reflexivity.
  - apply IH.
  - destruct (zShape3DListPop l) as [l' r]. rewrite IH. destruct (listRun l' h) as [l1 r1]. destruct (listRun l1 k) as [l2 r2]. reflexivity.
Qed.
Lemma run_balanced {A} h : balanced h -> forall l : list A, fst (listRun l h) = l /\ Forall (fun r => r <> None) (snd (listRun l h)).
Proof.
  intros B. induction B as [|a h _ IH|h k _ IH1 _ IH2]; intros l.
  - cbn. auto.
  - cbn [listRun]. rewrite run_app. destruct (IH (zShape3DListPush l a)) as (E & F). destruct (listRun (zShape3DListPush l a) h) as [l' r]. cbn [fst snd] in E, F. subst l'. cbn. split; [reflexivity|]. apply Forall_app. split; [exact F|]. constructor; [discriminate|constructor].
  - rewrite run_app. destruct (IH1 l) as (E1 & F1). destruct (listRun l h) as [l1 r1]. cbn [fst snd] in E1, F1. subst l1. destruct (IH2 l) as (E2 & F2). destruct (listRun l k) as [l2 r2]. cbn [fst snd] in *. split; [exact E2|]. apply Forall_app. auto.
Qed.
Lemma list_lifo : forall (A : Type) (l : list A) (h k : list (op A)) (a : A), balanced k -> exists r r', listRun l (h ++ Push a :: k ++ [Pop]) = (fst (listRun l h), r ++ r' ++ [Some a]) /\ r = snd (listRun l h) /\ Forall (fun x => x <> None) r'.
Proof.
  intros A l h k a B. rewrite run_app. destruct (listRun l h) as [l1 r1]. cbn [fst snd listRun]. rewrite run_app. destruct (run_balanced k B (zShape3DListPush l1 a)) as (E & F). destruct (listRun (zShape3DListPush l1 a) k) as [l2 r2]. cbn [fst snd] in E, F. subst l2. cbn. exists r1, r2. auto.
Qed.
Lemma list_contents : forall (A : Type) (h : list (op A)) (m : list A), left_over h m -> fst (listRun [] h) = rev m.
Proof.
  intros A h m L. induction L as [h B|h a m _ IH|h k m _ IH B].
  - apply run_balanced. exact B.
  - rewrite run_app, rev_app_distr. destruct (listRun [] h) as [l r]. cbn [fst] in IH. subst l. reflexivity.
  - rewrite run_app. destruct (listRun [] h) as [l r]. cbn [fst] in IH. subst l. destruct (run_balanced k B (rev m)) as (E & _). destruct (listRun (rev m) k) as [l' r']. cbn in *. exact E.
Qed.
Lemma list_empty : forall (A : Type) (h k : list (op A)), balanced h -> listRun [] (h ++ Pop :: k) = let '(l, r) := listRun [] k in (l, snd (listRun [] h) ++ None :: r).
Proof.
  intros A h k B. rewrite run_app. destruct (run_balanced h B []) as (E & _). destruct (listRun [] h) as [l r]. cbn [fst snd] in *. subst l. cbn [listRun zShape3DListPop]. destruct (listRun [] k) as [l' r']. reflexivity.
Qed.
(** histories without a pop of an empty list leave something definite *)
Lemma list_left : forall (A : Type) (h : list (op A)), Forall (fun r => r <> None) (snd (listRun [] h)) -> exists m, left_over h m.
Proof.
  intros A. assert (Q : forall n (h : list (op A)) k, (length k <= n)%nat -> forall m, left_over h m -> Forall (fun r => r <> None) (snd (listRun (rev m) k)) -> exists m', left_over (h ++ k) m').
  { induction n as [|n IH]; intros h k N m L F.
    - destruct k; [|cbn in N; lia]. rewrite app_nil_r. exists m. exact L.
    - destruct k as [|[a|] k]; [rewrite app_nil_r; exists m; exact L| |].
      + replace (h ++ Push a :: k) with ((h ++ [Push a]) ++ k) by (rewrite <- app_assoc; reflexivity). apply (IH (h ++ [Push a]) k ltac:(cbn in N; lia) (m ++ [a]) (left_push _ _ _ L)). rewrite rev_app_distr. cbn in F |- *. exact F.
      + assert (K : exists m1 a, m = m1 ++ [a]). { destruct m as [|x m] using rev_ind; [|eauto]. cbn in F. destruct (listRun [] k) as [l' rs]. cbn in F. inversion F. congruence. }
        destruct K as (m1 & a & ->).
        assert (L1 : left_over (h ++ [Pop]) m1).
        { clear - L. remember (m1 ++ [a]) as m eqn:E. revert m1 a E. assert (W : forall m, left_over h m -> forall m1 a k, m = m1 ++ [a] -> balanced k -> left_over (h ++ k ++ [Pop]) m1); [|intros m1 a E; exact (W m L m1 a [] E bal_nil)].
          clear. intros m L. induction L as [h B|h b m L _|h j m L IH B]; intros m1 a k E K.
          - destruct m1; discriminate.
          - apply app_inj_tail in E. destruct E as (-> & ->). replace ((h ++ [Push a]) ++ k ++ [Pop]) with (h ++ (Push a :: k ++ [Pop])) by (rewrite <- app_assoc; reflexivity). apply left_more; [exact L|]. constructor. exact K.
          - replace ((h ++ j) ++ k ++ [Pop]) with (h ++ (j ++ k) ++ [Pop]) by (rewrite <- !app_assoc; reflexivity). apply (IH m1 a); [exact E|]. apply bal_app; assumption. }
        replace (h ++ Pop :: k) with ((h ++ [Pop]) ++ k) by (rewrite <- app_assoc; reflexivity). apply (IH (h ++ [Pop]) k ltac:(cbn in N; lia) m1 L1). rewrite rev_app_distr in F. cbn in F. destruct (listRun (rev m1) k) as [l' rs]. cbn in F |- *. inversion F. assumption. }
  intros h F. exact (Q (length h) [] h (le_n _) [] (left_balanced _ bal_nil) F).
Qed.

(** ** Queries *)
Lemma list_multi ans l p : zShape3DListClosest ans l p = zMultiShape3DClosest ans l p.
Proof.
  destruct l as [|s r]; [reflexivity|]. cbn. generalize (zShape3DClosest ans s p). induction r as [|t r IH]; intros a; [reflexivity|]. cbn [fold_left]. rewrite IH. destruct a as [[d c]|]; reflexivity.
Qed.
Lemma list_multi_contig l p : zShape3DListContigVert l p = zMultiShape3DContigVert l p.
Proof. reflexivity. Qed.
Lemma fold_first ans p : forall r d0 c0 d c, fold_left (fun acc s => match acc, zShape3DClosest ans s p with Some (dist_min, closestpoint), Some (dist, cp) => if Rltb dist dist_min then Some (dist, cp) else Some (dist_min, closestpoint) | _, _ => None end) r (Some (d0, c0)) = Some (d, c) ->
  (d = d0 /\ c = c0 /\ forall t, List.In t r -> exists d' c', zShape3DClosest ans t p = Some (d', c') /\ d <= d') \/
  (d < d0 /\ exists r1 s r2, r = r1 ++ s :: r2 /\ zShape3DClosest ans s p = Some (d, c) /\ (forall t, List.In t r1 -> exists d' c', zShape3DClosest ans t p = Some (d', c') /\ d < d') /\ forall t, List.In t r2 -> exists d' c', zShape3DClosest ans t p = Some (d', c') /\ d <= d').
Proof.
  assert (NN : forall r, fold_left (fun acc s => match acc, zShape3DClosest ans s p with Some (dist_min, closestpoint), Some (dist, cp) => if Rltb dist dist_min then Some (dist, cp) else Some (dist_min, closestpoint) | _, _ => None end) r None = None) by (induction r as [|t r IH]; [reflexivity|exact IH]).
  induction r as [|t r IH]; intros d0 c0 d c E; cbn [fold_left] in E.
  - injection E as <- <-. left. split; [reflexivity|]. split; [reflexivity|]. intros t [].
  - destruct (zShape3DClosest ans t p) as [[dt ct]|] eqn:T; [|rewrite NN in E; discriminate]. destruct (Rltb_reflect dt d0) as [L|L].
    + destruct (IH _ _ _ _ E) as [(-> & -> & K)|(D & r1 & s & r2 & -> & S & K1 & K2)].
      * right. split; [exact L|]. exists [], t, r. split; [reflexivity|]. split; [exact T|]. split; [intros ? []|exact K].
      * right. split; [lra|]. exists (t :: r1), s, r2. split; [reflexivity|]. split; [exact S|]. split; [|exact K2]. intros u [<-|U]; [exists dt, ct; auto|auto].
    + destruct (IH _ _ _ _ E) as [(-> & -> & K)|(D & r1 & s & r2 & -> & S & K1 & K2)].
      * left. split; [reflexivity|]. split; [reflexivity|]. intros u [<-|U]; [exists dt, ct; split; [exact T|lra]|auto].
      * right. split; [exact D|]. exists (t :: r1), s, r2. split; [reflexivity|]. split; [exact S|]. split; [|exact K2]. intros u [<-|U]; [exists dt, ct; split; [exact T|lra]|auto].
Qed.
Lemma first_of ans l p d c : zShape3DListClosest ans l p = Some (d, c) -> exists r1 s r2, l = r1 ++ s :: r2 /\ zShape3DClosest ans s p = Some (d, c) /\
  (forall t, List.In t r1 -> exists d' c', zShape3DClosest ans t p = Some (d', c') /\ d < d') /\ forall t, List.In t r2 -> exists d' c', zShape3DClosest ans t p = Some (d', c') /\ d <= d'.
Proof.
  destruct l as [|s r]; [discriminate|]. cbn [zShape3DListClosest]. destruct (zShape3DClosest ans s p) as [[d0 c0]|] eqn:S; intros E.
  - destruct (fold_first ans p r d0 c0 d c E) as [(-> & -> & K)|(D & r1 & t & r2 & -> & T & K1 & K2)].
    + exists [], s, r. split; [reflexivity|]. split; [exact S|]. split; [intros ? []|exact K].
    + exists (s :: r1), t, r2. split; [reflexivity|]. split; [exact T|]. split; [|exact K2]. intros u [<-|U]; [exists d0, c0; auto|auto].
  - exfalso. revert E. assert (NN : forall r, fold_left (fun acc s => match acc, zShape3DClosest ans s p with Some (dist_min, closestpoint), Some (dist, cp) => if Rltb dist dist_min then Some (dist, cp) else Some (dist_min, closestpoint) | _, _ => None end) r None = None) by (clear; induction r as [|t r IH]; [reflexivity|exact IH]). rewrite NN. discriminate.
Qed.
Lemma list_closest : forall ans h m p, left_over h m -> match zShape3DListClosest ans (fst (listRun [] h)) p with
  | Some (d, cp) => exists m1 s m2, m = m1 ++ s :: m2 /\ zShape3DClosest ans s p = Some (d, cp) /\
      (forall t, List.In t m2 -> exists d' cp', zShape3DClosest ans t p = Some (d', cp') /\ d < d') /\ forall t, List.In t m1 -> exists d' cp', zShape3DClosest ans t p = Some (d', cp') /\ d <= d'
  | None => m = [] \/ exists s, List.In s m /\ zShape3DClosest ans s p = None
  end.
Proof.
  intros ans h m p L. rewrite (list_contents _ h m L). destruct (zShape3DListClosest ans (rev m) p) as [[d cp]|] eqn:E.
  - destruct (first_of _ _ _ _ _ E) as (r1 & s & r2 & R & S & K1 & K2). exists (rev r2), s, (rev r1). split; [rewrite <- (rev_involutive m), R, rev_app_distr; cbn; rewrite <- app_assoc; reflexivity|]. split; [exact S|]. split; intros t T; apply in_rev in T; auto.
  - rewrite list_multi in E. pose proof (multi_least ans (rev m) p) as K. rewrite E in K. destruct K as [K|(s & S & K)]; [left; rewrite <- (rev_involutive m), K; reflexivity|right; exists s; split; [apply in_rev; exact S|exact K]].
Qed.
Lemma list_array : forall ans h m p, left_over h m -> option_map fst (zShape3DListClosest ans (fst (listRun [] h)) p) = option_map fst (zMultiShape3DClosest ans m p).
Proof.
  intros ans h m p L. rewrite (list_contents _ h m L), list_multi. pose proof (multi_least ans (rev m) p) as K1. pose proof (multi_least ans m p) as K2.
  destruct (zMultiShape3DClosest ans (rev m) p) as [[d c]|], (zMultiShape3DClosest ans m p) as [[d' c']|]; cbn [option_map fst]; [| | |reflexivity].
  - destruct K1 as ((s & S & E) & K1), K2 as ((s' & S' & E') & K2). f_equal. destruct (K1 s' (proj1 (in_rev m s') S')) as (e & x & E1 & L1). destruct (K2 s (proj2 (in_rev m s) S)) as (e' & x' & E2 & L2). rewrite E in E2. rewrite E' in E1. injection E1 as <- <-. injection E2 as <- <-. lra.
  - exfalso. destruct K1 as ((s & S & E) & K1). destruct K2 as [->|(t & T & N)]; [destruct S|]. destruct (K1 t (proj1 (in_rev m t) T)) as (e & x & E1 & _). congruence.
  - exfalso. destruct K2 as ((s & S & E) & K2). destruct K1 as [R|(t & T & N)]; [rewrite <- (rev_involutive m), R in S; destruct S|]. destruct (K2 t (proj2 (in_rev m t) T)) as (e & x & E1 & _). congruence.
Qed.
Lemma list_contig : forall h phs ph p, left_over h (map ShPH (phs ++ [ph])) -> pverts ph <> [] -> exists v d, zShape3DListContigVert (fst (listRun [] h)) p = Some (v, d) /\
  List.In v (flat_map pverts (phs ++ [ph])) /\ d = dist p v /\ forall w, List.In w (flat_map pverts (phs ++ [ph])) -> d <= dist p w.
Proof.
  intros h phs ph p L N. rewrite (list_contents _ h _ L), list_multi_contig, <- map_rev, rev_app_distr. cbn [rev app]. destruct (multi_contig ph (rev phs) p N) as (v & d & E & V & D & M). exists v, d. split; [exact E|].
  assert (Q : forall w, List.In w (flat_map pverts (ph :: rev phs)) <-> List.In w (flat_map pverts (phs ++ [ph]))).
  { intros w. rewrite !in_flat_map. split; intros (x & X & W); exists x; (split; [|exact W]); [apply in_or_app; destruct X as [<-|X]; [right; left; reflexivity|left; apply in_rev; exact X]|]. apply in_app_or in X. destruct X as [X|[<-|[]]]; [right; apply -> in_rev; exact X|left; reflexivity]. }
  split; [apply Q, V|]. split; [exact D|]. intros w W. apply M, Q, W.
Qed.
Lemma list_contig_undefined : forall h m p, left_over h m -> m = [] \/ (exists s, List.In s m /\ forall ph, s <> ShPH ph) -> zShape3DListContigVert (fst (listRun [] h)) p = None.
Proof.
  intros h m p L H. rewrite (list_contents _ h _ L), list_multi_contig. apply multi_contig_undefined. destruct H as [->|(s & S & K)]; [left; reflexivity|right; exists s; split; [apply -> in_rev; exact S|exact K]].
Qed.
