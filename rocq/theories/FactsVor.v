(** Closing the loops of a Voronoi diagram: lists. *)
From Verif Require Import ModelVor SpecVor.
From Coq Require Import List Lia Permutation Bool.
Import ListNotations.

(** what is visited by _zVoronoi2DListLoopClose *)
Lemma inner_none lc1 : forall rest fuel passed, (forall x, List.In x rest -> vn_t x <> vn_a lc1) -> (length rest <= fuel)%nat -> close_inner fuel lc1 passed rest = DDone (passed ++ rest).
Proof.
  induction rest as [|x r IH]; intros fuel passed N F; cbn [close_inner]; [rewrite app_nil_r; destruct fuel; reflexivity|]. destruct fuel as [|fuel]; [cbn in F; lia|]. cbn [close_inner].
  destruct (Nat.eqb_spec (vn_t x) (vn_a lc1)) as [E|E]; [exfalso; exact (N x (or_introl eq_refl) E)|]. rewrite IH; [rewrite <- app_assoc; reflexivity|intros y Y; apply N; right; exact Y|cbn in F; lia].
Qed.
Lemma inner_some lc1 : forall rest fuel passed l1 x l2, rest = l1 ++ x :: l2 -> (forall y, List.In y (passed ++ l1 ++ l2) -> vn_t y <> vn_a lc1) -> vn_t x = vn_a lc1 -> (length passed + 2 * length rest <= fuel)%nat ->
  close_inner fuel lc1 passed rest = DDone (x :: passed ++ l1 ++ l2).
Proof.
  induction rest as [|z r IH]; intros fuel passed l1 x l2 E N X F; [destruct l1; discriminate|]. destruct fuel as [|fuel]; [cbn in F; lia|]. cbn [close_inner]. destruct l1 as [|z1 l1]; cbn [app] in E; injection E as -> ->.
  - rewrite X, Nat.eqb_refl. rewrite inner_none; [reflexivity|exact N|]. rewrite app_length. cbn in F. lia.
  - destruct (Nat.eqb_spec (vn_t z1) (vn_a lc1)) as [E|E]; [exfalso; apply (N z1); [apply in_app_iff; right; left; reflexivity|exact E]|].
    rewrite (IH fuel (passed ++ [z1]) l1 x l2 eq_refl); [rewrite <- app_assoc; reflexivity| |exact X|rewrite app_length; cbn [length] in *; lia].
    intros y Y. apply N. rewrite <- app_assoc in Y. exact Y.
Qed.
(** a set of nodes closed by exactly one cycle *)
Record one_cycle (l : list vnode) : Prop := {
  O_t : NoDup (map vn_t l);
  O_a : NoDup (map vn_a l);
  O_next : forall e, List.In e l -> exists e', List.In e' l /\ vn_t e' = vn_a e;
  O_one : forall S : nat -> bool, (exists e, List.In e l /\ S (vn_t e) = true) -> (forall e e', List.In e l -> List.In e' l -> S (vn_t e) = true -> vn_t e' = vn_a e -> S (vn_t e') = true) -> forall e, List.In e l -> S (vn_t e) = true }.
Definition mem_t (l : list vnode) (t : nat) : bool := existsb (Nat.eqb t) (map vn_t l).
Lemma mem_t_ok l t : mem_t l t = true <-> exists e, List.In e l /\ vn_t e = t.
Proof. unfold mem_t. rewrite existsb_exists. split; [intros (x & X & E); apply in_map_iff in X; destruct X as (e & <- & I); exists e; split; [exact I|symmetry; apply Nat.eqb_eq, E]|intros (e & I & <-); exists (vn_t e); split; [apply in_map, I|apply Nat.eqb_refl]]. Qed.

Lemma nodup_map {A B} (f : A -> B) l x y : NoDup (map f l) -> List.In x l -> List.In y l -> f x = f y -> x = y.
Proof.
  induction l as [|z r IH]; intros ND X Y E; [destruct X|]. cbn [map] in ND. inversion ND as [|? ? N1 N2]; subst. destruct X as [->|X], Y as [->|Y]; [reflexivity|exfalso; apply N1; rewrite E; apply in_map, Y|exfalso; apply N1; rewrite <- E; apply in_map, X|exact (IH N2 X Y E)].
Qed.
Lemma nodup_app_r {A} (l l' : list A) : NoDup (l ++ l') -> NoDup l'.
Proof. induction l as [|x l IH]; intros H; [exact H|]. inversion H; subst. apply IH. assumption. Qed.
(** consecutive nodes *)
Fixpoint chain (l : list vnode) : Prop := match l with e :: (e' :: _) as r => vn_t e' = vn_a e /\ chain r | _ => True end.
Lemma chain_app l x y : chain (l ++ [x]) -> vn_t y = vn_a x -> chain (l ++ [x; y]).
Proof. induction l as [|e r IH]; intros C E; [split; [exact E|exact I]|]. destruct r as [|e' r]; cbn [app] in *; [destruct C as (C & _); split; [exact C|split; [exact E|exact I]]|]. destruct C as (C1 & C2). split; [exact C1|exact (IH C2 E)]. Qed.
Lemma chain_rotate f r l : chain (f :: r) -> l = last (f :: r) f -> vn_a l = vn_t f -> map vn_a (f :: r) = rotate (map vn_t (f :: r)).
Proof.
  cbn [rotate map]. intros C L E. assert (K : forall r f0 d, chain (f0 :: r) -> map vn_a (f0 :: r) = map vn_t r ++ [vn_a (last (f0 :: r) d)]).
  { clear. induction r as [|e r IH]; intros f0 d C; [reflexivity|]. destruct C as (C1 & C2). specialize (IH e d C2). change (last (f0 :: e :: r) d) with (last (e :: r) d). cbn [map app] in *. rewrite C1, IH. reflexivity. }
  change (vn_a f :: map vn_a r) with (map vn_a (f :: r)). rewrite (K r f f C), <- L, E. reflexivity.
Qed.
(** the elements of a chain with their successors *)
Lemma chain_next l1 e e' l2 : chain (l1 ++ e :: e' :: l2) -> vn_t e' = vn_a e.
Proof. induction l1 as [|x r IH]; intros C; [exact (proj1 C)|]. apply IH. destruct r as [|y r]; cbn [app] in *; exact (proj2 C). Qed.
Lemma close_run l : one_cycle l -> forall rounds fuel pre cur r, Permutation l (pre ++ cur :: r) -> chain (pre ++ [cur]) -> (length r < rounds)%nat -> (2 * length l <= fuel)%nat ->
  exists r', close_loop rounds fuel (cur :: r) = DDone (cur :: r') /\ Permutation r r' /\ chain (pre ++ cur :: r').
Proof.
  intros [OT OA ON OO]. induction rounds as [|rounds IH]; intros fuel pre cur r P C L F; [lia|]. cbn [close_loop].
  assert (IN : forall e, List.In e l <-> List.In e (pre ++ cur :: r)) by (intros e; split; apply Permutation_in; [exact P|apply Permutation_sym, P]).
  pose proof (Permutation_map vn_t P) as PT. pose proof (Permutation_NoDup PT OT) as NT. pose proof (Permutation_map vn_a P) as PA. pose proof (Permutation_NoDup PA OA) as NA.
  assert (LR : (length r < length l)%nat) by (rewrite (Permutation_length P), app_length; cbn [length]; lia).
  destruct (ON cur) as (nx & IX & EX); [apply IN, in_app_iff; right; left; reflexivity|].
  destruct r as [|r0 r1].
  - rewrite inner_none; [|intros x []|cbn; lia]. cbn [app]. exists []. split; [destruct rounds; reflexivity|]. split; [constructor|exact C].
  - assert (IR : List.In nx (r0 :: r1)).
    { apply IN, in_app_iff in IX. destruct IX as [IX|[IX|IX]]; [exfalso|exfalso|exact IX].
      - (* the successor was placed before *)
        assert (CL : forall e, List.In e l -> List.In e (pre ++ [cur])).
        { assert (SUB : forall e, List.In e (pre ++ [cur]) -> List.In e l) by (intros e H; apply IN; apply in_app_iff in H; apply in_app_iff; destruct H as [H|[<-|[]]]; [left; exact H|right; left; reflexivity]).
          assert (BACK : forall e, List.In e l -> mem_t (pre ++ [cur]) (vn_t e) = true -> List.In e (pre ++ [cur])) by (intros e H Q; apply mem_t_ok in Q; destruct Q as (e1 & I1 & E1); rewrite <- (nodup_map vn_t l e1 e OT (SUB e1 I1) H E1); exact I1).
          intros e0 H0. apply BACK; [exact H0|]. revert e0 H0. apply (OO (mem_t (pre ++ [cur]))); [exists cur; split; [apply IN, in_app_iff; right; left; reflexivity|apply mem_t_ok; exists cur; split; [apply in_app_iff; right; left; reflexivity|reflexivity]]|].
          intros e e' Ie Ie' Q E. apply BACK in Q; [|exact Ie]. apply mem_t_ok. exists e'. split; [|reflexivity]. apply in_app_iff in Q. destruct Q as [Q|[<-|[]]].
          - apply in_split in Q. destruct Q as (l1 & l2 & ->). destruct l2 as [|e2 l2].
            + rewrite <- app_assoc in C. cbn [app] in C. apply chain_next in C. assert (e' = cur) by (apply (nodup_map vn_t l); [exact OT|exact Ie'|apply IN, in_app_iff; right; left; reflexivity|congruence]). subst e'. apply in_app_iff. right. left. reflexivity.
            + rewrite <- app_assoc in C. cbn [app] in C. apply chain_next in C. assert (e' = e2). { apply (nodup_map vn_t l); [exact OT|exact Ie'|apply IN, in_app_iff; left; apply in_app_iff; right; right; left; reflexivity|congruence]. } subst e'. apply in_app_iff. left. apply in_app_iff. right. right. left. reflexivity.
          - assert (e' = nx) by (apply (nodup_map vn_t l); [exact OT|exact Ie'|apply IN, in_app_iff; left; exact IX|congruence]). subst e'. apply in_app_iff. left. exact IX. }
        assert (R0 : List.In r0 (pre ++ [cur])) by (apply CL, IN, in_app_iff; right; right; left; reflexivity). apply in_split in R0. destruct R0 as (a & b & E).
        assert (E2 : pre ++ cur :: r0 :: r1 = (pre ++ [cur]) ++ r0 :: r1) by (rewrite <- app_assoc; reflexivity). rewrite E2, E in NT. rewrite !map_app in NT. cbn [map] in NT. apply NoDup_remove_2 in NT. apply NT. apply in_app_iff. left. apply in_app_iff. right. left. reflexivity.
      - (* the successor is itself *)
        subst nx. assert (CL : forall e, List.In e l -> e = cur). { assert (IC : List.In cur l) by (apply IN, in_app_iff; right; left; reflexivity). intros e0 H0. apply (nodup_map vn_t l); [exact OT|exact H0|exact IC|]. apply Nat.eqb_eq. revert e0 H0. apply (OO (fun t => Nat.eqb t (vn_t cur))); [exists cur; split; [exact IC|apply Nat.eqb_refl]|]. intros e e' Ie Ie' Q E. apply Nat.eqb_eq in Q. apply Nat.eqb_eq. assert (e = cur) by (apply (nodup_map vn_t l); [exact OT|exact Ie|exact IC|exact Q]). subst e. congruence. }
        assert (E0 : r0 = cur) by (apply CL, IN, in_app_iff; right; right; left; reflexivity). subst r0. rewrite map_app in NT. cbn [map] in NT. apply NoDup_remove_2 in NT. apply NT, in_app_iff. right. left. reflexivity. }
    apply in_split in IR. destruct IR as (l1 & l2 & ER). rewrite (inner_some cur (r0 :: r1) fuel [] l1 nx l2 ER); [| |exact EX|cbn [length] in *; lia].
    + cbn [app]. assert (PR : Permutation (r0 :: r1) (nx :: l1 ++ l2)) by (rewrite ER; apply Permutation_sym, Permutation_middle).
      destruct (IH fuel (pre ++ [cur]) nx (l1 ++ l2)) as (r' & CR & PR' & CH).
      * rewrite <- app_assoc. cbn [app]. rewrite P. apply Permutation_app_head. constructor. exact PR.
      * rewrite <- app_assoc. apply chain_app; [exact C|exact EX].
      * apply Permutation_length in PR. cbn [length] in PR, L. lia.
      * exact F.
      * rewrite CR. exists (nx :: r'). split; [reflexivity|]. split; [rewrite PR; constructor; exact PR'|]. rewrite <- app_assoc in CH. exact CH.
    + intros y Y. cbn [app] in Y. intros E. assert (y = nx). { assert (IY : List.In y (r0 :: r1)) by (rewrite ER; apply in_app_iff in Y; apply in_app_iff; destruct Y; [left|right; right]; assumption). apply (nodup_map vn_t l); [exact OT|apply IN, in_app_iff; right; right; exact IY|apply IN, in_app_iff; right; right; rewrite ER; apply in_app_iff; right; left; reflexivity|congruence]. }
      subst y. rewrite map_app in NT. apply nodup_app_r in NT. cbn [map] in NT. inversion NT as [|? ? _ N2]; subst. change (vn_t r0 :: map vn_t r1) with (map vn_t (r0 :: r1)) in N2. rewrite ER, map_app in N2. cbn [map] in N2. apply NoDup_remove_2 in N2. apply N2. rewrite <- map_app. apply in_map. exact Y.
Qed.
Lemma close_ok l fuel : l <> [] -> one_cycle l -> (2 * length l <= fuel)%nat -> exists l', close_loop (length l) fuel l = DDone l' /\ Permutation l l' /\ map vn_a l' = rotate (map vn_t l').
Proof.
  intros NE O F. destruct l as [|f r]; [congruence|]. destruct (close_run (f :: r) O (length (f :: r)) fuel [] f r (Permutation_refl _) I) as (r' & CR & PR & CH); [cbn; lia|exact F|].
  exists (f :: r'). split; [exact CR|]. assert (P : Permutation (f :: r) (f :: r')) by (constructor; exact PR). split; [exact P|]. cbn [app] in CH. apply (chain_rotate f r' _ CH eq_refl).
  destruct O as [OT OA ON OO]. assert (IN : forall e, List.In e (f :: r) <-> List.In e (f :: r')) by (intros e; split; apply Permutation_in; [exact P|apply Permutation_sym, P]).
  set (z := last (f :: r') f). assert (IZ : List.In z (f :: r')). { unfold z. destruct (exists_last (l := f :: r') ltac:(discriminate)) as (q & y & EQ). rewrite EQ, last_last. apply in_app_iff. right. left. reflexivity. }
  destruct (ON z) as (nx & IX & EX); [apply IN, IZ|]. apply IN in IX. destruct IX as [<-|IX]; [symmetry; exact EX|exfalso].
  (* another node has this successor *)
  apply in_split in IX. destruct IX as (l1 & l2 & E). assert (PRED : exists a p b, f :: r' = a ++ p :: nx :: b).
  { destruct (exists_last (l := f :: l1) ltac:(discriminate)) as (a & p & EP). exists a, p, l2. rewrite E. change (f :: l1 ++ nx :: l2) with ((f :: l1) ++ nx :: l2). rewrite EP, <- app_assoc. reflexivity. }
  destruct PRED as (a & p & b & EP). rewrite EP in CH. apply chain_next in CH. assert (p = z). { apply (nodup_map vn_a (f :: r)); [exact OA|apply IN; rewrite EP; apply in_app_iff; right; left; reflexivity|apply IN, IZ|congruence]. } subst p.
  pose proof (Permutation_NoDup (Permutation_map vn_t P) OT) as NT. assert (LZ : exists q, f :: r' = q ++ [z]). { destruct (exists_last (l := f :: r') ltac:(discriminate)) as (q & y & EQ). exists q. unfold z. rewrite EQ, last_last. reflexivity. }
  destruct LZ as (q & EQ). rewrite EP in EQ. replace (a ++ z :: nx :: b) with ((a ++ [z]) ++ nx :: b) in EQ by (rewrite <- app_assoc; reflexivity). destruct (exists_last (l := nx :: b) ltac:(discriminate)) as (b1 & b2 & EB). rewrite EB, app_assoc in EQ. apply app_inj_tail in EQ. destruct EQ as (_ & ->).
  rewrite EP in NT. assert (IB : List.In z (nx :: b)) by (rewrite EB; apply in_app_iff; right; left; reflexivity). rewrite map_app in NT. cbn [map] in NT. apply NoDup_remove_2 in NT. apply NT, in_app_iff. right. change (vn_t nx :: map vn_t b) with (map vn_t (nx :: b)). apply in_map, IB.
Qed.
