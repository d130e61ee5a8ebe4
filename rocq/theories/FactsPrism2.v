(** Prisms and pyramids: the faces form a closed surface. *)
From Coq Require Import Permutation.
From Verif Require Import Base SpecClip SpecMesh ModelPrism FactsMesh FactsMesh5 FactsPrism.
From Coq Require Import List Lia.
Import ListNotations.
Open Scope nat_scope.

(** permutations of concatenations *)
Lemma pm_front {A} (L L' a R : list A) : Permutation L (a ++ L') -> Permutation L' R -> Permutation L (a ++ R).
Proof. intros H K. rewrite H. apply Permutation_app_head, K. Qed.
Lemma pm_nil {A} (a : list A) : Permutation a (a ++ []). Proof. rewrite app_nil_r. reflexivity. Qed.
Lemma pm_skip {A} (b M a L : list A) : Permutation M (a ++ L) -> Permutation (b ++ M) (a ++ b ++ L).
Proof. intros H. rewrite H. apply Permutation_app_swap_app. Qed.
Ltac pm_find := first [ apply Permutation_refl | apply pm_nil | apply pm_skip; pm_find | apply Permutation_app_comm ].
Ltac pm_go := first [ apply Permutation_refl | eapply pm_front; [pm_find|]; rewrite ?app_nil_r; pm_go ].
Ltac pm := rewrite <- ?app_assoc; pm_go.
Definition nxt := zPH3DLoopNext.
Lemma nxt_cases n i : i < n -> (nxt n i = S i /\ S i < n) \/ (nxt n i = 0 /\ S i = n).
Proof. unfold nxt, zPH3DLoopNext. destruct (Nat.eqb_spec (S i) n); lia. Qed.
Lemma pairs_seq k : forall a, pairsP (seq a (S k)) = map (fun i => (i, S i)) (seq a k).
Proof. induction k as [|k IH]; intros a; [reflexivity|]. specialize (IH (S a)). cbn [seq map] in *. change (pairsP (a :: S a :: seq (S (S a)) k)) with ((a, S a) :: pairsP (S a :: seq (S (S a)) k)). rewrite IH. reflexivity. Qed.
Lemma pairs_ring n a : n <> 0 -> pairsL (seq a n) = map (fun i => (a + i, a + nxt n i)) (seq 0 n).
Proof.
  destruct n as [|k]; [congruence|intros _]. unfold pairsL. replace (firstn 1 (seq a (S k))) with [a] by reflexivity.
  rewrite seq_S, <- app_assoc. cbn [app]. rewrite pairsP_app. rewrite <- seq_S, pairs_seq. cbn [pairsP].
  rewrite (seq_S k 0), map_app. cbn [map]. f_equal.
  - apply (nth_ext _ _ (0, 0) (0, 0)); [rewrite !map_length, !seq_length; reflexivity|]. intros i Hi. rewrite map_length, seq_length in Hi.
    rewrite (nth_indep _ _ ((fun i => (i, S i)) 0)), (map_nth (fun i => (i, S i))) by (rewrite map_length, seq_length; exact Hi). rewrite (nth_indep (map _ (seq 0 k)) _ ((fun i => (a + i, a + nxt (S k) i)) 0)), (map_nth (fun i => (a + i, a + nxt (S k) i))) by (rewrite map_length, seq_length; exact Hi).
    rewrite !seq_nth by exact Hi. cbn [plus]. destruct (nxt_cases (S k) i) as [(E & _)|(E & Q)]; [lia| |lia]. rewrite E. f_equal. lia.
  - f_equal. cbn [plus]. destruct (nxt_cases (S k) k) as [(_ & Q)|(E & _)]; [lia|lia|]. rewrite E. f_equal. lia.
Qed.
(** the successors are all the numbers *)
Lemma nxt_perm n : n <> 0 -> Permutation (map (nxt n) (seq 0 n)) (seq 0 n).
Proof.
  intros N. apply NoDup_Permutation_bis; [|rewrite map_length; reflexivity|].
  - destruct n as [|k]; [congruence|]. rewrite seq_S, map_app. cbn [map plus]. apply NoDup_join.
    + assert (E : map (nxt (S k)) (seq 0 k) = seq 1 k). { rewrite <- seq_shift. apply map_ext_in. intros i I. apply in_seq in I. destruct (nxt_cases (S k) i) as [(E & _)|(_ & Q)]; lia. } rewrite E. apply seq_NoDup.
    + constructor; [intros []|constructor].
    + intros x I [J|[]]. apply in_map_iff in I. destruct I as (i & E & I). apply in_seq in I. destruct (nxt_cases (S k) k) as [(_ & Q)|(E' & _)]; [lia|lia|]. destruct (nxt_cases (S k) i) as [(E'' & _)|(_ & Q)]; lia.
  - intros x I. apply in_map_iff in I. destruct I as (i & <- & I). apply in_seq in I. apply in_seq. destruct (nxt_cases n i); lia.
Qed.
Definition mantle (n : nat) : list (nat * nat * nat) := flat_map (fun i => [(i, nxt n i, nxt n i + n); (i, nxt n i + n, i + n)]) (seq 0 n).
Definition cone_fan (n : nat) : list (nat * nat * nat) := map (fun i => (i, nxt n i, n)) (seq 0 n).
Lemma flat_pick {A B} (f : A -> B) (g : A -> list B) l : Permutation (flat_map (fun x => f x :: g x) l) (map f l ++ flat_map g l).
Proof. induction l as [|a l IH]; [constructor|]. cbn [flat_map map app]. constructor. rewrite IH. apply Permutation_app_swap_app. Qed.
Lemma flat_nil {A B} (l : list A) : flat_map (fun _ : A => @nil B) l = []. Proof. induction l; auto. Qed.
Lemma all_sides_flat {A} (g : A -> list (nat * nat * nat)) l : all_sides (flat_map g l) = flat_map (fun x => all_sides (g x)) l.
Proof. induction l as [|a l IH]; [reflexivity|]. cbn [flat_map]. unfold all_sides in *. rewrite flat_map_app, IH. reflexivity. Qed.
Lemma mantle_sides n : Permutation (all_sides (mantle n)) (map (fun i => (i, nxt n i)) (seq 0 n) ++ map (fun i => (nxt n i, nxt n i + n)) (seq 0 n) ++ map (fun i => (nxt n i + n, i)) (seq 0 n)
  ++ map (fun i => (i, nxt n i + n)) (seq 0 n) ++ map (fun i => (nxt n i + n, i + n)) (seq 0 n) ++ map (fun i => (i + n, i)) (seq 0 n)).
Proof.
  unfold mantle. rewrite all_sides_flat. unfold all_sides. cbn [flat_map sides app].
  rewrite (flat_pick (fun i => (i, nxt n i)) (fun i => _)). apply Permutation_app_head. rewrite (flat_pick (fun i => (nxt n i, nxt n i + n)) (fun i => _)). apply Permutation_app_head.
  rewrite (flat_pick (fun i => (nxt n i + n, i)) (fun i => _)). apply Permutation_app_head. rewrite (flat_pick (fun i => (i, nxt n i + n)) (fun i => _)). apply Permutation_app_head.
  rewrite (flat_pick (fun i => (nxt n i + n, i + n)) (fun i => _)). apply Permutation_app_head. rewrite (flat_pick (fun i => (i + n, i)) (fun i => _)), flat_nil, app_nil_r. reflexivity.
Qed.
Lemma fan_sides n : Permutation (all_sides (cone_fan n)) (map (fun i => (i, nxt n i)) (seq 0 n) ++ map (fun i => (nxt n i, n)) (seq 0 n) ++ map (fun i => (n, i)) (seq 0 n)).
Proof.
  unfold cone_fan, all_sides. rewrite flat_map_concat_map, map_map, <- flat_map_concat_map. cbn [sides].
  rewrite (flat_pick (fun i => (i, nxt n i)) (fun i => _)). apply Permutation_app_head. rewrite (flat_pick (fun i => (nxt n i, n)) (fun i => _)). apply Permutation_app_head.
  rewrite (flat_pick (fun i => (n, i)) (fun i => _)), flat_nil, app_nil_r. reflexivity.
Qed.
Lemma selfopp_perm {A} (a b : list (A * A)) : Permutation a b -> selfopp a -> selfopp b.
Proof. unfold selfopp. intros P H. rewrite <- P. exact H. Qed.
Lemma selfopp_cancel {A} (t q : list (A * A)) : selfopp (t ++ q) -> selfopp q -> selfopp t.
Proof. unfold selfopp. rewrite map_app. intros H K. rewrite <- K in H. eapply Permutation_app_inv_r. exact H. Qed.
Lemma opp_map_opp {A} (a : list (A * A)) : map opp (map opp a) = a.
Proof. rewrite map_map. erewrite map_ext; [apply map_id|]. intros e. apply opp_opp. Qed.
Lemma selfopp_pair {A} (a : list (A * A)) : selfopp (a ++ map opp a).
Proof. unfold selfopp. rewrite map_app, opp_map_opp. apply Permutation_app_comm. Qed.
Lemma selfopp_map {A} (a : list (A * A)) : selfopp a -> selfopp (map opp a).
Proof. unfold selfopp. intros H. rewrite opp_map_opp. symmetry. exact H. Qed.
Lemma mantle_split n : n <> 0 -> exists D, selfopp D /\ Permutation (all_sides (mantle n)) (pairsL (seq 0 n) ++ map opp (pairsL (seq n n)) ++ D).
Proof.
  intros N. exists ((map (fun i => (i, i + n)) (seq 0 n) ++ map (fun i => (i + n, i)) (seq 0 n)) ++ (map (fun i => (nxt n i + n, i)) (seq 0 n) ++ map (fun i => (i, nxt n i + n)) (seq 0 n))). split.
  - apply selfopp_app.
    + replace (map (fun i => (i + n, i)) (seq 0 n)) with (map opp (map (fun i => (i, i + n)) (seq 0 n))) by (rewrite map_map; reflexivity). apply selfopp_pair.
    + replace (map (fun i => (i, nxt n i + n)) (seq 0 n)) with (map opp (map (fun i => (nxt n i + n, i)) (seq 0 n))) by (rewrite map_map; reflexivity). apply selfopp_pair.
  - rewrite mantle_sides, !pairs_ring by exact N. cbn [plus]. rewrite map_map. unfold opp at 1. cbn [fst snd].
    assert (V : Permutation (map (fun i => (nxt n i, nxt n i + n)) (seq 0 n)) (map (fun i => (i, i + n)) (seq 0 n))). { rewrite <- (nxt_perm n N) at 2. rewrite map_map. reflexivity. } rewrite V.
    assert (T : map (fun i => (nxt n i + n, i + n)) (seq 0 n) = map (fun x => (n + nxt n x, n + x)) (seq 0 n)) by (apply map_ext; intros i; f_equal; lia). rewrite T.
    apply Permutation_app_head. generalize (map (fun i => (i, i + n)) (seq 0 n)) (map (fun i => (nxt n i + n, i)) (seq 0 n)) (map (fun i => (i, nxt n i + n)) (seq 0 n)) (map (fun i => (n + nxt n i, n + i)) (seq 0 n)) (map (fun i => (i + n, i)) (seq 0 n)). intros a b c d e.
    pm.
Qed.
Lemma fan_split n : n <> 0 -> exists D, selfopp D /\ Permutation (all_sides (cone_fan n)) (pairsL (seq 0 n) ++ D).
Proof.
  intros N. exists (map (fun i => (i, n)) (seq 0 n) ++ map (fun i => (n, i)) (seq 0 n)). split.
  - replace (map (fun i => (n, i)) (seq 0 n)) with (map opp (map (fun i => (i, n)) (seq 0 n))) by (rewrite map_map; reflexivity). apply selfopp_pair.
  - rewrite fan_sides, pairs_ring by exact N. cbn [plus]. apply Permutation_app_head. apply Permutation_app_tail. rewrite <- (nxt_perm n N) at 2. rewrite map_map. reflexivity.
Qed.
Lemma map_NoDup {A B} (f : A -> B) l : (forall x y, List.In x l -> List.In y l -> f x = f y -> x = y) -> NoDup l -> NoDup (map f l).
Proof.
  induction l as [|a l IH]; intros I N; [constructor|]. inversion N as [|y m N1 N2 E]; subst. cbn [map]. constructor; [|apply IH; [intros; apply I; cbn; auto|exact N2]].
  intros J. apply in_map_iff in J. destruct J as (b & E & J). apply N1. rewrite (I a b); [exact J|left; reflexivity|right; exact J|symmetry; exact E].
Qed.
Lemma in_ring {f : nat -> nat * nat} {n e} : List.In e (map f (seq 0 n)) -> exists i, i < n /\ e = f i /\ ((nxt n i = S i /\ S i < n) \/ (nxt n i = 0 /\ S i = n)).
Proof. intros I. apply in_map_iff in I. destruct I as (i & E & I). apply in_seq in I. exists i. split; [lia|]. split; [symmetry; exact E|]. apply nxt_cases. lia. Qed.
Lemma ring_NoDup (f : nat -> nat * nat) n : (forall i j, i < n -> j < n -> f i = f j -> i = j) -> NoDup (map f (seq 0 n)).
Proof. intros H. apply map_NoDup; [|apply seq_NoDup]. intros x y X Y. apply in_seq in X. apply in_seq in Y. apply H; lia. Qed.
Ltac ring_nd := apply ring_NoDup; intros i j Hi Hj E; pose proof (f_equal fst E) as E1; pose proof (f_equal snd E) as E2; cbn [fst snd] in E1, E2; destruct (nxt_cases _ i Hi), (nxt_cases _ j Hj); lia.
Ltac ring_dj := intros e I J; destruct (in_ring I) as (i & Hi & -> & Ni); repeat (apply in_app_or in J; destruct J as [J|J]); destruct (in_ring J) as (j & Hj & E & Nj); pose proof (f_equal fst E) as E1; pose proof (f_equal snd E) as E2; cbn [fst snd] in E1, E2; lia.
Lemma mantle_NoDup n : 3 <= n -> NoDup (all_sides (mantle n)).
Proof.
  intros N. eapply Permutation_NoDup; [symmetry; apply mantle_sides|].
  apply NoDup_join; [ring_nd| |ring_dj]. apply NoDup_join; [ring_nd| |ring_dj]. apply NoDup_join; [ring_nd| |ring_dj]. apply NoDup_join; [ring_nd| |ring_dj]. apply NoDup_join; [ring_nd|ring_nd|ring_dj].
Qed.
Lemma fan_NoDup n : 3 <= n -> NoDup (all_sides (cone_fan n)).
Proof. intros N. eapply Permutation_NoDup; [symmetry; apply fan_sides|]. apply NoDup_join; [ring_nd| |ring_dj]. apply NoDup_join; [ring_nd|ring_nd|ring_dj]. Qed.
Lemma NoDup_opp (a : list (nat * nat)) : NoDup a -> NoDup (map opp a).
Proof. intros N. apply map_NoDup; [|exact N]. intros x y _ _ E. rewrite <- (opp_opp x), E. apply opp_opp. Qed.
Section Bound.
Variables (vs : list vec3) (m m' : vec3) (n : nat) (tb tt : list (nat * nat * nat)) (rb rt : list nat).
Hypothesis N : 3 <= n.
Hypothesis Cb : cutsN vs m (seq 0 n) tb rb.
Hypothesis Lb : length rb <= 2.
Lemma low a b : List.In (a, b) (all_sides tb) -> a < n /\ b < n.
Proof. intros I. destruct (sides_in (cutsN_in _ _ _ _ _ Cb) I) as (A & B). apply in_seq in A. apply in_seq in B. lia. Qed.
Lemma in_opp {A} (e : A * A) l : List.In e (map opp l) -> List.In (opp e) l.
Proof. intros I. apply in_map_iff in I. destruct I as (x & <- & I). rewrite opp_opp. exact I. Qed.
Lemma low_ring i : i < n -> ~ List.In (i, nxt n i) (map opp (all_sides tb)).
Proof.
  intros Hi I. apply in_opp in I. cbn [opp fst snd] in I. apply (cutsN_noback _ _ _ _ _ Cb (seq_NoDup n 0) i (nxt n i)); [|exact I]. rewrite pairs_ring by lia. cbn [plus]. apply in_map_iff. exists i. split; [reflexivity|]. apply in_seq. lia.
Qed.
Lemma pyramid_oriented : oriented (map turned tb ++ cone_fan n).
Proof.
  split.
  - change (selfopp (all_sides (map turned tb ++ cone_fan n))). unfold all_sides. rewrite flat_map_app. fold (all_sides (map turned tb)) (all_sides (cone_fan n)).
    destruct (cutsN_sides _ _ _ _ _ Cb) as (D & SD & P). destruct (fan_split n) as (E & SE & Q); [lia|]. apply (selfopp_cancel _ (map opp (pairsL rb))); [|apply selfopp_map, small_selfopp, Lb].
    eapply selfopp_perm; [symmetry|exact (selfopp_app _ _ (selfopp_pair (map opp (pairsL (seq 0 n)))) (selfopp_app _ _ (selfopp_map _ SD) SE))]. rewrite opp_map_opp. rewrite turned_sides, Q.
    apply (Permutation_map opp) in P. rewrite !map_app in P. set (S := map opp (all_sides tb)) in *. set (R := map opp (pairsL rb)) in *. set (F := pairsL (seq 0 n)) in *.
    transitivity ((S ++ R) ++ F ++ E); [pm|]. rewrite P. pm.
  - unfold all_sides. rewrite flat_map_app. fold (all_sides (map turned tb)) (all_sides (cone_fan n)). apply NoDup_join; [eapply Permutation_NoDup; [symmetry; apply turned_sides|apply NoDup_opp; eapply cutsN_NoDup; [exact Cb|apply seq_NoDup]]|apply fan_NoDup, N|].
    intros (a, b) I J. apply (Permutation_in _ (turned_sides tb)) in I. apply (Permutation_in _ (fan_sides n)) in J. destruct (low b a (in_opp _ _ I)) as (B & A).
    repeat (apply in_app_or in J; destruct J as [J|J]); destruct (in_ring J) as (i & Hi & E & Ni); injection E as -> ->; try lia. exact (low_ring i Hi I).
Qed.
Hypothesis Ct : cutsN vs m' (seq n n) tt rt.
Hypothesis Lt : length rt <= 2.
Lemma high a b : List.In (a, b) (all_sides tt) -> n <= a /\ n <= b.
Proof. intros I. destruct (sides_in (cutsN_in _ _ _ _ _ Ct) I) as (A & B). apply in_seq in A. apply in_seq in B. lia. Qed.
Lemma high_ring i : i < n -> ~ List.In (nxt n i + n, i + n) (all_sides tt).
Proof.
  intros Hi I. apply (cutsN_noback _ _ _ _ _ Ct (seq_NoDup n n) (i + n) (nxt n i + n)); [|exact I]. rewrite pairs_ring by lia. apply in_map_iff. exists i. split; [f_equal; lia|]. apply in_seq. lia.
Qed.
Lemma prism_oriented : oriented (map turned tb ++ tt ++ mantle n).
Proof.
  split.
  - change (selfopp (all_sides (map turned tb ++ tt ++ mantle n))). unfold all_sides. rewrite !flat_map_app. fold (all_sides (map turned tb)) (all_sides (mantle n)) (all_sides tt).
    destruct (cutsN_sides _ _ _ _ _ Cb) as (D & SD & P). destruct (cutsN_sides _ _ _ _ _ Ct) as (D' & SD' & P'). destruct (mantle_split n) as (E & SE & Q); [lia|].
    apply (selfopp_cancel _ (map opp (pairsL rb) ++ pairsL rt)); [|apply selfopp_app; [apply selfopp_map|]; apply small_selfopp; assumption].
    eapply selfopp_perm; [symmetry|exact (selfopp_app _ _ (selfopp_app _ _ (selfopp_pair (map opp (pairsL (seq 0 n)))) (selfopp_pair (pairsL (seq n n)))) (selfopp_app _ _ (selfopp_map _ SD) (selfopp_app _ _ SD' SE)))]. rewrite opp_map_opp. rewrite turned_sides, Q.
    apply (Permutation_map opp) in P. rewrite !map_app in P. set (S := map opp (all_sides tb)) in *. set (Rb := map opp (pairsL rb)) in *. set (F := pairsL (seq 0 n)) in *. set (F' := pairsL (seq n n)) in *. set (S' := all_sides tt) in *. set (G := map opp F') in *. set (Fo := map opp F) in *. set (Do := map opp D) in *. set (Rt := pairsL rt) in *.
    transitivity ((S ++ Rb) ++ (S' ++ Rt) ++ F ++ G ++ E).
    + pm.
    + rewrite P, P'. pm.
  - unfold all_sides. rewrite !flat_map_app. fold (all_sides (map turned tb)) (all_sides (mantle n)) (all_sides tt).
    apply NoDup_join; [eapply Permutation_NoDup; [symmetry; apply turned_sides|apply NoDup_opp; eapply cutsN_NoDup; [exact Cb|apply seq_NoDup]]| |].
    + apply NoDup_join; [eapply cutsN_NoDup; [exact Ct|apply seq_NoDup]|apply mantle_NoDup, N|]. intros (a, b) I J. apply (Permutation_in _ (mantle_sides n)) in J. destruct (high a b I) as (A & B).
      repeat (apply in_app_or in J; destruct J as [J|J]); destruct (in_ring J) as (i & Hi & E & Ni); injection E as -> ->; try lia. exact (high_ring i Hi I).
    + intros (a, b) I J. apply (Permutation_in _ (turned_sides tb)) in I. destruct (low b a (in_opp _ _ I)) as (B & A). apply in_app_or in J. destruct J as [J|J]; [destruct (high a b J); lia|]. apply (Permutation_in _ (mantle_sides n)) in J.
      repeat (apply in_app_or in J; destruct J as [J|J]); destruct (in_ring J) as (i & Hi & E & Ni); injection E as -> ->; try lia. exact (low_ring i Hi I).
Qed.
End Bound.
