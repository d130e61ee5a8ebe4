(** Tubes closed by poles (sphere, ellipsoid, capsule) and by fans (lathe). *)
From Verif Require Import Base SpecGeom SpecFrame SpecBox SpecShape SpecMesh ModelMesh FactsPH FactsPH4 FactsMesh FactsMesh2.
From Coq Require Import Lia.
Open Scope nat_scope.

(** rings 1 .. m of n vertices; (0, 0) and (m + 1, 0) are the poles *)
Definition tube_cap0 (m n : nat) : list (V2n * V2n * V2n) := map (fun j => ((0, 0), (1, prev0 n j), (1, j))) (seq 0 n).
Definition tube_cap1 (m n : nat) : list (V2n * V2n * V2n) := map (fun j => ((m + 1, 0), (m, j), (m, prev0 n j))) (seq 0 n).
Definition tube_body (m n : nat) : list (V2n * V2n * V2n) :=
  flat_map (fun i => flat_map (fun j => [((i + 1, prev0 n j), (i, j), (i, prev0 n j)); ((i + 1, prev0 n j), (i + 1, j), (i, j))])
    (seq 0 n)) (seq 1 (m - 1)).
Definition tube_p (m n : nat) : list (V2n * V2n * V2n) := tube_cap0 m n ++ tube_body m n ++ tube_cap1 m n.
Definition tube_side (m n i j i' j' : nat) : Prop :=
  j < n /\ j' < n /\
  ((i = 0 /\ j = 0 /\ i' = 1) \/ (i' = 0 /\ j' = 0 /\ i = 1) \/
   (i = m + 1 /\ j = 0 /\ i' = m) \/ (i' = m + 1 /\ j' = 0 /\ i = m) \/
   (1 <= i <= m /\ i = i' /\ nxt n j j') \/ (1 <= i <= m /\ i = i' /\ nxt n j' j) \/
   (1 <= i < m /\ i' = i + 1 /\ j = j') \/ (1 <= i' < m /\ i = i' + 1 /\ j = j') \/
   (1 <= i < m /\ i' = i + 1 /\ nxt n j' j) \/ (1 <= i' < m /\ i = i' + 1 /\ nxt n j j')).
Ltac nx := prevs; repeat match goal with Q : ?a < ?n -> nxt _ _ _ |- _ => specialize (Q ltac:(lia)); pose proof (nxt_lt _ _ _ Q) end.
Ltac sel := match goal with
  | |- _ \/ _ => first [left; sel | right; sel]
  | |- _ /\ _ => split; sel
  | |- nxt _ _ _ => assumption
  | |- _ => lia
  end.
Ltac tin x := rewrite in_flat_map; exists x; split; [seqin|].
Lemma tube_side_in m n i j i' j' : 1 <= m -> 1 <= n -> List.In ((i, j), (i', j')) (pall (tube_p m n)) <-> tube_side m n i j i' j'.
Proof.
  intros Hm Hn. unfold tube_p. rewrite !pall_app. split.
  - intros H. unfold tube_side. apply in_app_or in H. destruct H as [H|H]; [|apply in_app_or in H; destruct H as [H|H]].
    + unfold tube_cap0 in H. rewrite pall_mapf in H. io; subst; nx; sel.
    + unfold tube_body in H. rewrite pall_flat in H. apply in_flat_map in H. destruct H as (a & La & H). rewrite pall_flat in H. io; subst; nx; sel.
    + unfold tube_cap1 in H. rewrite pall_mapf in H. io; subst; nx; sel.
  - intros (Hj & Hj' & H). rewrite !in_app_iff. 
    unfold tube_cap0, tube_cap1, tube_body. rewrite !pall_mapf, pall_flat.
    assert (go : forall a b, 1 <= a < m -> b < n -> List.In ((i, j), (i', j')) (pall [((a + 1, prev0 n b), (a, b), (a, prev0 n b)); ((a + 1, prev0 n b), (a + 1, b), (a, b))]) ->
      List.In ((i, j), (i', j')) (flat_map (fun x => pall (flat_map (fun j => [((x + 1, prev0 n j), (x, j), (x, prev0 n j)); ((x + 1, prev0 n j), (x + 1, j), (x, j))]) (seq 0 n))) (seq 1 (m - 1)))).
    { intros a b La Lb Hab. tin a. rewrite pall_flat. tin b. exact Hab. }
    destruct H as [(-> & -> & ->)|[(-> & -> & ->)|[(-> & -> & ->)|[(-> & -> & ->)|[(Hi & -> & H)|[(Hi & -> & H)|[(Hi & -> & ->)|[(Hi & -> & ->)|[(Hi & -> & H)|(Hi & -> & H)]]]]]]]]].
    + left. destruct (nxt_lt _ _ _ (next_nxt n j' Hj')) as [_ L]. tin (next n j'). rewrite (nxt_prev _ _ _ (next_nxt n j' Hj')). left. reflexivity.
    + left. tin j. do 2 right; left. reflexivity.
    + right; right. tin j'. left. reflexivity.
    + right; right. destruct (nxt_lt _ _ _ (next_nxt n j Hj)) as [_ L]. tin (next n j). rewrite (nxt_prev _ _ _ (next_nxt n j Hj)). do 2 right; left. reflexivity.
    + destruct (Nat.eq_dec i' 1).
      * subst i'. left. tin j'. rewrite (nxt_prev _ _ _ H). right; left. reflexivity.
      * right; left. apply (go (i' - 1) j'); [lia|auto|]. replace (i' - 1 + 1) with i' by lia. rewrite (nxt_prev _ _ _ H). twist. do 3 right; left. reflexivity.
    + destruct (Nat.eq_dec i' m).
      * subst i'. right; right. tin j. rewrite (nxt_prev _ _ _ H). right; left. reflexivity.
      * right; left. apply (go i' j); [lia|auto|]. rewrite (nxt_prev _ _ _ H). twist. do 1 right; left. reflexivity.
    + right; left. destruct (nxt_lt _ _ _ (next_nxt n j' Hj)) as [_ L]. apply (go i (next n j')); auto. rewrite (nxt_prev _ _ _ (next_nxt n j' Hj)). twist. do 2 right; left. reflexivity.
    + right; left. apply (go i' j'); auto. twist. do 4 right; left. reflexivity.
    + right; left. apply (go i j); auto. rewrite (nxt_prev _ _ _ H). twist. do 5 right; left. reflexivity.
    + right; left. apply (go i' j'); auto. rewrite (nxt_prev _ _ _ H). twist. left. reflexivity.
Qed.
Lemma tube_paired m n : 1 <= m -> 3 <= n -> paired (tube_p m n).
Proof.
  intros Hm Hn. split.
  - unfold tube_p. rewrite !pall_app. unfold tube_cap0, tube_cap1, tube_body. rewrite !pall_mapf, pall_flat.
    apply NoDup_join; [apply NoDup_flat; [nd_seq| |]|apply NoDup_join; [apply NoDup_flat; [nd_seq| |]|apply NoDup_flat; [nd_seq| |]|]|].
    + intros j L. inv_in. nodup_small.
    + intros j j' [[x1 y1] [x2 y2]] L1 L2 H1 H2. io; arith.
    + intros i Li. rewrite pall_flat. apply NoDup_flat; [nd_seq| |].
      * intros j Lj. inv_in. nodup_small.
      * intros j j' [[x1 y1] [x2 y2]] L1 L2 H1 H2. io; arith.
    + intros i i' [[x1 y1] [x2 y2]] L1 L2 H1 H2. rewrite pall_flat in H1, H2. io; arith.
    + intros j L. inv_in. nodup_small.
    + intros j j' [[x1 y1] [x2 y2]] L1 L2 H1 H2. io; arith.
    + intros [[x1 y1] [x2 y2]] H1 H2. apply in_flat_map in H1. destruct H1 as (a & La & H1). rewrite pall_flat in H1. io; arith.
    + intros [[x1 y1] [x2 y2]] H1 H2. apply in_app_or in H2. destruct H2 as [H2|H2].
      * apply in_flat_map in H2. destruct H2 as (a & La & H2). rewrite pall_flat in H2. io; arith.
      * io; arith.
  - intros [[i j] [i' j']]. unfold opp; simpl. rewrite !tube_side_in by lia. unfold tube_side. intuition.
Qed.
(** number of a vertex of a tube *)
Definition tube_enc (n : nat) (v : V2n) : nat := match fst v with O => O | S i => i * n + 1 + snd v end.
Lemma grid_inj n i j i' j' : j < n -> j' < n -> i * n + j = i' * n + j' -> i = i' /\ j = j'.
Proof.
  intros L L' E. assert (i = i'); [|subst; lia].
  rewrite (Nat.mul_comm i), (Nat.mul_comm i') in E. apply (Nat.div_mod_unique n i i' j j'); auto.
Qed.
Definition tube_dom (m n : nat) (v : V2n) : Prop := fst v <= m + 1 /\ snd v < n /\ (fst v = 0 \/ fst v = m + 1 -> snd v = 0).
Lemma tube_enc_inj m n x y : tube_dom m n x -> tube_dom m n y -> tube_enc n x = tube_enc n y -> x = y.
Proof.
  destruct x as [i j], y as [i' j']. unfold tube_dom, tube_enc; simpl. intros (A & B & C) (A' & B' & C') E.
  destruct i, i'; [rewrite C, C' by auto; reflexivity|lia|lia|].
  destruct (grid_inj n i j i' j' B B' ltac:(lia)). subst; reflexivity.
Qed.
Lemma tube_enc_lt m n v : 1 <= m -> tube_dom m n v -> tube_enc n v < m * n + 2.
Proof. destruct v as [i j]. unfold tube_dom, tube_enc; simpl. intros Hm (A & B & C). destruct i; [lia|]. destruct (Nat.eq_dec i m); [subst; lia|]. assert (i < m) by lia. nia. Qed.
Lemma tube_used m n : 1 <= m -> 1 <= n -> used (tube_dom m n) (tube_p m n).
Proof.
  intros Hm Hn. apply Forall_forall. intros [[a b] c] H. unfold tube_p, tube_cap0, tube_cap1, tube_body in H.
  apply in_app_or in H. destruct H as [H|H]; [|apply in_app_or in H; destruct H as [H|H]].
  - apply in_map_iff in H. destruct H as (j & H & L). inv_in; subst. unfold tube_dom; simpl. nx. lia.
  - apply in_flat_map in H. destruct H as (i & Li & H). apply in_flat_map in H. destruct H as (j & L & H). inv_in; subst; unfold tube_dom; simpl; nx; lia.
  - apply in_map_iff in H. destruct H as (j & H & L). inv_in; subst. unfold tube_dom; simpl. nx. lia.
Qed.
