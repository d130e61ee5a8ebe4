(** Surfaces of revolution closed by fans; the numbering of all meshes. *)
From Verif Require Import Base SpecGeom SpecFrame SpecBox SpecShape SpecMesh ModelMesh FactsPH FactsPH4 FactsMesh FactsMesh2 FactsMesh3.
From Coq Require Import Lia.
Open Scope nat_scope.

Definition lathe_body (n d : nat) : list (V2n * V2n * V2n) :=
  flat_map (fun i => flat_map (fun j => [((i - 1, j), (i - 1, prev0 d j), (i, prev0 d j)); ((i - 1, j), (i, prev0 d j), (i, j))])
    (seq 0 d)) (seq 1 (n - 1)).
Definition fan_up (r d : nat) : list (V2n * V2n * V2n) := map (fun j => ((r, 0), (r, j - 1), (r, j))) (seq 2 (d - 2)).
Definition fan_down (r d : nat) : list (V2n * V2n * V2n) := map (fun j => ((r, 0), (r, j), (r, j - 1))) (seq 2 (d - 2)).
Definition lathe_p (n d : nat) : list (V2n * V2n * V2n) := lathe_body n d ++ fan_up 0 d ++ fan_down (n - 1) d.
Definition lathe_side (n d i j i' j' : nat) : Prop :=
  i < n /\ i' < n /\ j < d /\ j' < d /\
  ((i = i' /\ nxt d j j') \/ (i = i' /\ nxt d j' j) \/
   (i' = i + 1 /\ j = j') \/ (i = i' + 1 /\ j = j') \/
   (i' = i + 1 /\ nxt d j' j) \/ (i = i' + 1 /\ nxt d j j') \/
   (i = i' /\ (i = 0 \/ i = n - 1) /\ j = 0 /\ 1 <= j') \/ (i = i' /\ (i = 0 \/ i = n - 1) /\ j' = 0 /\ 1 <= j)).
Lemma fan_in_up r d i j i' j' : 3 <= d -> List.In ((i, j), (i', j')) (pall (fan_up r d)) <->
  i = r /\ i' = r /\ j < d /\ j' < d /\ ((j' = S j) \/ (j = 0 /\ 1 <= j' < d - 1) \/ (j' = 0 /\ 2 <= j)).
Proof.
  intros Hd. unfold fan_up. rewrite pall_mapf. split.
  - intros H. io; subst; lia.
  - intros (-> & -> & Hj & Hj' & H). destruct (Nat.eq_dec j' 0).
    + tin j. do 2 right; left. f_equal; f_equal; lia.
    + destruct (Nat.eq_dec j 0).
      * tin (S j'). left. f_equal; f_equal; lia.
      * tin j'. right; left. f_equal; f_equal; lia.
Qed.
Lemma fan_in_down r d i j i' j' : 3 <= d -> List.In ((i, j), (i', j')) (pall (fan_down r d)) <->
  i = r /\ i' = r /\ j < d /\ j' < d /\ ((j = S j') \/ (j = 0 /\ 2 <= j') \/ (j' = 0 /\ 1 <= j < d - 1)).
Proof.
  intros Hd. unfold fan_down. rewrite pall_mapf. split.
  - intros H. io; subst; lia.
  - intros (-> & -> & Hj & Hj' & H). destruct (Nat.eq_dec j 0).
    + tin j'. left. f_equal; f_equal; lia.
    + destruct (Nat.eq_dec j' 0).
      * tin (S j). do 2 right; left. f_equal; f_equal; lia.
      * tin j. right; left. f_equal; f_equal; lia.
Qed.
Lemma lathe_body_in n d i j i' j' : 1 <= d -> List.In ((i, j), (i', j')) (pall (lathe_body n d)) <->
  i < n /\ i' < n /\ j < d /\ j' < d /\
  ((i = i' /\ 1 <= i /\ nxt d j j') \/ (i = i' /\ i < n - 1 /\ nxt d j' j) \/
   (i' = i + 1 /\ j = j') \/ (i = i' + 1 /\ j = j') \/
   (i' = i + 1 /\ nxt d j' j) \/ (i = i' + 1 /\ nxt d j j')).
Proof.
  intros Hd. unfold lathe_body. rewrite pall_flat. split.
  - intros H. apply in_flat_map in H. destruct H as (a & La & H). rewrite pall_flat in H. apply in_seq in La. io; subst; nx; sel.
  - intros (Hi & Hi' & Hj & Hj' & H).
    assert (go : forall a b, 1 <= a < n -> b < d -> List.In ((i, j), (i', j')) (pall [((a - 1, b), (a - 1, prev0 d b), (a, prev0 d b)); ((a - 1, b), (a, prev0 d b), (a, b))]) ->
      List.In ((i, j), (i', j')) (flat_map (fun x => pall (flat_map (fun j => [((x - 1, j), (x - 1, prev0 d j), (x, prev0 d j)); ((x - 1, j), (x, prev0 d j), (x, j))]) (seq 0 d))) (seq 1 (n - 1)))).
    { intros a b La Lb Hab. tin a. rewrite pall_flat. tin b. exact Hab. }
    destruct H as [(-> & K & H)|[(-> & K & H)|[(-> & ->)|[(-> & ->)|[(-> & H)|(-> & H)]]]]].
    + apply (go i' j'); auto. rewrite (nxt_prev _ _ _ H). twist. do 4 right; left. reflexivity.
    + apply (go (i' + 1) j); [lia|auto|]. replace (i' + 1 - 1) with i' by lia. rewrite (nxt_prev _ _ _ H). twist. left. reflexivity.
    + destruct (nxt_lt _ _ _ (next_nxt d j' Hj)) as [_ L]. apply (go (i + 1) (next d j')); [lia|auto|]. replace (i + 1 - 1) with i by lia.
      rewrite (nxt_prev _ _ _ (next_nxt d j' Hj)). twist. do 1 right; left. reflexivity.
    + apply (go (i' + 1) j'); [lia|auto|]. replace (i' + 1 - 1) with i' by lia. twist. do 5 right; left. reflexivity.
    + apply (go (i + 1) j); [lia|auto|]. replace (i + 1 - 1) with i by lia. rewrite (nxt_prev _ _ _ H). twist. do 3 right; left. reflexivity.
    + apply (go (i' + 1) j'); [lia|auto|]. replace (i' + 1 - 1) with i' by lia. rewrite (nxt_prev _ _ _ H). twist. do 2 right; left. reflexivity.
Qed.
Lemma lathe_side_in n d i j i' j' : 2 <= n -> 3 <= d -> List.In ((i, j), (i', j')) (pall (lathe_p n d)) <-> lathe_side n d i j i' j'.
Proof.
  intros Hn Hd. unfold lathe_p. rewrite !pall_app, !in_app_iff, lathe_body_in, fan_in_up, fan_in_down by lia. unfold lathe_side. split.
  - intros [(A & B & C & D & H)|[(-> & -> & C & D & H)|(-> & -> & C & D & H)]].
    + intuition.
    + destruct H as [H|[H|H]]; [|sel|sel]. repeat match goal with |- _ /\ _ => split; [lia|] end. left. split; [reflexivity|]. unfold nxt; lia.
    + destruct H as [H|[H|H]]; [|sel|sel]. repeat match goal with |- _ /\ _ => split; [lia|] end. right; left. split; [reflexivity|]. unfold nxt; lia.
  - intros (A & B & C & D & H).
    destruct H as [(-> & H)|[(-> & H)|[H|[H|[H|[H|[(-> & K & -> & H)|(-> & K & -> & H)]]]]]]]; try (left; repeat match goal with |- _ /\ _ => split; [lia|] end; tauto).
    + destruct (Nat.eq_dec i' 0).
      * right; left. unfold nxt in H. lia.
      * left. repeat match goal with |- _ /\ _ => split; [lia|] end. left. repeat split; auto; lia.
    + destruct (Nat.eq_dec i' (n - 1)).
      * right; right. unfold nxt in H. lia.
      * left. repeat match goal with |- _ /\ _ => split; [lia|] end. right; left. repeat split; auto; lia.
    + destruct K as [-> | ->].
      * destruct (Nat.eq_dec j' (d - 1)); [|right; left; lia]. left. repeat match goal with |- _ /\ _ => split; [lia|] end. right; left. split; [reflexivity|split; [lia|unfold nxt; lia]].
      * destruct (Nat.eq_dec j' 1); [|right; right; lia]. left. repeat match goal with |- _ /\ _ => split; [lia|] end. left. split; [reflexivity|split; [lia|unfold nxt; lia]].
    + destruct K as [-> | ->].
      * destruct (Nat.eq_dec j 1); [|right; left; lia]. left. repeat match goal with |- _ /\ _ => split; [lia|] end. right; left. split; [reflexivity|split; [lia|unfold nxt; lia]].
      * destruct (Nat.eq_dec j (d - 1)); [|right; right; lia]. left. repeat match goal with |- _ /\ _ => split; [lia|] end. left. split; [reflexivity|split; [lia|unfold nxt; lia]].
Qed.
Lemma lathe_paired n d : 2 <= n -> 3 <= d -> paired (lathe_p n d).
Proof.
  intros Hn Hd. split.
  - unfold lathe_p. rewrite !pall_app. 
    apply NoDup_join; [|apply NoDup_join|].
    + unfold lathe_body. rewrite pall_flat. apply NoDup_flat; [nd_seq| |].
      * intros i Li. rewrite pall_flat. apply NoDup_flat; [nd_seq| |].
        -- intros j Lj. inv_in. nodup_small.
        -- intros j j' [[x1 y1] [x2 y2]] L1 L2 H1 H2. io; arith.
      * intros i i' [[x1 y1] [x2 y2]] L1 L2 H1 H2. rewrite pall_flat in H1, H2. io; arith.
    + unfold fan_up. rewrite pall_mapf. apply NoDup_flat; [nd_seq| |].
      * intros j Lj. inv_in. nodup_small.
      * intros j j' [[x1 y1] [x2 y2]] L1 L2 H1 H2. io; arith.
    + unfold fan_down. rewrite pall_mapf. apply NoDup_flat; [nd_seq| |].
      * intros j Lj. inv_in. nodup_small.
      * intros j j' [[x1 y1] [x2 y2]] L1 L2 H1 H2. io; arith.
    + intros [[i j] [i' j']] H1 H2. rewrite fan_in_up in H1 by lia. rewrite fan_in_down in H2 by lia. lia.
    + intros [[i j] [i' j']] H1 H2. rewrite in_app_iff, fan_in_up, fan_in_down in H2 by lia. rewrite lathe_body_in in H1 by lia.
      destruct H1 as (A & B & C & D & H). destruct H2 as [H2|H2]; unfold nxt in H; lia.
  - intros [[i j] [i' j']]. unfold opp; simpl. rewrite !lathe_side_in by lia. unfold lathe_side. intuition.
Qed.
