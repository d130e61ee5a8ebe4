(** Cylinder, capped tubes, tori, surfaces of revolution. *)
From Verif Require Import Base SpecGeom SpecFrame SpecBox SpecShape SpecMesh ModelMesh FactsPH FactsPH4 FactsMesh.
From Coq Require Import Lia.
Open Scope nat_scope.

Ltac nodup_small := cbv beta zeta iota delta [pall psides flat_map app];
  match goal with
  | |- NoDup nil => apply NoDup_nil
  | |- NoDup _ => apply NoDup_cons; [simpl; intros K; repeat destruct K as [K|K]; inv_in; arith|nodup_small]
  end.
Ltac pick := match goal with
  | |- _ \/ _ => first [left; pick | right; pick]
  | |- _ /\ _ => split; pick
  | |- nxt _ _ _ => unfold nxt in *; lia
  | |- _ => unfold nxt in *; lia
  end.
Ltac picks := prevs; repeat match goal with Q : ?a < ?n -> nxt _ _ _ |- _ => specialize (Q ltac:(lia)) end; pick.
Ltac seqin := apply in_seq; lia.
Ltac io := do 3 (inv_in; open_sides); inv_in.
Ltac flat_one := intros [x y] H1 H2; io; arith.

(** ** cylinder *)
Definition cyl_side (n a b : nat) : Prop :=
  (* rings *) (a < n /\ b < n /\ (nxt n a b \/ nxt n b a)) \/
  (n <= a < 2 * n /\ n <= b < 2 * n /\ (nxt n (a - n) (b - n) \/ nxt n (b - n) (a - n))) \/
  (* walls *) (a < n /\ b = a + n) \/ (b < n /\ a = b + n) \/
  (* diagonals *) (a < n /\ n <= b < 2 * n /\ nxt n a (b - n)) \/ (b < n /\ n <= a < 2 * n /\ nxt n b (a - n)) \/
  (* fans *) (a = 0 /\ 1 <= b < n) \/ (b = 0 /\ 1 <= a < n) \/
  (a = 2 * n - 1 /\ n <= b < 2 * n - 1) \/ (b = 2 * n - 1 /\ n <= a < 2 * n - 1).
Lemma cyl_side_in n a b : 3 <= n -> List.In (a, b) (pall (cyl_faces n)) <-> cyl_side n a b.
Proof.
  intros Hn. unfold cyl_faces. replace (n * 2 - n) with n by lia. replace (n * 2 - 1) with (2 * n - 1) by lia.
  rewrite !pall_app, !pall_mapf, pall_flat. split.
  - intros H. unfold cyl_side. io; subst; picks.
  - intros H. rewrite !in_app_iff, !in_flat_map. unfold cyl_side in H.
    destruct H as [(Ha & Hb & [H|H])|[(Ha & Hb & [H|H])|[H|[H|[H|[H|[H|[H|[H|H]]]]]]]]].
    + right; left. exists b. split; [seqin|]. left. f_equal; arith.
    + left. destruct (Nat.eq_dec b (n - 1)); [|destruct (Nat.eq_dec a 1)].
      * exists b. split; [unfold nxt in H; seqin|]. left. f_equal; unfold nxt in H; lia.
      * exists 2. split; [unfold nxt in H; seqin|]. do 2 right; left. f_equal; unfold nxt in H; lia.
      * exists a. split; [unfold nxt in H; seqin|]. right; left. f_equal; unfold nxt in H; lia.
    + right; right. destruct (Nat.eq_dec a (2 * n - 1)); [exists n|destruct (Nat.eq_dec b (2 * n - 1)); [exists (2 * n - 3)|exists a]].
      * split; [seqin|]. left. f_equal; unfold nxt in H; lia.
      * split; [seqin|]. do 2 right; left. f_equal; unfold nxt in H; lia.
      * split; [unfold nxt in H; seqin|]. right; left. f_equal; unfold nxt in H; lia.
    + right; left. exists (a - n). split; [seqin|]. do 4 right; left. f_equal; arith.
    + right; left. exists a. split; [seqin|]. right; left. f_equal; arith.
    + right; left. exists (if Nat.eqb b (n - 1) then 0 else S b). destruct (Nat.eqb_spec b (n - 1)).
      * split; [seqin|]. do 5 right; left. unfold prev0. f_equal; lia.
      * split; [seqin|]. do 5 right; left. unfold prev0. f_equal; lia.
    + right; left. exists (b - n). split; [seqin|]. do 3 right; left. f_equal; arith.
    + right; left. exists (a - n). split; [seqin|]. do 2 right; left. f_equal; arith.
    + destruct (Nat.eq_dec b 1).
      * right; left. exists b. split; [seqin|]. left. subst b. f_equal; simpl; lia.
      * left. exists b. split; [seqin|]. left. f_equal; lia.
    + destruct (Nat.eq_dec a (n - 1)).
      * right; left. exists b. split; [seqin|]. left. destruct H as [-> H]. simpl. f_equal; lia.
      * left. exists (S a). split; [seqin|]. do 2 right; left. f_equal; lia.
    + destruct (Nat.eq_dec b (2 * n - 2)).
      * right; left. exists (n - 1). split; [seqin|]. do 4 right; left. f_equal; arith.
      * right; right. exists b. split; [seqin|]. left. f_equal; lia.
    + destruct (Nat.eq_dec a n).
      * right; left. exists 0. split; [seqin|]. do 4 right; left. simpl. f_equal; lia.
      * right; right. exists (a - 1). split; [seqin|]. do 2 right; left. f_equal; lia.
Qed.
Lemma cyl_paired n : 3 <= n -> paired (cyl_faces n).
Proof.
  intros Hn. split.
  - unfold cyl_faces. replace (n * 2 - n) with n by lia. replace (n * 2 - 1) with (2 * n - 1) by lia.
    rewrite !pall_app, !pall_mapf, pall_flat. apply NoDup_join; [apply NoDup_flat; [nd_seq| |]| apply NoDup_join; [apply NoDup_flat; [nd_seq| |]|apply NoDup_flat; [nd_seq| |]|]|].
    + intros a H. inv_in. open_sides. nodup_small.
    + intros a b x Ha Hb H1 H2. destruct x as [x y]. io; arith.
    + intros a H. inv_in. open_sides. nodup_small.
    + intros a b x Ha Hb H1 H2. destruct x as [x y]. io; arith.
    + intros a H. inv_in. open_sides. nodup_small.
    + intros a b x Ha Hb H1 H2. destruct x as [x y]. io; arith.
    + flat_one.
    + flat_one.
  - intros [a b]. unfold opp; simpl. rewrite !cyl_side_in by exact Hn. unfold cyl_side. intuition.
Qed.

(** ** torus: vertex (i, j) is number i * div + j *)
Definition V2n := (nat * nat)%type.
Definition torus_p (n div : nat) : list (V2n * V2n * V2n) :=
  flat_map (fun i => flat_map (fun j => [((i, j), (prev0 n i, j), (prev0 n i, prev0 div j)); ((i, j), (prev0 n i, prev0 div j), (i, prev0 div j))])
    (seq 0 div)) (seq 0 n).
Definition torus_side (n div i j i' j' : nat) : Prop :=
  i < n /\ i' < n /\ j < div /\ j' < div /\
  ((j = j' /\ nxt n i i') \/ (j = j' /\ nxt n i' i) \/ (i = i' /\ nxt div j j') \/ (i = i' /\ nxt div j' j) \/
   (nxt n i i' /\ nxt div j j') \/ (nxt n i' i /\ nxt div j' j)).
Definition next (n i : nat) : nat := if Nat.eqb i (n - 1) then 0 else S i.
Lemma next_nxt n i : i < n -> nxt n i (next n i).
Proof. unfold nxt, next. destruct (Nat.eqb_spec i (n - 1)); lia. Qed.
Lemma nxt_prev n i j : nxt n i j -> prev0 n j = i.
Proof. unfold nxt, prev0. destruct j; lia. Qed.
Lemma nxt_lt n i j : nxt n i j -> i < n /\ j < n.
Proof. unfold nxt. lia. Qed.
Ltac twist := cbv beta zeta iota delta [pall psides flat_map app].
Lemma torus_side_in n div i j i' j' : List.In ((i, j), (i', j')) (pall (torus_p n div)) <-> torus_side n div i j i' j'.
Proof.
  unfold torus_p. rewrite pall_flat. split.
  - intros H. unfold torus_side. apply in_flat_map in H. destruct H as (a & La & H). rewrite pall_flat in H.
    io; subst; prevs; repeat match goal with Q : ?a < ?n -> nxt _ _ _ |- _ => specialize (Q ltac:(lia)); pose proof (nxt_lt _ _ _ Q) end;
    repeat match goal with |- _ /\ _ => split; [lia|] end; intuition.
  - intros (Hi & Hi' & Hj & Hj' & H). apply in_flat_map.
    assert (go : forall a b, a < n -> b < div -> List.In ((i, j), (i', j')) (pall [((a, b), (prev0 n a, b), (prev0 n a, prev0 div b)); ((a, b), (prev0 n a, prev0 div b), (a, prev0 div b))]) ->
      exists x, List.In x (seq 0 n) /\ List.In ((i, j), (i', j')) (pall (flat_map (fun j0 => [((x, j0), (prev0 n x, j0), (prev0 n x, prev0 div j0)); ((x, j0), (prev0 n x, prev0 div j0), (x, prev0 div j0))]) (seq 0 div)))).
    { intros a b La Lb Hab. exists a. split; [seqin|]. rewrite pall_flat. apply in_flat_map. exists b. split; [seqin|exact Hab]. }
    destruct H as [[-> H]|[[-> H]|[[-> H]|[[-> H]|[[H H']|[H H']]]]]].
    + apply (go i' (next div j')); auto. { apply (nxt_lt _ _ _ (next_nxt div j' Hj)). }
      rewrite (nxt_prev _ _ _ (next_nxt div j' Hj)), (nxt_prev _ _ _ H). twist. do 4 right; left. reflexivity.
    + apply (go i j'); auto. rewrite (nxt_prev _ _ _ H). twist. left. reflexivity.
    + apply (go i' j'); auto. rewrite (nxt_prev _ _ _ H). twist. do 5 right; left. reflexivity.
    + apply (go (next n i') j); auto. { apply (nxt_lt _ _ _ (next_nxt n i' Hi)). }
      rewrite (nxt_prev _ _ _ (next_nxt n i' Hi)), (nxt_prev _ _ _ H). twist. right; left. reflexivity.
    + apply (go i' j'); auto. rewrite (nxt_prev _ _ _ H), (nxt_prev _ _ _ H'). twist. do 2 right; left. reflexivity.
    + apply (go i j); auto. rewrite (nxt_prev _ _ _ H), (nxt_prev _ _ _ H'). twist. do 3 right; left. reflexivity.
Qed.
Lemma torus_paired n div : 3 <= n -> 3 <= div -> paired (torus_p n div).
Proof.
  intros Hn Hd. split.
  - unfold torus_p. rewrite pall_flat. apply NoDup_flat; [nd_seq| |].
    + intros i Li. rewrite pall_flat. apply NoDup_flat; [nd_seq| |].
      * intros j Lj. inv_in. nodup_small.
      * intros j j' [[x1 y1] [x2 y2]] L1 L2 H1 H2. io; arith.
    + intros i i' [[x1 y1] [x2 y2]] L1 L2 H1 H2. rewrite pall_flat in H1, H2. io; arith.
  - intros [[i j] [i' j']]. unfold opp; simpl. rewrite !torus_side_in. unfold torus_side. intuition.
Qed.
