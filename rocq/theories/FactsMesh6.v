(** Sphere, ellipsoid and capsule meshes. *)
From Verif Require Import Base SpecGeom SpecFrame SpecBox SpecShape SpecMesh ModelMesh FactsPH FactsPH4 FactsMesh FactsMesh2 FactsMesh3 FactsMesh4 FactsMesh5.
From Coq Require Import Lia.
Open Scope nat_scope.

Lemma seq_from1 {A} (f : nat -> A) n : map f (seq 1 n) = map (fun j => f (S j)) (seq 0 n).
Proof. rewrite <- seq_shift, map_map. reflexivity. Qed.
Lemma flat_from1 {A} (f : nat -> list A) k n : flat_map f (seq (S k) n) = flat_map (fun j => f (S j)) (seq k n).
Proof. rewrite <- seq_shift. rewrite !flat_map_concat_map, map_map. reflexivity. Qed.
Lemma prev1_prev0 n j : 1 <= n -> prev1 n (S j) = S (prev0 n j).
Proof. intros H. unfold prev1, prev0. destruct j; simpl; lia. Qed.

(** faces of the caps as they are written *)
Definition pturn {A} (f : A * A * A) : A * A * A := let '(a, b, c) := f in (a, c, b).
Definition scap0 (m n : nat) : list (V2n * V2n * V2n) := map pturn (tube_cap0 m n).
Definition scap1 (m n : nat) : list (V2n * V2n * V2n) := map (fun j => ((m, j), (m + 1, 0), (m, prev0 n j))) (seq 0 n).
Definition sbody (m n : nat) : list (V2n * V2n * V2n) :=
  flat_map (fun i => flat_map (fun j => [((i + 1, prev0 n j), (i + 1, j), (i, j)); ((i + 1, prev0 n j), (i, j), (i, prev0 n j))])
    (seq 0 n)) (seq 1 (m - 1)).
Lemma scap0_enc n : 1 <= n -> sphere_cap0 n = map (fmap (tube_enc n)) (scap0 (n - 1) n).
Proof.
  intros Hn. unfold sphere_cap0, scap0, tube_cap0. rewrite seq_from1, !map_map. apply map_ext. intros j.
  rewrite prev1_prev0 by exact Hn. unfold fmap, pturn, tube_enc, fst, snd. rewrite !pair_equal_spec. lia.
Qed.
Lemma sbody_enc n : 2 <= n -> sphere_body n = map (fmap (tube_enc n)) (sbody (n - 1) n).
Proof.
  intros Hn. unfold sphere_body, sbody. rewrite flat_from1, map_flat. replace (n - 1 - 1) with (n - 2) by lia. apply flat_ext. intros i Li. apply in_seq in Li.
  rewrite map_flat. apply flat_ext. intros j Lj. apply in_seq in Lj. cbv zeta. unfold fmap, tube_enc, fst, snd.
  cbn [map]. replace (S i - 1) with i by lia. rewrite (Nat.add_1_r i).
  destruct i as [|i]; [lia|]. 
  assert (E : (if Nat.eqb j 0 then S (S i) * n else S i * n + 1 + j - 1) = S i * n + 1 + prev0 n j).
  { destruct j; simpl; [|lia]. nia. }
  rewrite E. assert (P := prev0_nxt n j ltac:(lia)). apply nxt_lt in P. set (q := prev0 n j) in *. clearbody q. clear E. f_equal; [|f_equal]; rewrite !pair_equal_spec; nia.
Qed.
Lemma scap1_enc n w : 2 <= n -> sphere_nf n - w = n -> sphere_cap1 n w = map (fmap (tube_enc n)) (scap1 (n - 1) n).
Proof.
  intros Hn Hw. unfold sphere_cap1, scap1. rewrite Hw, map_map. apply map_ext_in. intros t Lt. apply in_seq in Lt. cbv zeta.
  unfold fmap, tube_enc, fst, snd, sphere_nv. destruct n as [|[|n]]; [lia|lia|].
  replace (S (S n) - 1) with (S n) by lia. cbn [Nat.add]. replace (n + 1) with (S n) by lia.
  destruct t; cbn [Nat.eqb prev0]; rewrite !pair_equal_spec; nia.
Qed.
Lemma scaps_len n : 2 <= n -> length (sphere_cap0 n ++ sphere_body n) = n + (n - 2) * (n * 2).
Proof.
  intros Hn. unfold sphere_cap0, sphere_body. rewrite app_length, map_length, seq_length, (flat_len _ (n * 2)), seq_length; [reflexivity|].
  intros i L. rewrite (flat_len _ 2), seq_length by (intros; reflexivity). reflexivity.
Qed.
Lemma sphere_rest n : 2 <= n -> sphere_nf n - length (sphere_cap0 n ++ sphere_body n) = n.
Proof. intros Hn. rewrite scaps_len by exact Hn. unfold sphere_nf. destruct n as [|[|n]]; [lia|lia|]. replace (S (S n) - 1) with (S n) by lia. replace (S (S n) - 2) with n by lia. nia. Qed.
Lemma sphere_enc n : 2 <= n -> sphere_faces n = map (fmap (tube_enc n)) (scap0 (n - 1) n) ++ map (fmap (tube_enc n)) (sbody (n - 1) n) ++ map (fmap (tube_enc n)) (scap1 (n - 1) n).
Proof.
  intros Hn. unfold sphere_faces. cbv zeta. rewrite (scap1_enc n _ Hn (sphere_rest n Hn)). rewrite <- app_assoc, scap0_enc, sbody_enc by lia. reflexivity.
Qed.
Lemma pturn_fmap {A B} (g : A -> B) fs : map pturn (map (fmap g) fs) = map (fmap g) (map pturn fs).
Proof. rewrite !map_map. apply map_ext. intros [[a b] c]. reflexivity. Qed.
Lemma pturn_turned fs : map turned fs = map pturn fs.
Proof. apply map_ext. intros [[a b] c]. reflexivity. Qed.
Lemma pturn2 {A} (fs : list (A * A * A)) : map pturn (map pturn fs) = fs.
Proof. rewrite map_map. rewrite <- (map_id fs) at 2. apply map_ext. intros [[a b] c]. reflexivity. Qed.
Lemma flat_perm {A B} (f g : A -> list B) l : (forall x, Permutation (f x) (g x)) -> Permutation (flat_map f l) (flat_map g l).
Proof. intros H. induction l; simpl; [constructor|]. apply Permutation_app; auto. Qed.
Lemma sbody_perm m n : Permutation (pall (sbody m n)) (pall (tube_body m n)).
Proof.
  unfold sbody, tube_body. rewrite !pall_flat. apply flat_perm. intros i. rewrite !pall_flat. apply flat_perm. intros j.
  unfold pall; cbn [flat_map]. rewrite !app_nil_r. apply Permutation_app_comm.
Qed.
Lemma scap1_perm m n : Permutation (pall (map pturn (scap1 m n))) (pall (tube_cap1 m n)).
Proof.
  unfold scap1, tube_cap1. rewrite map_map, !pall_mapf. apply flat_perm. intros j. unfold pturn, psides.
  change [((m, j), (m, prev0 n j)); ((m, prev0 n j), (m + 1, 0)); ((m + 1, 0), (m, j))] with ([((m, j), (m, prev0 n j)); ((m, prev0 n j), (m + 1, 0))] ++ [((m + 1, 0), (m, j))]).
  change [((m + 1, 0), (m, j)); ((m, j), (m, prev0 n j)); ((m, prev0 n j), (m + 1, 0))] with ([((m + 1, 0), (m, j))] ++ [((m, j), (m, prev0 n j)); ((m, prev0 n j), (m + 1, 0))]).
  apply Permutation_app_comm.
Qed.
Lemma tube_oriented m n : 1 <= m -> 3 <= n -> oriented (map (fmap (tube_enc n)) (tube_p m n)).
Proof. intros Hm Hn. apply paired_oriented. eapply paired_map; [apply (tube_enc_inj m n)|apply tube_used; lia|apply tube_paired; auto]. Qed.
Lemma sphere_oriented n : 3 <= n -> oriented (map turned (map (fmap (tube_enc n)) (scap0 (n - 1) n)) ++ map (fmap (tube_enc n)) (sbody (n - 1) n) ++ map turned (map (fmap (tube_enc n)) (scap1 (n - 1) n))).
Proof.
  intros Hn. eapply oriented_perm; [|apply (tube_oriented (n - 1) n); lia]. rewrite (pturn_turned (map _ (scap0 _ _))), (pturn_turned (map _ (scap1 _ _))), (pturn_fmap _ (scap0 _ _)), (pturn_fmap _ (scap1 _ _)), <- !map_app.
  match goal with |- Permutation (all_sides ?a) (all_sides ?b) => rewrite <- (pall_nat a), <- (pall_nat b) end. rewrite !pall_map.
  unfold scap0. rewrite pturn2. unfold tube_p. rewrite !pall_app, !map_app.
  apply Permutation_app_head. apply Permutation_app; apply Permutation_map; symmetry; [apply sbody_perm|apply scap1_perm].
Qed.
Lemma pturn_used {A} (P : A -> Prop) fs : used P fs -> used P (map pturn fs).
Proof. intros H. apply Forall_forall. intros f F. apply in_map_iff in F. destruct F as ([[a b] c] & <- & F). apply (proj1 (Forall_forall _ _) H) in F. simpl. tauto. Qed.
Lemma sphere_indices n : 3 <= n -> indices_below (sphere_nv n) (sphere_faces n).
Proof.
  intros Hn. rewrite sphere_enc by lia. assert (U := tube_used (n - 1) n ltac:(lia) ltac:(lia)).
  unfold tube_p in U. rewrite !used_app in U. destruct U as (U0 & U1 & U2).
  assert (E : forall v, tube_dom (n - 1) n v -> tube_enc n v < sphere_nv n).
  { intros v D. pose proof (tube_enc_lt (n - 1) n v ltac:(lia) D). unfold sphere_nv. lia. }
  apply below_used. rewrite !used_app. split; [|split].
  - eapply used_map; [exact E|]. apply pturn_used. exact U0.
  - eapply used_map; [exact E|]. unfold sbody. unfold tube_body in U1. apply Forall_forall. intros [[a b] c] H.
    apply in_flat_map in H. destruct H as (i & Li & H). apply in_seq in Li. inv_in; subst; unfold tube_dom; simpl; nx; lia.
  - eapply used_map; [exact E|]. unfold scap1. apply Forall_forall. intros [[a b] c] H. apply in_map_iff in H. destruct H as (j & H & L). inv_in; subst; unfold tube_dom; simpl; nx; lia.
Qed.
Lemma sphere_faces_ok n : 3 <= n -> length (sphere_faces n) = sphere_nf n /\ indices_below (sphere_nv n) (sphere_faces n) /\ ~ closed (sphere_faces n) /\
  exists cap0 body cap1, sphere_faces n = cap0 ++ body ++ cap1 /\ length cap0 = n /\ length cap1 = n /\ oriented (map turned cap0 ++ body ++ map turned cap1).
Proof.
  intros Hn. repeat match goal with |- _ /\ _ => split end.
  - unfold sphere_faces. cbv zeta. rewrite app_length. unfold sphere_cap1. rewrite map_length, seq_length.
    assert (H := sphere_rest n ltac:(lia)). assert (H' := scaps_len n ltac:(lia)). unfold sphere_nf in *. nia.
  - apply sphere_indices; exact Hn.
  - rewrite sphere_enc by lia. intros K.
    set (A := map (fmap (tube_enc n)) (scap0 (n - 1) n)) in *. set (B := map (fmap (tube_enc n)) (sbody (n - 1) n)) in *. set (C := map (fmap (tube_enc n)) (scap1 (n - 1) n)) in *.
    assert (P : forall a b c, Permutation (all_sides (a ++ b ++ c)) (all_sides ((a ++ c) ++ b))).
    { intros a b c. unfold all_sides. rewrite !flat_map_app, <- app_assoc. apply Permutation_app_head, Permutation_app_comm. }
    assert (K' : closed ((A ++ C) ++ B)).
    { unfold closed in *. etransitivity; [symmetry; apply P|]. etransitivity; [exact K|]. apply Permutation_map. apply P. }
    revert K'. apply (turned_not_closed _ _ (1, n)).
    + rewrite map_app. eapply oriented_perm; [apply P|]. apply sphere_oriented; exact Hn.
    + unfold all_sides. rewrite flat_map_app. apply in_or_app. left. unfold A. rewrite <- scap0_enc by lia. apply in_flat_map.
      exists (0, 1, n). split; [|right; left; reflexivity]. unfold sphere_cap0. apply in_map_iff. exists 1. split; [reflexivity|apply in_seq; lia].
    + unfold all_sides. rewrite map_app, flat_map_app. intros H. apply in_app_or in H. destruct H as [H|H].
      * unfold A in H. rewrite <- scap0_enc in H by lia. unfold sphere_cap0 in H. rewrite map_map in H. fold all_sides in H. apply in_flat_map in H. destruct H as (f & F & H).
        apply in_map_iff in F. destruct F as (i & <- & F). cbv beta iota delta [turned sides] in H. inv_in; arith.
      * unfold C in H. rewrite <- (scap1_enc n _ ltac:(lia) (sphere_rest n ltac:(lia))) in H. unfold sphere_cap1 in H. rewrite sphere_rest in H by lia. rewrite map_map in H. apply in_flat_map in H. destruct H as (f & F & H).
        apply in_map_iff in F. destruct F as (t & <- & F). apply in_seq in F. simpl in H. unfold sphere_nv in H.
        destruct n as [|[|[|n]]]; [lia|lia|lia|]. replace (S (S (S n)) - 1) with (S (S n)) in H by lia.
        destruct (Nat.eqb t 0) eqn:T; [apply Nat.eqb_eq in T|apply Nat.eqb_neq in T]; repeat destruct H as [H|H]; inv_in; nia.
  - exists (map (fmap (tube_enc n)) (scap0 (n - 1) n)), (map (fmap (tube_enc n)) (sbody (n - 1) n)), (map (fmap (tube_enc n)) (scap1 (n - 1) n)).
    repeat match goal with |- _ /\ _ => split end.
    + apply sphere_enc; lia.
    + unfold scap0, tube_cap0. rewrite !map_length, seq_length. reflexivity.
    + unfold scap1. rewrite !map_length, seq_length. reflexivity.
    + apply sphere_oriented; exact Hn.
Qed.

(** ** capsule *)
Lemma capsule_enc h : 1 <= h -> capsule_faces (4 * h) = map (fmap (tube_enc (4 * h))) (tube_p (2 * h) (4 * h)).
Proof.
  intros Hh. unfold capsule_faces, tube_p, tube_cap0, tube_body, tube_cap1, capsule_nv.
  assert (Q : 4 * h / 4 = h) by (rewrite Nat.mul_comm; apply Nat.div_mul; lia).
  assert (Q2 : 4 * h * (4 * h) / 2 = 8 * h * h) by (replace (4 * h * (4 * h)) with (8 * h * h * 2) by nia; apply Nat.div_mul; lia).
  rewrite Q, Q2. cbv zeta. rewrite !map_app. set (n := 4 * h) in *. f_equal; [|f_equal].
  - rewrite seq_from1, map_map. apply map_ext. intros j. rewrite prev1_prev0 by lia. unfold fmap, tube_enc, fst, snd. rewrite !pair_equal_spec. lia.
  - rewrite map_flat. replace (h * 2 - 1) with (2 * h - 1) by lia. apply flat_ext. intros i Li. apply in_seq in Li. rewrite flat_from1, map_flat. apply flat_ext. intros j Lj. apply in_seq in Lj.
    rewrite prev1_prev0 by lia. cbn [map]. unfold fmap, tube_enc, fst, snd. rewrite (Nat.add_1_r i). destruct i as [|i]; [lia|].
    assert (P := prev0_nxt n j ltac:(lia)). set (q := prev0 n j) in *. clearbody q. apply nxt_lt in P. clearbody n. f_equal; [|f_equal]; rewrite !pair_equal_spec; nia.
  - rewrite map_map. apply map_ext_in. intros t Lt. apply in_seq in Lt. unfold fmap, tube_enc, fst, snd. rewrite (Nat.add_1_r (2 * h)).
    destruct h as [|h]; [lia|]. replace (2 * S h) with (S (2 * h + 1)) by lia.
    destruct t; cbn [Nat.eqb prev0]; unfold n in *; rewrite !pair_equal_spec; nia.
Qed.
Lemma capsule_len n : length (capsule_faces n) = n + (n / 4 * 2 - 1) * (n * 2) + n.
Proof.
  unfold capsule_faces. cbv zeta. rewrite !app_length, !map_length, (flat_len _ (n * 2)), !seq_length; [lia|].
  intros i L. rewrite (flat_len _ 2), seq_length by (intros; reflexivity). reflexivity.
Qed.
Lemma capsule_faces_ok h : 1 <= h -> length (capsule_faces (4 * h)) = capsule_nf (4 * h) /\ indices_below (capsule_nv (4 * h)) (capsule_faces (4 * h)) /\ oriented (capsule_faces (4 * h)).
Proof.
  intros Hh. 
  assert (Q : 4 * h / 4 = h) by (rewrite Nat.mul_comm; apply Nat.div_mul; lia).
  assert (Q2 : 4 * h * (4 * h) / 2 = 8 * h * h) by (replace (4 * h * (4 * h)) with (8 * h * h * 2) by nia; apply Nat.div_mul; lia).
  split; [|split].
  - rewrite capsule_len, Q. unfold capsule_nf. destruct h; [lia|]. replace (S h * 2 - 1) with (2 * h + 1) by lia. nia.
  - rewrite capsule_enc by exact Hh. apply below_used. eapply used_map; [|apply tube_used; lia]. intros v D. pose proof (tube_enc_lt (2 * h) (4 * h) v ltac:(lia) D). unfold capsule_nv. rewrite Q2. nia.
  - rewrite capsule_enc by exact Hh. apply tube_oriented; lia.
Qed.
(** otherwise there are too few faces and vertices, and the last cap refers to vertices that are never set *)
Lemma capsule_bad n : 3 <= n -> n mod 4 <> 0 -> length (capsule_faces n) < capsule_nf n /\ 2 + 2 * (n / 4) * n < capsule_nv n /\
  exists a b, List.In (capsule_nv n - 1, a, b) (capsule_faces n) /\ 2 + 2 * (n / 4) * n <= capsule_nv n - 1.
Proof.
  intros Hn Hm. pose proof (Nat.div_mod n 4 ltac:(lia)) as E. pose proof (Nat.mod_upper_bound n 4 ltac:(lia)) as U.
  set (h := n / 4) in *. set (r := n mod 4) in *.
  assert (V : 2 + 2 * h * n < capsule_nv n).
  { unfold capsule_nv. assert (2 * h * n + 1 <= n * n / 2); [|lia]. apply Nat.div_le_lower_bound; [lia|]. clearbody h r. nia. }
  split; [|split; [exact V|]].
  - rewrite capsule_len. fold h. unfold capsule_nf. clearbody h r. destruct h; [simpl; nia|]. replace (S h * 2 - 1) with (2 * h + 1) by lia. nia.
  - exists (capsule_nv n - (n + 1)), (capsule_nv n - 2). split; [|lia]. unfold capsule_faces. cbv zeta. apply in_or_app. right. apply in_or_app. right.
    apply in_map_iff. exists 0. split; [cbn [Nat.eqb]; rewrite Nat.sub_0_r; reflexivity|apply in_seq; lia].
Qed.
