(** The meshes generated by the code: numbers of vertices and faces, indices, orientation. *)
From Verif Require Import Base SpecGeom SpecFrame SpecBox SpecShape SpecMesh ModelMesh FactsPH FactsPH4 FactsMesh FactsMesh2 FactsMesh3 FactsMesh4.
From Coq Require Import Lia.
Open Scope nat_scope.

(** ** transport *)
Lemma oriented_perm fs gs : Permutation (all_sides fs) (all_sides gs) -> oriented fs -> oriented gs.
Proof.
  intros P [C N]. split.
  - unfold closed. transitivity (all_sides fs); [symmetry; exact P|]. transitivity (map opp (all_sides fs)); [exact C|]. apply Permutation_map. exact P.
  - eapply Permutation_NoDup; eauto.
Qed.
Lemma turned_sides fs : Permutation (all_sides (map turned fs)) (map opp (all_sides fs)).
Proof.
  induction fs as [|[[a b] c] fs IH]; [constructor|]. simpl. unfold opp at 1 2 3; simpl.
  transitivity ((a, c) :: (c, b) :: (b, a) :: map opp (all_sides fs)).
  - do 3 constructor. exact IH.
  - change ((a, c) :: (c, b) :: (b, a) :: map opp (all_sides fs)) with ([(a, c); (c, b); (b, a)] ++ map opp (all_sides fs)).
    change ((b, a) :: (c, b) :: (a, c) :: map opp (all_sides fs)) with ([(b, a); (c, b); (a, c)] ++ map opp (all_sides fs)).
    apply Permutation_app_tail. apply (Permutation_rev [(a, c); (c, b); (b, a)]).
Qed.
Lemma turned_oriented fs : oriented fs -> oriented (map turned fs).
Proof.
  intros [C N]. apply (oriented_perm fs); [|split; auto]. transitivity (map opp (all_sides fs)); [exact C|]. symmetry. apply turned_sides.
Qed.
(** turning some faces of an oriented surface breaks it *)
Lemma turned_not_closed fs gs e : oriented (map turned fs ++ gs) ->
  List.In e (all_sides fs) -> ~ List.In e (all_sides (map turned fs)) -> ~ closed (fs ++ gs).
Proof.
  intros [C N] He Hn K.
  assert (A : forall l m, all_sides (l ++ m) = all_sides l ++ all_sides m) by (intros; unfold all_sides; apply flat_map_app).
  assert (I : forall x, List.In x (all_sides fs) <-> List.In (opp x) (all_sides (map turned fs))).
  { intros x. split; intros H.
    - eapply Permutation_in; [symmetry; apply turned_sides|]. apply in_map. exact H.
    - eapply Permutation_in in H; [|apply turned_sides]. apply in_map_iff in H. destruct H as (y & E & H).
      assert (x = y) by (destruct x, y; unfold opp in E; simpl in E; injection E as -> ->; reflexivity). subst; auto. }
  assert (H1 : List.In (opp e) (all_sides (fs ++ gs))).
  { eapply Permutation_in; [symmetry; exact K|]. apply in_map. rewrite A. apply in_or_app. left; exact He. }
  rewrite A in H1. apply in_app_or in H1. destruct H1 as [H1|H1].
  - apply I in H1. apply Hn. destruct e; exact H1.
  - rewrite A in N. apply I in He.
    assert (D : forall (l m : list (nat * nat)) x, NoDup (l ++ m) -> List.In x l -> ~ List.In x m).
    { clear. induction l as [|y l IH]; intros m x N H; [destruct H|]. simpl in N. apply NoDup_cons_iff in N. destruct N as [Ny N].
      destruct H as [->|H]; [intros K; apply Ny; apply in_or_app; right; exact K|]. apply IH; auto. }
    exact (D _ _ _ N He H1).
Qed.
Lemma below_used n fs : used (fun k => k < n) fs -> indices_below n fs.
Proof. exact (fun H => H). Qed.
Lemma used_map {A B} (g : A -> B) (P : A -> Prop) (Q : B -> Prop) fs : (forall x, P x -> Q (g x)) -> used P fs -> used Q (map (fmap g) fs).
Proof.
  intros H U. apply Forall_forall. intros f F. apply in_map_iff in F. destruct F as ([[a b] c] & <- & F).
  apply (proj1 (Forall_forall _ _) U) in F. simpl. intuition.
Qed.
Lemma used_app {A} (P : A -> Prop) a b : used P (a ++ b) <-> used P a /\ used P b.
Proof. apply Forall_app. Qed.
Lemma mapM_length {A B} (f : A -> option B) l m : mapM f l = Some m -> length m = length l.
Proof.
  revert m. induction l as [|a l IH]; intros m; simpl; [intros H; injection H as <-; reflexivity|].
  destruct (f a); [|discriminate]. destruct (mapM f l); [|discriminate]. intros H; injection H as <-. simpl. f_equal. auto.
Qed.
Lemma flat_len {A B} (f : A -> list B) c l : (forall x, List.In x l -> length (f x) = c) -> length (flat_map f l) = length l * c.
Proof. induction l as [|a l IH]; intros H; [reflexivity|]. simpl. rewrite app_length, (H a) by (left; reflexivity). rewrite IH by (intros; apply H; right; auto). reflexivity. Qed.

(** ** cylinder and cone *)
Lemma cyl_faces_ok n : 3 <= n -> length (cyl_faces n) = (n - 1) * 4 /\ indices_below (n * 2) (cyl_faces n) /\ oriented (cyl_faces n).
Proof.
  intros Hn. split; [|split].
  - unfold cyl_faces. rewrite !app_length, !map_length, (flat_len _ 2), !seq_length by (intros; reflexivity). lia.
  - apply Forall_forall. intros [[a b] c] H. unfold cyl_faces in H. apply in_app_or in H. destruct H as [H|H]; [|apply in_app_or in H; destruct H as [H|H]].
    + apply in_map_iff in H. destruct H as (i & H & L). inv_in; subst. lia.
    + inv_in; subst; arith.
    + apply in_map_iff in H. destruct H as (i & H & L). inv_in; subst. lia.
  - apply paired_oriented, cyl_paired; exact Hn.
Qed.
Lemma cone_faces_ok n : 3 <= n -> length (cone_faces n) = n * 2 - 2 /\ indices_below (n + 1) (cone_faces n) /\ oriented (cone_faces n).
Proof.
  intros Hn. split; [|split].
  - unfold cone_faces. rewrite !app_length, !map_length, !seq_length. lia.
  - apply Forall_forall. intros [[a b] c] H. unfold cone_faces in H. apply in_app_or in H. destruct H as [H|H].
    + apply in_map_iff in H. destruct H as (i & H & L). inv_in; subst. arith.
    + apply in_map_iff in H. destruct H as (i & H & L). inv_in; subst. lia.
  - apply paired_oriented, cone_paired; exact Hn.
Qed.
Lemma box_faces_ok : length box_faces = 12 /\ indices_below 8 box_faces /\ oriented box_faces.
Proof.
  split; [reflexivity|]. split; [|apply oriented_check; reflexivity].
  unfold box_faces, box_quad, indices_below; simpl. repeat (apply Forall_cons; [lia|]). apply Forall_nil.
Qed.

(** ** torus and lathe *)
Definition grid_enc (d : nat) (v : V2n) : nat := fst v * d + snd v.
Definition grid_dom (n d : nat) (v : V2n) : Prop := fst v < n /\ snd v < d.
Lemma grid_enc_inj n d x y : grid_dom n d x -> grid_dom n d y -> grid_enc d x = grid_enc d y -> x = y.
Proof.
  destruct x as [i j], y as [i' j']. unfold grid_dom, grid_enc; simpl. intros (A & B) (A' & B') E.
  destruct (grid_inj d i j i' j' B B' E). subst; reflexivity.
Qed.
Lemma grid_enc_lt n d v : grid_dom n d v -> grid_enc d v < n * d.
Proof. destruct v as [i j]. unfold grid_dom, grid_enc; simpl. intros (A & B). nia. Qed.
Lemma map_flat {A B C} (g : B -> C) (f : A -> list B) l : map g (flat_map f l) = flat_map (fun x => map g (f x)) l.
Proof. induction l as [|a l IH]; [reflexivity|]. simpl. rewrite map_app, IH. reflexivity. Qed.
Lemma flat_ext {A B} (f g : A -> list B) l : (forall x, List.In x l -> f x = g x) -> flat_map f l = flat_map g l.
Proof. induction l as [|a l IH]; intros H; [reflexivity|]. simpl. rewrite (H a) by (left; reflexivity). rewrite IH by (intros; apply H; right; auto). reflexivity. Qed.
Lemma torus_enc n d : torus_faces n d = map (fmap (grid_enc d)) (torus_p n d).
Proof. unfold torus_faces, torus_p. rewrite map_flat. apply flat_ext. intros i Li. rewrite map_flat. reflexivity. Qed.
Lemma torus_used n d : 1 <= n -> 1 <= d -> used (grid_dom n d) (torus_p n d).
Proof.
  intros Hn Hd. apply Forall_forall. intros [[a b] c] H. unfold torus_p in H. apply in_flat_map in H. destruct H as (i & Li & H).
  inv_in; subst; unfold grid_dom; simpl; nx; lia.
Qed.
Lemma torus_faces_ok n d : 3 <= n -> 3 <= d -> length (torus_faces n d) = 2 * n * d /\ indices_below (n * d) (torus_faces n d) /\ oriented (torus_faces n d).
Proof.
  intros Hn Hd. split; [|split].
  - unfold torus_faces. rewrite (flat_len _ (d * 2)), seq_length by (intros i L; cbv zeta; rewrite (flat_len _ 2), seq_length by (intros; reflexivity); reflexivity). lia.
  - rewrite torus_enc. apply below_used. eapply used_map; [|apply torus_used; lia]. apply grid_enc_lt.
  - rewrite torus_enc. apply paired_oriented. eapply paired_map; [apply (grid_enc_inj n d)|apply torus_used; lia|apply torus_paired; auto].
Qed.
Lemma fix_cases vs fs : fix_volume vs fs = fs \/ fix_volume vs fs = map turned fs.
Proof. unfold fix_volume. destruct (Rltb _ _); [right|left]; reflexivity. Qed.
Lemma turned_below n fs : indices_below n fs -> indices_below n (map turned fs).
Proof. intros H. apply Forall_forall. intros f F. apply in_map_iff in F. destruct F as ([[a b] c] & <- & F). apply (proj1 (Forall_forall _ _) H) in F. simpl. tauto. Qed.
Lemma lathe_used n d : 2 <= n -> 3 <= d -> used (grid_dom n d) (lathe_p n d) /\ used (grid_dom n d) (fan_up (n - 1) d).
Proof.
  intros Hn Hd. split; apply Forall_forall; intros [[a b] c] H.
  - unfold lathe_p, lathe_body, fan_up, fan_down in H. apply in_app_or in H. destruct H as [H|H]; [|apply in_app_or in H; destruct H as [H|H]].
    + apply in_flat_map in H. destruct H as (i & Li & H). inv_in; subst; unfold grid_dom; simpl; nx; lia.
    + apply in_map_iff in H. destruct H as (j & H & L). inv_in; subst; unfold grid_dom; simpl; lia.
    + apply in_map_iff in H. destruct H as (j & H & L). inv_in; subst; unfold grid_dom; simpl; lia.
  - unfold fan_up in H. apply in_map_iff in H. destruct H as (j & H & L). inv_in; subst; unfold grid_dom; simpl; lia.
Qed.
Definition lathe_top (n d : nat) : list (nat * nat * nat) := map (fun j => let j0 := (n - 1) * d in (j0, j0 + j - 1, j0 + j)) (seq 2 (d - 2)).
Definition lathe_rest (n d : nat) : list (nat * nat * nat) := firstn (2 * (n - 1) * d + (d - 2)) (lathe_faces n d).
Lemma lathe_split n d : lathe_faces n d = map (fmap (grid_enc d)) (lathe_body n d ++ fan_up 0 d) ++ map (fmap (grid_enc d)) (fan_up (n - 1) d).
Proof.
  unfold lathe_faces, lathe_body, fan_up. rewrite map_app, <- app_assoc. f_equal; [|f_equal].
  - rewrite map_flat. apply flat_ext. intros i Li. rewrite map_flat. reflexivity.
  - rewrite map_map. apply map_ext_in. intros j L. apply in_seq in L. unfold fmap, grid_enc; simpl. reflexivity.
  - rewrite map_map. apply map_ext_in. intros j L. apply in_seq in L. unfold fmap, grid_enc, fst, snd. cbv zeta. generalize ((n - 1) * d). intros m. rewrite !pair_equal_spec. lia.
Qed.
Lemma fmap_turned_fan d r : map turned (map (fmap (grid_enc d)) (fan_up r d)) = map (fmap (grid_enc d)) (fan_down r d).
Proof. unfold fan_up, fan_down. rewrite !map_map. apply map_ext. intros j. reflexivity. Qed.
Lemma lathe_faces_ok n d : 2 <= n -> 3 <= d -> length (lathe_faces n d) = 2 * (n - 1) * d + 2 * (d - 2) /\ indices_below (n * d) (lathe_faces n d) /\
  exists rest top, lathe_faces n d = rest ++ top /\ length top = d - 2 /\ oriented (rest ++ map turned top) /\ ~ closed (rest ++ top).
Proof.
  intros Hn Hd. assert (U := lathe_used n d Hn Hd). destruct U as [U1 U2].
  split; [|split].
  - unfold lathe_faces. rewrite !app_length, !map_length, (flat_len _ (d * 2)), !seq_length by (intros i L; cbv zeta; rewrite (flat_len _ 2), seq_length by (intros; reflexivity); reflexivity). lia.
  - rewrite lathe_split, <- map_app. apply below_used. eapply used_map; [apply grid_enc_lt|]. apply used_app. split; [|exact U2].
    unfold lathe_p in U1. rewrite app_assoc in U1. apply used_app in U1. apply U1.
  - exists (map (fmap (grid_enc d)) (lathe_body n d ++ fan_up 0 d)), (map (fmap (grid_enc d)) (fan_up (n - 1) d)).
    assert (O : oriented (map (fmap (grid_enc d)) (lathe_body n d ++ fan_up 0 d) ++ map turned (map (fmap (grid_enc d)) (fan_up (n - 1) d)))).
    { rewrite fmap_turned_fan, <- map_app, <- app_assoc. apply paired_oriented. eapply paired_map; [apply (grid_enc_inj n d)|exact U1|apply lathe_paired; auto]. }
    repeat match goal with |- _ /\ _ => split end.
    + apply lathe_split.
    + unfold fan_up. rewrite !map_length, seq_length. reflexivity.
    + exact O.
    + intros K. 
      assert (K' : closed (map (fmap (grid_enc d)) (fan_up (n - 1) d) ++ map (fmap (grid_enc d)) (lathe_body n d ++ fan_up 0 d))).
      { unfold closed in *. assert (E : forall a b, Permutation (all_sides (a ++ b)) (all_sides (b ++ a))).
        { intros a b. unfold all_sides. rewrite !flat_map_app. apply Permutation_app_comm. }
        etransitivity; [apply E|]. etransitivity; [exact K|]. apply Permutation_map. apply E. }
      revert K'. apply (turned_not_closed _ _ (emap (grid_enc d) ((n - 1, 1), (n - 1, 2)))).
      * eapply oriented_perm; [|exact O]. unfold all_sides. rewrite !flat_map_app. apply Permutation_app_comm.
      * rewrite <- pall_nat, pall_map. apply in_map. rewrite fan_in_up by lia. lia.
      * rewrite fmap_turned_fan, <- pall_nat, pall_map. intros H. apply in_map_iff in H. destruct H as ([[i j] [i' j']] & E & H).
        rewrite fan_in_down in H by lia. destruct H as (-> & -> & L & L' & H). unfold emap, grid_enc in E; simpl in E. apply pair_equal_spec in E. lia.
Qed.
