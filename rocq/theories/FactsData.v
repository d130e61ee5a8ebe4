(** Point containers refine sequences with a cursor; searches over them. *)
From Verif Require Import Base Spec SpecGeom SpecData ModelVec ModelData FactsVec.
From Coq Require Import Lia Lra.
Open Scope R_scope.

Section facts.
Context {A : Type}.
Implicit Types (d : data A) (v : A) (l : list A) (h : list (op A)).
(** the points in the container *)
Definition contents d : list A :=
  match d_method d with MDummy => [] | m => if listlike m then d_store d else firstn (d_size d) (d_store d) end.
(** reading position *)
Definition place d : option nat :=
  match d_method d with MDummy => None | m => if listlike m then d_c d else if Nat.ltb (d_i d) (d_size d) then Some (d_i d) else None end.
Definition wf d : Prop :=
  match d_method d with
  | MDummy => True
  | m => if listlike m then match d_c d with Some i => (i < length (d_store d))%nat | None => True end
         else (d_size d <= length (d_store d) /\ d_i d <= d_size d /\ d_size d <= d_cap d)%nat
  end.
Definition after l (c : option nat) : list A := match c with Some i => skipn i l | None => [] end.
Definition rest d : list A := after (contents d) (place d).

Lemma skipn_cons l i : (i < length l)%nat -> exists v, nth_error l i = Some v /\ skipn i l = v :: skipn (S i) l.
Proof.
  revert i; induction l as [|a l IH]; intros i L; [simpl in L; lia|]. destruct i as [|i]; [exists a; auto|].
  destruct (IH i) as (v & E1 & E2); [simpl in L; lia|]. exists v. split; [exact E1|]. change (skipn (S i) (a :: l)) with (skipn i l). rewrite E2. reflexivity.
Qed.
Lemma nth_error_firstn n l i : (i < n)%nat -> nth_error (firstn n l) i = nth_error l i.
Proof. revert n i; induction l as [|a l IH]; intros n i L; destruct n as [|n]; [lia|reflexivity|lia|]. destruct i; [reflexivity|]. simpl. apply IH. lia. Qed.
Lemma list_contents d : listlike (d_method d) = true -> contents d = d_store d.
Proof. unfold contents. destruct (d_method d); intros H; try discriminate; reflexivity. Qed.
Lemma place_ok d : wf d -> match place d with Some i => (i < length (contents d))%nat | None => True end.
Proof.
  unfold wf, place, contents. destruct (d_method d); cbn [listlike]; auto; intros (A1 & A2 & A3) || intros H; auto;
  destruct (Nat.ltb (d_i d) (d_size d)) eqn:E; auto; apply Nat.ltb_lt in E; rewrite firstn_length; lia.
Qed.
Lemma peek_spec d : wf d -> zVecXDDataPeek d = cur (contents d) (place d).
Proof.
  unfold wf, zVecXDDataPeek, cur, place, contents. destruct (d_method d); cbn [listlike]; auto; intros (A1 & A2 & A3);
  (destruct (Nat.ltb (d_i d) (d_size d)) eqn:F; [apply Nat.ltb_lt in F; rewrite (proj2 (Nat.leb_gt _ _) F); symmetry; apply nth_error_firstn; exact F
   |apply Nat.ltb_ge in F; rewrite (proj2 (Nat.leb_le _ _) F); reflexivity]).
Qed.
Lemma size_spec d : wf d -> zVecXDDataSize d = length (contents d).
Proof. unfold wf, zVecXDDataSize, contents. destruct (d_method d); cbn [listlike]; auto; intros (A1 & A2 & A3); rewrite firstn_length; lia. Qed.
Lemma empty_spec d : wf d -> zVecXDDataIsEmpty d = match contents d with [] => true | _ => false end.
Proof.
  unfold wf, zVecXDDataIsEmpty, contents. destruct (d_method d); cbn [listlike]; auto; intros (A1 & A2 & A3);
  destruct (d_size d) as [|n]; try reflexivity; destruct (d_store d); simpl in A1; try lia; reflexivity.
Qed.
Lemma rewind_spec d : wf d -> wf (zVecXDDataRewind d) /\ contents (zVecXDDataRewind d) = contents d /\ place (zVecXDDataRewind d) = first (contents d) /\ d_method (zVecXDDataRewind d) = d_method d.
Proof.
  unfold wf, zVecXDDataRewind, contents, place, first.
  destruct (d_method d) eqn:M; cbn [listlike]; rewrite ?M; cbn [d_method d_store d_size d_cap d_i d_c listlike]; auto;
  first [ intros (A1 & A2 & A3); (repeat split; try lia); destruct (d_size d) as [|n]; [reflexivity|]; destruct (d_store d); simpl in A1; try lia; reflexivity
        | intros H; destruct (d_store d); cbn [length]; repeat split; auto; lia ].
Qed.
Lemma fetch_spec d : wf d -> snd (zVecXDDataFetch d) = cur (contents d) (place d) /\ wf (fst (zVecXDDataFetch d)) /\
  contents (fst (zVecXDDataFetch d)) = contents d /\ place (fst (zVecXDDataFetch d)) = advance (contents d) (place d) /\ d_method (fst (zVecXDDataFetch d)) = d_method d.
Proof.
  intros W. unfold zVecXDDataFetch. pose proof (peek_spec d W) as P. pose proof (place_ok d W) as K. destruct (zVecXDDataPeek d) as [v|] eqn:E.
  - split; [cbn [snd]; auto|]. cbn [fst]. destruct (listlike (d_method d)) eqn:L.
    + rewrite (list_contents d L) in *. unfold wf, contents, place in *. cbn [d_method d_store d_c d_i d_size d_cap].
      destruct (d_method d); try discriminate; cbn [listlike] in *; unfold cell_next, advance; destruct (d_c d) as [i|]; repeat split; auto; 
      destruct (Nat.ltb (S i) (length (d_store d))) eqn:Q; auto; apply Nat.ltb_lt in Q; exact Q.
    + assert (WW : (d_size d <= length (d_store d) /\ d_i d < d_size d /\ d_size d <= d_cap d)%nat /\ place d = Some (d_i d) /\ contents d = firstn (d_size d) (d_store d)).
      { unfold wf, contents, place, cur in *. destruct (d_method d); try discriminate; cbn [listlike] in *; destruct (Nat.ltb (d_i d) (d_size d)) eqn:Q; try discriminate; apply Nat.ltb_lt in Q; repeat split; auto; lia. }
      destruct WW as ((A1 & A2 & A3) & PP & CC). rewrite PP, CC. unfold advance. rewrite firstn_length, Nat.min_l by exact A1.
      unfold wf, contents, place; cbn [d_method d_store d_c d_i d_size d_cap].
      destruct (d_method d) eqn:M; try discriminate; try (unfold contents in CC; rewrite M in CC); cbn [listlike] in *; repeat split; auto; try lia.
      all: unfold cur, place in P; rewrite M in P; discriminate.
  - cbn [fst snd]. repeat split; auto. unfold advance. destruct (place d) as [i|]; auto. cbn [cur] in P. symmetry in P. apply nth_error_None in P. lia.
Qed.
(** ** histories *)
Lemma first_after l : after l (first l) = l. Proof. destruct l; reflexivity. Qed.
Lemma list_history h : forall d, wf d -> d_method d = MList \/ d_method d = MAddrList ->
  snd (run_ops d h) = observe (contents d) (place d) h /\ contents (fst (run_ops d h)) = contents d ++ added h /\ wf (fst (run_ops d h)).
Proof.
  induction h as [|o h IH]; intros d W M; [cbn; rewrite app_nil_r; auto|].
  assert (ST : forall d1 b, run_op d o = (d1, b) -> wf d1 -> d_method d1 = d_method d -> 
    snd (run_ops d (o :: h)) = b :: observe (contents d1) (place d1) h /\ contents (fst (run_ops d (o :: h))) = contents d1 ++ added h /\ wf (fst (run_ops d (o :: h)))).
  { intros d1 b E W1 M1. cbn [run_ops]. rewrite E. destruct (run_ops d1 h) as [d2 bs] eqn:R. cbn [fst snd].
    specialize (IH d1 W1). rewrite R in IH. cbn [fst snd] in IH. destruct IH as (I1 & I2 & I3); [rewrite M1; exact M|]. rewrite I1. auto. }
  destruct o as [v| | | | |]; cbn [run_op observe added] in *.
  - assert (CP : contents (fst (zVecXDDataAdd d v)) = contents d ++ [v] /\ place (fst (zVecXDDataAdd d v)) = place d /\ wf (fst (zVecXDDataAdd d v)) /\ d_method (fst (zVecXDDataAdd d v)) = d_method d /\ snd (zVecXDDataAdd d v) = true).
    { unfold zVecXDDataAdd, contents, place, wf in *. destruct M as [M|M]; rewrite M in *; cbn [fst snd d_method d_store d_c listlike] in *; repeat split; auto; destruct (d_c d); auto; rewrite app_length; lia. }
    destruct (zVecXDDataAdd d v) as [d1 b]. cbn [fst snd] in CP. destruct CP as (C1 & C2 & C3 & C4 & ->).
    destruct (ST d1 (BFlag true) eq_refl C3 C4) as (S1 & S2 & S3). rewrite C1, C2 in S1. rewrite C1, <- app_assoc in S2. auto.
  - destruct (rewind_spec d W) as (W1 & C1 & P1 & M1). destruct (ST _ BUnit eq_refl W1 M1) as (S1 & S2 & S3). rewrite C1, P1 in S1. rewrite C1 in S2. auto.
  - destruct (ST d _ eq_refl W eq_refl) as (S1 & S2 & S3). rewrite peek_spec in S1 by exact W. auto.
  - destruct (fetch_spec d W) as (V1 & W1 & C1 & P1 & M1). destruct (zVecXDDataFetch d) as [d1 p]. cbn [fst snd] in *. 
    destruct (ST d1 (BPoint p) eq_refl W1 M1) as (S1 & S2 & S3). rewrite C1, P1, V1 in S1. rewrite C1 in S2. auto.
  - destruct (ST d _ eq_refl W eq_refl) as (S1 & S2 & S3). rewrite size_spec in S1 by exact W. auto.
  - destruct (ST d _ eq_refl W eq_refl) as (S1 & S2 & S3). rewrite empty_spec in S1 by exact W. auto.
Qed.
Definition growable (m : method) : bool := match m with MArray | MList | MAddrList => true | _ => false end.
Lemma fixed_history h : forall d, wf d -> growable (d_method d) = false \/ reading h ->
  snd (run_ops d h) = observe_fixed (contents d) (place d) h /\ contents (fst (run_ops d h)) = contents d /\ wf (fst (run_ops d h)).
Proof.
  induction h as [|o h IH]; intros d W M; [cbn; auto|].
  assert (M' : growable (d_method d) = false \/ reading h) by (destruct M as [M|M]; [left; auto|right; intros v F; apply (M v); right; exact F]).
  assert (ST : forall d1 b, run_op d o = (d1, b) -> wf d1 -> d_method d1 = d_method d -> 
    snd (run_ops d (o :: h)) = b :: observe_fixed (contents d1) (place d1) h /\ contents (fst (run_ops d (o :: h))) = contents d1 /\ wf (fst (run_ops d (o :: h)))).
  { intros d1 b E W1 M1. cbn [run_ops]. rewrite E. destruct (run_ops d1 h) as [d2 bs] eqn:R. cbn [fst snd].
    specialize (IH d1 W1). rewrite R in IH. cbn [fst snd] in IH. destruct IH as (I1 & I2 & I3); [rewrite M1; exact M'|]. rewrite I1. auto. }
  destruct o as [v| | | | |]; cbn [run_op observe_fixed] in *.
  - destruct M as [M|M]; [|exfalso; apply (M v); left; reflexivity].
    assert (E : zVecXDDataAdd d v = (d, false)) by (unfold zVecXDDataAdd; destruct (d_method d); try discriminate; reflexivity).
    destruct (ST d (BFlag false)) as (S1 & S2 & S3); [rewrite E; reflexivity|exact W|reflexivity|auto].
  - destruct (rewind_spec d W) as (W1 & C1 & P1 & M1). destruct (ST _ BUnit eq_refl W1 M1) as (S1 & S2 & S3). rewrite C1, P1 in S1. rewrite C1 in S2. auto.
  - destruct (ST d _ eq_refl W eq_refl) as (S1 & S2 & S3). rewrite peek_spec in S1 by exact W. auto.
  - destruct (fetch_spec d W) as (V1 & W1 & C1 & P1 & M1). destruct (zVecXDDataFetch d) as [d1 p]. cbn [fst snd] in *. 
    destruct (ST d1 (BPoint p) eq_refl W1 M1) as (S1 & S2 & S3). rewrite C1, P1, V1 in S1. rewrite C1 in S2. auto.
  - destruct (ST d _ eq_refl W eq_refl) as (S1 & S2 & S3). rewrite size_spec in S1 by exact W. auto.
  - destruct (ST d _ eq_refl W eq_refl) as (S1 & S2 & S3). rewrite empty_spec in S1 by exact W. auto.
Qed.
Lemma firstn_cat l n v : (n <= length l)%nat -> firstn (S n) (firstn n l ++ v :: skipn (S n) l) = firstn n l ++ [v].
Proof. intros L. rewrite firstn_app, firstn_firstn, firstn_length, Nat.min_r by lia. replace (S n - Nat.min n (length l))%nat with 1%nat by lia. reflexivity. Qed.
(** adding to array-backed data: everything from the reading position on is dropped *)
Lemma array_add d v : wf d -> d_method d = MArray ->
  let '(d', b) := zVecXDDataAdd d v in
  if Nat.leb (d_cap d) (d_i d) then b = false /\ d' = d
  else b = true /\ wf d' /\ contents d' = firstn (d_i d) (contents d) ++ [v] /\ place d' = None /\ d_method d' = MArray /\ d_cap d' = d_cap d /\ d_i d' = S (d_i d).
Proof.
  intros W M. unfold zVecXDDataAdd. rewrite M. unfold wf in W. rewrite M in W. cbn [listlike] in W. destruct W as (A1 & A2 & A3).
  destruct (Nat.leb (d_cap d) (d_i d)) eqn:E; [auto|]. apply Nat.leb_gt in E.
  unfold wf, contents, place. rewrite M. cbn [d_method d_store d_size d_cap d_i listlike]. rewrite firstn_cat by lia. rewrite Nat.ltb_irrefl, firstn_firstn, Nat.min_l by exact A2.
  repeat split; auto; try lia. rewrite app_length, firstn_length, Nat.min_l by lia. simpl. lia.
Qed.
Lemma array_adds vs : forall d, wf d -> d_method d = MArray -> d_i d = length (contents d) ->
  let d' := fst (run_ops d (map OAdd vs)) in
  contents d' = firstn (d_cap d) (contents d ++ vs) /\ wf d' /\ d_method d' = MArray /\ d_i d' = length (contents d') /\ d_cap d' = d_cap d /\
  snd (run_ops d (map OAdd vs)) = map (fun k => BFlag (Nat.ltb k (d_cap d))) (seq (length (contents d)) (length vs)).
Proof.
  induction vs as [|v vs IH]; intros d W M I; cbn zeta.
  - cbn [map run_ops fst snd length seq]. rewrite app_nil_r. unfold wf in W. rewrite M in W. cbn [listlike] in W.
    repeat split; auto; [|unfold wf; rewrite M; exact W]. symmetry. apply firstn_all2. rewrite <- I. lia.
  - cbn [map run_ops run_op]. pose proof (array_add d v W M) as AA. destruct (zVecXDDataAdd d v) as [d1 b]. destruct (Nat.leb (d_cap d) (d_i d)) eqn:E.
    + destruct AA as [-> ->]. specialize (IH d W M I). destruct (run_ops d (map OAdd vs)) as [d2 bs]. cbn [fst snd] in *. destruct IH as (I1 & I2 & I3 & I4 & I5 & I6).
      apply Nat.leb_le in E. repeat split; auto.
      * rewrite I1. rewrite !firstn_app. replace (d_cap d - length (contents d))%nat with 0%nat by lia. reflexivity.
      * cbn [length seq map]. rewrite I6. f_equal; [f_equal; symmetry; apply Nat.ltb_ge; lia|].
        rewrite <- seq_shift, map_map. apply map_ext_in. intros k Lk. apply in_seq in Lk. f_equal. assert (Nat.ltb k (d_cap d) = false) as -> by (apply Nat.ltb_ge; lia). symmetry. apply Nat.ltb_ge. lia.
    + destruct AA as (-> & W1 & C1 & P1 & M1 & K1 & I1). assert (CC : contents d1 = contents d ++ [v]) by (rewrite C1, I, firstn_all; reflexivity).
      assert (II : d_i d1 = length (contents d1)) by (rewrite CC, app_length, I1, I; simpl; lia).
      specialize (IH d1 W1 M1 II). destruct (run_ops d1 (map OAdd vs)) as [d2 bs]. cbn [fst snd] in *. destruct IH as (J1 & J2 & J3 & J4 & J5 & J6). rewrite K1 in *.
      apply Nat.leb_gt in E. repeat split; auto.
      * rewrite J1, CC, <- app_assoc. reflexivity.
      * cbn [length seq map]. rewrite J6, CC, app_length. cbn [length]. rewrite Nat.add_1_r. f_equal. f_equal. symmetry. apply Nat.ltb_lt. lia.
Qed.
Lemma run_app h1 : forall h2 d, run_ops d (h1 ++ h2) = (fst (run_ops (fst (run_ops d h1)) h2), snd (run_ops d h1) ++ snd (run_ops (fst (run_ops d h1)) h2)).
Proof.
  induction h1 as [|o h1 IH]; intros h2 d; cbn [app run_ops fst snd]; [destruct (run_ops d h2); reflexivity|].
  destruct (run_op d o) as [d1 b]. rewrite IH. destruct (run_ops d1 h1) as [d2 bs]. reflexivity.
Qed.
Lemma observe_reading l h : reading h -> forall c, observe_fixed l c h = observe l c h.
Proof. induction h as [|o h IH]; intros R c; [reflexivity|]. assert (R' : reading h) by (intros v F; apply (R v); right; exact F). destruct o as [v| | | | |]; cbn [observe observe_fixed]; rewrite ?IH by exact R'; auto. exfalso. apply (R v). left. reflexivity. Qed.
(** ** loops *)
Fixpoint fold_brk {S} (body : S -> A -> S + S) (s : S) l : S :=
  match l with [] => s | v :: t => match body s v with inl s' => fold_brk body s' t | inr s' => s' end end.
Lemma while_spec {S} (body : S -> A -> S + S) fuel : forall d s, wf d -> (length (rest d) < fuel)%nat ->
  exists d', while_fetch fuel d s body = Some (d', fold_brk body s (rest d)) /\ wf d' /\ contents d' = contents d /\ d_method d' = d_method d.
Proof.
  induction fuel as [|k IH]; intros d s W L; [lia|]. cbn [while_fetch]. destruct (fetch_spec d W) as (V1 & W1 & C1 & P1 & M1).
  destruct (zVecXDDataFetch d) as [d1 p]. cbn [fst snd] in *. pose proof (place_ok d W) as K. unfold rest in *.
  destruct (place d) as [i|]; cbn [cur advance after] in *.
  - destruct (skipn_cons _ _ K) as (v & E1 & E2). rewrite V1, E1, E2. cbn [fold_brk]. destruct (body s v) as [s'|s']; [|exists d1; auto].
    assert (R1 : after (contents d1) (place d1) = skipn (Datatypes.S i) (contents d)).
    { rewrite P1, C1. destruct (Nat.ltb (Datatypes.S i) (length (contents d))) eqn:Q; [reflexivity|]. apply Nat.ltb_ge in Q. cbn [after]. symmetry. apply skipn_all2. exact Q. }
    destruct (IH d1 s' W1) as (d' & H1 & H2 & H3 & H4).
    { rewrite R1. rewrite E2 in L. cbn [length] in L. lia. }
    rewrite R1 in H1. exists d'. repeat split; auto; congruence.
  - rewrite V1. exists d1. auto.
Qed.
Lemma while_all {S} (body : S -> A -> S + S) d s : wf d ->
  exists d', while_fetch (fuel_of d) (zVecXDDataRewind d) s body = Some (d', fold_brk body s (contents d)) /\ wf d' /\ contents d' = contents d /\ d_method d' = d_method d.
Proof.
  intros W. destruct (rewind_spec d W) as (W1 & C1 & P1 & M1). destruct (while_spec body (fuel_of d) (zVecXDDataRewind d) s W1) as (d' & H1 & H2 & H3 & H4).
  - unfold rest, fuel_of. rewrite C1, P1, first_after, size_spec by exact W. lia.
  - unfold rest in H1. rewrite C1, P1, first_after in H1. exists d'. repeat split; auto; congruence.
Qed.
Lemma fold_brk_fold {S} (f : S -> A -> S) l : forall s, fold_brk (fun s v => inl (f s v)) s l = fold_left f l s.
Proof. induction l as [|a l IH]; intros s; [reflexivity|]. cbn. apply IH. Qed.
Lemma to_addr_list d : wf d -> exists d', zVecXDDataToAddrList d = Some (d', contents d) /\ contents d' = contents d.
Proof.
  intros W. destruct (while_all (fun l v => inl (l ++ [v])) d [] W) as (d' & E & _ & C & _). exists d'. split; [|exact C]. unfold zVecXDDataToAddrList. rewrite E.
  rewrite (fold_brk_fold (fun l v => l ++ [v])). f_equal. f_equal. assert (F : forall m l, fold_left (fun l v => l ++ [v]) m l = l ++ m).
  { induction m as [|a m IH]; intros l; cbn [fold_left]; [rewrite app_nil_r; reflexivity|]. rewrite IH, <- app_assoc. reflexivity. }
  apply F.
Qed.
Lemma find_brk (p : A -> bool) l : fold_brk (fun (s : option A) v => if p v then inr (Some v) else inl s) None l = find p l.
Proof. induction l as [|a l IH]; [reflexivity|]. cbn. destruct (p a); auto. Qed.
Lemma data_find equal d x : wf d -> exists d', zVecXDDataFind equal d x = Some (d', find (equal x) (contents d)) /\ contents d' = contents d.
Proof. intros W. unfold zVecXDDataFind. destruct (while_all (fun (s : option A) v => if equal x v then inr (Some v) else inl s) d None W) as (d' & E & _ & C & _). exists d'. rewrite E, find_brk. auto. Qed.
Lemma init_list_wf m : m = MList \/ m = MAddrList -> wf (DT m [] 0 0 0 None : data A).
Proof. intros [-> | ->]; exact I. Qed.
Lemma fold_add (f : A -> option A) l : forall (dst : data A), d_method dst = MList \/ d_method dst = MAddrList ->
  d_store (fold_left (fun dst v => match f v with Some w => fst (zVecXDDataAdd dst w) | None => dst end) l dst) = d_store dst ++ flat_map (fun v => match f v with Some w => [w] | None => [] end) l /\
  d_method (fold_left (fun dst v => match f v with Some w => fst (zVecXDDataAdd dst w) | None => dst end) l dst) = d_method dst /\
  d_c (fold_left (fun dst v => match f v with Some w => fst (zVecXDDataAdd dst w) | None => dst end) l dst) = d_c dst.
Proof.
  induction l as [|a l IH]; intros dst M; [cbn; rewrite app_nil_r; auto|]. cbn [fold_left flat_map]. destruct (f a) as [w|].
  - destruct (IH (fst (zVecXDDataAdd dst w))) as (S1 & S2 & S3); [destruct M as [M|M]; unfold zVecXDDataAdd; rewrite M; cbn; auto|].
    rewrite S1, S2, S3. destruct M as [M|M]; unfold zVecXDDataAdd; rewrite M; cbn [fst d_store d_method d_c]; rewrite <- app_assoc; auto.
  - destruct (IH dst M) as (S1 & S2 & S3). auto.
Qed.
Lemma data_xform xf mul d : wf d -> exists d' dst, zVecXDDataXform xf mul d = Some (d', dst) /\ contents d' = contents d /\ d_method dst = MList /\ contents dst = map (fun v => mul (xf v)) (contents d) /\ wf dst.
Proof.
  intros W. unfold zVecXDDataXform. destruct (while_all (fun dst v => inl (fst (zVecXDDataAdd dst (mul (xf v))))) d zVecXDDataInitList W) as (d' & E & _ & C & _).
  rewrite (fold_brk_fold (fun dst v => fst (zVecXDDataAdd dst (mul (xf v))))) in E. eexists. eexists. split; [exact E|]. split; [exact C|].
  destruct (fold_add (fun v => Some (mul (xf v))) (contents d) zVecXDDataInitList (or_introl eq_refl)) as (S1 & S2 & S3). cbv beta in *.
  split; [exact S2|]. split.
  - unfold contents at 1. rewrite S2. cbn [d_method zVecXDDataInitList listlike]. rewrite S1. cbn [zVecXDDataInitList d_store app]. generalize (contents d); clear; intros l; induction l as [|a l IH]; [reflexivity|]. cbn. rewrite IH. reflexivity.
  - unfold wf. rewrite S2, S3. exact I.
Qed.
(** ** searches *)
Lemma nn_fold (sqd : A -> A -> R) x l : forall s, (match s with (None, None) => True | (Some r, Some v) => r = sqd v x | _ => False end) ->
  match fold_left (nn_step sqd x) l s with
  | (None, None) => l = [] /\ s = (None, None)
  | (Some r, Some v) => r = sqd v x /\ (List.In v l \/ s = (Some r, Some v)) /\ (forall y, List.In y l -> r <= sqd y x) /\ (match s with (Some r0, _) => r <= r0 | _ => True end)
  | _ => False
  end.
Proof.
  induction l as [|a l IH]; intros s Hs; cbn [fold_left].
  - destruct s as [[r|] [v|]]; auto. repeat split; auto; [intros y []|lra].
  - assert (H1 : match nn_step sqd x s a with (None, None) => True | (Some r, Some v) => r = sqd v x | _ => False end).
    { unfold nn_step. destruct s as [[r|] [v|]]; cbn [fst]; auto; try contradiction. destruct (Rltb (sqd a x) r); auto. }
    specialize (IH _ H1). destruct (fold_left (nn_step sqd x) l (nn_step sqd x s a)) as [[r|] [v|]]; auto.
    + destruct IH as (I1 & I2 & I3 & I4). unfold nn_step in I2, I4. destruct s as [[r0|] [v0|]]; cbn [fst] in *; try contradiction.
      * destruct (Rltb_reflect (sqd a x) r0) as [L|L]; cbn [fst] in *.
        -- split; [exact I1|]. split; [|split].
           ++ left. destruct I2 as [I2|I2]; [right; exact I2|]. inversion I2; subst. left; reflexivity.
           ++ intros y [<-|Hy]; [exact I4|apply I3; exact Hy].
           ++ lra.
        -- split; [exact I1|]. split; [|split].
           ++ destruct I2 as [I2|I2]; [left; right; exact I2|right; exact I2].
           ++ intros y [<-|Hy]; [lra|apply I3; exact Hy].
           ++ exact I4.
      * split; [exact I1|]. split; [|split; [|exact I]].
        ++ left. destruct I2 as [I2|I2]; [right; exact I2|]. inversion I2; subst. left; reflexivity.
        ++ intros y [<-|Hy]; [exact I4|apply I3; exact Hy].
    + destruct IH as (-> & E). unfold nn_step in E. destruct s as [[r0|] [v0|]]; cbn [fst] in E; try contradiction; try discriminate; destruct (Rltb (sqd a x) r0); discriminate.
Qed.
Lemma data_nn sqd d x : wf d -> contents d <> [] -> exists d' v, zVecXDDataNN sqd d x = Some (d', (Some (sqrt (sqd v x)), Some v)) /\ contents d' = contents d /\ nearest_in (fun y => sqd y x) (contents d) v.
Proof.
  intros W NE. unfold zVecXDDataNN. rewrite empty_spec by exact W. destruct (contents d) as [|a t] eqn:CD; [congruence|]. rewrite <- CD in *. clear NE.
  destruct (while_all (fun s v => inl (nn_step sqd x s v)) d (None, None) W) as (d' & E & _ & C & _). rewrite (fold_brk_fold (nn_step sqd x)) in E. rewrite E.
  pose proof (nn_fold sqd x (contents d) (None, None) I) as F. destruct (fold_left (nn_step sqd x) (contents d) (None, None)) as [[r|] [v|]]; try contradiction.
  - destruct F as (-> & F2 & F3 & _). exists d', v. split; [reflexivity|]. split; [exact C|]. split; [destruct F2 as [F2|F2]; [exact F2|discriminate]|exact F3].
  - destruct F as [F _]. rewrite CD in F. discriminate.
Qed.
Lemma data_nn_empty sqd d x : wf d -> contents d = [] -> zVecXDDataNN sqd d x = Some (d, (None, None)).
Proof. intros W E. unfold zVecXDDataNN. rewrite empty_spec, E by exact W. reflexivity. Qed.
Lemma data_vicinity sqd d x r : wf d -> exists d' vic, zVecXDDataVicinity sqd d x r = Some (d', vic) /\ contents d' = contents d /\ wf vic /\
  contents vic = filter (fun v => Rltb (sqd v x) (r * r)) (contents d).
Proof.
  intros W. unfold zVecXDDataVicinity. cbv zeta.
  destruct (while_all (fun vic v => inl (if Rltb (sqd v x) (r * r) then fst (zVecXDDataAdd vic v) else vic)) d zVecXDDataInitAddrList W) as (d' & E & _ & C & _).
  rewrite (fold_brk_fold (fun vic v => if Rltb (sqd v x) (r * r) then fst (zVecXDDataAdd vic v) else vic)) in E. eexists. eexists. split; [exact E|]. split; [exact C|].
  destruct (fold_add (fun v => if Rltb (sqd v x) (r * r) then Some v else None) (contents d) zVecXDDataInitAddrList (or_intror eq_refl)) as (S1 & S2 & S3). cbv beta in *.
  assert (EQ : forall l dst, fold_left (fun vic v => if Rltb (sqd v x) (r * r) then fst (zVecXDDataAdd vic v) else vic) l dst = fold_left (fun dst v => match (if Rltb (sqd v x) (r * r) then Some v else None) with Some w => fst (zVecXDDataAdd dst w) | None => dst end) l dst).
  { induction l as [|a l IH]; intros dst; [reflexivity|]. cbn. rewrite IH. f_equal. destruct (Rltb _ _); reflexivity. }
  rewrite EQ. split; [unfold wf; rewrite S2, S3; exact I|]. unfold contents at 1. rewrite S2. cbn [d_method zVecXDDataInitAddrList listlike]. rewrite S1. cbn [zVecXDDataInitAddrList d_store app].
  generalize (contents d); clear; intros l; induction l as [|a l IH]; [reflexivity|]. cbn. destruct (Rltb (sqd a x) (r * r)); cbn; rewrite IH; reflexivity.
Qed.
Lemma support_fold (f : A -> R) l : forall v0, let s := fold_left (fun s v => let x := f v in if Rltb (snd s) x then (v, x) else s) l (v0, f v0) in
  snd s = f (fst s) /\ List.In (fst s) (v0 :: l) /\ forall y, List.In y (v0 :: l) -> f y <= f (fst s).
Proof.
  induction l as [|a l IH]; intros v0; cbn [fold_left].
  - cbn. repeat split; auto. intros y [<-|[]]. lra.
  - cbn [snd]. destruct (Rltb_reflect (f v0) (f a)) as [L|L].
    + specialize (IH a). cbv zeta in *. destruct IH as (I1 & I2 & I3). split; [exact I1|]. split; [right; exact I2|]. intros y [<-|Hy]; [|apply I3; exact Hy]. pose proof (I3 a (or_introl eq_refl)). lra.
    + specialize (IH v0). cbv zeta in *. destruct IH as (I1 & I2 & I3). split; [exact I1|]. split; [destruct I2 as [I2|I2]; [left; exact I2|right; right; exact I2]|].
      pose proof (I3 v0 (or_introl eq_refl)). intros y [<-|[<-|Hy]]; [lra|lra|apply I3; right; exact Hy].
Qed.
Lemma data_support inner d x : wf d -> contents d <> [] -> exists d' v, zVecXDDataSupportMap inner d x = Some (d', Some v) /\ contents d' = contents d /\ extreme_in (fun y => inner y x) (contents d) v.
Proof.
  intros W NE. unfold zVecXDDataSupportMap. rewrite empty_spec by exact W. destruct (contents d) as [|a t] eqn:CD; [congruence|]. rewrite <- CD in *. clear NE.
  destruct (rewind_spec d W) as (W1 & C1 & P1 & M1). destruct (fetch_spec _ W1) as (V2 & W2 & C2 & P2 & M2). destruct (zVecXDDataFetch (zVecXDDataRewind d)) as [d2 p]. cbn [fst snd] in *.
  rewrite C1, P1 in *. rewrite CD in V2, P2. cbn [first cur nth_error] in V2. subst p. cbn [first advance] in P2.
  assert (R2 : rest d2 = t). { unfold rest. rewrite P2, C2, CD. destruct t as [|b t']; reflexivity. }
  destruct (while_spec (fun s v => inl (let y := inner v x in if Rltb (snd s) y then (v, y) else s)) (fuel_of d) d2 (a, inner a x) W2) as (d' & E & _ & C & _).
  { rewrite R2. unfold fuel_of. rewrite size_spec, CD by exact W. cbn [length]. lia. }
  rewrite CD. cbv beta iota zeta. cbv zeta in E. rewrite E, R2. rewrite (fold_brk_fold (fun s v => if Rltb (snd s) (inner v x) then (v, inner v x) else s)).
  pose proof (support_fold (fun y => inner y x) t a) as F. cbv zeta in F. destruct (fold_left _ t (a, inner a x)) as [v y]. cbn [fst snd] in F. destruct F as (_ & F2 & F3).
  exists d', v. split; [reflexivity|]. split; [congruence|]. split; [exact F2|exact F3].
Qed.
End facts.
