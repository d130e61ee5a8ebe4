(** The Voronoi cells as polygons. *)
From Verif Require Import ModelVor SpecVor SpecDel FactsElem FactsTri2 FactsCentre FactsBallQ3 FactsDel FactsDel2 FactsDel3 FactsDel4 FactsDel5 FactsDel6 FactsDel7 FactsDel8 FactsDel9 FactsDel10 FactsDel11 FactsVor FactsVor2.
From Coq Require Import List Lra Lia Bool Permutation.
Import ListNotations.
Open Scope R_scope.

(** ** the nodes that a point gets *)
Definition ent (node : vec2) (t : nat) (T : dtri) (v i : nat) : list vnode := if Nat.eqb (dv T i) v then match dadj T i with Some a => [VN node t a] | None => [] end else [].
Definition centre (pts : list vec2) (T : dtri) : vec2 := match zTri2DCircumcenter (dtri2 pts T) with Some c => c | None => v2zero end.
Definition contrib (pts : list vec2) (v : nat) (c : nat * dtri) : list vnode := ent (centre pts (snd c)) (fst c) (snd c) v 0 ++ ent (centre pts (snd c)) (fst c) (snd c) v 1 ++ ent (centre pts (snd c)) (fst c) (snd c) v 2.
Definition entries (pts : list vec2) (m : mem) (v : nat) : list vnode := flat_map (contrib pts v) m.
Definition extend (f : nat -> list vnode) (vl : list vcell) : list vcell := map (fun c => (fst c, snd c ++ f (fst c))) vl.
Lemma extend_fst f vl : map fst (extend f vl) = map fst vl.
Proof. unfold extend. rewrite map_map. apply map_ext. reflexivity. Qed.
Lemma extend_comp f g vl : extend g (extend f vl) = extend (fun v => f v ++ g v) vl.
Proof. unfold extend. rewrite map_map. apply map_ext. intros (v, l). cbn [fst snd]. rewrite app_assoc. reflexivity. Qed.
Lemma extend_ext f g vl : (forall v, f v = g v) -> extend f vl = extend g vl.
Proof. intros E. apply map_ext. intros (v, l). rewrite E. reflexivity. Qed.
Lemma extend_none f vl : (forall v, List.In v (map fst vl) -> f v = []) -> extend f vl = vl.
Proof. induction vl as [|(v, l) r IH]; intros E; [reflexivity|]. unfold extend in *. cbn [map fst snd]. rewrite IH by (intros w I; apply E; right; exact I). rewrite E by (left; reflexivity). rewrite app_nil_r. reflexivity. Qed.
Lemma add_loop p n vl : NoDup (map fst vl) -> zVoronoi2DAddLoop vl p n = extend (fun v => if Nat.eqb p v then [n] else []) vl.
Proof.
  induction vl as [|(v, l) r IH]; intros N; [reflexivity|]. cbn [map fst] in N. inversion N as [|? ? N1 N2]; subst. cbn [zVoronoi2DAddLoop]. unfold extend. cbn [map fst snd]. fold (extend (fun v => if Nat.eqb p v then [n] else []) r). destruct (Nat.eqb_spec v p) as [->|E].
  - rewrite Nat.eqb_refl. f_equal. symmetry. apply extend_none. intros w I. destruct (Nat.eqb_spec p w) as [->|]; [contradiction|reflexivity].
  - destruct (Nat.eqb_spec p v) as [->|]; [congruence|]. rewrite app_nil_r, IH by exact N2. reflexivity.
Qed.
Lemma add_tri vl t T i node : NoDup (map fst vl) -> zVoronoi2DListFromDelaunayTri2D vl t T i node = extend (fun v => ent node t T v i) vl.
Proof.
  intros N. unfold zVoronoi2DListFromDelaunayTri2D. destruct (dadj T i) as [a|] eqn:E.
  - rewrite add_loop by exact N. apply extend_ext. intros v. unfold ent. rewrite E. reflexivity.
  - symmetry. apply extend_none. intros v _. unfold ent. rewrite E. destruct (Nat.eqb (dv T i) v); reflexivity.
Qed.
Lemma add_all pts m : forall vl, NoDup (map fst vl) -> (forall t T, List.In (t, T) m -> zTri2DCircumcenter (dtri2 pts T) <> None) -> voronoi_add pts m vl = Some (extend (entries pts m) vl).
Proof.
  induction m as [|(t, T) r IH]; intros vl N C; cbn [voronoi_add].
  - f_equal. symmetry. apply extend_none. reflexivity.
  - pose proof (C t T (or_introl eq_refl)) as CT. destruct (zTri2DCircumcenter (dtri2 pts T)) as [node|] eqn:E; [|congruence]. cbv zeta. rewrite (add_tri vl) by exact N. rewrite (add_tri (extend _ vl)) by (rewrite extend_fst; exact N). rewrite (add_tri (extend _ (extend _ vl))) by (rewrite !extend_fst; exact N).
    rewrite IH; [|rewrite !extend_fst; exact N|intros s X I; apply (C s); right; exact I]. f_equal. rewrite !extend_comp. apply extend_ext. intros v. cbn [entries flat_map]. unfold contrib at 1, centre. cbn [fst snd]. rewrite E, !app_assoc. reflexivity.
Qed.
Lemma contrib_in pts v c e : List.In e (contrib pts v c) <-> exists i, (i < 3)%nat /\ dv (snd c) i = v /\ vn_t e = fst c /\ vn_node e = centre pts (snd c) /\ dadj (snd c) i = Some (vn_a e).
Proof.
  unfold contrib. rewrite !in_app_iff. assert (K : forall i, List.In e (ent (centre pts (snd c)) (fst c) (snd c) v i) <-> dv (snd c) i = v /\ vn_t e = fst c /\ vn_node e = centre pts (snd c) /\ dadj (snd c) i = Some (vn_a e)).
  { intros i. unfold ent. destruct (Nat.eqb_spec (dv (snd c) i) v) as [E|E]; [|split; [intros []|tauto]]. destruct (dadj (snd c) i) as [a|]; [|split; [intros []|intros (_ & _ & _ & H); discriminate]]. split.
    - intros [<-|[]]. auto.
    - intros (_ & A & B & C). left. destruct e as [x y z]. cbn [vn_t vn_node vn_a] in *. congruence. }
  rewrite !K. split.
  - intros [H|[H|H]]; [exists 0%nat|exists 1%nat|exists 2%nat]; (split; [lia|exact H]).
  - intros (i & L & H). three i L; tauto.
Qed.
Lemma contrib_size pts v c : (forall i j, (i < 3)%nat -> (j < 3)%nat -> dv (snd c) i = dv (snd c) j -> i = j) -> (length (contrib pts v c) <= 1)%nat.
Proof.
  intros U. unfold contrib. rewrite !app_length. assert (K : forall i, (length (ent (centre pts (snd c)) (fst c) (snd c) v i) <= (if Nat.eqb (dv (snd c) i) v then 1 else 0))%nat) by (intros i; unfold ent; destruct (Nat.eqb (dv (snd c) i) v); [destruct (dadj (snd c) i)|]; cbn [length]; lia).
  pose proof (K 0%nat) as K0. pose proof (K 1%nat) as K1. pose proof (K 2%nat) as K2.
  destruct (Nat.eqb_spec (dv (snd c) 0) v) as [E0|E0], (Nat.eqb_spec (dv (snd c) 1) v) as [E1|E1], (Nat.eqb_spec (dv (snd c) 2) v) as [E2|E2]; try lia; exfalso.
  - discriminate (U 0%nat 1%nat ltac:(lia) ltac:(lia) ltac:(congruence)).
  - discriminate (U 0%nat 1%nat ltac:(lia) ltac:(lia) ltac:(congruence)).
  - discriminate (U 0%nat 2%nat ltac:(lia) ltac:(lia) ltac:(congruence)).
  - discriminate (U 1%nat 2%nat ltac:(lia) ltac:(lia) ltac:(congruence)).
Qed.
Lemma entries_nodup pts v m : NoDup (ids m) -> (forall t T, List.In (t, T) m -> forall i j, (i < 3)%nat -> (j < 3)%nat -> dv T i = dv T j -> i = j) -> NoDup (map vn_t (entries pts m v)).
Proof.
  induction m as [|(t, T) r IH]; intros N U; cbn [entries flat_map map]; [constructor|]. cbn [ids map fst] in N. inversion N as [|? ? N1 N2]; subst. rewrite map_app. fold (entries pts r v). specialize (IH N2 ltac:(intros s X I; apply (U s); right; exact I)).
  pose proof (contrib_size pts v (t, T) (U t T (or_introl eq_refl))) as L. assert (A : forall e, List.In e (contrib pts v (t, T)) -> vn_t e = t) by (intros e I; apply contrib_in in I; destruct I as (i & _ & _ & E & _); exact E).
  destruct (contrib pts v (t, T)) as [|e [|e' q]]; [exact IH| |cbn [length] in L; lia]. cbn [map app]. constructor; [|exact IH]. rewrite (A e) by (left; reflexivity). intros I. apply N1. apply in_map_iff in I. destruct I as (x & E & I). unfold entries in I. apply in_flat_map in I. destruct I as (c & I & J). apply contrib_in in J. destruct J as (i & _ & _ & F & _). apply in_map_iff. exists c. split; [congruence|exact I].
Qed.

Section Cells.
Variables (pts : list vec2) (m : mem) (V : list nat).
Notation pt := (dpt pts).
Hypothesis M : mesh pts m V.
Hypothesis D : distinct pts V.
Hypothesis EC : empty_circles pts m V.
Hypothesis VS : forall q, List.In q pts <-> exists k, List.In k V /\ q = pt k.

Lemma mesh_three t T : List.In (t, T) m -> forall i j, (i < 3)%nat -> (j < 3)%nat -> dv T i = dv T j -> i = j.
Proof.
  intros I i j Li Lj E. apply (in_dget _ _ _ (M_ids _ _ _ M)) in I. pose proof (M_pos _ _ _ M _ _ _ _ _ (get_dart m t T 0 I ltac:(lia))) as P. apply ar_ne in P. change (nx 0) with 1%nat in P. change (nxx 0) with 2%nat in P. destruct P as (P1 & P2 & P3).
  three i Li; three j Lj; try reflexivity; exfalso; congruence.
Qed.
Lemma mesh_centre t T : List.In (t, T) m -> zTri2DCircumcenter (dtri2 pts T) = Some (centre pts T) /\ forall i j, (i < 3)%nat -> (j < 3)%nat -> dist2 (centre pts T) (pt (dv T i)) = dist2 (centre pts T) (pt (dv T j)).
Proof.
  intros I. apply (in_dget _ _ _ (M_ids _ _ _ M)) in I. pose proof (M_pos _ _ _ M _ _ _ _ _ (get_dart m t T 0 I ltac:(lia))) as P. unfold ar in P. change (nx 0) with 1%nat in P. change (nxx 0) with 2%nat in P.
  destruct (circum2_ok (pt (dv T 0)) (pt (dv T 1)) (pt (dv T 2)) ltac:(lra)) as (c & E & E1 & E2). unfold centre, zTri2DCircumcenter, dtri2. cbn [tw0 tw1 tw2]. rewrite E. split; [reflexivity|]. intros i j Li Lj. three i Li; three j Lj; congruence.
Qed.
Lemma dart_centre t T u v w n : dget m t = Some T -> dart m t u v w n -> dist2 (centre pts T) (pt u) = dist2 (centre pts T) (pt v) /\ dist2 (centre pts T) (pt u) = dist2 (centre pts T) (pt w).
Proof.
  intros G (X & i & G' & L & <- & <- & <- & _). rewrite G in G'. injection G' as <-. pose proof (dget_in _ _ _ G) as I. destruct (mesh_centre t T I) as (_ & C). assert (nx i < 3)%nat by (three i L; cbv; lia). assert (nxx i < 3)%nat by (three i L; cbv; lia). split; apply C; assumption.
Qed.
Section Cell.
Variable v : nat.
Hypothesis V3 : (3 <= v)%nat.
Hypothesis VV : List.In v V.
Hypothesis VI : ins pts 0 1 2 (pt v).
(** [a] is the corner behind [v] in the triangle of [e] *)
Definition behind (e : vnode) (a : nat) : Prop := exists T b, dget m (vn_t e) = Some T /\ vn_node e = centre pts T /\ dart m (vn_t e) v a b (Some (vn_a e)).
Lemma entries_in e : List.In e (entries pts m v) <-> exists a, behind e a.
Proof.
  unfold entries. rewrite in_flat_map. split.
  - intros ((t, T) & I & J). apply contrib_in in J. cbn [fst snd] in J. destruct J as (i & L & E1 & E2 & E3 & E4). apply (in_dget _ _ _ (M_ids _ _ _ M)) in I. exists (dv T (nx i)), T, (dv T (nxx i)). rewrite E2. split; [exact I|]. split; [exact E3|]. exists T, i. auto 8.
  - intros (a & T & b & G & N & X & i & G' & L & E1 & _ & _ & E4). rewrite G in G'. injection G' as <-. exists (vn_t e, T). split; [apply dget_in, G|]. apply contrib_in. cbn [fst snd]. exists i. auto.
Qed.
Lemma entry_of t a b n : dart m t v a b n -> exists e, List.In e (entries pts m v) /\ vn_t e = t /\ behind e a.
Proof.
  intros K. destruct (star_null pts m V v M V3 _ _ _ _ K) as (s & ->). pose proof K as (T & i & G & _). set (e := VN (centre pts T) t s). assert (B : behind e a) by (exists T, b; auto). exists e. split; [apply entries_in; eauto|]. auto.
Qed.
Lemma entries_t : NoDup (map vn_t (entries pts m v)).
Proof. apply entries_nodup; [exact (M_ids _ _ _ M)|exact mesh_three]. Qed.
Lemma entries_cycle : one_cycle (entries pts m v).
Proof.
  constructor.
  - exact entries_t.
  - assert (K : forall l, NoDup (map vn_t l) -> incl l (entries pts m v) -> NoDup (map vn_a l)).
    { induction l as [|e r IH]; intros N I; cbn [map] in *; [constructor|]. inversion N as [|? ? N1 N2]; subst. constructor; [|apply IH; [exact N2|intros x X; apply I; right; exact X]]. intros J. apply in_map_iff in J. destruct J as (e' & E & J). apply N1.
      pose proof (I e (or_introl eq_refl)) as I1. pose proof (I e' (or_intror J)) as I2. apply entries_in in I1, I2. destruct I1 as (a & T & b & _ & _ & K1). destruct I2 as (a' & T' & b' & _ & _ & K2). rewrite E in K2. rewrite (star_inj pts m V v M _ _ _ _ _ _ _ K1 K2). apply in_map, J. }
    apply K; [exact entries_t|intros x X; exact X].
  - intros e I. apply entries_in in I. destruct I as (a & T & b & _ & _ & K). destruct (star_next pts m V v M V3 _ _ _ _ K) as (c & s' & K'). destruct (entry_of _ _ _ _ K') as (e' & I' & E & _). eauto.
  - intros S (e0 & I0 & S0) SC e I. apply entries_in in I, I0. destruct I as (a & T & b & _ & _ & K). destruct I0 as (a0 & T0 & b0 & _ & _ & K0).
    apply (star_one pts m V v M D V3 VV S) with (a := a) (b := b) (n := Some (vn_a e)); [exists (vn_t e0), a0, b0, (Some (vn_a e0)); auto| |exact K].
    intros t x y s J St. destruct (star_next pts m V v M V3 _ _ _ _ J) as (c & s' & J'). destruct (entry_of _ _ _ _ J) as (f & If & Ef & Bf). destruct (entry_of _ _ _ _ J') as (g & Ig & Eg & _). rewrite <- Eg. apply (SC f g If Ig); [rewrite Ef; exact St|].
    destruct Bf as (Tf & bf & _ & _ & Kf). rewrite Ef in Kf. destruct (mesh_fun _ _ _ _ _ _ _ _ _ _ _ M J Kf) as (_ & _ & E). congruence.
Qed.
Lemma entries_some : entries pts m v <> [].
Proof. destruct (star_some pts m V v M D V3 VV VI) as (t & a & b & n & K). destruct (entry_of _ _ _ _ K) as (e & I & _). intros E. rewrite E in I. destruct I. Qed.
Lemma entries_length : (length (entries pts m v) <= length m)%nat.
Proof.
  rewrite <- (map_length vn_t), <- (map_length fst m). apply NoDup_incl_length; [exact entries_t|]. intros t I. apply in_map_iff in I. destruct I as (e & <- & I). apply entries_in in I. destruct I as (a & T & b & G & _). apply in_map_iff. exists (vn_t e, T). split; [reflexivity|apply dget_in, G].
Qed.
Lemma rotate_nth {A B} (f : A -> B) (l : list A) k : nth_error (rotate (map f l)) k = option_map f (nth_error (rotate l) k).
Proof. destruct l as [|x r]; cbn [rotate map]; [rewrite !(proj2 (nth_error_None _ _)) by (cbn [length]; lia); reflexivity|]. rewrite <- nth_error_map, map_app. reflexivity. Qed.
Lemma behind_list l : (forall e, List.In e l -> exists a, behind e a) -> exists us, Forall2 behind l us.
Proof. induction l as [|e r IH]; intros H; [exists []; constructor|]. destruct (H e (or_introl eq_refl)) as (a & A). destruct IH as (us & U); [intros x X; apply H; right; exact X|]. exists (a :: us). constructor; assumption. Qed.
Lemma forall2_nth {A B} (P : A -> B -> Prop) l l' : Forall2 P l l' -> forall k x y, nth_error l k = Some x -> nth_error l' k = Some y -> P x y.
Proof. induction 1 as [|x y l l' H F IH]; intros k a b X Y; destruct k; cbn in X, Y; try discriminate; [injection X as <-; injection Y as <-; exact H|exact (IH _ _ _ X Y)]. Qed.
Lemma forall2_rotate {A B} (P : A -> B -> Prop) l l' : Forall2 P l l' -> Forall2 P (rotate l) (rotate l').
Proof. destruct 1 as [|x y l l' H F]; cbn [rotate]; [constructor|]. apply Forall2_app; [exact F|]. constructor; [exact H|constructor]. Qed.
Lemma forall2_in {A B} (P : A -> B -> Prop) l l' : Forall2 P l l' -> forall y, List.In y l' -> exists x, List.In x l /\ P x y.
Proof. induction 1 as [|x y l l' H F IH]; intros b []; [subst; exists x; split; [left; reflexivity|exact H]|]. destruct (IH b H0) as (z & I & Q). exists z. split; [right; exact I|exact Q]. Qed.
Lemma forall2_in' {A B} (P : A -> B -> Prop) l l' : Forall2 P l l' -> forall x, List.In x l -> exists y, List.In y l' /\ P x y.
Proof. induction 1 as [|x y l l' H F IH]; intros b []; [subst; exists y; split; [left; reflexivity|exact H]|]. destruct (IH b H0) as (z & I & Q). exists z. split; [right; exact I|exact Q]. Qed.
Lemma behind_V e a : behind e a -> List.In a V /\ a <> v.
Proof.
  intros (T & b & _ & _ & K). pose proof (M_pos _ _ _ M _ _ _ _ _ K) as P. apply ar_ne in P. destruct (dart_rot _ _ _ _ _ _ K) as (n1 & K1). split; [exact (M_in _ _ _ M _ _ _ _ _ K1)|intuition congruence].
Qed.
Lemma behind_inj e a e' : behind e a -> behind e' a -> vn_t e = vn_t e'.
Proof. intros (T & b & _ & _ & K) (T' & b' & _ & _ & K'). exact (edge_one _ _ _ _ _ _ _ _ _ _ _ M D K K'). Qed.
Lemma behind_nodup l us : Forall2 behind l us -> NoDup (map vn_t l) -> NoDup (map pt us).
Proof.
  induction 1 as [|e a l us H F IH]; intros N; cbn [map] in *; [constructor|]. inversion N as [|? ? N1 N2]; subst. constructor; [|exact (IH N2)]. intros I. apply in_map_iff in I. destruct I as (a' & E & I). destruct (forall2_in _ _ _ F _ I) as (e' & I' & H'). destruct (Nat.eq_dec a a') as [<-|NE].
  - apply N1. rewrite (behind_inj _ _ _ H H'). apply in_map, I'.
  - apply (D a a'); [exact (Logic.proj1 (behind_V _ _ H))|exact (Logic.proj1 (behind_V _ _ H'))|exact NE|congruence].
Qed.
Lemma cell_ok l : Permutation (entries pts m v) l -> map vn_a l = rotate (map vn_t l) -> exists us, voronoi_polygon pts (pt v) (map vn_node l) us.
Proof.
  intros P RO. assert (IN : forall e, List.In e l <-> exists a, behind e a). { intros e. rewrite <- entries_in. split; apply Permutation_in; [apply Permutation_sym, P|exact P]. }
  destruct (behind_list l ltac:(intros e I; apply IN, I)) as (us & U). exists (map pt us). assert (LU : length us = length l) by (clear - U; induction U; cbn [length]; congruence).
  assert (ND : NoDup (map vn_t l)) by (apply (Permutation_NoDup (Permutation_map vn_t P)), entries_t).
  assert (SIDE : forall k n n' u u', nth_error (map vn_node l) k = Some n -> nth_error (rotate (map vn_node l)) k = Some n' -> nth_error (map pt us) k = Some u -> nth_error (rotate (map pt us)) k = Some u' ->
    dist2 n (pt v) = dist2 n u /\ dist2 n' (pt v) = dist2 n' u /\ dist2 n' (pt v) = dist2 n' u' /\ 0 < area2 (pt v) u' u).
  { intros k n n' u u' E1 E2 E3 E4. rewrite rotate_nth in E2. rewrite rotate_nth in E4. rewrite nth_error_map in E1. rewrite nth_error_map in E3. destruct (nth_error l k) as [e|] eqn:F1; [|discriminate]. destruct (nth_error (rotate l) k) as [e'|] eqn:F2; [|discriminate]. destruct (nth_error us k) as [a|] eqn:F3; [|discriminate]. destruct (nth_error (rotate us) k) as [c|] eqn:F4; [|discriminate].
    cbn [option_map] in E1, E2, E3, E4. injection E1 as <-. injection E2 as <-. injection E3 as <-. injection E4 as <-.
    pose proof (forall2_nth _ _ _ U _ _ _ F1 F3) as (T & b & G & N & K). pose proof (forall2_nth _ _ _ (forall2_rotate _ _ _ U) _ _ _ F2 F4) as (T' & b' & G' & N' & K').
    assert (NX : vn_a e = vn_t e'). { assert (Q : nth_error (map vn_a l) k = nth_error (rotate (map vn_t l)) k) by (rewrite RO; reflexivity). rewrite rotate_nth, nth_error_map, F1, F2 in Q. cbn [option_map] in Q. congruence. }
    destruct (star_next pts m V v M V3 _ _ _ _ K) as (c' & s' & J). rewrite NX in J. destruct (mesh_fun _ _ _ _ _ _ _ _ _ _ _ M J K') as (-> & -> & _).
    rewrite N, N'. destruct (dart_centre _ _ _ _ _ _ G K) as (C1 & _). destruct (dart_centre _ _ _ _ _ _ G' K') as (C2 & C3). split; [exact C1|]. split; [exact C3|]. split; [exact C2|]. exact (M_pos _ _ _ M _ _ _ _ _ J). }
  assert (NE : l <> []) by (intros ->; apply Permutation_sym, Permutation_nil in P; exact (entries_some P)).
  constructor.
  - rewrite !map_length. split; [exact LU|]. destruct l as [|e1 [|e2 [|e3 r]]]; [congruence| | |cbn [length]; lia]; exfalso.
    + destruct us as [|u [|u2 r]]; try discriminate LU. destruct (SIDE 0%nat _ _ _ _ eq_refl eq_refl eq_refl eq_refl) as (_ & _ & _ & A). revert A. plane. lra.
    + destruct us as [|u [|u2 [|u3 r]]]; try discriminate LU. destruct (SIDE 0%nat _ _ _ _ eq_refl eq_refl eq_refl eq_refl) as (_ & _ & _ & A). destruct (SIDE 1%nat _ _ _ _ eq_refl eq_refl eq_refl eq_refl) as (_ & _ & _ & B). revert A B. plane. lra.
  - split; [exact (behind_nodup _ _ U ND)|]. intros u I. apply in_map_iff in I. destruct I as (a & <- & I). destruct (forall2_in _ _ _ U _ I) as (e & _ & B). destruct (behind_V _ _ B) as (B1 & B2). split; [apply VS; eauto|]. intros E. exact (D a v B1 VV B2 E).
  - exact SIDE.
  - intros n q I J. apply in_map_iff in I. destruct I as (e & <- & I). apply IN in I. destruct I as (a & T & b & G & N & K). apply VS in J. destruct J as (k & J & ->). rewrite N. destruct (dart_centre _ _ _ _ _ _ G K) as (C1 & C2). pose proof (M_pos _ _ _ M _ _ _ _ _ K) as A. unfold ar in A.
    pose proof (EC _ _ _ _ _ k K J) as E. unfold powi in E. rewrite (circle_unique (pt v) (pt a) (pt b) (centre pts T) (pt k) ltac:(lra) C1 C2) in E. apply dist2_le. rewrite (sq_sym _ (pt v)), (sq_sym _ (pt k)). lra.
  - intros x. split; intros H u I.
    + apply H. apply in_map_iff in I. destruct I as (a & <- & I). destruct (forall2_in _ _ _ U _ I) as (e & _ & B). apply VS. exists a. split; [exact (Logic.proj1 (behind_V _ _ B))|reflexivity].
    + apply VS in I. destruct I as (k & Ik & ->). destruct (star_cover pts m V v M D V3 VV VI (pt k)) as (t & a & b & n & K & A1 & A2).
      assert (OF : forall t a b n, dart m t v a b n -> dist2 x (pt v) <= dist2 x (pt a)). { intros t' a' b' n' K'. destruct (entry_of _ _ _ _ K') as (e & Ie & Ee & Be). assert (Il : List.In e l) by (apply IN; eauto). destruct (forall2_in' _ _ _ U _ Il) as (c & Ic & Bc). destruct Be as (T1 & b1 & _ & _ & K1). destruct Bc as (T2 & b2 & _ & _ & K2). destruct (mesh_fun _ _ _ _ _ _ _ _ _ _ _ M K1 K2) as (-> & _ & _). apply H, in_map, Ic. }
      pose proof (OF _ _ _ _ K) as O1. destruct (star_prev pts m V v M V3 _ _ _ _ K) as (c & s & Kb). pose proof (OF _ _ _ _ Kb) as O2. pose proof K as (T & i & G & _). destruct (dart_centre _ _ _ _ _ _ G K) as (C1 & C2). pose proof (M_pos _ _ _ M _ _ _ _ _ K) as A. unfold ar in A.
      pose proof (EC _ _ _ _ _ k K Ik) as E. unfold powi in E. rewrite (circle_unique (pt v) (pt a) (pt b) (centre pts T) (pt k) ltac:(lra) C1 C2) in E. apply dist2_eq in C1, C2. rewrite dist2_le in O1, O2 |- *.
      apply (halfplane (pt v) (pt a) (pt b) (centre pts T) x (pt k)); try assumption; [rewrite !(sq_sym _ (centre pts T)); lra|rewrite !(sq_sym _ (centre pts T)); lra|lra].
Qed.
End Cell.
(** ** the list of cells *)
Lemma close_all fuel : (2 * length m <= fuel)%nat -> forall vs, (forall v, List.In v vs -> (3 <= v)%nat /\ List.In v V /\ ins pts 0 1 2 (pt v)) ->
  exists vl, zVoronoi2DListLoopClose fuel (map (fun v => (v, entries pts m v)) vs) = DDone vl /\ map fst vl = vs /\ forall v l, List.In (v, l) vl -> exists us, voronoi_polygon pts (pt v) (map vn_node l) us.
Proof.
  intros F. induction vs as [|v r IH]; intros H; cbn [map zVoronoi2DListLoopClose]; [exists []; repeat split; intros v l []|]. destruct (H v (or_introl eq_refl)) as (H1 & H2 & H3). destruct IH as (vl & E & EM & EP); [intros w W; apply H; right; exact W|].
  pose proof (entries_length v) as L. destruct (close_ok (entries pts m v) fuel (entries_some v H1 H2 H3) (entries_cycle v H1 H2) ltac:(lia)) as (l' & C & P & RO). rewrite C, E. exists ((v, l') :: vl). split; [reflexivity|]. split; [cbn [map fst]; congruence|].
  intros w l [Q|Q]; [injection Q as <- <-; exact (cell_ok v H1 H2 H3 l' P RO)|exact (EP w l Q)].
Qed.
End Cells.
