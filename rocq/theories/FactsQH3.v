(** Quickhull: the state and its invariant; operations on the memory of facets. *)
From Verif Require Export FactsQH2.
From Coq Require Import Lra Lia List Permutation Arith Bool.
Import ListNotations.
Open Scope R_scope.

Lemma side3 s : (s < 3)%nat -> s = 0%nat \/ s = 1%nat \/ s = 2%nat. Proof. lia. Qed.
Ltac cases3 s H := destruct (side3 s H) as [->|[->| ->]].
Lemma nxt_lt s : (nxt s < 3)%nat. Proof. apply Nat.mod_upper_bound. lia. Qed.
Lemma prv_lt s : (prv s < 3)%nat. Proof. apply Nat.mod_upper_bound. lia. Qed.
Lemma upd_same {A} (f : nat -> A) s v : upd f s v s = v. Proof. unfold upd. rewrite Nat.eqb_refl. reflexivity. Qed.
Lemma upd_diff {A} (f : nat -> A) s v i : i <> s -> upd f s v i = f i. Proof. intros H. unfold upd. destruct (Nat.eqb_spec i s); congruence. Qed.

Definition link (f : qfacet) (s j : nat) : qfacet := set_m (set_c f s j) s false.
Lemma bind_run pt m i1 s1 i2 s2 f1 f2 : m i1 = Some f1 -> m i2 = Some f2 -> i1 <> i2 -> merge_flag pt f1 f2 s1 = false ->
  exists m', zQHFacetBind pt m i1 s1 i2 s2 = Some m' /\ m' i1 = Some (link f1 s1 i2) /\ m' i2 = Some (link f2 s2 i1) /\ forall i, i <> i1 -> i <> i2 -> m' i = m i.
Proof.
  intros H1 H2 D F. unfold zQHFacetBind. rewrite H1. cbn [obind]. rewrite (upd_diff m i1 _ i2) by congruence. rewrite H2. cbn [obind].
  rewrite (upd_diff _ i2 _ i1), upd_same, (upd_same _ i2) by congruence. cbn [obind].
  assert (E : merge_flag pt (set_c f1 s1 i2) (set_c f2 s2 i1) s1 = false) by exact F. rewrite E. rewrite (upd_diff _ i2 _ i1), (upd_diff _ i2 _ i1), upd_same by congruence. cbn [obind].
  eexists. split; [reflexivity|]. split; [apply upd_same|]. split; [rewrite upd_diff, upd_same by congruence; reflexivity|].
  intros i N1 N2. rewrite !upd_diff by congruence. reflexivity.
Qed.
Lemma contig_run m i s f j g t : m i = Some f -> qc f s = Some j -> m j = Some g -> (t < 3)%nat -> qc g t = Some i -> (forall t', (t' < 3)%nat -> t' <> t -> qc g t' <> Some i) ->
  zQHFacetContigID m i s = Some (Some t).
Proof.
  intros Hi Hs Hj T Ht U. unfold zQHFacetContigID. rewrite Hi. cbn [obind]. rewrite Hs. cbn [obind]. rewrite Hj. cbn [obind]. f_equal.
  assert (Y : same_facet (qc g t) i = true) by (rewrite Ht; cbn; apply Nat.eqb_refl).
  assert (Z : forall t', (t' < 3)%nat -> t' <> t -> same_facet (qc g t') i = false). { intros t' T' D. specialize (U t' T' D). destruct (qc g t') as [k|]; [|reflexivity]. cbn. destruct (Nat.eqb_spec k i); [subst; congruence|reflexivity]. }
  cases3 t T.
  - rewrite Y. reflexivity.
  - rewrite (Z 0%nat), Y by lia. reflexivity.
  - rewrite (Z 0%nat), (Z 1%nat), Y by lia. reflexivity.
Qed.

(** ** the surface *)
Section State.
Variables (pt : nat -> vec3) (N : nat).
Notation o := (ori pt).
Definition is_corner (f : qfacet) (v : nat) : Prop := v = qp f 0 \/ v = qp f 1 \/ v = qp f 2.
Definition above (f : qfacet) (x : nat) : R := o (qp f 0) (qp f 1) (qp f 2) x.
Definition good (f : qfacet) : Prop :=
  (qp f 0 < N)%nat /\ (qp f 1 < N)%nat /\ (qp f 2 < N)%nat /\ qp f 0 <> qp f 1 /\ qp f 0 <> qp f 2 /\ qp f 1 <> qp f 2 /\
  qn f = vscale (1 / norm (nrm pt (qp f 0) (qp f 1) (qp f 2))) (nrm pt (qp f 0) (qp f 1) (qp f 2)).
Definition live (m : memory) (fl : list nat) (v : nat) : Prop := exists i f, List.In i fl /\ m i = Some f /\ is_corner f v.
(** facets (i, s) and (j, t) share a side, in opposite senses *)
Definition facing (i s : nat) (f : qfacet) (j t : nat) (g : qfacet) : Prop :=
  qc f s = Some j /\ qc g t = Some i /\ qp g (nxt t) = qp f (prv s) /\ qp g (prv t) = qp f (nxt s) /\ ~ is_corner f (qp g t).
Record mesh (m : memory) (fl : list nat) : Prop := {
  M_nodup : NoDup fl;
  M_good : forall i, List.In i fl -> exists f, m i = Some f /\ good f /\ forall s, (s < 3)%nat -> qm f s = false;
  M_adj : forall i f s, List.In i fl -> m i = Some f -> (s < 3)%nat -> exists j t g, List.In j fl /\ (t < 3)%nat /\ m j = Some g /\ facing i s f j t g;
  M_edge : forall i j f g s t, List.In i fl -> List.In j fl -> m i = Some f -> m j = Some g -> (s < 3)%nat -> (t < 3)%nat ->
    qp f (nxt s) = qp g (nxt t) -> qp f (prv s) = qp g (prv t) -> i = j;
  M_sup : forall i f x, List.In i fl -> m i = Some f -> live m fl x -> ~ is_corner f x -> above f x < 0 }.
Definition spanned (P : nat -> Prop) (q : vec3) : Prop := exists L, (forall v, List.In v L -> P v) /\ convex_hull (map pt L) q.
Definition total (m : memory) (fl : list nat) : nat := list_sum (map (fun i => match m i with Some f => length (qop f) | None => 0%nat end) fl).
Record inv (q : qhull) : Prop := {
  I_mesh : mesh (q_mem q) (q_fl q);
  I_new : forall i, List.In i (q_fl q) -> (i < q_new q)%nat;
  I_flags : forall i f, List.In i (q_fl q) -> q_mem q i = Some f -> qvis f = false /\ qchk f = false;
  I_op : forall i f x, List.In i (q_fl q) -> q_mem q i = Some f -> List.In x (qop f) -> (x < N)%nat /\ 0 < above f x;
  I_cover : forall x, (x < N)%nat -> spanned (live (q_mem q) (q_fl q)) (pt x) \/ exists i f, List.In i (q_fl q) /\ q_mem q i = Some f /\ List.In x (qop f);
  I_live : forall v, live (q_mem q) (q_fl q) v -> List.In v (q_vl q);
  I_vl : forall v, List.In v (q_vl q) -> (v < N)%nat /\ spanned (live (q_mem q) (q_fl q)) (pt v) /\ (q_dis q v = false <-> live (q_mem q) (q_fl q) v);
  I_vlnd : NoDup (q_vl q);
  I_dis : forall v, q_dis q v = true -> List.In v (q_vl q);
  I_four : q_fl q <> [];
  I_full : forall x, (forall i f, List.In i (q_fl q) -> q_mem q i = Some f -> vol6 (pt (qp f 0)) (pt (qp f 1)) (pt (qp f 2)) x <= 0) -> spanned (live (q_mem q) (q_fl q)) x }.

Lemma corner_side f v : is_corner f v <-> exists s, (s < 3)%nat /\ qp f s = v.
Proof.
  split.
  - intros [->|[->| ->]]; [exists 0%nat|exists 1%nat|exists 2%nat]; split; auto; lia.
  - intros (s & S & <-). cases3 s S; unfold is_corner; auto.
Qed.
Lemma corner_at f s : (s < 3)%nat -> is_corner f (qp f s). Proof. intros S. apply corner_side. exists s. auto. Qed.
Lemma good_inj f s t : good f -> (s < 3)%nat -> (t < 3)%nat -> qp f s = qp f t -> s = t.
Proof. intros (_ & _ & _ & A & B & C & _) S T E. cases3 s S; cases3 t T; congruence. Qed.
Lemma good_lt f v : good f -> is_corner f v -> (v < N)%nat.
Proof. intros (A & B & C & _) [->|[->| ->]]; assumption. Qed.
Lemma good_shaped f : good f -> shaped pt f (qp f 0) (qp f 1) (qp f 2).
Proof. intros (_ & _ & _ & _ & _ & _ & E). repeat split. exact E. Qed.
Lemma good_apart f x : good f -> (x < N)%nat -> ~ is_corner f x -> apart4 N (qp f 0) (qp f 1) (qp f 2) x.
Proof. intros (A & B & C & D & E & F & _) X H. unfold is_corner in H. unfold apart4. intuition congruence. Qed.
Lemma above_corner f v : is_corner f v -> above f v = 0.
Proof. intros [->|[->| ->]]; unfold above, ori; [apply vol6_first|apply vol6_second|apply vol6_same]. Qed.
Lemma above_side f s x : (s < 3)%nat -> above f x = o (qp f (nxt s)) (qp f (prv s)) (qp f s) x.
Proof.
  intros S. unfold above. cases3 s S.
  - symmetry. apply (o_cyc pt (qp f 0) (qp f 1) (qp f 2) x).
  - apply (o_cyc pt (qp f 2) (qp f 0) (qp f 1) x).
  - reflexivity.
Qed.
Lemma normal_side f s : (s < 3)%nat -> good f -> qn f = vscale (1 / norm (nrm pt (qp f (nxt s)) (qp f (prv s)) (qp f s))) (nrm pt (qp f (nxt s)) (qp f (prv s)) (qp f s)).
Proof.
  intros S (_ & _ & _ & _ & _ & _ & E). rewrite E. replace (nrm pt (qp f (nxt s)) (qp f (prv s)) (qp f s)) with (nrm pt (qp f 0) (qp f 1) (qp f 2)); [reflexivity|].
  cases3 s S; [change (nxt 0) with 1%nat; change (prv 0) with 2%nat|change (nxt 1) with 2%nat; change (prv 1) with 0%nat|change (nxt 2) with 0%nat; change (prv 2) with 1%nat].
  - symmetry. apply nrm_cyc.
  - apply nrm_cyc.
  - reflexivity.
Qed.
Lemma nxt_ne s : (s < 3)%nat -> nxt s <> s /\ prv s <> s /\ nxt s <> prv s.
Proof. intros S. cases3 s S; cbn; lia. Qed.
Lemma side_cases s t : (s < 3)%nat -> (t < 3)%nat -> t = s \/ t = nxt s \/ t = prv s.
Proof. intros S T. cases3 s S; cases3 t T; cbn; auto. Qed.
Lemma corner_cases f s v : (s < 3)%nat -> (is_corner f v <-> v = qp f s \/ v = qp f (nxt s) \/ v = qp f (prv s)).
Proof.
  intros S. split.
  - intros C. apply corner_side in C. destruct C as (t & T & <-). destruct (side_cases s t S T) as [->|[->| ->]]; auto.
  - intros [->|[->| ->]]; apply corner_at; auto using nxt_lt, prv_lt.
Qed.
Lemma nxt_inj s t : (s < 3)%nat -> (t < 3)%nat -> nxt s = nxt t -> s = t. Proof. intros S T. cases3 s S; cases3 t T; cbn; lia. Qed.
Lemma prv_inj s t : (s < 3)%nat -> (t < 3)%nat -> prv s = prv t -> s = t. Proof. intros S T. cases3 s S; cases3 t T; cbn; lia. Qed.
Lemma nxt_nxt s : (s < 3)%nat -> nxt (nxt s) = prv s. Proof. intros S. cases3 s S; reflexivity. Qed.
Lemma prv_nxt s : (s < 3)%nat -> prv (nxt s) = s. Proof. intros S. cases3 s S; reflexivity. Qed.
Lemma nxt_prv s : (s < 3)%nat -> nxt (prv s) = s. Proof. intros S. cases3 s S; reflexivity. Qed.
Lemma spanned_mono (P Q : nat -> Prop) x : (forall v, P v -> spanned Q (pt v)) -> spanned P x -> spanned Q x.
Proof.
  intros H (L & HL & C). assert (K : exists L', (forall v, List.In v L' -> Q v) /\ forall v, List.In v L -> convex_hull (map pt L') (pt v)).
  { clear C. induction L as [|v L IH]; [exists []; split; [intros _ []|intros _ []]|]. destruct IH as (L1 & A1 & B1); [intros u U; apply HL; right; exact U|]. destruct (H v (HL v (or_introl eq_refl))) as (L2 & A2 & B2).
    exists (L1 ++ L2). split; [intros u U; apply in_app_or in U; destruct U; auto|]. intros u [<-|U].
    - apply (hull_trans _ _ _ B2). intros p P'. constructor. rewrite map_app. apply in_or_app. auto.
    - apply (hull_trans _ _ _ (B1 u U)). intros p P'. constructor. rewrite map_app. apply in_or_app. auto. }
  destruct K as (L' & A & B). exists L'. split; [exact A|]. apply (hull_trans _ _ _ C). intros p P'. apply in_map_iff in P'. destruct P' as (v & <- & V). auto.
Qed.
Lemma spanned_in (P : nat -> Prop) v : P v -> spanned P (pt v).
Proof. intros H. exists [v]. split; [intros u [<-|[]]; exact H|]. constructor. cbn. auto. Qed.
Lemma spanned_beneath (P : nat -> Prop) a b c x : (forall v, P v -> vol6 a b c (pt v) <= 0) -> spanned P x -> vol6 a b c x <= 0.
Proof. intros H (L & A & C). apply (hull_beneath _ _ _ _ _ C). intros p P'. apply in_map_iff in P'. destruct P' as (v & <- & V). auto. Qed.
Lemma spanned_tetra (P : nat -> Prop) a b c d x : P a -> P b -> P c -> P d -> in_tetra (pt a) (pt b) (pt c) (pt d) x -> spanned P x.
Proof. intros A B C D T. exists [a; b; c; d]. split; [cbn; intuition congruence|]. apply (tetra_hull _ (pt a) (pt b) (pt c) (pt d)); cbn; auto. Qed.
Lemma mesh_le m fl i f x : mesh m fl -> List.In i fl -> m i = Some f -> live m fl x -> above f x <= 0.
Proof.
  intros M I E L. destruct (Nat.eq_dec x (qp f 0)) as [->|N0]; [rewrite above_corner; [lra|unfold is_corner; auto]|].
  destruct (Nat.eq_dec x (qp f 1)) as [->|N1]; [rewrite above_corner; [lra|unfold is_corner; auto]|].
  destruct (Nat.eq_dec x (qp f 2)) as [->|N2]; [rewrite above_corner; [lra|unfold is_corner; auto]|].
  apply Rlt_le, (M_sup m fl M i f x I E L). unfold is_corner. tauto.
Qed.
(** ** visible facets *)
Definition sees (m : memory) (p i : nat) : bool := match m i with Some f => Rltb 0 (above f p) | None => false end.
Hypothesis gen : generic pt N.
Hypothesis N4 : (4 <= N)%nat.
Lemma test_good f x : good f -> (x < N)%nat -> ~ is_corner f x -> fst (zQHFacetTestBeneathBeyond pt f x) = if Rltb 0 (above f x) then Beyond else Beneath.
Proof. intros G X H. apply (test_place pt N gen (f) (qp f 0) (qp f 1) (qp f 2) x N4 (good_shaped f G) (good_apart f x G X H)). Qed.
Lemma above_nz f x : good f -> (x < N)%nat -> ~ is_corner f x -> above f x <> 0.
Proof. intros G X H. apply (gen_nrm pt N gen _ _ _ _ (good_apart f x G X H)). Qed.
Lemma merge_run k m i f : m i = Some f -> (forall s, (s < 3)%nat -> qm f s = false) -> zQHMerge (S k) m i = Some (upd m i (Some (set_flags f true true))).
Proof.
  intros E H. cbn [zQHMerge]. rewrite E. cbn [obind]. rewrite upd_same. cbn [obind set_flags qm]. rewrite (H 0%nat) by lia. cbn [obind]. rewrite upd_same. cbn [obind set_flags qm]. rewrite (H 1%nat) by lia.
  cbn [obind]. rewrite upd_same. cbn [obind set_flags qm]. rewrite (H 2%nat) by lia. reflexivity.
Qed.
Lemma mark_run k p : forall r m, NoDup r -> (p < N)%nat ->
  (forall i, List.In i r -> exists f, m i = Some f /\ good f /\ ~ is_corner f p /\ (forall s, (s < 3)%nat -> qm f s = false) /\ qchk f = false) ->
  exists m', mark_visible pt (S k) p m r = Some (true, m') /\
    (forall i, ~ List.In i r -> m' i = m i) /\ (forall i f, List.In i r -> m i = Some f -> m' i = Some (if Rltb 0 (above f p) then set_flags f true true else f)).
Proof.
  induction r as [|i r IH]; intros m ND P H; cbn [mark_visible]; [exists m; split; [reflexivity|split; [reflexivity|intros _ ? []]]|].
  apply NoDup_cons_iff in ND. destruct ND as (NI & ND). destruct (H i (or_introl eq_refl)) as (f & E & G & C & M & K). rewrite E. cbn [obind]. rewrite (test_good f p G P C), K.
  destruct (Rltb 0 (above f p)) eqn:V.
  - rewrite (merge_run k m i f E M). cbn [obind]. destruct (IH (upd m i (Some (set_flags f true true))) ND P) as (m' & R1 & R2 & R3).
    { intros j J. rewrite upd_diff by (intros ->; contradiction). apply H. right. exact J. }
    exists m'. split; [exact R1|]. split.
    + intros j J. rewrite R2 by (intros K'; apply J; right; exact K'). apply upd_diff. intros ->. apply J. left. reflexivity.
    + intros j g [<-|J] Ej.
      * rewrite R2, upd_same by assumption. rewrite E in Ej. injection Ej as <-. rewrite V. reflexivity.
      * apply R3; [exact J|]. rewrite upd_diff by (intros ->; contradiction). exact Ej.
  - destruct (IH m ND P) as (m' & R1 & R2 & R3). { intros j J. apply H. right. exact J. }
    exists m'. split; [exact R1|]. split.
    + intros j J. apply R2. intros K'. apply J. right. exact K'.
    + intros j g [<-|J] Ej; [|auto]. rewrite R2 by assumption. rewrite E in Ej. injection Ej as <-. rewrite V, E. reflexivity.
Qed.
Lemma purge_run : forall r m d keep vs pl, NoDup r -> (forall i, List.In i r -> exists f, m i = Some f) ->
  exists m' d' pl', purge_visible m d r keep vs pl = Some (m', d', keep ++ filter (fun i => match m i with Some f => negb (qvis f) | None => false end) r,
      rev (filter (fun i => match m i with Some f => qvis f | None => false end) r) ++ vs, pl') /\
    (forall i, ~ List.In i r -> m' i = m i) /\ (forall i f, List.In i r -> m i = Some f -> m' i = Some (if qvis f then set_op f [] (qdmax f) else f)) /\
    (forall v, (d' v = true /\ exists i f, List.In i r /\ m i = Some f /\ qvis f = true /\ is_corner f v) \/ (d' v = d v /\ forall i f, List.In i r -> m i = Some f -> qvis f = true -> ~ is_corner f v)) /\
    (forall x, List.In x pl' <-> List.In x pl \/ exists i f, List.In i r /\ m i = Some f /\ qvis f = true /\ List.In x (qop f)) /\
    length pl' = (length pl + list_sum (map (fun i => match m i with Some f => if qvis f then length (qop f) else 0 | None => 0 end) r))%nat.
Proof.
  induction r as [|i r IH]; intros m d keep vs pl ND H; cbn [purge_visible].
  { exists m, d, pl. cbn. rewrite app_nil_r. split; [reflexivity|]. split; [reflexivity|]. split; [intros _ ? []|]. split; [intros v; right; split; [reflexivity|intros _ ? []]|]. split; [|lia]. intros x. split; [auto|intros [?|(_ & _ & [] & _)]; assumption]. }
  apply NoDup_cons_iff in ND. destruct ND as (NI & ND). destruct (H i (or_introl eq_refl)) as (f & E). rewrite E. cbn [obind]. cbn [filter map list_sum fold_right]. rewrite E. destruct (qvis f) eqn:V; cbn [negb].
  - destruct (IH (upd m i (Some (set_op f [] (qdmax f)))) (upd (upd (upd d (qp f 0) true) (qp f 1) true) (qp f 2) true) keep (i :: vs) (qop f ++ pl) ND) as (m' & d' & pl' & R1 & R2 & R3 & R4 & R5 & R6).
    { intros j J. rewrite upd_diff by (intros ->; contradiction). apply H. right. exact J. }
    assert (X : forall j, List.In j r -> upd m i (Some (set_op f [] (qdmax f))) j = m j) by (intros j J; apply upd_diff; intros ->; contradiction).
    exists m', d', pl'. split.
    { rewrite R1. f_equal. f_equal. f_equal; [f_equal|].
      - f_equal. apply filter_ext_in. intros j J. rewrite X by exact J. reflexivity.
      - cbn [rev]. rewrite <- app_assoc. cbn [app]. f_equal. f_equal. apply filter_ext_in. intros j J. rewrite X by exact J. reflexivity. }
    split; [|split; [|split; [|split]]].
    + intros j J. rewrite R2 by (intros K'; apply J; right; exact K'). apply upd_diff. intros ->. apply J. left. reflexivity.
    + intros j g [<-|J] Ej; [|rewrite <- (X j J) in Ej; auto]. rewrite R2, upd_same by assumption. rewrite E in Ej. injection Ej as <-. rewrite V. reflexivity.
    + intros v. destruct (R4 v) as [(D & j & g & J & Ej & Vg & C)|(D & C)].
      * left. split; [exact D|]. exists j, g. rewrite (X j J) in Ej. cbn. auto.
      * destruct (Nat.eq_dec v (qp f 2)) as [Y|N2]; [left; split; [rewrite D, Y; apply upd_same|exists i, f; cbn; unfold is_corner; auto 10]|]. rewrite (upd_diff _ (qp f 2) true v N2) in D.
        destruct (Nat.eq_dec v (qp f 1)) as [Y|N1]; [left; split; [rewrite D, Y; apply upd_same|exists i, f; cbn; unfold is_corner; auto 10]|]. rewrite (upd_diff _ (qp f 1) true v N1) in D.
        destruct (Nat.eq_dec v (qp f 0)) as [Y|N0]; [left; split; [rewrite D, Y; apply upd_same|exists i, f; cbn; unfold is_corner; auto 10]|]. rewrite (upd_diff _ (qp f 0) true v N0) in D.
        right. split; [exact D|]. intros j g [<-|J] Ej Vg; [rewrite E in Ej; injection Ej as <-; unfold is_corner; tauto|]. rewrite <- (X j J) in Ej. eauto.
    + intros x. rewrite R5, in_app_iff. split.
      * intros [[Q|Q]|(j & g & J & Ej & Vg & Q)]; [right; exists i, f; cbn; auto|auto|]. rewrite (X j J) in Ej. right. exists j, g. cbn. auto.
      * intros [Q|(j & g & [<-|J] & Ej & Vg & Q)]; [auto|rewrite E in Ej; injection Ej as <-; auto|]. rewrite <- (X j J) in Ej. right. exists j, g. auto.
    + rewrite R6, app_length. assert (Y : map (fun j => match upd m i (Some (set_op f [] (qdmax f))) j with Some f => if qvis f then length (qop f) else 0%nat | None => 0%nat end) r = map (fun j => match m j with Some f => if qvis f then length (qop f) else 0%nat | None => 0%nat end) r).
      { apply map_ext_in. intros j J. rewrite (X j J). reflexivity. } rewrite Y. unfold list_sum. lia.
  - destruct (IH m d (keep ++ [i]) vs pl ND) as (m' & d' & pl' & R1 & R2 & R3 & R4 & R5 & R6). { intros j J. apply H. right. exact J. }
    exists m', d', pl'. split; [rewrite R1, <- app_assoc; reflexivity|]. split; [|split; [|split; [|split]]].
    + intros j J. apply R2. intros K'. apply J. right. exact K'.
    + intros j g [<-|J] Ej; [|auto]. rewrite R2 by assumption. rewrite E in Ej. injection Ej as <-. rewrite V, E. reflexivity.
    + intros v. destruct (R4 v) as [(D & j & g & J & Ej & Vg & C)|(D & C)]; [left; split; [exact D|exists j, g; cbn; auto]|right; split; [exact D|]].
      intros j g [<-|J] Ej Vg; [rewrite E in Ej; injection Ej as <-; congruence|eauto].
    + intros x. rewrite R5. split; [intros [Q|(j & g & J & Q)]; [auto|right; exists j, g; cbn; tauto]|]. intros [Q|(j & g & [<-|J] & Ej & Vg & Q)]; [auto|rewrite E in Ej; injection Ej as <-; congruence|right; exists j, g; auto].
    + rewrite R6. unfold list_sum. lia.
Qed.
End State.
