(** Quickhull: assignment of points, sides of facets, existence of a horizon. *)
From Verif Require Export FactsQH3.
From Verif Require FactsPH FactsHull.
From Coq Require Import Lra Lia List Permutation Arith Bool.
Import ListNotations.
Open Scope R_scope.

Section Assign.
Variables (pt : nat -> vec3) (N : nat).
Hypothesis gen : generic pt N.
Hypothesis N4 : (4 <= N)%nat.
(** everything but the outside set *)
Definition alike_facet (f f' : qfacet) : Prop := qp f' = qp f /\ qc f' = qc f /\ qm f' = qm f /\ qn f' = qn f /\ qvis f' = qvis f /\ qchk f' = qchk f.
Lemma test_own f : fst (zQHFacetTestBeneathBeyond pt f (qp f 0)) = On.
Proof. unfold zQHFacetTestBeneathBeyond. rewrite FactsHull.tiny_self. reflexivity. Qed.
Lemma assign_one : forall pl f, good pt N f -> (forall x, List.In x pl -> (x < N)%nat /\ (~ is_corner f x \/ x = qp f 0)) ->
  exists f' r, assign_facet pt f pl = (f', r) /\ alike_facet f f' /\ (length (qop f') + length r <= length (qop f) + length pl)%nat /\
    (forall x, List.In x r -> List.In x pl) /\ (forall x, List.In x (qop f') <-> List.In x (qop f) \/ List.In x pl /\ 0 < above pt f x) /\
    (forall x, List.In x pl -> x = qp f 0 \/ 0 < above pt f x \/ above pt f x < 0 /\ List.In x r).
Proof.
  induction pl as [|p pl IH]; intros f G H; cbn [assign_facet].
  { exists f, []. split; [reflexivity|]. split; [repeat split|]. split; [cbn; lia|]. split; [intros x []|]. split; [intros x; cbn; intuition|intros x []]. }
  assert (H' : forall x, List.In x pl -> (x < N)%nat /\ (~ is_corner f x \/ x = qp f 0)) by (intros x X; apply H; right; exact X).
  destruct (H p (or_introl eq_refl)) as (P & C). pose proof (test_own f) as TO. destruct (zQHFacetTestBeneathBeyond pt f p) as [w e] eqn:T.
  destruct C as [C| ->]; [|rewrite T in TO; cbn in TO; subst w].
  2: { destruct (IH f G H') as (f' & r & E & A & L & R1 & R2 & R3). rewrite E. exists f', r. split; [reflexivity|]. split; [exact A|]. split; [cbn; lia|]. split; [intros x X; right; auto|]. split.
    - intros x. rewrite R2. cbn. split; [tauto|]. intros [Q|([Q|Q] & Q')]; auto. subst x. rewrite above_corner in Q' by (unfold is_corner; auto). lra.
    - intros x [<-|X]; [auto|]. auto. }
  clear TO. pose proof (test_good pt N gen N4 f p G P C) as TG. rewrite T in TG. cbn [fst] in TG. pose proof (above_nz pt N gen f p G P C) as NZ. destruct (Rltb_reflect 0 (above pt f p)) as [V|V]; subst w.
  - set (f1 := if Rltb (qdmax f) (zVec3DInnerProd (qn f) e) then _ else _).
    assert (A1 : alike_facet f f1 /\ length (qop f1) = Datatypes.S (length (qop f)) /\ forall x, List.In x (qop f1) <-> x = p \/ List.In x (qop f)).
    { unfold f1. destruct (Rltb (qdmax f) (zVec3DInnerProd (qn f) e)); cbn [set_op qop]; (split; [repeat split|]); split; try (rewrite app_length; cbn; lia); try reflexivity.
      - intros x. rewrite in_app_iff. cbn. intuition.
      - intros x. cbn. intuition. }
    destruct A1 as ((Q1 & Q2 & Q3 & Q4 & Q5 & Q6) & LL & IO). clearbody f1.
    assert (AB : forall x, above pt f1 x = above pt f x) by (intros x; unfold above; rewrite Q1; reflexivity).
    destruct (IH f1) as (f' & r & E & (A1 & A2 & A3 & A4 & A5 & A6) & L & R1 & R2 & R3).
    { unfold good in *. rewrite Q1, Q4. exact G. } { intros x X. unfold is_corner. rewrite Q1. apply H'. exact X. }
    rewrite E. exists f', r. split; [reflexivity|]. split; [repeat split; congruence|]. split; [cbn; lia|]. split; [intros x X; right; auto|]. split.
    + intros x. rewrite R2, IO, AB. cbn. split; [intros [[->|Q]|Q]; auto; tauto|]. intros [Q|([Q|Q] & Q')]; auto.
    + intros x [<-|X]; [auto|]. specialize (R3 x X). rewrite AB, Q1 in R3. exact R3.
  - destruct (IH f G H') as (f' & r & E & A & L & R1 & R2 & R3). rewrite E. exists f', (p :: r). split; [reflexivity|]. split; [exact A|]. split; [cbn; lia|]. split; [intros x [<-|X]; [left; reflexivity|right; auto]|]. split.
    + intros x. rewrite R2. cbn. split; [tauto|]. intros [Q|([Q|Q] & Q')]; auto. subst x. lra.
    + intros x [<-|X]; [right; right; split; [lra|left; reflexivity]|]. destruct (R3 x X) as [Q|[Q|(Q & Q')]]; auto. right. right. split; [exact Q|right; exact Q'].
Qed.
Lemma assign_all : forall fl m pl, NoDup fl -> (forall i, List.In i fl -> exists f, m i = Some f /\ good pt N f) ->
  (forall i f x, List.In i fl -> m i = Some f -> List.In x pl -> (x < N)%nat /\ (~ is_corner f x \/ x = qp f 0)) ->
  exists m', zQHFacetAssign pt m fl pl = Some m' /\ (forall i, ~ List.In i fl -> m' i = m i) /\
    (forall i f, List.In i fl -> m i = Some f -> exists f', m' i = Some f' /\ alike_facet f f' /\ (forall x, List.In x (qop f') -> List.In x (qop f) \/ List.In x pl /\ 0 < above pt f x)) /\
    (forall x, List.In x pl -> (exists i f, List.In i fl /\ m i = Some f /\ x = qp f 0) \/ (exists i f', List.In i fl /\ m' i = Some f' /\ List.In x (qop f')) \/ forall i f, List.In i fl -> m i = Some f -> above pt f x < 0) /\
    (total m' fl <= total m fl + length pl)%nat.
Proof.
  induction fl as [|i fl IH]; intros m pl ND G H; cbn [zQHFacetAssign].
  { exists m. split; [reflexivity|]. split; [reflexivity|]. split; [intros ? ? []|]. split; [intros x X; right; right; intros ? ? []|unfold total; cbn; lia]. }
  apply NoDup_cons_iff in ND. destruct ND as (NI & ND). destruct (G i (or_introl eq_refl)) as (f & E & Gf). rewrite E. cbn [obind].
  destruct (assign_one pl f Gf (fun x X => H i f x (or_introl eq_refl) E X)) as (f1 & r & E1 & A & L & R1 & R2 & R3). rewrite E1.
  assert (X : forall j, List.In j fl -> upd m i (Some f1) j = m j) by (intros j J; apply upd_diff; intros ->; contradiction).
  destruct (IH (upd m i (Some f1)) r ND) as (m' & E' & S1 & S2 & S3 & S4).
  { intros j J. rewrite (X j J). apply G. right. exact J. } { intros j g x J Ej Y. rewrite (X j J) in Ej. apply (H j g x (or_intror J) Ej). auto. }
  exists m'. split; [exact E'|]. split; [|split; [|split]].
  - intros j J. rewrite S1 by (intros K; apply J; right; exact K). apply upd_diff. intros ->. apply J. left. reflexivity.
  - intros j g [<-|J] Ej.
    + rewrite E in Ej. injection Ej as <-. exists f1. split; [rewrite S1, upd_same by assumption; reflexivity|]. split; [exact A|]. intros x Q. apply R2 in Q. exact Q.
    + rewrite <- (X j J) in Ej. destruct (S2 j g J Ej) as (g' & Eg & Ag & Og). exists g'. split; [exact Eg|]. split; [exact Ag|]. intros x Q. destruct (Og x Q) as [?|(? & ?)]; auto.
  - intros x Y. destruct (R3 x Y) as [Q|[Q|(Q & Q')]].
    + left. exists i, f. cbn. auto.
    + right. left. exists i, f1. split; [left; reflexivity|]. split; [rewrite S1, upd_same by assumption; reflexivity|]. apply R2. auto.
    + destruct (S3 x Q') as [(j & g & J & Ej & Z)|[(j & g & J & Ej & Z)|Z]].
      * left. rewrite (X j J) in Ej. exists j, g. cbn. auto.
      * right. left. exists j, g. cbn. auto.
      * right. right. intros j g [<-|J] Ej; [rewrite E in Ej; injection Ej as <-; exact Q|]. apply (Z j g J). rewrite (X j J). exact Ej.
  - unfold total in *. cbn [map list_sum fold_right]. rewrite S1, upd_same by assumption. rewrite E. fold (list_sum (map (fun i => match m' i with Some f => length (qop f) | None => 0%nat end) fl)). fold (list_sum (map (fun i => match m i with Some f => length (qop f) | None => 0%nat end) fl)).
    assert (Y : map (fun j => match upd m i (Some f1) j with Some f => length (qop f) | None => 0%nat end) fl = map (fun j => match m j with Some f => length (qop f) | None => 0%nat end) fl) by (apply map_ext_in; intros j J; rewrite (X j J); reflexivity).
    rewrite Y in S4. lia.
Qed.
End Assign.

Lemma nodup_map_in {A B} (h : A -> B) l : (forall x y, List.In x l -> List.In y l -> h x = h y -> x = y) -> NoDup l -> NoDup (map h l).
Proof.
  induction l as [|a l IH]; intros H ND; cbn; [constructor|]. apply NoDup_cons_iff in ND. destruct ND as (NI & ND). constructor.
  - intros Q. apply in_map_iff in Q. destruct Q as (b & E & B'). assert (b = a) by (apply H; cbn; auto). subst. contradiction.
  - apply IH; [|exact ND]. intros x y X Y. apply H; right; assumption.
Qed.
Section Sides.
Variables (pt : nat -> vec3) (N : nat).
Variables (m : memory) (fl : list nat).
Hypothesis M : mesh pt N m fl.
Lemma mesh_get i f : List.In i fl -> m i = Some f -> good pt N f /\ forall s, (s < 3)%nat -> qm f s = false.
Proof. intros I E. destruct (M_good _ _ _ _ M i I) as (f' & E' & G). rewrite E in E'. injection E' as <-. exact G. Qed.
Lemma facing_sym i s f j t g : List.In i fl -> m i = Some f -> (s < 3)%nat -> List.In j fl -> m j = Some g -> (t < 3)%nat -> facing i s f j t g -> facing j t g i s f.
Proof.
  intros I E S J E' T (A & B & C & D & F). repeat split; auto. intros K. apply (corner_cases g t) in K; [|exact T]. destruct (mesh_get i f I E) as (G & _).
  destruct K as [K|[K|K]].
  - apply F. rewrite <- K. apply corner_at. exact S.
  - rewrite C in K. apply (good_inj pt N f s (prv s) G S (prv_lt s)) in K. pose proof (nxt_ne s S). lia.
  - rewrite D in K. apply (good_inj pt N f s (nxt s) G S (nxt_lt s)) in K. pose proof (nxt_ne s S). lia.
Qed.
Lemma contig_mesh i s f j t g : List.In i fl -> m i = Some f -> (s < 3)%nat -> List.In j fl -> m j = Some g -> (t < 3)%nat -> facing i s f j t g ->
  forall t', (t' < 3)%nat -> t' <> t -> qc g t' <> Some i.
Proof.
  intros I E S J E' T (A & B & C & D & F) t' T' NE Q. destruct (M_adj _ _ _ _ M j g t' J E' T') as (i' & s' & f' & I' & S' & Ei & (A' & B' & C' & D' & F')).
  rewrite Q in A'. injection A' as <-. rewrite E in Ei. injection Ei as <-. apply F.
  destruct (side_cases t' t T' T) as [K|[K|K]]; [congruence| |]; rewrite K; [rewrite <- D'|rewrite <- C']; apply corner_at; [apply prv_lt|apply nxt_lt].
Qed.
Lemma facing_fun i s f j t g j' t' g' : List.In i fl -> m i = Some f -> (s < 3)%nat -> m j = Some g -> m j' = Some g' -> (t < 3)%nat -> (t' < 3)%nat -> List.In j fl ->
  facing i s f j t g -> facing i s f j' t' g' -> j = j' /\ t = t' /\ g = g'.
Proof.
  intros I E S Ej Ej' T T' J F F'. pose proof (proj1 F) as Q. rewrite (proj1 F') in Q. injection Q as ->. rewrite Ej in Ej'. injection Ej' as <-. repeat split; auto.
  destruct (Nat.eq_dec t' t) as [?|NE]; [congruence|]. exfalso. apply (contig_mesh i s f j t g I E S J Ej T F t' T' NE). apply F'.
Qed.
(** a dart: a facet with one of its sides *)
Definition dsrc (d : nat * nat) : nat := match m (fst d) with Some f => qp f (nxt (snd d)) | None => 0%nat end.
Definition ddst (d : nat * nat) : nat := match m (fst d) with Some f => qp f (prv (snd d)) | None => 0%nat end.
Definition mate (d : nat * nat) : nat * nat :=
  match m (fst d) with
  | Some f => match qc f (snd d), zQHFacetContigID m (fst d) (snd d) with Some j, Some (Some t) => (j, t) | _, _ => d end
  | None => d
  end.
Lemma mate_spec i s f : List.In i fl -> m i = Some f -> (s < 3)%nat -> exists j t g, mate (i, s) = (j, t) /\ List.In j fl /\ m j = Some g /\ (t < 3)%nat /\ facing i s f j t g.
Proof.
  intros I E S. destruct (M_adj _ _ _ _ M i f s I E S) as (j & t & g & J & T & Ej & F). exists j, t, g. split; [|auto].
  unfold mate. cbn [fst snd]. rewrite E. rewrite (proj1 F). rewrite (contig_run m i s f j g t E (proj1 F) Ej T (proj1 (proj2 F)) (contig_mesh i s f j t g I E S J Ej T F)). reflexivity.
Qed.
Lemma mate_mate i s f : List.In i fl -> m i = Some f -> (s < 3)%nat -> mate (mate (i, s)) = (i, s).
Proof.
  intros I E S. destruct (mate_spec i s f I E S) as (j & t & g & -> & J & Ej & T & F). destruct (mate_spec j t g J Ej T) as (i' & s' & f' & -> & I' & Ei & S' & F').
  pose proof (facing_sym _ _ _ _ _ _ I E S J Ej T F) as F''. destruct (facing_fun j t g i' s' f' i s f J Ej T Ei E S' S I' F' F'') as (-> & -> & _). reflexivity.
Qed.
Definition darts (l : list nat) : list (nat * nat) := flat_map (fun i => [(i, 0%nat); (i, 1%nat); (i, 2%nat)]) l.
Lemma in_darts l i s : List.In (i, s) (darts l) <-> List.In i l /\ (s < 3)%nat.
Proof.
  unfold darts. rewrite in_flat_map. split.
  - intros (j & J & K). cbn in K. destruct K as [K|[K|[K|[]]]]; injection K as <- <-; split; auto; lia.
  - intros (I & S). exists i. split; [exact I|]. cases3 s S; cbn; auto.
Qed.
Lemma nodup_darts l : NoDup l -> NoDup (darts l).
Proof.
  induction 1 as [|i l NI ND IH]; cbn; [constructor|]. assert (K : forall s, ~ List.In (i, s) (darts l)) by (intros s Q; apply in_darts in Q; tauto). fold (darts l).
  repeat constructor; cbn; try exact IH; intros Q; repeat (destruct Q as [Q|Q]; [congruence|]); apply (K _ Q).
Qed.
Lemma length_darts l : length (darts l) = (3 * length l)%nat.
Proof. induction l as [|i l IH]; cbn; [reflexivity|]. fold (darts l). rewrite IH. lia. Qed.
(** a set of facets closed under contiguity has no point beyond all of them *)
Lemma no_closed_cap vs p q : NoDup vs -> incl vs fl -> vs <> [] ->
  (forall i f s j g, List.In i vs -> m i = Some f -> (s < 3)%nat -> qc f s = Some j -> m j = Some g -> List.In j vs) ->
  (forall i f, List.In i vs -> m i = Some f -> 0 < above pt f p) -> (forall i f, List.In i vs -> m i = Some f -> above pt f q <= 0) -> False.
Proof.
  intros ND IC NE CL HP HQ. set (w := vsub (pt p) (pt q)).
  set (h := fun d : nat * nat => dot (cross (pt (dsrc d)) (pt (ddst d))) w).
  assert (MV : forall d, List.In d (darts vs) -> List.In (mate d) (darts vs) /\ mate (mate d) = d /\ h (mate d) = - h d).
  { intros [i s] D. apply in_darts in D. destruct D as (I & S). destruct (M_good _ _ _ _ M i (IC i I)) as (f & E & _).
    pose proof (mate_mate i s f (IC i I) E S) as MM. destruct (mate_spec i s f (IC i I) E S) as (j & t & g & Em & J & Ej & T & F). rewrite Em in *. split; [|split; [exact MM|]].
    - apply in_darts. split; [|exact T]. apply (CL i f s j g I E S (proj1 F) Ej).
    - unfold h, dsrc, ddst. cbn [fst snd]. rewrite E, Ej. destruct F as (_ & _ & F1 & F2 & _). rewrite F1, F2. unfold w. clear. spec_unfold. ring. }
  assert (PM : Permutation (map mate (darts vs)) (darts vs)).
  { apply NoDup_Permutation.
    - apply nodup_map_in; [|apply nodup_darts; exact ND]. intros a b A B Eab. destruct (MV a A) as (_ & Ea & _), (MV b B) as (_ & Eb & _). rewrite <- Ea, <- Eb, Eab. reflexivity.
    - apply nodup_darts. exact ND.
    - intros d. rewrite in_map_iff. split; [intros (a & <- & A); apply (MV a A)|]. intros D. exists (mate d). destruct (MV d D) as (A & B & _). auto. }
  assert (Z : rsum h (darts vs) = 0).
  { pose proof (FactsPH.rsum_perm h _ _ PM) as Q. rewrite FactsPH.rsum_map in Q. rewrite (FactsPH.rsum_ext (fun a => h (mate a)) (fun a => -1 * h a)) in Q by (intros a A; rewrite (proj2 (proj2 (MV a A))); ring). rewrite FactsPH.rsum_scale in Q. lra. }
  unfold darts in Z. rewrite FactsPH.rsum_flat in Z.
  assert (K : forall l, incl l vs -> 0 <= rsum (fun i => rsum h [(i, 0%nat); (i, 1%nat); (i, 2%nat)]) l /\ (l <> [] -> 0 < rsum (fun i => rsum h [(i, 0%nat); (i, 1%nat); (i, 2%nat)]) l)).
  { induction l as [|i l IH]; intros L; [split; [cbn; lra|congruence]|]. rewrite FactsPH.rsum_cons. destruct IH as (IH & _); [intros x X; apply L; right; exact X|].
    assert (I : List.In i vs) by (apply L; left; reflexivity). destruct (M_good _ _ _ _ M i (IC i I)) as (f & E & _). specialize (HP i f I E). specialize (HQ i f I E).
    assert (V : rsum h [(i, 0%nat); (i, 1%nat); (i, 2%nat)] = above pt f p - above pt f q).
    { unfold rsum. cbn [fold_right]. unfold h, dsrc, ddst. cbn [fst snd]. rewrite E. change (nxt 0) with 1%nat; change (prv 0) with 2%nat; change (nxt 1) with 2%nat; change (prv 1) with 0%nat; change (nxt 2) with 0%nat; change (prv 2) with 1%nat.
      unfold above, ori, vol6, w. generalize (pt (qp f 0)) (pt (qp f 1)) (pt (qp f 2)) (pt p) (pt q). clear. intros. spec_unfold. ring. }
    rewrite V. split; intros; lra. }
  destruct (K vs (incl_refl vs)) as (_ & K'). specialize (K' NE). lra.
Qed.
End Sides.
