(** Quickhull: the cone of new facets over the horizon. *)
From Verif Require Export FactsQH4.
From Coq Require Import Lra Lia List Permutation Arith Bool.
Import ListNotations.
Open Scope R_scope.

Lemma tetra_flat p a u v x c0 c1 c2 : in_tetra p a u v x -> vol6 c0 c1 c2 p < 0 -> vol6 c0 c1 c2 a <= 0 -> vol6 c0 c1 c2 u <= 0 -> vol6 c0 c1 c2 v <= 0 -> vol6 c0 c1 c2 x = 0 -> vol6 a u v x = 0.
Proof.
  intros (w0 & w1 & w2 & w3 & (P0 & P1 & P2 & P3 & S) & ->) Hp Ha Hu Hv Hx.
  assert (E : vol6 c0 c1 c2 (comb4 w0 w1 w2 w3 p a u v) = w0 * vol6 c0 c1 c2 p + w1 * vol6 c0 c1 c2 a + w2 * vol6 c0 c1 c2 u + w3 * vol6 c0 c1 c2 v).
  { replace w0 with (1 - w1 - w2 - w3) by lra. clear. unfold vol6, comb4, comb3, comb2. spec_unfold. ring. }
  rewrite Hx in E. set (hp := vol6 c0 c1 c2 p) in *. set (ha := vol6 c0 c1 c2 a) in *. set (hu := vol6 c0 c1 c2 u) in *. set (hv := vol6 c0 c1 c2 v) in *.
  assert (Z : w0 = 0). { assert (0 <= w1 * - ha) by (apply Rmult_le_pos; lra). assert (0 <= w2 * - hu) by (apply Rmult_le_pos; lra). assert (0 <= w3 * - hv) by (apply Rmult_le_pos; lra). assert (K : w0 * - hp <= 0) by lra. destruct (Rle_lt_or_eq_dec 0 w0 P0) as [Q|Q]; [|auto]. exfalso. assert (0 < w0 * - hp) by (apply Rmult_lt_0_compat; lra). lra. }
  subst w0. replace w1 with (1 - w2 - w3) by lra. clear. unfold vol6, comb4, comb3, comb2. spec_unfold. ring.
Qed.
Lemma nodup_join {A} (l r : list A) : NoDup l -> NoDup r -> (forall x, List.In x l -> List.In x r -> False) -> NoDup (l ++ r).
Proof.
  induction l as [|a l IH]; intros L R H; [exact R|]. apply NoDup_cons_iff in L. destruct L as (NI & L). cbn. constructor.
  - intros Q. apply in_app_or in Q. destruct Q as [Q|Q]; [contradiction|]. apply (H a); cbn; auto.
  - apply IH; auto. intros x X. apply H. right. exact X.
Qed.
Lemma NoDup_app_comm_one {A} (l : list A) x : NoDup l -> ~ List.In x l -> NoDup (l ++ [x]).
Proof. intros H K. apply (Permutation_NoDup (l := x :: l)); [apply Permutation_cons_append|constructor; assumption]. Qed.
Section Walk.
Variables (pt : nat -> vec3) (N : nat).
Hypothesis gen : generic pt N.
Hypothesis N4 : (4 <= N)%nat.
Variables (m1 : memory) (fl vs : list nat) (n0 p : nat) (d1 : nat -> bool).
Hypothesis M : mesh pt N m1 fl.
Hypothesis Hn0 : forall i, List.In i fl -> (i < n0)%nat.
Hypothesis Hp : (p < N)%nat.
Hypothesis Hpl : ~ live m1 fl p.
Hypothesis Hvs : forall i, List.In i vs <-> List.In i fl /\ exists f, m1 i = Some f /\ qvis f = true.
Hypothesis Hvis : forall i f, List.In i fl -> m1 i = Some f -> qvis f = Rltb 0 (above pt f p).
Notation o := (ori pt).
Notation src := (dsrc m1).
Notation dst := (ddst m1).
Notation mt := (mate m1).
Notation lv := (live m1 fl).

Lemma vs_fl i : List.In i vs -> List.In i fl. Proof. intros I. apply Hvs in I. tauto. Qed.
Lemma fl_get i : List.In i fl -> exists f, m1 i = Some f /\ good pt N f /\ (forall s, (s < 3)%nat -> qm f s = false) /\ ~ is_corner f p.
Proof. intros I. destruct (M_good _ _ _ _ M i I) as (f & E & G & Q). exists f. split; [exact E|]. split; [exact G|]. split; [exact Q|]. intros C. apply Hpl. exists i, f. auto. Qed.
Lemma vs_vis i f : List.In i vs -> m1 i = Some f -> qvis f = true /\ 0 < above pt f p.
Proof. intros I E. pose proof (vs_fl i I) as I'. apply Hvs in I. destruct I as (_ & g & Eg & V). rewrite E in Eg. injection Eg as <-. split; [exact V|]. rewrite (Hvis i f I' E) in V. destruct (Rltb_reflect 0 (above pt f p)); [assumption|discriminate]. Qed.
Lemma not_vs i f : List.In i fl -> m1 i = Some f -> ~ List.In i vs -> qvis f = false /\ above pt f p < 0.
Proof.
  intros I E H. destruct (qvis f) eqn:V. { exfalso. apply H, Hvs. split; [exact I|]. exists f. auto. }
  split; [reflexivity|]. rewrite (Hvis i f I E) in V. destruct (fl_get i I) as (g & Eg & G & _ & C). rewrite E in Eg. injection Eg as <-.
  pose proof (above_nz pt N gen f p G Hp C). destruct (Rltb_reflect 0 (above pt f p)); [discriminate|lra].
Qed.
Lemma vis_vs i f : List.In i fl -> m1 i = Some f -> (qvis f = true <-> List.In i vs).
Proof. intros I E. rewrite Hvs. split; [intros V; split; [exact I|exists f; auto]|]. intros (_ & g & Eg & V). congruence. Qed.
Definition ridge (d : nat * nat) : Prop := List.In (fst d) vs /\ (snd d < 3)%nat /\ ~ List.In (fst (mt d)) vs.
Definition Hz (a b : nat) : Prop := exists d, ridge d /\ a = src d /\ b = dst d.
Lemma src_get i s f : m1 i = Some f -> src (i, s) = qp f (nxt s). Proof. intros E. unfold dsrc. cbn [fst snd]. rewrite E. reflexivity. Qed.
Lemma dst_get i s f : m1 i = Some f -> dst (i, s) = qp f (prv s). Proof. intros E. unfold ddst. cbn [fst snd]. rewrite E. reflexivity. Qed.
(** a ridge with its two facets *)
Lemma ridge_get d : ridge d -> exists f j t g, m1 (fst d) = Some f /\ good pt N f /\ mt d = (j, t) /\ List.In j fl /\ ~ List.In j vs /\ m1 j = Some g /\ good pt N g /\ (t < 3)%nat /\
  facing (fst d) (snd d) f j t g /\ src d = qp f (nxt (snd d)) /\ dst d = qp f (prv (snd d)) /\ 0 < above pt f p /\ above pt g p < 0.
Proof.
  destruct d as [i s]. intros (I & S & NV). cbn [fst snd] in *. pose proof (vs_fl i I) as I'. destruct (fl_get i I') as (f & E & G & _). destruct (mate_spec pt N m1 fl M i s f I' E S) as (j & t & g & Em & J & Ej & T & F).
  rewrite Em in NV. cbn [fst] in NV. destruct (fl_get j J) as (g' & Eg & Gg & _). rewrite Ej in Eg. injection Eg as <-.
  exists f, j, t, g. rewrite (src_get i s f E), (dst_get i s f E). destruct (vs_vis i f I E) as (_ & A). destruct (not_vs j g J Ej NV) as (_ & B).
  split; [exact E|]. split; [exact G|]. split; [exact Em|]. split; [exact J|]. split; [exact NV|]. split; [exact Ej|]. split; [exact Gg|]. split; [exact T|]. split; [exact F|]. auto.
Qed.
Lemma hz_live a b : Hz a b -> lv a /\ lv b /\ a <> b.
Proof.
  intros (d & R & -> & ->). destruct (ridge_get d R) as (f & j & t & g & E & G & _ & _ & _ & _ & _ & _ & _ & -> & -> & _). destruct R as (I & S & _). apply vs_fl in I.
  split; [exists (fst d), f; split; [exact I|split; [exact E|apply corner_at, nxt_lt]]|]. split; [exists (fst d), f; split; [exact I|split; [exact E|apply corner_at, prv_lt]]|].
  intros Q. apply (good_inj pt N f _ _ G (nxt_lt _) (prv_lt _)) in Q. pose proof (nxt_ne _ S). tauto.
Qed.
Lemma hz_sup a b x : Hz a b -> lv x -> x <> a -> x <> b -> o p a b x < 0.
Proof.
  intros (d & R & -> & ->) LX XA XB. destruct (ridge_get d R) as (f & j & t & g & E & G & Em & J & NV & Ej & Gg & T & F & Es & Ed & A & B). destruct R as (I & S & _). apply vs_fl in I. rewrite Es, Ed in *.
  pose proof (facing_sym pt N m1 fl M _ _ _ _ _ _ I E S J Ej T F) as F'. destruct F as (_ & _ & F1 & F2 & F3). destruct F' as (_ & _ & _ & _ & F3').
  rewrite (above_side pt f (snd d) p S) in A. rewrite (above_side pt g t p T), F1, F2 in B.
  assert (LD : lv (qp g t)) by (exists j, g; split; [exact J|split; [exact Ej|apply corner_at; exact T]]).
  pose proof (M_sup _ _ _ _ M _ f (qp g t) I E LD F3) as C. rewrite (above_side pt f (snd d) _ S) in C.
  pose proof (mesh_le pt N m1 fl _ f x M I E LX) as C1. pose proof (mesh_le pt N m1 fl _ g x M J Ej LX) as C2.
  assert (C3 : above pt f x < 0 \/ above pt g x < 0).
  { destruct (Nat.eq_dec x (qp f (snd d))) as [Q|Q].
    - right. apply (M_sup _ _ _ _ M j g x J Ej LX). rewrite Q. exact F3'.
    - left. apply (M_sup _ _ _ _ M _ f x I E LX). intros K. apply (corner_cases f (snd d)) in K; [|exact S]. tauto. }
  rewrite (above_side pt f (snd d) _ S) in C1, C3. rewrite (above_side pt g t _ T), F1, F2 in C2, C3.
  unfold ori in *. apply (new_face _ _ _ _ _ _ C A B C1 C2 C3).
Qed.
Lemma hz_no_back a b : Hz a b -> Hz b a -> False.
Proof.
  intros H H'. pose proof H as H0. destruct H0 as (d & R & Ea & Eb). destruct (ridge_get d R) as (f & j & t & g & E & G & _ & _ & _ & _ & _ & _ & _ & Es & Ed & _). destruct R as (I & S & _). apply vs_fl in I.
  assert (LC : lv (qp f (snd d))) by (exists (fst d), f; split; [exact I|split; [exact E|apply corner_at; exact S]]). pose proof (nxt_ne _ S) as NE.
  assert (CA : qp f (snd d) <> a). { rewrite Ea, Es. intros Q. apply (good_inj pt N f _ _ G S (nxt_lt _)) in Q. lia. }
  assert (CB : qp f (snd d) <> b). { rewrite Eb, Ed. intros Q. apply (good_inj pt N f _ _ G S (prv_lt _)) in Q. lia. }
  pose proof (hz_sup a b _ H LC CA CB) as K. pose proof (hz_sup b a _ H' LC CB CA) as K'. rewrite o_swap23 in K'. lra.
Qed.
Lemma lv_lt v : lv v -> (v < N)%nat /\ v <> p.
Proof. intros L. split; [|intros ->; contradiction]. destruct L as (i & f & I & E & C). destruct (fl_get i I) as (g & Eg & G & _). rewrite E in Eg. injection Eg as <-. apply (good_lt pt N f v G C). Qed.
Lemma hz_apart a b x : Hz a b -> lv x -> x <> a -> x <> b -> apart4 N p a b x.
Proof.
  intros H LX XA XB. destruct (hz_live a b H) as (LA & LB & AB). destruct (lv_lt a LA), (lv_lt b LB), (lv_lt x LX). unfold apart4. repeat split; auto.
Qed.
Lemma mt_inj d e : ridge d -> ridge e -> mt d = mt e -> d = e.
Proof.
  intros (I & S & _) (I' & S' & _) Q. destruct d as [i s], e as [i' s']. cbn [fst snd] in *. apply vs_fl in I, I'. destruct (fl_get i I) as (f & E & _), (fl_get i' I') as (f' & E' & _).
  rewrite <- (mate_mate pt N m1 fl M i s f I E S), <- (mate_mate pt N m1 fl M i' s' f' I' E' S'), Q. reflexivity.
Qed.
(** ** the memory during the walk: E lists the ridges passed, L tells which new facets are bound *)
Definition kept (m : memory) (E : list (nat * nat)) : Prop := forall j g, List.In j fl -> ~ List.In j vs -> m1 j = Some g -> exists g', m j = Some g' /\
  qp g' = qp g /\ qn g' = qn g /\ qop g' = qop g /\ qvis g' = qvis g /\ qchk g' = qchk g /\ (forall t, (t < 3)%nat -> qm g' t = false) /\
  forall t, (t < 3)%nat -> (forall e d, nth_error E e = Some d -> mt d = (j, t) -> qc g' t = Some (n0 + e)%nat) /\ ((forall d, List.In d E -> mt d <> (j, t)) -> qc g' t = qc g t).
Definition coned (m : memory) (E : list (nat * nat)) (L : nat -> nat -> Prop) : Prop := forall e d, nth_error E e = Some d -> exists f, m (n0 + e)%nat = Some f /\
  qp f 0 = p /\ qp f 1 = src d /\ qp f 2 = dst d /\ good pt N f /\ qop f = [] /\ qvis f = false /\ qchk f = false /\ (forall s, (s < 3)%nat -> qm f s = false) /\
  qc f 0 = Some (fst (mt d)) /\ (forall j, L e j -> qc f 1 = Some (n0 + j)%nat) /\ (forall j, L j e -> qc f 2 = Some (n0 + j)%nat).
Definition wmem (m : memory) (E : list (nat * nat)) (L : nat -> nat -> Prop) : Prop := (forall i, List.In i vs -> m i = m1 i) /\ kept m E /\ coned m E L.
Definition disc (d : nat -> bool) (E : list (nat * nat)) : Prop := forall v, (List.In v (map src E ++ map dst E) -> d v = false) /\ (~ List.In v (map src E ++ map dst E) -> d v = d1 v).
Lemma nth_lt {A} (l : list A) e d : nth_error l e = Some d -> (e < length l)%nat. Proof. intros H. apply nth_error_Some. congruence. Qed.

Lemma hz_flag0 d f g j t : ridge d -> mt d = (j, t) -> qp f 1 = src d -> qp f 2 = dst d -> qp f 0 = p -> good pt N f -> (exists g0, m1 j = Some g0 /\ qp g = qp g0 /\ qn g = qn g0) -> merge_flag pt f g 0 = false.
Proof.
  intros R Em E1 E2 E0 G (g0 & Eg & Qp & Qn). destruct (ridge_get d R) as (f1 & j' & t' & g1 & _ & _ & Em' & J & _ & Ej & Gg & T & F & Es & Ed & _). rewrite Em in Em'. injection Em' as <- <-. rewrite Eg in Ej. injection Ej as <-.
  assert (H : Hz (src d) (dst d)) by (exists d; auto). destruct F as (_ & _ & F1 & F2 & F3).
  assert (LD : lv (qp g0 t)) by (exists j, g0; split; [exact J|split; [exact Eg|apply corner_at; exact T]]).
  assert (X1 : qp g0 t <> src d). { rewrite Es. intros Q. apply F3. rewrite Q. apply corner_at, nxt_lt. }
  assert (X2 : qp g0 t <> dst d). { rewrite Ed. intros Q. apply F3. rewrite Q. apply corner_at, prv_lt. }
  apply (no_merge pt N gen f g 0 (src d) (dst d) p (qp g0 t)).
  - rewrite (normal_side pt N f 0 ltac:(lia) G). change (nxt 0) with 1%nat. change (prv 0) with 2%nat. rewrite E0, E1, E2. reflexivity.
  - rewrite Qn, (normal_side pt N g0 t T Gg), F1, F2, <- Es, <- Ed. reflexivity.
  - pose proof (hz_apart _ _ _ H LD X1 X2) as A. unfold apart4 in *. intuition.
  - rewrite o_cyc. apply hz_sup; auto.
  - exact E1.
  - exact E2.
Qed.
(** consecutive facets of the cone *)
Lemma hz_flag21 d e f g : ridge d -> ridge e -> dst d = src e ->
  qp g 0 = p -> qp g 1 = src d -> qp g 2 = dst d -> good pt N g -> qp f 0 = p -> qp f 1 = src e -> qp f 2 = dst e -> good pt N f ->
  merge_flag pt f g 2 = false /\ merge_flag pt g f 1 = false.
Proof.
  intros Rd Re DE G0 G1 G2 G F0 F1 F2 F. assert (H : Hz (src d) (dst d)) by (exists d; auto). assert (H' : Hz (src e) (dst e)) by (exists e; auto).
  destruct (hz_live _ _ H) as (LA & LB & AB). destruct (hz_live _ _ H') as (_ & LC & BC).
  assert (NB : src d <> dst e). { intros Q. apply (hz_no_back _ _ H). rewrite DE, Q. exact H'. }
  assert (A1 : apart4 N p (src e) (dst e) (src d)) by (apply hz_apart; auto; congruence). assert (A2 : apart4 N p (src d) (dst d) (dst e)) by (apply hz_apart; auto; congruence).
  destruct F as (_ & _ & _ & _ & _ & _ & Nf). destruct G as (_ & _ & _ & _ & _ & _ & Ng). rewrite F0, F1, F2 in Nf. rewrite G0, G1, G2 in Ng. split.
  - apply (no_merge pt N gen f g 2 p (src e) (dst e) (src d)); auto.
    + rewrite Ng, DE. rewrite <- (nrm_cyc pt p (src d) (src e)), <- (nrm_cyc pt (src d) (src e) p). reflexivity.
    + apply hz_sup; auto; congruence.
  - apply (no_merge pt N gen g f 1 (dst d) p (src d) (dst e)); auto.
    + rewrite Ng. rewrite <- (nrm_cyc pt p (src d) (dst d)), <- (nrm_cyc pt (src d) (dst d) p). reflexivity.
    + rewrite Nf, DE. reflexivity.
    + unfold apart4 in *. intuition.
    + rewrite o_cyc, o_cyc. apply hz_sup; auto; congruence.
Qed.
(** binding two facets of the cone *)
Definition joined (L : nat -> nat -> Prop) (a b : nat) : nat -> nat -> Prop := fun e j => L e j \/ e = a /\ j = b.
Lemma link_wmem m m' E L a b fa fb : wmem m E L -> (a < length E)%nat -> (b < length E)%nat -> a <> b -> (forall j, ~ L a j) -> (forall j, ~ L j b) ->
  m (n0 + a)%nat = Some fa -> m (n0 + b)%nat = Some fb -> m' (n0 + a)%nat = Some (link fa 1 (n0 + b)) -> m' (n0 + b)%nat = Some (link fb 2 (n0 + a)) ->
  (forall i, i <> (n0 + a)%nat -> i <> (n0 + b)%nat -> m' i = m i) -> wmem m' E (joined L a b).
Proof.
  intros (W1 & W2 & W3) A B AB LA LB Ea Eb Ea' Eb' O. split; [|split].
  - intros i I. pose proof (Hn0 i (vs_fl i I)). rewrite O by lia. auto.
  - intros j g J NV Ej. pose proof (Hn0 j J). rewrite O by lia. apply W2; assumption.
  - intros e d Ed. destruct (W3 e d Ed) as (f & Ef & Q0 & Q1 & Q2 & G & Q3 & Q4 & Q5 & Q6 & Q7 & Q8 & Q9). destruct (Nat.eq_dec e a) as [->|NA]; [|destruct (Nat.eq_dec e b) as [->|NB]].
    + rewrite Ea in Ef. injection Ef as <-. exists (link fa 1 (n0 + b)). unfold link, set_m, set_c, good in *. cbn [qp qc qm qop qn qvis qchk].
      repeat split; try assumption; try apply G.
      * intros s S. unfold upd. destruct (Nat.eqb s 1); auto.
      * intros j [Q|(_ & ->)]; [exfalso; apply (LA j Q)|reflexivity].
      * intros j [Q|(_ & ->)]; [|exfalso; lia]. unfold upd. cbn. auto.
    + rewrite Eb in Ef. injection Ef as <-. exists (link fb 2 (n0 + a)). unfold link, set_m, set_c, good in *. cbn [qp qc qm qop qn qvis qchk].
      repeat split; try assumption; try apply G.
      * intros s S. unfold upd. destruct (Nat.eqb s 2); auto.
      * intros j [Q|(-> & _)]; [|exfalso; lia]. unfold upd. cbn. auto.
      * intros j [Q|(-> & _)]; [exfalso; apply (LB j Q)|reflexivity].
    + exists f. rewrite O by lia. split; [exact Ef|]. repeat split; try assumption; try apply G.
      * intros j [Q|(-> & _)]; [auto|congruence].
      * intros j [Q|(_ & ->)]; [auto|congruence].
Qed.
Lemma cone_bind m E L a b da db : wmem m E L -> (forall d, List.In d E -> ridge d) -> nth_error E a = Some da -> nth_error E b = Some db -> a <> b -> dst da = src db -> (forall j, ~ L a j) -> (forall j, ~ L j b) ->
  (exists m', zQHFacetBind pt m (n0 + b) 2 (n0 + a) 1 = Some m' /\ wmem m' E (joined L a b)) /\ (exists m', zQHFacetBind pt m (n0 + a) 1 (n0 + b) 2 = Some m' /\ wmem m' E (joined L a b)).
Proof.
  intros W RE Ea Eb AB DS LA LB. pose proof W as (_ & _ & C). destruct (C a da Ea) as (g & Eg & G0 & G1 & G2 & G & _). destruct (C b db Eb) as (f & Ef & F0 & F1 & F2 & F & _).
  destruct (hz_flag21 da db f g (RE _ (nth_error_In _ _ Ea)) (RE _ (nth_error_In _ _ Eb)) DS G0 G1 G2 G F0 F1 F2 F) as (K & K'). pose proof (nth_lt _ _ _ Ea). pose proof (nth_lt _ _ _ Eb). split.
  - destruct (bind_run pt m (n0 + b) 2 (n0 + a) 1 f g Ef Eg ltac:(lia) K) as (m' & E' & X1 & X2 & X3). exists m'. split; [exact E'|]. apply (link_wmem m m' E L a b g f); auto.
  - destruct (bind_run pt m (n0 + a) 1 (n0 + b) 2 g f Eg Ef ltac:(lia) K') as (m' & E' & X1 & X2 & X3). exists m'. split; [exact E'|]. apply (link_wmem m m' E L a b g f); auto.
Qed.
(** a new facet over a ridge *)
Lemma new_facet m E L dd cone i s : wmem m E L -> (forall d, List.In d E -> ridge d) -> ridge (i, s) -> ~ List.In (i, s) E -> (forall e j, L e j -> (e < length E)%nat /\ (j < length E)%nat) -> disc dd E ->
  exists m' dd', zQHHorizonNewFacet pt (HZ m (n0 + length E) dd cone) p i s = Some (true, HZ m' (Datatypes.S (n0 + length E)) dd' cone) /\ wmem m' (E ++ [(i, s)]) L /\ disc dd' (E ++ [(i, s)]).
Proof.
  intros (W1 & W2 & W3) RE R NE LL D. destruct (ridge_get (i, s) R) as (f & j & t & g & Ef & G & Em & J & NV & Ej & Gg & T & F & Es & Ed & _). cbn [fst snd] in *. pose proof R as (I & S & _). cbn [fst snd] in I, S.
  unfold zQHHorizonNewFacet. cbn [h_mem h_new h_dis h_cone]. rewrite (W1 i I), Ef. cbn [obind]. set (k := (n0 + length E)%nat). set (c := zQHFacetCreate pt p (qp f (nxt s)) (qp f (prv s))). set (mk := upd m k (Some c)).
  destruct (W2 j g J NV Ej) as (g' & Eg' & P1 & P2 & P3 & P4 & P5 & P6 & P7). pose proof (Hn0 j J) as Jn. pose proof (Hn0 i (vs_fl i I)) as In.
  assert (Kj : mk j = Some g') by (unfold mk; rewrite upd_diff by (unfold k; lia); exact Eg'). assert (Ki : mk i = Some f) by (unfold mk; rewrite upd_diff by (unfold k; lia); rewrite (W1 i I); exact Ef). assert (Kk : mk k = Some c) by apply upd_same.
  assert (Fresh : forall d, List.In d E -> mt d <> (j, t)). { intros d Q Q'. apply NE. rewrite <- Em in Q'. rewrite <- (mt_inj _ _ (RE d Q) R Q'). exact Q. }
  assert (CI : zQHFacetContigID mk i s = Some (Some t)).
  { apply (contig_run mk i s f j g' t Ki (proj1 F) Kj T).
    - destruct (P7 t T) as (_ & Q). rewrite (Q Fresh). apply F.
    - intros t' T' D'. destruct (P7 t' T') as (Q1 & Q2). destruct (Exists_dec (fun d => mt d = (j, t')) E) as [X|X].
      { intros d. destruct (mt d) as [x y]. destruct (Nat.eq_dec x j), (Nat.eq_dec y t'); [left; congruence|right; congruence..]. }
      + apply Exists_exists in X. destruct X as (d & Xd & X). destruct (In_nth_error _ _ Xd) as (e & Xe). rewrite (Q1 e d Xe X). intros Y. injection Y as Y. lia.
      + rewrite Q2 by (intros d Xd Y; apply X, Exists_exists; exists d; auto). apply (contig_mesh pt N m1 fl M i s f j t g (vs_fl i I) Ef S J Ej T F t' T' D'). }
  rewrite CI. cbn [obind]. rewrite (proj1 F). cbn [obind].
  assert (GC : good pt N c).
  { assert (H : Hz (src (i, s)) (dst (i, s))) by (exists (i, s); auto). destruct (hz_live _ _ H) as (LA & LB & AB). rewrite Es in *. rewrite Ed in *. destruct (lv_lt _ LA), (lv_lt _ LB). unfold good, c. cbn [zQHFacetCreate qp arr]. repeat split; auto. }
  assert (FL : merge_flag pt c g' 0 = false). { apply (hz_flag0 (i, s) c g' j t R Em); auto. exists g. auto. }
  destruct (bind_run pt mk k 0 j t c g' Kk Kj ltac:(unfold k; lia) FL) as (m' & E' & X1 & X2 & X3). rewrite E'. cbn [obind].
  exists m', (upd (upd dd (qp f (prv s)) false) (qp f (nxt s)) false). split; [reflexivity|]. split; [split; [|split]|].
  - intros i' I'. pose proof (Hn0 i' (vs_fl i' I')). rewrite X3 by (unfold k; try lia; intros ->; contradiction). unfold mk. rewrite upd_diff by (unfold k; lia). auto.
  - intros j' h J' NV' Eh. pose proof (Hn0 j' J'). destruct (Nat.eq_dec j' j) as [->|NJ].
    + rewrite Ej in Eh. injection Eh as <-. exists (link g' t k). split; [exact X2|]. unfold link, set_m, set_c. cbn [qp qc qm qop qn qvis qchk]. do 5 (split; [assumption|]). split; [intros t' T'; unfold upd; destruct (Nat.eqb t' t); auto|]. intros t' T'. split.
      * intros e d Xe Xm. unfold upd. destruct (Nat.eqb_spec t' t) as [->|NT].
        { assert (d = (i, s)). { apply mt_inj; [|exact R|congruence]. apply nth_error_In, in_app_or in Xe. destruct Xe as [Q|[<-|[]]]; auto. } subst d.
          destruct (Nat.eq_dec e (length E)) as [->|NEe]; [reflexivity|]. exfalso. assert (e < length E)%nat. { pose proof (nth_lt _ _ _ Xe) as Q. rewrite app_length in Q. cbn in Q. lia. } rewrite nth_error_app1 in Xe by assumption. apply NE. apply (nth_error_In _ _ Xe). }
        assert (e <> length E). { intros ->. rewrite nth_error_app2, Nat.sub_diag in Xe by lia. injection Xe as <-. congruence. }
        assert (e < length E)%nat. { pose proof (nth_lt _ _ _ Xe) as Q. rewrite app_length in Q. cbn in Q. lia. } rewrite nth_error_app1 in Xe by assumption. apply (proj1 (P7 t' ltac:(assumption)) e d Xe Xm).
      * intros Q. unfold upd. destruct (Nat.eqb_spec t' t) as [->|NT]. { exfalso. apply (Q (i, s)); [apply in_or_app; cbn; auto|exact Em]. }
        apply P7; [assumption|]. intros d Xd. apply Q. apply in_or_app. auto.
    + destruct (W2 j' h J' NV' Eh) as (h' & Eh' & Q1 & Q2 & Q3 & Q4 & Q5 & Q6 & Q7). exists h'. split; [rewrite X3 by (unfold k; lia); unfold mk; rewrite upd_diff by (unfold k; lia); exact Eh'|]. do 6 (split; [assumption|]). intros t0 T0. split.
      * intros e d Xe Xm. assert (e <> length E). { intros ->. rewrite nth_error_app2, Nat.sub_diag in Xe by lia. injection Xe as <-. congruence. }
        assert (e < length E)%nat. { pose proof (nth_lt _ _ _ Xe) as Q. rewrite app_length in Q. cbn in Q. lia. } rewrite nth_error_app1 in Xe by assumption. apply (proj1 (Q7 t0 ltac:(assumption)) e d Xe Xm).
      * intros Q. apply Q7; [assumption|]. intros d Xd. apply Q. apply in_or_app. auto.
  - intros e d Xe. destruct (Nat.eq_dec e (length E)) as [->|NEe].
    + rewrite nth_error_app2, Nat.sub_diag in Xe by lia. injection Xe as <-. exists (link c 0 j). split; [exact X1|]. unfold link, set_m, set_c, good in *. cbn [qp qc qm qop qn qvis qchk]. rewrite Es, Ed, Em.
      do 3 (split; [reflexivity|]). split; [exact GC|]. do 3 (split; [reflexivity|]). split; [intros s' S'; cases3 s' S'; reflexivity|]. split; [reflexivity|].
      split; intros y Y; apply LL in Y; lia.
    + assert (e < length E)%nat. { pose proof (nth_lt _ _ _ Xe) as Q. rewrite app_length in Q. cbn in Q. lia. } rewrite nth_error_app1 in Xe by assumption. destruct (W3 e d Xe) as (h & Eh & Q). exists h. split; [|exact Q].
      rewrite X3 by (unfold k; lia). unfold mk. rewrite upd_diff by (unfold k; lia). exact Eh.
  - intros v. destruct (D v) as (D1 & D2). rewrite !map_app. cbn [map]. rewrite Es, Ed. unfold upd. split.
    + intros Q. destruct (Nat.eqb_spec v (qp f (nxt s))) as [?|K1]; [reflexivity|]. destruct (Nat.eqb_spec v (qp f (prv s))) as [?|K2]; [reflexivity|]. apply D1. rewrite !in_app_iff in Q. rewrite in_app_iff. cbn [List.In] in Q. destruct Q as [[Q|[Q|[]]]|[Q|[Q|[]]]]; auto; exfalso; auto.
    + intros Q. rewrite !in_app_iff in Q. cbn [List.In] in Q. destruct (Nat.eqb_spec v (qp f (nxt s))) as [?|K1]; [exfalso; apply Q; subst v; tauto|]. destruct (Nat.eqb_spec v (qp f (prv s))) as [?|K2]; [exfalso; apply Q; subst v; tauto|]. apply D2. rewrite in_app_iff. tauto.
Qed.
(** ** the walk *)
Definition inner (d : nat * nat) : Prop := List.In (fst d) vs /\ (snd d < 3)%nat.
Definition step (d : nat * nat) : nat * nat := if in_dec Nat.eq_dec (fst (mt d)) vs then (fst (mt d), nxt (snd (mt d))) else (fst d, nxt (snd d)).
Lemma inner_mate i s : inner (i, s) -> exists f j t g, m1 i = Some f /\ good pt N f /\ mt (i, s) = (j, t) /\ List.In j fl /\ m1 j = Some g /\ good pt N g /\ (t < 3)%nat /\ facing i s f j t g /\ mt (j, t) = (i, s).
Proof.
  intros (I & S). cbn [fst snd] in *. apply vs_fl in I. destruct (fl_get i I) as (f & E & G & _). destruct (mate_spec pt N m1 fl M i s f I E S) as (j & t & g & Em & J & Ej & T & F). destruct (fl_get j J) as (g' & Eg & Gg & _). rewrite Ej in Eg. injection Eg as <-.
  exists f, j, t, g. split; [exact E|]. split; [exact G|]. split; [exact Em|]. split; [exact J|]. split; [exact Ej|]. split; [exact Gg|]. split; [exact T|]. split; [exact F|].
  rewrite <- Em. apply (mate_mate pt N m1 fl M i s f I E S).
Qed.
Lemma step_inner d : inner d -> inner (step d).
Proof. intros (I & S). unfold step. destruct (in_dec Nat.eq_dec (fst (mt d)) vs) as [V|V]; split; cbn [fst snd]; auto using nxt_lt. Qed.
Lemma step_inj d e : inner d -> inner e -> step d = step e -> d = e.
Proof.
  destruct d as [i s], e as [i' s']. intros D D'. destruct (inner_mate i s D) as (f & j & t & g & _ & _ & Em & _ & _ & _ & T & _ & B). destruct (inner_mate i' s' D') as (f' & j' & t' & g' & _ & _ & Em' & _ & _ & _ & T' & _ & B').
  destruct D as (I & S), D' as (I' & S'). cbn [fst snd] in *. unfold step. rewrite Em, Em'. cbn [fst snd].
  destruct (in_dec Nat.eq_dec j vs) as [V|V], (in_dec Nat.eq_dec j' vs) as [V'|V']; intros Q; injection Q as Q1 Q2; apply nxt_inj in Q2; auto; subst.
  - rewrite B in B'. exact B'.
  - exfalso. rewrite B in Em'. injection Em' as -> ->. contradiction.
  - exfalso. rewrite B' in Em. injection Em as -> ->. contradiction.
Qed.
Definition chain_to (n : nat) : nat -> nat -> Prop := fun e j => j = Datatypes.S e /\ (j < n)%nat.
Definition ring_of (n : nat) : nat -> nat -> Prop := joined (chain_to n) (n - 1) 0.
Lemma wmem_ext m E (L L' : nat -> nat -> Prop) : (forall e j, L' e j -> L e j) -> wmem m E L -> wmem m E L'.
Proof. intros H (A & B & C). split; [exact A|]. split; [exact B|]. intros e d Ed. destruct (C e d Ed) as (f & Ef & Q0 & Q1 & Q2 & G & Q3 & Q4 & Q5 & Q6 & Q7 & Q8 & Q9). exists f. do 10 (split; [assumption|]). split; intros j Y; auto. Qed.
Lemma last_seq n k : last (seq n (Datatypes.S k)) 0%nat = (n + k)%nat.
Proof. rewrite seq_S, last_last. reflexivity. Qed.
Lemma nth_last {A} (l : list A) x : nth_error (l ++ [x]) (length l) = Some x.
Proof. rewrite nth_error_app2, Nat.sub_diag by lia. reflexivity. Qed.
Definition result (a0 : nat) (E : list (nat * nat)) : Prop := (forall d, List.In d E -> ridge d) /\ map src E ++ [a0] = a0 :: map dst E /\ NoDup (map src E) /\ (2 <= length E)%nat.
Lemma walk_run a0 d0 : src d0 = a0 -> forall k E V0 m dd i s,
  wmem m E (chain_to (length E)) -> disc dd E -> (forall d, List.In d E -> ridge d) -> E <> [] -> inner (i, s) ->
  map src E ++ [src (i, s)] = a0 :: map dst E -> NoDup (a0 :: map dst E) ->
  NoDup ((i, s) :: V0) -> (forall d, List.In d V0 -> inner d) -> (forall d, List.In d ((i, s) :: V0) -> d = d0 \/ exists u, List.In u V0 /\ step u = d) ->
  (3 * length vs <= k + length V0)%nat -> NoDup vs ->
  exists E' m' dd', horizon_walk pt k p a0 (HZ m (n0 + length E) dd (seq n0 (length E))) i s = Some (true, HZ m' (n0 + length E') dd' (seq n0 (length E'))) /\
    wmem m' E' (ring_of (length E')) /\ disc dd' E' /\ result a0 E'.
Proof.
  intros H0. induction k as [|k IH]; intros E V0 m dd i s W D RE NE IN CH ND NV VI VP LE NDV.
  { exfalso. assert (X : (length ((i, s) :: V0) <= length (darts vs))%nat).
    { apply NoDup_incl_length; [exact NV|]. intros [x y] X. assert (Y : inner (x, y)) by (destruct X as [<-|X]; auto). apply in_darts. exact Y. }
    rewrite length_darts in X. cbn [length] in X. lia. }
  cbn [horizon_walk]. cbn [h_mem]. pose proof IN as (I & S). cbn [fst snd] in I, S. destruct (inner_mate i s IN) as (f & j & t & g & Ef & Gf & Em & J & Ej & Gg & T & F & B).
  pose proof W as (W1 & W2 & W3). rewrite (W1 i I), Ef. cbn [obind]. rewrite (proj1 F). cbn [obind].
  assert (SRC : src (i, s) <> a0).
  { intros Q. rewrite Q in CH. destruct E as [|e E]; [congruence|]. cbn [map app] in CH. apply NoDup_cons_iff in ND. destruct ND as (ND & _). apply ND. injection CH as _ CH. cbn [map]. rewrite <- CH. apply in_or_app. cbn. auto. }
  assert (NEW : forall d, d = step (i, s) -> src d <> a0 -> NoDup (d :: (i, s) :: V0) /\ (forall e, List.In e ((i, s) :: V0) -> inner e) /\ (forall e, List.In e (d :: (i, s) :: V0) -> e = d0 \/ exists u, List.In u ((i, s) :: V0) /\ step u = e)).
  { intros d Ed SD. split; [|split].
    - constructor; [|exact NV]. intros Q. destruct (VP d Q) as [Q'|(u & U & Q')]; [subst d0; congruence|]. rewrite Ed in Q'. apply step_inj in Q'; [|apply VI; exact U|exact IN]. subst u. apply NoDup_cons_iff in NV. tauto.
    - intros e [<-|Q]; auto.
    - intros e [<-|Q]; [right; exists (i, s); cbn; auto|]. destruct (VP e Q) as [?|(u & U & ?)]; [auto|]. right. exists u. cbn. auto. }
  destruct (in_dec Nat.eq_dec j vs) as [V|V].
  - destruct (vs_vis j g V Ej) as (Vg & _). rewrite (W1 j V), Ej. cbn [obind]. rewrite Vg.
    rewrite (contig_run m i s f j g t (eq_trans (W1 i I) Ef) (proj1 F) (eq_trans (W1 j V) Ej) T (proj1 (proj2 F)) (contig_mesh pt N m1 fl M i s f j t g (vs_fl i I) Ef S J Ej T F)).
    cbn [obind h_mem]. rewrite (W1 j V), Ej. cbn [obind]. rewrite nxt_nxt by exact T. rewrite (proj1 (proj2 (proj2 (proj2 F)))). rewrite <- (src_get i s f Ef).
    destruct (Nat.eqb_spec (src (i, s)) a0) as [Q|_]; [contradiction|].
    assert (SE : src (j, nxt t) = src (i, s)). { rewrite (src_get j _ g Ej), (src_get i s f Ef), nxt_nxt by exact T. apply F. }
    assert (ST : (j, nxt t) = step (i, s)). { unfold step. rewrite Em. cbn [fst snd]. destruct (in_dec Nat.eq_dec j vs); [reflexivity|contradiction]. }
    destruct (NEW _ ST ltac:(congruence)) as (X1 & X2 & X3). apply (IH E ((i, s) :: V0)); auto.
    + split; cbn [fst snd]; [exact V|apply nxt_lt].
    + rewrite SE. exact CH.
    + cbn [length]. lia.
  - destruct (W2 j g J V Ej) as (g' & Eg' & _ & _ & _ & Q4 & _). rewrite Eg'. cbn [obind]. rewrite Q4, (proj1 (not_vs j g J Ej V)). 
    assert (RD : ridge (i, s)) by (split; [exact I|split; [exact S|rewrite Em; exact V]]).
    assert (FR : ~ List.In (src (i, s)) (map src E)).
    { intros Q. assert (X : NoDup (map src E ++ [src (i, s)])) by (rewrite CH; exact ND). apply NoDup_remove_2 in X. rewrite app_nil_r in X. contradiction. }
    assert (FE : ~ List.In (i, s) E) by (intros Q; apply FR; apply in_map; exact Q).
    destruct (new_facet m E (chain_to (length E)) dd (seq n0 (length E)) i s W RE RD FE) as (m2 & dd2 & E2 & W' & D'); [unfold chain_to; intros; lia|exact D|].
    rewrite E2. cbn [obind h_mem h_new h_dis h_cone].
    assert (LEN : length E = Datatypes.S (length E - 1)) by (destruct E; [congruence|cbn; lia]). assert (LS : last (seq n0 (length E)) 0%nat = (n0 + (length E - 1))%nat) by (rewrite LEN, last_seq; lia). rewrite LS.
    assert (RE' : forall d, List.In d (E ++ [(i, s)]) -> ridge d) by (intros d Q; apply in_app_or in Q; destruct Q as [Q|[<-|[]]]; auto).
    destruct (nth_error E (length E - 1)) as [dl|] eqn:El; [|apply nth_error_None in El; lia].
    assert (DL : dst dl = src (i, s)).
    { destruct (@exists_last _ E NE) as (E1 & x & Ex). assert (dl = x). { rewrite Ex, app_length in El. cbn [length] in El. replace (length E1 + 1 - 1)%nat with (length E1) in El by lia. rewrite nth_last in El. congruence. } subst x.
      rewrite Ex, !map_app in CH. cbn [map] in CH. change (a0 :: map dst E1 ++ [dst dl]) with ((a0 :: map dst E1) ++ [dst dl]) in CH. apply app_inj_tail in CH. symmetry. tauto. }
    destruct (cone_bind m2 (E ++ [(i, s)]) (chain_to (length E)) (length E - 1) (length E) dl (i, s) W' RE') as ((m3 & E3 & W3') & _).
    { rewrite nth_error_app1 by lia. exact El. } { apply nth_last. } { lia. } { exact DL. } { unfold chain_to. intros y. lia. } { unfold chain_to. intros y. lia. }
    rewrite E3. cbn [obind h_mem].
    assert (I3 : m3 i = m1 i) by (apply W3'; exact I). rewrite I3, Ef. cbn [obind]. rewrite nxt_nxt by exact S. rewrite <- (dst_get i s f Ef).
    assert (LE' : length (E ++ [(i, s)]) = Datatypes.S (length E)) by (rewrite app_length; cbn; lia).
    assert (W4 : wmem m3 (E ++ [(i, s)]) (chain_to (length (E ++ [(i, s)])))). { apply (wmem_ext _ _ (joined (chain_to (length E)) (length E - 1) (length E))); [|exact W3']. rewrite LE'. unfold joined, chain_to. intros e y Y. lia. }
    assert (CONE : seq n0 (length E) ++ [(n0 + length E)%nat] = seq n0 (length (E ++ [(i, s)]))) by (rewrite LE', seq_S; reflexivity).
    assert (NEWN : Datatypes.S (n0 + length E) = (n0 + length (E ++ [(i, s)]))%nat) by lia. rewrite CONE, NEWN.
    destruct (Nat.eqb_spec (dst (i, s)) a0) as [Q|Q].
    + cbn [h_cone]. rewrite LE'. rewrite last_seq. cbn [seq hd].
      assert (Y0 : exists df, nth_error (E ++ [(i, s)]) 0 = Some df /\ src df = a0). { destruct E as [|df E0]; [congruence|]. exists df. split; [reflexivity|]. cbn [map app] in CH. injection CH as -> _. reflexivity. }
      destruct Y0 as (df & Y0 & Y0'). destruct (cone_bind m3 (E ++ [(i, s)]) (chain_to (length (E ++ [(i, s)]))) (length E) 0 (i, s) df W4 RE') as (_ & (m4 & E4 & W5)).
      { apply nth_last. } { exact Y0. } { lia. } { congruence. } { unfold chain_to. intros y. lia. } { unfold chain_to. intros y. lia. }
      rewrite Nat.add_0_r in E4. rewrite E4. cbn [obind h_new h_dis h_cone]. exists (E ++ [(i, s)]), m4, dd2. split; [rewrite LE'; reflexivity|]. split; [|split; [exact D'|]].
      * unfold ring_of. rewrite LE' at 2. cbn [Nat.sub]. rewrite Nat.sub_0_r. exact W5.
      * split; [exact RE'|]. rewrite !map_app. cbn [map]. split; [|split].
        { rewrite Q. change (a0 :: map dst E ++ [a0]) with ((a0 :: map dst E) ++ [a0]). rewrite <- CH. reflexivity. }
        { rewrite CH. exact ND. } { rewrite LE'. lia. }
    + assert (ST : (i, nxt s) = step (i, s)). { unfold step. rewrite Em. cbn [fst snd]. destruct (in_dec Nat.eq_dec j vs); [contradiction|reflexivity]. }
      assert (SE : src (i, nxt s) = dst (i, s)). { rewrite (src_get i _ f Ef), (dst_get i s f Ef), nxt_nxt by exact S. reflexivity. }
      destruct (NEW _ ST ltac:(congruence)) as (X1 & X2 & X3). apply (IH (E ++ [(i, s)]) ((i, s) :: V0)); auto.
      * destruct E; discriminate.
      * split; cbn [fst snd]; [exact I|apply nxt_lt].
      * rewrite !map_app. cbn [map]. rewrite CH, SE. reflexivity.
      * rewrite map_app. cbn [map]. change (a0 :: map dst E ++ [dst (i, s)]) with ((a0 :: map dst E) ++ [dst (i, s)]). apply NoDup_app_comm_one; [exact ND|]. intros [K|K]; [congruence|].
        apply in_map_iff in K. destruct K as (e & Ke & Kin). apply FR. rewrite (hz_end pt p lv Hz hz_live hz_sup (src (i, s)) (src e) (dst (i, s))); [apply in_map; exact Kin|exists (i, s); auto|exists e; auto].
      * cbn [length]. lia.
Qed.
Lemma ridge_first : forall l, incl l vs -> (exists i s, first_ridge m1 l = Some (Some (i, s)) /\ ridge (i, s)) \/
  (first_ridge m1 l = Some None /\ forall i s, List.In i l -> (s < 3)%nat -> List.In (fst (mt (i, s))) vs).
Proof.
  induction l as [|i l IH]; intros L; cbn [first_ridge]; [right; split; [reflexivity|intros i s []]|].
  assert (I : List.In i vs) by (apply L; left; reflexivity). destruct IH as [IH|IH]; [intros x X; apply L; right; exact X| |].
  all: assert (Z0 : (0 < 3)%nat) by lia; assert (Z1 : (1 < 3)%nat) by lia; assert (Z2 : (2 < 3)%nat) by lia; destruct (inner_mate i 0 (conj I Z0)) as (f & j0 & t0 & g0 & Ef & _ & Em0 & J0 & E0 & _ & _ & F0 & _);
    destruct (inner_mate i 1 (conj I Z1)) as (f1 & j1 & t1 & g1 & Ef1 & _ & Em1 & J1 & E1 & _ & _ & F1 & _);
    destruct (inner_mate i 2 (conj I Z2)) as (f2 & j2 & t2 & g2 & Ef2 & _ & Em2 & J2 & E2 & _ & _ & F2 & _);
    rewrite Ef in Ef1, Ef2; injection Ef1 as <-; injection Ef2 as <-; rewrite Ef; cbn [obind];
    rewrite (proj1 F0); cbn [obind]; rewrite E0; cbn [obind]; destruct (qvis g0) eqn:V0; cbn [negb];
    [|left; exists i, 0%nat; split; [reflexivity|split; [exact I|split; [assumption|rewrite Em0; cbn [fst]; intros Q; apply (vis_vs j0 g0 J0 E0) in Q; congruence]]]];
    rewrite (proj1 F1); cbn [obind]; rewrite E1; cbn [obind]; destruct (qvis g1) eqn:V1; cbn [negb];
    [|left; exists i, 1%nat; split; [reflexivity|split; [exact I|split; [assumption|rewrite Em1; cbn [fst]; intros Q; apply (vis_vs j1 g1 J1 E1) in Q; congruence]]]];
    rewrite (proj1 F2); cbn [obind]; rewrite E2; cbn [obind]; destruct (qvis g2) eqn:V2; cbn [negb];
    [|left; exists i, 2%nat; split; [reflexivity|split; [exact I|split; [assumption|rewrite Em2; cbn [fst]; intros Q; apply (vis_vs j2 g2 J2 E2) in Q; congruence]]]].
  - left. exact IH.
  - right. split; [apply IH|]. intros i' s' [<-|I'] S'; [|apply IH; assumption]. cases3 s' S'; [rewrite Em0|rewrite Em1|rewrite Em2]; cbn [fst]; [apply (vis_vs j0 g0 J0 E0)|apply (vis_vs j1 g1 J1 E1)|apply (vis_vs j2 g2 J2 E2)]; assumption.
Qed.
Lemma horizon_run : NoDup vs -> vs <> [] -> exists a0 E m' dd', zQHHorizon pt m1 n0 d1 vs p = Some (true, HZ m' (n0 + length E) dd' (seq n0 (length E))) /\
  wmem m' E (ring_of (length E)) /\ disc dd' E /\ result a0 E.
Proof.
  intros ND NE. destruct (ridge_first vs (incl_refl vs)) as [(i & s & Er & R)|(_ & AV)].
  2: { exfalso. destruct vs as [|v0 vr] eqn:Ev; [congruence|]. rewrite <- Ev in *. assert (V0 : List.In v0 vs) by (rewrite Ev; left; reflexivity). pose proof (vs_fl v0 V0) as VF. destruct (fl_get v0 VF) as (f0 & E0 & _).
    apply (no_closed_cap pt N m1 fl M vs p (qp f0 0) ND vs_fl NE).
    - intros i f s j g I E S Q Ej. specialize (AV i s I S). destruct (inner_mate i s (conj I S)) as (f' & j' & t' & g' & Ef' & _ & Em & _ & _ & _ & _ & F & _). rewrite E in Ef'. injection Ef' as <-. rewrite Em in AV. cbn [fst] in AV. rewrite (proj1 F) in Q. injection Q as <-. exact AV.
    - intros i f I E. apply (vs_vis i f I E).
    - intros i f I E. apply (mesh_le pt N m1 fl i f); auto using vs_fl. exists v0, f0. unfold is_corner. auto. }
  pose proof R as (I & S & _). cbn [fst snd] in I, S. destruct (fl_get i (vs_fl i I)) as (f & Ef & Gf & Qf & _).
  assert (W0 : wmem m1 [] (chain_to 0)).
  { split; [reflexivity|]. split.
    - intros j g J NV Ej. exists g. destruct (fl_get j J) as (g' & Eg' & _ & Q & _). rewrite Ej in Eg'. injection Eg' as <-. do 6 (split; [auto|]). split; [exact Q|]. intros t T. split; [intros e d Q'; destruct e; discriminate|reflexivity].
    - intros e d Q. destruct e; discriminate. }
  destruct (new_facet m1 [] (chain_to 0) d1 [] i s W0) as (m2 & dd & E2 & W2 & D2).
  { intros d []. } { exact R. } { intros []. } { unfold chain_to. intros. lia. } { intros v. split; [intros []|reflexivity]. }
  cbn [length] in E2. rewrite Nat.add_0_r in E2. unfold zQHHorizon. rewrite Er. cbn [obind]. rewrite E2. cbn [obind h_mem h_new h_dis].
  cbn [app] in *. rewrite (proj1 W2 i I), Ef. cbn [obind]. rewrite <- (src_get i s f Ef).
  destruct (walk_run (src (i, s)) (i, s) eq_refl (Datatypes.S (3 * length vs)) [(i, s)] [(i, s)] m2 dd i (nxt s)) as (E' & m' & dd' & X1 & X2 & X3 & X4); auto.
  - apply (wmem_ext _ _ (chain_to 0)); [|exact W2]. unfold chain_to. cbn [length]. intros. lia.
  - intros d [<-|[]]. exact R.
  - discriminate.
  - split; [exact I|apply nxt_lt].
  - cbn [map app]. rewrite (src_get i (nxt s) f Ef), (dst_get i s f Ef), nxt_nxt by exact S. reflexivity.
  - cbn [map]. assert (H : Hz (src (i, s)) (dst (i, s))) by (exists (i, s); auto). destruct (hz_live _ _ H) as (_ & _ & AB). repeat constructor; cbn; intuition.
  - pose proof (nxt_ne s S). constructor; [intros [Q|[]]; injection Q as Q; lia|constructor; [intros []|constructor]].
  - intros d [<-|[]]. split; assumption.
  - intros d [<-|[<-|[]]]; [|left; reflexivity]. right. exists (i, s). split; [left; reflexivity|]. unfold step. destruct (in_dec Nat.eq_dec (fst (mt (i, s))) vs) as [Q|Q]; [exfalso; apply R; exact Q|reflexivity].
  - cbn [length]. lia.
  - exists (src (i, s)), E', m', dd'. split; [|auto]. cbn [length seq] in X1. replace (n0 + 1)%nat with (Datatypes.S n0) in X1 by lia. exact X1.
Qed.
Lemma result_path a0 E : result a0 E -> exists l, map src E = a0 :: l /\ map dst E = l ++ [a0] /\ path Hz a0 (l ++ [a0]) /\ NoDup (a0 :: l).
Proof.
  intros (R & C & ND & L). destruct E as [|e E]; [cbn in L; lia|]. cbn [map app] in C. injection C as C0 C1. exists (map src E). cbn [map] in *. rewrite <- C0. split; [reflexivity|]. split; [rewrite <- C1, C0; reflexivity|]. split; [|exact ND].
  rewrite C0. rewrite C1. clear ND L. revert e E a0 R C0 C1. 
  assert (G : forall E x z, (forall d, List.In d E -> ridge d) -> map src E ++ [z] = x :: map dst E -> path Hz x (map dst E)).
  { induction E as [|e E IH]; intros x z R C; cbn [map path]; [exact Logic.I|]. cbn [map app] in C. injection C as C0 C1. split; [exists e; split; [apply R; left; reflexivity|auto]|]. apply (IH _ z); [intros d Q; apply R; right; exact Q|exact C1]. }
  intros e E a0 R C0 C1. apply (G (e :: E) a0 a0 R). cbn [map app]. congruence.
Qed.
Lemma result_all a0 E d : result a0 E -> ridge d -> List.In d E.
Proof.
  intros RS RD. destruct (result_path a0 E RS) as (l & Es & Ed & P & ND). destruct RS as (RE & C & _ & _).
  assert (H : Hz (src d) (dst d)) by (exists d; auto). destruct (hz_all pt p lv Hz hz_live hz_sup a0 l _ _ P H) as (l1 & l2 & Q).
  rewrite <- Ed, <- C in Q.
  assert (X1 : nth_error (map src E ++ [a0]) (length l1) = Some (src d)) by (rewrite Q, nth_error_app2, Nat.sub_diag by lia; reflexivity).
  assert (X2 : nth_error (map dst E) (length l1) = Some (dst d)).
  { assert (Y : nth_error (map src E ++ [a0]) (Datatypes.S (length l1)) = Some (dst d)). { rewrite Q, nth_error_app2 by lia. replace (Datatypes.S (length l1) - length l1)%nat with 1%nat by lia. reflexivity. } rewrite C in Y. exact Y. }
  pose proof (nth_lt _ _ _ X2) as LT. rewrite map_length in LT. rewrite nth_error_app1 in X1 by (rewrite map_length; exact LT).
  destruct (nth_error E (length l1)) as [d'|] eqn:X; [|apply nth_error_None in X; lia]. rewrite (map_nth_error src _ _ X) in X1. rewrite (map_nth_error dst _ _ X) in X2. injection X1 as X1. injection X2 as X2.
  apply nth_error_In in X. assert (d' = d); [|subst; exact X]. pose proof (RE d' X) as RD'. destruct d as [i s], d' as [i' s']. destruct RD as (I & S & _), RD' as (I' & S' & _). cbn [fst snd] in *. apply vs_fl in I, I'.
  destruct (fl_get i I) as (f & Ef & Gf & _), (fl_get i' I') as (f' & Ef' & Gf' & _). rewrite (src_get _ _ _ Ef), (src_get _ _ _ Ef') in X1. rewrite (dst_get _ _ _ Ef), (dst_get _ _ _ Ef') in X2.
  assert (i' = i) by (apply (M_edge _ _ _ _ M i' i f' f s' s); auto). subst i'. rewrite Ef in Ef'. injection Ef' as <-. apply (good_inj pt N f _ _ Gf (nxt_lt _) (nxt_lt _)) in X1. apply (nxt_inj _ _ S' S) in X1. congruence.
Qed.
Lemma hz_third a b : Hz a b -> exists z, lv z /\ z <> a /\ z <> b.
Proof.
  intros (d & R & Ea & Eb). destruct (ridge_get d R) as (f & j & t & g & E & G & _ & _ & _ & _ & _ & _ & _ & Es & Ed & _). destruct R as (I & S & _). apply vs_fl in I.
  exists (qp f (snd d)). pose proof (nxt_ne _ S) as NE. split; [exists (fst d), f; split; [exact I|split; [exact E|apply corner_at; exact S]]|].
  split; [rewrite Ea, Es; intros Q; apply (good_inj pt N f _ _ G S (nxt_lt _)) in Q; lia|rewrite Eb, Ed; intros Q; apply (good_inj pt N f _ _ G S (prv_lt _)) in Q; lia].
Qed.
(** ** the new surface *)
Section Closed.
Variables (a0 : nat) (E : list (nat * nat)) (m : memory) (keep : list nat).
Hypothesis W : wmem m E (ring_of (length E)).
Hypothesis RS : result a0 E.
Hypothesis Hkeep : forall j, List.In j keep <-> List.In j fl /\ ~ List.In j vs.
Hypothesis NDk : NoDup keep.
Notation cone := (seq n0 (length E)).
Lemma ends d : List.In d E -> Hz (src d) (dst d) /\ ridge d.
Proof. intros Q. assert (R : ridge d) by (apply RS; exact Q). split; [exists d; auto|exact R]. Qed.
Lemma in_cone_get i : List.In i cone -> exists e d f, i = (n0 + e)%nat /\ nth_error E e = Some d /\ m i = Some f /\ qp f 0 = p /\ qp f 1 = src d /\ qp f 2 = dst d /\ good pt N f /\ qop f = [] /\ qvis f = false /\ qchk f = false /\ (forall s, (s < 3)%nat -> qm f s = false).
Proof.
  intros I. apply in_seq in I. destruct (nth_error E (i - n0)) as [d|] eqn:X; [|apply nth_error_None in X; lia]. destruct W as (_ & _ & C). destruct (C _ _ X) as (f & Ef & Q0 & Q1 & Q2 & G & Q3 & Q4 & Q5 & Q6 & _).
  exists (i - n0)%nat, d, f. replace (n0 + (i - n0))%nat with i in * by lia. do 10 (split; [first [reflexivity|assumption]|]). exact Q6.
Qed.
Lemma cone_in e d : nth_error E e = Some d -> List.In (n0 + e)%nat cone. Proof. intros Q. apply nth_lt in Q. apply in_seq. lia. Qed.
Lemma keep_get j : List.In j keep -> exists g g', m1 j = Some g /\ m j = Some g' /\ qp g' = qp g /\ qn g' = qn g /\ qop g' = qop g /\ qvis g' = false /\ qchk g' = qchk g /\ (forall t, (t < 3)%nat -> qm g' t = false) /\ good pt N g' /\ List.In j fl /\ ~ List.In j vs.
Proof.
  intros J. apply Hkeep in J. destruct J as (J & NV). destruct (fl_get j J) as (g & Ej & G & _). destruct W as (_ & K & _). destruct (K j g J NV Ej) as (g' & Eg' & P1 & P2 & P3 & P4 & P5 & P6 & _). exists g, g'. rewrite (proj1 (not_vs j g J Ej NV)) in P4.
  do 8 (split; [assumption|]). split; [unfold good in *; rewrite P1, P2; exact G|]. auto.
Qed.
Lemma ring_next e : (e < length E)%nat -> exists j, ring_of (length E) e j /\ (j < length E)%nat.
Proof. intros L. destruct RS as (_ & _ & _ & L2). destruct (Nat.eq_dec (Datatypes.S e) (length E)) as [Q|Q]; [exists 0%nat|exists (Datatypes.S e)]; unfold ring_of, joined, chain_to; lia. Qed.
Lemma ring_prev e : (e < length E)%nat -> exists j, ring_of (length E) j e /\ (j < length E)%nat.
Proof. intros L. destruct RS as (_ & _ & _ & L2). destruct e as [|e]; [exists (length E - 1)%nat|exists e]; unfold ring_of, joined, chain_to; lia. Qed.
Lemma ring_ends e j d d' : ring_of (length E) e j -> nth_error E e = Some d -> nth_error E j = Some d' -> dst d = src d'.
Proof.
  intros R X X'. destruct (result_path a0 E RS) as (l & Es & Ed & _). pose proof (map_nth_error dst _ _ X) as Y. pose proof (map_nth_error src _ _ X') as Y'. pose proof (nth_lt _ _ _ X) as LT.
  assert (LL : length E = Datatypes.S (length l)) by (rewrite <- (map_length src E), Es; reflexivity).
  rewrite Ed in Y. rewrite Es in Y'. destruct R as [(-> & R)|(-> & ->)].
  - cbn [nth_error] in Y'. rewrite nth_error_app1 in Y by (apply nth_lt in Y'; exact Y'). congruence.
  - cbn [nth_error] in Y'. replace (length E - 1)%nat with (length l) in Y by lia. rewrite nth_last in Y. congruence.
Qed.
Lemma live_new v : live m (keep ++ cone) v -> v = p \/ lv v.
Proof.
  intros (i & f & I & Ef & C). apply in_app_or in I. destruct I as [I|I].
  - right. destruct (keep_get i I) as (g & g' & Eg & Eg' & P1 & _ & _ & _ & _ & _ & _ & J & _). rewrite Ef in Eg'. injection Eg' as <-. exists i, g. split; [exact J|]. split; [exact Eg|]. unfold is_corner in *. rewrite <- P1. exact C.
  - destruct (in_cone_get i I) as (e & d & f' & _ & X & Ef' & Q0 & Q1 & Q2 & _). rewrite Ef in Ef'. injection Ef' as <-. destruct (hz_live _ _ (proj1 (ends d (nth_error_In _ _ X)))) as (LA & LB & _).
    destruct C as [->|[->| ->]]; [left; exact Q0|right; rewrite Q1; exact LA|right; rewrite Q2; exact LB].
Qed.
Lemma live_p : live m (keep ++ cone) p.
Proof.
  destruct RS as (_ & _ & _ & L2). assert (I : List.In n0 cone) by (apply in_seq; lia). destruct (in_cone_get n0 I) as (e & d & f & _ & _ & Ef & Q0 & _). exists n0, f. split; [apply in_or_app; auto|]. split; [exact Ef|]. left. auto.
Qed.
Lemma live_end v : List.In v (map src E ++ map dst E) -> live m (keep ++ cone) v.
Proof.
  intros Q. assert (X : exists d, List.In d E /\ (v = src d \/ v = dst d)).
  { apply in_app_or in Q. destruct Q as [Q|Q]; apply in_map_iff in Q; destruct Q as (d & <- & D); exists d; auto. }
  destruct X as (d & D & C). destruct (In_nth_error _ _ D) as (e & X). pose proof (cone_in e d X) as I. destruct W as (_ & _ & K). destruct (K e d X) as (f & Ef & _ & Q1 & Q2 & _).
  exists (n0 + e)%nat, f. split; [apply in_or_app; auto|]. split; [exact Ef|]. unfold is_corner. rewrite Q1, Q2. tauto.
Qed.
Lemma live_keep v j f : List.In j keep -> m1 j = Some f -> is_corner f v -> live m (keep ++ cone) v.
Proof. intros J Ej C. destruct (keep_get j J) as (g & g' & Eg & Eg' & P1 & _). rewrite Ej in Eg. injection Eg as <-. exists j, g'. split; [apply in_or_app; auto|]. split; [exact Eg'|]. unfold is_corner in *. rewrite P1. exact C. Qed.
Lemma mesh_new : mesh pt N m (keep ++ cone).
Proof.
  assert (KC : forall j, List.In j keep -> (j < n0)%nat) by (intros j J; apply Hkeep in J; apply Hn0; tauto).
  constructor.
  - apply nodup_join; [exact NDk|apply seq_NoDup|]. intros x X Y. apply KC in X. apply in_seq in Y. lia.
  - intros i I. apply in_app_or in I. destruct I as [I|I].
    + destruct (keep_get i I) as (g & g' & Eg & Eg' & P1 & _ & _ & _ & _ & Q & G & _). exists g'. auto.
    + destruct (in_cone_get i I) as (e & d & f & _ & _ & Ef & _ & _ & _ & G & _ & _ & _ & Q). exists f. auto.
  - intros i f s I Ef S. pose proof W as (_ & WK & WC). apply in_app_or in I. destruct I as [I|I].
    + pose proof I as J. apply Hkeep in J. destruct J as (J & NV). destruct (fl_get i J) as (g & Eg & G & _ & NP). destruct (WK i g J NV Eg) as (g' & Eg' & P1 & _ & _ & _ & _ & _ & P7). rewrite Ef in Eg'. injection Eg' as <-.
      destruct (mate_spec pt N m1 fl M i s g J Eg S) as (j & t & h & Em & Ij & Ej & T & F). pose proof (mate_mate pt N m1 fl M i s g J Eg S) as MM. rewrite Em in MM.
      pose proof F as (F1 & F2 & F3 & F4 & F5). destruct (in_dec Nat.eq_dec j vs) as [V|V].
      * assert (RD : ridge (j, t)) by (split; [exact V|split; [exact T|rewrite MM; exact NV]]). pose proof (result_all a0 E _ RS RD) as D. destruct (In_nth_error _ _ D) as (e & X).
        destruct (WC e _ X) as (c & Ec & Q0 & Q1 & Q2 & _ & _ & _ & _ & _ & Q7 & _). exists (n0 + e)%nat, 0%nat, c. split; [apply in_or_app; right; apply (cone_in e _ X)|]. split; [lia|]. split; [exact Ec|].
        rewrite (src_get j t h Ej) in Q1. rewrite (dst_get j t h Ej) in Q2. unfold facing. change (nxt 0) with 1%nat. change (prv 0) with 2%nat. rewrite Q0, Q1, Q2, P1, Q7, MM.
        split; [apply (proj1 (P7 s S) e _ X MM)|]. split; [reflexivity|]. split; [congruence|]. split; [congruence|]. unfold is_corner in *. rewrite P1. exact NP.
      * destruct (WK j h Ij V Ej) as (h' & Eh' & R1 & _ & _ & _ & _ & _ & R7). exists j, t, h'. split; [apply in_or_app; left; apply Hkeep; auto|]. split; [exact T|]. split; [exact Eh'|].
        unfold facing, is_corner in *. rewrite P1, R1. split; [|split; [|auto]].
        { rewrite (proj2 (P7 s S)); [exact F1|]. intros d D Q. destruct d as [i' s']. pose proof (RS) as (RR & _). pose proof (RR _ D) as (D1 & D2 & _). cbn [fst snd] in *. destruct (fl_get i' (vs_fl i' D1)) as (f' & Ef' & _). pose proof (mate_mate pt N m1 fl M i' s' f' (vs_fl i' D1) Ef' D2) as K. rewrite Q, Em in K. injection K as -> ->. contradiction. }
        { rewrite (proj2 (R7 t T)); [exact F2|]. intros d D Q. destruct d as [i' s']. pose proof (RS) as (RR & _). pose proof (RR _ D) as (D1 & D2 & _). cbn [fst snd] in *. destruct (fl_get i' (vs_fl i' D1)) as (f' & Ef' & _). pose proof (mate_mate pt N m1 fl M i' s' f' (vs_fl i' D1) Ef' D2) as K. rewrite Q, MM in K. injection K as -> ->. contradiction. }
    + destruct (in_cone_get i I) as (e & d & f' & -> & X & Ef' & Q0 & Q1 & Q2 & Gf & _). rewrite Ef in Ef'. injection Ef' as <-. destruct (WC e d X) as (f' & Ef' & _ & _ & _ & _ & _ & _ & _ & _ & Q7 & Q8 & Q9). rewrite Ef in Ef'. injection Ef' as <-.
      pose proof (nth_lt _ _ _ X) as LT. destruct (ends d (nth_error_In _ _ X)) as (HD & RD). destruct (hz_live _ _ HD) as (LA & LB & AB). destruct (lv_lt _ LA) as (_ & NA). destruct (lv_lt _ LB) as (_ & NB).
      cases3 s S.
      * destruct (ridge_get d RD) as (f1 & j & t & g & E1 & _ & Em & J & NV & Ej & Gg & T & F & Es & Ed & _). destruct (WK j g J NV Ej) as (g' & Eg' & P1 & _ & _ & _ & _ & _ & P7). pose proof F as (F1 & F2 & F3 & F4 & F5).
        exists j, t, g'. split; [apply in_or_app; left; apply Hkeep; auto|]. split; [exact T|]. split; [exact Eg'|]. unfold facing. change (nxt 0) with 1%nat. change (prv 0) with 2%nat. rewrite P1, Q1, Q2, Q7, Em.
        split; [reflexivity|]. split; [apply (proj1 (P7 t T) e d X Em)|]. split; [congruence|]. split; [congruence|]. unfold is_corner. rewrite Q0, Q1, Q2.
        assert (LG : lv (qp g t)) by (exists j, g; split; [exact J|split; [exact Ej|apply corner_at; exact T]]). destruct (lv_lt _ LG) as (_ & NG).
        intros [Q|[Q|Q]]; [contradiction|apply F5; rewrite Q, Es; apply corner_at, nxt_lt|apply F5; rewrite Q, Ed; apply corner_at, prv_lt].
      * destruct (ring_next e LT) as (e' & R' & LT'). destruct (nth_error E e') as [d'|] eqn:X'; [|apply nth_error_None in X'; lia]. pose proof (ring_ends _ _ _ _ R' X X') as DS.
        destruct (WC e' d' X') as (c & Ec & C0 & C1 & C2 & _ & _ & _ & _ & _ & _ & _ & C9). destruct (ends d' (nth_error_In _ _ X')) as (HD' & _). destruct (hz_live _ _ HD') as (_ & LB' & AB'). destruct (lv_lt _ LB') as (_ & NB').
        exists (n0 + e')%nat, 2%nat, c. split; [apply in_or_app; right; apply (cone_in e' d' X')|]. split; [lia|]. split; [exact Ec|]. unfold facing. change (nxt 1) with 2%nat. change (prv 1) with 0%nat. change (nxt 2) with 0%nat. change (prv 2) with 1%nat.
        unfold is_corner. rewrite Q0, Q1, Q2, C0, C1, C2. split; [apply Q8; exact R'|]. split; [apply C9; exact R'|]. split; [reflexivity|]. split; [congruence|].
        intros [Q|[Q|Q]]; [congruence| |congruence]. apply (hz_no_back _ _ HD). rewrite DS, <- Q. exact HD'.
      * destruct (ring_prev e LT) as (e' & R' & LT'). destruct (nth_error E e') as [d'|] eqn:X'; [|apply nth_error_None in X'; lia]. pose proof (ring_ends _ _ _ _ R' X' X) as DS.
        destruct (WC e' d' X') as (c & Ec & C0 & C1 & C2 & _ & _ & _ & _ & _ & _ & C8 & _). destruct (ends d' (nth_error_In _ _ X')) as (HD' & _). destruct (hz_live _ _ HD') as (LA' & LB' & AB'). destruct (lv_lt _ LA') as (_ & NA').
        exists (n0 + e')%nat, 1%nat, c. split; [apply in_or_app; right; apply (cone_in e' d' X')|]. split; [lia|]. split; [exact Ec|]. unfold facing. change (nxt 1) with 2%nat. change (prv 1) with 0%nat. change (nxt 2) with 0%nat. change (prv 2) with 1%nat.
        unfold is_corner. rewrite Q0, Q1, Q2, C0, C1, C2. split; [apply Q9; exact R'|]. split; [apply C8; exact R'|]. split; [congruence|]. split; [reflexivity|].
        intros [Q|[Q|Q]]; [congruence|congruence|]. apply (hz_no_back _ _ HD). rewrite <- DS, <- Q. exact HD'.
  - assert (KX : forall i j f g s t, List.In i keep -> List.In j cone -> m i = Some f -> m j = Some g -> (s < 3)%nat -> (t < 3)%nat -> qp f (nxt s) = qp g (nxt t) -> qp f (prv s) = qp g (prv t) -> False).
    { intros i j f g s t I J Ef Eg S T A B. destruct (keep_get i I) as (h & h' & Eh & Eh' & P1 & _ & _ & _ & _ & _ & _ & Ifl & NV). rewrite Ef in Eh'. injection Eh' as <-. destruct (fl_get i Ifl) as (h2 & Eh2 & _ & _ & NP). rewrite Eh in Eh2. injection Eh2 as <-.
      destruct (in_cone_get j J) as (e & d & g' & -> & X & Eg' & Q0 & Q1 & Q2 & _). rewrite Eg in Eg'. injection Eg' as <-. rewrite P1 in A. rewrite P1 in B. cases3 t T.
      - change (nxt 0) with 1%nat in A. change (prv 0) with 2%nat in B. rewrite Q1 in A. rewrite Q2 in B. destruct (ends d (nth_error_In _ _ X)) as (_ & RD). destruct (ridge_get d RD) as (f1 & _ & _ & _ & E1 & _ & _ & _ & _ & _ & _ & _ & _ & Es & Ed & _). destruct RD as (V & Sd & _).
        rewrite Es in A. rewrite Ed in B. apply NV. rewrite (M_edge _ _ _ _ M i (fst d) h f1 s (snd d) Ifl (vs_fl _ V) Eh E1 S Sd A B). exact V.
      - change (prv 1) with 0%nat in B. rewrite Q0 in B. apply NP. rewrite <- B. apply corner_at, prv_lt.
      - change (nxt 2) with 0%nat in A. rewrite Q0 in A. apply NP. rewrite <- A. apply corner_at, nxt_lt. }
    intros i j f g s t I J Ef Eg S T A B. apply in_app_or in I, J. destruct I as [I|I], J as [J|J].
    + destruct (keep_get i I) as (h & h' & Eh & Eh' & P1 & _ & _ & _ & _ & _ & _ & Ifl & _). destruct (keep_get j J) as (k & k' & Ek & Ek' & R1 & _ & _ & _ & _ & _ & _ & Jfl & _). rewrite Ef in Eh'. injection Eh' as <-. rewrite Eg in Ek'. injection Ek' as <-.
      rewrite P1, R1 in A. rewrite P1, R1 in B. apply (M_edge _ _ _ _ M i j h k s t); auto.
    + exfalso. apply (KX i j f g s t); auto.
    + exfalso. apply (KX j i g f t s); auto.
    + destruct (in_cone_get i I) as (e & d & f' & -> & X & Ef' & Q0 & Q1 & Q2 & _). rewrite Ef in Ef'. injection Ef' as <-. destruct (in_cone_get j J) as (e' & d' & g' & -> & X' & Eg' & Q0' & Q1' & Q2' & _). rewrite Eg in Eg'. injection Eg' as <-.
      destruct (hz_live _ _ (proj1 (ends d (nth_error_In _ _ X)))) as (LA & LB & _). destruct (hz_live _ _ (proj1 (ends d' (nth_error_In _ _ X')))) as (LA' & LB' & _). destruct (lv_lt _ LA) as (_ & NA), (lv_lt _ LB) as (_ & NB), (lv_lt _ LA') as (_ & NA'), (lv_lt _ LB') as (_ & NB').
      destruct (result_path a0 E RS) as (l & Es & Ed & _ & ND). assert (NDd : NoDup (map dst E)) by (rewrite Ed; apply (Permutation_NoDup (Permutation_cons_append l a0)); exact ND).
      assert (SS : src d = src d' -> e = e'). { intros Q. apply (NoDup_nth_error (map src E)); [rewrite Es; exact ND|rewrite map_length; apply (nth_lt _ _ _ X)|]. rewrite (map_nth_error src _ _ X), (map_nth_error src _ _ X'). congruence. }
      assert (DD : dst d = dst d' -> e = e'). { intros Q. apply (NoDup_nth_error (map dst E)); [exact NDd|rewrite map_length; apply (nth_lt _ _ _ X)|]. rewrite (map_nth_error dst _ _ X), (map_nth_error dst _ _ X'). congruence. }
      cases3 s S; cases3 t T; change (nxt 0) with 1%nat in *; change (prv 0) with 2%nat in *; change (nxt 1) with 2%nat in *; change (prv 1) with 0%nat in *; change (nxt 2) with 0%nat in *; change (prv 2) with 1%nat in *; rewrite ?Q0, ?Q1, ?Q2, ?Q0', ?Q1', ?Q2' in A; rewrite ?Q0, ?Q1, ?Q2, ?Q0', ?Q1', ?Q2' in B;
        try (exfalso; congruence); f_equal; auto.
  - intros i f x I Ef L C. apply live_new in L. apply in_app_or in I. destruct I as [I|I].
    + destruct (keep_get i I) as (g & g' & Eg & Eg' & P1 & _ & _ & _ & _ & _ & _ & Ifl & NV). rewrite Ef in Eg'. injection Eg' as <-. assert (AB : above pt f x = above pt g x) by (unfold above; rewrite P1; reflexivity). rewrite AB. unfold is_corner in C. rewrite P1 in C.
      destruct L as [->|L]; [apply (not_vs i g Ifl Eg NV)|apply (M_sup _ _ _ _ M i g x Ifl Eg L C)].
    + destruct (in_cone_get i I) as (e & d & f' & -> & X & Ef' & Q0 & Q1 & Q2 & _). rewrite Ef in Ef'. injection Ef' as <-. unfold is_corner in C. unfold above. rewrite Q0, Q1, Q2 in *. destruct L as [L|L]; [tauto|]. apply hz_sup; [apply (ends d (nth_error_In _ _ X))|exact L|tauto|tauto].
Qed.
(** points that see a removed facet and are beneath the new ones *)
Lemma covered q i f : List.In i vs -> m1 i = Some f -> (forall a b, Hz a b -> vol6 (pt p) (pt a) (pt b) q <= 0) -> 0 <= vol6 (pt (qp f 0)) (pt (qp f 1)) (pt (qp f 2)) q ->
  exists u v, List.In a0 (map src E) /\ List.In u (map src E) /\ List.In v (map src E) /\ a0 <> u /\ a0 <> v /\ u <> v /\ in_tetra (pt p) (pt a0) (pt u) (pt v) q.
Proof.
  intros I Ef HB HF. destruct (result_path a0 E RS) as (l & Es & Ed & P & ND). apply NoDup_cons_iff in ND. destruct ND as (NI & ND).
  destruct (cone_cover pt p lv Hz hz_live hz_sup a0 l (pt (qp f 0)) (pt (qp f 1)) (pt (qp f 2)) q P NI) as (u & v & U & V & NUV & T).
  - destruct l as [|b l]; cbn [app path] in P; [exfalso; destruct (hz_live _ _ (proj1 P)) as (_ & _ & Q); congruence|]. destruct (hz_third _ _ (proj1 P)) as (z & LZ & Z1 & Z2). exists z. split; [exact LZ|]. cbn. intuition.
  - exact HB.
  - apply (vs_vis i f I Ef).
  - intros a LA. apply (mesh_le pt N m1 fl i f a M (vs_fl i I) Ef LA).
  - exact HF.
  - exists u, v. rewrite Es. cbn [List.In]. repeat split; auto; intros ->; contradiction.
Qed.
Lemma covered_spanned q i f : List.In i vs -> m1 i = Some f -> (forall a b, Hz a b -> vol6 (pt p) (pt a) (pt b) q <= 0) -> 0 <= vol6 (pt (qp f 0)) (pt (qp f 1)) (pt (qp f 2)) q ->
  spanned pt (live m (keep ++ cone)) q.
Proof.
  intros I Ef HB HF. destruct (covered q i f I Ef HB HF) as (u & v & A & U & V & _ & _ & _ & T). apply (spanned_tetra pt _ p a0 u v); auto using live_p; apply live_end, in_or_app; auto.
Qed.
Lemma live_beneath x : lv x -> forall a b, Hz a b -> vol6 (pt p) (pt a) (pt b) (pt x) <= 0.
Proof.
  intros L a b H. destruct (Nat.eq_dec x a) as [->|XA]; [rewrite vol6_second; lra|]. destruct (Nat.eq_dec x b) as [->|XB]; [rewrite vol6_same; lra|]. apply Rlt_le, (hz_sup a b x H L XA XB).
Qed.
Lemma old_spanned v : lv v -> spanned pt (live m (keep ++ cone)) (pt v).
Proof.
  intros L. pose proof L as (i & f & I & Ef & C). destruct (in_dec Nat.eq_dec i vs) as [V|V].
  - apply (covered_spanned (pt v) i f V Ef (live_beneath v L)). fold (ori pt (qp f 0) (qp f 1) (qp f 2) v). fold (above pt f v). rewrite above_corner by exact C. lra.
  - apply spanned_in. apply (live_keep v i f); auto. apply Hkeep. auto.
Qed.
(** a vertex of both removed and kept facets is on the horizon *)
Lemma on_horizon v i f j g : List.In i vs -> m1 i = Some f -> is_corner f v -> List.In j keep -> m1 j = Some g -> is_corner g v -> List.In v (map src E ++ map dst E).
Proof.
  intros I Ef Cf J Ej Cg. destruct (in_dec Nat.eq_dec v (map src E)) as [Q|Q]; [apply in_or_app; auto|exfalso]. apply Hkeep in J. destruct J as (J & NV).
  assert (L : lv v) by (exists i, f; auto using vs_fl). destruct (covered (pt v) i f I Ef (live_beneath v L)) as (u & w & A & U & V & N1 & N2 & N3 & T).
  { fold (ori pt (qp f 0) (qp f 1) (qp f 2) v). fold (above pt f v). rewrite above_corner by exact Cf. lra. }
  assert (LS : forall x, List.In x (map src E) -> lv x). { intros x X. apply in_map_iff in X. destruct X as (d & <- & D). apply (hz_live _ _ (proj1 (ends d D))). }
  assert (AP : apart4 N a0 u w v). { destruct (lv_lt _ (LS _ A)), (lv_lt _ (LS _ U)), (lv_lt _ (LS _ V)), (lv_lt _ L). unfold apart4. repeat split; auto; intros ->; contradiction. }
  destruct (gen_nrm pt N gen _ _ _ _ AP) as (_ & NZ & _). apply NZ. unfold ori.
  apply (tetra_flat (pt p) (pt a0) (pt u) (pt w) (pt v) (pt (qp g 0)) (pt (qp g 1)) (pt (qp g 2)) T).
  - apply (not_vs j g J Ej NV).
  - apply (mesh_le pt N m1 fl j g a0 M J Ej (LS _ A)).
  - apply (mesh_le pt N m1 fl j g u M J Ej (LS _ U)).
  - apply (mesh_le pt N m1 fl j g w M J Ej (LS _ V)).
  - apply (above_corner pt g v Cg).
Qed.
End Closed.
End Walk.
