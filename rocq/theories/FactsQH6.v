(** Quickhull: one increment keeps the surface convex and uses up a point. *)
From Verif Require Export FactsQH5.
From Coq Require Import Lra Lia List Permutation Arith Bool.
Import ListNotations.
Open Scope R_scope.

Lemma destroy_spec : forall l m i, zQHFacetListDestroy m l i = if in_dec Nat.eq_dec i l then None else m i.
Proof.
  unfold zQHFacetListDestroy. induction l as [|a l IH]; intros m i; [reflexivity|]. cbn [fold_left]. rewrite IH. destruct (in_dec Nat.eq_dec i l) as [Q|Q].
  - destruct (in_dec Nat.eq_dec i (a :: l)) as [_|Q']; [reflexivity|]. exfalso. apply Q'. right. exact Q.
  - destruct (in_dec Nat.eq_dec i (a :: l)) as [[Y|Y]|Y]; [subst a; apply upd_same|contradiction|]. apply upd_diff. intros ->. apply Y. left. reflexivity.
Qed.
Lemma total_cons m i l : total m (i :: l) = ((match m i with Some f => length (qop f) | None => 0 end) + total m l)%nat. Proof. reflexivity. Qed.
Lemma total_app m a b : total m (a ++ b) = (total m a + total m b)%nat. Proof. unfold total. rewrite map_app, list_sum_app. reflexivity. Qed.
Lemma total_ext m m' l : (forall i f, List.In i l -> m i = Some f -> exists f', m' i = Some f' /\ qop f' = qop f) -> (forall i, List.In i l -> exists f, m i = Some f) -> total m' l = total m l.
Proof. intros H K. unfold total. f_equal. apply map_ext_in. intros i I. destruct (K i I) as (f & E). destruct (H i f I E) as (f' & E' & Q). rewrite E, E', Q. reflexivity. Qed.
Lemma total_upd m i f f' fl : NoDup fl -> List.In i fl -> m i = Some f -> (length (qop f') + 1 = length (qop f))%nat -> (total (upd m i (Some f')) fl + 1 = total m fl)%nat.
Proof.
  induction fl as [|j fl IH]; intros ND I E L; [destruct I|]. apply NoDup_cons_iff in ND. destruct ND as (NI & ND). rewrite !total_cons. destruct (Nat.eq_dec j i) as [->|NE].
  - rewrite upd_same, E. assert (X : total (upd m i (Some f')) fl = total m fl). { unfold total. f_equal. apply map_ext_in. intros j J. rewrite upd_diff by (intros ->; contradiction). reflexivity. } lia.
  - rewrite upd_diff by exact NE. destruct I as [I|I]; [congruence|]. specialize (IH ND I E L). lia.
Qed.
Lemma mesh_ext pt N m m' fl : (forall i f, List.In i fl -> m i = Some f -> exists f', m' i = Some f' /\ qp f' = qp f /\ qc f' = qc f /\ qm f' = qm f /\ qn f' = qn f) -> mesh pt N m fl ->
  mesh pt N m' fl /\ forall v, live m' fl v <-> live m fl v.
Proof.
  intros H M. assert (B : forall i f', List.In i fl -> m' i = Some f' -> exists f, m i = Some f /\ qp f' = qp f /\ qc f' = qc f /\ qm f' = qm f /\ qn f' = qn f).
  { intros i f' I E. destruct (M_good _ _ _ _ M i I) as (f & Ef & _). destruct (H i f I Ef) as (f2 & E2 & Q). rewrite E in E2. injection E2 as <-. exists f. auto. }
  assert (LV : forall v, live m' fl v <-> live m fl v).
  { intros v. split; intros (i & f & I & E & C).
    - destruct (B i f I E) as (f0 & E0 & Q & _). exists i, f0. unfold is_corner in *. rewrite <- Q. auto.
    - destruct (H i f I E) as (f0 & E0 & Q & _). exists i, f0. unfold is_corner in *. rewrite Q. auto. }
  split; [|exact LV]. constructor.
  - apply (M_nodup _ _ _ _ M).
  - intros i I. destruct (M_good _ _ _ _ M i I) as (f & Ef & G & Q). destruct (H i f I Ef) as (f' & E' & P1 & P2 & P3 & P4). exists f'. split; [exact E'|]. split; [unfold good in *; rewrite P1, P4; exact G|]. rewrite P3. exact Q.
  - intros i f s I E S. destruct (B i f I E) as (f0 & E0 & P1 & P2 & P3 & P4). destruct (M_adj _ _ _ _ M i f0 s I E0 S) as (j & t & g & J & T & Eg & F). destruct (H j g J Eg) as (g' & Eg' & R1 & R2 & _). exists j, t, g'. split; [exact J|]. split; [exact T|]. split; [exact Eg'|].
    unfold facing, is_corner in *. rewrite P1, P2, R1, R2. exact F.
  - intros i j f g s t I J E Eg S T A C. destruct (B i f I E) as (f0 & E0 & P1 & _). destruct (B j g J Eg) as (g0 & Eg0 & R1 & _). rewrite P1, R1 in A. rewrite P1, R1 in C. apply (M_edge _ _ _ _ M i j f0 g0 s t); auto.
  - intros i f x I E L C. destruct (B i f I E) as (f0 & E0 & P1 & _). apply LV in L. unfold above, is_corner in *. rewrite P1 in *. apply (M_sup _ _ _ _ M i f0 x I E0 L C).
Qed.

Section Inc.
Variables (pt : nat -> vec3) (N : nat).
Hypothesis gen : generic pt N.
Hypothesis N4 : (4 <= N)%nat.
Lemma not_live m fl i f p : mesh pt N m fl -> List.In i fl -> m i = Some f -> 0 < above pt f p -> ~ live m fl p.
Proof. intros M I E A L. pose proof (mesh_le pt N m fl i f p M I E L). lra. Qed.
Lemma filter_total (m : memory) (h : nat -> bool) l : (total m (filter (fun i => negb (h i)) l) + list_sum (map (fun i => match m i with Some f => if h i then length (qop f) else 0 | None => 0 end) l) = total m l)%nat.
Proof.
  induction l as [|i l IH]; [reflexivity|]. cbn [filter map]. rewrite total_cons. change (list_sum (?a :: ?b)) with (a + list_sum b)%nat. destruct (h i); cbn [negb]; [|rewrite total_cons]; destruct (m i); lia.
Qed.
Lemma visible_run q i f p op : inv pt N q -> List.In i (q_fl q) -> q_mem q i = Some f -> qop f = op ++ [p] ->
  exists m3 d' keep vs pl, zQHVisibleSet pt (QH (upd (q_mem q) i (Some (set_op f op (qdmax f)))) (q_new q) (q_dis q) (q_vl q) (q_fl q)) p = Some (QH m3 (q_new q) d' (q_vl q) keep, Some (vs, pl)) /\
    (forall j g, List.In j (q_fl q) -> q_mem q j = Some g -> exists g', m3 j = Some g' /\ qp g' = qp g /\ qc g' = qc g /\ qm g' = qm g /\ qn g' = qn g /\ qvis g' = Rltb 0 (above pt g p) /\ (Rltb 0 (above pt g p) = false -> qop g' = qop g /\ qchk g' = false)) /\
    (forall j, List.In j keep <-> List.In j (q_fl q) /\ exists g, q_mem q j = Some g /\ Rltb 0 (above pt g p) = false) /\
    (forall j, List.In j vs <-> List.In j (q_fl q) /\ exists g, q_mem q j = Some g /\ Rltb 0 (above pt g p) = true) /\ NoDup keep /\ NoDup vs /\ List.In i vs /\
    (forall v, (d' v = true /\ exists j g, List.In j vs /\ q_mem q j = Some g /\ is_corner g v) \/ (d' v = q_dis q v /\ forall j g, List.In j vs -> q_mem q j = Some g -> ~ is_corner g v)) /\
    (forall x, List.In x pl -> (x < N)%nat /\ exists j g, List.In j vs /\ q_mem q j = Some g /\ 0 < above pt g x) /\
    (forall x j g, List.In j vs -> q_mem q j = Some g -> List.In x (qop g) -> x = p \/ List.In x pl) /\
    (length pl + total m3 keep + 1 = total (q_mem q) (q_fl q))%nat.
Proof.
  intros H I Ef Eop. pose proof (I_mesh _ _ _ H) as M. set (f1 := set_op f op (qdmax f)). set (m0 := upd (q_mem q) i (Some f1)).
  destruct (I_op _ _ _ H i f p I Ef) as (P & AP); [rewrite Eop; apply in_or_app; cbn; auto|]. pose proof (not_live _ _ _ _ _ M I Ef AP) as NL.
  assert (E0 : forall j g, List.In j (q_fl q) -> q_mem q j = Some g -> exists g0, m0 j = Some g0 /\ qp g0 = qp g /\ qc g0 = qc g /\ qm g0 = qm g /\ qn g0 = qn g /\ qvis g0 = qvis g /\ qchk g0 = qchk g /\ (j <> i -> g0 = g) /\ (forall x, List.In x (qop g0) -> List.In x (qop g)) /\ (forall x, List.In x (qop g) -> x = p \/ List.In x (qop g0))).
  { intros j g J Eg. destruct (Nat.eq_dec j i) as [->|NE].
    - rewrite Ef in Eg. injection Eg as <-. exists f1. unfold m0. rewrite upd_same. do 7 (split; [reflexivity|]). split; [congruence|]. unfold f1. cbn [set_op qop]. rewrite Eop. split; [intros x X; apply in_or_app; auto|]. intros x X. apply in_app_or in X. destruct X as [X|[X|[]]]; auto.
    - exists g. unfold m0. rewrite upd_diff by exact NE. repeat (split; [auto|]). auto. }
  assert (E0' : forall j g0, List.In j (q_fl q) -> m0 j = Some g0 -> exists g, q_mem q j = Some g /\ qp g0 = qp g).
  { intros j g0 J Eg. destruct (M_good _ _ _ _ M j J) as (g & Ej & _). destruct (E0 j g J Ej) as (g1 & E1 & Q & _). rewrite Eg in E1. injection E1 as <-. exists g. auto. }
  assert (ABV : forall (g g0 : qfacet) x, qp g0 = qp g -> above pt g0 x = above pt g x) by (intros g g0 x Q; unfold above; rewrite Q; reflexivity).
  destruct (mark_run pt N gen N4 (q_new q) p (q_fl q) m0 (M_nodup _ _ _ _ M) P) as (m2 & R1 & R2 & R3).
  { intros j J. destruct (M_good _ _ _ _ M j J) as (g & Eg & G & Q). destruct (E0 j g J Eg) as (g0 & Eg0 & P1 & P2 & P3 & P4 & P5 & P6 & _). exists g0. split; [exact Eg0|]. split; [unfold good in *; rewrite P1, P4; exact G|].
    split; [intros C; apply NL; exists j, g; unfold is_corner in *; rewrite P1 in C; auto|]. split; [rewrite P3; exact Q|]. rewrite P6. apply (I_flags _ _ _ H j g J Eg). }
  assert (E2 : forall j g, List.In j (q_fl q) -> q_mem q j = Some g -> exists g0 g2, m0 j = Some g0 /\ m2 j = Some g2 /\ qp g2 = qp g /\ qc g2 = qc g /\ qm g2 = qm g /\ qn g2 = qn g /\ qvis g2 = Rltb 0 (above pt g p) /\ (Rltb 0 (above pt g p) = false -> g2 = g) /\ qop g2 = qop g0 /\ (forall x, List.In x (qop g2) -> List.In x (qop g)) /\ (forall x, List.In x (qop g) -> x = p \/ List.In x (qop g2))).
  { intros j g J Eg. destruct (E0 j g J Eg) as (g0 & Eg0 & P1 & P2 & P3 & P4 & P5 & P6 & P7 & P8 & P9). pose proof (R3 j g0 J Eg0) as Q. rewrite (ABV g g0 p P1) in Q. exists g0. destruct (Rltb 0 (above pt g p)) eqn:V.
    - exists (set_flags g0 true true). split; [exact Eg0|]. split; [exact Q|]. cbn [set_flags qp qc qm qn qvis qop]. do 5 (split; [auto|]). split; [discriminate|]. auto.
    - exists g0. split; [exact Eg0|]. split; [exact Q|]. destruct (I_flags _ _ _ H j g J Eg) as (FV & _). do 4 (split; [assumption|]). split; [congruence|]. split; [|auto]. intros _. apply P7. intros ->. rewrite Ef in Eg. injection Eg as <-. destruct (Rltb_reflect 0 (above pt f p)); [discriminate|lra]. }
  destruct (purge_run N N4 (q_fl q) m2 (q_dis q) [] [] [] (M_nodup _ _ _ _ M)) as (m3 & d' & pl & S1 & S2 & S3 & S4 & S5 & S6).
  { intros j J. destruct (M_good _ _ _ _ M j J) as (g & Eg & _). destruct (E2 j g J Eg) as (_ & g2 & _ & E & _). exists g2. exact E. }
  cbn [app] in S1. rewrite app_nil_r in S1.
  set (keep := filter (fun i => match m2 i with Some f => negb (qvis f) | None => false end) (q_fl q)) in *. set (vs := rev (filter (fun i => match m2 i with Some f => qvis f | None => false end) (q_fl q))) in *.
  assert (KP : forall j, List.In j keep <-> List.In j (q_fl q) /\ exists g, q_mem q j = Some g /\ Rltb 0 (above pt g p) = false).
  { intros j. unfold keep. rewrite filter_In. split; intros (J & Q); split; auto.
    - destruct (M_good _ _ _ _ M j J) as (g & Eg & _). exists g. split; [exact Eg|]. destruct (E2 j g J Eg) as (_ & g2 & _ & E & _ & _ & _ & _ & V & _). rewrite E, V in Q. destruct (Rltb 0 (above pt g p)); [discriminate|reflexivity].
    - destruct Q as (g & Eg & V). destruct (E2 j g J Eg) as (_ & g2 & _ & E & _ & _ & _ & _ & V' & _). rewrite E, V', V. reflexivity. }
  assert (VP : forall j, List.In j vs <-> List.In j (q_fl q) /\ exists g, q_mem q j = Some g /\ Rltb 0 (above pt g p) = true).
  { intros j. unfold vs. rewrite <- in_rev, filter_In. split; intros (J & Q); split; auto.
    - destruct (M_good _ _ _ _ M j J) as (g & Eg & _). exists g. split; [exact Eg|]. destruct (E2 j g J Eg) as (_ & g2 & _ & E & _ & _ & _ & _ & V & _). rewrite E, V in Q. exact Q.
    - destruct Q as (g & Eg & V). destruct (E2 j g J Eg) as (_ & g2 & _ & E & _ & _ & _ & _ & V' & _). rewrite E, V', V. reflexivity. }
  assert (VX : forall j g2, List.In j (q_fl q) -> m2 j = Some g2 -> exists g, q_mem q j = Some g /\ qp g2 = qp g /\ qvis g2 = Rltb 0 (above pt g p) /\ (forall x, List.In x (qop g2) -> List.In x (qop g))).
  { intros j g2 J E. destruct (M_good _ _ _ _ M j J) as (g & Eg & _). destruct (E2 j g J Eg) as (g0 & g3 & _ & E' & Q1 & _ & _ & _ & Q5 & _ & _ & Q8 & _). rewrite E in E'. injection E' as <-. exists g. auto. }
  exists m3, d', keep, vs, pl. split; [|split; [|split; [|split; [|split; [|split; [|split; [|split; [|split; [|split]]]]]]]]].
  - unfold zQHVisibleSet. cbn [q_mem q_new q_dis q_vl q_fl]. rewrite R1. cbn [obind]. rewrite S1. reflexivity.
  - intros j g J Eg. destruct (E2 j g J Eg) as (g0 & g2 & _ & E & Q1 & Q2 & Q3 & Q4 & Q5 & Q6 & _). pose proof (S3 j g2 J E) as Q. rewrite Q5 in Q. destruct (Rltb 0 (above pt g p)) eqn:V.
    + eexists. split; [exact Q|]. cbn [set_op qp qc qm qn qvis]. do 4 (split; [assumption|]). split; [exact Q5|]. discriminate.
    + exists g2. split; [exact Q|]. do 5 (split; [assumption|]). intros _. rewrite (Q6 eq_refl). split; [reflexivity|apply (I_flags _ _ _ H j g J Eg)].
  - exact KP.
  - exact VP.
  - apply NoDup_filter, (M_nodup _ _ _ _ M).
  - apply NoDup_rev, NoDup_filter, (M_nodup _ _ _ _ M).
  - apply VP. split; [exact I|]. exists f. split; [exact Ef|]. destruct (Rltb_reflect 0 (above pt f p)); [reflexivity|contradiction].
  - intros v. destruct (S4 v) as [(D & j & g2 & J & E & V & C)|(D & C)].
    + left. split; [exact D|]. destruct (VX j g2 J E) as (g & Eg & Q1 & Q2 & _). exists j, g. split; [apply VP; split; [exact J|]; exists g; split; [exact Eg|congruence]|]. split; [exact Eg|]. unfold is_corner in *. rewrite <- Q1. exact C.
    + right. split; [exact D|]. intros j g J Eg K. apply VP in J. destruct J as (J & g' & Eg' & V). rewrite Eg in Eg'. injection Eg' as <-. destruct (E2 j g J Eg) as (g0 & g2 & _ & E & Q1 & _ & _ & _ & Q5 & _). apply (C j g2 J E); [congruence|]. unfold is_corner in *. rewrite Q1. exact K.
  - intros x X. apply S5 in X. destruct X as [[]|(j & g2 & J & E & V & X)]. destruct (VX j g2 J E) as (g & Eg & Q1 & Q2 & Q3). destruct (I_op _ _ _ H j g x J Eg (Q3 x X)) as (XN & XA). split; [exact XN|]. exists j, g. split; [apply VP; split; [exact J|]; exists g; split; [exact Eg|congruence]|auto].
  - intros x j g J Eg X. apply VP in J. destruct J as (J & g' & Eg' & V). rewrite Eg in Eg'. injection Eg' as <-. destruct (E2 j g J Eg) as (g0 & g2 & _ & E & Q1 & _ & _ & _ & Q5 & _ & _ & _ & Q9). destruct (Q9 x X) as [Y|Y]; [auto|]. right. apply S5. right. exists j, g2. split; [exact J|]. split; [exact E|]. split; [congruence|exact Y].
  - assert (T1 : (total m0 (q_fl q) + 1 = total (q_mem q) (q_fl q))%nat). { apply (total_upd _ i f); auto; [apply (M_nodup _ _ _ _ M)|]. unfold f1. cbn [set_op qop]. rewrite Eop, app_length. cbn. lia. }
    assert (T2 : total m2 (q_fl q) = total m0 (q_fl q)). { apply total_ext; [|intros j J; destruct (M_good _ _ _ _ M j J) as (g & Eg & _); destruct (E0 j g J Eg) as (g0 & Eg0 & _); exists g0; exact Eg0]. intros j g0 J Eg0. destruct (E0' j g0 J Eg0) as (g & Eg & _). destruct (E2 j g J Eg) as (g0' & g2 & Eg0' & E & _ & _ & _ & _ & _ & _ & Q & _). rewrite Eg0 in Eg0'. injection Eg0' as <-. exists g2. auto. }
    pose proof (filter_total m2 (fun j => match m2 j with Some f => qvis f | None => false end) (q_fl q)) as T3. cbv beta in T3.
    assert (T4 : filter (fun j => negb (match m2 j with Some f => qvis f | None => false end)) (q_fl q) = keep). { unfold keep. apply filter_ext_in. intros j J. destruct (M_good _ _ _ _ M j J) as (g & Eg & _). destruct (E2 j g J Eg) as (_ & g2 & _ & E & _). rewrite E. reflexivity. } rewrite T4 in T3.
    assert (T5 : total m3 keep = total m2 keep). { apply total_ext; [|intros j J; apply KP in J; destruct J as (J & g & Eg & _); destruct (E2 j g J Eg) as (_ & g2 & _ & E & _); exists g2; exact E]. intros j g2 J E. apply KP in J. destruct J as (J & g & Eg & V). pose proof (S3 j g2 J E) as Q. destruct (VX j g2 J E) as (g' & Eg' & _ & Q2 & _). rewrite Eg in Eg'. injection Eg' as <-. rewrite Q2, V in Q. exists g2. auto. }
    cbn [length] in S6. replace (map (fun i0 : nat => match m2 i0 with Some f => if match m2 i0 with Some f0 => qvis f0 | None => false end then length (qop f) else 0%nat | None => 0%nat end) (q_fl q)) with (map (fun i0 : nat => match m2 i0 with Some f => if qvis f then length (qop f) else 0%nat | None => 0%nat end) (q_fl q)) in T3 by (apply map_ext; intros j; destruct (m2 j); reflexivity). lia.
Qed.
Lemma some_above (m : memory) (x : vec3) : forall vs, (exists j g, List.In j vs /\ m j = Some g /\ 0 <= vol6 (pt (qp g 0)) (pt (qp g 1)) (pt (qp g 2)) x) \/ (forall j g, List.In j vs -> m j = Some g -> vol6 (pt (qp g 0)) (pt (qp g 1)) (pt (qp g 2)) x < 0).
Proof.
  induction vs as [|i vs [(j & g & J & E & K)|IH]]; [right; intros j g []|left; exists j, g; cbn; auto|]. destruct (m i) as [f|] eqn:E.
  - destruct (Rle_dec 0 (vol6 (pt (qp f 0)) (pt (qp f 1)) (pt (qp f 2)) x)) as [K|K]; [left; exists i, f; cbn; auto|]. right. intros j g [<-|J] Eg; [rewrite E in Eg; injection Eg as <-; lra|eauto].
  - right. intros j g [<-|J] Eg; [congruence|eauto].
Qed.
Theorem inc_run q i f : inv pt N q -> List.In i (q_fl q) -> q_mem q i = Some f -> qop f <> [] ->
  exists q', zQHInc pt q i = Some (true, q') /\ inv pt N q' /\ (total (q_mem q') (q_fl q') < total (q_mem q) (q_fl q))%nat.
Proof.
  intros H I Ef NE. destruct (@exists_last _ (qop f) NE) as (op & p & Eop). pose proof (I_mesh _ _ _ H) as M.
  destruct (I_op _ _ _ H i f p I Ef) as (P & AP); [rewrite Eop; apply in_or_app; cbn; auto|]. pose proof (not_live _ _ _ _ _ M I Ef AP) as NL0.
  destruct (visible_run q i f p op H I Ef Eop) as (m1 & d1 & keep & vs & pl & R0 & R1 & R2 & R3 & NDK & NDV & IV & R4 & R5 & R6 & R7).
  unfold zQHInc. rewrite Ef. cbn [obind]. rewrite Eop, rev_app_distr. cbn [rev app]. rewrite rev_involutive, R0. cbn [obind q_mem q_new q_dis q_vl q_fl].
  destruct (mesh_ext pt N (q_mem q) m1 (q_fl q)) as (M1 & LV1).
  { intros j g J Eg. destruct (R1 j g J Eg) as (g' & Eg' & Q1 & Q2 & Q3 & Q4 & _). exists g'. auto. } { exact M. }
  set (fl := q_fl q) in *. set (n0 := q_new q) in *. assert (Hn0 : forall j, List.In j fl -> (j < n0)%nat) by apply (I_new _ _ _ H).
  assert (BK : forall j g', List.In j fl -> m1 j = Some g' -> exists g, q_mem q j = Some g /\ qp g' = qp g /\ qvis g' = Rltb 0 (above pt g p) /\ (Rltb 0 (above pt g p) = false -> qop g' = qop g /\ qchk g' = false)).
  { intros j g' J Eg'. destruct (M_good _ _ _ _ M j J) as (g & Eg & _). destruct (R1 j g J Eg) as (g2 & E2 & Q1 & _ & _ & _ & Q5 & Q6). rewrite Eg' in E2. injection E2 as <-. exists g. auto. }
  assert (ABV : forall (g g0 : qfacet) x, qp g0 = qp g -> above pt g0 x = above pt g x) by (intros g g0 x Q; unfold above; rewrite Q; reflexivity).
  assert (Hpl : ~ live m1 fl p) by (rewrite LV1; exact NL0).
  assert (Hvis : forall j g, List.In j fl -> m1 j = Some g -> qvis g = Rltb 0 (above pt g p)) by (intros j g J Eg; destruct (BK j g J Eg) as (g0 & _ & Q1 & Q2 & _); rewrite (ABV g0 g p Q1); exact Q2).
  assert (Hvs : forall j, List.In j vs <-> List.In j fl /\ exists g, m1 j = Some g /\ qvis g = true).
  { intros j. rewrite R3. split; intros (J & g & Eg & V); split; auto.
    - destruct (R1 j g J Eg) as (g' & Eg' & _ & _ & _ & _ & Q5 & _). exists g'. split; [exact Eg'|congruence].
    - destruct (BK j g J Eg) as (g0 & Eg0 & _ & Q2 & _). exists g0. split; [exact Eg0|congruence]. }
  assert (Hkeep : forall j, List.In j keep <-> List.In j fl /\ ~ List.In j vs).
  { intros j. rewrite R2. split; intros (J & Q); split; auto.
    - destruct Q as (g & Eg & V). intros K. apply R3 in K. destruct K as (_ & g' & Eg' & V'). congruence.
    - destruct (M_good _ _ _ _ M j J) as (g & Eg & _). exists g. split; [exact Eg|]. destruct (Rltb 0 (above pt g p)) eqn:V; [|reflexivity]. exfalso. apply Q, R3. split; [exact J|]. exists g. auto. }
  assert (NEV : vs <> []) by (intros Q; rewrite Q in IV; destruct IV).
  destruct (horizon_run pt N gen N4 m1 fl vs n0 p d1 M1 Hn0 P Hpl Hvs Hvis NDV NEV) as (a0 & E & mh & dd & X1 & X2 & X3 & X4).
  rewrite X1. cbn [obind h_mem h_new h_dis h_cone]. set (cone := seq n0 (length E)) in *.
  pose proof (live_new pt N gen N4 m1 fl vs n0 p d1 M1 P Hpl Hvs Hvis a0 E mh keep X2 X4 Hkeep) as LN.
  pose proof (mesh_new pt N gen N4 m1 fl vs n0 p d1 M1 Hn0 P Hpl Hvs Hvis a0 E mh keep X2 X4 Hkeep NDK) as MN.
  assert (CG : forall j, List.In j cone -> exists e d f, j = (n0 + e)%nat /\ nth_error E e = Some d /\ mh j = Some f /\ qp f 0 = p /\ qp f 1 = dsrc m1 d /\ qp f 2 = ddst m1 d /\ good pt N f /\ qop f = [] /\ qvis f = false /\ qchk f = false /\ (forall s, (s < 3)%nat -> qm f s = false)).
  { intros j J. eapply in_cone_get; eassumption. }
  assert (KG : forall j, List.In j keep -> exists g g', m1 j = Some g /\ mh j = Some g' /\ qp g' = qp g /\ qn g' = qn g /\ qop g' = qop g /\ qvis g' = false /\ qchk g' = qchk g /\ (forall t, (t < 3)%nat -> qm g' t = false) /\ good pt N g' /\ List.In j fl /\ ~ List.In j vs).
  { intros j J. eapply keep_get; eassumption. }
  assert (PLX : forall x, List.In x pl -> ~ live m1 fl x).
  { intros x X L. destruct (R5 x X) as (_ & j & g & J & Eg & A). apply LV1 in L. apply R3 in J. pose proof (mesh_le pt N (q_mem q) fl j g x M (proj1 J) Eg L). lra. }
  assert (ENDS : forall d, List.In d E -> live m1 fl (dsrc m1 d) /\ live m1 fl (ddst m1 d)).
  { intros d D. assert (RD : ridge m1 vs d) by (apply X4; exact D). destruct (hz_live pt N gen m1 fl vs p d1 M1 P Hpl Hvs Hvis (dsrc m1 d) (ddst m1 d)) as (A & B & _); [exists d; auto|]. auto. }
  destruct (assign_all pt N gen N4 cone mh pl) as (ma & Y1 & Y2 & Y3 & Y4 & Y5).
  { apply seq_NoDup. } { intros j J. destruct (CG j J) as (e & d & c & _ & _ & Ec & _ & _ & _ & G & _). exists c. auto. }
  { intros j c x J Ec X. split; [apply (R5 x X)|]. destruct (CG j J) as (e & d & c' & _ & Xe & Ec' & Q0 & Q1 & Q2 & _). rewrite Ec in Ec'. injection Ec' as <-. destruct (ENDS d (nth_error_In _ _ Xe)) as (LA & LB).
    destruct (Nat.eq_dec x (qp c 0)) as [Q|Q]; [auto|]. left. intros [C|[C|C]]; [contradiction| |]; apply (PLX x X); rewrite C; [rewrite Q1|rewrite Q2]; assumption. }
  rewrite Y1. cbn [obind]. eexists. split; [reflexivity|]. set (m4 := zQHFacetListDestroy ma vs).
  assert (DK : forall j, List.In j keep -> m4 j = mh j).
  { intros j J. unfold m4. rewrite destroy_spec. pose proof J as K. apply Hkeep in K. destruct K as (K & K'). destruct (in_dec Nat.eq_dec j vs) as [Q|_]; [contradiction|]. apply Y2. intros Q. apply in_seq in Q. pose proof (Hn0 j K). lia. }
  assert (DC : forall j c, List.In j cone -> mh j = Some c -> exists c', m4 j = Some c' /\ alike_facet c c' /\ (forall x, List.In x (qop c') -> List.In x pl /\ 0 < above pt c x) /\ ma j = Some c').
  { intros j c J Ec. destruct (Y3 j c J Ec) as (c' & Ec' & A & O). exists c'. destruct (CG j J) as (e & d & c2 & _ & _ & Ec2 & _ & _ & _ & _ & Oc & _). rewrite Ec in Ec2. injection Ec2 as <-.
    split; [|split; [exact A|split; [|exact Ec']]].
    - unfold m4. rewrite destroy_spec. destruct (in_dec Nat.eq_dec j vs) as [Q|_]; [|exact Ec']. exfalso. apply Hvs in Q. destruct Q as (Q & _). apply Hn0 in Q. apply in_seq in J. lia.
    - intros x X. destruct (O x X) as [Q|Q]; [rewrite Oc in Q; destruct Q|exact Q]. }
  destruct (mesh_ext pt N mh m4 (keep ++ cone)) as (M4 & LV4).
  { intros j g J Eg. apply in_app_or in J. destruct J as [J|J].
    - exists g. rewrite (DK j J). auto.
    - destruct (DC j g J Eg) as (c' & Ec' & (A1 & A2 & A3 & A4 & _) & _). exists c'. auto. } { exact MN. }
  assert (LP : live m4 (keep ++ cone) p). { apply LV4. eapply live_p; eassumption. }
  assert (OS : forall v, live (q_mem q) fl v -> spanned pt (live m4 (keep ++ cone)) (pt v)).
  { intros v L. apply LV1 in L. apply (spanned_mono pt (live mh (keep ++ cone))); [intros u U; apply spanned_in, LV4, U|]. exact (old_spanned pt N gen N4 m1 fl vs n0 p d1 M1 P Hpl Hvs Hvis a0 E mh keep X2 X4 Hkeep v L). }
  assert (OS' : forall x, spanned pt (live (q_mem q) fl) x -> spanned pt (live m4 (keep ++ cone)) x) by (intros x; apply spanned_mono; exact OS).
  split; [|].
  - constructor; cbn [q_mem q_new q_dis q_vl q_fl].
    + exact M4.
    + intros j J. apply in_app_or in J. destruct J as [J|J]; [apply Hkeep in J; pose proof (Hn0 j (proj1 J)); lia|apply in_seq in J; lia].
    + intros j g J Eg. apply in_app_or in J. destruct J as [J|J].
      * rewrite (DK j J) in Eg. destruct (KG j J) as (g1 & g' & Eg1 & Eg' & _ & _ & _ & V & C & _ & _ & Jf & NV). rewrite Eg in Eg'. injection Eg' as <-. split; [exact V|]. rewrite C. destruct (BK j g1 Jf Eg1) as (g0 & Eg0 & _ & Q2 & Q3). apply Q3. destruct (Rltb 0 (above pt g0 p)) eqn:K; [|reflexivity]. exfalso. apply NV, R3. split; [exact Jf|]. exists g0. auto.
      * destruct (CG j J) as (e & d & c & _ & _ & Ec & _ & _ & _ & _ & _ & V & C & _). destruct (DC j c J Ec) as (c' & Ec' & (A1 & A2 & A3 & A4 & A5 & A6) & _). rewrite Eg in Ec'. injection Ec' as <-. split; congruence.
    + intros j g x J Eg X. apply in_app_or in J. destruct J as [J|J].
      * rewrite (DK j J) in Eg. destruct (KG j J) as (g1 & g' & Eg1 & Eg' & P1 & _ & O & _ & _ & _ & _ & Jf & NV). rewrite Eg in Eg'. injection Eg' as <-. destruct (BK j g1 Jf Eg1) as (g0 & Eg0 & Q1 & _ & Q3).
        assert (K : Rltb 0 (above pt g0 p) = false). { destruct (Rltb 0 (above pt g0 p)) eqn:K; [|reflexivity]. exfalso. apply NV, R3. split; [exact Jf|]. exists g0. auto. }
        destruct (Q3 K) as (Q4 & _). rewrite O, Q4 in X. rewrite (ABV g0 g x) by congruence. apply (I_op _ _ _ H j g0 x Jf Eg0 X).
      * destruct (CG j J) as (e & d & c & _ & _ & Ec & _). destruct (DC j c J Ec) as (c' & Ec' & (A1 & _) & O & _). rewrite Eg in Ec'. injection Ec' as <-. destruct (O x X) as (XP & XA). split; [apply (R5 x XP)|]. rewrite (ABV c g x A1). exact XA.
    + intros x XN. destruct (I_cover _ _ _ H x XN) as [S|(j & g & J & Eg & X)]; [left; auto|]. destruct (in_dec Nat.eq_dec j vs) as [V|V].
      * destruct (R6 x j g V Eg X) as [->|XP]; [left; apply spanned_in, LP|]. destruct (Y4 x XP) as [(k & c & K & Ec & ->)|[(k & c & K & Ec & O)|B]].
        { left. destruct (CG k K) as (e & d & c2 & _ & _ & Ec2 & Q0 & _). rewrite Ec in Ec2. injection Ec2 as <-. rewrite Q0. apply spanned_in, LP. }
        { right. destruct (CG k K) as (e & d & c2 & _ & _ & Ec2 & _). destruct (DC k c2 K Ec2) as (c3 & Ec3 & _ & _ & Ec4). rewrite Ec in Ec4. injection Ec4 as <-. exists k, c. split; [apply in_or_app; auto|]. auto. }
        left. apply (spanned_mono pt (live mh (keep ++ cone))); [intros u U; apply spanned_in, LV4, U|]. destruct (R5 x XP) as (_ & j' & g' & J' & Eg' & A'). pose proof J' as J2. apply R3 in J2. destruct J2 as (J2 & _). destruct (R1 j' g' J2 Eg') as (g1 & Eg1 & Q1 & _).
        eapply (covered_spanned pt N gen N4 m1 fl vs n0 p d1 M1 P Hpl Hvs Hvis a0 E mh keep X2 X4 (pt x) j' g1 J' Eg1).
        { intros a b (d & RD & -> & ->). assert (D : List.In d E). { eapply (result_all pt N gen N4 m1 fl vs p d1 M1 P Hpl Hvs Hvis a0 E d X4 RD). } destruct (In_nth_error _ _ D) as (e & Xe). pose proof (cone_in N N4 n0 p P E e d Xe) as K. destruct X2 as (_ & _ & C). destruct (C e d Xe) as (c & Ec & Q0' & Q1' & Q2' & _).
          specialize (B _ c K Ec). unfold above, ori in B. rewrite Q0', Q1', Q2' in B. lra. }
        { rewrite Q1. unfold above, ori in A'. lra. }
      * right. exists j. destruct (M_good _ _ _ _ M j J) as (g2 & Eg2 & _). rewrite Eg in Eg2. injection Eg2 as <-. assert (JK : List.In j keep) by (apply Hkeep; auto). destruct (KG j JK) as (g1 & g' & Eg1 & Eg' & _ & _ & O & _). destruct (BK j g1 J Eg1) as (g0 & Eg0 & _ & _ & Q3). rewrite Eg in Eg0. injection Eg0 as <-.
        assert (K : Rltb 0 (above pt g p) = false). { destruct (Rltb 0 (above pt g p)) eqn:K; [|reflexivity]. exfalso. apply V, R3. split; [exact J|]. exists g. auto. }
        exists g'. split; [apply in_or_app; auto|]. split; [rewrite (DK j JK); exact Eg'|]. rewrite O, (proj1 (Q3 K)). exact X.
    + intros v L. apply LV4, LN in L. apply in_or_app. destruct L as [->|L]; [cbn; auto|]. left. apply LV1 in L. apply (I_live _ _ _ H v L).
    + intros v V. apply in_app_or in V. destruct V as [V|[<-|[]]].
      * destruct (I_vl _ _ _ H v V) as (VN & VS & VD). split; [exact VN|]. split; [apply OS'; exact VS|]. destruct (X3 v) as (D1 & D2).
        assert (VP : v <> p). { intros ->. assert (K : vol6 (pt (qp f 0)) (pt (qp f 1)) (pt (qp f 2)) (pt p) <= 0) by (apply (spanned_beneath pt (live (q_mem q) fl)); [intros u U; apply (mesh_le pt N (q_mem q) fl i f u M I Ef U)|exact VS]). unfold above, ori in AP. lra. }
        destruct (in_dec Nat.eq_dec v (map (dsrc m1) E ++ map (ddst m1) E)) as [Q|Q].
        { split; [intros _; apply LV4; exact (live_end pt N N4 m1 fl vs n0 p d1 P E mh keep X2 v Q)|intros _; apply D1; exact Q]. }
        rewrite (D2 Q). split.
        { intros D. destruct (R4 v) as [(D' & _)|(D' & C)]; [congruence|]. rewrite D in D'. symmetry in D'. apply VD in D'. destruct D' as (j & g & J & Eg & Cg). apply LV4. destruct (in_dec Nat.eq_dec j vs) as [Y|Y]; [exfalso; apply (C j g Y Eg Cg)|].
          destruct (R1 j g J Eg) as (g' & Eg' & Q1 & _). eapply (live_keep pt N gen m1 fl vs n0 p M1 P Hpl Hvs Hvis E mh keep X2 Hkeep v j g'); [apply Hkeep; auto|exact Eg'|unfold is_corner in *; rewrite Q1; exact Cg]. }
        { intros L. apply LV4 in L. pose proof L as (j & g & J & Eg & Cg). apply in_app_or in J. destruct J as [J|J].
          - destruct (KG j J) as (g1 & g' & Eg1 & Eg' & P1 & _ & _ & _ & _ & _ & _ & Jf & NV). rewrite Eg in Eg'. injection Eg' as <-. assert (C1 : is_corner g1 v) by (unfold is_corner in *; rewrite <- P1; exact Cg).
            destruct (R4 v) as [(D' & j' & g'' & J' & Eg'' & C')|(D' & C)].
            + exfalso. apply Q. pose proof J' as J2. apply R3 in J2. destruct J2 as (J2 & _). destruct (R1 j' g'' J2 Eg'') as (g3 & Eg3 & Q1 & _).
              eapply (on_horizon pt N gen N4 m1 fl vs p d1 M1 P Hpl Hvs Hvis a0 E keep X4 Hkeep v j' g3 j g1 J' Eg3); [unfold is_corner in *; rewrite Q1; exact C'|exact J|exact Eg1|exact C1].
            + rewrite D'. apply VD. destruct (BK j g1 Jf Eg1) as (g0 & Eg0 & Q1 & _). exists j, g0. split; [exact Jf|]. split; [exact Eg0|]. unfold is_corner in *. rewrite <- Q1. exact C1.
          - exfalso. destruct (CG j J) as (e & d & c & _ & Xe & Ec & Q0 & Q1 & Q2 & _). rewrite Eg in Ec. injection Ec as <-. apply Q. apply in_or_app. destruct Cg as [C|[C|C]]; [rewrite Q0 in C; contradiction|left; rewrite C, Q1|right; rewrite C, Q2]; apply in_map, (nth_error_In _ _ Xe). }
      * split; [exact P|]. split; [apply spanned_in, LP|]. split; [intros _; exact LP|]. intros _. destruct (X3 p) as (D1 & D2). assert (Q : ~ List.In p (map (dsrc m1) E ++ map (ddst m1) E)).
        { intros Q. apply in_app_or in Q. destruct Q as [Q|Q]; apply in_map_iff in Q; destruct Q as (d & Q & D); destruct (ENDS d D) as (LA & LB); apply Hpl; rewrite <- Q; assumption. }
        rewrite (D2 Q). destruct (R4 p) as [(_ & j & g & J & Eg & C)|(D' & _)]; [exfalso; apply NL0; apply R3 in J; exists j, g; split; [apply J|auto]|]. rewrite D'. destruct (q_dis q p) eqn:K; [|reflexivity]. exfalso. apply (I_dis _ _ _ H) in K. destruct (I_vl _ _ _ H p K) as (_ & VS & _).
        assert (K' : vol6 (pt (qp f 0)) (pt (qp f 1)) (pt (qp f 2)) (pt p) <= 0) by (apply (spanned_beneath pt (live (q_mem q) fl)); [intros u U; apply (mesh_le pt N (q_mem q) fl i f u M I Ef U)|exact VS]). unfold above, ori in AP. lra.
    + apply NoDup_app_comm_one; [apply (I_vlnd _ _ _ H)|]. intros K. destruct (I_vl _ _ _ H p K) as (_ & VS & _).
      assert (K' : vol6 (pt (qp f 0)) (pt (qp f 1)) (pt (qp f 2)) (pt p) <= 0) by (apply (spanned_beneath pt (live (q_mem q) fl)); [intros u U; apply (mesh_le pt N (q_mem q) fl i f u M I Ef U)|exact VS]). unfold above, ori in AP. lra.
    + intros v D. destruct (X3 v) as (D1 & D2). destruct (in_dec Nat.eq_dec v (map (dsrc m1) E ++ map (ddst m1) E)) as [Q|Q]; [rewrite (D1 Q) in D; discriminate|]. rewrite (D2 Q) in D. apply in_or_app. left. destruct (R4 v) as [(_ & j & g & J & Eg & C)|(D' & _)].
      * apply (I_live _ _ _ H). exists j, g. apply R3 in J. split; [apply J|auto].
      * apply (I_dis _ _ _ H). congruence.
    + destruct X4 as (_ & _ & _ & L2). unfold cone. destruct (length E); [lia|]. cbn. destruct keep; discriminate.
    + intros x K. destruct (some_above m1 x vs) as [(j' & g1 & J' & Eg1 & K1)|K1].
      * apply (spanned_mono pt (live mh (keep ++ cone))); [intros u U; apply spanned_in, LV4, U|].
        eapply (covered_spanned pt N gen N4 m1 fl vs n0 p d1 M1 P Hpl Hvs Hvis a0 E mh keep X2 X4 x j' g1 J' Eg1); [|exact K1].
        intros a b (d & RD & -> & ->). assert (D : List.In d E). { eapply (result_all pt N gen N4 m1 fl vs p d1 M1 P Hpl Hvs Hvis a0 E d X4 RD). } destruct (In_nth_error _ _ D) as (e & Xe). pose proof (cone_in N N4 n0 p P E e d Xe) as KC. destruct X2 as (_ & _ & C). destruct (C e d Xe) as (c & Ec & Q0' & Q1' & Q2' & _).
        destruct (DC _ c KC Ec) as (c' & Ec' & (A1 & _) & _). specialize (K _ c' (in_or_app _ _ _ (or_intror KC)) Ec'). rewrite A1, Q0', Q1', Q2' in K. exact K.
      * apply OS', (I_full _ _ _ H). intros j g J Eg. destruct (R1 j g J Eg) as (g' & Eg' & Q1 & _). destruct (in_dec Nat.eq_dec j vs) as [Y|Y]; [rewrite <- Q1; apply Rlt_le, (K1 j g' Y Eg')|].
        assert (JK : List.In j keep) by (apply Hkeep; auto). destruct (KG j JK) as (g1 & g2 & Eg1 & Eg2 & P1 & _). rewrite Eg' in Eg1. injection Eg1 as <-. rewrite <- Q1, <- P1. apply (K j g2); [apply in_or_app; auto|rewrite (DK j JK); exact Eg2].
  - cbn [q_mem q_fl]. rewrite total_app.
    assert (T1 : total m4 keep = total m1 keep). { apply total_ext; [|intros j J; destruct (KG j J) as (g1 & _ & Eg1 & _); exists g1; exact Eg1]. intros j g J Eg. destruct (KG j J) as (g1 & g' & Eg1 & Eg' & _ & _ & O & _). rewrite Eg in Eg1. injection Eg1 as <-. exists g'. rewrite (DK j J). auto. }
    assert (T2 : total m4 cone = total ma cone). { unfold total. f_equal. apply map_ext_in. intros j J. destruct (CG j J) as (e & d & c & _ & _ & Ec & _). destruct (DC j c J Ec) as (c' & Ec' & _ & _ & Ec2). rewrite Ec', Ec2. reflexivity. }
    assert (T3 : total mh cone = 0%nat). { unfold total. assert (K : forall l, incl l cone -> list_sum (map (fun i => match mh i with Some f => length (qop f) | None => 0%nat end) l) = 0%nat); [|apply K, incl_refl]. induction l as [|j l IH]; intros L; [reflexivity|]. cbn [map]. change (list_sum (?a :: ?b)) with (a + list_sum b)%nat. rewrite IH by (intros x X; apply L; right; exact X). destruct (CG j (L j (or_introl eq_refl))) as (e & d & c & _ & _ & Ec & _ & _ & _ & _ & O & _). rewrite Ec, O. reflexivity. }
    rewrite T1, T2. rewrite T3 in Y5. lia.
Qed.
End Inc.
