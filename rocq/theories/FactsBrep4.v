(** The three ways of reconfiguring a face. *)
From Verif Require Import Base Spec SpecBrep ModelBrep FactsAlg FactsVec FactsBrep FactsBrep2 FactsBrep3.
From Coq Require Import List Lia Lra Psatz.
Import ListNotations.
Open Scope R_scope.

Definition er (b : brep) (e p u v : nat) : R := if Nat.eqb p e then match br_e b e with Some c => run c u v | None => 0 end else 0.
Lemma face_run_er b x y z p q r n e : face_run b (BF (x, y, z) (p, q, r) n) e = er b e p y z + er b e q z x + er b e r x y.
Proof. reflexivity. Qed.
Lemma er_ne b e p u v : p <> e -> er b e p u v = 0.
Proof. intros H. unfold er. rewrite (proj2 (Nat.eqb_neq p e) H). reflexivity. Qed.
Lemma old_lt b1 e u v : cutstate b1 -> fit b1 e u v -> (e < br_next b1)%nat.
Proof. intros CS (I & _). apply (cs_e _ CS e I). Qed.
Lemma er_uncut b1 b e p u v : cutstate b1 -> mid b1 b -> fit b1 p u v -> ~ hgt b1 u * hgt b1 v < 0 -> er (sh b) e p u v = er b1 e p u v.
Proof.
  intros CS M F H. unfold er. destruct (Nat.eqb_spec p e) as [<-|]; [|reflexivity]. cbn.
  rewrite (md_e _ _ M) by (eapply old_lt; eassumption). destruct (fit_uncut _ _ _ _ CS F H) as (c & Hc & _ & S & _). rewrite Hc. cbn.
  rewrite (mid_shr _ _ _ M), S. reflexivity.
Qed.
Lemma er_cut b1 b e p u v : cutstate b1 -> mid b1 b -> fit b1 p u v -> hgt b1 u < 0 -> 0 < hgt b1 v ->
  forall c x, br_e b1 p = Some c -> ec_cut c = Some x -> er (sh b) e p u x = er b1 e p u v /\ er (sh b) e p x u = er b1 e p v u.
Proof.
  intros CS M F HU HV c x Hc Hx. unfold er. destruct (Nat.eqb_spec p e) as [<-|]; [|auto]. cbn.
  rewrite (md_e _ _ M) by (eapply old_lt; eassumption).
  destruct (fit_cut _ _ _ _ CS F HU HV) as (c' & x' & Hc' & Hx' & _ & _ & _ & _ & R1 & R2).
  rewrite Hc in Hc'. injection Hc' as <-. rewrite Hx in Hx'. injection Hx' as <-. rewrite Hc. cbn. rewrite (mid_shr _ _ _ M). auto.
Qed.
Lemma er_notbelow b1 e p u v : fit b1 p u v -> below b1 e -> 0 <= hgt b1 u -> 0 <= hgt b1 v -> er b1 e p u v = 0.
Proof.
  intros F B HU HV. destruct (Nat.eq_dec p e) as [<-|N]; [|apply er_ne; assumption]. destruct (fit_below _ _ _ _ F B); lra.
Qed.

Lemma in_elist_lt b1 b e : cutstate b1 -> mid b1 b -> List.In e (elist b) -> (e < br_next b)%nat.
Proof.
  intros CS M I. destruct (md_new _ _ M) as (new & E & N). rewrite E in I. apply in_app_or in I. destruct I as [I|I].
  - apply (cs_e _ CS) in I. pose proof (md_n _ _ M). lia.
  - apply N in I. lia.
Qed.
Lemma newEdge_mid b1 b x y : cutstate b1 -> mid b1 b -> List.In x (vlist b1) -> List.In y (vlist b1) -> hgt b1 x <= 0 -> hgt b1 y <= 0 -> mid b1 (fst (newEdge b x y)).
Proof.
  intros CS M Ix Iy Hx Hy. pose proof (md_n _ _ M) as MN. constructor; cbn.
  - apply (md_v _ _ M).
  - apply (md_vl _ _ M).
  - lia.
  - intros e He. rewrite upd_other by lia. apply (md_e _ _ M). assumption.
  - rewrite <- (rev_involutive (elist b ++ _)), rev_app_distr. apply NoDup_rev. cbn. constructor; [|apply NoDup_rev; apply (md_nd _ _ M)].
    rewrite <- in_rev. intros I. apply (in_elist_lt b1) in I; [lia|assumption|assumption].
  - destruct (md_new _ _ M) as (new & E & N). exists (new ++ [br_next b]). rewrite E, app_assoc. split; [reflexivity|].
    intros e I. apply in_app_or in I. destruct I as [I|[<-|[]]].
    + destruct (N e I) as (B & u & v & Q). split; [lia|]. exists u, v. rewrite upd_other by lia. assumption.
    + split; [lia|]. exists x, y. rewrite upd_same. auto.
Qed.
Lemma newEdge_ext b x y : ext b (fst (newEdge b x y)).
Proof.
  constructor; cbn; [lia| |].
  - intros e He. apply upd_other. lia.
  - exists [br_next b]. split; [reflexivity|]. intros e [<-|[]]. lia.
Qed.
Lemma ext_trans b b' b'' : ext b b' -> ext b' b'' -> ext b b''.
Proof.
  intros A B. pose proof (ex_n _ _ A). pose proof (ex_n _ _ B). constructor; [lia| |].
  - intros e He. rewrite (ex_e _ _ B) by lia. apply (ex_e _ _ A). assumption.
  - destruct (ex_l _ _ A) as (n1 & E1 & N1). destruct (ex_l _ _ B) as (n2 & E2 & N2). exists (n1 ++ n2). rewrite E2, E1, app_assoc. split; [reflexivity|].
    intros e I. apply in_app_or in I. destruct I as [I|I]; [apply N1; assumption|apply N2 in I; lia].
Qed.
Lemma ext_refl b : ext b b.
Proof. constructor; auto. exists []. rewrite app_nil_r. split; [reflexivity|]. intros e []. Qed.
Lemma cutOf_mid b1 b e u v c : cutstate b1 -> mid b1 b -> fit b1 e u v -> br_e b1 e = Some c -> br_e b e = Some c.
Proof. intros CS M F H. rewrite (md_e _ _ M); [assumption|eapply old_lt; eassumption]. Qed.
(** an old edge in a piece *)
Lemma old_side b1 b' e u v c u' v' : cutstate b1 -> mid b1 b' -> fit b1 e u v -> br_e b1 e = Some c -> joins (shr b1 c) u' v' ->
  List.In e (elist b') /\ exists c, br_e b' e = Some c /\ joins (shr b' c) u' v'.
Proof.
  intros CS M F H J. split.
  - destruct (md_new _ _ M) as (new & E & _). rewrite E. apply in_or_app. left. apply F.
  - exists c. split; [eapply cutOf_mid; eassumption|]. rewrite (mid_shr _ _ _ M). assumption.
Qed.
Lemma new_side b1 b' e u v : mid b1 b' -> List.In e (elist b') -> br_e b' e = Some (EGC u v None) -> forall u' v', (u' = u /\ v' = v) \/ (u' = v /\ v' = u) ->
  List.In e (elist b') /\ exists c, br_e b' e = Some c /\ joins (shr b' c) u' v'.
Proof. intros M I H u' v' J. split; [assumption|]. exists (EGC u v None). split; [assumption|]. cbn. unfold joins. cbn. destruct J as [[-> ->]|[-> ->]]; tauto. Qed.
Lemma joins_sym c u v : joins c u v -> joins c v u.
Proof. unfold joins. tauto. Qed.
(** a face from its parts *)
Lemma pface_of b1 b' x y z p q r n : mid b1 b' ->
  List.In x (vlist b1) -> List.In y (vlist b1) -> List.In z (vlist b1) -> hgt b1 x <= 0 -> hgt b1 y <= 0 -> hgt b1 z <= 0 ->
  (List.In p (elist b') /\ exists c, br_e b' p = Some c /\ joins (shr b' c) y z) ->
  (List.In q (elist b') /\ exists c, br_e b' q = Some c /\ joins (shr b' c) z x) ->
  (List.In r (elist b') /\ exists c, br_e b' r = Some c /\ joins (shr b' c) x y) -> pface b' (BF (x, y, z) (p, q, r) n).
Proof.
  intros M Ix Iy Iz Hx Hy Hz P Q T i Hi. rewrite (md_vl _ _ M).
  destruct i as [|[|[|i]]]; [| | |lia]; cbn [get3 bf_v bf_e nxt]; rewrite (mid_hgt _ _ _ M); tauto.
Qed.

Lemma kept_swap23 x y z dx dy dz p : kept (x, y, z) (dx, dy, dz) p <-> kept (x, z, y) (dx, dz, dy) p.
Proof. split; intros (s0 & s1 & s2 & (A & B & C & D) & E & F); exists s0, s2, s1; (split; [unfold weights3; lra|]); (split; [|lra]); subst p; unfold comb3, comb2; vxy; ring. Qed.
Lemma in_tri_swap23 x y z p : in_tri (x, y, z) p <-> in_tri (x, z, y) p.
Proof. split; intros (s0 & s1 & s2 & (A & B & C & D) & E); exists s0, s2, s1; (split; [unfold weights3; lra|]); subst p; unfold comb3, comb2; vxy; ring. Qed.

Section Cut.
Variables (b1 b : brep) (CS1 : cutstate b1) (M : mid b1 b).
Variables (x y z p q r : nat) (n : vec3).
Hypotheses (Ix : List.In x (vlist b1)) (Iy : List.In y (vlist b1)) (Iz : List.In z (vlist b1)).
Hypotheses (Fp : fit b1 p y z) (Fq : fit b1 q z x) (Fr : fit b1 r x y).
Let f := BF (x, y, z) (p, q, r) n.

Lemma runs2 b' g1 g2 e : runs b' [g1; g2] e = face_run (sh b') g1 e + face_run (sh b') g2 e.
Proof. unfold runs. cbn. ring. Qed.
Lemma runs1 b' g1 e : runs b' [g1] e = face_run (sh b') g1 e.
Proof. unfold runs. cbn. ring. Qed.

(** ** no corner beyond *)
Lemma resK : hgt b1 x <= 0 -> hgt b1 y <= 0 -> hgt b1 z <= 0 -> cutres b1 b f b [f].
Proof.
  intros Hx Hy Hz.
  destruct (fit_uncut _ _ _ _ CS1 Fp) as (cp & Hp & _ & Sp & Jp); [nra|].
  destruct (fit_uncut _ _ _ _ CS1 Fq) as (cq & Hq & _ & Sq & Jq); [nra|].
  destruct (fit_uncut _ _ _ _ CS1 Fr) as (cr & Hr & _ & Sr & Jr); [nra|].
  constructor.
  - exact M.
  - apply ext_refl.
  - intros g [<-|[]]. apply (pface_of b1); try assumption.
    + apply (old_side b1 b p y z cp); try assumption. rewrite Sp. assumption.
    + apply (old_side b1 b q z x cq); try assumption. rewrite Sq. assumption.
    + apply (old_side b1 b r x y cr); try assumption. rewrite Sr. assumption.
  - intros g [<-|[]]. exists 1. split; [lra|]. vxy; ring.
  - intros g u [<-|[]] (s0 & s1 & s2 & (A & B & C & D) & E). exists s0, s1, s2. split; [repeat split; assumption|]. split; [assumption|]. nra.
  - intros u (s0 & s1 & s2 & (A & B & C & D) & E & _) _. exists f. split; [now left|]. exists s0, s1, s2. split; [repeat split; assumption|assumption].
  - intros e I B. rewrite runs1. unfold f. rewrite !face_run_er. rewrite (er_uncut b1 b e p), (er_uncut b1 b e q), (er_uncut b1 b e r) by (try assumption; nra). reflexivity.
  - intros e He. rewrite runs1. unfold f. rewrite face_run_er. pose proof (old_lt _ _ _ _ CS1 Fp). pose proof (old_lt _ _ _ _ CS1 Fq). pose proof (old_lt _ _ _ _ CS1 Fr).
    rewrite !er_ne by lia. ring.
  - intros e He. lia.
Qed.
(** ** no corner beneath, one beyond *)
Lemma resD : 0 <= hgt b1 x -> 0 <= hgt b1 y -> 0 <= hgt b1 z -> 0 < hgt b1 x \/ 0 < hgt b1 y \/ 0 < hgt b1 z -> cutres b1 b f b [].
Proof.
  intros Hx Hy Hz H. constructor; try (intros ? []; fail); try (intros ? ? []; fail).
  - exact M.
  - apply ext_refl.
  - intros u _ [(i & Hi & K)|K].
    + exfalso. unfold f in K. cbn in K. destruct i as [|[|[|i]]]; cbn in K; lra || lia.
    + exfalso. pose proof (K 0%nat ltac:(lia)) as K0. pose proof (K 1%nat ltac:(lia)) as K1. pose proof (K 2%nat ltac:(lia)) as K2. cbn in K0, K1, K2. lra.
  - intros e I B. unfold f. rewrite face_run_er. rewrite !er_notbelow by assumption. cbn. ring.
  - intros e He. reflexivity.
  - intros e He. left. reflexivity.
Qed.
(** ** one corner beyond, two beneath *)
Lemma resA c2 c3 : 0 < hgt b1 x -> hgt b1 y < 0 -> hgt b1 z < 0 -> cutOf b f 1 = Some c2 -> cutOf b f 2 = Some c3 ->
  let '(b', e4) := newEdge b c2 c3 in let '(b'', e5) := newEdge b' c2 y in
  cutres b1 b f b'' [BF (c2, y, z) (p, q, e5) n; BF (y, c2, c3) (e4, r, e5) v3zero].
Proof.
  intros Hx Hy Hz C2 C3.
  destruct (fit_uncut _ _ _ _ CS1 Fp) as (cp & Hp & _ & Sp & Jp); [nra|].
  destruct (fit_cut _ _ _ _ CS1 Fq Hz Hx) as (cq & x2 & Hq & Cq & Ic2 & Hc2 & Pc2 & Jq & _ & _).
  destruct (fit_cut _ _ _ _ CS1 (fit_sym _ _ _ _ Fr) Hy Hx) as (cr & x3 & Hr & Cr & Ic3 & Hc3 & Pc3 & Jr & _ & _).
  assert (x2 = c2) as ->. { unfold cutOf in C2. cbn in C2. rewrite (cutOf_mid _ _ _ _ _ _ CS1 M Fq Hq) in C2. congruence. }
  assert (x3 = c3) as ->. { unfold cutOf in C3. cbn in C3. rewrite (cutOf_mid _ _ _ _ _ _ CS1 M Fr Hr) in C3. congruence. }
  destruct (newEdge b c2 c3) as [b' e4] eqn:E4. destruct (newEdge b' c2 y) as [b'' e5] eqn:E5.
  assert (M' : mid b1 b') by (replace b' with (fst (newEdge b c2 c3)) by (rewrite E4; reflexivity); apply newEdge_mid; auto; lra).
  assert (M'' : mid b1 b'') by (replace b'' with (fst (newEdge b' c2 y)) by (rewrite E5; reflexivity); apply newEdge_mid; auto; lra).
  assert (X' : ext b b') by (replace b' with (fst (newEdge b c2 c3)) by (rewrite E4; reflexivity); apply newEdge_ext).
  assert (X'' : ext b' b'') by (replace b'' with (fst (newEdge b' c2 y)) by (rewrite E5; reflexivity); apply newEdge_ext).
  assert (N4 : e4 = br_next b /\ br_next b' = S e4) by (unfold newEdge in E4; injection E4 as <- <-; auto).
  assert (N5 : e5 = br_next b' /\ br_next b'' = S e5) by (unfold newEdge in E5; injection E5 as <- <-; auto).
  assert (B5 : br_e b'' e5 = Some (EGC c2 y None)) by (unfold newEdge in E5; injection E5 as <- <-; cbn; apply upd_same).
  assert (B4 : br_e b'' e4 = Some (EGC c2 c3 None)).
  { rewrite (ex_e _ _ X'') by lia. unfold newEdge in E4. injection E4 as <- <-. cbn. apply upd_same. }
  assert (I5 : List.In e5 (elist b'')) by (unfold newEdge in E5; injection E5 as <- <-; cbn; apply in_or_app; right; now left).
  assert (I4 : List.In e4 (elist b'')).
  { destruct (ex_l _ _ X'') as (nw & -> & _). apply in_or_app. left. unfold newEdge in E4. injection E4 as <- <-. cbn. apply in_or_app; right; now left. }
  pose proof (old_lt _ _ _ _ CS1 Fp) as Lp. pose proof (old_lt _ _ _ _ CS1 Fq) as Lq. pose proof (old_lt _ _ _ _ CS1 Fr) as Lr. pose proof (md_n _ _ M) as MN.
  assert (Yc : y <> c2) by (intros <-; lra).
  constructor.
  - exact M''.
  - eapply ext_trans; eassumption.
  - intros g [<-|[<-|[]]].
    + apply (pface_of b1); try assumption; try lra.
      * apply (old_side b1 b'' p y z cp); try assumption. rewrite Sp. assumption.
      * apply (old_side b1 b'' q z x cq); try assumption.
      * apply (new_side b1 b'' e5 c2 y); auto.
    + apply (pface_of b1); try assumption; try lra.
      * apply (new_side b1 b'' e4 c2 c3); auto.
      * apply (old_side b1 b'' r x y cr); try assumption. apply joins_sym. assumption.
      * apply (new_side b1 b'' e5 c2 y); auto.
  - intros g [<-|[<-|[]]]; unfold f; cbn [tri_of bf_v]; rewrite ?Pc2, ?Pc3; destruct (cut_A_area (posn b1 x) (posn b1 y) (posn b1 z) _ _ _ Hx Hy Hz) as [A1 A2]; assumption.
  - intros g u [<-|[<-|[]]] Hu; unfold f; cbn [tri_of bf_v hgts] in *; rewrite ?Pc2, ?Pc3 in Hu; apply cut_A; auto.
  - intros u Hu _. unfold f in Hu. cbn [tri_of bf_v hgts] in Hu. apply cut_A in Hu; try assumption. rewrite <- Pc2, <- Pc3 in Hu.
    destruct Hu as [Hu|Hu].
    + eexists. split; [left; reflexivity|exact Hu].
    + eexists. split; [right; left; reflexivity|exact Hu].
  - intros e I B. rewrite runs2. unfold f. rewrite !face_run_er. apply (cs_e _ CS1) in I.
    rewrite (er_uncut b1 b'' e p) by (try assumption; nra). rewrite (er_ne _ e e5), (er_ne _ e e5), (er_ne _ e e4) by lia.
    rewrite (proj1 (er_cut b1 b'' e q z x CS1 M'' Fq Hz Hx cq c2 Hq Cq)).
    rewrite (proj2 (er_cut b1 b'' e r y x CS1 M'' (fit_sym _ _ _ _ Fr) Hy Hx cr c3 Hr Cr)). ring.
  - intros e He. rewrite runs2, !face_run_er. rewrite !er_ne by lia. ring.
  - intros e He. assert (EE : e = e4 \/ e = e5) by lia. destruct EE as [-> | ->].
    + right. exists (EGC c2 c3 None). cbn. auto.
    + left. rewrite runs2, !face_run_er. rewrite (er_ne _ e5 p), (er_ne _ e5 q), (er_ne _ e5 r), (er_ne _ e5 e4) by lia.
      unfold er. rewrite Nat.eqb_refl. cbn. rewrite B5. unfold run. cbn. rewrite !Nat.eqb_refl. rewrite (proj2 (Nat.eqb_neq c2 y)) by auto. cbn. ring.
Qed.

(** ** one corner beneath, two beyond *)
Lemma resV c2 c3 : hgt b1 x < 0 -> 0 < hgt b1 y -> 0 < hgt b1 z -> cutOf b f 1 = Some c2 -> cutOf b f 2 = Some c3 ->
  let '(b', e4) := newEdge b c3 c2 in cutres b1 b f b' [BF (x, c3, c2) (e4, q, r) n].
Proof.
  intros Hx Hy Hz C2 C3.
  destruct (fit_cut _ _ _ _ CS1 (fit_sym _ _ _ _ Fq) Hx Hz) as (cq & x2 & Hq & Cq & Ic2 & Hc2 & Pc2 & Jq & _ & _).
  destruct (fit_cut _ _ _ _ CS1 Fr Hx Hy) as (cr & x3 & Hr & Cr & Ic3 & Hc3 & Pc3 & Jr & _ & _).
  assert (x2 = c2) as ->. { unfold cutOf in C2. cbn in C2. rewrite (cutOf_mid _ _ _ _ _ _ CS1 M Fq Hq) in C2. congruence. }
  assert (x3 = c3) as ->. { unfold cutOf in C3. cbn in C3. rewrite (cutOf_mid _ _ _ _ _ _ CS1 M Fr Hr) in C3. congruence. }
  destruct (newEdge b c3 c2) as [b' e4] eqn:E4.
  assert (M' : mid b1 b') by (replace b' with (fst (newEdge b c3 c2)) by (rewrite E4; reflexivity); apply newEdge_mid; auto; lra).
  assert (X' : ext b b') by (replace b' with (fst (newEdge b c3 c2)) by (rewrite E4; reflexivity); apply newEdge_ext).
  assert (N4 : e4 = br_next b /\ br_next b' = S e4) by (unfold newEdge in E4; injection E4 as <- <-; auto).
  assert (B4 : br_e b' e4 = Some (EGC c3 c2 None)) by (unfold newEdge in E4; injection E4 as <- <-; cbn; apply upd_same).
  assert (I4 : List.In e4 (elist b')) by (unfold newEdge in E4; injection E4 as <- <-; cbn; apply in_or_app; right; now left).
  pose proof (old_lt _ _ _ _ CS1 Fp) as Lp. pose proof (old_lt _ _ _ _ CS1 Fq) as Lq. pose proof (old_lt _ _ _ _ CS1 Fr) as Lr. pose proof (md_n _ _ M) as MN.
  constructor.
  - exact M'.
  - assumption.
  - intros g [<-|[]]. apply (pface_of b1); try assumption; try lra.
    + apply (new_side b1 b' e4 c3 c2); auto.
    + apply (old_side b1 b' q z x cq); try assumption. apply joins_sym. assumption.
    + apply (old_side b1 b' r x y cr); try assumption.
  - intros g [<-|[]]; unfold f; cbn [tri_of bf_v]; rewrite ?Pc2, ?Pc3. apply (cut_V_area (posn b1 x) (posn b1 y) (posn b1 z)); assumption.
  - intros g u [<-|[]] Hu; unfold f; cbn [tri_of bf_v hgts] in *; rewrite ?Pc2, ?Pc3 in Hu; apply cut_V; auto.
  - intros u Hu _. unfold f in Hu. cbn [tri_of bf_v hgts] in Hu. apply cut_V in Hu; try assumption. rewrite <- Pc2, <- Pc3 in Hu.
    eexists; (split; [now left|exact Hu]).
  - intros e I B. rewrite runs1. unfold f. rewrite !face_run_er. apply (cs_e _ CS1) in I as I'.
    rewrite (er_ne _ e e4) by lia. rewrite (er_notbelow b1 e p) by (assumption || lra).
    rewrite (proj2 (er_cut b1 b' e q x z CS1 M' (fit_sym _ _ _ _ Fq) Hx Hz cq c2 Hq Cq)).
    rewrite (proj1 (er_cut b1 b' e r x y CS1 M' Fr Hx Hy cr c3 Hr Cr)). ring.
  - intros e He. rewrite runs1, !face_run_er. rewrite !er_ne by lia. ring.
  - intros e He. assert (e = e4) as -> by lia. right. exists (EGC c3 c2 None). cbn. auto.
Qed.
(** ** one corner on the plane, one beneath, one beyond *)
Lemma resE1 c1 : hgt b1 x = 0 -> hgt b1 y < 0 -> 0 < hgt b1 z -> cutOf b f 0 = Some c1 ->
  let '(b', e4) := newEdge b x c1 in cutres b1 b f b' [BF (x, y, c1) (p, e4, r) n].
Proof.
  intros Hx Hy Hz C1.
  destruct (fit_cut _ _ _ _ CS1 Fp Hy Hz) as (cp & x1 & Hp & Cp & Ic1 & Hc1 & Pc1 & Jp & _ & _).
  destruct (fit_uncut _ _ _ _ CS1 Fr) as (cr & Hr & _ & Sr & Jr); [nra|].
  assert (x1 = c1) as ->. { unfold cutOf in C1. cbn in C1. rewrite (cutOf_mid _ _ _ _ _ _ CS1 M Fp Hp) in C1. congruence. }
  destruct (newEdge b x c1) as [b' e4] eqn:E4.
  assert (M' : mid b1 b') by (replace b' with (fst (newEdge b x c1)) by (rewrite E4; reflexivity); apply newEdge_mid; auto; lra).
  assert (X' : ext b b') by (replace b' with (fst (newEdge b x c1)) by (rewrite E4; reflexivity); apply newEdge_ext).
  assert (N4 : e4 = br_next b /\ br_next b' = S e4) by (unfold newEdge in E4; injection E4 as <- <-; auto).
  assert (B4 : br_e b' e4 = Some (EGC x c1 None)) by (unfold newEdge in E4; injection E4 as <- <-; cbn; apply upd_same).
  assert (I4 : List.In e4 (elist b')) by (unfold newEdge in E4; injection E4 as <- <-; cbn; apply in_or_app; right; now left).
  pose proof (old_lt _ _ _ _ CS1 Fp) as Lp. pose proof (old_lt _ _ _ _ CS1 Fq) as Lq. pose proof (old_lt _ _ _ _ CS1 Fr) as Lr. pose proof (md_n _ _ M) as MN.
  constructor.
  - exact M'.
  - assumption.
  - intros g [<-|[]]. apply (pface_of b1); try assumption; try lra.
    + apply (old_side b1 b' p y z cp); try assumption.
    + apply (new_side b1 b' e4 x c1); auto.
    + apply (old_side b1 b' r x y cr); try assumption. rewrite Sr. assumption.
  - intros g [<-|[]]; unfold f; cbn [tri_of bf_v]; rewrite ?Pc1. apply (cut_E_area (posn b1 x) (posn b1 y) (posn b1 z)); assumption.
  - intros g u [<-|[]] Hu; unfold f; cbn [tri_of bf_v hgts] in *; rewrite ?Pc1 in Hu; apply cut_E; auto.
  - intros u Hu _. unfold f in Hu. cbn [tri_of bf_v hgts] in Hu. apply cut_E in Hu; try assumption. rewrite <- Pc1 in Hu.
    eexists; (split; [now left|exact Hu]).
  - intros e I B. rewrite runs1. unfold f. rewrite !face_run_er. apply (cs_e _ CS1) in I as I'.
    rewrite (er_ne _ e e4) by lia. rewrite (er_notbelow b1 e q) by (assumption || lra).
    rewrite (proj1 (er_cut b1 b' e p y z CS1 M' Fp Hy Hz cp c1 Hp Cp)). rewrite (er_uncut b1 b' e r) by (try assumption; nra). ring.
  - intros e He. rewrite runs1, !face_run_er. rewrite !er_ne by lia. ring.
  - intros e He. assert (e = e4) as -> by lia. right. exists (EGC x c1 None). cbn. auto.
Qed.
Lemma resE2 c1 : hgt b1 x = 0 -> hgt b1 z < 0 -> 0 < hgt b1 y -> cutOf b f 0 = Some c1 ->
  let '(b', e4) := newEdge b x c1 in cutres b1 b f b' [BF (x, c1, z) (p, q, e4) n].
Proof.
  intros Hx Hz Hy C1.
  destruct (fit_cut _ _ _ _ CS1 (fit_sym _ _ _ _ Fp) Hz Hy) as (cp & x1 & Hp & Cp & Ic1 & Hc1 & Pc1 & Jp & _ & _).
  destruct (fit_uncut _ _ _ _ CS1 Fq) as (cq & Hq & _ & Sq & Jq); [nra|].
  assert (x1 = c1) as ->. { unfold cutOf in C1. cbn in C1. rewrite (cutOf_mid _ _ _ _ _ _ CS1 M Fp Hp) in C1. congruence. }
  destruct (newEdge b x c1) as [b' e4] eqn:E4.
  assert (M' : mid b1 b') by (replace b' with (fst (newEdge b x c1)) by (rewrite E4; reflexivity); apply newEdge_mid; auto; lra).
  assert (X' : ext b b') by (replace b' with (fst (newEdge b x c1)) by (rewrite E4; reflexivity); apply newEdge_ext).
  assert (N4 : e4 = br_next b /\ br_next b' = S e4) by (unfold newEdge in E4; injection E4 as <- <-; auto).
  assert (B4 : br_e b' e4 = Some (EGC x c1 None)) by (unfold newEdge in E4; injection E4 as <- <-; cbn; apply upd_same).
  assert (I4 : List.In e4 (elist b')) by (unfold newEdge in E4; injection E4 as <- <-; cbn; apply in_or_app; right; now left).
  pose proof (old_lt _ _ _ _ CS1 Fp) as Lp. pose proof (old_lt _ _ _ _ CS1 Fq) as Lq. pose proof (old_lt _ _ _ _ CS1 Fr) as Lr. pose proof (md_n _ _ M) as MN.
  constructor.
  - exact M'.
  - assumption.
  - intros g [<-|[]]. apply (pface_of b1); try assumption; try lra.
    + apply (old_side b1 b' p y z cp); try assumption. apply joins_sym. assumption.
    + apply (old_side b1 b' q z x cq); try assumption. rewrite Sq. assumption.
    + apply (new_side b1 b' e4 x c1); auto.
  - intros g [<-|[]]; unfold f; cbn [tri_of bf_v]; rewrite ?Pc1. destruct (cut_E_area (posn b1 x) (posn b1 z) (posn b1 y) _ _ Hz Hy) as (k & K & EK). exists k. split; [assumption|].
    assert (SW : forall a c d, tri_area (a, c, d) = vscale (-1) (tri_area (a, d, c))) by (intros; unfold tri_area, tri_normal; vxy; ring).
    rewrite (SW _ (cutp _ _ _ _) _), EK, (SW _ (posn b1 z) _). vxy; ring.
  - intros g u [<-|[]] Hu; unfold f; cbn [tri_of bf_v hgts] in *; rewrite ?Pc1 in Hu; apply kept_swap23; apply cut_E; auto; apply in_tri_swap23; assumption.
  - intros u Hu _. unfold f in Hu. cbn [tri_of bf_v hgts] in Hu. apply kept_swap23 in Hu. apply cut_E in Hu; try assumption. rewrite <- Pc1 in Hu. apply in_tri_swap23 in Hu.
    eexists; (split; [now left|exact Hu]).
  - intros e I B. rewrite runs1. unfold f. rewrite !face_run_er. apply (cs_e _ CS1) in I as I'.
    rewrite (er_ne _ e e4) by lia. rewrite (er_notbelow b1 e r) by (assumption || lra).
    rewrite (proj2 (er_cut b1 b' e p z y CS1 M' (fit_sym _ _ _ _ Fp) Hz Hy cp c1 Hp Cp)). rewrite (er_uncut b1 b' e q) by (try assumption; nra). ring.
  - intros e He. rewrite runs1, !face_run_er. rewrite !er_ne by lia. ring.
  - intros e He. assert (e = e4) as -> by lia. right. exists (EGC x c1 None). cbn. auto.
Qed.
End Cut.
