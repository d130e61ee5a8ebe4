(** All faces, the edges shrunk, unused cells freed. *)
From Verif Require Import Base Spec SpecBrep ModelBrep FactsAlg FactsVec FactsBrep FactsBrep2 FactsBrep3 FactsBrep4 FactsBrep5.
From Coq Require Import List Lia Lra Psatz.
Import ListNotations.
Open Scope R_scope.

Lemma rsum_app6 {A} (h : A -> R) l m : rsum h (l ++ m) = rsum h l + rsum h m.
Proof. induction l as [|a l IH]; unfold rsum in *; cbn; [ring|]. rewrite IH. ring. Qed.
Lemma rsum_rev6 {A} (h : A -> R) l : rsum h (rev l) = rsum h l.
Proof. induction l as [|a l IH]; [reflexivity|]. cbn [rev]. rewrite rsum_app6, IH. unfold rsum. cbn. ring. Qed.
Lemma rsum_ext6 {A} (h k : A -> R) l : (forall a, List.In a l -> h a = k a) -> rsum h l = rsum k l.
Proof. induction l as [|a l IH]; intros H; [reflexivity|]. change (h a + rsum h l = k a + rsum k l). rewrite (H a (or_introl eq_refl)), IH; [reflexivity|]. intros c Hc. apply H. now right. Qed.
Lemma rsum_zero6 {A} (h : A -> R) l : (forall a, List.In a l -> h a = 0) -> rsum h l = 0.
Proof. induction l as [|a l IH]; intros H; [reflexivity|]. change (h a + rsum h l = 0). rewrite (H a (or_introl eq_refl)), IH; [ring|]. intros c Hc. apply H. now right. Qed.

Lemma pface_ext b1 b b' g : cutstate b1 -> mid b1 b -> mid b1 b' -> ext b b' -> pface b g -> pface b' g.
Proof.
  intros CS M M' X P i Hi. destruct (P i Hi) as (A & B & C & c & D & J). rewrite (md_vl _ _ M'), <- (md_vl _ _ M).
  rewrite (mid_hgt _ _ _ M'), <- (mid_hgt _ _ _ M). split; [assumption|]. split; [assumption|]. split.
  - destruct (ex_l _ _ X) as (nw & -> & _). apply in_or_app. now left.
  - exists c. rewrite (ex_e _ _ X) by (apply (in_elist_lt b1); assumption). split; [assumption|].
    rewrite (mid_shr _ _ _ M'), <- (mid_shr _ _ _ M). assumption.
Qed.
Lemma run_ext b1 b b' g e : cutstate b1 -> mid b1 b -> mid b1 b' -> ext b b' -> pface b g -> face_run (sh b') g e = face_run (sh b) g e.
Proof.
  intros CS M M' X P.
  assert (Q : forall i, (i < 3)%nat -> side_run (sh b') g e i = side_run (sh b) g e i).
  { intros i Hi. destruct (P i Hi) as (_ & _ & C & _). unfold side_run. destruct (Nat.eqb_spec (get3 (bf_e g) i) e) as [<-|]; [|reflexivity].
    cbn. rewrite (ex_e _ _ X) by (apply (in_elist_lt b1); assumption). destruct (br_e b _); cbn; [|reflexivity].
    rewrite (mid_shr _ _ _ M'), <- (mid_shr _ _ _ M). reflexivity. }
  unfold face_run. rewrite !Q by lia. reflexivity.
Qed.
Lemma run_fresh b1 b b' g e : cutstate b1 -> mid b1 b -> pface b g -> (br_next b <= e)%nat -> face_run b' g e = 0.
Proof.
  intros CS M P He.
  assert (Q : forall i, (i < 3)%nat -> side_run b' g e i = 0).
  { intros i Hi. destruct (P i Hi) as (_ & _ & C & _). apply (in_elist_lt b1) in C; try assumption. unfold side_run.
    rewrite (proj2 (Nat.eqb_neq _ e)) by lia. reflexivity. }
  unfold face_run. rewrite !Q by lia. ring.
Qed.
Lemma in_ocons {A} (o : option A) l x : List.In x (ocons o l) <-> List.In x (ocons o []) \/ List.In x l.
Proof. destruct o; cbn; tauto. Qed.
Lemma runs_ocons b o l e : runs b (ocons o l) e = runs b (ocons o []) e + runs b l e.
Proof. destruct o; unfold runs, rsum; cbn; ring. Qed.
Lemma runs_ext b1 b b' l e : cutstate b1 -> mid b1 b -> mid b1 b' -> ext b b' -> (forall g, List.In g l -> pface b g) -> runs b' l e = runs b l e.
Proof. intros CS M M' X P. apply rsum_ext6. intros g Hg. eapply run_ext; eauto. Qed.
Lemma runs_fresh b1 b l e : cutstate b1 -> mid b1 b -> (forall g, List.In g l -> pface b g) -> (br_next b <= e)%nat -> runs b l e = 0.
Proof. intros CS M P He. apply rsum_zero6. intros g Hg. eapply run_fresh; eauto. Qed.

Record facesres (b1 b : brep) (l front done : list bface) (b' : brep) (L : list bface) : Prop := FR {
  fr_mid : mid b1 b'; fr_ext : ext b b'; fr_pf : forall g, List.In g L -> pface b' g;
  fr_keep : forall g, List.In g front \/ List.In g done -> List.In g L;
  fr_from : forall g, List.In g L -> List.In g front \/ List.In g done \/ exists f, List.In f l /\ (exists k, 0 < k /\ tri_area (tri_of b1 g) = vscale k (tri_area (tri_of b1 f))) /\
     forall p, in_tri (tri_of b1 g) p -> kept (tri_of b1 f) (hgts b1 f) p;
  fr_sup : forall f p, List.In f l -> kept (tri_of b1 f) (hgts b1 f) p -> (exists i, (i < 3)%nat /\ get3 (hgts b1 f) i < 0) \/ (forall i, (i < 3)%nat -> get3 (hgts b1 f) i <= 0) ->
     exists g, List.In g L /\ in_tri (tri_of b1 g) p;
  fr_old : forall e, List.In e (elist b1) -> below b1 e -> runs b' L e = runs b front e + runs b done e + rsum (fun f => face_run b1 f e) l;
  fr_prev : forall e, (br_next b1 <= e < br_next b)%nat -> runs b' L e = runs b front e + runs b done e;
  fr_new : forall e, (br_next b <= e < br_next b')%nat -> runs b' L e = 0 \/ exists c, br_e b' e = Some c /\ hgt b1 (ec_a c) = 0 /\ hgt b1 (ec_b c) = 0 }.
Lemma truncFaces_res b1 (CS : cutstate b1) l : forall b front done, mid b1 b -> (forall f, List.In f l -> fits b1 f) ->
  (forall g, List.In g front -> pface b g) -> (forall g, List.In g done -> pface b g) ->
  exists b' L, truncFaces l b front done = Some (b', L) /\ facesres b1 b l front done b' L.
Proof.
  induction l as [|f t IH]; intros b front done M F P1 P2.
  - exists b, (front ++ rev done). split; [reflexivity|]. constructor.
    + exact M.
    + apply ext_refl.
    + intros g Hg. apply in_app_or in Hg. destruct Hg as [Hg|Hg]; [auto|]. rewrite <- in_rev in Hg. auto.
    + intros g [Hg|Hg]; apply in_or_app; [now left|right; rewrite <- in_rev; assumption].
    + intros g Hg. apply in_app_or in Hg. destruct Hg as [Hg|Hg]; [auto|]. rewrite <- in_rev in Hg. auto.
    + intros f p [].
    + intros e _ _. unfold runs. rewrite rsum_app6, rsum_rev6. unfold rsum. cbn. ring.
    + intros e _. unfold runs. rewrite rsum_app6, rsum_rev6. ring.
    + intros e He. lia.
  - cbn [truncFaces]. destruct (truncFace_res b1 b f CS M (F f (or_introl eq_refl))) as (b2 & old & new & -> & C).
    pose proof (cr_mid _ _ _ _ _ C) as M2. pose proof (cr_ext _ _ _ _ _ C) as X2.
    assert (Ps : forall g, List.In g (ocons old []) \/ List.In g (ocons new []) -> List.In g (ocons old (ocons new []))) by (intros g Hg; rewrite (in_ocons old (ocons new [])); tauto).
    destruct (IH b2 (ocons new front) (ocons old done)) as (b' & L & -> & Q); [assumption| | | |].
    { intros g Hg. apply F. now right. }
    { intros g Hg. rewrite in_ocons in Hg. destruct Hg as [Hg|Hg]; [apply (cr_face _ _ _ _ _ C); auto|]. apply (pface_ext b1 b b2); auto. }
    { intros g Hg. rewrite in_ocons in Hg. destruct Hg as [Hg|Hg]; [apply (cr_face _ _ _ _ _ C); auto|]. apply (pface_ext b1 b b2); auto. }
    exists b', L. split; [reflexivity|].
    assert (RR : forall e, runs b2 (ocons new front) e + runs b2 (ocons old done) e = runs b front e + runs b done e + runs b2 (ocons old (ocons new [])) e).
    { intros e. rewrite (runs_ocons _ new front), (runs_ocons _ old done), (runs_ocons _ old (ocons new [])).
      rewrite (runs_ext b1 b b2 front), (runs_ext b1 b b2 done) by assumption. ring. }
    constructor.
    + apply (fr_mid _ _ _ _ _ _ _ Q).
    + eapply ext_trans; [exact X2|]. apply (fr_ext _ _ _ _ _ _ _ Q).
    + apply (fr_pf _ _ _ _ _ _ _ Q).
    + intros g Hg. apply (fr_keep _ _ _ _ _ _ _ Q). rewrite (in_ocons new front), (in_ocons old done). tauto.
    + intros g Hg. apply (fr_from _ _ _ _ _ _ _ Q) in Hg.
      assert (HP : List.In g (ocons old []) \/ List.In g (ocons new []) -> List.In g front \/ List.In g done \/ exists f0, List.In f0 (f :: t) /\ (exists k, 0 < k /\ tri_area (tri_of b1 g) = vscale k (tri_area (tri_of b1 f0))) /\
        forall p, in_tri (tri_of b1 g) p -> kept (tri_of b1 f0) (hgts b1 f0) p).
      { intros HP. right. right. exists f. split; [now left|]. split; [apply (cr_area _ _ _ _ _ C); auto|]. intros p. apply (cr_sub _ _ _ _ _ C); auto. }
      rewrite (in_ocons new front), (in_ocons old done) in Hg. destruct Hg as [[Hg|Hg]|[[Hg|Hg]|(f0 & I & K)]]; auto.
      right. right. exists f0. split; [now right|assumption].
    + intros f0 p [<-|I] K H.
      * destruct (cr_sup _ _ _ _ _ C p K H) as (g & I & J). exists g. split; [|assumption]. apply (fr_keep _ _ _ _ _ _ _ Q). rewrite (in_ocons old (ocons new [])) in I. rewrite (in_ocons new front), (in_ocons old done). tauto.
      * apply (fr_sup _ _ _ _ _ _ _ Q f0); assumption.
    + intros e I B. rewrite (fr_old _ _ _ _ _ _ _ Q e I B), RR, (cr_old _ _ _ _ _ C e I B). unfold rsum. cbn. ring.
    + intros e He. rewrite (fr_prev _ _ _ _ _ _ _ Q e), RR, (cr_prev _ _ _ _ _ C e He); [ring|]. pose proof (ex_n _ _ X2). lia.
    + intros e He. destruct (Nat.lt_ge_cases e (br_next b2)) as [L2|L2].
      * assert (R1 : runs b' L e = runs b2 (ocons old (ocons new [])) e).
        { rewrite (fr_prev _ _ _ _ _ _ _ Q e), RR; [|pose proof (md_n _ _ M); lia].
          rewrite (runs_fresh b1 b front), (runs_fresh b1 b done) by (assumption || lia). ring. }
        rewrite R1. destruct (cr_new _ _ _ _ _ C e) as [Z|(c & Hc & H)]; [lia|now left|]. right. exists c.
        rewrite (ex_e _ _ (fr_ext _ _ _ _ _ _ _ Q)) by lia. auto.
      * apply (fr_new _ _ _ _ _ _ _ Q). lia.
Qed.

(** ** shrinking *)
Lemma shrink_ok l : forall b, NoDup l -> (forall e, List.In e l -> exists c, br_e b e = Some c /\ exists v, br_v b (ec_a c) = Some v) ->
  exists h, truncEdgeShrink l b = Some (BR (br_v b) h (br_next b) (vlist b) (elist b) (flist b)) /\ (forall e, List.In e l -> h e = option_map (shr b) (br_e b e)) /\ (forall e, ~ List.In e l -> h e = br_e b e).
Proof.
  induction l as [|e t IH]; intros b ND A.
  - exists (br_e b). cbn. split; [destruct b; reflexivity|]. split; [intros ? []|auto].
  - inversion ND as [|? ? NI ND']; subst. destruct (A e (or_introl eq_refl)) as (c & Hc & v & Hv). cbn. rewrite Hc. destruct (ec_cut c) as [x|] eqn:Ec.
    + rewrite Hv. set (b2 := BR _ _ _ _ _ _).
      destruct (IH b2) as (h & E & I & O); [assumption| |].
      { intros k Hk. destruct (A k (or_intror Hk)) as (ck & Hck & Q). exists ck. unfold b2. cbn. rewrite upd_other by (intros ->; contradiction). auto. }
      exists h. split; [exact E|]. split.
      * intros k [<-|Hk].
        -- rewrite O by assumption. unfold b2. cbn. rewrite upd_same, Hc. cbn. unfold shr, hgt. rewrite Ec, Hv. reflexivity.
        -- rewrite I by assumption. unfold b2. cbn. rewrite upd_other by (intros ->; contradiction). reflexivity.
      * intros k Hk. rewrite O by (intros H; apply Hk; now right). unfold b2. cbn. apply upd_other. intros ->. apply Hk. now left.
    + destruct (IH b) as (h & E & I & O); [assumption|intros k Hk; apply A; now right|]. exists h. split; [exact E|]. split.
      * intros k [<-|Hk]; [|auto]. rewrite O by assumption. rewrite Hc. cbn. unfold shr. rewrite Ec. reflexivity.
      * intros k Hk. apply O. intros H. apply Hk. now right.
Qed.
(** ** freeing *)
Lemma memb_in x l : memb x l = true <-> List.In x l.
Proof. unfold memb. rewrite existsb_exists. split; [intros (y & I & E); apply Nat.eqb_eq in E; subst; assumption|intros I; exists x; rewrite Nat.eqb_refl; auto]. Qed.
Lemma in_list3 {A} (t : A * A * A) x : List.In x (list3 t) <-> exists i, (i < 3)%nat /\ get3 t i = x.
Proof.
  destruct t as [[a b] c]. cbn. split.
  - intros [<-|[<-|[<-|[]]]]; [exists 0%nat|exists 1%nat|exists 2%nat]; (split; [lia|reflexivity]).
  - intros (i & Hi & <-). destruct i as [|[|[|i]]]; [auto|auto|auto|lia].
Qed.
Definition used_v (l : list bface) (v : nat) : Prop := exists f i, List.In f l /\ (i < 3)%nat /\ get3 (bf_v f) i = v.
Definition used_e (l : list bface) (e : nat) : Prop := exists f i, List.In f l /\ (i < 3)%nat /\ get3 (bf_e f) i = e.
Lemma gr_ok b : (forall v, used_v (flist b) v -> exists c, br_v b v = Some c) -> (forall e, used_e (flist b) e -> exists c, br_e b e = Some c) ->
  exists b', truncGR b = Some b' /\ flist b' = flist b /\ br_next b' = br_next b /\
    (forall v, List.In v (vlist b') <-> List.In v (vlist b) /\ used_v (flist b) v) /\ (forall e, List.In e (elist b') <-> List.In e (elist b) /\ used_e (flist b) e) /\
    (NoDup (vlist b) -> NoDup (vlist b')) /\ (NoDup (elist b) -> NoDup (elist b')) /\
    (forall v, used_v (flist b) v -> br_v b' v = br_v b v) /\
    (forall e c, List.In e (elist b) -> used_e (flist b) e -> br_e b e = Some c -> br_e b' e = Some (EGC (ec_a c) (ec_b c) None)).
Proof.
  intros AV AE. unfold truncGR. set (mv := flat_map _ _). set (me := flat_map _ _).
  assert (MV : forall v, List.In v mv <-> used_v (flist b) v).
  { intros v. unfold mv, used_v. rewrite in_flat_map. split; [intros (f & I & J); apply in_list3 in J; destruct J as (i & Hi & J); eauto|].
    intros (f & i & I & J). exists f. split; [assumption|]. apply in_list3. eauto. }
  assert (ME : forall e, List.In e me <-> used_e (flist b) e).
  { intros v. unfold me, used_e. rewrite in_flat_map. split; [intros (f & I & J); apply in_list3 in J; destruct J as (i & Hi & J); eauto|].
    intros (f & i & I & J). exists f. split; [assumption|]. apply in_list3. eauto. }
  assert (T : forallb (fun v => isSome (br_v b v)) mv && forallb (fun e => isSome (br_e b e)) me = true).
  { apply andb_true_intro. split; apply forallb_forall; intros k Hk.
    - apply MV in Hk. destruct (AV k Hk) as [c ->]. reflexivity.
    - apply ME in Hk. destruct (AE k Hk) as [c ->]. reflexivity. }
  rewrite T. eexists. split; [reflexivity|]. cbn [flist br_next vlist elist br_v br_e].
  split; [reflexivity|]. split; [reflexivity|]. split; [|split; [|split; [|split; [|split]]]].
  - intros v. rewrite filter_In, memb_in, MV. tauto.
  - intros e. rewrite filter_In, memb_in, ME. tauto.
  - apply NoDup_filter.
  - apply NoDup_filter.
  - intros v U. unfold free_unmarked. apply MV, memb_in in U. rewrite U. cbn. rewrite andb_false_r. reflexivity.
  - intros e c I U Hc. unfold free_unmarked. apply ME, memb_in in U. rewrite U. cbn. rewrite andb_false_r, Hc. apply memb_in in I. rewrite I. reflexivity.
Qed.
