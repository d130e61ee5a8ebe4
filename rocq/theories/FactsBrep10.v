(** From a polyhedron to a boundary representation. *)
From Verif Require Import Base Spec SpecBrep ModelBrep FactsAlg FactsVec FactsBrep FactsBrep2 FactsBrep3 FactsBrep4 FactsBrep5 FactsBrep6 FactsBrep7 FactsBrep8 FactsBrep9 FactsPH2.
From Coq Require Import List Lia Lra Psatz.
Import ListNotations.
Open Scope R_scope.

Lemma equal_close p q : zVec3DEqual p q = true <-> close_to zTOL p q.
Proof. unfold zVec3DEqual, close_to, zIsTiny, zIsTol. rewrite !andb_true_iff, !Rltb_true. tauto. Qed.
Lemma close_refl p : close_to zTOL p p.
Proof. pose proof zTOL_pos. unfold close_to. rewrite !Rminus_diag_eq by reflexivity. rewrite Rabs_R0. auto. Qed.
Lemma equal_refl10 p : zVec3DEqual p p = true.
Proof. apply equal_close, close_refl. Qed.

(** where a point is found *)
Definition W (b : brep) (v : vec3) (x : nat) : Prop := vertListFind (br_v b) (vlist b) v = Some (Some x).
Lemma find_total h l v : (forall x, List.In x l -> exists c, h x = Some c) -> exists o, vertListFind h l v = Some o /\
  match o with Some x => List.In x l /\ exists c, h x = Some c /\ close_to zTOL (vc_p c) v | None => forall x c, List.In x l -> h x = Some c -> zVec3DEqual (vc_p c) v = false end.
Proof.
  induction l as [|a l IH]; intros H; cbn.
  - exists None. split; [reflexivity|]. intros x c [].
  - destruct (H a (or_introl eq_refl)) as (c & Hc). rewrite Hc. destruct (zVec3DEqual (vc_p c) v) eqn:E.
    + exists (Some a). split; [reflexivity|]. split; [now left|]. exists c. split; [assumption|]. apply equal_close, E.
    + destruct IH as (o & -> & K); [intros x Hx; apply H; now right|]. exists o. split; [reflexivity|]. destruct o as [x|].
      * destruct K as (I & K). split; [now right|assumption].
      * intros x c' [<-|I] Hc'; [rewrite Hc in Hc'; injection Hc' as <-; assumption|apply (K x); assumption].
Qed.
Lemma find_app h h' l l' v x : vertListFind h l v = Some (Some x) -> (forall k, List.In k l -> h' k = h k) -> vertListFind h' (l ++ l') v = Some (Some x).
Proof.
  induction l as [|a l IH]; cbn; [discriminate|]. intros E H. rewrite (H a (or_introl eq_refl)). destruct (h a) as [c|]; [|discriminate].
  destruct (zVec3DEqual (vc_p c) v); [assumption|]. apply IH; [assumption|]. intros k Hk. apply H. now right.
Qed.
Lemma find_last h h' l k v : vertListFind h l v = Some None -> (forall k, List.In k l -> h' k = h k) -> h' k = Some (VC v 0) -> vertListFind h' (l ++ [k]) v = Some (Some k).
Proof.
  induction l as [|a l IH]; cbn.
  - intros _ _ ->. cbn. rewrite equal_refl10. reflexivity.
  - intros E H K. rewrite (H a (or_introl eq_refl)). destruct (h a) as [c|]; [|discriminate]. destruct (zVec3DEqual (vc_p c) v); [discriminate|]. apply IH; [assumption| |assumption]. intros j Hj. apply H. now right.
Qed.
Lemma W_close b v x : good_brep b -> W b v x -> List.In x (vlist b) /\ close_to zTOL (posn b x) v.
Proof.
  intros G H. destruct (find_total (br_v b) (vlist b) v) as (o & E & K); [intros y Hy; apply (gb_v _ G y Hy)|]. rewrite H in E. injection E as <-. destruct K as (I & c & Hc & K).
  split; [assumption|]. unfold posn. rewrite Hc. assumption.
Qed.
Lemma W_fun b v x y : W b v x -> W b v y -> x = y.
Proof. unfold W. congruence. Qed.

(** lists only grow *)
Record grow (b b' : brep) : Prop := GR {
  gw_n : (br_next b <= br_next b')%nat; gw_v : forall k, (k < br_next b)%nat -> br_v b' k = br_v b k; gw_e : forall k, (k < br_next b)%nat -> br_e b' k = br_e b k;
  gw_vl : exists l, vlist b' = vlist b ++ l; gw_el : exists l, elist b' = elist b ++ l }.
Lemma grow_refl b : grow b b.
Proof. constructor; auto; exists []; symmetry; apply app_nil_r. Qed.
Lemma grow_trans b b' b'' : grow b b' -> grow b' b'' -> grow b b''.
Proof.
  intros A B. pose proof (gw_n _ _ A). pose proof (gw_n _ _ B). constructor.
  - lia.
  - intros k Hk. rewrite (gw_v _ _ B) by lia. apply (gw_v _ _ A). assumption.
  - intros k Hk. rewrite (gw_e _ _ B) by lia. apply (gw_e _ _ A). assumption.
  - destruct (gw_vl _ _ A) as [l E]. destruct (gw_vl _ _ B) as [l' E']. exists (l ++ l'). rewrite E', E, app_assoc. reflexivity.
  - destruct (gw_el _ _ A) as [l E]. destruct (gw_el _ _ B) as [l' E']. exists (l ++ l'). rewrite E', E, app_assoc. reflexivity.
Qed.
Lemma grow_in_v b b' x : grow b b' -> List.In x (vlist b) -> List.In x (vlist b').
Proof. intros A I. destruct (gw_vl _ _ A) as [l ->]. apply in_or_app. now left. Qed.
Lemma grow_in_e b b' x : grow b b' -> List.In x (elist b) -> List.In x (elist b').
Proof. intros A I. destruct (gw_el _ _ A) as [l ->]. apply in_or_app. now left. Qed.
Lemma grow_W b b' v x : good_brep b -> grow b b' -> W b v x -> W b' v x.
Proof.
  intros G A H. unfold W. destruct (gw_vl _ _ A) as [l ->]. apply find_app with (h := br_v b); [assumption|]. intros k Hk. apply (gw_v _ _ A). apply (gb_v _ G k Hk).
Qed.
Lemma grow_posn b b' x : good_brep b -> grow b b' -> List.In x (vlist b) -> posn b' x = posn b x.
Proof. intros G A I. unfold posn. rewrite (gw_v _ _ A) by (apply (gb_v _ G x I)). reflexivity. Qed.
Lemma grow_face b b' f : good_brep b -> grow b b' -> good_face b f -> good_face b' f.
Proof.
  intros G A F i Hi. destruct (F i Hi) as (I & J & c & Hc & K). split; [eapply grow_in_v; eassumption|]. split; [eapply grow_in_e; eassumption|]. exists c. split; [|assumption].
  rewrite (gw_e _ _ A) by (apply (gb_e _ G _ J)). assumption.
Qed.
Lemma nodup_snoc (l : list nat) k : NoDup l -> ~ List.In k l -> NoDup (l ++ [k]).
Proof. intros N H. rewrite <- (rev_involutive (l ++ [k])), rev_app_distr. apply NoDup_rev. cbn. constructor; [rewrite <- in_rev; assumption|apply NoDup_rev; assumption]. Qed.

Lemma vreg_ok b v : good_brep b -> exists b' x, vertFindnReg b v = Some (b', x) /\ good_brep b' /\ grow b b' /\ flist b' = flist b /\ elist b' = elist b /\ W b' v x /\
  (forall y, List.In y (vlist b') -> List.In y (vlist b) \/ (y = x /\ posn b' x = v)) /\ (single_edges b -> single_edges b').
Proof.
  intros G. unfold vertFindnReg. destruct (find_total (br_v b) (vlist b) v) as (o & E & K); [intros y Hy; apply (gb_v _ G y Hy)|]. rewrite E. destruct o as [x|].
  - exists b, x. split; [reflexivity|]. split; [assumption|]. split; [apply grow_refl|]. do 2 (split; [reflexivity|]). split; [exact E|]. auto.
  - set (k := br_next b). set (b' := BR _ _ _ _ _ _).
    assert (NK : ~ List.In k (vlist b)) by (intros H; apply (gb_v _ G) in H; unfold k in H; lia).
    assert (HV : forall j, List.In j (vlist b) -> br_v b' j = br_v b j) by (intros j Hj; unfold b'; cbn; apply upd_other; intros ->; contradiction).
    assert (GW : grow b b').
    { constructor; unfold b'; cbn; auto; [| |exists []; symmetry; apply app_nil_r].
      - intros j Hj. apply upd_other. unfold k. lia.
      - eexists. reflexivity. }
    exists b', k. split; [reflexivity|]. split; [|split; [exact GW|split; [reflexivity|split; [reflexivity|split; [|split]]]]].
    + constructor.
      * unfold b'. cbn. apply nodup_snoc; [apply (gb_vnd _ G)|assumption].
      * apply (gb_end _ G).
      * intros y Hy. unfold b' in Hy. cbn in Hy. apply in_app_or in Hy. destruct Hy as [Hy|[<-|[]]].
        -- destruct (gb_v _ G y Hy) as (L & K2). split; [unfold b', k; cbn; lia|]. rewrite HV by assumption. assumption.
        -- split; [unfold b', k; cbn; lia|]. unfold b'. cbn. rewrite upd_same. eauto.
      * intros e He. destruct (gb_e _ G e He) as (L & c & Hc & A & B & C). split; [unfold b', k; cbn; lia|]. exists c. split; [exact Hc|]. split; [|split; [|exact C]]; eapply grow_in_v; eassumption.
      * intros f Hf. apply (grow_face b); [assumption|assumption|]. apply (gb_f _ G f Hf).
    + unfold W. apply (find_last (br_v b)); [assumption|assumption|]. unfold b'. cbn. apply upd_same.
    + intros y Hy. unfold b' in Hy. cbn in Hy. apply in_app_or in Hy. destruct Hy as [Hy|[<-|[]]]; [now left|right]. split; [reflexivity|]. unfold posn, b'. cbn. rewrite upd_same. reflexivity.
    + intros S. exact S.
Qed.
Lemma efind_total h l x y : (forall e, List.In e l -> exists c, h e = Some c) -> exists o, edgeListFind h l x y = Some o /\
  match o with Some e => List.In e l /\ exists c, h e = Some c /\ joins c x y | None => forall e c, List.In e l -> h e = Some c -> ~ joins c x y end.
Proof.
  induction l as [|a l IH]; intros H; cbn.
  - exists None. split; [reflexivity|]. intros e c [].
  - destruct (H a (or_introl eq_refl)) as (c & Hc). rewrite Hc.
    assert (J : (Nat.eqb (ec_a c) x && Nat.eqb (ec_b c) y) || (Nat.eqb (ec_a c) y && Nat.eqb (ec_b c) x) = true <-> joins c x y) by (unfold joins; rewrite orb_true_iff, !andb_true_iff, !Nat.eqb_eq; tauto).
    destruct (_ || _) eqn:E in |- *.
    + exists (Some a). split; [reflexivity|]. split; [now left|]. exists c. split; [assumption|]. apply J, E.
    + destruct IH as (o & -> & K); [intros e He; apply H; now right|]. exists o. split; [reflexivity|]. destruct o as [e|].
      * destruct K as (I & K). split; [now right|assumption].
      * intros e c' [<-|I] Hc'; [rewrite Hc in Hc'; injection Hc' as <-; rewrite <- J, E; discriminate|apply (K e); assumption].
Qed.
Lemma ereg_ok b x y : good_brep b -> List.In x (vlist b) -> List.In y (vlist b) -> exists b' e, edgeFindnReg b x y = Some (b', e) /\ good_brep b' /\ grow b b' /\ flist b' = flist b /\ vlist b' = vlist b /\ br_v b' = br_v b /\
  List.In e (elist b') /\ (exists c, br_e b' e = Some c /\ joins c x y) /\
  (forall e', List.In e' (elist b') -> List.In e' (elist b) \/ e' = e) /\ (single_edges b -> single_edges b').
Proof.
  intros G Ix Iy. unfold edgeFindnReg. destruct (efind_total (br_e b) (elist b) x y) as (o & E & K); [intros e He; destruct (gb_e _ G e He) as (_ & c & Hc & _); eauto|]. rewrite E. destruct o as [e|].
  - exists b, e. split; [reflexivity|]. split; [assumption|]. split; [apply grow_refl|]. destruct K as [K1 K2]. auto 10.
  - unfold newEdge. set (k := br_next b). set (b' := BR _ _ _ _ _ _).
    assert (NK : ~ List.In k (elist b)) by (intros H; apply (gb_e _ G) in H; unfold k in H; lia).
    assert (HE : forall j, List.In j (elist b) -> br_e b' j = br_e b j) by (intros j Hj; unfold b'; cbn; apply upd_other; intros ->; contradiction).
    assert (GW : grow b b').
    { constructor; unfold b'; cbn; auto; [|exists []; symmetry; apply app_nil_r|].
      - intros j Hj. apply upd_other. unfold k. lia.
      - eexists. reflexivity. }
    assert (Hk : br_e b' k = Some (EGC x y None)) by (unfold b'; cbn; apply upd_same).
    exists b', k. split; [reflexivity|]. split; [|split; [exact GW|split; [reflexivity|split; [reflexivity|split; [reflexivity|split; [|split; [|split]]]]]]].
    + constructor.
      * apply (gb_vnd _ G).
      * unfold b'. cbn. apply nodup_snoc; [apply (gb_end _ G)|assumption].
      * intros v Hv. destruct (gb_v _ G v Hv) as (L & K2). split; [unfold b', k; cbn; lia|exact K2].
      * intros e He. unfold b' in He. cbn in He. apply in_app_or in He. destruct He as [He|[<-|[]]].
        -- destruct (gb_e _ G e He) as (L & c & Hc & A & B & C). split; [unfold b', k; cbn; lia|]. rewrite HE by assumption. exists c. auto.
        -- split; [unfold b', k; cbn; lia|]. rewrite Hk. exists (EGC x y None). auto.
      * intros f Hf. apply (grow_face b); [assumption|assumption|]. apply (gb_f _ G f Hf).
    + unfold b'. cbn. apply in_or_app. right. now left.
    + exists (EGC x y None). split; [assumption|]. left. auto.
    + intros e He. unfold b' in He. cbn in He. apply in_app_or in He. destruct He as [He|[<-|[]]]; auto.
    + intros S e e' c c' u v He He' Hc Hc' J J'. unfold b' in He, He'. cbn in He, He'. apply in_app_or in He. apply in_app_or in He'.
      assert (NN : forall e c u v, List.In e (elist b) -> br_e b' e = Some c -> joins c u v -> joins (EGC x y None) u v -> False).
      { intros e0 c0 u0 v0 I0 H0 J0 J1. rewrite HE in H0 by assumption. apply (K e0 c0 I0 H0). unfold joins in *. cbn in J1. destruct J1 as [[<- <-]|[<- <-]]; tauto. }
      destruct He as [He|[<-|[]]]; destruct He' as [He'|[<-|[]]].
      * rewrite HE in Hc, Hc' by assumption. eapply S; eassumption.
      * exfalso. rewrite Hk in Hc'. injection Hc' as <-. eapply NN; eassumption.
      * exfalso. rewrite Hk in Hc. injection Hc as <-. eapply NN; eassumption.
      * reflexivity.
Qed.
