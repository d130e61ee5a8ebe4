(** Heights of the vertices, intersections of the edges. *)
From Verif Require Import Base Spec SpecBrep ModelBrep FactsAlg FactsVec FactsBrep.
From Coq Require Import List Lia Lra Psatz.
Import ListNotations.
Open Scope R_scope.

Lemma upd_same {A} (h : nat -> option A) k x : upd h k x k = x.
Proof. unfold upd. rewrite Nat.eqb_refl. reflexivity. Qed.
Lemma upd_other {A} (h : nat -> option A) k x j : j <> k -> upd h k x j = h j.
Proof. intros N. unfold upd. destruct (Nat.eqb_spec j k); [contradiction|reflexivity]. Qed.

(** the height as stored *)
Definition snap (pl : plane3) (p : vec3) : R := let d := dot (vsub p (porg pl)) (pnorm pl) in if zIsTiny d then 0 else d.
Definition posn (b : brep) (v : nat) : vec3 := match br_v b v with Some c => vc_p c | None => v3zero end.
Definition hgt (b : brep) (v : nat) : R := match br_v b v with Some c => vc_d c | None => 0 end.

Lemma bbcheck pl l : forall h, NoDup l -> (forall v, List.In v l -> exists c, h v = Some c) ->
  exists h' n, truncBBCheck pl l h = Some (h', n) /\ (forall k, ~ List.In k l -> h' k = h k) /\
    (forall k c, List.In k l -> h k = Some c -> h' k = Some (VC (vc_p c) (snap pl (vc_p c)))) /\
    (n = 0%nat <-> forall v c, List.In v l -> h v = Some c -> snap pl (vc_p c) <= 0).
Proof.
  induction l as [|v t IH]; intros h ND AL.
  - exists h, 0%nat. repeat split; auto; intros; contradiction.
  - destruct (AL v (or_introl eq_refl)) as [c Hc]. cbn. rewrite Hc.
    inversion ND as [|? ? NI ND']; subst.
    set (d := if zIsTiny _ then 0 else _).
    assert (Ed : d = snap pl (vc_p c)) by (unfold d, snap; rewrite zdot_spec, zsub_spec; reflexivity).
    destruct (IH (upd h v (Some (VC (vc_p c) d))) ND') as (h' & n & E & O & I & Z).
    { intros k Hk. rewrite upd_other by (intros ->; contradiction). apply AL. now right. }
    rewrite E. exists h', (if Rltb 0 d then S n else n). split; [reflexivity|]. split; [|split].
    + intros k Hk. rewrite O by (intros H; apply Hk; now right). apply upd_other. intros ->. apply Hk. now left.
    + intros k c' [<-|Hk] Hc'.
      * rewrite O by assumption. rewrite upd_same. rewrite Hc in Hc'. injection Hc' as <-. rewrite Ed. reflexivity.
      * apply I; [assumption|]. rewrite upd_other by (intros ->; contradiction). assumption.
    + destruct (Rltb_reflect 0 d) as [L|L].
      * split; [discriminate|]. intros A. specialize (A v c (or_introl eq_refl) Hc). lra.
      * rewrite Z. split; intros A k c' Hk Hc'.
        -- destruct Hk as [<-|Hk]; [rewrite Hc in Hc'; injection Hc' as <-; lra|].
           apply (A k); [assumption|]. rewrite upd_other by (intros ->; contradiction). assumption.
        -- rewrite upd_other in Hc' by (intros ->; contradiction). apply (A k); [now right|assumption].
Qed.

(** an edge as marked by the intersection *)
Definition marked (b b' : brep) (e : nat) : Prop :=
  forall c, br_e b e = Some c ->
  (hgt b (ec_a c) * hgt b (ec_b c) < 0 /\ exists x, (br_next b <= x < br_next b')%nat /\ List.In x (vlist b') /\
      br_v b' x = Some (VC (cutp (posn b (ec_a c)) (posn b (ec_b c)) (hgt b (ec_a c)) (hgt b (ec_b c))) 0) /\ br_e b' e = Some (EGC (ec_a c) (ec_b c) (Some x))) \/
  (~ hgt b (ec_a c) * hgt b (ec_b c) < 0 /\ br_e b' e = Some c).
(** a new vertex comes from an edge *)
Definition made_by (b b' : brep) (l : list nat) (x : nat) : Prop :=
  exists e c, List.In e l /\ br_e b e = Some c /\ hgt b (ec_a c) * hgt b (ec_b c) < 0 /\
    br_v b' x = Some (VC (cutp (posn b (ec_a c)) (posn b (ec_b c)) (hgt b (ec_a c)) (hgt b (ec_b c))) 0).
Lemma intersect l : forall b, NoDup l -> NoDup (vlist b) -> (forall v, List.In v (vlist b) -> (v < br_next b)%nat) ->
  (forall e, List.In e l -> exists c, br_e b e = Some c /\ (ec_a c < br_next b)%nat /\ (ec_b c < br_next b)%nat /\ (exists u, br_v b (ec_a c) = Some u) /\ (exists u, br_v b (ec_b c) = Some u)) ->
  exists b' new, truncIntersect l b = Some b' /\ flist b' = flist b /\ elist b' = elist b /\ (br_next b <= br_next b')%nat /\ vlist b' = vlist b ++ new /\ NoDup (vlist b') /\
    (forall x, List.In x new -> (br_next b <= x < br_next b')%nat /\ made_by b b' l x) /\
    (forall k, (k < br_next b)%nat -> br_v b' k = br_v b k) /\ (forall e, ~ List.In e l -> br_e b' e = br_e b e) /\ (forall e, List.In e l -> marked b b' e).
Proof.
  induction l as [|e t IH]; intros b ND NV VB AL.
  - exists b, []. rewrite app_nil_r. repeat split; auto; intros; contradiction.
  - inversion ND as [|? ? NI ND']; subst. destruct (AL e (or_introl eq_refl)) as (c & Hc & La & Lb & (ua & Ha) & (ub & Hb)).
    cbn. rewrite Hc, Ha, Hb. destruct (Rltb_reflect (vc_d ua * vc_d ub) 0) as [L|L].
    + set (x := br_next b). set (p := zVec3DInterDiv _ _ _).
      set (b2 := BR _ _ _ _ _ _).
      destruct (IH b2) as (b' & new & E & F1 & F2 & F3 & F4 & F5 & F6 & F7 & F8 & F9); [assumption| | | |].
      { unfold b2. cbn. rewrite <- (rev_involutive (vlist b ++ [x])), rev_app_distr. apply NoDup_rev. cbn. constructor.
        - rewrite <- in_rev. intros H. apply VB in H. unfold x in H. lia.
        - apply NoDup_rev. assumption. }
      { unfold b2. cbn. intros v Hv. apply in_app_or in Hv. destruct Hv as [Hv|[<-|[]]]; [apply VB in Hv|]; unfold x; lia. }
      { intros k Hk. destruct (AL k (or_intror Hk)) as (ck & Hck & Ka & Kb & (va & Hva) & (vb & Hvb)). exists ck. unfold b2. cbn.
        rewrite upd_other by (intros ->; contradiction). split; [assumption|]. split; [unfold x; lia|]. split; [unfold x; lia|].
        rewrite !upd_other by (unfold x; lia). eauto. }
      assert (F3' : (S x <= br_next b')%nat) by exact F3.
      assert (F7' : forall k, (k < S x)%nat -> br_v b' k = upd (br_v b) x (Some (VC p 0)) k) by exact F7.
      assert (Hx : br_v b' x = Some (VC p 0)) by (rewrite F7' by lia; apply upd_same).
      exists b', (x :: new). split; [exact E|]. split; [exact F1|]. split; [exact F2|]. split; [unfold x in F3'; lia|].
      split; [rewrite F4; unfold b2; cbn; rewrite <- app_assoc; reflexivity|]. split; [exact F5|]. split; [|split; [|split]].
      * intros k [<-|Hk].
        -- split; [unfold x in *; lia|]. exists e, c. unfold hgt, posn. rewrite Ha, Hb. split; [now left|]. split; [assumption|]. split; [assumption|]. rewrite Hx. reflexivity.
        -- destruct (F6 k Hk) as [B (e' & c' & I' & E' & Q)]. split; [cbn in B; unfold x in B; lia|]. destruct (AL e' (or_intror I')) as (ck & Hck & Ka & Kb & _).
           assert (Ecc : br_e b e' = Some c') by (unfold b2 in E'; cbn in E'; rewrite upd_other in E' by (intros ->; contradiction); assumption).
           rewrite Hck in Ecc. injection Ecc as ->. exists e', c'. split; [now right|]. split; [assumption|].
           assert (HH : forall v, (v < br_next b)%nat -> hgt b2 v = hgt b v /\ posn b2 v = posn b v).
           { intros v Hv. unfold hgt, posn, b2. cbn. rewrite upd_other by (unfold x; lia). auto. }
           destruct (HH _ Ka) as [A1 A2]. destruct (HH _ Kb) as [B1 B2]. rewrite A1, A2, B1, B2 in Q. exact Q.
      * intros k Hk. rewrite F7' by (unfold x; lia). apply upd_other. unfold x. lia.
      * intros k Hk. rewrite F8 by (intros H; apply Hk; now right). unfold b2. cbn. apply upd_other. intros ->. apply Hk. now left.
      * intros k [<-|Hk].
        -- intros ck Hck. rewrite Hc in Hck. injection Hck as <-. left. unfold hgt, posn. rewrite Ha, Hb. split; [assumption|].
           exists x. split; [unfold x in *; lia|]. split; [rewrite F4; unfold b2; cbn; apply in_or_app; left; apply in_or_app; right; now left|].
           split; [rewrite Hx; reflexivity|]. rewrite F8 by assumption. unfold b2. cbn. apply upd_same.
        -- intros ck Hck. destruct (AL k (or_intror Hk)) as (ck' & Hck' & Ka & Kb & _). rewrite Hck in Hck'. injection Hck' as <-.
           assert (HH : forall v, (v < br_next b)%nat -> hgt b2 v = hgt b v /\ posn b2 v = posn b v).
           { intros v Hv. unfold hgt, posn, b2. cbn. rewrite upd_other by (unfold x; lia). auto. }
           destruct (HH _ Ka) as [A1 A2]. destruct (HH _ Kb) as [B1 B2].
           destruct (F9 k Hk ck) as [(G & y & Y1 & Y2 & Y3 & Y4)|(G & Y)]; [unfold b2; cbn; rewrite upd_other by (intros ->; contradiction); assumption| |].
           ++ left. rewrite A1, B1 in G. split; [assumption|]. exists y. split; [cbn in Y1; unfold x in Y1; lia|]. split; [assumption|].
              rewrite A1, B1, A2, B2 in Y3. split; assumption.
           ++ right. rewrite A1, B1 in G. split; assumption.
    + destruct (IH b) as (b' & new & E & F1 & F2 & F3 & F4 & F5 & F6 & F7 & F8 & F9); [assumption|assumption|assumption| |].
      { intros k Hk. apply AL. now right. }
      exists b', new. do 6 (split; [assumption|]). split; [|split; [assumption|split]].
      * intros k Hk. destruct (F6 k Hk) as [B (e' & c' & I' & Q)]. split; [assumption|]. exists e', c'. split; [now right|assumption].
      * intros k Hk. apply F8. intros H. apply Hk. now right.
      * intros k [<-|Hk]; [|apply F9; assumption].
        intros ck Hck. rewrite Hc in Hck. injection Hck as <-. right. unfold hgt. rewrite Ha, Hb. split; [lra|]. rewrite F8 by assumption. assumption.
Qed.
