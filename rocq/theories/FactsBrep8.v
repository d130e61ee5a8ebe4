(** The result of cutting. *)
From Verif Require Import Base Spec SpecBrep ModelBrep FactsAlg FactsVec FactsBrep FactsBrep2 FactsBrep3 FactsBrep4 FactsBrep5 FactsBrep6 FactsBrep7.
From Coq Require Import List Lia Lra Psatz.
Import ListNotations.
Open Scope R_scope.

(** an edge has become a part of what it was *)
Definition edge_in (b b' : brep) (e : nat) : Prop :=
  exists c c' p q p' q', br_e b e = Some c /\ br_e b' e = Some c' /\ vert_at b (ec_a c) p /\ vert_at b (ec_b c) q /\ vert_at b' (ec_a c') p' /\ vert_at b' (ec_b c') q' /\ segment p q p' /\ segment p q q'.
Record truncres (b : brep) (pl : plane3) (b' : brep) : Prop := TR {
  tr_good : good_brep b';
  tr_ng : no_garbage b -> no_garbage b';
  tr_from : forall g, List.In g (flist b') -> exists f, List.In f (flist b) /\ (exists k, 0 < k /\ tri_area (tri_of b' g) = vscale k (tri_area (tri_of b f))) /\
     forall p, in_tri (tri_of b' g) p -> kept (tri_of b f) (snaps pl b f) p;
  tr_sup : forall f p, List.In f (flist b) -> kept (tri_of b f) (snaps pl b f) p -> (exists i, (i < 3)%nat /\ get3 (snaps pl b f) i < 0) \/ (forall i, (i < 3)%nat -> get3 (snaps pl b f) i <= 0) ->
     exists g, List.In g (flist b') /\ in_tri (tri_of b' g) p;
  tr_tight : forall e, List.In e (elist b') -> balanced b' e \/ edge_on b' e (porg pl) (pnorm pl) zTOL \/ (List.In e (elist b) /\ ~ balanced b e /\ edge_in b b' e) }.

Lemma good_face_v b f i : good_brep b -> List.In f (flist b) -> (i < 3)%nat -> List.In (get3 (bf_v f) i) (vlist b).
Proof. intros G I Hi. apply (gb_f _ G f I i Hi). Qed.
Lemma get3_tri b f i : get3 (tri_of b f) i = posn b (get3 (bf_v f) i).
Proof. destruct f as [[[x y] z] [[p q] r] n]. destruct i as [|[|i]]; reflexivity. Qed.
Lemma trip_ext {A} (s t : A * A * A) : (forall i, (i < 3)%nat -> get3 s i = get3 t i) -> s = t.
Proof.
  destruct s as [[a b] c]. destruct t as [[a' b'] c']. intros H. pose proof (H 0%nat ltac:(lia)). pose proof (H 1%nat ltac:(lia)). pose proof (H 2%nat ltac:(lia)). cbn in *. congruence.
Qed.
Lemma get3_snaps pl b f i : get3 (snaps pl b f) i = snap pl (posn b (get3 (bf_v f) i)).
Proof. destruct f as [[[x y] z] [[p q] r] n]. destruct i as [|[|i]]; reflexivity. Qed.
Lemma get3_hgts b f i : get3 (hgts b f) i = hgt b (get3 (bf_v f) i).
Proof. destruct f as [[[x y] z] [[p q] r] n]. destruct i as [|[|i]]; reflexivity. Qed.

Lemma seg_first p q : segment p q p.
Proof. exists 1, 0. split; [unfold weights2; lra|]. unfold comb2. vxy; ring. Qed.
Lemma seg_last p q : segment p q q.
Proof. exists 0, 1. split; [unfold weights2; lra|]. unfold comb2. vxy; ring. Qed.
Lemma seg_cutp p q dp dq : dp * dq < 0 -> segment p q (cutp p q dp dq).
Proof.
  intros H. assert (C : forall u v du dv, 0 < du -> dv < 0 -> exists s t, 0 <= s /\ 0 <= t /\ s + t = 1 /\ cutp u v du dv = comb2 s t u v).
  { intros u v du dv Hu Hv. exists (- dv / (du - dv)), (du / (du - dv)). split; [apply Rle_mult_inv_pos; lra|]. split; [apply Rle_mult_inv_pos; lra|]. split; [field; lra|]. apply cutp_pos; assumption. }
  destruct (Rlt_dec 0 dp).
  - destruct (C p q dp dq) as (s & t & A & B & D & E); [assumption|nra|]. exists s, t. unfold weights2. auto.
  - assert (dp <> 0) by (intros E0; rewrite E0 in H; lra). assert (dp < 0) by lra. assert (0 < dq) by nra. rewrite cutp_sym by assumption.
    destruct (C q p dq dp) as (s & t & A & B & D & E); [assumption|assumption|]. exists t, s. rewrite E. split; [unfold weights2; lra|]. unfold comb2. vxy; ring.
Qed.
Lemma vert_at_in b v : good_brep b -> List.In v (vlist b) -> vert_at b v (posn b v).
Proof. intros G I. destruct (gb_v _ G v I) as (_ & c & H). exists c. split; [assumption|]. unfold posn. rewrite H. reflexivity. Qed.
Lemma below_dec b e c : br_e b e = Some c -> below b e \/ (~ hgt b (ec_a c) < 0 /\ ~ hgt b (ec_b c) < 0).
Proof.
  intros H. destruct (Rlt_dec (hgt b (ec_a c)) 0); [left; exists c; auto|]. destruct (Rlt_dec (hgt b (ec_b c)) 0); [left; exists c; auto|]. auto.
Qed.
(** nothing beyond *)
Lemma trunc_none b pl h n : good_brep b -> truncBBCheck pl (vlist b) (br_v b) = Some (h, n) -> n = 0%nat -> truncres b pl (BR h (br_e b) (br_next b) (vlist b) (elist b) (flist b)).
Proof.
  intros G B Z. destruct (bbcheck pl (vlist b) (br_v b) (gb_vnd _ G)) as (h' & n' & B' & O & I & N); [intros v Hv; apply (gb_v _ G v Hv)|].
  rewrite B in B'. injection B' as <- <-. set (b0 := BR _ _ _ _ _ _).
  assert (NP : forall v, List.In v (vlist b) -> posn b0 v = posn b v /\ snap pl (posn b v) <= 0).
  { intros v Hv. destruct (gb_v _ G v Hv) as (_ & c & Hc). unfold posn, b0. cbn. rewrite (I v c Hv Hc), Hc. cbn. split; [reflexivity|]. apply (proj1 N Z v c Hv Hc). }
  assert (TT : forall f, List.In f (flist b) -> tri_of b0 f = tri_of b f).
  { intros f Hf. apply trip_ext. intros i Hi. rewrite !get3_tri. apply NP. apply good_face_v; assumption. }
  constructor.
  - constructor; cbn.
    + apply (gb_vnd _ G).
    + apply (gb_end _ G).
    + intros v Hv. destruct (gb_v _ G v Hv) as (L & c & Hc). split; [assumption|]. rewrite (I v c Hv Hc). eauto.
    + apply (gb_e _ G).
    + intros f Hf. apply (gb_f _ G f Hf).
  - intros N'. exact N'.
  - intros g Hg. exists g. split; [exact Hg|]. rewrite (TT g Hg). split; [exists 1; split; [lra|]; vxy; ring|].
    intros p Hp.
    assert (S3 : forall i, (i < 3)%nat -> get3 (snaps pl b g) i <= 0) by (intros i Hi; rewrite get3_snaps; apply NP; apply good_face_v; assumption).
    destruct (tri_of b g) as [[x y] z]. destruct (snaps pl b g) as [[d0 d1] d2]. destruct Hp as (s0 & s1 & s2 & (A & A1 & A2 & A3) & E).
    pose proof (S3 0%nat ltac:(lia)) as D0. pose proof (S3 1%nat ltac:(lia)) as D1. pose proof (S3 2%nat ltac:(lia)) as D2. cbn in D0, D1, D2.
    exists s0, s1, s2. split; [repeat split; assumption|]. split; [assumption|]. nra.
  - intros f p Hf Hk _. exists f. split; [exact Hf|]. rewrite (TT f Hf). destruct (tri_of b f) as [[x y] z]. destruct (snaps pl b f) as [[d0 d1] d2].
    destruct Hk as (s0 & s1 & s2 & W & E & _). exists s0, s1, s2. auto.
  - intros e He. cbn in He. destruct (Req_dec (rsum (fun f => face_run b f e) (flist b)) 0) as [W|W]; [left; exact W|]. right. right. split; [assumption|]. split; [exact W|].
    destruct (gb_e _ G e He) as (_ & c & Hc & Ia & Ib & _). destruct (gb_v _ G _ Ia) as (_ & u & Hu). destruct (gb_v _ G _ Ib) as (_ & w & Hw).
    exists c, c, (vc_p u), (vc_p w), (vc_p u), (vc_p w). unfold vert_at, b0. cbn. rewrite (I _ _ Ia Hu), (I _ _ Ib Hw), Hc, Hu, Hw.
    do 2 (split; [reflexivity|]). do 4 (split; [eexists; split; reflexivity|]). split; [apply seg_first|apply seg_last].
Qed.

Lemma run_ends b b' f e : (forall i, (i < 3)%nat -> exists c c1, br_e b (get3 (bf_e f) i) = Some c /\ br_e b' (get3 (bf_e f) i) = Some c1 /\ ec_a c1 = ec_a c /\ ec_b c1 = ec_b c) -> face_run b' f e = face_run b f e.
Proof.
  intros H. assert (Q : forall i, (i < 3)%nat -> side_run b' f e i = side_run b f e i).
  { intros i Hi. destruct (H i Hi) as (c & c1 & E & E1 & A & B). unfold side_run. destruct (Nat.eqb_spec (get3 (bf_e f) i) e) as [<-|]; [|reflexivity].
    rewrite E, E1. unfold run. rewrite A, B. reflexivity. }
  unfold face_run. rewrite !Q by lia. reflexivity.
Qed.
Lemma mid_refl b1 : cutstate b1 -> mid b1 b1.
Proof. intros CS. constructor; auto; [apply (cs_en _ CS)|]. exists []. rewrite app_nil_r. split; [reflexivity|intros ? []]. Qed.
Lemma shr_cut b c : ec_cut (shr b c) = None.
Proof. unfold shr. destruct (ec_cut c) as [x|] eqn:E; [destruct (Rltb 0 (hgt b (ec_a c))); reflexivity|assumption]. Qed.

Lemma trunc_some b pl b1 : good_brep b -> cutready b pl b1 -> exists b', bind (truncFaces (flist b1) b1 [] []) (fun '(b, l) => let b := with_flist b l in bind (truncEdgeShrink (elist b) b) truncGR) = Some b' /\ truncres b pl b'.
Proof.
  intros G Y. pose proof (ry_cs _ _ _ Y) as CS.
  assert (OLD : forall v, List.In v (vlist b) -> List.In v (vlist b1) /\ posn b1 v = posn b v /\ hgt b1 v = snap pl (posn b v)) by (apply (ry_v _ _ _ Y)).
  assert (FT : forall f, List.In f (flist b) -> fits b1 f).
  { intros f Hf i Hi. destruct (gb_f _ G f Hf i Hi) as (A & B & c & Hc & J). split; [apply OLD; assumption|]. split; [rewrite (ry_el _ _ _ Y); assumption|].
    destruct (ry_e _ _ _ Y _ B) as (c' & c1 & Hc' & Hc1 & Ea & Eb). rewrite Hc in Hc'. injection Hc' as <-. exists c1. split; [assumption|]. unfold joins. rewrite Ea, Eb. exact J. }
  assert (T1 : forall f, List.In f (flist b) -> tri_of b1 f = tri_of b f /\ hgts b1 f = snaps pl b f).
  { intros f Hf. split; apply trip_ext; intros i Hi; rewrite ?get3_tri, ?get3_hgts, ?get3_snaps; apply OLD; apply good_face_v; assumption. }
  destruct (truncFaces_res b1 CS (flist b1) b1 [] []) as (b2 & L & -> & Q); [apply mid_refl; assumption|rewrite (ry_f _ _ _ Y); exact FT|intros ? []|intros ? []|].
  pose proof (fr_mid _ _ _ _ _ _ _ Q) as M. pose proof (fr_pf _ _ _ _ _ _ _ Q) as PF. cbn [bind].
  set (b2L := with_flist b2 L). cbv zeta.
  assert (AL : forall e, List.In e (elist b2) -> exists c, br_e b2 e = Some c /\ List.In (ec_a c) (vlist b1)).
  { intros e He. destruct (md_new _ _ M) as (new & E & N). rewrite E in He. apply in_app_or in He. destruct He as [He|He].
    - destruct (cs_e _ CS e He) as (Le & c & Hc & Ia & _). exists c. rewrite (md_e _ _ M) by assumption. auto.
    - destruct (N e He) as (_ & x & y & Hc & Ix & _). exists (EGC x y None). auto. }
  destruct (shrink_ok (elist b2) b2L) as (h & E3 & H3 & _).
  { apply (md_nd _ _ M). }
  { intros e He. destruct (AL e He) as (c & Hc & Ia). exists c. split; [exact Hc|]. unfold b2L. cbn. rewrite (md_v _ _ M). destruct (cs_v _ CS _ Ia) as (_ & u & Hu). eauto. }
  change (elist b2L) with (elist b2). rewrite E3. cbn [bind]. set (b3 := BR _ _ _ _ _ _).
  assert (S3 : forall c, shr b2L c = shr b1 c) by (intros c; rewrite <- (mid_shr _ _ _ M); reflexivity).
  assert (UV : forall v, used_v L v -> List.In v (vlist b1) /\ hgt b1 v <= 0).
  { intros v (g & i & Hg & Hi & <-). destruct (PF g Hg i Hi) as (A & B & _). rewrite (md_vl _ _ M) in A. rewrite (mid_hgt _ _ _ M) in B. auto. }
  assert (UE : forall e, used_e L e -> List.In e (elist b2) /\ exists c, br_e b2 e = Some c /\ h e = Some (shr b1 c) /\ used_v L (ec_a (shr b1 c)) /\ used_v L (ec_b (shr b1 c))).
  { intros e (g & i & Hg & Hi & <-). destruct (PF g Hg i Hi) as (_ & _ & A & c & Hc & J). split; [assumption|]. exists c. split; [assumption|]. rewrite H3 by assumption.
    unfold b2L at 2. cbn. rewrite Hc. cbn. rewrite S3. split; [reflexivity|]. rewrite (mid_shr _ _ _ M) in J.
    assert (N1 : (nxt i < 3)%nat) by (destruct i as [|[|i]]; cbn; lia). assert (N2 : (nxt (nxt i) < 3)%nat) by (destruct i as [|[|i]]; cbn; lia).
    destruct J as [[-> ->]|[-> ->]]; unfold used_v; eauto 10. }
  destruct (gr_ok b3) as (b' & E4 & G1 & G2 & G3 & G4 & G5 & G6 & G7 & G8).
  { cbn. intros v U. rewrite (md_v _ _ M). apply (cs_v _ CS). apply UV, U. }
  { cbn. intros e U. destruct (UE e U) as (_ & c & _ & K & _). eauto. }
  cbn in G1, G2, G3, G4, G5, G6, G7, G8. rewrite E4. exists b'. split; [reflexivity|].
  assert (PV : forall v, used_v L v -> br_v b' v = br_v b1 v) by (intros v U; rewrite (G7 v U); apply (f_equal (fun h => h v) (md_v _ _ M))).
  assert (PE : forall e, used_e L e -> exists c, br_e b2 e = Some c /\ br_e b' e = Some (shr b1 c) /\ used_v L (ec_a (shr b1 c)) /\ used_v L (ec_b (shr b1 c))).
  { intros e U. destruct (UE e U) as (I & c & Hc & K & Ua & Ub). exists c. split; [assumption|]. rewrite (G8 e _ I U K). split; [|auto].
    pose proof (shr_cut b1 c) as SC. destruct (shr b1 c) as [x y z]. cbn in *. rewrite SC. reflexivity. }
  assert (TP : forall g, List.In g L -> tri_of b' g = tri_of b1 g).
  { intros g Hg. apply trip_ext. intros i Hi. rewrite !get3_tri. unfold posn. rewrite PV; [reflexivity|]. exists g, i. auto. }
  constructor.
  - constructor.
    + apply G5. rewrite (md_vl _ _ M). apply (cs_vn _ CS).
    + apply G6. apply (md_nd _ _ M).
    + intros v Hv. apply G3 in Hv. destruct Hv as [_ U]. rewrite (PV v U). destruct (UV v U) as [I _]. destruct (cs_v _ CS v I) as (Lv & K). split; [|exact K].
      rewrite G2. pose proof (md_n _ _ M). lia.
    + intros e He. apply G4 in He. destruct He as [I U]. split; [rewrite G2; apply (in_elist_lt b1); assumption|].
      destruct (PE e U) as (c & Hc & K & Ua & Ub). exists (shr b1 c). split; [assumption|]. split; [|split; [|apply shr_cut]]; apply G3; (split; [|assumption]); rewrite (md_vl _ _ M); apply UV; assumption.
    + intros g Hg i Hi. rewrite G1 in Hg. destruct (PF g Hg i Hi) as (A & _ & B & c & Hc & J). assert (U : used_e L (get3 (bf_e g) i)) by (exists g, i; auto).
      split; [apply G3; split; [assumption|exists g, i; auto]|]. split; [apply G4; auto|]. destruct (PE _ U) as (c' & Hc' & K & _). rewrite Hc in Hc'. injection Hc' as <-.
      exists (shr b1 c). split; [assumption|]. rewrite (mid_shr _ _ _ M) in J. exact J.
  - intros _. split; [intros v Hv; apply G3 in Hv|intros e He; apply G4 in He]; rewrite G1; [exact (proj2 Hv)|exact (proj2 He)].
  - intros g Hg. rewrite G1 in Hg. rewrite (TP g Hg). destruct (fr_from _ _ _ _ _ _ _ Q g Hg) as [[]|[[]|(f & I & A & K)]]. rewrite (ry_f _ _ _ Y) in I.
    destruct (T1 f I) as [Q1 Q2]. exists f. rewrite <- Q1, <- Q2. auto.
  - intros f p Hf K H. destruct (T1 f Hf) as [E1 E2]. rewrite <- E1, <- E2 in K. rewrite <- E2 in H.
    destruct (fr_sup _ _ _ _ _ _ _ Q f p) as (g & I & J); [rewrite (ry_f _ _ _ Y); assumption|assumption|assumption|]. exists g. rewrite G1, (TP g I). auto.
  - intros e He. apply G4 in He. destruct He as [I U].
    assert (RS : rsum (fun f => face_run b' f e) (flist b') = runs b2 L e).
    { rewrite G1. apply rsum_ext6. intros g Hg. apply run_ends. intros i Hi. assert (U' : used_e L (get3 (bf_e g) i)) by (exists g, i; auto).
      destruct (PE _ U') as (c & Hc & K & _). exists (shr b1 c), (shr b1 c). cbn. rewrite Hc. cbn. rewrite (mid_shr _ _ _ M). auto. }
    unfold balanced. rewrite RS. destruct (PE e U) as (c & Hc & K & Ua & Ub).
    assert (ON : forall c', br_e b' e = Some c' -> used_v L (ec_a c') -> used_v L (ec_b c') -> hgt b1 (ec_a c') = 0 -> hgt b1 (ec_b c') = 0 -> edge_on b' e (porg pl) (pnorm pl) zTOL).
    { intros c' Hc' Va Vb Za Zb. exists c', (posn b1 (ec_a c')), (posn b1 (ec_b c')). split; [assumption|].
      destruct (cs_v _ CS _ (proj1 (UV _ Va))) as (_ & u & Hu). destruct (cs_v _ CS _ (proj1 (UV _ Vb))) as (_ & w & Hw).
      split; [exists u; rewrite (PV _ Va); split; [assumption|]; unfold posn; rewrite Hu; reflexivity|].
      split; [exists w; rewrite (PV _ Vb); split; [assumption|]; unfold posn; rewrite Hw; reflexivity|].
      split; apply (ry_ht _ _ _ Y); try assumption; apply UV; assumption. }
    destruct (Nat.lt_ge_cases e (br_next b1)) as [Lo|Hi].
    + assert (I1 : List.In e (elist b1)).
      { destruct (md_new _ _ M) as (new & E & N). rewrite E in I. apply in_app_or in I. destruct I as [I|I]; [assumption|]. apply N in I. lia. }
      destruct (cs_e _ CS e I1) as (_ & c1 & Hc1 & Ia & Ib & KK). rewrite (md_e _ _ M) in Hc by assumption. rewrite Hc in Hc1. injection Hc1 as <-.
      destruct (below_dec b1 e c Hc) as [B|[B B']].
      { assert (RB : runs b2 L e = rsum (fun f => face_run b f e) (flist b)).
        { rewrite (fr_old _ _ _ _ _ _ _ Q e I1 B). unfold runs at 1 2. cbn [rsum fold_right]. rewrite (ry_f _ _ _ Y). rewrite (rsum_ext6 _ (fun f => face_run b f e)); [unfold rsum; ring|].
          intros f Hf; apply run_ends; intros i Hi; apply (ry_e _ _ _ Y); apply (gb_f _ G f Hf i Hi). }
        rewrite RB. destruct (Req_dec (rsum (fun f => face_run b f e) (flist b)) 0) as [W|W]; [left; exact W|]. right. right.
        rewrite (ry_el _ _ _ Y) in I1. split; [assumption|]. split; [exact W|].
        destruct (ry_e _ _ _ Y e I1) as (c0 & c1' & Hc0 & Hc1 & Ea & Eb). rewrite Hc in Hc1. injection Hc1 as <-.
        destruct (gb_e _ G e I1) as (_ & c0' & Hc0' & Ja & Jb & _). rewrite Hc0 in Hc0'. injection Hc0' as <-.
        destruct (OLD _ Ja) as (_ & Pa & _). destruct (OLD _ Jb) as (_ & Pb & _). rewrite <- Ea in Pa. rewrite <- Eb in Pb.
        assert (VA : forall v, used_v L v -> vert_at b' v (posn b1 v)).
        { intros v Uv. destruct (cs_v _ CS _ (proj1 (UV _ Uv))) as (_ & u & Hu). exists u. rewrite (PV _ Uv). split; [assumption|]. unfold posn. rewrite Hu. reflexivity. }
        exists c0, (shr b1 c), (posn b (ec_a c0)), (posn b (ec_b c0)), (posn b1 (ec_a (shr b1 c))), (posn b1 (ec_b (shr b1 c))).
        split; [assumption|]. split; [assumption|]. split; [apply vert_at_in; assumption|]. split; [apply vert_at_in; assumption|]. split; [apply VA; assumption|]. split; [apply VA; assumption|].
        rewrite Ea in Pa. rewrite Eb in Pb. unfold shr. destruct KK as [[Ec _]|(x & Ec & PP & _ & _ & Px)]; rewrite Ec.
        - rewrite Ea, Eb, Pa, Pb. split; [apply seg_first|apply seg_last].
        - assert (SG : segment (posn b (ec_a c0)) (posn b (ec_b c0)) (posn b1 x)) by (rewrite Px, Ea, Eb, Pa, Pb; apply seg_cutp; rewrite <- Ea, <- Eb; exact PP).
          destruct (Rltb 0 (hgt b1 (ec_a c))); cbn; rewrite ?Ea, ?Eb, ?Pa, ?Pb; split; try exact SG; try apply seg_first; apply seg_last. }
      right. left. destruct KK as [[Ec _]|(x & _ & P & _)]; [|exfalso; nra].
      assert (SS : shr b1 c = c) by (unfold shr; rewrite Ec; reflexivity). rewrite SS in *.
      destruct (UV _ Ua). destruct (UV _ Ub). apply (ON c); try assumption; lra.
    + destruct (fr_new _ _ _ _ _ _ _ Q e) as [Z|(c' & Hc' & Za & Zb)]; [split; [assumption|apply (in_elist_lt b1); assumption]|left; assumption|].
      rewrite Hc in Hc'. injection Hc' as <-. right. left.
      assert (SS : shr b1 c = c).
      { destruct (md_new _ _ M) as (new & E & N). rewrite E in I. apply in_app_or in I. destruct I as [I|I]; [apply (cs_e _ CS) in I; lia|].
        destruct (N e I) as (_ & x & y & Hn & _). rewrite Hc in Hn. injection Hn as ->. reflexivity. }
      rewrite SS in *. apply (ON c); assumption.
Qed.
Theorem brep_trunc b pl : good_brep b -> exists b', zBREPTrunc b pl = Some b' /\ truncres b pl b'.
Proof.
  intros G. unfold zBREPTrunc. destruct (bbcheck pl (vlist b) (br_v b) (gb_vnd _ G)) as (h & n & B & _); [intros v Hv; apply (gb_v _ G v Hv)|]. rewrite B.
  destruct (Nat.eqb_spec n 0) as [Z|Z].
  - eexists. split; [reflexivity|]. apply (trunc_none b pl h n); assumption.
  - destruct (cut_ready b pl h n G B) as (b1 & E & Y). cbv zeta. cbn [elist flist]. rewrite E. cbn [bind]. apply trunc_some; assumption.
Qed.
