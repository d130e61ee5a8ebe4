(** Cutting a boundary representation by a plane. *)
From Verif Require Import Base Spec SpecBrep ModelBrep FactsAlg FactsVec FactsBrep FactsBrep2 FactsBrep3 FactsBrep4 FactsBrep5 FactsBrep6.
From Coq Require Import List Lia Lra Psatz.
Import ListNotations.
Open Scope R_scope.

Definition ht (pl : plane3) (p : vec3) : R := height_over (porg pl) (pnorm pl) p.
Definition snaps (pl : plane3) (b : brep) (f : bface) : R * R * R := let '(x, y, z) := bf_v f in (snap pl (posn b x), snap pl (posn b y), snap pl (posn b z)).
Lemma snap_cases pl p : (snap pl p = 0 /\ Rabs (ht pl p) < zTOL) \/ (snap pl p = ht pl p /\ zTOL <= Rabs (ht pl p)).
Proof.
  unfold snap, ht, height_over, zIsTiny, zIsTol. destruct (Rltb_reflect (Rabs (dot (vsub p (porg pl)) (pnorm pl))) zTOL); [left; auto|right; split; [reflexivity|lra]].
Qed.
Lemma snap_near pl p : Rabs (ht pl p - snap pl p) < zTOL.
Proof.
  pose proof zTOL_pos. destruct (snap_cases pl p) as [[-> H1]|[-> H1]].
  - rewrite Rminus_0_r. assumption.
  - replace (ht pl p - ht pl p) with 0 by ring. rewrite Rabs_R0. lra.
Qed.
Lemma ht_comb pl s0 s1 s2 x y z : s0 + s1 + s2 = 1 -> ht pl (comb3 s0 s1 s2 x y z) = s0 * ht pl x + s1 * ht pl y + s2 * ht pl z.
Proof. intros H. unfold ht, height_over, comb3, dot. cbn. nra. Qed.
Lemma ht_cutp pl x y : ht pl x * ht pl y < 0 -> ht pl (cutp x y (ht pl x) (ht pl y)) = 0.
Proof.
  intros H. assert (C : forall u v, 0 < ht pl u -> ht pl v < 0 -> ht pl (cutp u v (ht pl u) (ht pl v)) = 0).
  { intros u v Hu Hv. rewrite cutp_pos by assumption. set (du := ht pl u) in *. set (dv := ht pl v) in *.
    replace (comb2 (- dv / (du - dv)) (du / (du - dv)) u v) with (comb3 (- dv / (du - dv)) (du / (du - dv)) 0 u v v) by (unfold comb3, comb2; vxy; ring).
    rewrite ht_comb by (field; lra). fold du dv. field. lra. }
  destruct (Rlt_dec 0 (ht pl x)); [apply C; nra|]. assert (ht pl x <> 0) by (intros E0; rewrite E0 in H; lra). assert (ht pl x < 0) by lra. rewrite cutp_sym by assumption. apply C; nra.
Qed.

(** ** before the faces *)
Record cutready (b : brep) (pl : plane3) (b1 : brep) : Prop := CRY {
  ry_cs : cutstate b1; ry_f : flist b1 = flist b; ry_el : elist b1 = elist b;
  ry_v : forall v, List.In v (vlist b) -> List.In v (vlist b1) /\ posn b1 v = posn b v /\ hgt b1 v = snap pl (posn b v);
  ry_ht : forall v, List.In v (vlist b1) -> hgt b1 v = 0 -> Rabs (ht pl (posn b1 v)) < zTOL;
  ry_e : forall e, List.In e (elist b) -> exists c c1, br_e b e = Some c /\ br_e b1 e = Some c1 /\ ec_a c1 = ec_a c /\ ec_b c1 = ec_b c }.
Lemma cut_ready b pl h n : good_brep b -> truncBBCheck pl (vlist b) (br_v b) = Some (h, n) ->
  exists b1, truncIntersect (elist b) (BR h (br_e b) (br_next b) (vlist b) (elist b) (flist b)) = Some b1 /\ cutready b pl b1.
Proof.
  intros G B. set (b0 := BR _ _ _ _ _ _).
  destruct (bbcheck pl (vlist b) (br_v b) (gb_vnd _ G)) as (h' & n' & B' & O & I & _); [intros v Hv; apply (gb_v _ G v Hv)|].
  rewrite B in B'. injection B' as <- <-.
  assert (H0 : forall v, List.In v (vlist b) -> (v < br_next b)%nat /\ (exists u, h v = Some u) /\ posn b0 v = posn b v /\ hgt b0 v = snap pl (posn b v)).
  { intros v Hv. destruct (gb_v _ G v Hv) as (Lv & c & Hc). split; [assumption|]. pose proof (I v c Hv Hc) as HI. split; [eauto|]. unfold posn, hgt, b0. cbn. rewrite HI, Hc. auto. }
  destruct (intersect (elist b) b0) as (b1 & new & E & F1 & F2 & F3 & F4 & F5 & F6 & F7 & F8 & F9).
  { apply (gb_end _ G). } { apply (gb_vnd _ G). } { intros v Hv. apply (H0 v Hv). }
  { intros e He. destruct (gb_e _ G e He) as (_ & c & Hc & Ia & Ib & _). exists c. unfold b0. cbn. destruct (H0 _ Ia) as (A1 & A2 & _). destruct (H0 _ Ib) as (B1 & B2 & _). auto 10. }
  exists b1. split; [exact E|].
  assert (OLD : forall v, List.In v (vlist b) -> posn b1 v = posn b v /\ hgt b1 v = snap pl (posn b v)).
  { intros v Hv. destruct (H0 v Hv) as (A1 & _ & A3 & A4). split; [rewrite <- A3|rewrite <- A4]; unfold posn, hgt; rewrite F7 by exact A1; reflexivity. }
  assert (IN1 : forall v, List.In v (vlist b) -> List.In v (vlist b1)) by (intros v Hv; rewrite F4; apply in_or_app; now left).
  assert (EDGE : forall e, List.In e (elist b) -> exists c c1, br_e b e = Some c /\ br_e b1 e = Some c1 /\ ec_a c1 = ec_a c /\ ec_b c1 = ec_b c /\ List.In (ec_a c) (vlist b) /\ List.In (ec_b c) (vlist b) /\
    ((ec_cut c1 = None /\ ~ hgt b1 (ec_a c1) * hgt b1 (ec_b c1) < 0) \/
     (exists x, ec_cut c1 = Some x /\ hgt b1 (ec_a c1) * hgt b1 (ec_b c1) < 0 /\ List.In x (vlist b1) /\ hgt b1 x = 0 /\
        posn b1 x = cutp (posn b1 (ec_a c1)) (posn b1 (ec_b c1)) (hgt b1 (ec_a c1)) (hgt b1 (ec_b c1))))).
  { intros e He. destruct (gb_e _ G e He) as (_ & c & Hc & Ia & Ib & Nc).
    destruct (OLD _ Ia) as [PA HA]. destruct (OLD _ Ib) as [PB HB]. destruct (H0 _ Ia) as (_ & _ & PA0 & HA0). destruct (H0 _ Ib) as (_ & _ & PB0 & HB0).
    destruct (F9 e He c Hc) as [(L & x & X1 & X2 & X3 & X4)|(L & X4)].
    - exists c, (EGC (ec_a c) (ec_b c) (Some x)). cbn. do 6 (split; [assumption || reflexivity|]). right. exists x. split; [reflexivity|].
      rewrite HA, HB, PA, PB. rewrite HA0, HB0 in L. rewrite PA0, PB0, HA0, HB0 in X3. split; [assumption|]. split; [assumption|]. unfold hgt, posn at 1. rewrite X3. cbn. auto.
    - exists c, c. do 6 (split; [assumption || reflexivity|]). left. rewrite HA, HB. rewrite HA0, HB0 in L. auto. }
  constructor.
  - constructor.
    + assumption.
    + rewrite F2. apply (gb_end _ G).
    + intros v Hv. rewrite F4 in Hv. apply in_app_or in Hv. destruct Hv as [Hv|Hv].
      * destruct (H0 v Hv) as (L & (u & Hu) & _). cbn in F3. split; [lia|]. exists u. rewrite F7 by exact L. assumption.
      * destruct (F6 v Hv) as (L & e & c & _ & _ & _ & Hp). split; [lia|]. eauto.
    + intros e He. rewrite F2 in He. destruct (EDGE e He) as (c & c1 & Hc & Hc1 & Ea & Eb & Ia & Ib & K). split.
      * destruct (gb_e _ G e He) as (L & _). cbn in F3. lia.
      * exists c1. rewrite Ea, Eb in *. auto.
  - exact F1.
  - exact F2.
  - intros v Hv. split; [auto|]. apply OLD. assumption.
  - intros v Hv Z. rewrite F4 in Hv. apply in_app_or in Hv. destruct Hv as [Hv|Hv].
    + destruct (OLD v Hv) as [-> K]. rewrite K in Z. destruct (snap_cases pl (posn b v)) as [[_ S]|[S T]]; [assumption|]. exfalso. rewrite <- S, Z, Rabs_R0 in T. pose proof zTOL_pos. lra.
    + destruct (F6 v Hv) as (_ & e & c & I' & Hc & P & Hp). destruct (gb_e _ G e I') as (_ & c' & Hc' & Ia & Ib & _). cbn in Hc. rewrite Hc in Hc'. injection Hc' as <-.
      destruct (H0 _ Ia) as (_ & _ & PA0 & HA0). destruct (H0 _ Ib) as (_ & _ & PB0 & HB0). rewrite HA0, HB0 in P. rewrite PA0, PB0, HA0, HB0 in Hp.
      unfold posn at 1. rewrite Hp. cbn [vc_p].
      destruct (snap_cases pl (posn b (ec_a c))) as [[Sa _]|[Sa _]]; [exfalso; rewrite Sa in P; lra|].
      destruct (snap_cases pl (posn b (ec_b c))) as [[Sb _]|[Sb _]]; [exfalso; rewrite Sb in P; lra|].
      rewrite Sa, Sb in *. rewrite ht_cutp by assumption. rewrite Rabs_R0. apply zTOL_pos.
  - intros e He. destruct (EDGE e He) as (c & c1 & A1 & A2 & A3 & A4 & _). eauto 10.
Qed.
