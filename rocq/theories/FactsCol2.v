(** Proofs about intersections of triangles with planes, edges and triangles. *)
From Coq Require Import List Bool Lia.
Import ListNotations.
From Verif Require Import Base ModelVec ModelBox ModelTree ModelElem ModelCol SpecCol FactsVec FactsAlg Facts2D FactsElem FactsTri FactsTri2 FactsLine FactsCentre FactsObb FactsCol.
Open Scope R_scope.

(** ** how many points a plane takes from a triangle *)
Lemma distinct_NoDup l : distinct l -> NoDup l.
Proof.
  intros D. apply NoDup_nth_error. intros i j Hi E. destruct (nth_error l i) as [p|] eqn:P; [|apply nth_error_None in P; lia].
  symmetry in E. eapply D; [exact P|exact E|apply alike_refl].
Qed.
Lemma addAll_len l : forall ip, (length (fold_left addNew l ip) <= length ip + length l)%nat.
Proof. induction l as [|v l IH]; cbn [fold_left length]; intros ip; [lia|]. specialize (IH (addNew ip v)). pose proof (addNew_len ip v). lia. Qed.
Lemma edge_touch a b pl : on_plane (porg pl) (pnorm pl) a \/ on_plane (porg pl) (pnorm pl) b ->
  exists w, (w = a \/ w = b) /\ on_plane (porg pl) (pnorm pl) w /\
  (zIntersectEdgePlane3D (E3 a b) pl = [w] \/
   (zIntersectEdgePlane3D (E3 a b) pl = [a; b] /\ Rabs (height (porg pl) (pnorm pl) b - height (porg pl) (pnorm pl) a) < zTOL)).
Proof.
  intros H. assert (exists w, (w = a \/ w = b) /\ on_plane (porg pl) (pnorm pl) w /\ segment a b w) as (w & W1 & W2 & W3).
  { destruct H; [exists a|exists b]; auto using seg_l, seg_r. }
  exists w. split; [assumption|]. split; [assumption|].
  destruct (edge_plane (E3 a b) pl) as [(_ & N)|[(q & E & _ & _ & U & _)|(E & _ & T)]]; cbn [ev0 ev1] in *.
  - exfalso. apply N. exists w. auto.
  - left. rewrite E. f_equal. symmetry. apply U; assumption.
  - right. auto.
Qed.
Lemma three_hits h0 h1 h2 : h0 * h1 <= 0 -> h1 * h2 <= 0 -> h2 * h0 <= 0 -> h0 = 0 \/ h1 = 0 \/ h2 = 0.
Proof.
  intros A B C. destruct (Req_dec h0 0); [auto|]. destruct (Req_dec h1 0); [auto|]. right; right.
  destruct (Rlt_dec 0 h0), (Rlt_dec 0 h1); try nra.
Qed.
Lemma edge_count e pl : (length (zIntersectEdgePlane3D e pl) <= 2)%nat.
Proof. destruct (edge_plane e pl) as [(-> & _)|[(q & -> & _)|(-> & _)]]; cbn; lia. Qed.
Lemma edge_some a b pl : exists w, incl (zIntersectEdgePlane3D (E3 a b) pl) [a; b; w].
Proof.
  destruct (edge_plane (E3 a b) pl) as [(-> & _)|[(q & -> & _)|(-> & _)]]; cbn [ev0 ev1].
  - exists a. intros x [].
  - exists q. intros x [<-|[]]. cbn. auto.
  - exists a. intros x [<-|[<-|[]]]; cbn; auto.
Qed.
Lemma edge_touch_incl a b pl : on_plane (porg pl) (pnorm pl) a \/ on_plane (porg pl) (pnorm pl) b ->
  incl (zIntersectEdgePlane3D (E3 a b) pl) [a; b].
Proof.
  intros H. destruct (edge_touch a b pl H) as (w & W & _ & [-> |[-> _]]); intros x.
  - intros [<-|[]]. cbn. destruct W; auto.
  - auto.
Qed.
Lemma tri_plane_count t pl : (length (zIntersectTriPlane3D t pl) <= 4)%nat.
Proof.
  rewrite tri_plane_fold. set (o := porg pl). set (n := pnorm pl).
  set (l0 := zIntersectEdgePlane3D (E3 (tv0 t) (tv1 t)) pl). set (l1 := zIntersectEdgePlane3D (E3 (tv1 t) (tv2 t)) pl). set (l2 := zIntersectEdgePlane3D (E3 (tv2 t) (tv0 t)) pl).
  pose proof (edge_count (E3 (tv0 t) (tv1 t)) pl) as L0. pose proof (edge_count (E3 (tv1 t) (tv2 t)) pl) as L1. pose proof (edge_count (E3 (tv2 t) (tv0 t)) pl) as L2.
  fold l0 in L0. fold l1 in L1. fold l2 in L2.
  pose proof (addAll_len (l0 ++ l1 ++ l2) []) as L. rewrite !app_length in L. cbn [length] in L.
  assert (Hit : forall a b, zIntersectEdgePlane3D (E3 a b) pl = [] \/ height o n a * height o n b <= 0).
  { intros a b. destruct (edge_plane (E3 a b) pl) as [(-> & _)|[(q & _ & A & B & _)|(_ & M & _)]]; cbn [ev0 ev1] in *; [auto|right; apply meets_product; exists q; auto|right; apply meets_product; assumption]. }
  destruct (Hit (tv0 t) (tv1 t)) as [E|H0]. { fold l0 in E. rewrite E in L. cbn in L. rewrite E in *. cbn [app] in *. lia. }
  destruct (Hit (tv1 t) (tv2 t)) as [E|H1]. { fold l1 in E. rewrite E in *. cbn [app length] in *. lia. }
  destruct (Hit (tv2 t) (tv0 t)) as [E|H2]. { fold l2 in E. rewrite E in *. cbn [app length] in *. lia. }
  assert (exists w, incl (l0 ++ l1 ++ l2) [tv0 t; tv1 t; tv2 t; w]) as (w & I).
  { destruct (three_hits _ _ _ H0 H1 H2) as [Z|[Z|Z]].
    - destruct (edge_some (tv1 t) (tv2 t) pl) as (w & W). exists w.
      pose proof (edge_touch_incl (tv0 t) (tv1 t) pl (or_introl Z)) as A. pose proof (edge_touch_incl (tv2 t) (tv0 t) pl (or_intror Z)) as B.
      intros x. rewrite !in_app_iff. intros [H|[H|H]]; [apply A in H|apply W in H|apply B in H]; cbn in *; tauto.
    - destruct (edge_some (tv2 t) (tv0 t) pl) as (w & W). exists w.
      pose proof (edge_touch_incl (tv0 t) (tv1 t) pl (or_intror Z)) as A. pose proof (edge_touch_incl (tv1 t) (tv2 t) pl (or_introl Z)) as B.
      intros x. rewrite !in_app_iff. intros [H|[H|H]]; [apply A in H|apply B in H|apply W in H]; cbn in *; tauto.
    - destruct (edge_some (tv0 t) (tv1 t) pl) as (w & W). exists w.
      pose proof (edge_touch_incl (tv1 t) (tv2 t) pl (or_intror Z)) as A. pose proof (edge_touch_incl (tv2 t) (tv0 t) pl (or_introl Z)) as B.
      intros x. rewrite !in_app_iff. intros [H|[H|H]]; [apply W in H|apply A in H|apply B in H]; cbn in *; tauto. }
  change 4%nat with (length [tv0 t; tv1 t; tv2 t; w]). apply NoDup_incl_length.
  - apply distinct_NoDup, addAll_distinct, distinct_nil.
  - intros x Hx. apply addAll_in in Hx. destruct Hx as [[]|Hx]. apply I, Hx.
Qed.
(** all of the triangle in the plane: its three corners, unless they cannot be told apart *)
Lemma tri_plane_flat t pl : let o := porg pl in let n := pnorm pl in
  on_plane o n (tv0 t) -> on_plane o n (tv1 t) -> on_plane o n (tv2 t) ->
  ~ alike (tv0 t) (tv1 t) -> ~ alike (tv1 t) (tv2 t) -> ~ alike (tv2 t) (tv0 t) ->
  zIntersectTriPlane3D t pl = [tv0 t; tv1 t; tv2 t].
Proof.
  cbv zeta. intros P0 P1 P2 A01 A12 A20. rewrite tri_plane_fold. pose proof zTOL_pos as TP.
  assert (F : forall a b, on_plane (porg pl) (pnorm pl) a -> on_plane (porg pl) (pnorm pl) b -> zIntersectEdgePlane3D (E3 a b) pl = [a; b]).
  { intros a b Ha Hb. destruct (edge_plane (E3 a b) pl) as [(_ & N)|[(q & _ & _ & _ & _ & T)|(E & _)]]; cbn [ev0 ev1] in *; [| |assumption]; exfalso.
    - apply N. exists a. split; [apply seg_l|assumption].
    - unfold on_plane in *. unfold height in T. rewrite Ha, Hb in T. rewrite Rminus_0_r, Rabs_R0 in T. lra. }
  rewrite !F by assumption. cbn [app fold_left]. unfold addNew.
  assert (N : forall p q, ~ alike p q -> zVec3DEqual p q = false) by (intros p q H; destruct (zVec3DEqual p q) eqn:E; [exfalso; apply H, equal_alike, E|reflexivity]).
  assert (Rf : forall p, zVec3DEqual p p = true) by (intros; apply equal_alike, alike_refl).
  assert (Sy : forall p q, ~ alike p q -> ~ alike q p) by (intros p q H K; apply H, alike_sym, K).
  cbn [existsb app]. rewrite (N (tv1 t) (tv0 t)) by auto. cbn [orb existsb app]. rewrite (N (tv1 t) (tv0 t)), Rf by auto. cbn [orb existsb app].
  rewrite (N (tv2 t) (tv0 t)), (N (tv2 t) (tv1 t)) by auto. cbn [orb existsb app].
  rewrite (N (tv2 t) (tv0 t)), (N (tv2 t) (tv1 t)), Rf by auto. cbn [orb existsb app]. rewrite Rf. reflexivity.
Qed.

(** ** regular position *)
Lemma height_comb_on o n s t a b : s + t = 1 -> on_plane o n (comb2 s t a b) <-> s * height o n a + t * height o n b = 0.
Proof. intros H. unfold on_plane. fold (height o n (comb2 s t a b)). rewrite height_comb2 by assumption. tauto. Qed.
(** the part of a triangle in a plane when one corner is on the other side of the other two *)
Lemma apex o n a b c x : height o n a <> 0 -> height o n a * height o n b <= 0 -> height o n a * height o n c <= 0 ->
  in_triangle a b c x -> on_plane o n x ->
  exists y z, segment a b y /\ on_plane o n y /\ segment a c z /\ on_plane o n z /\ segment y z x.
Proof.
  intros Na Hb Hc (sa & sb & sc & (Wa & Wb & Wc & W) & ->) P.
  unfold on_plane in P. fold (height o n (comb3 sa sb sc a b c)) in P. rewrite height_comb3 in P by assumption.
  set (ha := height o n a) in *. set (hb := height o n b) in *. set (hc := height o n c) in *.
  assert (Q : forall h, ha * h <= 0 -> ha - h <> 0 /\ weights2 (- h / (ha - h)) (ha / (ha - h)) /\ 0 < ha / (ha - h)).
  { intros h H. assert (Nz : ha - h <> 0) by (intros Z; assert (h = ha) by lra; subst h; nra). split; [assumption|].
    assert (P1 : 0 < / ((ha - h) * (ha - h))) by (apply Rinv_0_lt_compat; nra).
    assert (E1 : - h / (ha - h) = (- h * ha + h * h) * / ((ha - h) * (ha - h))) by (field; assumption).
    assert (E2 : ha / (ha - h) = (ha * ha - ha * h) * / ((ha - h) * (ha - h))) by (field; assumption).
    unfold weights2. rewrite E1, E2. pose proof (Rle_0_sqr h) as S1. unfold Rsqr in S1. assert (0 < ha * ha) by nra.
    split; [split; [apply Rmult_le_pos; lra|split; [apply Rmult_le_pos; lra|field; assumption]]|apply Rmult_lt_0_compat; lra]. }
  destruct (Q hb Hb) as (Nb & Wyb & Pb). destruct (Q hc Hc) as (Nc & Wzc & Pc).
  exists (comb2 (- hb / (ha - hb)) (ha / (ha - hb)) a b), (comb2 (- hc / (ha - hc)) (ha / (ha - hc)) a c).
  split; [eexists; eexists; split; [exact Wyb|reflexivity]|]. split; [apply height_comb_on; [apply Wyb|fold ha hb; field; assumption]|].
  split; [eexists; eexists; split; [exact Wzc|reflexivity]|]. split; [apply height_comb_on; [apply Wzc|fold ha hc; field; assumption]|].
  exists (sb * ((ha - hb) / ha)), (sc * ((ha - hc) / ha)).
  assert (Kb : 0 < (ha - hb) / ha). { replace ((ha - hb) / ha) with (/ (ha / (ha - hb))) by (field; split; assumption). apply Rinv_0_lt_compat; assumption. }
  assert (Kc : 0 < (ha - hc) / ha). { replace ((ha - hc) / ha) with (/ (ha / (ha - hc))) by (field; split; assumption). apply Rinv_0_lt_compat; assumption. }
  assert (Sum : sb * ((ha - hb) / ha) + sc * ((ha - hc) / ha) = 1).
  { apply (Rmult_eq_reg_r ha); [|assumption]. field_simplify; [|assumption]. replace sa with (1 - sb - sc) in P by lra. lra. }
  split. { split; [apply Rmult_le_pos; lra|]. split; [apply Rmult_le_pos; lra|assumption]. }
  assert (Ea : sa = sb * ((ha - hb) / ha) * (- hb / (ha - hb)) + sc * ((ha - hc) / ha) * (- hc / (ha - hc))).
  { apply (Rmult_eq_reg_r ha); [|assumption]. field_simplify; [|auto]. lra. }
  unfold comb3, comb2. rewrite Ea. clear - Na Nb Nc. apply vec3_ext; spec_unfold; field; auto.
Qed.
Lemma seg_sym a b x : segment a b x -> segment b a x.
Proof. intros (s & t & (A & B & C) & ->). exists t, s. split; [unfold weights2; lra|]. unfold comb2. vring. Qed.
Lemma tri_rot a b c x : in_triangle a b c x -> in_triangle b c a x.
Proof. intros (s0 & s1 & s2 & (A & B & C & D) & ->). exists s1, s2, s0. split; [unfold weights3; lra|]. unfold comb3, comb2. vring. Qed.
Lemma outline_rot a b c x : outline a b c x -> outline b c a x.
Proof. unfold outline. tauto. Qed.
Lemma regular_rot o n a b c : regular o n a b c -> regular o n b c a.
Proof.
  intros [A B]. split.
  - intros p q H. apply A. tauto.
  - intros p q P1 P2 Q1 Q2. apply B; auto; apply outline_rot, outline_rot; assumption.
Qed.
Lemma cut_ends o n a b c x : regular o n a b c -> in_triangle a b c x -> on_plane o n x ->
  exists y z, outline a b c y /\ on_plane o n y /\ outline a b c z /\ on_plane o n z /\ segment y z x.
Proof.
  intros Rg Ht Hp.
  assert (Ap : forall a b c, in_triangle a b c x -> height o n a <> 0 -> height o n a * height o n b <= 0 -> height o n a * height o n c <= 0 ->
            exists y z, outline a b c y /\ on_plane o n y /\ outline a b c z /\ on_plane o n z /\ segment y z x).
  { intros a' b' c' H1 H2 H3 H4. destruct (apex o n a' b' c' x H2 H3 H4 H1 Hp) as (y & z & Y1 & Y2 & Z1 & Z2 & Sg).
    exists y, z. unfold outline. pose proof (seg_sym _ _ _ Z1). tauto. }
  assert (Zv : forall a b c, regular o n a b c -> in_triangle a b c x -> height o n a = 0 -> 0 < height o n b * height o n c -> x = a).
  { intros a' b' c' _ (s0 & s1 & s2 & (A & B & C & D) & ->) H0 H1. pose proof Hp as P. unfold on_plane in P.
    assert (G : s0 * height o n a' + s1 * height o n b' + s2 * height o n c' = 0).
    { rewrite <- (height_comb3 o n s0 s1 s2 a' b' c' D). exact Hp. }
    rewrite H0 in G. assert (s1 = 0 /\ s2 = 0) as [-> ->].
    { destruct (Rlt_dec 0 (height o n b')).
      - assert (0 < height o n c') by nra. split; nra.
      - assert (height o n b' <> 0) by (intros Z; rewrite Z in H1; lra). assert (height o n c' < 0) by nra. split; nra. }
    replace s0 with 1 by lra. unfold comb3, comb2. vring. }
  assert (Nz : forall a b c, regular o n a b c -> ~ (height o n a = 0 /\ height o n b = 0)).
  { intros a' b' c' [H _] [E1 E2]. specialize (H a' b' (or_introl (conj eq_refl eq_refl))). rewrite E1, E2 in H. rewrite Rminus_0_r, Rabs_R0 in H. pose proof zTOL_pos. lra. }
  pose proof (regular_rot _ _ _ _ _ Rg) as Rg1. pose proof (regular_rot _ _ _ _ _ Rg1) as Rg2.
  pose proof (tri_rot _ _ _ _ Ht) as Ht1. pose proof (tri_rot _ _ _ _ Ht1) as Ht2.
  assert (Self : forall a b c, outline a b c a) by (intros; left; apply seg_l).
  set (ha := height o n a). set (hb := height o n b). set (hc := height o n c).
  destruct (Rle_dec (ha * hb) 0) as [AB|AB]; destruct (Rle_dec (hb * hc) 0) as [BC|BC]; destruct (Rle_dec (hc * ha) 0) as [CA|CA].
  - destruct (Req_dec ha 0) as [Za|Na].
    + assert (hb <> 0) by (intros Zb; apply (Nz a b c Rg); auto).
      destruct (Ap b c a Ht1) as (y & z & Y1 & Y2 & Z1 & Z2 & Sg); [assumption|assumption|fold ha hb; lra|].
      exists y, z. unfold outline in *; tauto.
    + apply (Ap a b c); auto. fold ha hc. lra.
  - destruct (Req_dec hb 0) as [Zb|Nb].
    + exists b, b. assert (x = b) by (apply (Zv b c a); auto; fold hc ha; lra). subst x.
      assert (outline a b c b) by (left; apply seg_r). auto using seg_l.
    + destruct (Ap b c a Ht1) as (y & z & Y1 & Y2 & Z1 & Z2 & Sg); [assumption|assumption|fold ha hb; lra|].
      exists y, z. unfold outline in *; tauto.
  - destruct (Req_dec ha 0) as [Za|Na].
    + exists a, a. assert (x = a) by (apply (Zv a b c); auto; fold hc hb; lra). subst x. auto using seg_l.
    + apply (Ap a b c); auto. fold ha hc. lra.
  - exfalso. (* hc*ha>0, hb*hc>0 but ha*hb<=0 *) clear - AB BC CA. destruct (Rlt_dec 0 hc); [assert (0 < hb) by nra; assert (0 < ha) by nra; nra|]. assert (hc <> 0) by (intros Z; rewrite Z in CA; lra). assert (hb < 0) by nra. assert (ha < 0) by nra. nra.
  - destruct (Req_dec hc 0) as [Zc|Nc].
    + exists c, c. assert (x = c) by (apply (Zv c a b); auto; fold ha hb; lra). subst x.
      assert (outline a b c c) by (right; left; apply seg_r). auto using seg_l.
    + destruct (Ap c a b Ht2) as (y & z & Y1 & Y2 & Z1 & Z2 & Sg); [assumption|assumption|fold hc hb; lra|].
      exists y, z. unfold outline in *; tauto.
  - exfalso. clear - AB BC CA. destruct (Rlt_dec 0 ha); [assert (0 < hb) by nra; assert (0 < hc) by nra; nra|]. assert (ha <> 0) by (intros Z; rewrite Z in CA; lra). assert (hb < 0) by nra. assert (hc < 0) by nra. nra.
  - exfalso. clear - AB BC CA. destruct (Rlt_dec 0 hb); [assert (0 < hc) by nra; assert (0 < ha) by nra; nra|]. assert (hb <> 0) by (intros Z; rewrite Z in BC; lra). assert (hc < 0) by nra. assert (ha < 0) by nra. nra.
  - exfalso. destruct Ht as (s0 & s1 & s2 & (A & B & C & D) & Ex). rewrite Ex in Hp. unfold on_plane in Hp. fold (height o n (comb3 s0 s1 s2 a b c)) in Hp. rewrite height_comb3 in Hp by assumption. fold ha hb hc in Hp.
    clear - A B C D Hp AB BC CA. destruct (Rlt_dec 0 hb).
    + assert (0 < ha) by nra. assert (0 < hc) by nra. assert (s0 = 0 /\ s1 = 0 /\ s2 = 0) by (repeat split; nra). lra.
    + assert (hb <> 0) by (intros Z; rewrite Z in BC; lra). assert (ha < 0) by nra. assert (hc < 0) by nra. assert (s0 = 0 /\ s1 = 0 /\ s2 = 0) by (repeat split; nra). lra.
Qed.
