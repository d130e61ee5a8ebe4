(** Closest points: 2D triangles, tetrahedra, and the entry points taking a query point. *)
From Verif Require Import ModelElem FactsVec FactsAlg Facts2D FactsElem FactsTri.
Open Scope R_scope.

(** ** 2D triangle *)
Definition tri2_res v0 v1 v2 (r : R * (R * R * R * vec2)) : Prop :=
  let '(d, (a, b, c, cp)) := r in weights3 a b c /\ cp = comb3_2 a b c v0 v1 v2 /\ d = norm_2 cp.
Lemma edgeW2_ok i v0 v1 v2 :
  let va := match i with 0%nat => v1 | 1%nat => v2 | _ => v0 end in
  let vb := match i with 0%nat => v2 | 1%nat => v0 | _ => v1 end in
  va <> vb -> exists r, edgeW2 i va vb = Some r /\ tri2_res v0 v1 v2 r /\ forall x, segment2 va vb x -> fst r <= norm_2 x.
Proof.
  intros va vb NE. unfold edgeW2. destruct (edge2_ok va vb NE) as ([[[d s0] s1] cp] & E & (Hw0 & Hw1 & Hs) & Hc & Hd & Hm). rewrite E.
  eexists; split; [reflexivity|].
  destruct i as [|[|i]]; cbv [tri2_res]; cbn [fst]; subst va vb; cbv beta iota in *; subst d.
  all: split; [split; [unfold weights3; repeat split; lra|split; [rewrite Hc; v2ring|reflexivity]]|assumption].
Qed.
Lemma area2_ne v0 v1 v2 : area2 v0 v1 v2 <> 0 -> v1 <> v2 /\ v2 <> v0 /\ v0 <> v1.
Proof. unfold area2, cross2, vsub2; intros H; repeat split; intros ->; apply H; pcbn; ring. Qed.
Lemma tri2_ok v0 v1 v2 : area2 v0 v1 v2 <> 0 ->
  exists r, zTri2DClosestFromOrigin v0 v1 v2 = Some r /\ tri2_res v0 v1 v2 r /\
    forall x, in_triangle2 v0 v1 v2 x -> fst r <= norm_2 x.
Proof.
  intros HA. destruct (area2_ne _ _ _ HA) as (N12 & N20 & N01).
  unfold zTri2DClosestFromOrigin. cbv zeta. zvg.
  assert (ES : cross2 v1 v2 + cross2 v2 v0 + cross2 v0 v1 = area2 v0 v1 v2) by (unfold area2, cross2, vsub2; pcbn; ring).
  rewrite ES. destruct (Reqb_reflect (area2 v0 v1 v2) 0) as [Z|_]; [contradiction|].
  set (S := area2 v0 v1 v2) in *.
  set (w0 := cross2 v1 v2 * (1 / S)). set (w1 := cross2 v2 v0 * (1 / S)). set (w2 := cross2 v0 v1 * (1 / S)).
  assert (HS : w0 + w1 + w2 = 1). { unfold w0, w1, w2. replace (_ + _ + _) with ((cross2 v1 v2 + cross2 v2 v0 + cross2 v0 v1) * (1 / S)) by ring. rewrite ES. field. assumption. }
  assert (H0 : comb3_2 w0 w1 w2 v0 v1 v2 = v2zero).
  { unfold w0, w1, w2. clear. unfold cross2. v2ring. }
  clearbody w0 w1 w2.
  destruct (edgeW2_ok 0 v0 v1 v2 N12) as (r0 & E0 & R0 & M0). destruct (edgeW2_ok 1 v0 v1 v2 N20) as (r1 & E1 & R1 & M1).
  destruct (edgeW2_ok 2 v0 v1 v2 N01) as (r2 & E2 & R2 & M2). cbv beta iota zeta in *.
  rewrite E0, E1, E2.
  set (A := if Rltb w0 0 then keep3 None (Some r0) else None).
  set (B := if Rltb w1 0 then keep3 A (Some r1) else A).
  set (C := if Rltb w2 0 then keep3 B (Some r2) else B).
  assert (HA' : (w0 < 0 -> A = Some r0) /\ (~ w0 < 0 -> A = None)).
  { unfold A. destruct (Rltb_reflect w0 0) as [L|L]; split; intros; try contradiction; auto. unfold keep3. destruct r0 as [? ?]. reflexivity. }
  assert (HB : (forall r, B = Some r -> (tri2_res v0 v1 v2 r) /\ (w0 < 0 -> fst r <= fst r0) /\ (w1 < 0 -> fst r <= fst r1)) /\
               (B = None <-> ~ w0 < 0 /\ ~ w1 < 0)).
  { unfold B. destruct HA' as [HA1 HA2]. destruct (Rltb_reflect w1 0) as [L|L].
    - split.
      + intros r Hr. destruct (keep3_some _ _ _ Hr) as (Hin & G1 & G2). split; [|split].
        * destruct Hin as [Hin|Hin]; [|injection Hin as <-; assumption].
          destruct (Rlt_dec w0 0) as [l|l]; [rewrite (HA1 l) in Hin; injection Hin as <-; assumption|rewrite (HA2 l) in Hin; discriminate].
        * intros l. apply G1. auto.
        * intros _. apply G2. reflexivity.
      + split; [intros Hn; apply keep3_none in Hn; destruct Hn; discriminate|tauto].
    - split.
      + intros r Hr. destruct (Rlt_dec w0 0) as [l|l]; [rewrite (HA1 l) in Hr; injection Hr as <-; split; [assumption|split; [intros; lra|tauto]]
          |rewrite (HA2 l) in Hr; discriminate].
      + split; [|tauto]. intros Hn. split; [|assumption]. intros l. rewrite (HA1 l) in Hn. discriminate. }
  clearbody B. clear A HA'. destruct HB as [HB1 HB2].
  assert (HC : (forall r, C = Some r -> (tri2_res v0 v1 v2 r) /\ (w0 < 0 -> fst r <= fst r0) /\ (w1 < 0 -> fst r <= fst r1) /\ (w2 < 0 -> fst r <= fst r2)) /\
               (C = None <-> ~ w0 < 0 /\ ~ w1 < 0 /\ ~ w2 < 0)).
  { unfold C. destruct (Rltb_reflect w2 0) as [L|L].
    - split.
      + intros r Hr. destruct (keep3_some _ _ _ Hr) as (Hin & G1 & G2).
        assert (HBr : forall r', B = Some r' -> (w0 < 0 -> fst r' <= fst r0) /\ (w1 < 0 -> fst r' <= fst r1)) by (intros; apply HB1; assumption).
        split; [|split; [|split]].
        * destruct Hin as [Hin|Hin]; [apply HB1 in Hin; tauto|injection Hin as <-; assumption].
        * intros l. destruct B as [s|]; [|exfalso; destruct (proj1 HB2 eq_refl); contradiction].
          specialize (HBr s eq_refl). specialize (G1 s eq_refl). destruct HBr as [K _]. specialize (K l). lra.
        * intros l. destruct B as [s|]; [|exfalso; destruct (proj1 HB2 eq_refl); contradiction].
          specialize (HBr s eq_refl). specialize (G1 s eq_refl). destruct HBr as [_ K]. specialize (K l). lra.
        * intros _. apply G2. reflexivity.
      + split; [intros Hn; apply keep3_none in Hn; destruct Hn; discriminate|tauto].
    - split; [|tauto]. intros r Hr. destruct (HB1 r Hr) as (K1 & K2 & K3). split; [assumption|]. split; [assumption|]. split; [assumption|tauto]. }
  clearbody C. destruct HC as [HC1 HC2]. destruct C as [[d [[[a b] c] cp]]|].
  - destruct (HC1 _ eq_refl) as (Hres & K0 & K1 & K2). eexists; split; [reflexivity|].
    destruct Hres as (Hw & Hcp & Hd). split; [split; [assumption|split; [assumption|reflexivity]]|].
    cbn [fst]. cbn [fst] in K0, K1, K2. zvg. rewrite <- Hd.
    intros x (s0 & s1 & s2 & Hsw & ->).
    assert (Hneg : w0 < 0 \/ w1 < 0 \/ w2 < 0).
    { destruct (Rlt_dec w0 0); [auto|]. destruct (Rlt_dec w1 0); [auto|]. destruct (Rlt_dec w2 0); [auto|].
      exfalso. assert (Some (d, (a, b, c, cp)) = None) by (apply HC2; auto). discriminate. }
    destruct (shrink3 s0 s1 s2 w0 w1 w2 Hsw HS Hneg) as (k & c0 & c1 & c2 & Hk & (P0 & P1 & P2 & PS) & F0 & F1 & F2 & Hz).
    assert (Ey : comb3_2 c0 c1 c2 v0 v1 v2 = vscale2 (1 - k) (comb3_2 s0 s1 s2 v0 v1 v2)).
    { transitivity (vadd2 (vscale2 (1 - k) (comb3_2 s0 s1 s2 v0 v1 v2)) (vscale2 k (comb3_2 w0 w1 w2 v0 v1 v2))); [rewrite F0, F1, F2; v2ring|rewrite H0; v2ring]. }
    assert (Hle : norm_2 (comb3_2 c0 c1 c2 v0 v1 v2) <= norm_2 (comb3_2 s0 s1 s2 v0 v1 v2)).
    { rewrite Ey. set (x := comb3_2 s0 s1 s2 v0 v1 v2). apply norm_2_le_of_sqr.
      assert (Ed : dot2 (vscale2 (1 - k) x) (vscale2 (1 - k) x) = (1 - k) * (1 - k) * dot2 x x) by (unfold dot2, vscale2; pcbn; ring).
      rewrite Ed. pose proof (dot2_nonneg x) as X0. assert (0 <= k * (2 - k) * dot2 x x) by (apply Rmult_le_pos; [apply Rmult_le_pos; lra|assumption]). lra. }
    eapply Rle_trans; [|exact Hle].
    destruct Hz as [[l Z]|[[l Z]|[l Z]]].
    + eapply Rle_trans; [apply K0; exact l|]. apply M0. exists c1, c2. split; [unfold weights2; repeat split; lra|rewrite Z; v2ring].
    + eapply Rle_trans; [apply K1; exact l|]. apply M1. exists c2, c0. split; [unfold weights2; repeat split; lra|rewrite Z; v2ring].
    + eapply Rle_trans; [apply K2; exact l|]. apply M2. exists c0, c1. split; [unfold weights2; repeat split; lra|rewrite Z; v2ring].
  - destruct (proj1 HC2 eq_refl) as (P0 & P1 & P2). eexists; split; [reflexivity|].
    assert (Z : norm_2 v2zero = 0) by (unfold norm_2, dot2, v2zero; pcbn; replace (0 * 0 + 0 * 0) with 0 by ring; apply sqrt_0).
    split.
    + split; [unfold weights3; repeat split; lra|]. split; [symmetry; assumption|symmetry; assumption].
    + intros x _. cbn [fst]. apply norm_2_nonneg.
Qed.
Lemma tri2_shift a b c p x : in_triangle2 a b c x <-> in_triangle2 (vsub2 a p) (vsub2 b p) (vsub2 c p) (vsub2 x p).
Proof.
  split; intros (s0 & s1 & s2 & Hw & E); exists s0, s1, s2; (split; [assumption|]); destruct Hw as (H0 & H1 & H2 & HS).
  - subst x. replace s0 with (1 - s1 - s2) by lra. v2ring.
  - replace x with (vadd2 (vsub2 x p) p) by v2ring. rewrite E. replace s0 with (1 - s1 - s2) by lra. v2ring.
Qed.
Lemma tri2_closest t p : area2 (tw0 t) (tw1 t) (tw2 t) <> 0 ->
  exists d cp, zTri2DClosest t p = Some (d, cp) /\ nearest2 (in_triangle2 (tw0 t) (tw1 t) (tw2 t)) p cp /\ d = dist2 p cp.
Proof.
  intros HA. unfold zTri2DClosest. zvg.
  destruct (tri2_ok (vsub2 (tw0 t) p) (vsub2 (tw1 t) p) (vsub2 (tw2 t) p)) as ([d [[[a b] c] cp]] & E & (Hw & Hc & Hd) & Hm).
  { replace (area2 _ _ _) with (area2 (tw0 t) (tw1 t) (tw2 t)) by (unfold area2, cross2, vsub2; pcbn; ring). assumption. }
  rewrite E. exists d, (vadd2 cp p). split; [reflexivity|]. unfold nearest2.
  rewrite dist2_vsub, add_sub2. split; [|assumption]. split.
  - apply (tri2_shift _ _ _ p). rewrite add_sub2. exists a, b, c. split; assumption.
  - intros x Hx. rewrite dist2_vsub. rewrite <- Hd. apply Hm. apply tri2_shift. assumption.
Qed.
Lemma tri2_closest_flat t p : area2 (tw0 t) (tw1 t) (tw2 t) = 0 -> zTri2DClosest t p = None.
Proof.
  intros HA. unfold zTri2DClosest, zTri2DClosestFromOrigin. cbv zeta. zvg.
  match goal with |- context [Reqb ?z 0] => replace z with 0 end.
  - destruct (Reqb_reflect 0 0); [reflexivity|contradiction].
  - rewrite <- HA. unfold area2, cross2, vsub2; pcbn; ring.
Qed.
(** a point inside is its own nearest point *)
Lemma tri2_inside t p : area2 (tw0 t) (tw1 t) (tw2 t) <> 0 -> in_triangle2 (tw0 t) (tw1 t) (tw2 t) p ->
  zTri2DClosest t p = Some (0, p).
Proof.
  intros HA Hp. destruct (tri2_closest t p HA) as (d & cp & E & [_ Hm] & Hd). rewrite E.
  assert (Z : dist2 p p = 0). { rewrite dist2_vsub. replace (vsub2 p p) with v2zero by v2ring. unfold norm_2, dot2, v2zero; pcbn. replace (0 * 0 + 0 * 0) with 0 by ring. apply sqrt_0. }
  specialize (Hm p Hp). rewrite Z in Hm. assert (D0 : dist2 p cp = 0). { pose proof (norm_2_nonneg (vsub2 p cp)). unfold dist2 in *. lra. }
  assert (cp = p).
  { unfold dist2, norm_2 in D0. apply sqrt_eq_0' in D0; [|apply dot2_nonneg]. apply dot2_self_zero in D0.
    apply (sub2_inj _ _ p). replace (vsub2 p p) with v2zero by v2ring. rewrite <- D0. replace (vsub2 cp p) with (vneg2 (vsub2 p cp)) by v2ring. rewrite D0. v2ring. }
  subst cp d. rewrite D0. reflexivity.
Qed.

(** ** 3D triangle with a query point *)
Lemma tri3_shift a b c p x : in_triangle a b c x <-> in_triangle (vsub a p) (vsub b p) (vsub c p) (vsub x p).
Proof.
  split; intros (s0 & s1 & s2 & Hw & E); exists s0, s1, s2; (split; [assumption|]); destruct Hw as (H0 & H1 & H2 & HS).
  - subst x. replace s0 with (1 - s1 - s2) by lra. cvring.
  - replace x with (vadd (vsub x p) p) by vring. rewrite E. replace s0 with (1 - s1 - s2) by lra. cvring.
Qed.
Lemma tri_normal_alt v0 v1 v2 : cross (vsub v1 v0) (vsub v2 v1) = tri_normal v0 v1 v2.
Proof. unfold tri_normal. vring. Qed.
Lemma tri_normal_shift v0 v1 v2 p : tri_normal (vsub v0 p) (vsub v1 p) (vsub v2 p) = tri_normal v0 v1 v2.
Proof. unfold tri_normal. vring. Qed.
Lemma tri3_all v0 v1 v2 : (~ negligible (tri_normal v0 v1 v2)) \/ (tri_normal v0 v1 v2 = v3zero /\ ~ (v0 = v1 /\ v1 = v2)) ->
  exists r, zTri3DClosestFromOrigin v0 v1 v2 = Some r /\ tri_res v0 v1 v2 r /\
     forall x, in_triangle v0 v1 v2 x -> fst r <= norm x.
Proof.
  intros [H|[H N]].
  - apply tri3_ok. rewrite tri_normal_alt. assumption.
  - apply tri3_flat; [|assumption]. unfold collinear. rewrite tri_normal_alt. assumption.
Qed.
Lemma tri3_closest t p :
  (~ negligible (tri_normal (tv0 t) (tv1 t) (tv2 t))) \/
  (tri_normal (tv0 t) (tv1 t) (tv2 t) = v3zero /\ ~ (tv0 t = tv1 t /\ tv1 t = tv2 t)) ->
  exists d cp, zTri3DClosest t p = Some (d, cp) /\ nearest (in_triangle (tv0 t) (tv1 t) (tv2 t)) p cp /\ d = dist p cp.
Proof.
  intros HA. unfold zTri3DClosest. zvg.
  destruct (tri3_all (vsub (tv0 t) p) (vsub (tv1 t) p) (vsub (tv2 t) p)) as ([d [[[a b] c] cp]] & E & (Hw & Hc & Hd) & Hm).
  { rewrite tri_normal_shift. destruct HA as [HA|[HA HN]]; [left; assumption|right; split; [assumption|]].
    intros [E1 E2]. apply HN. split; eapply sub3_inj; eassumption. }
  rewrite E. exists d, (vadd cp p). split; [reflexivity|]. unfold nearest.
  rewrite dist_vsub, add_sub. split; [|assumption]. split.
  - apply (tri3_shift _ _ _ p). rewrite add_sub. exists a, b, c. split; assumption.
  - intros x Hx. rewrite dist_vsub. rewrite <- Hd. apply Hm. apply tri3_shift. assumption.
Qed.
(** slivers: nearest among the boundary points *)
Lemma boundary_shift a b c p x : boundary a b c x <-> boundary (vsub a p) (vsub b p) (vsub c p) (vsub x p).
Proof. unfold boundary. rewrite (seg_shift a b p x), (seg_shift b c p x), (seg_shift c a p x). tauto. Qed.
Lemma tri3_sliver t p :
  negligible (tri_normal (tv0 t) (tv1 t) (tv2 t)) -> ~ (tv0 t = tv1 t /\ tv1 t = tv2 t) ->
  exists d cp, zTri3DClosest t p = Some (d, cp) /\ nearest (boundary (tv0 t) (tv1 t) (tv2 t)) p cp /\ d = dist p cp.
Proof.
  intros HA HN. unfold zTri3DClosest. zvg. rewrite tri3_boundary by (rewrite tri_normal_alt, tri_normal_shift; assumption).
  destruct (bestEdge_ok (vsub (tv0 t) p) (vsub (tv1 t) p) (vsub (tv2 t) p)) as (d & a & b & c & cp & E & (Hw & Hc & Hd) & Hb & Hm).
  { intros [E1 E2]. apply HN. split; eapply sub3_inj; eassumption. }
  rewrite E. exists d, (vadd cp p). split; [reflexivity|]. unfold nearest.
  rewrite dist_vsub, add_sub. split; [|assumption]. split.
  - apply (boundary_shift _ _ _ p). rewrite add_sub. assumption.
  - intros x Hx. rewrite dist_vsub. rewrite <- Hd. apply Hm. apply boundary_shift. assumption.
Qed.
Lemma tri3_point v n p : zTri3DClosest (T3 v v v n) p = None.
Proof.
  unfold zTri3DClosest. cbn [tv0 tv1 tv2]. zvg. rewrite tri3_boundary.
  - rewrite bestEdge_none. reflexivity.
  - rewrite tri_normal_alt. unfold tri_normal. replace (cross _ _) with v3zero by vring. apply zero_negligible.
Qed.
(** the sign of the signed variant is the side of the plane *)
Lemma tri3_signed v0 v1 v2 p t : zTri3DCreate v0 v1 v2 = (true, t) ->
  exists d cp, zTri3DSignedClosest t p = Some (d, cp) /\ nearest (in_triangle v0 v1 v2) p cp /\ Rabs d = dist p cp /\
    (0 < dot (vsub p v0) (tri_normal v0 v1 v2) -> 0 < d) /\ (dot (vsub p v0) (tri_normal v0 v1 v2) < 0 -> d < 0).
Proof.
  intros Ht. unfold zTri3DCreate, triOuterProd in Ht. change (zVec3DOuterProd (zVec3DSub v1 v0) (zVec3DSub v2 v1)) with (cross (vsub v1 v0) (vsub v2 v1)) in Ht.
  rewrite tri_normal_alt in Ht. set (N := tri_normal v0 v1 v2) in *.
  destruct (zVec3DIsTiny N) eqn:T; [discriminate|]. apply zVec3DIsTiny_false in T. rewrite (normalizeDRC_ok N T) in Ht. injection Ht as <-.
  unfold zTri3DSignedClosest.
  destruct (tri3_closest (T3 v0 v1 v2 (vscale (1 / norm N) N)) p) as (d & cp & E & Hn & Hd); [left; assumption|].
  rewrite E. cbn [tv0 tv1 tv2] in *.
  pose proof (nonneg_norm_pos N T) as Hg.
  assert (ED : zTri3DDistFromPointToPlane (T3 v0 v1 v2 (vscale (1 / norm N) N)) p = dot (vsub p v0) N / norm N).
  { unfold zTri3DDistFromPointToPlane. cbn [tv0 tv1 tv2 tnorm]. zvg. rewrite !dot_scale_r.
    assert (E1 : dot (vsub p v1) N = dot (vsub p v0) N) by (unfold N, tri_normal; clear; spec_unfold; ring).
    assert (E2 : dot (vsub p v2) N = dot (vsub p v0) N) by (unfold N, tri_normal; clear; spec_unfold; ring).
    rewrite E1, E2. field. lra. }
  rewrite ED. pose proof (norm_nonneg (vsub p cp)) as Hd0. fold (dist p cp) in Hd0.
  assert (Hpos : dot (vsub p v0) N <> 0 -> d <> 0).
  { intros NZ Z. apply NZ. rewrite Hd in Z. unfold dist in Z. apply norm_zero_iff in Z.
    destruct Hn as [(s0 & s1 & s2 & (_ & _ & _ & HS) & Ecp) _].
    assert (Ep : p = cp). { apply (sub3_inj _ _ cp). rewrite Z. vring. }
    rewrite Ep, Ecp. replace s0 with (1 - s1 - s2) by lra. unfold N, tri_normal, comb3, comb2. clear. spec_unfold; ring. }
  set (u := dot (vsub p v0) N) in *.
  assert (Hsg : 0 <= u / norm N <-> 0 <= u).
  { assert (Eu : u = u / norm N * norm N) by (field; lra). split; intros.
    - rewrite Eu. apply Rmult_le_pos; lra.
    - apply Rmult_le_pos; [assumption|]. left; apply Rinv_0_lt_compat; assumption. }
  destruct (Rleb_reflect 0 (u / norm N)) as [P|P]; eexists _, cp; split; try reflexivity; split; try assumption.
  - split; [rewrite Hd; apply Rabs_pos_eq; assumption|]. apply Hsg in P. split; intros; [|lra].
    assert (d <> 0) by (apply Hpos; lra). rewrite Hd in *. lra.
  - split; [rewrite Rabs_Ropp, Hd; apply Rabs_pos_eq; assumption|].
    assert (u < 0) by (apply Rnot_le_lt; intros Q; apply P; apply Hsg; assumption).
    split; intros; [lra|]. assert (d <> 0) by (apply Hpos; lra). rewrite Hd in *. lra.
Qed.

(** ** tetrahedron *)
Definition tetra_res v0 v1 v2 v3 (r : R * (R * R * R * R * vec3)) : Prop :=
  let '(d, (a, b, c, e, cp)) := r in weights4 a b c e /\ cp = comb4 a b c e v0 v1 v2 v3 /\ d = norm cp.
Lemma triW4_ok i v0 v1 v2 v3 :
  let va := match i with 0%nat => v1 | 1%nat => v2 | 2%nat => v3 | _ => v0 end in
  let vb := match i with 0%nat => v2 | 1%nat => v3 | 2%nat => v0 | _ => v1 end in
  let vc := match i with 0%nat => v3 | 1%nat => v0 | 2%nat => v1 | _ => v2 end in
  ~ negligible (tri_normal va vb vc) ->
  exists r, triW4 i va vb vc = Some r /\ tetra_res v0 v1 v2 v3 r /\ forall x, in_triangle va vb vc x -> fst r <= norm x.
Proof.
  intros va vb vc NE. unfold triW4. destruct (tri3_all va vb vc (or_introl NE)) as ([d [[[a b] c] cp]] & E & ((Ha & Hb & Hc & HS) & Hcp & Hd) & Hm). rewrite E.
  eexists; split; [reflexivity|].
  destruct i as [|[|[|i]]]; cbv [tetra_res]; cbn [fst] in *; subst va vb vc; cbv beta iota in *; subst d.
  all: split; [split; [unfold weights4; repeat split; lra|split; [rewrite Hcp; cvring|reflexivity]]|assumption].
Qed.
(** four candidates, tested only where the weight is negative *)
Lemma keep_step {A} (P : R * A -> Prop) (acc : option (R * A)) (w : R) (r : R * A) (Q : R -> Prop) :
  P r -> (forall s, acc = Some s -> P s) ->
  let acc' := if Rltb w 0 then keep3 acc (Some r) else acc in
  (forall s, acc' = Some s -> P s /\ (w < 0 -> fst s <= fst r) /\ (forall s', acc = Some s' -> fst s <= fst s')) /\
  (acc' = None <-> acc = None /\ ~ w < 0).
Proof.
  intros Pr Pa acc'. unfold acc'. destruct (Rltb_reflect w 0) as [L|L].
  - split.
    + intros s Hs. destruct (keep3_some _ _ _ Hs) as (Hin & G1 & G2). split; [destruct Hin as [Hin|Hin]; [auto|injection Hin as <-; assumption]|].
      split; [intros _; apply G2; reflexivity|assumption].
    + split; [intros Hn; apply keep3_none in Hn; destruct Hn; discriminate|tauto].
  - split; [|tauto]. intros s Hs. split; [auto|]. split; [tauto|]. intros s' Hs'. rewrite Hs in Hs'. injection Hs' as <-. lra.
Qed.
Lemma tetra_ok v0 v1 v2 v3 : good_tetra v0 v1 v2 v3 ->
  exists r, zTetra3DClosestFromOrigin v0 v1 v2 v3 = Some r /\ tetra_res v0 v1 v2 v3 r /\
    forall x, in_tetra v0 v1 v2 v3 x -> fst r <= norm x.
Proof.
  intros (HV & N0 & N1 & N2 & N3).
  unfold zTetra3DClosestFromOrigin. cbv zeta. zvg.
  assert (ES : det3v v3 v2 v1 + det3v v2 v3 v0 + det3v v1 v0 v3 + det3v v0 v1 v2 = - vol6 v0 v1 v2 v3) by (unfold vol6; clear; spec_unfold; ring).
  rewrite ES. destruct (Reqb_reflect (- vol6 v0 v1 v2 v3) 0) as [Z|_]; [exfalso; apply HV; lra|].
  assert (HV' : - vol6 v0 v1 v2 v3 <> 0) by lra.
  set (S := - vol6 v0 v1 v2 v3) in *.
  set (w0 := det3v v3 v2 v1 * (1 / S)). set (w1 := det3v v2 v3 v0 * (1 / S)). set (w2 := det3v v1 v0 v3 * (1 / S)). set (w3 := det3v v0 v1 v2 * (1 / S)).
  assert (HS : w0 + w1 + w2 + w3 = 1).
  { unfold w0, w1, w2, w3. replace (_ + _ + _ + _) with ((det3v v3 v2 v1 + det3v v2 v3 v0 + det3v v1 v0 v3 + det3v v0 v1 v2) * (1 / S)) by ring. rewrite ES. field. assumption. }
  assert (H0 : comb4 w0 w1 w2 w3 v0 v1 v2 v3 = v3zero).
  { unfold w0, w1, w2, w3. clear. unfold comb4, comb3, comb2. apply vec3_ext; spec_unfold; ring. }
  clearbody w0 w1 w2 w3.
  destruct (triW4_ok 0 v0 v1 v2 v3 N0) as (r0 & E0 & R0 & M0). destruct (triW4_ok 1 v0 v1 v2 v3 N1) as (r1 & E1 & R1 & M1).
  destruct (triW4_ok 2 v0 v1 v2 v3 N2) as (r2 & E2 & R2 & M2). destruct (triW4_ok 3 v0 v1 v2 v3 N3) as (r3 & E3 & R3 & M3).
  cbv beta iota zeta in *. rewrite E0, E1, E2, E3.
  set (P := tetra_res v0 v1 v2 v3) in *.
  destruct (keep_step P None w0 r0 (fun _ => True) R0) as [A1 A2]; [discriminate|]. cbv zeta in A1, A2.
  set (A := if Rltb w0 0 then keep3 None (Some r0) else None) in *.
  destruct (keep_step P A w1 r1 (fun _ => True) R1) as [B1 B2]; [intros s Hs; apply A1; assumption|]. cbv zeta in B1, B2.
  set (B := if Rltb w1 0 then keep3 A (Some r1) else A) in *.
  destruct (keep_step P B w2 r2 (fun _ => True) R2) as [C1 C2]; [intros s Hs; apply B1; assumption|]. cbv zeta in C1, C2.
  set (C := if Rltb w2 0 then keep3 B (Some r2) else B) in *.
  destruct (keep_step P C w3 r3 (fun _ => True) R3) as [D1 D2]; [intros s Hs; apply C1; assumption|]. cbv zeta in D1, D2.
  set (D := if Rltb w3 0 then keep3 C (Some r3) else C) in *.
  clearbody D. clearbody C. clearbody B. clearbody A.
  destruct D as [[d [[[[a b] c] e] cp]]|].
  - destruct (D1 _ eq_refl) as (Hres & K3 & LD). cbn [fst] in *.
    assert (K2 : w2 < 0 -> d <= fst r2).
    { intros l. destruct C as [s|]; [|exfalso; destruct (proj1 C2 eq_refl); contradiction].
      destruct (C1 s eq_refl) as (_ & K & _). specialize (LD s eq_refl). specialize (K l). lra. }
    assert (LB : forall s, B = Some s -> d <= fst s).
    { intros s Hs. destruct C as [s'|].
      - destruct (C1 s' eq_refl) as (_ & _ & K). specialize (LD s' eq_refl). specialize (K s Hs). lra.
      - destruct (proj1 C2 eq_refl) as [Q _]. rewrite Q in Hs. discriminate. }
    assert (K1 : w1 < 0 -> d <= fst r1).
    { intros l. destruct B as [s|]; [|exfalso; destruct (proj1 B2 eq_refl); contradiction].
      destruct (B1 s eq_refl) as (_ & K & _). specialize (LB s eq_refl). specialize (K l). lra. }
    assert (LA : forall s, A = Some s -> d <= fst s).
    { intros s Hs. destruct B as [s'|].
      - destruct (B1 s' eq_refl) as (_ & _ & K). specialize (LB s' eq_refl). specialize (K s Hs). lra.
      - destruct (proj1 B2 eq_refl) as [Q _]. rewrite Q in Hs. discriminate. }
    assert (K0 : w0 < 0 -> d <= fst r0).
    { intros l. destruct A as [s|]; [|exfalso; destruct (proj1 A2 eq_refl); contradiction].
      destruct (A1 s eq_refl) as (_ & K & _). specialize (LA s eq_refl). specialize (K l). lra. }
    assert (Hneg : w0 < 0 \/ w1 < 0 \/ w2 < 0 \/ w3 < 0).
    { destruct (Rlt_dec w0 0); [auto|]. destruct (Rlt_dec w1 0); [auto|]. destruct (Rlt_dec w2 0); [auto|]. destruct (Rlt_dec w3 0); [auto|].
      exfalso. assert (Q : Some (d, (a, b, c, e, cp)) = None) by (apply D2; split; [apply C2; split; [apply B2; split; [apply A2; auto|auto]|auto]|auto]). discriminate. }
    destruct Hres as (Hw & Hcp & Hd).
    eexists; split; [reflexivity|]. split; [split; [assumption|split; [assumption|reflexivity]]|].
    cbn [fst]. zvg. rewrite <- Hd. intros x (s0 & s1 & s2 & s3 & Hsw & ->).
    destruct (shrink4 s0 s1 s2 s3 w0 w1 w2 w3 Hsw HS Hneg) as (k & c0 & c1 & c2 & c3 & Hk & (P0 & P1 & P2 & P3 & PS) & F0 & F1 & F2 & F3 & Hz).
    assert (Ey : comb4 c0 c1 c2 c3 v0 v1 v2 v3 = vscale (1 - k) (comb4 s0 s1 s2 s3 v0 v1 v2 v3)).
    { transitivity (vadd (vscale (1 - k) (comb4 s0 s1 s2 s3 v0 v1 v2 v3)) (vscale k (comb4 w0 w1 w2 w3 v0 v1 v2 v3))); [rewrite F0, F1, F2, F3; clear; cvring|rewrite H0; clear; vring]. }
    assert (Hle : norm (comb4 c0 c1 c2 c3 v0 v1 v2 v3) <= norm (comb4 s0 s1 s2 s3 v0 v1 v2 v3)).
    { rewrite Ey, norm_scale. rewrite Rabs_pos_eq by lra. pose proof (norm_nonneg (comb4 s0 s1 s2 s3 v0 v1 v2 v3)) as X0. assert (0 <= k * norm (comb4 s0 s1 s2 s3 v0 v1 v2 v3)) by (apply Rmult_le_pos; lra). lra. }
    eapply Rle_trans; [|exact Hle].
    destruct Hz as [[l Z]|[[l Z]|[[l Z]|[l Z]]]].
    + eapply Rle_trans; [apply K0; exact l|]. apply M0. exists c1, c2, c3. split; [unfold weights3; repeat split; lra|rewrite Z; clear; cvring].
    + eapply Rle_trans; [apply K1; exact l|]. apply M1. exists c2, c3, c0. split; [unfold weights3; repeat split; lra|rewrite Z; clear; cvring].
    + eapply Rle_trans; [apply K2; exact l|]. apply M2. exists c3, c0, c1. split; [unfold weights3; repeat split; lra|rewrite Z; clear; cvring].
    + eapply Rle_trans; [apply K3; exact l|]. apply M3. exists c0, c1, c2. split; [unfold weights3; repeat split; lra|rewrite Z; clear; cvring].
  - destruct (proj1 D2 eq_refl) as (QC & P3). destruct (proj1 C2 QC) as (QB & P2). destruct (proj1 B2 QB) as (QA & P1). destruct (proj1 A2 QA) as (_ & P0).
    eexists; split; [reflexivity|].
    assert (Z : norm v3zero = 0) by (apply norm_zero_iff; reflexivity).
    split.
    + split; [unfold weights4; repeat split; lra|]. split; [symmetry; assumption|symmetry; assumption].
    + intros x _. cbn [fst]. apply norm_nonneg.
Qed.
Lemma tetra_shift a b c d p x : in_tetra a b c d x <-> in_tetra (vsub a p) (vsub b p) (vsub c p) (vsub d p) (vsub x p).
Proof.
  split; intros (s0 & s1 & s2 & s3 & Hw & E); exists s0, s1, s2, s3; (split; [assumption|]); destruct Hw as (H0 & H1 & H2 & H3 & HS).
  - subst x. replace s0 with (1 - s1 - s2 - s3) by lra. cvring.
  - replace x with (vadd (vsub x p) p) by vring. rewrite E. replace s0 with (1 - s1 - s2 - s3) by lra. cvring.
Qed.
Lemma tetra_closest v0 v1 v2 v3 p : good_tetra v0 v1 v2 v3 ->
  exists d cp, zTetra3DClosest v0 v1 v2 v3 p = Some (d, cp) /\ nearest (in_tetra v0 v1 v2 v3) p cp /\ d = dist p cp.
Proof.
  intros HG. unfold zTetra3DClosest. zvg.
  destruct (tetra_ok (vsub v0 p) (vsub v1 p) (vsub v2 p) (vsub v3 p)) as ([d [[[[a b] c] e] cp]] & E & (Hw & Hc & Hd) & Hm).
  { unfold good_tetra in *. rewrite !tri_normal_shift.
    replace (vol6 (vsub v0 p) (vsub v1 p) (vsub v2 p) (vsub v3 p)) with (vol6 v0 v1 v2 v3) by (unfold vol6; clear; spec_unfold; ring). assumption. }
  rewrite E. exists d, (vadd cp p). split; [reflexivity|]. unfold nearest.
  rewrite dist_vsub, add_sub. split; [|assumption]. split.
  - apply (tetra_shift _ _ _ _ p). rewrite add_sub. exists a, b, c, e. split; assumption.
  - intros x Hx. rewrite dist_vsub. rewrite <- Hd. apply Hm. apply tetra_shift. assumption.
Qed.
Lemma nearest_self (S : vec3 -> Prop) p cp : S p -> nearest S p cp -> cp = p /\ dist p cp = 0.
Proof.
  intros Hp [_ Hm]. assert (Z : dist p p = 0). { unfold dist. replace (vsub p p) with v3zero by vring. apply norm_zero_iff; reflexivity. }
  specialize (Hm p Hp). rewrite Z in Hm. assert (D0 : dist p cp = 0) by (pose proof (norm_nonneg (vsub p cp)); unfold dist in *; lra).
  split; [|assumption]. unfold dist in D0. apply norm_zero_iff in D0. symmetry. apply (sub3_inj _ _ cp). rewrite D0. vring.
Qed.
Lemma tetra_inside v0 v1 v2 v3 p : good_tetra v0 v1 v2 v3 -> in_tetra v0 v1 v2 v3 p -> zTetra3DClosest v0 v1 v2 v3 p = Some (0, p).
Proof.
  intros HG Hp. destruct (tetra_closest v0 v1 v2 v3 p HG) as (d & cp & E & Hn & Hd). destruct (nearest_self _ _ _ Hp Hn) as [-> D0].
  rewrite E, Hd, D0. reflexivity.
Qed.
