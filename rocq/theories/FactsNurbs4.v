(** Tensor products of circular arcs and broken lines. *)
From Verif Require Import Base Spec SpecMesh SpecNurbs ModelNurbs FactsAlg FactsElem FactsNurbs FactsNurbs2 FactsNurbs3.
From Coq Require Import List Lra Lia.
Import ListNotations.
Open Scope R_scope.

(** * Products *)
Section Tensor.
  Variable n : nurbs.
  Variables a b : nat -> R.
  Variables c P Q Z : vec3.
  Variables a1 a2 b1 b2 z1 z2 : nat -> R.
  Hypothesis HW : forall i j, (i < nu_n0 n)%nat -> (j < nu_n1 n)%nat -> zNURBS3DWeight n i j = a i * b j.
  Variables u v : R.
  Variables su sv : nat.
  Hypothesis A0 : at_seg (nu_0 n) u (bs_order (nu_0 n)) su.
  Hypothesis A1 : at_seg (nu_1 n) v (bs_order (nu_1 n)) sv.
  Hypothesis S0 : (su < nu_n0 n)%nat.
  Hypothesis S1 : (sv < nu_n1 n)%nat.
  Definition su_ (f : nat -> R) : R := rsum (fun i => Bu n u su i * a i * f i) (Iu n su).
  Definition sv_ (f : nat -> R) : R := rsum (fun j => Bv n v sv j * b j * f j) (Iv n sv).
  Lemma tensor_den : den n u v su sv = su_ (fun _ => 1) * sv_ (fun _ => 1).
  Proof.
    unfold den. rewrite (rsum_ext _ (fun i => sv_ (fun _ => 1) * (Bu n u su i * a i * 1))).
    - rewrite rsum_scale. unfold su_. ring.
    - intros i Hi. rewrite (rsum_ext (fun j => zNURBS3DWeight n i j * Bv n v sv j) (fun j => a i * (Bv n v sv j * b j * 1))).
      + rewrite rsum_scale. unfold sv_. ring.
      + intros j Hj. rewrite HW by (first [exact (active_lt _ _ _ _ A0 S0 _ Hi)|exact (active_lt _ _ _ _ A1 S1 _ Hj)]). ring.
  Qed.
  Lemma tensor_num : (forall i j, (i < nu_n0 n)%nat -> (j < nu_n1 n)%nat -> zNURBS3DCP n i j = vadd c (vadd (vadd (vscale (a1 i * a2 j) P) (vscale (b1 i * b2 j) Q)) (vscale (z1 i * z2 j) Z))) ->
    num n u v su sv = vadd (vscale (su_ (fun _ => 1) * sv_ (fun _ => 1)) c) (vadd (vadd (vscale (su_ a1 * sv_ a2) P) (vscale (su_ b1 * sv_ b2) Q)) (vscale (su_ z1 * sv_ z2) Z)).
  Proof.
    intros HC. unfold num.
    rewrite (vsum_ext _ (fun i => vadd (vscale (Bu n u su i * a i * 1) (vscale (sv_ (fun _ => 1)) c)) (vadd (vadd (vscale (Bu n u su i * a i * a1 i) (vscale (sv_ a2) P)) (vscale (Bu n u su i * a i * b1 i) (vscale (sv_ b2) Q))) (vscale (Bu n u su i * a i * z1 i) (vscale (sv_ z2) Z))))).
    - rewrite !vsum_plus, !vsum_const. fold (su_ (fun _ => 1)) (su_ a1) (su_ b1) (su_ z1). apply vec3_ext; spec_unfold; ring.
    - intros i Hi. rewrite (vsum_ext _ (fun j => vadd (vscale (Bv n v sv j * b j * 1) (vscale (a i) c)) (vadd (vadd (vscale (Bv n v sv j * b j * a2 j) (vscale (a i * a1 i) P)) (vscale (Bv n v sv j * b j * b2 j) (vscale (a i * b1 i) Q))) (vscale (Bv n v sv j * b j * z2 j) (vscale (a i * z1 i) Z))))).
      + rewrite !vsum_plus, !vsum_const. fold (sv_ (fun _ => 1)) (sv_ a2) (sv_ b2) (sv_ z2). apply vec3_ext; spec_unfold; ring.
      + intros j Hj. pose proof (active_lt _ _ _ _ A0 S0 _ Hi). pose proof (active_lt _ _ _ _ A1 S1 _ Hj). rewrite HW, HC by assumption. apply vec3_ext; spec_unfold; ring.
  Qed.
End Tensor.

(** * Quarter arcs *)
Lemma sqrt2_pos : 0 < sqrt 2.
Proof. apply sqrt_lt_R0. lra. Qed.
Lemma sqrt2_sqr : sqrt 2 * sqrt 2 = 2.
Proof. apply sqrt_sqrt. lra. Qed.
Lemma arc_w : 0 < 1 / sqrt 2 <= 1 /\ (1 / sqrt 2) * (1 / sqrt 2) = 1 / 2 /\ 1 / 2 <= 1 / sqrt 2.
Proof.
  pose proof sqrt2_pos. pose proof sqrt2_sqr as Q. assert (E : (1 / sqrt 2) * (1 / sqrt 2) = 1 / 2). { replace (1 / sqrt 2 * (1 / sqrt 2)) with (1 / (sqrt 2 * sqrt 2)) by (field; lra). rewrite Q. reflexivity. }
  assert (0 < 1 / sqrt 2) by (apply Rmult_lt_0_compat; [lra|apply Rinv_0_lt_compat; lra]). repeat split; [assumption|nra|exact E|nra].
Qed.
(** the quarter of the circle *)
Lemma arc_on s w : w * w = 1 / 2 -> let b0 := (1 - s) * (1 - s) in let b1 := 2 * s * (1 - s) * w in let b2 := s * s in
  (b0 + b1) * (b0 + b1) + (b1 + b2) * (b1 + b2) = (b0 + b1 + b2) * (b0 + b1 + b2).
Proof. intros W. cbv zeta. replace (2 * s * (1 - s) * w) with (2 * s * (1 - s) * w) by reflexivity. assert (E : (2 * s * (1 - s) * w) * (2 * s * (1 - s) * w) = 4 * s * s * (1 - s) * (1 - s) * (1 / 2)) by (rewrite <- W; ring). nra. Qed.
Lemma arc_param x y w : 0 < w -> w * w = 1 / 2 -> 0 < x -> 0 < y -> x * x + y * y = 1 -> exists s, 0 < s < 1 /\
  let b0 := (1 - s) * (1 - s) in let b1 := 2 * s * (1 - s) * w in let b2 := s * s in b0 + b1 = x * (b0 + b1 + b2) /\ b1 + b2 = y * (b0 + b1 + b2).
Proof.
  intros W0 W X Y E. assert (x < 1) by nra. assert (y < 1) by nra.
  set (p := sqrt (1 - x)). set (q := sqrt (1 - y)). assert (P : 0 < p) by (apply sqrt_lt_R0; lra). assert (Q : 0 < q) by (apply sqrt_lt_R0; lra).
  assert (PP : p * p = 1 - x) by (apply sqrt_sqrt; lra). assert (QQ : q * q = 1 - y) by (apply sqrt_sqrt; lra).
  assert (C : 2 * w * (p * q) = x + y - 1).
  { apply Rsqr_inj; [assert (0 < w * (p * q)) by (apply Rmult_lt_0_compat; [lra|apply Rmult_lt_0_compat; lra]); lra| |]. { assert ((x + y) * (x + y) >= 1) by nra. nra. }
    unfold Rsqr. replace (2 * w * (p * q) * (2 * w * (p * q))) with (4 * (w * w) * (p * p) * (q * q)) by ring. rewrite W, PP, QQ. nra. }
  exists (p / (p + q)). split.
  - split; [apply Rmult_lt_0_compat; [lra|apply Rinv_0_lt_compat; lra]|]. apply Rmult_lt_reg_r with (p + q); [lra|]. replace (p / (p + q) * (p + q)) with p by (field; lra). lra.
  - cbv zeta. replace (1 - p / (p + q)) with (q / (p + q)) by (field; lra).
    assert (S : q * q + 2 * w * (p * q) + p * p = 1) by lra.
    split.
    + apply Rmult_eq_reg_r with ((p + q) * (p + q)); [|nra]. transitivity (q * q + 2 * w * (p * q)); [field; lra|]. transitivity (x * (q * q + 2 * w * (p * q) + p * p)); [|field; lra]. rewrite S. lra.
    + apply Rmult_eq_reg_r with ((p + q) * (p + q)); [|nra]. transitivity (2 * w * (p * q) + p * p); [field; lra|]. transitivity (y * (q * q + 2 * w * (p * q) + p * p)); [|field; lra]. rewrite S. lra.
Qed.

(** * The closed circle and the half circle *)
(** weighted sums over the active control points of one direction *)
Definition arcs (ks : list R) (sl : nat) (t : R) (k : nat) (f : nat -> R) : R := rsum (fun i => zBSplineParamBasis (BS 2 ks sl) t i 2 k * arcWeight i * f i) (seq (k - 2) 3).

Ltac knots := repeat match goal with |- context [Reqb ?a ?b] => (replace (Reqb a b) with true by (destruct (Reqb_reflect a b); [reflexivity|exfalso; lra])) || (replace (Reqb a b) with false by (destruct (Reqb_reflect a b); [exfalso; lra|reflexivity])) end.
Ltac basisc := cbn [zBSplineParamBasis bs_at bs_knot nth Nat.ltb Nat.leb Nat.eqb Nat.add Nat.sub seq rsum fold_right]; unfold bs_at, ellipsKnots; cbn [bs_knot nth]; knots.

Definition quarter (s : R) (f0 f1 f2 : R) : R := (1 - s) * (1 - s) * f0 + 2 * s * (1 - s) * (1 / sqrt 2) * f1 + s * s * f2.
Lemma arcs_circle sl t f : arcs ellipsKnots sl t 2 f = quarter (4 * t) (f 0%nat) (f 1%nat) (f 2%nat) /\ arcs ellipsKnots sl t 4 f = quarter (4 * t - 1) (f 2%nat) (f 3%nat) (f 4%nat) /\
  arcs ellipsKnots sl t 6 f = quarter (4 * t - 2) (f 4%nat) (f 5%nat) (f 6%nat) /\ arcs ellipsKnots sl t 8 f = quarter (4 * t - 3) (f 6%nat) (f 7%nat) (f 8%nat).
Proof. pose proof sqrt2_pos. unfold arcs, quarter, arcWeight. repeat split; basisc; cbn [Nat.even]; field; lra. Qed.
Lemma arcs_half sl t f : arcs [0; 0; 0; 1/2; 1/2; 1; 1; 1] sl t 2 f = quarter (2 * t) (f 0%nat) (f 1%nat) (f 2%nat) /\ arcs [0; 0; 0; 1/2; 1/2; 1; 1; 1] sl t 4 f = quarter (2 * t - 1) (f 2%nat) (f 3%nat) (f 4%nat).
Proof. pose proof sqrt2_pos. unfold arcs, quarter, arcWeight. repeat split; basisc; cbn [Nat.even]; field; lra. Qed.
Lemma quarter_one s : 0 <= s <= 1 -> 1 / 2 <= quarter s 1 1 1.
Proof. intros. unfold quarter. destruct arc_w as (A & B & C). assert (0 <= s * (1 - s)) by nra. nra. Qed.
Lemma quarter_on s x0 y0 x2 y2 : x0 * x0 + y0 * y0 = 1 -> x2 * x2 + y2 * y2 = 1 -> x0 * x2 + y0 * y2 = 0 ->
  quarter s x0 (x0 + x2) x2 * quarter s x0 (x0 + x2) x2 + quarter s y0 (y0 + y2) y2 * quarter s y0 (y0 + y2) y2 = quarter s 1 1 1 * quarter s 1 1 1.
Proof.
  intros E0 E2 E1. destruct arc_w as (_ & W & _). pose proof (arc_on s (1 / sqrt 2) W) as A. cbv zeta in A. unfold quarter.
  set (b0 := (1 - s) * (1 - s)) in *. set (b1 := 2 * s * (1 - s) * (1 / sqrt 2)) in *. set (b2 := s * s) in *. clearbody b0 b1 b2.
  transitivity ((b0 + b1) * (b0 + b1) * (x0 * x0 + y0 * y0) + 2 * (b0 + b1) * (b1 + b2) * (x0 * x2 + y0 * y2) + (b1 + b2) * (b1 + b2) * (x2 * x2 + y2 * y2)); [ring|]. rewrite E0, E1, E2. nra.
Qed.
Lemma quarter_hit c d x0 y0 x2 y2 : 0 < c -> 0 < d -> c * c + d * d = 1 -> exists s, 0 < s < 1 /\
  quarter s x0 (x0 + x2) x2 = (c * x0 + d * x2) * quarter s 1 1 1 /\ quarter s y0 (y0 + y2) y2 = (c * y0 + d * y2) * quarter s 1 1 1.
Proof.
  intros C D E. destruct arc_w as ((W0 & _) & W & _). destruct (arc_param c d (1 / sqrt 2) W0 W C D E) as (s & S & E1 & E2). exists s. split; [exact S|]. unfold quarter.
  set (b0 := (1 - s) * (1 - s)) in *. set (b1 := 2 * s * (1 - s) * (1 / sqrt 2)) in *. set (b2 := s * s) in *. clearbody b0 b1 b2. split.
  - transitivity ((b0 + b1) * x0 + (b1 + b2) * x2); [ring|]. rewrite E1, E2. ring.
  - transitivity ((b0 + b1) * y0 + (b1 + b2) * y2); [ring|]. rewrite E1, E2. ring.
Qed.
Lemma quarter_0 f0 f1 f2 : quarter 0 f0 f1 f2 = f0.
Proof. unfold quarter. ring. Qed.
Lemma quarter_1 f0 f1 f2 : quarter 1 f0 f1 f2 = f2.
Proof. unfold quarter. ring. Qed.

Tactic Notation "segc" constr(A) ident(k) := pose proof (as_lo _ _ _ _ A); pose proof (as_hi _ _ _ _ A); pose proof (as_pos _ _ _ _ A); pose proof (as_ord _ _ _ _ A); clear A;
  assert (k = 1 \/ k = 2 \/ k = 3 \/ k = 4 \/ k = 5 \/ k = 6 \/ k = 7 \/ k = 8)%nat as [-> | [-> | [-> | [-> | [-> | [-> | [-> | -> ]]]]]]] by lia;
  unfold bs_at, ellipsKnots in *; cbn [bs_knot nth] in *; try (exfalso; lia); try (exfalso; lra).

Lemma circle_on sl t k : at_seg (BS 2 ellipsKnots sl) t 2 k -> (k < 9)%nat -> 1 / 2 <= arcs ellipsKnots sl t k (fun _ => 1) /\
  arcs ellipsKnots sl t k sqx * arcs ellipsKnots sl t k sqx + arcs ellipsKnots sl t k sqy * arcs ellipsKnots sl t k sqy = arcs ellipsKnots sl t k (fun _ => 1) * arcs ellipsKnots sl t k (fun _ => 1).
Proof.
  intros A K. destruct (arcs_circle sl t (fun _ => 1)) as (O2 & O4 & O6 & O8). destruct (arcs_circle sl t sqx) as (X2 & X4 & X6 & X8). destruct (arcs_circle sl t sqy) as (Y2 & Y4 & Y6 & Y8).
  segc A k.
  - rewrite O2, X2, Y2. split; [apply quarter_one; lra|]. unfold sqx, sqy. cbn [nth]. pose proof (quarter_on (4 * t) 1 0 0 1 ltac:(lra) ltac:(lra) ltac:(lra)) as Q. rewrite Rplus_0_r, Rplus_0_l in Q. exact Q.
  - rewrite O4, X4, Y4. split; [apply quarter_one; lra|]. unfold sqx, sqy. cbn [nth]. pose proof (quarter_on (4 * t - 1) 0 1 (-1) 0 ltac:(lra) ltac:(lra) ltac:(lra)) as Q. rewrite Rplus_0_r, Rplus_0_l in Q. exact Q.
  - rewrite O6, X6, Y6. split; [apply quarter_one; lra|]. unfold sqx, sqy. cbn [nth]. pose proof (quarter_on (4 * t - 2) (-1) 0 0 (-1) ltac:(lra) ltac:(lra) ltac:(lra)) as Q. rewrite Rplus_0_r, Rplus_0_l in Q. exact Q.
  - rewrite O8, X8, Y8. split; [apply quarter_one; lra|]. unfold sqx, sqy. cbn [nth]. pose proof (quarter_on (4 * t - 3) 0 (-1) 1 0 ltac:(lra) ltac:(lra) ltac:(lra)) as Q. rewrite Rplus_0_r, Rplus_0_l in Q. exact Q.
Qed.

Lemma circle_all sl c d : c * c + d * d = 1 -> exists t, 0 <= t <= 1 /\ forall k, at_seg (BS 2 ellipsKnots sl) t 2 k -> (k < 9)%nat ->
  arcs ellipsKnots sl t k sqx = c * arcs ellipsKnots sl t k (fun _ => 1) /\ arcs ellipsKnots sl t k sqy = d * arcs ellipsKnots sl t k (fun _ => 1).
Proof.
  intros E. assert (AX : forall t k, at_seg (BS 2 ellipsKnots sl) t 2 k -> (k < 9)%nat -> (t = 0 -> c = 1 -> d = 0 -> arcs ellipsKnots sl t k sqx = c * arcs ellipsKnots sl t k (fun _ => 1) /\ arcs ellipsKnots sl t k sqy = d * arcs ellipsKnots sl t k (fun _ => 1)) /\
    (t = 1 / 4 -> c = 0 -> d = 1 -> arcs ellipsKnots sl t k sqx = c * arcs ellipsKnots sl t k (fun _ => 1) /\ arcs ellipsKnots sl t k sqy = d * arcs ellipsKnots sl t k (fun _ => 1)) /\
    (t = 1 / 2 -> c = -1 -> d = 0 -> arcs ellipsKnots sl t k sqx = c * arcs ellipsKnots sl t k (fun _ => 1) /\ arcs ellipsKnots sl t k sqy = d * arcs ellipsKnots sl t k (fun _ => 1)) /\
    (t = 3 / 4 -> c = 0 -> d = -1 -> arcs ellipsKnots sl t k sqx = c * arcs ellipsKnots sl t k (fun _ => 1) /\ arcs ellipsKnots sl t k sqy = d * arcs ellipsKnots sl t k (fun _ => 1))).
  { intros t k A K. destruct (arcs_circle sl t (fun _ => 1)) as (O2 & O4 & O6 & O8). destruct (arcs_circle sl t sqx) as (X2 & X4 & X6 & X8). destruct (arcs_circle sl t sqy) as (Y2 & Y4 & Y6 & Y8).
    segc A k; (rewrite ?O2, ?O4, ?O6, ?O8, ?X2, ?X4, ?X6, ?X8, ?Y2, ?Y4, ?Y6, ?Y8; unfold sqx, sqy; cbn [nth]; (split; [|split; [|split]]); intros Ht -> -> ; try (exfalso; lra); subst t; unfold quarter; split; field; pose proof sqrt2_pos; lra). }
  assert (IN : forall c' d', 0 < c' -> 0 < d' -> c' * c' + d' * d' = 1 -> forall q x0 y0 x2 y2, (q <= 3)%nat -> x0 = sqx (2 * q) -> y0 = sqy (2 * q) -> x2 = sqx (2 * q + 2) -> y2 = sqy (2 * q + 2) -> c = c' * x0 + d' * x2 -> d = c' * y0 + d' * y2 -> exists t, 0 <= t <= 1 /\ forall k, at_seg (BS 2 ellipsKnots sl) t 2 k -> (k < 9)%nat ->
  arcs ellipsKnots sl t k sqx = c * arcs ellipsKnots sl t k (fun _ => 1) /\ arcs ellipsKnots sl t k sqy = d * arcs ellipsKnots sl t k (fun _ => 1)).
  { intros c' d' C D E' q x0 y0 x2 y2 Q H1 H2 H3 H4 Ec Ed. destruct (quarter_hit c' d' x0 y0 x2 y2 C D E') as (s & S & HX & HY). rewrite <- Ec in HX. rewrite <- Ed in HY.
    assert (q = 0 \/ q = 1 \/ q = 2 \/ q = 3)%nat as [-> | [-> | [-> | -> ]]] by lia; cbn in H1, H2, H3, H4; subst x0 y0 x2 y2.
    - exists (s / 4). split; [lra|]. intros k A K. destruct (arcs_circle sl (s / 4) (fun _ => 1)) as (O2 & _). destruct (arcs_circle sl (s / 4) sqx) as (X2 & _). destruct (arcs_circle sl (s / 4) sqy) as (Y2 & _).
      segc A k. rewrite O2, X2, Y2. unfold sqx, sqy. cbn [nth]. replace (4 * (s / 4)) with s by field. rewrite Rplus_0_r in HX. rewrite Rplus_0_l in HY. split; assumption.
    - exists ((s + 1) / 4). split; [lra|]. intros k A K. destruct (arcs_circle sl ((s + 1) / 4) (fun _ => 1)) as (_ & O2 & _). destruct (arcs_circle sl ((s + 1) / 4) sqx) as (_ & X2 & _). destruct (arcs_circle sl ((s + 1) / 4) sqy) as (_ & Y2 & _).
      segc A k. rewrite O2, X2, Y2. unfold sqx, sqy. cbn [nth]. replace (4 * ((s + 1) / 4) - 1) with s by field. rewrite Rplus_0_l in HX. rewrite Rplus_0_r in HY. split; assumption.
    - exists ((s + 2) / 4). split; [lra|]. intros k A K. destruct (arcs_circle sl ((s + 2) / 4) (fun _ => 1)) as (_ & _ & O2 & _). destruct (arcs_circle sl ((s + 2) / 4) sqx) as (_ & _ & X2 & _). destruct (arcs_circle sl ((s + 2) / 4) sqy) as (_ & _ & Y2 & _).
      segc A k. rewrite O2, X2, Y2. unfold sqx, sqy. cbn [nth]. replace (4 * ((s + 2) / 4) - 2) with s by field. rewrite Rplus_0_r in HX. rewrite Rplus_0_l in HY. split; assumption.
    - exists ((s + 3) / 4). split; [lra|]. intros k A K. destruct (arcs_circle sl ((s + 3) / 4) (fun _ => 1)) as (_ & _ & _ & O2). destruct (arcs_circle sl ((s + 3) / 4) sqx) as (_ & _ & _ & X2). destruct (arcs_circle sl ((s + 3) / 4) sqy) as (_ & _ & _ & Y2).
      segc A k. rewrite O2, X2, Y2. unfold sqx, sqy. cbn [nth]. replace (4 * ((s + 3) / 4) - 3) with s by field. rewrite Rplus_0_l in HX. rewrite Rplus_0_r in HY. split; assumption. }
  destruct (Rtotal_order c 0) as [C|[C|C]]; destruct (Rtotal_order d 0) as [D|[D|D]].
  - apply (IN (- c) (- d) ltac:(lra) ltac:(lra) ltac:(nra) 2%nat (-1) 0 0 (-1)); try reflexivity; try lia; lra.
  - exists (1 / 2). split; [lra|]. intros k A K. destruct (AX (1 / 2) k A K) as (_ & _ & Z & _). apply Z; [reflexivity|nra|exact D].
  - apply (IN d (- c) ltac:(lra) ltac:(lra) ltac:(nra) 1%nat 0 1 (-1) 0); try reflexivity; try lia; lra.
  - exists (3 / 4). split; [lra|]. intros k A K. destruct (AX (3 / 4) k A K) as (_ & _ & _ & Z). apply Z; [reflexivity|exact C|nra].
  - exfalso. nra.
  - exists (1 / 4). split; [lra|]. intros k A K. destruct (AX (1 / 4) k A K) as (_ & Z & _). apply Z; [reflexivity|exact C|nra].
  - apply (IN (- d) c ltac:(lra) ltac:(lra) ltac:(nra) 3%nat 0 (-1) 1 0); try reflexivity; try lia; lra.
  - exists 0. split; [lra|]. intros k A K. destruct (AX 0 k A K) as (Z & _). apply Z; [reflexivity|nra|exact D].
  - apply (IN c d ltac:(lra) ltac:(lra) ltac:(nra) 0%nat 1 0 0 1); try reflexivity; try lia; lra.
Qed.

Definition halfKnots : list R := [0; 0; 0; 1/2; 1/2; 1; 1; 1].
Definition ha (j : nat) : R := nth j [0; 1; 1; 1; 0] 0.
Definition hb (j : nat) : R := nth j [-1; -1; 0; 1; 1] 0.
Tactic Notation "segh" constr(A) ident(k) := pose proof (as_lo _ _ _ _ A); pose proof (as_hi _ _ _ _ A); pose proof (as_pos _ _ _ _ A); pose proof (as_ord _ _ _ _ A); clear A;
  assert (k = 1 \/ k = 2 \/ k = 3 \/ k = 4)%nat as [-> | [-> | [-> | -> ]]] by lia; unfold bs_at, halfKnots in *; cbn [bs_knot nth] in *; try (exfalso; lia); try (exfalso; lra).
Lemma half_on sl t k : at_seg (BS 2 halfKnots sl) t 2 k -> (k < 5)%nat -> 1 / 2 <= arcs halfKnots sl t k (fun _ => 1) /\
  arcs halfKnots sl t k ha * arcs halfKnots sl t k ha + arcs halfKnots sl t k hb * arcs halfKnots sl t k hb = arcs halfKnots sl t k (fun _ => 1) * arcs halfKnots sl t k (fun _ => 1).
Proof.
  intros A K. destruct (arcs_half sl t (fun _ => 1)) as (O2 & O4). destruct (arcs_half sl t ha) as (X2 & X4). destruct (arcs_half sl t hb) as (Y2 & Y4). fold halfKnots in *.
  segh A k.
  - rewrite O2, X2, Y2. split; [apply quarter_one; lra|]. unfold ha, hb. cbn [nth]. pose proof (quarter_on (2 * t) 0 (-1) 1 0 ltac:(lra) ltac:(lra) ltac:(lra)) as Q. rewrite Rplus_0_r, Rplus_0_l in Q. exact Q.
  - rewrite O4, X4, Y4. split; [apply quarter_one; lra|]. unfold ha, hb. cbn [nth]. pose proof (quarter_on (2 * t - 1) 1 0 0 1 ltac:(lra) ltac:(lra) ltac:(lra)) as Q. rewrite Rplus_0_r, Rplus_0_l in Q. exact Q.
Qed.
Lemma half_all sl c d : 0 <= c -> c * c + d * d = 1 -> exists t, 0 <= t <= 1 /\ forall k, at_seg (BS 2 halfKnots sl) t 2 k -> (k < 5)%nat ->
  arcs halfKnots sl t k ha = c * arcs halfKnots sl t k (fun _ => 1) /\ arcs halfKnots sl t k hb = d * arcs halfKnots sl t k (fun _ => 1).
Proof.
  intros C0 E. assert (AX : forall t k, at_seg (BS 2 halfKnots sl) t 2 k -> (k < 5)%nat -> (t = 0 -> c = 0 -> d = -1 -> arcs halfKnots sl t k ha = c * arcs halfKnots sl t k (fun _ => 1) /\ arcs halfKnots sl t k hb = d * arcs halfKnots sl t k (fun _ => 1)) /\
    (t = 1 / 2 -> c = 1 -> d = 0 -> arcs halfKnots sl t k ha = c * arcs halfKnots sl t k (fun _ => 1) /\ arcs halfKnots sl t k hb = d * arcs halfKnots sl t k (fun _ => 1)) /\
    (t = 1 -> c = 0 -> d = 1 -> arcs halfKnots sl t k ha = c * arcs halfKnots sl t k (fun _ => 1) /\ arcs halfKnots sl t k hb = d * arcs halfKnots sl t k (fun _ => 1))).
  { intros t k A K. destruct (arcs_half sl t (fun _ => 1)) as (O2 & O4). destruct (arcs_half sl t ha) as (X2 & X4). destruct (arcs_half sl t hb) as (Y2 & Y4). fold halfKnots in *.
    segh A k; (rewrite ?O2, ?O4, ?X2, ?X4, ?Y2, ?Y4; unfold ha, hb; cbn [nth]; (split; [|split]); intros Ht -> -> ; try (exfalso; lra); subst t; unfold quarter; split; field; pose proof sqrt2_pos; lra). }
  destruct (Rtotal_order d 0) as [D|[D|D]].
  - destruct (Req_dec c 0) as [C|C].
    + exists 0. split; [lra|]. intros k A K. destruct (AX 0 k A K) as (Z & _). apply Z; [reflexivity|exact C|nra].
    + destruct (quarter_hit (- d) c 0 (-1) 1 0 ltac:(lra) ltac:(lra) ltac:(nra)) as (s & S & HX & HY). exists (s / 2). split; [lra|]. intros k A K.
      destruct (arcs_half sl (s / 2) (fun _ => 1)) as (O2 & _). destruct (arcs_half sl (s / 2) ha) as (X2 & _). destruct (arcs_half sl (s / 2) hb) as (Y2 & _). fold halfKnots in *.
      segh A k. rewrite O2, X2, Y2. unfold ha, hb. cbn [nth]. replace (2 * (s / 2)) with s by field. rewrite Rplus_0_l in HX. rewrite Rplus_0_r in HY. rewrite HX, HY. split; ring.
  - exists (1 / 2). split; [lra|]. intros k A K. destruct (AX (1 / 2) k A K) as (_ & Z & _). apply Z; [reflexivity|nra|exact D].
  - destruct (Req_dec c 0) as [C|C].
    + exists 1. split; [lra|]. intros k A K. destruct (AX 1 k A K) as (_ & _ & Z). apply Z; [reflexivity|exact C|nra].
    + destruct (quarter_hit c d 1 0 0 1 ltac:(lra) ltac:(lra) ltac:(nra)) as (s & S & HX & HY). exists ((s + 1) / 2). split; [lra|]. intros k A K.
      destruct (arcs_half sl ((s + 1) / 2) (fun _ => 1)) as (_ & O2). destruct (arcs_half sl ((s + 1) / 2) ha) as (_ & X2). destruct (arcs_half sl ((s + 1) / 2) hb) as (_ & Y2). fold halfKnots in *.
      segh A k. rewrite O2, X2, Y2. unfold ha, hb. cbn [nth]. replace (2 * ((s + 1) / 2) - 1) with s by field. rewrite Rplus_0_r in HX. rewrite Rplus_0_l in HY. rewrite HX, HY. split; ring.
Qed.
