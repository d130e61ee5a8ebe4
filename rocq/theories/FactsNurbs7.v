(** Cones, elliptic cylinders and boxes as rational surfaces. *)
From Verif Require Import Base Spec SpecMesh SpecShape SpecNurbs ModelNurbs FactsAlg FactsVec FactsElem FactsObb FactsMulti2 FactsSolid FactsNurbs FactsNurbs2 FactsNurbs3 FactsNurbs4 FactsNurbs5 FactsNurbs6.
From Coq Require Import List Lra Lia.
Import ListNotations.
Open Scope R_scope.

(** * Straight directions *)
Definition lines (ks : list R) (sl : nat) (t : R) (k : nat) (f : nat -> R) : R := rsum (fun i => zBSplineParamBasis (BS 1 ks sl) t i 1 k * 1 * f i) (seq (k - 1) 2).
Lemma sv_lines n ks sl v sv f : nu_1 n = BS 1 ks sl -> sv_ n (fun _ => 1) v sv f = lines ks sl v sv f.
Proof. intros E. unfold sv_, lines, Bv, Iv, active. rewrite E. reflexivity. Qed.
Lemma su_lines n ks sl u su f : nu_0 n = BS 1 ks sl -> su_ n (fun _ => 1) u su f = lines ks sl u su f.
Proof. intros E. unfold su_, lines, Bu, Iu, active. rewrite E. reflexivity. Qed.

Definition K3 : list R := [0; 0; 1; 2; 2].
Definition K4 : list R := [0; 0; 1; 1; 2; 2].
Definition K5 : list R := [0; 0; 1; 2; 3; 4; 4].
Ltac linec := unfold lines, K3, K4, K5; intros f; basisc; field.
Lemma line3 sl t : (forall f, lines K3 sl t 1 f = (1 - t) * f 0%nat + t * f 1%nat) /\ (forall f, lines K3 sl t 2 f = (1 - (t - 1)) * f 1%nat + (t - 1) * f 2%nat).
Proof. split; linec. Qed.
Lemma line4 sl t : (forall f, lines K4 sl t 1 f = (1 - t) * f 0%nat + t * f 1%nat) /\ (forall f, lines K4 sl t 3 f = (1 - (t - 1)) * f 2%nat + (t - 1) * f 3%nat).
Proof. split; linec. Qed.
Lemma line5 sl t : (forall f, lines K5 sl t 1 f = (1 - t) * f 0%nat + t * f 1%nat) /\ (forall f, lines K5 sl t 2 f = (1 - (t - 1)) * f 1%nat + (t - 1) * f 2%nat) /\
  (forall f, lines K5 sl t 3 f = (1 - (t - 2)) * f 2%nat + (t - 2) * f 3%nat) /\ (forall f, lines K5 sl t 4 f = (1 - (t - 3)) * f 3%nat + (t - 3) * f 4%nat).
Proof. split; [|split; [|split]]; linec. Qed.
Lemma seg3 sl t k : at_seg (BS 1 K3 sl) t 1 k -> (k < 3)%nat -> (k = 1%nat /\ 0 <= t <= 1) \/ (k = 2%nat /\ 1 <= t <= 2).
Proof.
  intros A K. pose proof (as_lo _ _ _ _ A). pose proof (as_hi _ _ _ _ A). pose proof (as_ord _ _ _ _ A). assert (k = 1 \/ k = 2)%nat as [-> | -> ] by lia; unfold bs_at, K3 in *; cbn [bs_knot nth] in *; [left|right]; split; auto.
Qed.
Lemma seg4 sl t k : at_seg (BS 1 K4 sl) t 1 k -> (k < 4)%nat -> (k = 1%nat /\ 0 <= t <= 1) \/ (k = 3%nat /\ 1 <= t <= 2).
Proof.
  intros A K. pose proof (as_lo _ _ _ _ A). pose proof (as_hi _ _ _ _ A). pose proof (as_pos _ _ _ _ A). pose proof (as_ord _ _ _ _ A). assert (k = 1 \/ k = 2 \/ k = 3)%nat as [-> | [-> | -> ]] by lia; unfold bs_at, K4 in *; cbn [bs_knot nth] in *; [left; split; auto|exfalso; lra|right; split; auto].
Qed.
Lemma seg5 sl t k : at_seg (BS 1 K5 sl) t 1 k -> (k < 5)%nat -> (k = 1%nat /\ 0 <= t <= 1) \/ (k = 2%nat /\ 1 <= t <= 2) \/ (k = 3%nat /\ 2 <= t <= 3) \/ (k = 4%nat /\ 3 <= t <= 4).
Proof.
  intros A K. pose proof (as_lo _ _ _ _ A). pose proof (as_hi _ _ _ _ A). pose proof (as_ord _ _ _ _ A). assert (k = 1 \/ k = 2 \/ k = 3 \/ k = 4)%nat as [-> | [-> | [-> | -> ]]] by lia; unfold bs_at, K5 in *; cbn [bs_knot nth] in *; [left|right; left|right; right; left|right; right; right]; split; auto.
Qed.

(** * Surfaces swept by a circle along straight lines *)
Section Swept.
Variables (n : nurbs) (sl sz : nat) (ks : list R) (c P Q Z : vec3) (ra rz : nat -> R).
Hypothesis N0 : nu_n0 n = 9%nat.
Hypothesis N1 : nu_n1 n = sz.
Hypothesis K0 : nu_0 n = BS 2 ellipsKnots sl.
Hypothesis K1 : nu_1 n = BS 1 ks sl.
Hypothesis HW : forall i j, (i < 9)%nat -> (j < sz)%nat -> zNURBS3DWeight n i j = arcWeight i * 1.
Hypothesis HC : forall i j, (i < 9)%nat -> (j < sz)%nat -> zNURBS3DCP n i j = vadd c (vadd (vadd (vscale (sqx i * ra j) P) (vscale (sqy i * ra j) Q)) (vscale (1 * rz j) Z)).
Hypothesis GK : good_knots 1 sz ks.
Lemma swept_good : good_nurbs n.
Proof. unfold good_nurbs. rewrite K0, K1, N0, N1. split; [apply good_circle|exact GK]. Qed.
Lemma swept_vec seg u v : finds seg -> in_params n u v -> exists su sv, at_seg (BS 2 ellipsKnots sl) u 2 su /\ at_seg (BS 1 ks sl) v 1 sv /\ (su < 9)%nat /\ (sv < sz)%nat /\
  let A := arcs ellipsKnots sl u su in let B := lines ks sl v sv in
  (B (fun _ => 1) = 1 -> zNURBS3DVec seg n u v = Some (Some (vadd c (vadd (vadd (vscale (A sqx / A (fun _ => 1%R) * B ra) P) (vscale (A sqy / A (fun _ => 1%R) * B ra) Q)) (vscale (B rz) Z))))).
Proof.
  intros F D. assert (HW' : forall i j, (i < nu_n0 n)%nat -> (j < nu_n1 n)%nat -> zNURBS3DWeight n i j = arcWeight i * (fun _ => 1) j) by (rewrite N0, N1; exact HW).
  assert (HC' : forall i j, (i < nu_n0 n)%nat -> (j < nu_n1 n)%nat -> zNURBS3DCP n i j = vadd c (vadd (vadd (vscale (sqx i * ra j) P) (vscale (sqy i * ra j) Q)) (vscale (1 * rz j) Z))) by (rewrite N0, N1; exact HC).
  destruct (product_vec seg n u v arcWeight (fun _ => 1) _ _ _ _ sqx ra sqy ra (fun _ => 1) rz F swept_good D HW' HC') as (su & sv & A0 & A1 & S0 & S1 & V). cbv zeta in V.
  rewrite !(su_arcs n _ _ u su _ K0), !(sv_lines n _ _ v sv _ K1) in V. rewrite K0 in A0. rewrite K1 in A1. rewrite N0 in S0. rewrite N1 in S1. cbn [bs_order] in A0, A1.
  exists su, sv. split; [exact A0|]. split; [exact A1|]. split; [exact S0|]. split; [exact S1|]. cbv zeta. intros B1.
  destruct (circle_on sl u su A0 S0) as [U1 U2]. rewrite (V U1) by lra. rewrite B1. do 2 f_equal. apply vec3_ext; spec_unfold; field; lra.
Qed.
Lemma swept_params u v : 0 <= u <= 1 -> in_domain 1 sz ks v -> in_params n u v.
Proof. intros U V. unfold in_params. rewrite K0, K1, N0, N1. split; [|exact V]. unfold in_domain, knot_of, ellipsKnots. cbn [bs_order bs_knot nth]. lra. Qed.
End Swept.

(** * Cones *)
Lemma cone_axes z : 3 * zTOL <= norm z -> exists ax ay e, zVec3DOrthoSpace z = Some (ax, ay) /\ isometry (cols3 (snd (zVec3DNormalizeDRC ax)) (snd (zVec3DNormalizeDRC ay)) e) /\ vscale (norm z) e = z.
Proof.
  intros H. destruct (orthospace_spec z H) as (s1 & s2 & E & N1 & N2 & D1 & D2 & D3 & X). exists s1, s2, (vscale (1 / norm z) z).
  pose proof zTOL_pos as T. pose proof zTOL_small. split; [exact E|]. assert (NZ : norm z <> 0) by lra.
  rewrite (normalizeDRC_ok s1) by (apply long_not_negligible; lra). rewrite (normalizeDRC_ok s2) by (apply long_not_negligible; rewrite N2; lra). rewrite N1, N2. split; [|apply vec3_ext; spec_unfold; field; exact NZ].
  pose proof (norm_sqr z) as ZZ. pose proof (norm_sqr s2) as S2. rewrite N2 in S2. apply norm_unit in N1. set (L := norm z) in *. clearbody L. clear - N1 ZZ S2 D1 D2 D3 NZ.
  assert (E1 : dot s2 s2 / (L * L) = 1) by (rewrite <- S2; field; exact NZ). assert (E2 : dot z z / (L * L) = 1) by (rewrite <- ZZ; field; exact NZ).
  assert (E3 : dot s1 s2 / L = 0) by (rewrite D3; field; exact NZ). assert (E4 : dot z s1 / L = 0) by (rewrite D1; field; exact NZ). assert (E5 : dot z s2 / (L * L) = 0) by (rewrite D2; field; exact NZ).
  unfold isometry. clear S2 ZZ D1 D2 D3. apply mat3_ext; revert N1 E1 E2 E3 E4 E5; spec_unfold; intros N1 E1 E2 E3 E4 E5;
  first [ etransitivity; [|exact N1]; field; exact NZ | etransitivity; [|exact E1]; field; exact NZ | etransitivity; [|exact E2]; field; exact NZ | etransitivity; [|exact E3]; field; exact NZ | etransitivity; [|exact E4]; field; exact NZ | etransitivity; [|exact E5]; field; exact NZ ].
Qed.

Lemma cone_traces seg c sl : finds seg -> 3 * zTOL <= norm (vsub (kvert c) (kcen c)) -> 0 < krad c ->
  exists n, zNURBS3DCone c sl = Some n /\ good_nurbs n /\ traces (zNURBS3DVec seg n) n (on_cone (kcen c) (kvert c) (krad c)).
Proof.
  intros F HA HR. assert (EA : zCone3DAxis c = vsub (kvert c) (kcen c)) by (unfold zCone3DAxis; zvg; reflexivity).
  destruct (cone_axes (zCone3DAxis c) ltac:(rewrite EA; exact HA)) as (ax & ay & e & E & IS & EE). destruct (cone_net c sl ax ay E) as (n & En & N0 & N1 & K0 & K1 & HW & HC).
  rewrite EA in EE. set (a := snd (zVec3DNormalizeDRC ax)) in *. set (b := snd (zVec3DNormalizeDRC ay)) in *. clearbody a b. clear E ax ay. set (z := vsub (kvert c) (kcen c)) in *. set (r := krad c) in *. set (o := kcen c) in *.
  fold K3 in K1. set (ra := fun j => nth j [0; 1; 0] 0). set (rz := fun j => nth j [0; 0; 1] 0).
  assert (HC' : forall i j, (i < 9)%nat -> (j < 3)%nat -> zNURBS3DCP n i j = vadd o (vadd (vadd (vscale (sqx i * ra j) (vscale r a)) (vscale (sqy i * ra j) (vscale r b))) (vscale (1 * rz j) z))).
  { intros i j I J. rewrite HC by assumption. fold (ra j) (rz j). apply vec3_ext; spec_unfold; ring. }
  clear HC. pose proof good_line3 as GL. fold K3 in GL. exists n. split; [exact En|]. split; [apply (swept_good n sl 3 K3 N0 N1 K0 K1 GL)|].
  assert (ZE : forall w, dot e w = 0 <-> dot z w = 0).
  { intros w. rewrite <- EE. replace (dot (vscale (norm z) e) w) with (norm z * dot e w) by (spec_unfold; ring). pose proof zTOL_pos. split; [intros ->; ring|]. intros HH. apply Rmult_integral in HH as [HH|HH]; [lra|exact HH]. }
  split.
  - intros u v D. destruct (swept_vec n sl 3 K3 o _ _ z ra rz N0 N1 K0 K1 HW HC' GL seg u v F D) as (su & sv & A0 & A1 & S0 & S1 & V). cbv zeta in V.
    destruct (circle_on sl u su A0 S0) as [U1 U2]. set (W := arcs ellipsKnots sl u su (fun _ => 1)) in *. set (cu := arcs ellipsKnots sl u su sqx) in *. set (du := arcs ellipsKnots sl u su sqy) in *. clearbody W cu du.
    assert (EU : cu / W * (cu / W) + du / W * (du / W) = 1) by (transitivity ((cu * cu + du * du) / (W * W)); [field; lra|rewrite U2; field; lra]).
    destruct (line3 sl v) as [L1 L2]. destruct (seg3 sl v sv A1 S1) as [[-> T]|[-> T]].
    + rewrite !L1 in V. unfold ra, rz in V. cbn [nth] in V. eexists. split; [apply V; ring|]. destruct (dir_norm a b e (v * r) (cu / W) (du / W) IS EU ltac:(nra)) as [NW DW].
      exists 0, (vscale (v * r) (vadd (vscale (cu / W) a) (vscale (du / W) b))). split; [lra|]. split; [apply ZE, DW|]. split; [right; split; [reflexivity|rewrite NW; nra]|]. fold o z. apply vec3_ext; spec_unfold; field; lra.
    + rewrite !L2 in V. unfold ra, rz in V. cbn [nth] in V. eexists. split; [apply V; ring|]. destruct (dir_norm a b e ((1 - (v - 1)) * r) (cu / W) (du / W) IS EU ltac:(nra)) as [NW DW].
      exists (v - 1), (vscale ((1 - (v - 1)) * r) (vadd (vscale (cu / W) a) (vscale (du / W) b))). split; [lra|]. split; [apply ZE, DW|]. split; [left; exact NW|]. fold o z. apply vec3_ext; spec_unfold; field; lra.
  - intros p (t & w & T & DW & NW & ->). fold z in DW |- *. apply ZE in DW. destruct (plane_dir a b e w IS DW) as (cu & du & CU & EW). destruct (circle_all sl cu du CU) as (u & HU & TU).
    pose proof (norm_nonneg w) as NP.
    destruct NW as [NW|[-> NW]].
    + exists u, (1 + t). assert (D : in_params n u (1 + t)) by (apply (swept_params n sl 3 K3 N0 N1 K0 K1); [exact HU|unfold in_domain, knot_of, K3; cbn [nth]; lra]). split; [exact D|].
      destruct (swept_vec n sl 3 K3 o _ _ z ra rz N0 N1 K0 K1 HW HC' GL seg u (1 + t) F D) as (su & sv & A0 & A1 & S0 & S1 & V). cbv zeta in V. destruct (circle_on sl u su A0 S0) as [U1 _]. destruct (TU su A0 S0) as [T1 T2]. rewrite T1, T2 in V. set (W := arcs ellipsKnots sl u su (fun _ => 1)) in *. clearbody W.
      destruct (line3 sl (1 + t)) as [L1 L2]. destruct (seg3 sl (1 + t) sv A1 S1) as [[-> T']|[-> T']].
      * rewrite !L1 in V. unfold ra, rz in V. cbn [nth] in V. rewrite V by ring. do 2 f_equal. assert (t = 0) by lra. subst t. rewrite EW at 1. rewrite NW. apply vec3_ext; spec_unfold; field; lra.
      * rewrite !L2 in V. unfold ra, rz in V. cbn [nth] in V. rewrite V by ring. do 2 f_equal. rewrite EW at 1. rewrite NW. apply vec3_ext; spec_unfold; field; lra.
    + set (s := norm w / r). assert (HS : 0 <= s <= 1). { unfold s. split; [apply Rmult_le_pos; [exact NP|apply Rlt_le, Rinv_0_lt_compat, HR]|apply Rmult_le_reg_r with r; [exact HR|]; replace (norm w / r * r) with (norm w) by (field; lra); lra]. }
      assert (ES : norm w = s * r) by (unfold s; field; lra).
      exists u, s. assert (D : in_params n u s) by (apply (swept_params n sl 3 K3 N0 N1 K0 K1); [exact HU|unfold in_domain, knot_of, K3; cbn [nth]; lra]). split; [exact D|].
      destruct (swept_vec n sl 3 K3 o _ _ z ra rz N0 N1 K0 K1 HW HC' GL seg u s F D) as (su & sv & A0 & A1 & S0 & S1 & V). cbv zeta in V. destruct (circle_on sl u su A0 S0) as [U1 _]. destruct (TU su A0 S0) as [T1 T2]. rewrite T1, T2 in V. set (W := arcs ellipsKnots sl u su (fun _ => 1)) in *. clearbody W.
      destruct (line3 sl s) as [L1 L2]. destruct (seg3 sl s sv A1 S1) as [[-> T']|[-> T']].
      * rewrite !L1 in V. unfold ra, rz in V. cbn [nth] in V. rewrite V by ring. do 2 f_equal. rewrite EW at 1. rewrite ES. apply vec3_ext; spec_unfold; field; lra.
      * rewrite !L2 in V. unfold ra, rz in V. cbn [nth] in V. rewrite V by ring. do 2 f_equal. assert (s = 1) by lra. rewrite EW at 1. rewrite ES, H. apply vec3_ext; spec_unfold; field; lra.
Qed.

(** * Elliptic cylinders: the two caps only *)
Lemma ecyl_traces seg c sl : finds seg -> 0 < er0 c -> 0 < er1 c ->
  exists n, zNURBS3DECyl c sl = Some n /\ good_nurbs n /\ traces_between (zNURBS3DVec seg n) n
    (fun p => in_open_cap (ec0 c) (er0 c) (er1 c) (ev0 c) (ev1 c) p \/ in_open_cap (ec1 c) (er0 c) (er1 c) (ev0 c) (ev1 c) p)
    (fun p => in_cap (ec0 c) (er0 c) (er1 c) (ev0 c) (ev1 c) p \/ in_cap (ec1 c) (er0 c) (er1 c) (ev0 c) (ev1 c) p).
Proof.
  intros F R0 R1. destruct (ecyl_net c sl) as (n & En & N0 & N1 & K0 & K1 & HW & HC). fold K4 in K1. pose proof good_line4 as GL. fold K4 in GL.
  exists n. split; [exact En|]. split; [apply (swept_good n sl 4 K4 N0 N1 K0 K1 GL)|].
  set (ra := fun j => nth j [0; 1; 1; 0] 0). set (rz := fun j => nth j [0; 0; 1; 1] 0). set (z := vsub (ec1 c) (ec0 c)) in *. set (r0 := er0 c) in *. set (r1 := er1 c) in *. set (a := ev0 c) in *. set (b := ev1 c) in *. set (o := ec0 c) in *.
  assert (HC' : forall i j, (i < 9)%nat -> (j < 4)%nat -> zNURBS3DCP n i j = vadd o (vadd (vadd (vscale (sqx i * ra j) (vscale r0 a)) (vscale (sqy i * ra j) (vscale r1 b))) (vscale (1 * rz j) z))).
  { intros i j I J. rewrite HC by assumption. fold (ra j) (rz j). apply vec3_ext; spec_unfold; ring. }
  clear HC. assert (O1 : ec1 c = vadd o z) by (unfold z; apply vec3_ext; spec_unfold; ring). rewrite O1. clear O1. split.
  - intros u v D. destruct (swept_vec n sl 4 K4 o _ _ z ra rz N0 N1 K0 K1 HW HC' GL seg u v F D) as (su & sv & A0 & A1 & S0 & S1 & V). cbv zeta in V.
    destruct (circle_on sl u su A0 S0) as [U1 U2]. set (W := arcs ellipsKnots sl u su (fun _ => 1)) in *. set (cu := arcs ellipsKnots sl u su sqx) in *. set (du := arcs ellipsKnots sl u su sqy) in *. clearbody W cu du.
    assert (EU : cu / W * (cu / W) + du / W * (du / W) = 1) by (transitivity ((cu * cu + du * du) / (W * W)); [field; lra|rewrite U2; field; lra]). set (x := cu / W) in *. set (y := du / W) in *. clearbody x y.
    assert (IN : forall s, 0 <= s <= 1 -> s * (r0 * x) / r0 * (s * (r0 * x) / r0) + s * (r1 * y) / r1 * (s * (r1 * y) / r1) <= 1).
    { intros s Hs. replace (s * (r0 * x) / r0 * (s * (r0 * x) / r0) + s * (r1 * y) / r1 * (s * (r1 * y) / r1)) with (s * s * (x * x + y * y)) by (field; lra). rewrite EU. nra. }
    destruct (line4 sl v) as [L1 L2]. destruct (seg4 sl v sv A1 S1) as [[-> T]|[-> T]].
    + rewrite !L1 in V. unfold ra, rz in V. cbn [nth] in V. eexists. split; [apply V; ring|]. left. exists (v * (r0 * x)), (v * (r1 * y)). split; [apply IN, T|]. apply vec3_ext; spec_unfold; ring.
    + rewrite !L2 in V. unfold ra, rz in V. cbn [nth] in V. eexists. split; [apply V; ring|]. right. exists ((2 - v) * (r0 * x)), ((2 - v) * (r1 * y)). split; [apply IN; lra|]. apply vec3_ext; spec_unfold; ring.
  - assert (PO : forall x' y', x' / r0 * (x' / r0) + y' / r1 * (y' / r1) < 1 -> exists s cu du, 0 <= s < 1 /\ cu * cu + du * du = 1 /\ x' = s * (r0 * cu) /\ y' = s * (r1 * du)).
    { intros x' y' H. set (x := x' / r0) in *. set (y := y' / r1) in *. set (s := sqrt (x * x + y * y)). assert (SS : s * s = x * x + y * y) by (apply sqrt_sqrt; nra). assert (S0 : 0 <= s) by apply sqrt_pos.
      assert (EX : x' = r0 * x) by (unfold x; field; lra). assert (EY : y' = r1 * y) by (unfold y; field; lra). rewrite EX, EY. clearbody x y s.
      destruct (Req_dec s 0) as [Z|Z].
      - exists 0, 1, 0. assert (x = 0 /\ y = 0) as [-> ->] by (rewrite Z in SS; split; nra). repeat split; lra.
      - exists s, (x / s), (y / s). split; [nra|]. split; [|split; field; exact Z]. transitivity ((x * x + y * y) / (s * s)); [field; exact Z|]. rewrite <- SS. field. exact Z. }
    intros p [(x' & y' & H & ->)|(x' & y' & H & ->)]; destruct (PO x' y' H) as (s & cu & du & HS & CU & -> & ->); destruct (circle_all sl cu du CU) as (u & HU & TU).
    + exists u, s. assert (D : in_params n u s) by (apply (swept_params n sl 4 K4 N0 N1 K0 K1); [exact HU|unfold in_domain, knot_of, K4; cbn [nth]; lra]). split; [exact D|].
      destruct (swept_vec n sl 4 K4 o _ _ z ra rz N0 N1 K0 K1 HW HC' GL seg u s F D) as (su & sv & A0 & A1 & S0 & S1 & V). cbv zeta in V. destruct (circle_on sl u su A0 S0) as [U1 _]. destruct (TU su A0 S0) as [T1 T2]. rewrite T1, T2 in V. set (W := arcs ellipsKnots sl u su (fun _ => 1)) in *. clearbody W.
      destruct (line4 sl s) as [L1 _]. destruct (seg4 sl s sv A1 S1) as [[-> T']|[-> T']]; [|exfalso; lra].
      rewrite !L1 in V. unfold ra, rz in V. cbn [nth] in V. rewrite V by ring. do 2 f_equal. apply vec3_ext; spec_unfold; field; lra.
    + exists u, (2 - s). assert (D : in_params n u (2 - s)) by (apply (swept_params n sl 4 K4 N0 N1 K0 K1); [exact HU|unfold in_domain, knot_of, K4; cbn [nth]; lra]). split; [exact D|].
      destruct (swept_vec n sl 4 K4 o _ _ z ra rz N0 N1 K0 K1 HW HC' GL seg u (2 - s) F D) as (su & sv & A0 & A1 & S0 & S1 & V). cbv zeta in V. destruct (circle_on sl u su A0 S0) as [U1 _]. destruct (TU su A0 S0) as [T1 T2]. rewrite T1, T2 in V. set (W := arcs ellipsKnots sl u su (fun _ => 1)) in *. clearbody W.
      destruct (line4 sl (2 - s)) as [_ L1]. destruct (seg4 sl (2 - s) sv A1 S1) as [[-> T']|[-> T']]; [exfalso; lra|].
      rewrite !L1 in V. unfold ra, rz in V. cbn [nth] in V. rewrite V by ring. do 2 f_equal. apply vec3_ext; spec_unfold; field; lra.
Qed.

(** no point strictly between the caps is reached *)
Lemma ecyl_side seg c sl : finds seg -> 0 < er0 c -> 0 < er1 c -> 0 < norm (vsub (ec1 c) (ec0 c)) -> radial_basis (vsub (ec1 c) (ec0 c)) (ev0 c) (ev1 c) ->
  exists n, zNURBS3DECyl c sl = Some n /\ good_nurbs n /\ forall u v t a b, in_params n u v -> 0 < t < 1 ->
    zNURBS3DVec seg n u v <> Some (Some (vadd (vadd (ec0 c) (vscale t (vsub (ec1 c) (ec0 c)))) (vadd (vscale a (ev0 c)) (vscale b (ev1 c))))).
Proof.
  intros F R0 R1 HN (_ & _ & _ & Q0 & Q1). destruct (ecyl_traces seg c sl F R0 R1) as (n & E & G & T & _). exists n. split; [exact E|]. split; [exact G|].
  intros u v t a b D Ht HV. destruct (T u v D) as (p & V & C). rewrite HV in V. injection V as <-. pose proof (norm_sqr (vsub (ec1 c) (ec0 c))) as NS.
  destruct C as [(x & y & _ & EQ)|(x & y & _ & EQ)]; apply (f_equal (fun q => dot (vsub (ec1 c) (ec0 c)) (vsub q (ec0 c)))) in EQ.
  - replace (dot (vsub (ec1 c) (ec0 c)) (vsub (vadd (vadd (ec0 c) (vscale t (vsub (ec1 c) (ec0 c)))) (vadd (vscale a (ev0 c)) (vscale b (ev1 c)))) (ec0 c))) with
      (t * dot (vsub (ec1 c) (ec0 c)) (vsub (ec1 c) (ec0 c)) + a * dot (vsub (ec1 c) (ec0 c)) (ev0 c) + b * dot (vsub (ec1 c) (ec0 c)) (ev1 c)) in EQ by (spec_unfold; ring).
    replace (dot (vsub (ec1 c) (ec0 c)) (vsub (vadd (vadd (ec0 c) (vscale x (ev0 c))) (vscale y (ev1 c))) (ec0 c))) with (x * dot (vsub (ec1 c) (ec0 c)) (ev0 c) + y * dot (vsub (ec1 c) (ec0 c)) (ev1 c)) in EQ by (spec_unfold; ring).
    rewrite Q0, Q1, <- NS in EQ. clear - HN Ht EQ. set (L := norm _) in *. assert (0 < L * L) by nra. nra.
  - replace (dot (vsub (ec1 c) (ec0 c)) (vsub (vadd (vadd (ec0 c) (vscale t (vsub (ec1 c) (ec0 c)))) (vadd (vscale a (ev0 c)) (vscale b (ev1 c)))) (ec0 c))) with
      (t * dot (vsub (ec1 c) (ec0 c)) (vsub (ec1 c) (ec0 c)) + a * dot (vsub (ec1 c) (ec0 c)) (ev0 c) + b * dot (vsub (ec1 c) (ec0 c)) (ev1 c)) in EQ by (spec_unfold; ring).
    replace (dot (vsub (ec1 c) (ec0 c)) (vsub (vadd (vadd (ec1 c) (vscale x (ev0 c))) (vscale y (ev1 c))) (ec0 c))) with (dot (vsub (ec1 c) (ec0 c)) (vsub (ec1 c) (ec0 c)) + x * dot (vsub (ec1 c) (ec0 c)) (ev0 c) + y * dot (vsub (ec1 c) (ec0 c)) (ev1 c)) in EQ by (spec_unfold; ring).
    rewrite Q0, Q1, <- NS in EQ. clear - HN Ht EQ. set (L := norm _) in *. assert (0 < L * L) by nra. nra.
Qed.

(** * Cylinders *)
Lemma cyl_conv c : 3 * zTOL <= norm (vsub (cc1 c) (cc0 c)) -> exists u0 u1 d, zCyl3DToECyl3D c = Some (EC (cc0 c) (cc1 c) (crad c) (crad c) u0 u1 d) /\ radial_basis (vsub (cc1 c) (cc0 c)) u0 u1.
Proof.
  intros H. assert (EA : zCyl3DAxis c = vsub (cc1 c) (cc0 c)) by (unfold zCyl3DAxis; zvg; reflexivity). unfold zCyl3DToECyl3D. rewrite EA.
  destruct (orthonormal_space_spec _ H) as (e & s1 & s2 & E & SC & U0 & U1 & U2 & D1 & D2 & D3 & _). rewrite E. unfold zECyl3DCreate. replace (zVec3DSub (cc1 c) (cc0 c)) with (vsub (cc1 c) (cc0 c)) by (zvg; reflexivity).
  pose proof zTOL_pos as TP. pose proof zTOL_small as TS. set (z := vsub (cc1 c) (cc0 c)) in *. assert (P : dot z s1 = 0) by (rewrite <- SC; replace (dot (vscale (norm z) e) s1) with (norm z * dot e s1) by (spec_unfold; ring); rewrite D1; ring).
  destruct (ecyl_defaxis z s1) as (u0 & u1 & E2 & RB & _).
  - lra.
  - apply long_not_negligible. rewrite U1. lra.
  - intros t. apply long_not_negligible. assert (1 <= norm (vsub s1 (vscale t z))); [|lra]. apply Rsqr_incr_0_var; [|apply norm_nonneg]. unfold Rsqr. rewrite norm_sqr.
    replace (dot (vsub s1 (vscale t z)) (vsub s1 (vscale t z))) with (dot s1 s1 - 2 * t * dot z s1 + t * t * dot z z) by (spec_unfold; ring). apply norm_unit in U1. rewrite P, U1, <- (norm_sqr z). nra.
  - rewrite E2. eexists _, _, _. split; [reflexivity|exact RB].
Qed.

(** * Boxes: the two lids only *)
Lemma perim_on sl v k : at_seg (BS 1 K5 sl) v 1 k -> (k < 5)%nat -> lines K5 sl v k (fun _ => 1) = 1 /\ Rabs (lines K5 sl v k rgx) <= 1 /\ Rabs (lines K5 sl v k rgy) <= 1.
Proof.
  intros A K. destruct (line5 sl v) as (L1 & L2 & L3 & L4). destruct (seg5 sl v k A K) as [[-> T]|[[-> T]|[[-> T]|[-> T]]]]; rewrite ?L1, ?L2, ?L3, ?L4; unfold rgx, rgy; cbn [nth]; (split; [ring|]); split; apply Rabs_le; lra.
Qed.
Lemma perim_all sl x y : Rabs x < 1 -> Rabs y < 1 -> exists s v, 0 <= s < 1 /\ 0 <= v <= 4 /\ forall k, at_seg (BS 1 K5 sl) v 1 k -> (k < 5)%nat -> s * lines K5 sl v k rgx = x /\ s * lines K5 sl v k rgy = y.
Proof.
  intros HX HY.
  assert (KEY : forall s v, 0 <= v <= 4 -> (0 <= v <= 1 -> x = s * (1 - 2 * v) /\ y = s) -> (1 <= v <= 2 -> x = - s /\ y = s * (3 - 2 * v)) -> (2 <= v <= 3 -> x = s * (2 * v - 5) /\ y = - s) -> (3 <= v <= 4 -> x = s /\ y = s * (2 * v - 7)) ->
    forall k, at_seg (BS 1 K5 sl) v 1 k -> (k < 5)%nat -> s * lines K5 sl v k rgx = x /\ s * lines K5 sl v k rgy = y).
  { intros s v HV H1 H2 H3 H4 k A K. destruct (line5 sl v) as (L1 & L2 & L3 & L4). destruct (seg5 sl v k A K) as [[-> T]|[[-> T]|[[-> T]|[-> T]]]]; rewrite ?L1, ?L2, ?L3, ?L4; unfold rgx, rgy; cbn [nth];
    [destruct (H1 T) as [-> ->]|destruct (H2 T) as [-> ->]|destruct (H3 T) as [-> ->]|destruct (H4 T) as [-> ->]]; split; ring. }
  assert (Dx : forall a b, 0 < b -> Rabs a <= b -> -1 <= a / b <= 1).
  { intros a b B H. pose proof (Rle_abs a). pose proof (Rle_abs (- a)) as H'. rewrite Rabs_Ropp in H'. split; apply Rmult_le_reg_r with b; try assumption; replace (a / b * b) with a by (field; lra); lra. }
  destruct (Rle_lt_dec (Rabs x) (Rabs y)) as [C|C].
  - destruct (Req_dec y 0) as [Z|Z].
    { exists 0, 0. rewrite Z, Rabs_R0 in C. assert (x = 0) by (pose proof (Rle_abs x); pose proof (Rle_abs (- x)) as H'; rewrite Rabs_Ropp in H'; lra). subst x y. split; [lra|]. split; [lra|]. intros. split; ring. }
    destruct (Rlt_dec 0 y) as [P|P].
    + rewrite (Rabs_right y) in C, HY by lra. pose proof (Dx x y P C) as B. exists y, ((1 - x / y) / 2). split; [lra|]. split; [lra|]. apply KEY; [lra|..].
      * intros _. split; [field; lra|reflexivity].
      * intros HH. assert (E : x / y = -1) by lra. assert (x = - y) by (replace x with (x / y * y) by (field; lra); rewrite E; ring). rewrite E. split; [assumption|field].
      * intros; exfalso; lra. * intros; exfalso; lra.
    + rewrite (Rabs_left y) in C, HY by lra. pose proof (Dx x (- y) ltac:(lra) C) as B. exists (- y), (2 + (1 + x / - y) / 2). split; [lra|]. split; [lra|]. apply KEY; [lra|..].
      * intros; exfalso; lra.
      * intros HH. assert (E : x / - y = -1) by lra. assert (x = y) by (replace x with (x / - y * - y) by (field; lra); rewrite E; ring). rewrite E. split; lra.
      * intros _. split; [field; lra|ring].
      * intros HH. assert (E : x / - y = 1) by lra. assert (x = - y) by (replace x with (x / - y * - y) by (field; lra); rewrite E; ring). rewrite E. split; lra.
  - assert (C' : Rabs y <= Rabs x) by lra. assert (X0 : x <> 0) by (intros ->; rewrite Rabs_R0 in C; pose proof (Rabs_pos y); lra).
    destruct (Rlt_dec 0 x) as [P|P].
    + rewrite (Rabs_right x) in C, C', HX by lra. pose proof (Dx y x P C') as B. exists x, (3 + (1 + y / x) / 2). split; [lra|]. split; [lra|]. apply KEY; [lra|..].
      * intros; exfalso; lra. * intros; exfalso; lra.
      * intros HH. assert (E : y / x = -1) by lra. assert (y = - x) by (replace y with (y / x * x) by (field; lra); rewrite E; ring). rewrite E. split; lra.
      * intros _. split; [reflexivity|field; lra].
    + rewrite (Rabs_left x) in C, C', HX by lra. pose proof (Dx y (- x) ltac:(lra) C') as B. exists (- x), (1 + (1 - y / - x) / 2). split; [lra|]. split; [lra|]. apply KEY; [lra|..].
      * intros HH. assert (E : y / - x = 1) by lra. assert (y = - x) by (replace y with (y / - x * - x) by (field; lra); rewrite E; ring). rewrite E. split; lra.
      * intros _. split; [ring|field; lra].
      * intros HH. assert (E : y / - x = -1) by lra. assert (y = x) by (replace y with (y / - x * - x) by (field; lra); rewrite E; ring). rewrite E. split; lra.
      * intros; exfalso; lra.
Qed.
Lemma box_traces seg b sl : finds seg -> 0 <= vx (bspan b) -> 0 <= vy (bspan b) -> 0 <= vz (bspan b) ->
  exists n, zNURBS3DBox b sl = Some n /\ good_nurbs n /\ traces_between (zNURBS3DVec seg n) n (on_open_lid (bframe b) (bspan b)) (on_lid (bframe b) (bspan b)).
Proof.
  intros F HX HY HZ. destruct (box_net b sl) as (n & En & N0 & N1 & K0 & K1 & HW & HC). fold K4 in K0. fold K5 in K1. exists n. split; [exact En|].
  assert (G : good_nurbs n). { unfold good_nurbs. rewrite K0, K1, N0, N1. split; [apply good_line4|apply good_line5]. } split; [exact G|].
  set (dx := vx (bspan b)) in *. set (dy := vy (bspan b)) in *. set (dz := vz (bspan b)) in *. set (f := bframe b) in *.
  set (ra := fun i => nth i [0; 1; 1; 0] 0) in *. set (rz := fun i => nth i [1; 1; -1; -1] 0) in *.
  assert (HW' : forall i j, (i < nu_n0 n)%nat -> (j < nu_n1 n)%nat -> zNURBS3DWeight n i j = (fun _ => 1) i * (fun _ => 1) j) by (rewrite N0, N1; intros i j I J; rewrite HW by assumption; ring).
  assert (HC' : forall i j, (i < nu_n0 n)%nat -> (j < nu_n1 n)%nat -> zNURBS3DCP n i j = vadd (fpos f) (vadd (vadd (vscale (ra i * rgx j) (vscale (dx / 2) (bx (fatt f)))) (vscale (ra i * rgy j) (vscale (dy / 2) (by_ (fatt f))))) (vscale (rz i * 1) (vscale (dz / 2) (bz (fatt f)))))).
  { rewrite N0, N1. intros i j I J. rewrite HC by assumption. fold (ra i) (rz i). rewrite bxyz. apply vec3_ext; spec_unfold; field. }
  clear HC.
  assert (V : forall u v, in_params n u v -> exists su sv, at_seg (BS 1 K4 sl) u 1 su /\ at_seg (BS 1 K5 sl) v 1 sv /\ (su < 4)%nat /\ (sv < 5)%nat /\
    let A := lines K4 sl u su in let B := lines K5 sl v sv in zNURBS3DVec seg n u v = Some (Some (act f (V3 (A ra * B rgx * (dx / 2)) (A ra * B rgy * (dy / 2)) (A rz * (dz / 2)))))).
  { intros u v D. destruct (product_vec seg n u v (fun _ => 1) (fun _ => 1) _ _ _ _ ra rgx ra rgy rz (fun _ => 1) F G D HW' HC') as (su & sv & A0 & A1 & S0 & S1 & V). cbv zeta in V.
    rewrite !(su_lines n _ _ u su _ K0), !(sv_lines n _ _ v sv _ K1) in V. rewrite K0 in A0. rewrite K1 in A1. rewrite N0 in S0. rewrite N1 in S1. cbn [bs_order] in A0, A1.
    exists su, sv. split; [exact A0|]. split; [exact A1|]. split; [exact S0|]. split; [exact S1|]. cbv zeta. destruct (perim_on sl v sv A1 S1) as [B1 _].
    assert (A1' : lines K4 sl u su (fun _ => 1) = 1) by (destruct (line4 sl u) as [L1 L2]; destruct (seg4 sl u su A0 S0) as [[-> T]|[-> T]]; rewrite ?L1, ?L2; ring).
    rewrite A1', B1 in V. rewrite V by lra. rewrite bxyz. do 2 f_equal. apply vec3_ext; spec_unfold; field. }
  split.
  - intros u v D. destruct (V u v D) as (su & sv & A0 & A1 & S0 & S1 & EV). cbv zeta in EV. destruct (perim_on sl v sv A1 S1) as (_ & BX & BY).
    assert (AA : exists s e, 0 <= s <= 1 /\ lines K4 sl u su ra = s /\ lines K4 sl u su rz = e /\ Rabs e = 1).
    { destruct (line4 sl u) as [L1 L2]; destruct (seg4 sl u su A0 S0) as [[-> T]|[-> T]]; rewrite ?L1, ?L2; unfold ra, rz; cbn [nth]; eexists _, _; (split; [|split; [reflexivity|split; [reflexivity|]]]); try lra.
      - replace ((1 - u) * 1 + u * 1) with 1 by ring. apply Rabs_R1.
      - replace ((1 - (u - 1)) * -1 + (u - 1) * -1) with (- (1)) by ring. rewrite Rabs_Ropp. apply Rabs_R1. }
    destruct AA as (s & e & HS & ER & EZ & HE). rewrite ER, EZ in EV. eexists. split; [exact EV|]. eexists. cbn [vx vy vz]. fold dx dy dz.
    assert (BD : forall x d, Rabs x <= 1 -> 0 <= d -> Rabs (s * x * (d / 2)) <= d / 2). { intros x d Hx Hd. rewrite !Rabs_mult, (Rabs_right s), (Rabs_right (d / 2)) by lra. pose proof (Rabs_pos x). assert (s * Rabs x <= 1) by nra. nra. }
    split; [|split; [|split; [|reflexivity]]]; cbn [vx vy vz]; [apply BD; assumption|apply BD; assumption|rewrite Rabs_mult, HE, Rabs_right by lra; ring].
  - intros p (q & QX & QY & QZ & ->). fold dx in QX. fold dy in QY. fold dz in QZ. assert (PX : 0 < dx / 2) by (pose proof (Rabs_pos (vx q)); lra). assert (PY : 0 < dy / 2) by (pose proof (Rabs_pos (vy q)); lra).
    assert (UN : forall x d, 0 < d -> Rabs x < d -> Rabs (x / d) < 1). { intros x d Hd Hx. unfold Rdiv. rewrite Rabs_mult, (Rabs_right (/ d)) by (apply Rle_ge, Rlt_le, Rinv_0_lt_compat, Hd). apply Rmult_lt_reg_r with d; [exact Hd|]. rewrite Rmult_assoc, Rinv_l by lra. lra. }
    destruct (perim_all sl (vx q / (dx / 2)) (vy q / (dy / 2)) (UN _ _ PX QX) (UN _ _ PY QY)) as (s & v & HS & HV & TV).
    assert (ZZ : vz q = dz / 2 \/ vz q = - (dz / 2)) by (revert QZ; unfold Rabs; destruct (Rcase_abs (vz q)); intros; [right|left]; lra).
    assert (GO : forall u e, 0 <= u <= 2 -> vz q = e * (dz / 2) -> (forall k, at_seg (BS 1 K4 sl) u 1 k -> (k < 4)%nat -> lines K4 sl u k ra = s /\ lines K4 sl u k rz = e) -> exists u v, in_params n u v /\ zNURBS3DVec seg n u v = Some (Some (act f q))).
    { intros u e HU EZ TU. exists u, v. assert (D : in_params n u v). { unfold in_params. rewrite K0, K1, N0, N1. unfold in_domain, knot_of, K4, K5. cbn [bs_order bs_knot nth]. split; lra. } split; [exact D|].
      destruct (V u v D) as (su & sv & A0 & A1 & S0 & S1 & EV). cbv zeta in EV. rewrite EV. destruct (TU su A0 S0) as [-> ->]. destruct (TV sv A1 S1) as [-> ->]. do 3 f_equal. apply vec3_ext; cbn [vx vy vz]; [field; lra|field; lra|symmetry; exact EZ]. }
    destruct ZZ as [ZZ|ZZ].
    + apply (GO s 1); [lra|rewrite ZZ; ring|]. intros k A K. destruct (line4 sl s) as [L1 _]. destruct (seg4 sl s k A K) as [[-> T]|[-> T]]; [|exfalso; lra]. rewrite !L1. unfold ra, rz. cbn [nth]. split; ring.
    + apply (GO (2 - s) (-1)); [lra|rewrite ZZ; ring|]. intros k A K. destruct (line4 sl (2 - s)) as [_ L1]. destruct (seg4 sl (2 - s) k A K) as [[-> T]|[-> T]]; [exfalso; lra|]. rewrite !L1. unfold ra, rz. cbn [nth]. split; ring.
Qed.
(** no point of the walls strictly between the lids is reached *)
Lemma box_side seg b sl : finds seg -> isometry (fatt (bframe b)) -> 0 <= vx (bspan b) -> 0 <= vy (bspan b) -> 0 <= vz (bspan b) ->
  exists n, zNURBS3DBox b sl = Some n /\ good_nurbs n /\ forall u v q, in_params n u v -> Rabs (vz q) < vz (bspan b) / 2 -> zNURBS3DVec seg n u v <> Some (Some (act (bframe b) q)).
Proof.
  intros F IS HX HY HZ. destruct (box_traces seg b sl F HX HY HZ) as (n & E & G & T & _). exists n. split; [exact E|]. split; [exact G|]. intros u v q D HQ HV.
  destruct (T u v D) as (p & V & (q' & _ & _ & Z & EP)). rewrite HV in V. injection V as <-. apply (local_unique _ _ _ IS) in EP. subst q'. lra.
Qed.
Lemma cyl_traces seg c sl : finds seg -> 3 * zTOL <= norm (vsub (cc1 c) (cc0 c)) -> 0 < crad c ->
  exists u0 u1 n, radial_basis (vsub (cc1 c) (cc0 c)) u0 u1 /\ zNURBS3DCyl c sl = Some n /\ good_nurbs n /\
    traces_between (zNURBS3DVec seg n) n (fun p => in_open_cap (cc0 c) (crad c) (crad c) u0 u1 p \/ in_open_cap (cc1 c) (crad c) (crad c) u0 u1 p)
      (fun p => in_cap (cc0 c) (crad c) (crad c) u0 u1 p \/ in_cap (cc1 c) (crad c) (crad c) u0 u1 p).
Proof.
  intros F H R. destruct (cyl_conv c H) as (u0 & u1 & d & E & RB). exists u0, u1. unfold zNURBS3DCyl. rewrite E.
  destruct (ecyl_traces seg (EC (cc0 c) (cc1 c) (crad c) (crad c) u0 u1 d) sl F R R) as (n & En & G & T). exists n. split; [exact RB|]. split; [exact En|]. split; [exact G|exact T].
Qed.
