(** Spheres, tori, cones, elliptic cylinders and boxes as rational surfaces. *)
From Verif Require Import Base Spec SpecMesh SpecNurbs ModelNurbs FactsAlg FactsVec FactsElem FactsObb FactsMulti2 FactsNurbs FactsNurbs2 FactsNurbs3 FactsNurbs4 FactsNurbs5.
From Coq Require Import List Lra Lia.
Import ListNotations.
Open Scope R_scope.

(** * Spheres *)
Lemma sphere_traces seg s sl : finds seg -> 0 < srad s -> exists n, zNURBS3DSphere s sl = Some n /\ good_nurbs n /\ traces (zNURBS3DVec seg n) n (fun p => dist (scen s) p = srad s).
Proof.
  intros F RP. assert (AR : 0 < Rabs (srad s)) by (rewrite Rabs_right; lra). destruct (ellips_traces seg (zSphere3DToEllips3D s) sl F AR AR AR) as (n & E & G & T1 & T2).
  exists n. split; [exact E|]. split; [exact G|].
  assert (IFF : forall p, on_ellipsoid (elf (zSphere3DToEllips3D s)) (elrad (zSphere3DToEllips3D s)) p <-> dist (scen s) p = srad s).
  { intros p. unfold on_ellipsoid, zSphere3DToEllips3D, zEllips3DCreate. cbn [elf elrad vx vy vz]. rewrite Rabs_right by lra. set (r := srad s) in *. set (c := scen s).
    assert (AC : forall q, act (F3 c (of_b (V3 1 0 0) (V3 0 1 0) (V3 0 0 1))) q = vadd c q) by (intros q; unfold act, of_b; apply vec3_ext; spec_unfold; cbn; ring).
    split.
    - intros (q & Q & ->). rewrite AC. unfold dist. replace (vsub c (vadd c q)) with (vneg q) by (apply vec3_ext; spec_unfold; ring).
      assert (E2 : dot q q = r * r). { replace (dot q q) with (r * r * (vx q / r * (vx q / r) + vy q / r * (vy q / r) + vz q / r * (vz q / r))) by (spec_unfold; field; lra). rewrite Q. ring. }
      unfold norm. replace (dot (vneg q) (vneg q)) with (r * r) by (rewrite <- E2; spec_unfold; ring). apply sqrt_square. lra.
    - intros D. exists (vsub p c). split; [|rewrite AC; apply vec3_ext; spec_unfold; ring].
      assert (E2 : dot (vsub c p) (vsub c p) = r * r) by (rewrite <- norm_sqr; unfold dist in D; rewrite D; ring).
      apply Rmult_eq_reg_r with (r * r); [|nra]. transitivity (dot (vsub c p) (vsub c p)); [spec_unfold; field; lra|rewrite E2; ring]. }
  split.
  - intros u v D. destruct (T1 u v D) as (p & V & H). exists p. split; [exact V|]. apply IFF, H.
  - intros p H. apply T2, IFF, H.
Qed.

(** * Directions in a plane *)
Lemma plane_dir ax ay az w : isometry (cols3 ax ay az) -> dot az w = 0 -> exists c d, c * c + d * d = 1 /\ w = vscale (norm w) (vadd (vscale c ax) (vscale d ay)).
Proof.
  intros I H. destruct (local_coords (F3 v3zero (cols3 ax ay az)) w I) as (q & Q). unfold act in Q. cbn [fpos fatt] in Q.
  assert (WQ : w = mvec (cols3 ax ay az) q) by (rewrite Q; apply vec3_ext; spec_unfold; ring). clear Q.
  assert (DQ : dot w w = dot q q) by (rewrite WQ; apply iso_dot, I).
  assert (Z : vz q = 0). { rewrite WQ in H. replace az with (mvec (cols3 ax ay az) (V3 0 0 1)) in H at 1 by (apply vec3_ext; spec_unfold; ring). rewrite iso_dot in H by exact I. spec_unfold. lra. }
  assert (N : norm w * norm w = vx q * vx q + vy q * vy q) by (rewrite norm_sqr, DQ; spec_unfold; rewrite Z; ring).
  assert (W2 : w = vadd (vscale (vx q) ax) (vscale (vy q) ay)) by (rewrite WQ; apply vec3_ext; spec_unfold; rewrite Z; ring).
  destruct (Req_dec (norm w) 0) as [E|E].
  - exists 1, 0. split; [ring|]. rewrite E. apply norm_zero_iff in E. rewrite E. apply vec3_ext; spec_unfold; ring.
  - exists (vx q / norm w), (vy q / norm w). split.
    + transitivity ((vx q * vx q + vy q * vy q) / (norm w * norm w)); [field; exact E|]. rewrite <- N. field. exact E.
    + rewrite W2 at 1. apply vec3_ext; spec_unfold; field; exact E.
Qed.
Lemma dir_norm ax ay az k c d : isometry (cols3 ax ay az) -> c * c + d * d = 1 -> 0 <= k -> norm (vscale k (vadd (vscale c ax) (vscale d ay))) = k /\ dot az (vscale k (vadd (vscale c ax) (vscale d ay))) = 0.
Proof.
  intros I E K. assert (X : vscale k (vadd (vscale c ax) (vscale d ay)) = mvec (cols3 ax ay az) (V3 (k * c) (k * d) 0)) by (apply vec3_ext; spec_unfold; ring). rewrite X. split.
  - unfold norm. rewrite iso_dot by exact I. replace (dot (V3 (k * c) (k * d) 0) (V3 (k * c) (k * d) 0)) with (k * k) by (transitivity (k * k * (c * c + d * d)); [rewrite E; ring|spec_unfold; ring]). apply sqrt_square, K.
  - replace az with (mvec (cols3 ax ay az) (V3 0 0 1)) at 1 by (apply vec3_ext; spec_unfold; ring). rewrite iso_dot by exact I. spec_unfold. ring.
Qed.

(** * Tori *)
Lemma torus_traces seg c ax ay az rr r sl : finds seg -> isometry (cols3 ax ay az) -> 0 <= r <= rr ->
  exists n, zNURBS3DTorus c ax ay az rr r sl = Some n /\ good_nurbs n /\ traces (zNURBS3DVec seg n) n (on_torus c az rr r).
Proof.
  intros F IS RR. destruct (torus_net c ax ay az rr r sl) as (n & E & N0 & N1 & K0 & K1 & HW & HC). exists n. split; [exact E|].
  assert (G : good_nurbs n). { unfold good_nurbs. rewrite K0, K1, N0, N1. split; apply good_circle. }
  split; [exact G|]. 
  assert (HW' : forall i j, (i < nu_n0 n)%nat -> (j < nu_n1 n)%nat -> zNURBS3DWeight n i j = arcWeight i * arcWeight j) by (rewrite N0, N1; exact HW).
  assert (HC' : forall i j, (i < nu_n0 n)%nat -> (j < nu_n1 n)%nat -> zNURBS3DCP n i j = vadd c (vadd (vadd (vscale (sqx i * (rr * 1 + r * sqx j)) ax) (vscale (sqy i * (rr * 1 + r * sqx j)) ay)) (vscale (1 * sqy j) (vscale r az)))).
  { rewrite N0, N1. intros i j I J. rewrite HC by assumption. apply vec3_ext; spec_unfold; ring. }
  clear HC.
  assert (V : forall u v, in_params n u v -> exists su sv, at_seg (BS 2 ellipsKnots sl) u 2 su /\ at_seg (BS 2 ellipsKnots sl) v 2 sv /\ (su < 9)%nat /\ (sv < 9)%nat /\
    let A := arcs ellipsKnots sl u su in let B := arcs ellipsKnots sl v sv in
    zNURBS3DVec seg n u v = Some (Some (vadd (vadd c (vscale (rr + r * (B sqx / B (fun _ => 1%R))) (vadd (vscale (A sqx / A (fun _ => 1%R)) ax) (vscale (A sqy / A (fun _ => 1%R)) ay)))) (vscale (r * (B sqy / B (fun _ => 1%R))) az)))).
  { intros u v D. destruct (product_vec seg n u v arcWeight arcWeight _ _ _ _ sqx (fun j => rr * 1 + r * sqx j) sqy (fun j => rr * 1 + r * sqx j) (fun _ => 1) sqy F G D HW' HC') as (su & sv & A0 & A1 & S0 & S1 & V). cbv zeta in V.
    rewrite !(su_arcs n _ _ u su _ K0), !(sv_arcs n _ _ v sv _ K1) in V. rewrite K0 in A0. rewrite K1 in A1. rewrite N0 in S0. rewrite N1 in S1. cbn [bs_order] in A0, A1.
    exists su, sv. split; [exact A0|]. split; [exact A1|]. split; [exact S0|]. split; [exact S1|]. cbv zeta.
    destruct (circle_on sl u su A0 S0) as [U1 U2]. destruct (circle_on sl v sv A1 S1) as [V1 V2]. rewrite (V U1 V1). rewrite (arcs_plus _ _ _ _ (fun j => rr * 1) (fun j => r * sqx j)), !arcs_scale. do 2 f_equal. apply vec3_ext; spec_unfold; field; lra. }
  split.
  - intros u v D. destruct (V u v D) as (su & sv & A0 & A1 & S0 & S1 & EV). cbv zeta in EV. eexists. split; [exact EV|].
    destruct (circle_on sl u su A0 S0) as [U1 U2]. destruct (circle_on sl v sv A1 S1) as [V1 V2].
    set (Wu := arcs ellipsKnots sl u su (fun _ => 1)) in *. set (Wv := arcs ellipsKnots sl v sv (fun _ => 1)) in *. set (cu := arcs ellipsKnots sl u su sqx) in *. set (du := arcs ellipsKnots sl u su sqy) in *.
    set (cv := arcs ellipsKnots sl v sv sqx) in *. set (dv := arcs ellipsKnots sl v sv sqy) in *. clearbody Wu Wv cu du cv dv.
    assert (EU : cu / Wu * (cu / Wu) + du / Wu * (du / Wu) = 1) by (transitivity ((cu * cu + du * du) / (Wu * Wu)); [field; lra|rewrite U2; field; lra]).
    assert (EV2 : cv / Wv * (cv / Wv) + dv / Wv * (dv / Wv) = 1) by (transitivity ((cv * cv + dv * dv) / (Wv * Wv)); [field; lra|rewrite V2; field; lra]).
    assert (P : 0 <= rr + r * (cv / Wv)) by (assert (-1 <= cv / Wv) by nra; nra).
    destruct (dir_norm ax ay az (rr + r * (cv / Wv)) (cu / Wu) (du / Wu) IS EU P) as [NW DW].
    eexists _, _. split; [exact DW|]. split; [|reflexivity]. rewrite NW. transitivity (r * r * (cv / Wv * (cv / Wv) + dv / Wv * (dv / Wv))); [ring|rewrite EV2; ring].
  - intros p (h & w & HD & HE & ->). destruct (plane_dir ax ay az w IS HD) as (cu & du & CU & EW).
    assert (CV : exists cv dv, cv * cv + dv * dv = 1 /\ norm w = rr + r * cv /\ h = r * dv).
    { destruct (Req_dec r 0) as [Z|Z]; [exists 1, 0; rewrite Z in HE |- *; assert (norm w - rr = 0) by nra; assert (h = 0) by nra; repeat split; lra|]. exists ((norm w - rr) / r), (h / r). repeat split; try (field; exact Z).
      transitivity (((norm w - rr) * (norm w - rr) + h * h) / (r * r)); [field; exact Z|]. rewrite HE. field. exact Z. }
    destruct CV as (cv & dv & CV & EN & EH). destruct (circle_all sl cu du CU) as (u & HU & TU). destruct (circle_all sl cv dv CV) as (v & HV & TV). exists u, v.
    assert (D : in_params n u v). { unfold in_params. rewrite K0, K1, N0, N1. unfold in_domain, knot_of, ellipsKnots. cbn [bs_order bs_knot nth]. split; lra. }
    split; [exact D|]. destruct (V u v D) as (su & sv & A0 & A1 & S0 & S1 & EV). cbv zeta in EV. rewrite EV. do 2 f_equal. destruct (TU su A0 S0) as [T1 T2]. destruct (TV sv A1 S1) as [T3 T4].
    destruct (circle_on sl u su A0 S0) as [U1 _]. destruct (circle_on sl v sv A1 S1) as [V1 _]. rewrite T1, T2, T3, T4, EH. rewrite EW at 1. rewrite EN.
    apply vec3_ext; spec_unfold; field; lra.
Qed.
