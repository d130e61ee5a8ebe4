(** Search of the closest point. *)
From Verif Require Import Base Spec SpecMesh SpecNurbs ModelNurbs FactsAlg FactsVec FactsElem FactsNurbs FactsNurbs2 FactsNurbs4 FactsNurbs8 FactsNurbs9 FactsNurbs10.
From Coq Require Import List Lra Lia.
Import ListNotations.
Open Scope R_scope.

Lemma limit_in x lo hi : lo <= hi -> lo <= limit x lo hi <= hi.
Proof. intros H. unfold limit. destruct (Rltb_reflect hi x); [lra|]. destruct (Rltb_reflect x lo); lra. Qed.
Lemma knots_se o n ks sl : good_knots o n ks -> zBSplineParamKnotS (BS o ks sl) = knot_of ks o /\ zBSplineParamKnotE (BS o ks sl) = knot_of ks n.
Proof. intros (_ & L & _). unfold zBSplineParamKnotS, zBSplineParamKnotE, bs_at, knot_of. cbn [bs_order bs_knot]. rewrite L. replace (n + o + 1 - o - 1)%nat with n by lia. auto. Qed.
Lemma step_ok seg n p u v q u' v' : good_nurbs n -> closestStep seg n p u v = Some (q, u', v') -> zNURBS3DVec seg n u v = Some (Some q) /\ in_params n u' v'.
Proof.
  intros [G0 G1] E. unfold closestStep in E. destruct (zNURBS3DVecTSpace seg n u v) as [[[[[nn nl] du] dv]|]|] eqn:T; try discriminate. destruct (Reqb _ _); [discriminate|]. injection E as <- <- <-.
  split; [exact (ts_point _ _ _ _ _ _ _ _ T)|]. destruct (nu_0 n) as [o0 k0 s0] eqn:E0. destruct (nu_1 n) as [o1 k1 s1] eqn:E1. unfold in_params. rewrite E0, E1. cbn [bs_order bs_knot] in *.
  destruct (knots_se o0 _ k0 s0 G0) as [-> ->]. destruct (knots_se o1 _ k1 s1 G1) as [-> ->]. destruct G0 as (_ & _ & _ & P0). destruct G1 as (_ & _ & _ & P1). split; apply limit_in; lra.
Qed.
Lemma loop_ok seg n p iter : good_nurbs n -> forall nn u v prev nn' u' v', in_params n u v -> closestLoop seg iter n p nn u v prev = Some (Some nn', u', v') ->
  (forall q, nn = Some q -> exists u0 v0, in_params n u0 v0 /\ zNURBS3DVec seg n u0 v0 = Some (Some q)) ->
  (exists u0 v0, in_params n u0 v0 /\ zNURBS3DVec seg n u0 v0 = Some (Some nn')) /\ in_params n u' v'.
Proof.
  intros G. induction iter as [|iter IH]; intros nn u v prev nn' u' v' D E H.
  - cbn in E. injection E as -> -> ->. split; [apply H; reflexivity|exact D].
  - cbn [closestLoop] in E. destruct (closestStep seg n p u v) as [[[q x] y]|] eqn:S; [|discriminate]. destruct (step_ok seg n p u v q x y G S) as [V DX].
    destruct (_ || _) in E.
    + injection E as <- <- <-. split; [exists u, v; auto|exact DX].
    + apply (IH (Some q) x y _ nn' u' v' DX E). intros q' Q. injection Q as <-. exists u, v. auto.
Qed.
Lemma nurbs_closest seg iter n p d nn u v : good_nurbs n -> zNURBS3DClosest seg iter n p = Some (d, nn, u, v) ->
  d = dist p nn /\ (exists u0 v0, in_params n u0 v0 /\ zNURBS3DVec seg n u0 v0 = Some (Some nn)) /\ in_params n u v.
Proof.
  intros G E. unfold zNURBS3DClosest in E. destruct (closestLoop _ _ _ _ _ _ _ _) as [[[[nn'|] u'] v']|] eqn:L; try discriminate. injection E as <- <- <- <-.
  split; [zvg; reflexivity|]. apply (loop_ok seg n p iter G) in L; [exact L| |intros q Q; discriminate].
  destruct G as [G0 G1]. destruct (nu_0 n) as [o0 k0 s0] eqn:E0. destruct (nu_1 n) as [o1 k1 s1] eqn:E1. unfold in_params. rewrite E0, E1. cbn [bs_order bs_knot] in *.
  destruct (knots_se o0 _ k0 s0 G0) as [-> ->]. destruct (knots_se o1 _ k1 s1 G1) as [-> ->]. destruct G0 as (_ & _ & _ & P0). destruct G1 as (_ & _ & _ & P1). split; unfold in_domain; lra.
Qed.

(** * A surface whose middle is no nearest point: a strip along a parabola *)
Definition bowl : nurbs := NU (BS 2 [0; 0; 0; 1; 1; 1] 20) (BS 1 [0; 0; 1; 1] 20) 3 2 (fun i j => CPC (V3 (nth i [-1; 0; 1] 0) (INR j) (nth i [10; -10; 10] 0)) 1).
Lemma bowl_good : good_nurbs bowl /\ weights_from 1 bowl.
Proof.
  split; [|intros i j _ _; cbn; lra]. split; unfold good_knots, knot_of, bowl; cbn [nu_0 nu_1 nu_n0 nu_n1 bs_order bs_knot length]; (split; [lia|]); (split; [lia|]); (split; [|cbn [nth]; lra]); intros i j H.
  - do 6 (destruct j as [|j]; [do 6 (destruct i as [|i]; [first [exfalso; lia|cbn [nth]; lra]|]); exfalso; lia|]). exfalso; lia.
  - do 4 (destruct j as [|j]; [do 4 (destruct i as [|i]; [first [exfalso; lia|cbn [nth]; lra]|]); exfalso; lia|]). exfalso; lia.
Qed.
Lemma bowl_seg seg u v : finds seg -> 0 <= u <= 1 -> 0 <= v <= 1 -> in_params bowl u v /\ zBSplineParamSeg seg (nu_0 bowl) u = 2%nat /\ zBSplineParamSeg seg (nu_1 bowl) v = 1%nat.
Proof.
  intros F U V. assert (D : in_params bowl u v) by (unfold in_params, in_domain, knot_of, bowl; cbn [nu_0 nu_1 nu_n0 nu_n1 bs_order bs_knot nth]; lra). split; [exact D|].
  destruct (found seg bowl u v F (proj1 bowl_good) D) as (_ & A0 & A1 & S0 & S1). pose proof (as_ord _ _ _ _ A0). pose proof (as_ord _ _ _ _ A1). cbn [bowl nu_0 nu_1 nu_n0 nu_n1 bs_order] in *. lia.
Qed.
Ltac bs := repeat match goal with |- context [zBSplineParamBasis (BS ?o ?ks ?sl) ?t ?i ?r ?k] => let x := fresh "b" in let E := fresh "E" in remember (zBSplineParamBasis (BS o ks sl) t i r k) as x eqn:E; revert E; basisc; intros E end.
Lemma bowl_vec seg u v : finds seg -> 0 <= u <= 1 -> 0 <= v <= 1 -> zNURBS3DVec seg bowl u v = Some (Some (V3 (2 * u - 1) v (10 * (2 * u - 1) * (2 * u - 1)))).
Proof.
  intros F U V. destruct (bowl_seg seg u v F U V) as (D & S0 & S1). destruct (found seg bowl u v F (proj1 bowl_good) D) as (I & _). rewrite vec_eval by exact I. rewrite S0, S1.
  assert (B0 : Bu bowl u 2 0 = (1 - u) * (1 - u) /\ Bu bowl u 2 1 = 2 * u * (1 - u) /\ Bu bowl u 2 2 = u * u) by (unfold Bu, bowl; cbn [nu_0 bs_order]; basisc; repeat split; field).
  assert (B1 : Bv bowl v 1 0 = 1 - v /\ Bv bowl v 1 1 = v) by (unfold Bv, bowl; cbn [nu_1 bs_order]; basisc; repeat split; field).
  destruct B0 as (B00 & B01 & B02). destruct B1 as (B10 & B11).
  assert (DE : den bowl u v 2 1 = 1). { unfold den, Iu, Iv, active. cbn [bowl nu_0 nu_1 bs_order Nat.sub seq rsum fold_right]. fold bowl. rewrite B00, B01, B02, B10, B11. unfold zNURBS3DWeight. cbn [bowl nu_net nc_w]. ring. }
  assert (NU_ : num bowl u v 2 1 = V3 (2 * u - 1) v (10 * (2 * u - 1) * (2 * u - 1))).
  { unfold num, Iu, Iv, active. cbn [bowl nu_0 nu_1 bs_order Nat.sub seq vsum fold_right]. fold bowl. rewrite B00, B01, B02, B10, B11. unfold zNURBS3DWeight, zNURBS3DCP. cbn [bowl nu_net nc_w nc_cp nth INR]. apply vec3_ext; cbn; ring. }
  rewrite DE, NU_. unfold zIsTiny, zIsTol. rewrite Rabs_R1. pose proof zTOL_small. destruct (Rltb_reflect 1 zTOL); [lra|]. do 2 f_equal. apply vec3_ext; cbn; field.
Qed.
Lemma norm_x x : 0 <= x -> norm (V3 x 0 0) = x.
Proof. intros H. unfold norm, dot. cbn [vx vy vz]. replace (x * x + 0 * 0 + 0 * 0) with (x * x) by ring. apply sqrt_square, H. Qed.
Lemma norm_y x : 0 <= x -> norm (V3 0 x 0) = x.
Proof. intros H. unfold norm, dot. cbn [vx vy vz]. replace (0 * 0 + x * x + 0 * 0) with (x * x) by ring. apply sqrt_square, H. Qed.
Lemma norm_z x : 0 <= x -> norm (V3 0 0 x) = x.
Proof. intros H. unfold norm, dot. cbn [vx vy vz]. replace (0 * 0 + 0 * 0 + x * x) with (x * x) by ring. apply sqrt_square, H. Qed.
Lemma bowl_ts seg : finds seg -> exists nn, zNURBS3DVecTSpace seg bowl (1 / 2) (1 / 2) = Some (Some (V3 0 (1 / 2) 0, nn, V3 1 0 0, V3 0 1 0)).
Proof.
  intros F. destruct (bowl_seg seg (1 / 2) (1 / 2) F ltac:(lra) ltac:(lra)) as (D & S0 & S1). destruct (found seg bowl (1 / 2) (1 / 2) F (proj1 bowl_good) D) as (I & _).
  pose proof (bowl_vec seg (1 / 2) (1 / 2) F ltac:(lra) ltac:(lra)) as V. rewrite vec_eval in V by exact I. rewrite ts_eval by exact I. rewrite S0, S1 in *. assert (SI : forall (A : Type) (a b : A), Some a = Some b -> a = b) by congruence. apply SI in V. destruct (zIsTiny _); [discriminate|]. apply SI in V. cbv zeta. rewrite V.
  assert (B0 : Bu bowl (1 / 2) 2 0 = 1 / 4 /\ Bu bowl (1 / 2) 2 1 = 1 / 2 /\ Bu bowl (1 / 2) 2 2 = 1 / 4) by (unfold Bu, bowl; cbn [nu_0 bs_order]; basisc; repeat split; field).
  assert (B1 : Bv bowl (1 / 2) 1 0 = 1 / 2 /\ Bv bowl (1 / 2) 1 1 = 1 / 2) by (unfold Bv, bowl; cbn [nu_1 bs_order]; basisc; repeat split; field).
  assert (D0 : Du bowl (1 / 2) 2 0 = - 1 /\ Du bowl (1 / 2) 2 1 = 0 /\ Du bowl (1 / 2) 2 2 = 1) by (unfold Du, zBSplineParamBasisDiff1, bowl; cbn [nu_0 bs_order]; basisc; cbn [INR]; repeat split; field).
  assert (D1 : Dv bowl (1 / 2) 1 0 = - 1 /\ Dv bowl (1 / 2) 1 1 = 1) by (unfold Dv, zBSplineParamBasisDiff1, bowl; cbn [nu_1 bs_order]; basisc; cbn [INR]; repeat split; field).
  destruct B0 as (B00 & B01 & B02). destruct B1 as (B10 & B11). destruct D0 as (D00 & D01 & D02). destruct D1 as (D10 & D11).
  assert (EU : denu bowl (1 / 2) (1 / 2) 2 1 = 0). { unfold denu, wv, Iu, Iv, active. cbn [bowl nu_0 nu_1 bs_order Nat.sub seq rsum fold_right]. fold bowl. rewrite D00, D01, D02, B10, B11. unfold zNURBS3DWeight. cbn [bowl nu_net nc_w]. ring. }
  assert (EV : denv bowl (1 / 2) (1 / 2) 2 1 = 0). { unfold denv, dwv, Iu, Iv, active. cbn [bowl nu_0 nu_1 bs_order Nat.sub seq rsum fold_right]. fold bowl. rewrite B00, B01, B02, D10, D11. unfold zNURBS3DWeight. cbn [bowl nu_net nc_w]. ring. }
  assert (NU0 : numu bowl (1 / 2) (1 / 2) 2 1 = V3 2 0 0). { unfold numu, Pv, Iu, Iv, active. cbn [bowl nu_0 nu_1 bs_order Nat.sub seq vsum fold_right]. fold bowl. rewrite D00, D01, D02, B10, B11. unfold zNURBS3DWeight, zNURBS3DCP. cbn [bowl nu_net nc_w nc_cp nth INR]. apply vec3_ext; cbn; field. }
  assert (NV0 : numv bowl (1 / 2) (1 / 2) 2 1 = V3 0 1 0). { unfold numv, Dpv, Iu, Iv, active. cbn [bowl nu_0 nu_1 bs_order Nat.sub seq vsum fold_right]. fold bowl. rewrite B00, B01, B02, D10, D11. unfold zNURBS3DWeight, zNURBS3DCP. cbn [bowl nu_net nc_w nc_cp nth INR]. apply vec3_ext; cbn; field. }
  rewrite EU, EV, NU0, NV0. replace (vsub (V3 2 0 0) (vscale 0 _)) with (V3 2 0 0) by (apply vec3_ext; spec_unfold; ring). replace (vsub (V3 0 1 0) (vscale 0 _)) with (V3 0 1 0) by (apply vec3_ext; spec_unfold; ring).
  pose proof zTOL_pos. pose proof zTOL_small. assert (T1 : ~ negligible (V3 2 0 0)) by (apply long_not_negligible; rewrite norm_x by lra; lra). assert (T2 : ~ negligible (V3 0 1 0)) by (apply long_not_negligible; rewrite norm_y by lra; lra).
  rewrite (proj2 (zVec3DIsTiny_false _) T1), (proj2 (zVec3DIsTiny_false _) T2), (normalizeDRC_ok (V3 2 0 0)), (normalizeDRC_ok (V3 0 1 0)) by assumption. rewrite norm_x, norm_y by lra. eexists. do 2 f_equal. f_equal; [f_equal; [f_equal|]|]; apply vec3_ext; cbn; field.
Qed.
Lemma bowl_closest seg iter : finds seg -> zNURBS3DClosest seg (S iter) bowl (V3 0 (1 / 2) 10) = Some (10, V3 0 (1 / 2) 0, 1 / 2, 1 / 2).
Proof.
  intros F. destruct (bowl_ts seg F) as [nn T]. unfold zNURBS3DClosest.
  replace (1 / 2 * (zBSplineParamKnotS (nu_0 bowl) + zBSplineParamKnotE (nu_0 bowl))) with (1 / 2) by (cbn; field). replace (1 / 2 * (zBSplineParamKnotS (nu_1 bowl) + zBSplineParamKnotE (nu_1 bowl))) with (1 / 2) by (cbn; field).
  cbn [closestLoop]. unfold closestStep. rewrite T. cbv zeta.
  replace (zVec3DInnerProd (V3 1 0 0) (V3 1 0 0)) with 1 by (unfold zVec3DInnerProd, zVec3DSub; cbn [vx vy vz]; ring). replace (zVec3DInnerProd (V3 0 1 0) (V3 0 1 0)) with 1 by (unfold zVec3DInnerProd, zVec3DSub; cbn [vx vy vz]; ring). replace (zVec3DInnerProd (V3 1 0 0) (V3 0 1 0)) with 0 by (unfold zVec3DInnerProd, zVec3DSub; cbn [vx vy vz]; ring).
  replace (zVec3DInnerProd (V3 1 0 0) (zVec3DSub (V3 0 (1 / 2) 10) (V3 0 (1 / 2) 0))) with 0 by (unfold zVec3DInnerProd, zVec3DSub; cbn [vx vy vz]; ring). replace (zVec3DInnerProd (V3 0 1 0) (zVec3DSub (V3 0 (1 / 2) 10) (V3 0 (1 / 2) 0))) with 0 by (unfold zVec3DInnerProd, zVec3DSub; cbn [vx vy vz]; ring).
  destruct (Reqb_reflect (1 * 1 - 0 * 0) 0); [lra|]. replace (zBSplineParamKnotS (nu_0 bowl)) with 0 by reflexivity. replace (zBSplineParamKnotE (nu_0 bowl)) with 1 by reflexivity. replace (zBSplineParamKnotS (nu_1 bowl)) with 0 by reflexivity. replace (zBSplineParamKnotE (nu_1 bowl)) with 1 by reflexivity.
  set (ev := zVec3DNorm _). replace (1 / 2 + ((1 + ev) * 0 - 0 * 0) * (1 / 10 / (1 * 1 - 0 * 0))) with (1 / 2) by (field; lra).
  assert (LM : limit (1 / 2) 0 1 = 1 / 2) by (unfold limit; destruct (Rltb_reflect 1 (1 / 2)); [lra|]; destruct (Rltb_reflect (1 / 2) 0); lra). rewrite LM.
  assert (TZ : zIsTiny (1 / 2 - 1 / 2) = true) by (unfold zIsTiny, zIsTol; replace (1 / 2 - 1 / 2) with 0 by ring; rewrite Rabs_R0; pose proof zTOL_pos; destruct (Rltb_reflect 0 zTOL); [reflexivity|lra]). rewrite TZ. cbn [andb orb].
  f_equal. f_equal. f_equal. f_equal. assert (DI : zVec3DDist (V3 0 (1 / 2) 10) (V3 0 (1 / 2) 0) = dist (V3 0 (1 / 2) 10) (V3 0 (1 / 2) 0)) by (zvg; reflexivity). rewrite DI. unfold dist. replace (vsub (V3 0 (1 / 2) 10) (V3 0 (1 / 2) 0)) with (V3 0 0 10) by (apply vec3_ext; cbn; ring). apply norm_z. lra.
Qed.
Lemma nurbs_closest_refuted seg iter : finds seg -> exists n p d nn u v u' v' q, good_nurbs n /\ weights_from 1 n /\ zNURBS3DClosest seg (S iter) n p = Some (d, nn, u, v) /\ in_params n u' v' /\ zNURBS3DVec seg n u' v' = Some (Some q) /\ 10 * dist p q = d.
Proof.
  intros F. exists bowl, (V3 0 (1 / 2) 10), 10, (V3 0 (1 / 2) 0), (1 / 2), (1 / 2), 1, (1 / 2), (V3 1 (1 / 2) 10). split; [apply bowl_good|]. split; [apply bowl_good|]. split; [apply bowl_closest, F|].
  destruct (bowl_seg seg 1 (1 / 2) F ltac:(lra) ltac:(lra)) as (D & _). split; [exact D|]. split; [rewrite bowl_vec by (assumption || lra); do 2 f_equal; apply vec3_ext; cbn; ring|].
  unfold dist. replace (vsub (V3 0 (1 / 2) 10) (V3 1 (1 / 2) 10)) with (V3 (- (1)) 0 0) by (apply vec3_ext; cbn; ring). unfold norm, dot. cbn [vx vy vz]. replace (- (1) * - (1) + 0 * 0 + 0 * 0) with (1 * 1) by ring. rewrite sqrt_square by lra. ring.
Qed.
