(** The point of a portal nearest to the origin. *)
From Verif Require Import FactsElem FactsGJK4 FactsGJK5 FactsDepth5.
From Verif Require Export SpecMPR ModelMPR FactsGJK6.
From Coq Require Import List Lra Lia Psatz.
Import ListNotations.
Open Scope R_scope.

Ltac mring := unfold tri_least, tri_nearly, comb3, comb2, dot, vsub, vadd, vscale, vneg, v3zero; cbn [vx vy vz]; ring.
Lemma dot_self_nonneg v : 0 <= dot v v.
Proof. unfold dot. pose proof (Rle_0_sqr (vx v)). pose proof (Rle_0_sqr (vy v)). pose proof (Rle_0_sqr (vz v)). unfold Rsqr in *. lra. Qed.
Lemma quad1 A t r T : 0 <= A -> 0 <= r -> t < T -> 0 <= T -> 0 <= 2 * r * (- t * A) + r * r * A + T * T * A.
Proof.
  intros HA Hr Ht HT. replace (2 * r * (- t * A) + r * r * A + T * T * A) with ((r * r - 2 * r * t + T * T) * A) by ring. apply Rmult_le_pos; [|exact HA]. pose proof (Rle_0_sqr r) as R2. pose proof (Rle_0_sqr T) as T2. pose proof (Rle_0_sqr (r - t)) as RT. unfold Rsqr in *. destruct (Rle_or_lt t 0) as [L|L].
  - assert (0 <= r * (- t)) by (apply Rmult_le_pos; lra). lra.
  - assert (t * t <= T * T) by (apply Rmult_le_compat; lra). lra.
Qed.
Lemma seg_dist p0 p1 e q : mprCalcSegDist p0 p1 = Some (e, q) -> e = dot q q /\ (exists t, 0 <= t <= 1 + zTOL /\ q = vadd p0 (vscale t (vsub p1 p0))) /\
  forall r, 0 <= r <= 1 -> let x := vadd p0 (vscale r (vsub p1 p0)) in dot q q <= dot x x + zTOL * zTOL * dot (vsub p1 p0) (vsub p1 p0).
Proof.
  unfold mprCalcSegDist, zVec3DSqrNorm. zvg. set (d := vsub p1 p0). pose proof zTOL_pos as TP. destruct (Reqb_reflect (dot d d) 0) as [|N]; [discriminate|].
  assert (DP : 0 < dot d d) by (pose proof (dot_self_nonneg d); lra). set (t := - dot p0 d / dot d d). assert (TD : dot p0 d = - t * dot d d) by (unfold t; field; lra).
  assert (X : forall r, dot (vadd p0 (vscale r d)) (vadd p0 (vscale r d)) = dot p0 p0 + 2 * r * (- t * dot d d) + r * r * dot d d) by (intros r; rewrite <- TD; clear; mring).
  destruct (Rltb_reflect t zTOL) as [L|L].
  - intros K. injection K as <- <-. split; [reflexivity|]. split; [exists 0; split; [lra|]; apply vec3_ext; mring|]. intros r [R0 R1]. cbv zeta. rewrite X. pose proof (quad1 (dot d d) t r zTOL ltac:(lra) R0 L ltac:(lra)). lra.
  - destruct (Rltb_reflect (zTOL + 1) t) as [L2|L2]; intros K; injection K as <- <-; (split; [reflexivity|]).
    + split; [exists 1; split; [lra|]; subst d; apply vec3_ext; mring|]. intros r [R0 R1]. cbv zeta. rewrite X. replace p1 with (vadd p0 (vscale 1 d)) by (subst d; apply vec3_ext; mring). rewrite X.
      assert (0 <= (1 - r) * (2 * t - 1 - r) * dot d d) by (apply Rmult_le_pos; [apply Rmult_le_pos; lra|lra]). assert (0 <= zTOL * zTOL * dot d d) by (repeat apply Rmult_le_pos; lra). lra.
    + split; [exists t; split; [lra|reflexivity]|]. intros r [R0 R1]. cbv zeta. rewrite !X. assert (0 <= (r - t) * (r - t) * dot d d) by (apply Rmult_le_pos; [apply Rle_0_sqr|lra]). assert (0 <= zTOL * zTOL * dot d d) by (repeat apply Rmult_le_pos; lra). lra.
Qed.
(** leaving the unit triangle: a point of its border on the way, or the end is in it *)
Lemma leave s t a b : 0 <= a -> 0 <= b -> a + b <= 1 -> (0 <= s /\ 0 <= t /\ s + t <= 1) \/
  exists l, 0 <= l <= 1 /\ let a' := a + l * (s - a) in let b' := b + l * (t - b) in 0 <= a' /\ 0 <= b' /\ a' + b' <= 1 /\ (a' = 0 \/ b' = 0 \/ a' + b' = 1).
Proof.
  intros A B AB. set (hs := [(V3 (-1) 0 0, 0); (V3 0 (-1) 0, 0); (V3 1 1 0, 1)]).
  destruct (cross_some hs (V3 a b 0) (V3 s t 0)) as [Y|(n & k & q & I & (s0 & s1 & (W0 & W1 & WS) & ->) & Q & E)].
  - intros n k I. cbn in I. destruct I as [I|[I|[I|[]]]]; injection I as <- <-; unfold dot; cbn [vx vy vz]; lra.
  - left. pose proof (Y _ _ (or_introl eq_refl)) as Y1. pose proof (Y _ _ (or_intror (or_introl eq_refl))) as Y2. pose proof (Y _ _ (or_intror (or_intror (or_introl eq_refl)))) as Y3. unfold dot in *. cbn [vx vy vz] in *. lra.
  - right. exists s1. split; [lra|]. cbv zeta. pose proof (Q _ _ (or_introl eq_refl)) as Y1. pose proof (Q _ _ (or_intror (or_introl eq_refl))) as Y2. pose proof (Q _ _ (or_intror (or_intror (or_introl eq_refl)))) as Y3.
    replace s0 with (1 - s1) in * by lra. unfold comb2, vadd, vscale, dot in *. cbn [vx vy vz] in *. cbn in I. split; [lra|]. split; [lra|]. split; [lra|].
    destruct I as [I|[I|[I|[]]]]; injection I as <- <-; cbn [vx vy vz] in E; [left|right; left|right; right]; lra.
Qed.
Lemma calc_depth p0 p1 p2 e w B : dot (vsub p1 p0) (vsub p1 p0) <= B -> dot (vsub p2 p0) (vsub p2 p0) <= B -> dot (vsub p2 p1) (vsub p2 p1) <= B ->
  mprCalcDepth p0 p1 p2 = Some (e, w) -> e = dot w w /\ tri_nearly zTOL p0 p1 p2 w /\ tri_least (2 * zTOL * zTOL * B) p0 p1 p2 w.
Proof.
  intros B1 B2 B3. unfold mprCalcDepth, zVec3DSqrNorm. zvg. set (d1 := vsub p1 p0) in *. set (d2 := vsub p2 p0) in *. pose proof zTOL_pos as TP.
  destruct (Reqb_reflect (dot d2 d2 * dot d1 d1 - dot d1 d2 * dot d1 d2) 0) as [|N]; [discriminate|]. destruct (Reqb_reflect (dot d2 d2) 0) as [|N2]; [discriminate|]. cbn [orb].
  set (s := (dot p0 d2 * dot d1 d2 - dot d2 d2 * dot p0 d1) / (dot d2 d2 * dot d1 d1 - dot d1 d2 * dot d1 d2)). set (t := (- s * dot d1 d2 - dot p0 d2) / dot d2 d2).
  assert (G2 : dot p0 d2 + s * dot d1 d2 + t * dot d2 d2 = 0) by (unfold t; field; exact N2).
  assert (G1 : dot p0 d1 + s * dot d1 d1 + t * dot d1 d2 = 0) by (unfold t, s; field; split; assumption).
  set (P := fun a b => vadd (vadd p0 (vscale a d1)) (vscale b d2)).
  assert (F : forall a b, dot (P a b) (P a b) = dot (P s t) (P s t) + dot (vadd (vscale (a - s) d1) (vscale (b - t) d2)) (vadd (vscale (a - s) d1) (vscale (b - t) d2))).
  { intros a b. transitivity (dot (P s t) (P s t) + 2 * (a - s) * (dot p0 d1 + s * dot d1 d1 + t * dot d1 d2) + 2 * (b - t) * (dot p0 d2 + s * dot d1 d2 + t * dot d2 d2) + dot (vadd (vscale (a - s) d1) (vscale (b - t) d2)) (vadd (vscale (a - s) d1) (vscale (b - t) d2))).
    - unfold P. clear. mring.
    - rewrite G1, G2. ring. }
  assert (B0 : 0 <= B) by (pose proof (dot_self_nonneg d1); lra). assert (T2 : 0 <= zTOL * zTOL * B) by (repeat apply Rmult_le_pos; lra).
  assert (IT : forall q, in_triangle p0 p1 p2 q -> exists a b, 0 <= a /\ 0 <= b /\ a + b <= 1 /\ q = P a b).
  { intros q (s0 & s1 & s2 & (W0 & W1 & W2 & WS) & ->). exists s1, s2. repeat split; try lra. replace s0 with (1 - s1 - s2) by lra. unfold P, d1, d2. apply vec3_ext; mring. }
  assert (NI : forall a b, - zTOL <= 1 - a - b -> - zTOL <= a -> - zTOL <= b -> tri_nearly zTOL p0 p1 p2 (P a b)).
  { intros a b H0 H1 H2. exists (1 - a - b), a, b. repeat split; try lra. unfold P, d1, d2. apply vec3_ext; mring. }
  match goal with |- (if ?c then _ else _) = _ -> _ => destruct c eqn:IN end.
  - rewrite !andb_true_iff in IN. destruct IN as ((((I1 & I2) & I3) & I4) & I5). apply Rltb_true in I1, I2, I3, I4, I5. intros K. injection K as <- <-. change (vadd (vadd p0 (vscale s d1)) (vscale t d2)) with (P s t).
    split; [reflexivity|]. split; [apply NI; lra|]. intros q Q. destruct (IT q Q) as (a & b & _ & _ & _ & ->). rewrite (F a b). pose proof (dot_self_nonneg (vadd (vscale (a - s) d1) (vscale (b - t) d2))). lra.
  - destruct (mprCalcSegDist p0 p1) as [(e1, w1)|] eqn:S1; [|discriminate]. destruct (mprCalcSegDist p0 p2) as [(e2, w2)|] eqn:S2; [|discriminate]. destruct (mprCalcSegDist p1 p2) as [(e3, w3)|] eqn:S3; [|discriminate].
    apply seg_dist in S1 as (E1 & (t1 & T1 & Q1) & M1). apply seg_dist in S2 as (E2 & (t2 & T2' & Q2) & M2). apply seg_dist in S3 as (E3' & (t3 & T3 & Q3) & M3). cbv zeta in *. fold d1 in Q1, M1. fold d2 in Q2, M2.
    assert (C1 : tri_nearly zTOL p0 p1 p2 w1) by (replace w1 with (P t1 0) by (rewrite Q1; unfold P; apply vec3_ext; mring); apply NI; lra).
    assert (C2 : tri_nearly zTOL p0 p1 p2 w2) by (replace w2 with (P 0 t2) by (rewrite Q2; unfold P; apply vec3_ext; mring); apply NI; lra).
    assert (C3 : tri_nearly zTOL p0 p1 p2 w3) by (replace w3 with (P (1 - t3) t3) by (rewrite Q3; unfold P, d1, d2; apply vec3_ext; mring); apply NI; lra).
    (* a point of the border that is not farther than q *)
    assert (BD : forall q, in_triangle p0 p1 p2 q -> exists a b, 0 <= a /\ 0 <= b /\ a + b <= 1 /\ (a = 0 \/ b = 0 \/ a + b = 1) /\ dot (P a b) (P a b) <= dot q q + zTOL * zTOL * B).
    { intros q Q. destruct (IT q Q) as (a & b & A & A' & AB & ->). destruct (leave s t a b A A' AB) as [(S0 & T0 & ST)|(l & L & X1 & X2 & X3 & X4)].
      - assert (NB : s <= zTOL \/ t <= zTOL). { destruct (Rle_or_lt s zTOL) as [|LS]; [left; assumption|]. destruct (Rle_or_lt t zTOL) as [|LT]; [right; assumption|]. exfalso. revert IN. rewrite !(proj2 (Rltb_true _ _)) by lra. discriminate. }
        rewrite (F a b). pose proof (dot_self_nonneg (vadd (vscale (a - s) d1) (vscale (b - t) d2))) as NN. destruct NB as [NB|NB].
        + exists 0, t. split; [lra|]. split; [lra|]. split; [lra|]. split; [auto|]. rewrite (F 0 t).
          replace (dot (vadd (vscale (0 - s) d1) (vscale (t - t) d2)) (vadd (vscale (0 - s) d1) (vscale (t - t) d2))) with (s * s * dot d1 d1) by mring. assert (SS : s * s <= zTOL * zTOL) by (apply Rmult_le_compat; lra). assert (s * s * dot d1 d1 <= zTOL * zTOL * B) by (apply Rmult_le_compat; [apply Rle_0_sqr|apply dot_self_nonneg|exact SS|exact B1]). lra.
        + exists s, 0. split; [lra|]. split; [lra|]. split; [lra|]. split; [auto|]. rewrite (F s 0).
          replace (dot (vadd (vscale (s - s) d1) (vscale (0 - t) d2)) (vadd (vscale (s - s) d1) (vscale (0 - t) d2))) with (t * t * dot d2 d2) by mring. assert (SS : t * t <= zTOL * zTOL) by (apply Rmult_le_compat; lra). assert (t * t * dot d2 d2 <= zTOL * zTOL * B) by (apply Rmult_le_compat; [apply Rle_0_sqr|apply dot_self_nonneg|exact SS|exact B2]). lra.
      - exists (a + l * (s - a)), (b + l * (t - b)). repeat (split; [assumption|]). rewrite (F (a + l * (s - a))), (F a b).
        replace (vadd (vscale (a + l * (s - a) - s) d1) (vscale (b + l * (t - b) - t) d2)) with (vscale (1 - l) (vadd (vscale (a - s) d1) (vscale (b - t) d2))) by (apply vec3_ext; mring).
        set (y := vadd (vscale (a - s) d1) (vscale (b - t) d2)). replace (dot (vscale (1 - l) y) (vscale (1 - l) y)) with ((1 - l) * (1 - l) * dot y y) by mring. assert (LL : (1 - l) * (1 - l) <= 1) by (apply (Rle_trans _ (1 * 1)); [apply Rmult_le_compat; lra|lra]). assert ((1 - l) * (1 - l) * dot y y <= 1 * dot y y) by (apply Rmult_le_compat_r; [apply dot_self_nonneg|exact LL]). lra. }
    assert (W : forall v q, in_triangle p0 p1 p2 q -> dot v v <= dot w1 w1 -> dot v v <= dot w2 w2 -> dot v v <= dot w3 w3 -> dot v v <= dot q q + 2 * zTOL * zTOL * B).
    { intros v q Q V1 V2 V3. destruct (BD q Q) as (a & b & A & A' & AB & ED & LE). destruct ED as [->|[->|ED]].
      - specialize (M2 b ltac:(lra)). replace (vadd p0 (vscale b d2)) with (P 0 b) in M2 by (unfold P; apply vec3_ext; mring). assert (zTOL * zTOL * dot d2 d2 <= zTOL * zTOL * B) by (apply Rmult_le_compat_l; [apply Rle_0_sqr|assumption]). lra.
      - specialize (M1 a ltac:(lra)). replace (vadd p0 (vscale a d1)) with (P a 0) in M1 by (unfold P; apply vec3_ext; mring). assert (zTOL * zTOL * dot d1 d1 <= zTOL * zTOL * B) by (apply Rmult_le_compat_l; [apply Rle_0_sqr|assumption]). lra.
      - specialize (M3 b ltac:(lra)). replace (vadd p1 (vscale b (vsub p2 p1))) with (P a b) in M3 by (replace a with (1 - b) by lra; unfold P, d1, d2; apply vec3_ext; mring). assert (zTOL * zTOL * dot (vsub p2 p1) (vsub p2 p1) <= zTOL * zTOL * B) by (apply Rmult_le_compat_l; [apply Rle_0_sqr|assumption]). lra. }
    destruct (Rltb_reflect e2 e1) as [L2|L2].
    + destruct (Rltb_reflect e3 e2) as [L3|L3]; intros K; injection K as <- <-; (split; [assumption|]); (split; [assumption|]); intros q Q; apply W; lra || assumption.
    + destruct (Rltb_reflect e3 e1) as [L3|L3]; intros K; injection K as <- <-; (split; [assumption|]); (split; [assumption|]); intros q Q; apply W; lra || assumption.
Qed.
