(** How deep two convex sets overlap. *)
From Verif Require Import Base Spec SpecGeom SpecHull SpecGJK SpecLin SpecDepth ModelVec Model2D ModelElem ModelLin ModelGJK ModelDepth FactsVec FactsElem FactsTri FactsTri2 FactsLin FactsGJK FactsGJK2 FactsGJK3.
From Coq Require Import List Lra Lia Psatz.
Import ListNotations.
Open Scope R_scope.

(** ** The nearest point of a convex surface around the origin *)
Ltac vring := unfold comb3, comb2, dot, vsub, vadd, vscale, vneg, v3zero; cbn [vx vy vz]; ring.
Lemma sq_zero3 p q r : p * p + q * q + r * r <= 0 -> p = 0 /\ q = 0 /\ r = 0.
Proof. intros H. pose proof (Rle_0_sqr p) as A. pose proof (Rle_0_sqr q) as B. pose proof (Rle_0_sqr r) as C. unfold Rsqr in *. repeat split; apply Rsqr_eq_0; unfold Rsqr; lra. Qed.
Lemma cross_zero_par n v : norm v * norm n <= dot n v -> vscale (dot n n) v = vscale (dot n v) n.
Proof.
  intros H. pose proof (norm_sqr n) as N. pose proof (norm_sqr v) as V. pose proof (norm_nonneg n). pose proof (norm_nonneg v).
  assert (Q : dot n n * dot v v <= dot n v * dot n v). { rewrite <- N, <- V. assert (0 <= norm v * norm n) by (apply Rmult_le_pos; assumption). nra. }
  destruct n as [a b c], v as [x y z]. unfold dot in *. cbn [vx vy vz] in *.
  assert (S : (a*y-b*x)*(a*y-b*x) + (b*z-c*y)*(b*z-c*y) + (c*x-a*z)*(c*x-a*z) <= 0) by lra.
  destruct (sq_zero3 _ _ _ S) as (P1 & P2 & P3).
  apply vec3_ext; unfold vscale; cbn [vx vy vz].
  - assert (b * (a*y-b*x) = 0) by (rewrite P1; ring). assert (c * (c*x-a*z) = 0) by (rewrite P3; ring). lra.
  - assert (a * (a*y-b*x) = 0) by (rewrite P1; ring). assert (c * (b*z-c*y) = 0) by (rewrite P2; ring). lra.
  - assert (a * (c*x-a*z) = 0) by (rewrite P3; ring). assert (b * (b*z-c*y) = 0) by (rewrite P2; ring). lra.
Qed.
Lemma tri_dot n a b c q : dot n (vsub b a) = 0 -> dot n (vsub c a) = 0 -> in_triangle a b c q -> dot n (vsub q a) = 0.
Proof.
  intros B C (s0 & s1 & s2 & (_ & _ & _ & S) & ->). replace (dot n (vsub (comb3 s0 s1 s2 a b c) a)) with (s1 * dot n (vsub b a) + s2 * dot n (vsub c a) + (s0 + s1 + s2 - 1) * dot n a) by (vring).
  rewrite B, C, S. ring.
Qed.
Lemma seg_norm x q : segment v3zero x q -> norm q <= norm x.
Proof.
  intros (s0 & s1 & (A & B & S) & ->). replace (comb2 s0 s1 v3zero x) with (vscale s1 x) by (apply vec3_ext; vring). rewrite norm_scale, Rabs_right by lra. pose proof (norm_nonneg x). nra.
Qed.
Section Surface.
  Variables (l : list vec3) (fs : list (vec3 * vec3 * vec3)).
  Hypotheses (SF : surface_of l fs) (O : convex_hull l v3zero).
  Variables (a b c v : vec3).
  Hypotheses (F : List.In (a, b, c) fs) (T : in_triangle a b c v) (MIN : forall a b c q, List.In (a, b, c) fs -> in_triangle a b c q -> norm v <= norm q).
  Lemma ball_in x : norm x < norm v -> convex_hull l x.
  Proof.
    intros H. destruct SF as (_ & _ & X). destruct (X v3zero x O) as [K|(a' & b' & c' & q & F' & T' & S')]; [exact K|exfalso].
    pose proof (MIN _ _ _ _ F' T'). pose proof (seg_norm _ _ S'). lra.
  Qed.
  Lemma hull_half_dot n k : (forall x, List.In x l -> dot n x <= k) -> forall x, convex_hull l x -> dot n x <= k.
  Proof. intros H x C. induction C as [p Hp|p q r _ IH1 _ IH2 (s0 & s1 & (A & B & S) & ->)]; [auto|]. replace (dot n (comb2 s0 s1 p q)) with (s0 * dot n p + s1 * dot n q) by (vring). nra. Qed.
  Lemma face_par : exists n, n <> v3zero /\ norm v * norm n <= dot n v /\ dot n (vsub b a) = 0 /\ dot n (vsub c a) = 0 /\ forall x, List.In x l -> dot n x <= dot n v.
  Proof.
    destruct SF as (_ & X & _). destruct (X a b c F) as (_ & _ & _ & n & N0 & NB & NC & NX). exists n.
    pose proof (tri_dot n a b c v NB NC T) as NV.
    assert (HX : forall x, List.In x l -> dot n x <= dot n v). { intros x Hx. specialize (NX x Hx). replace (dot n (vsub x a)) with (dot n x - dot n a) in NX by (vring). replace (dot n (vsub v a)) with (dot n v - dot n a) in NV by (vring). lra. }
    split; [exact N0|]. split; [|auto].
    destruct (Rle_or_lt (norm v * norm n) (dot n v)) as [K|K]; [exact K|exfalso].
    assert (NP : 0 < norm n). { pose proof (norm_nonneg n). destruct (Req_dec (norm n) 0) as [Z|Z]; [|lra]. exfalso. apply N0. pose proof (norm_sqr n) as Q. rewrite Z in Q. destruct n as [x y z]. unfold dot in Q. cbn [vx vy vz] in Q. unfold v3zero. f_equal; nra. }
    pose proof (hull_half_dot n (dot n v) HX) as HH. pose proof (HH _ O) as H0. replace (dot n v3zero) with 0 in H0 by (vring).
    set (s := (dot n v / norm n + norm v) / 2 / norm n).
    assert (S0 : 0 <= s). { unfold s. apply Rmult_le_pos; [|left; apply Rinv_0_lt_compat; exact NP]. assert (0 <= dot n v / norm n) by (apply Rmult_le_pos; [exact H0|left; apply Rinv_0_lt_compat; exact NP]). pose proof (norm_nonneg v). lra. }
    assert (SN : s * norm n = (dot n v / norm n + norm v) / 2) by (unfold s; field; lra).
    assert (DN : dot n v / norm n < norm v). { apply (Rmult_lt_reg_r (norm n)); [exact NP|]. unfold Rdiv. rewrite Rmult_assoc, Rinv_l by lra. lra. }
    specialize (HH (vscale s n)). replace (dot n (vscale s n)) with (s * norm n * norm n) in HH by (rewrite Rmult_assoc, norm_sqr; vring).
    assert (Q : s * norm n * norm n <= dot n v). { apply HH, ball_in. rewrite norm_scale, Rabs_right by lra. rewrite SN. lra. }
    rewrite SN in Q. replace ((dot n v / norm n + norm v) / 2 * norm n) with ((dot n v + norm v * norm n) / 2) in Q by (field; lra). lra.
  Qed.
  Lemma face_foot : dot v (vsub b a) = 0 /\ dot v (vsub c a) = 0 /\ forall x, List.In x l -> dot v x <= dot v v.
  Proof.
    destruct face_par as (n & N0 & P & B & C & X). pose proof (cross_zero_par n v P) as E.
    assert (NN : 0 < dot n n). { destruct n as [x y z]. unfold dot. cbn [vx vy vz]. destruct (Req_dec x 0) as [->|]; [|nra]. destruct (Req_dec y 0) as [->|]; [|nra]. destruct (Req_dec z 0) as [->|]; [|nra]. exfalso. apply N0. reflexivity. }
    assert (ND : 0 <= dot n v). { eapply Rle_trans; [|exact P]. apply Rmult_le_pos; apply norm_nonneg. }
    assert (D : forall y, dot n n * dot v y = dot n v * dot n y). { intros y. rewrite <- !dot_scl. rewrite E. reflexivity. }
    split; [|split].
    - apply (Rmult_eq_reg_l (dot n n)); [|lra]. rewrite D, B. ring.
    - apply (Rmult_eq_reg_l (dot n n)); [|lra]. rewrite D, C. ring.
    - intros x Hx. apply (Rmult_le_reg_l (dot n n)); [exact NN|]. rewrite !D. apply Rmult_le_compat_l; [exact ND|]. apply X, Hx.
  Qed.
End Surface.
