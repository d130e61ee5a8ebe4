(** How deep a point is within a convex set: a small tetrahedron. *)
From Verif Require Import FactsVec FactsElem FactsGJK2 FactsGJK3 FactsGJK4 FactsGJK5.
From Verif Require FactsQH2.
From Verif Require Export FactsDepth8.
From Coq Require Import List Lra Lia Bool Arith.
Import ListNotations.
Open Scope R_scope.

Definition jA := V3 (1/10) (1/10) (1/10). Definition jB := V3 (1/10) (-1/10) (-1/10). Definition jC := V3 (-1/10) (1/10) (-1/10). Definition jD := V3 (-1/10) (-1/10) (1/10).
Definition jset := [jA; jB; jC; jD].
Lemma len_le v k : 0 <= k -> dot v v <= k * k -> norm v <= k.
Proof. intros K H. apply Rsqr_incr_0_var; [|lra]. unfold Rsqr. rewrite norm_sqr. lra. Qed.
Lemma j_scattered : scattered (fun x => List.In x jset).
Proof.
  pose proof zTOL_pos as TP. pose proof zTOL_small as TM. split; [|split].
  - intros a b c d A B C D N.
    assert (K : dot (tri_normal a b c) (tri_normal a b c) <= 1 * 1 /\ dot (vsub d a) (vsub d a) <= 1 * 1 /\ (vol6 a b c d <= -1/100 \/ 1/100 <= vol6 a b c d)).
    { assert (NE : a <> b /\ a <> c /\ a <> d /\ b <> c /\ b <> d /\ c <> d) by (repeat (apply NoDup_cons_iff in N; let H := fresh in destruct N as (H & N)); cbn in *; intuition congruence). clear N. destruct NE as (N1 & N2 & N3 & N4 & N5 & N6). cbn in A, B, C, D.
      destruct A as [<-|[<-|[<-|[<-|[]]]]]; destruct B as [<-|[<-|[<-|[<-|[]]]]]; try congruence; destruct C as [<-|[<-|[<-|[<-|[]]]]]; try congruence; destruct D as [<-|[<-|[<-|[<-|[]]]]]; try congruence; clear;
        unfold tri_normal, vol6, det3v, dot, cross, vsub, jA, jB, jC, jD; cbn [vx vy vz]; (split; [lra|split; [lra|first [left; lra|right; lra]]]). }
    destruct K as (K1 & K2 & K3). apply len_le in K1; [|lra]. apply len_le in K2; [|lra]. unfold dist. pose proof (norm_nonneg (tri_normal a b c)) as P1. pose proof (norm_nonneg (vsub d a)) as P2.
    assert (K4 : 1/100 <= Rabs (vol6 a b c d)) by (destruct K3 as [K3|K3]; [rewrite Rabs_left; lra|rewrite Rabs_right; lra]).
    assert (K5 : norm (tri_normal a b c) * (1 + norm (vsub d a)) <= 1 * 2) by (apply Rmult_le_compat; lra).
    assert (K6 : 2 * zTOL * norm (tri_normal a b c) * (1 + norm (vsub d a)) <= 2 * zTOL * 2) by (replace (2 * zTOL * norm (tri_normal a b c) * (1 + norm (vsub d a))) with (2 * zTOL * (norm (tri_normal a b c) * (1 + norm (vsub d a)))) by ring; apply Rmult_le_compat_l; lra). lra.
  - intros a b c A B C N.
    assert (NE : a <> b /\ a <> c /\ b <> c) by (repeat (apply NoDup_cons_iff in N; let H := fresh in destruct N as (H & N)); cbn in *; intuition congruence). clear N. destruct NE as (N1 & N2 & N3).
    assert (NN : forall v, (vx v <= -1/100 \/ 1/100 <= vx v) \/ (vy v <= -1/100 \/ 1/100 <= vy v) -> ~ negligible v).
    { intros v H (M1 & M2 & M3). apply Rabs_def2 in M1, M2. lra. }
    cbn in A, B, C.
    assert (K : forall x y, List.In x jset -> List.In y jset -> x <> y -> ~ negligible (vsub x y)).
    { intros x y X Y H. apply NN. cbn in X, Y. destruct X as [<-|[<-|[<-|[<-|[]]]]]; destruct Y as [<-|[<-|[<-|[<-|[]]]]]; try congruence; clear; unfold vsub, jA, jB, jC, jD; cbn [vx vy vz]; lra. }
    assert (Q : forall x y z, List.In x jset -> List.In y jset -> List.In z jset -> x <> y -> x <> z -> y <> z -> spread_at x y z /\ ~ negligible (tri_normal x y z)).
    { intros x y z X Y Z H1 H2 H3. clear A B C N1 N2 N3. cbn in X, Y, Z. split; [|apply NN]; destruct X as [<-|[<-|[<-|[<-|[]]]]]; destruct Y as [<-|[<-|[<-|[<-|[]]]]]; try congruence; destruct Z as [<-|[<-|[<-|[<-|[]]]]]; try congruence; clear - TM TP;
        unfold spread_at, tri_normal, dot, cross, vsub, jA, jB, jC, jD; cbn [vx vy vz]; lra. }
    split; [|apply Q; assumption]. unfold well_shaped. split; [apply K; auto|]. split; [apply K; auto|]. split; [apply K; auto|]. split; [apply Q; auto|]. split; apply Q; auto.
  - intros a b A B. cbn in A, B. assert (R2 : Rabs (1/5) = 1/5) by (apply Rabs_right; lra). assert (R2' : Rabs (-1/5) = 1/5) by (rewrite Rabs_left; lra).
    destruct A as [<-|[<-|[<-|[<-|[]]]]]; destruct B as [<-|[<-|[<-|[<-|[]]]]]; try (left; reflexivity); right; unfold jA, jB, jC, jD; cbn [vx vy vz];
      repeat match goal with |- context [Rabs (?a - ?b)] => first [replace (a - b) with (1/5) by lra|replace (a - b) with (-1/5) by lra|replace (a - b) with 0 by lra] end; rewrite ?R2, ?R2'; first [left; lra|right; left; lra].
Qed.
Lemma j_near x : List.In x jset -> dist x v3zero <= 1/5.
Proof. intros X. unfold dist. apply len_le; [lra|]. cbn in X. destruct X as [<-|[<-|[<-|[<-|[]]]]]; unfold dot, vsub, v3zero, jA, jB, jC, jD; cbn [vx vy vz]; lra. Qed.
Lemma j_compact x y : List.In x jset -> List.In y jset -> dist x y <= 2/5.
Proof. intros X Y. unfold dist. apply len_le; [lra|]. cbn in X, Y. destruct X as [<-|[<-|[<-|[<-|[]]]]]; destruct Y as [<-|[<-|[<-|[<-|[]]]]]; unfold dot, vsub, v3zero, jA, jB, jC, jD; cbn [vx vy vz]; lra. Qed.
Lemma j_deep : deep_inside (sqrt zTOL + 6 * zTOL * (1/5)) jset v3zero.
Proof.
  pose proof zTOL_pos as TP. pose proof zTOL_small as TM. split.
  - replace v3zero with (wsum [1/4; 1/4; 1/4; 1/4] jset) by (unfold jset, jA, jB, jC, jD; cbn [wsum]; apply vec3_ext; unfold vadd, vscale, v3zero; cbn [vx vy vz]; lra).
    apply hull_wsum; [|cbn [total]; lra]. unfold jset. repeat (apply Forall2_cons; [split; [lra|right; constructor; cbn; tauto]|]). constructor.
  - intros a b c q A B C T.
    assert (SQ : sqrt zTOL <= / 1000). { rewrite <- (sqrt_Rsqr (/ 1000)) by lra. apply sqrt_le_1_alt. unfold Rsqr. lra. }
    assert (K : exists d, norm d <= 1/5 /\ dot a d = -1/100 /\ dot b d = -1/100 /\ dot c d = -1/100).
    { assert (Q : exists d, List.In d jset /\ d <> a /\ d <> b /\ d <> c).
      { assert (J : jA <> jB /\ jA <> jC /\ jA <> jD /\ jB <> jC /\ jB <> jD /\ jC <> jD) by (unfold jA, jB, jC, jD; repeat split; intros K; injection K; intros; lra). destruct J as (J1 & J2 & J3 & J4 & J5 & J6).
        cbn in A, B, C. destruct A as [<-|[<-|[<-|[<-|[]]]]]; destruct B as [<-|[<-|[<-|[<-|[]]]]]; destruct C as [<-|[<-|[<-|[<-|[]]]]];
          first [exists jA; repeat split; [cbn; tauto|congruence..]|exists jB; repeat split; [cbn; tauto|congruence..]|exists jC; repeat split; [cbn; tauto|congruence..]|exists jD; repeat split; [cbn; tauto|congruence..]]. }
      destruct Q as (d & D & N1 & N2 & N3). exists d. assert (P : forall x, List.In x jset -> d <> x -> dot x d = -1/100).
      { intros x X N. cbn in D, X. destruct D as [<-|[<-|[<-|[<-|[]]]]]; destruct X as [<-|[<-|[<-|[<-|[]]]]]; try congruence; clear; unfold dot, jA, jB, jC, jD; cbn [vx vy vz]; lra. }
      split; [|auto]. pose proof (j_near d D) as K. unfold dist in K. replace (vsub d v3zero) with d in K by (apply vec3_ext; spec_unfold_g; ring). exact K. }
    destruct K as (d & ND & DA & DB & DC). destruct T as (s0 & s1 & s2 & (S0 & S1 & S2 & SS) & ->). set (q := comb3 s0 s1 s2 a b c).
    assert (DQ : dot q d = -1/100). { transitivity (s0 * dot a d + s1 * dot b d + s2 * dot c d); [unfold q, comb3, comb2; clear; spec_unfold_g; ring|]. rewrite DA, DB, DC. lra. }
    unfold dist. replace (vsub q v3zero) with q by (apply vec3_ext; spec_unfold_g; ring).
    pose proof (FactsQH2.dot_norm_le q d) as CS. rewrite DQ, Rabs_left in CS by lra. pose proof (norm_nonneg q) as NQ. pose proof (norm_nonneg d) as N0. assert (norm q * norm d <= norm q * (1/5)) by (apply Rmult_le_compat_l; lra). lra.
Qed.
Lemma j_depth sort old : exists n, forall fuel, (n <= fuel)%nat -> exists c, zGJKDepth (depthHull sort) jset [v3zero] fuel old = Some (c, v3zero, true) /\ convex_hull jset c /\ depth_vector (4 * zTOL * (1/5)) jset [v3zero] (vsub c v3zero).
Proof. exact (depth_small sort jset v3zero (1/5) old j_scattered j_near j_compact j_deep). Qed.
