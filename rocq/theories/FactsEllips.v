(** Proofs about ellipses, ellipsoids and elliptic cylinders. *)
From Verif Require Import ModelShape FactsVec FactsAlg FactsMat FactsFrame FactsElem FactsTri FactsCentre FactsBox FactsObb FactsRound.
Open Scope R_scope.

Lemma pick_root_in ans l : pick_root ans = Some l -> 0 <= l /\ exists im, In (l, im) ans /\ Rabs im < zTOL.
Proof.
  induction ans as [|[re im] t IH]; cbn [pick_root]; [discriminate|].
  destruct (Rleb_reflect 0 re) as [H|H].
  - destruct (zIsTiny im) eqn:E; [|discriminate]. intros K; injection K as <-. split; [exact H|]. exists im. split; [left; reflexivity|]. apply zIsTol_true, E.
  - intros K. destruct (IH K) as (A & i & B & C). split; [exact A|]. exists i. split; [right; exact B|exact C].
Qed.
(** the polynomials are the Lagrange conditions *)
Lemma poly2_root r02 r12 xx yy l : 0 < r02 -> 0 < r12 -> 0 <= l -> horner (ellips2_poly r02 r12 xx yy) l = 0 ->
  xx * r02 / ((r02 + l) * (r02 + l)) + yy * r12 / ((r12 + l) * (r12 + l)) = 1.
Proof.
  intros H0 H1 Hl H. set (A := r02 + l). set (B := r12 + l). assert (0 < A) by (unfold A; lra). assert (0 < B) by (unfold B; lra).
  assert (E : A * A * (B * B) - xx * r02 * (B * B) - yy * r12 * (A * A) = 0).
  { rewrite <- H. unfold horner, ellips2_poly, A, B. cbn [fold_left]. ring. }
  transitivity ((xx * r02 * (B * B) + yy * r12 * (A * A)) / (A * A * (B * B))); [field; lra|].
  replace (xx * r02 * (B * B) + yy * r12 * (A * A)) with (A * A * (B * B)) by lra. field. lra.
Qed.
Lemma poly3_root a b c p q r l : 0 < p -> 0 < q -> 0 < r -> 0 <= l -> horner (ellips3_poly a b c p q r) l = 0 ->
  a * (p / (p + l)) * (p / (p + l)) + b * (q / (q + l)) * (q / (q + l)) + c * (r / (r + l)) * (r / (r + l)) = 1.
Proof.
  intros Hp Hq Hr Hl H. set (A := p + l). set (B := q + l). set (C := r + l). assert (0 < A) by (unfold A; lra). assert (0 < B) by (unfold B; lra). assert (0 < C) by (unfold C; lra).
  assert (E : A * A * (B * B) * (C * C) - a * (p * p) * (B * B) * (C * C) - b * (q * q) * (A * A) * (C * C) - c * (r * r) * (A * A) * (B * B) = 0).
  { rewrite <- H. unfold horner, ellips3_poly, A, B, C. cbn [fold_left]. ring. }
  transitivity ((a * (p * p) * (B * B) * (C * C) + b * (q * q) * (A * A) * (C * C) + c * (r * r) * (A * A) * (B * B)) / (A * A * (B * B) * (C * C))); [field; lra|].
  replace (a * (p * p) * (B * B) * (C * C) + b * (q * q) * (A * A) * (C * C) + c * (r * r) * (A * A) * (B * B)) with (A * A * (B * B) * (C * C)) by lra. field. lra.
Qed.
(** a point below its foot by the multiplier condition is nearest *)
Lemma lagrange p q r l (f x v : vec3) : 0 < p -> 0 < q -> 0 < r -> 0 <= l ->
  vx v = vx f * (1 + l / p) -> vy v = vy f * (1 + l / q) -> vz v = vz f * (1 + l / r) ->
  vx f * vx f / p + vy f * vy f / q + vz f * vz f / r = 1 ->
  vx x * vx x / p + vy x * vy x / q + vz x * vz x / r <= 1 -> dist v f <= dist v x.
Proof.
  intros Hp Hq Hr Hl Ex Ey Ez Hf Hx. unfold dist. apply norm_le_of_sqr.
  assert (K : dot (vsub v x) (vsub v x) - dot (vsub v f) (vsub v f) =
    dot (vsub x f) (vsub x f) + 2 * l * (1 - (vx f * vx x / p + vy f * vy x / q + vz f * vz x / r)) + 2 * l * ((vx f * vx f / p + vy f * vy f / q + vz f * vz f / r) - 1)).
  { spec_unfold. rewrite Ex, Ey, Ez. field. lra. }
  assert (AM : vx f * vx x / p + vy f * vy x / q + vz f * vz x / r <= 1).
  { assert (S : forall a b k, 0 < k -> a * b / k <= (a * a / k + b * b / k) / 2).
    { intros a b k Hk. assert (0 <= (a - b) * (a - b) / k) by (apply Rmult_le_pos; [apply sqr_nonneg|left; apply Rinv_0_lt_compat; lra]). unfold Rdiv in *. lra. }
    pose proof (S (vx f) (vx x) p Hp). pose proof (S (vy f) (vy x) q Hq). pose proof (S (vz f) (vz x) r Hr). lra. }
  pose proof (dot_self_nonneg (vsub x f)). assert (0 <= l * (1 - (vx f * vx x / p + vy f * vy x / q + vz f * vz x / r))) by (apply Rmult_le_pos; lra).
  rewrite Hf in K. lra.
Qed.
Lemma ellips2_closest ans e p : exact_solver ans -> 0 < erad0 e -> 0 < erad1 e ->
  match zEllips2DClosest ans e p with
  | Some cp => nearest2 (in_ellipse (ecen e) (erad0 e) (erad1 e)) p cp /\ zEllips2DDistFromPoint ans e p = Some (dist2 cp p)
  | None => ~ in_ellipse (ecen e) (erad0 e) (erad1 e) p
  end.
Proof.
  intros HA H0 H1. unfold zEllips2DDistFromPoint. destruct (zEllips2DClosest ans e p) as [cp|] eqn:E.
  - split; [|zvg; reflexivity]. revert E. unfold zEllips2DClosest, zEllips2DClosest0. rewrite !Rplus_0_r. unfold zSqr.
    destruct (ecen e) as [cx cy] eqn:Ec. destruct p as [px py]. unfold zVec2DSub, zVec2DAdd; cbn [x2 y2].
    set (R0 := erad0 e) in *. set (R1 := erad1 e) in *. set (x := px - cx). set (y := py - cy).
    destruct (Rltb_reflect 1 (x * x / (R0 * R0) + y * y / (R1 * R1))) as [K|K].
    + destruct (pick_root _) as [l|] eqn:El; [|discriminate]. intros EE; injection EE as <-.
      destruct (pick_root_in _ _ El) as (Hl & im & Hin & Him). pose proof (HA _ _ _ Hin Him) as Hrt.
      assert (P0 : 0 < R0 * R0) by nra. assert (P1 : 0 < R1 * R1) by nra.
      pose proof (poly2_root _ _ _ _ l P0 P1 Hl Hrt) as RT.
      assert (Q0 : 0 < l / (R0 * R0) + 1) by (assert (0 <= l / (R0 * R0)) by (apply Rmult_le_pos; [lra|left; apply Rinv_0_lt_compat; lra]); lra).
      assert (Q1 : 0 < l / (R1 * R1) + 1) by (assert (0 <= l / (R1 * R1)) by (apply Rmult_le_pos; [lra|left; apply Rinv_0_lt_compat; lra]); lra).
      assert (S0 : R0 * R0 + l <> 0) by lra. assert (S1 : R1 * R1 + l <> 0) by lra.
      split.
      * unfold in_ellipse; cbn [x2 y2]. right. eapply eq_trans; [|exact RT]. field. lra.
      * intros [ax ay] Hx. rewrite <- !lift2_dist. unfold in_ellipse in Hx; cbn [x2 y2] in Hx.
        set (fx := x / (1 + l / (R0 * R0))). set (fy := y / (1 + l / (R1 * R1))).
        assert (T : forall u1 u2, dist (lift2 (V2 px py)) (lift2 (V2 u1 u2)) = dist (V3 x y 0) (V3 (u1 - cx) (u2 - cy) 0)).
        { intros. unfold dist, norm, lift2. f_equal. unfold x, y. spec_unfold; cbn [x2 y2]; ring. }
        rewrite !T. apply (lagrange (R0 * R0) (R1 * R1) 1 l); cbn [vx vy vz]; try lra.
        -- unfold fx. field. lra.
        -- unfold fy. field. lra.
        -- eapply eq_trans; [|exact RT]. unfold fx, fy. field. lra.
        -- replace ((ax - cx) * (ax - cx) / (R0 * R0) + (ay - cy) * (ay - cy) / (R1 * R1) + 0 * 0 / 1) with ((ax - cx) / R0 * ((ax - cx) / R0) + (ay - cy) / R1 * ((ay - cy) / R1)) by (field; lra). exact Hx.
    + intros EE; injection EE as <-. split.
      * unfold in_ellipse; cbn [x2 y2]. fold x y. replace (x / R0 * (x / R0) + y / R1 * (y / R1)) with (x * x / (R0 * R0) + y * y / (R1 * R1)) by (field; lra). lra.
      * intros q _. unfold dist2 at 1. replace (norm_2 (vsub2 (V2 px py) (V2 px py))) with 0; [apply norm_2_nonneg|].
        symmetry. unfold norm_2. replace (dot2 _ _) with 0 by (unfold dot2, vsub2; pcbn; ring). apply sqrt_0.
  - revert E. unfold zEllips2DClosest, zEllips2DClosest0. rewrite !Rplus_0_r. unfold zSqr, zVec2DSub, in_ellipse; cbn [x2 y2].
    destruct (Rltb_reflect 1 ((x2 p - x2 (ecen e)) * (x2 p - x2 (ecen e)) / (erad0 e * erad0 e) + (y2 p - y2 (ecen e)) * (y2 p - y2 (ecen e)) / (erad1 e * erad1 e))) as [K|K]; [|discriminate].
    intros _. replace ((x2 p - x2 (ecen e)) / erad0 e * ((x2 p - x2 (ecen e)) / erad0 e) + (y2 p - y2 (ecen e)) / erad1 e * ((y2 p - y2 (ecen e)) / erad1 e))
      with ((x2 p - x2 (ecen e)) * (x2 p - x2 (ecen e)) / (erad0 e * erad0 e) + (y2 p - y2 (ecen e)) * (y2 p - y2 (ecen e)) / (erad1 e * erad1 e)) by (field; lra). lra.
Qed.
Lemma ellips2_inside e p m : zEllips2DPointIsInside e p m = true <-> inside_ellipse (ecen e) (erad0 e + m) (erad1 e + m) p.
Proof. unfold zEllips2DPointIsInside, inside_ellipse, zSqr. apply Rltb_true. Qed.

(** ** Ellipsoid *)
Lemma ellips3_inside e p m : isometry (fatt (elf e)) ->
  zEllips3DPointIsInside e p m = true <-> inside_ellipsoid (elf e) (vadd (elrad e) (V3 m m m)) p.
Proof.
  intros H. unfold zEllips3DPointIsInside, inside_ellipsoid, zSqr. rewrite Rltb_true. split.
  - intros K. exists (zXform3DInv (elf e) p). split; [exact K|]. symmetry. apply iso_act_inv, H.
  - intros (q & K & ->). rewrite iso_inv_act by exact H. exact K.
Qed.
Lemma ellips3_closest ans e p : exact_solver ans -> isometry (fatt (elf e)) -> 0 < vx (elrad e) -> 0 < vy (elrad e) -> 0 < vz (elrad e) ->
  match zEllips3DClosest ans e p with
  | Some (d, cp) =>
      if zEllips3DPointIsInside e p zTOL then d = 0 /\ cp = p
      else nearest (in_ellipsoid (elf e) (elrad e)) p cp /\ d = dist p cp
  | None => ~ inside_ellipsoid (elf e) (vadd (elrad e) (V3 zTOL zTOL zTOL)) p
  end.
Proof.
  intros HA HI Hx Hy Hz. unfold zEllips3DClosest. destruct (zEllips3DPointIsInside e p zTOL) eqn:EI; [auto|].
  unfold zEllips3DClosest0. destruct (pick_root _) as [l|] eqn:El.
  - cbv zeta. zvg. split; [|reflexivity]. rewrite xform_spec.
    destruct (pick_root_in _ _ El) as (Hl & im & Hin & Him). pose proof (HA _ _ _ Hin Him) as Hrt.
    set (v := zXform3DInv (elf e) p) in *. assert (Ep : p = act (elf e) v) by (symmetry; apply iso_act_inv, HI).
    destruct (elrad e) as [rx ry rz]; cbn [vx vy vz] in *.
    assert (P0 : 0 < rx * rx) by nra. assert (P1 : 0 < ry * ry) by nra. assert (P2 : 0 < rz * rz) by nra.
    pose proof (poly3_root _ _ _ _ _ _ l P0 P1 P2 Hl Hrt) as RT. unfold zSqr in RT.
    set (f := V3 (vx v / (1 + l / (rx * rx))) (vy v / (1 + l / (ry * ry))) (vz v / (1 + l / (rz * rz)))).
    assert (S0 : rx * rx + l <> 0) by lra. assert (S1 : ry * ry + l <> 0) by lra. assert (S2 : rz * rz + l <> 0) by lra.
    assert (Q : forall k, 0 < k -> 1 + l / k <> 0) by (intros k Hk; assert (0 <= l / k) by (apply Rmult_le_pos; [lra|left; apply Rinv_0_lt_compat; lra]); lra).
    assert (F1 : vx f * vx f / (rx * rx) + vy f * vy f / (ry * ry) + vz f * vz f / (rz * rz) = 1).
    { eapply eq_trans; [|exact RT]. unfold f; cbn [vx vy vz]. field. lra. }
    split.
    + exists f. cbn [vx vy vz]. split; [|reflexivity]. right. eapply eq_trans; [|exact F1]. unfold f; cbn [vx vy vz]. field. lra.
    + intros x (q & Hq & ->). cbn [vx vy vz] in Hq. rewrite Ep, !iso_dist by exact HI.
      apply (lagrange (rx * rx) (ry * ry) (rz * rz) l); try lra; unfold f; cbn [vx vy vz]; try (field; lra).
      replace (vx q * vx q / (rx * rx) + vy q * vy q / (ry * ry) + vz q * vz q / (rz * rz)) with (vx q / rx * (vx q / rx) + vy q / ry * (vy q / ry) + vz q / rz * (vz q / rz)) by (field; lra). exact Hq.
  - intros K. apply (ellips3_inside e p zTOL HI) in K. congruence.
Qed.
