(** Proofs: mass properties as integrals. *)
From Coquelicot Require Import Coquelicot.
From Verif Require Import Base Spec SpecInt.
From Verif Require Import ModelPH FactsVec FactsAlg FactsMat FactsElem FactsTri FactsFrame FactsBox FactsObb FactsRound FactsSolid FactsPH FactsPH2 FactsPH3.
Open Scope R_scope.

Definition quad (k0 k1 k2 k3 q11 q22 q33 q12 q13 q23 : R) (x y z : R) : R :=
  k0 + k1 * x + k2 * y + k3 * z + q11 * (x * x) + q22 * (y * y) + q33 * (z * z) + q12 * (x * y) + q13 * (x * z) + q23 * (y * z).

Definition pol (c0 c1 c2 c3 c4 : R) (x : R) : R := c0 + c1 * x + c2 * (x * x) + c3 * (x * x * x) + c4 * (x * x * x * x).
Definition Pol (c0 c1 c2 c3 c4 : R) (x : R) : R := c0 * x + c1 * (x * x) / 2 + c2 * (x * x * x) / 3 + c3 * (x * x * x * x) / 4 + c4 * (x * x * x * x * x) / 5.
Lemma pol_int c0 c1 c2 c3 c4 a b : is_RInt (pol c0 c1 c2 c3 c4) a b (Pol c0 c1 c2 c3 c4 b - Pol c0 c1 c2 c3 c4 a).
Proof.
  apply (is_RInt_derive (Pol c0 c1 c2 c3 c4) (pol c0 c1 c2 c3 c4)).
  - intros x _. unfold Pol, pol. auto_derive; [trivial|field].
  - intros x _. apply (ex_derive_continuous (pol c0 c1 c2 c3 c4) x). unfold pol. auto_derive. trivial.
Qed.
Lemma int_ext (f g : R -> R) (a b I J : R) : (forall x, f x = g x) -> I = J -> is_RInt f a b I -> is_RInt g a b J.
Proof. intros E <- H. apply (is_RInt_ext f g); [intros; apply E|exact H]. Qed.
Lemma simplex_ext g g' I J : (forall x y z, g x y z = g' x y z) -> I = J -> simplex_int g I -> simplex_int g' J.
Proof.
  intros E <- (G & H & A & B & C). exists G, H. split; [|auto]. intros u v. apply (is_RInt_ext (fun w => g u v w)); [intros; apply E|apply A].
Qed.
Lemma box_ext a b c g g' I J : (forall x y z, g x y z = g' x y z) -> I = J -> box_int a b c g I -> box_int a b c g' J.
Proof.
  intros E <- (G & H & A & B & C). exists G, H. split; [|auto]. intros u v. apply (is_RInt_ext (fun w => g u v w)); [intros; apply E|apply A].
Qed.
Lemma round_ext a b rad z0 z1 g g' I J : (forall x y z, g x y z = g' x y z) -> I = J -> round_int a b rad z0 z1 g I -> round_int a b rad z0 z1 g' J.
Proof.
  intros E <- (G & H & A & B & C). exists G, H. split; [|auto]. intros z r. eapply is_RInt_ext; [|apply A]. intros t _. cbv beta. rewrite E. reflexivity.
Qed.
Lemma simplex_quad k0 k1 k2 k3 q11 q22 q33 q12 q13 q23 :
  simplex_int (quad k0 k1 k2 k3 q11 q22 q33 q12 q13 q23) (k0 / 6 + (k1 + k2 + k3) / 24 + (q11 + q22 + q33) / 60 + (q12 + q13 + q23) / 120).
Proof.
  set (A0 := fun x y => k0 + k1 * x + k2 * y + q11 * (x * x) + q22 * (y * y) + q12 * (x * y)).
  set (A1 := fun x y => k3 + q13 * x + q23 * y).
  set (G := fun x y => Pol (A0 x y) (A1 x y) q33 0 0 (1 - x - y)).
  set (H := fun x : R => let s := 1 - x in
     (k0 + k1 * x + q11 * (x * x)) * (s * s / 2) + (k2 + q12 * x) * (s * s * s / 6) + q22 * (s * s * s * s / 12)
     + (k3 + q13 * x) * (s * s * s / 6) + q23 * (s * s * s * s / 24) + q33 * (s * s * s * s / 12)).
  exists G, H. split; [|split].
  - intros x y. eapply int_ext; [| |apply (pol_int (A0 x y) (A1 x y) q33 0 0 0 (1 - x - y))].
    + intros z. unfold pol, quad, A0, A1. ring.
    + unfold G, Pol. lra.
  - intros x. 
    set (s := 1 - x). set (B0 := k0 + k1 * x + q11 * (x * x)). set (B1 := k2 + q12 * x). set (C0 := k3 + q13 * x).
    (* (B0 + B1 y + q22 y^2)(s-y) + (C0 + q23 y)(s-y)^2/2 + q33 (s-y)^3/3 *)
    eapply int_ext; [| |apply (pol_int (B0 * s + C0 * s * s / 2 + q33 * s * s * s / 3)
       (B1 * s - B0 - C0 * s + q23 * s * s / 2 - q33 * s * s) (q22 * s - B1 + C0 / 2 - q23 * s + q33 * s) (- q22 + q23 / 2 - q33 / 3) 0 0 s)].
    + intros y. unfold pol, G, Pol, A0, A1, B0, B1, C0, s. field.
    + unfold H, Pol. cbv zeta. fold s. unfold B0, B1, C0. field.
  - set (d0 := k0 / 2 + k2 / 6 + q22 / 12 + k3 / 6 + q23 / 24 + q33 / 12).
    set (d1 := - k0 + k1 / 2 - k2 / 2 + q12 / 6 - q22 / 3 - k3 / 2 + q13 / 6 - q23 / 6 - q33 / 3).
    set (d2 := k0 / 2 - k1 + q11 / 2 + k2 / 2 - q12 / 2 + q22 / 2 + k3 / 2 - q13 / 2 + q23 / 4 + q33 / 2).
    set (d3 := k1 / 2 - q11 - k2 / 6 + q12 / 2 - q22 / 3 - k3 / 6 + q13 / 2 - q23 / 6 - q33 / 3).
    set (d4 := q11 / 2 - q12 / 6 + q22 / 12 - q13 / 6 + q23 / 24 + q33 / 12).
    eapply int_ext; [| |apply (pol_int d0 d1 d2 d3 d4 0 1)].
    + intros x. unfold pol, H, d0, d1, d2, d3, d4. field.
    + unfold Pol, d0, d1, d2, d3, d4. field.
Qed.
Lemma box_quad a b c k0 k1 k2 k3 q11 q22 q33 q12 q13 q23 :
  box_int a b c (quad k0 k1 k2 k3 q11 q22 q33 q12 q13 q23) (a * b * c * (k0 + q11 * (a * a) / 12 + q22 * (b * b) / 12 + q33 * (c * c) / 12)).
Proof.
  set (A0 := fun x y => k0 + k1 * x + k2 * y + q11 * (x * x) + q22 * (y * y) + q12 * (x * y)).
  exists (fun x y => c * (A0 x y + q33 * (c * c) / 12)), (fun x => b * c * (k0 + k1 * x + q11 * (x * x) + q22 * (b * b) / 12 + q33 * (c * c) / 12)).
  split; [|split].
  - intros x y. eapply int_ext; [| |apply (pol_int (A0 x y) (k3 + q13 * x + q23 * y) q33 0 0 (- (c/2)) (c/2))].
    + intros z. unfold pol, quad, A0. ring.
    + unfold Pol. field.
  - intros x. eapply int_ext; [| |apply (pol_int (c * (k0 + k1 * x + q11 * (x * x) + q33 * (c * c) / 12)) (c * (k2 + q12 * x)) (c * q22) 0 0 (- (b/2)) (b/2))].
    + intros y. unfold pol, A0. field.
    + unfold Pol. field.
  - eapply int_ext; [| |apply (pol_int (b * c * (k0 + q22 * (b * b) / 12 + q33 * (c * c) / 12)) (b * c * k1) (b * c * q11) 0 0 (- (a/2)) (a/2))].
    + intros x. unfold pol. field.
    + unfold Pol. field.
Qed.
(** trigonometric polynomials over a full turn *)
Lemma trig_int c0 c1 c2 c3 c4 c5 :
  is_RInt (fun t => c0 + c1 * cos t + c2 * sin t + c3 * (cos t * cos t) + c4 * (sin t * sin t) + c5 * (cos t * sin t)) 0 (2 * PI) (2 * PI * c0 + PI * (c3 + c4)).
Proof.
  set (F := fun t => c0 * t + c1 * sin t - c2 * cos t + c3 * ((t + sin t * cos t) / 2) + c4 * ((t - sin t * cos t) / 2) + c5 * (sin t * sin t / 2)).
  set (f := fun t => c0 + c1 * cos t + c2 * sin t + c3 * (cos t * cos t) + c4 * (sin t * sin t) + c5 * (cos t * sin t)).
  replace (2 * PI * c0 + PI * (c3 + c4)) with (F (2 * PI) - F 0).
  - apply (is_RInt_derive F f).
    + intros t _. unfold F, f. auto_derive; [trivial|]. pose proof (sin2_cos2 t) as S. unfold Rsqr in S.
      match goal with |- ?l = ?r => replace l with (r + (c3 + c4) / 2 * (1 - (sin t * sin t + cos t * cos t))) by field end.
      rewrite S. field.
    + intros t _. apply (ex_derive_continuous f t). unfold f. auto_derive. trivial.
  - unfold F. rewrite sin_0, cos_0, sin_2PI, cos_2PI. field.
Qed.
Definition rsec (a b : R) (rad : R -> R) k0 k3 q11 q22 q33 (z : R) : R :=
  PI * a * b * (rad z * rad z * (k0 + k3 * z + q33 * (z * z)) + rad z * rad z * (rad z * rad z) / 4 * (q11 * (a * a) + q22 * (b * b))).
Lemma round_quad a b rad z0 z1 k0 k1 k2 k3 q11 q22 q33 q12 q13 q23 I : is_RInt (rsec a b rad k0 k3 q11 q22 q33) z0 z1 I ->
  round_int a b rad z0 z1 (quad k0 k1 k2 k3 q11 q22 q33 q12 q13 q23) I.
Proof.
  intros HI. 
  exists (fun z r => 2 * PI * (a * b * r * (k0 + k3 * z + q33 * (z * z))) + PI * (a * b * r * (q11 * (a * a * r * r) + q22 * (b * b * r * r)))), (rsec a b rad k0 k3 q11 q22 q33).
  split; [|split]; [| |exact HI].
  - intros z r. eapply int_ext; [| |apply (trig_int (a * b * r * (k0 + k3 * z + q33 * (z * z))) (a * b * r * (a * r * (k1 + q13 * z))) (a * b * r * (b * r * (k2 + q23 * z)))
        (a * b * r * (q11 * (a * a * r * r))) (a * b * r * (q22 * (b * b * r * r))) (a * b * r * (q12 * (a * r * (b * r)))))].
    + intros t. unfold quad. ring.
    + ring.
  - intros z _. eapply int_ext; [| |apply (pol_int 0 (2 * PI * (a * b * (k0 + k3 * z + q33 * (z * z)))) 0 (PI * (a * b * (q11 * (a * a) + q22 * (b * b)))) 0 0 (rad z))].
    + intros r. unfold pol. ring.
    + unfold Pol, rsec. field.
Qed.

(** from moments to mass properties *)
Section Moments.
Variable int : (R -> R -> R -> R) -> R -> Prop.
Hypothesis Hext : forall g g' I J, (forall x y z, g x y z = g' x y z) -> I = J -> int g I -> int g' J.
Variables (V m S1 S2 S3 : R).
Hypothesis Hint : forall k0 k1 k2 k3 q11 q22 q33 q12 q13 q23,
  int (quad k0 k1 k2 k3 q11 q22 q33 q12 q13 q23) (V * k0 + V * m * k3 + S1 * q11 + S2 * q22 + (S3 + V * (m * m)) * q33).
Variables (o e1 e2 e3 : vec3).
Hypothesis HE : isometry (cols3 e1 e2 e3).
Lemma me_rel : dot e1 e1 = 1 /\ dot e2 e2 = 1 /\ dot e3 e3 = 1 /\ dot e1 e2 = 0 /\ dot e1 e3 = 0 /\ dot e2 e3 = 0.
Proof.
  pose proof HE as E. unfold isometry in E. pose proof (f_equal cxx E) as E1. pose proof (f_equal cyy E) as E2. pose proof (f_equal czz E) as E3.
  pose proof (f_equal cxy E) as E4. pose proof (f_equal cxz E) as E5. pose proof (f_equal cyz E) as E6. clear E HE. revert E1 E2 E3 E4 E5 E6. spec_unfold. intros. repeat split; lra.
Qed.
(** the completeness relation of an orthonormal basis *)
Lemma complete u w : dot u w = dot u e1 * dot w e1 + dot u e2 * dot w e2 + dot u e3 * dot w e3.
Proof.
  pose proof (iso_r _ HE) as E. assert (W : mvec (mmul (cols3 e1 e2 e3) (mtr (cols3 e1 e2 e3))) w = w) by (rewrite E; vring).
  rewrite <- W at 1. clear. spec_unfold. ring.
Qed.
Let c := vadd o (vscale m e3).
Lemma along_sub x y z : vsub (along o e1 e2 e3 x y z) c = vadd (vadd (vscale x e1) (vscale y e2)) (vscale (z - m) e3).
Proof. unfold along, c. vring. Qed.
Lemma dot_pi u p w : dot u (mvec (point_inertia p) w) = dot p p * dot u w - dot u p * dot w p.
Proof. unfold point_inertia. spec_unfold. ring. Qed.
(** the same about any other reference point *)
Lemma moments_mass_at rho r I : 
  (forall u w, dot u (mvec I w) = rho * ((S2 + S3) * (dot u e1 * dot w e1) + (S1 + S3) * (dot u e2 * dot w e2) + (S1 + S2) * (dot u e3 * dot w e3))) ->
  mass_properties int (along o e1 e2 e3) rho V c r (madd I (mscale (rho * V) (point_inertia (vsub c r)))).
Proof.
  intros HI. destruct me_rel as (R11 & R22 & R33 & R12 & R13 & R23). split; [|split].
  - eapply Hext; [| |apply (Hint 1 0 0 0 0 0 0 0 0 0)]; [intros; unfold quad; ring|ring].
  - intros u. eapply Hext; [| |apply (Hint (dot u o) (dot u e1) (dot u e2) (dot u e3) 0 0 0 0 0 0)].
    + intros. unfold quad, along. clear. spec_unfold. ring.
    + unfold c. clear. spec_unfold. ring.
  - intros u w. set (K := dot u w). set (d := vsub c r).
    set (u1 := dot u e1). set (u2 := dot u e2). set (u3 := dot u e3). set (w1 := dot w e1). set (w2 := dot w e2). set (w3 := dot w e3).
    set (ud := dot u d). set (wd := dot w d). set (d1 := dot d e1). set (d2 := dot d e2). set (d3 := dot d e3). set (dd := dot d d).
    set (l1 := 2 * d1 * K - ud * w1 - u1 * wd). set (l2 := 2 * d2 * K - ud * w2 - u2 * wd). set (l3 := 2 * d3 * K - ud * w3 - u3 * wd).
    eapply Hext; [| |apply (Hint (rho * (m * m * K - u3 * w3 * (m * m) - m * l3 + (dd * K - ud * wd))) (rho * (u1 * w3 * m + u3 * w1 * m + l1)) (rho * (u2 * w3 * m + u3 * w2 * m + l2))
       (rho * (- 2 * m * K + 2 * u3 * w3 * m + l3)) (rho * (K - u1 * w1)) (rho * (K - u2 * w2)) (rho * (K - u3 * w3))
       (rho * - (u1 * w2 + u2 * w1)) (rho * - (u1 * w3 + u3 * w1)) (rho * - (u2 * w3 + u3 * w2)))].
    + intros x y z. rewrite dot_pi. fold K.
      assert (SP : vsub (along o e1 e2 e3 x y z) r = vadd (vadd (vadd (vscale x e1) (vscale y e2)) (vscale (z - m) e3)) d) by (unfold d; rewrite <- along_sub; vring).
      rewrite SP.
      assert (PP : dot (vadd (vadd (vadd (vscale x e1) (vscale y e2)) (vscale (z - m) e3)) d) (vadd (vadd (vadd (vscale x e1) (vscale y e2)) (vscale (z - m) e3)) d)
        = x * x * dot e1 e1 + y * y * dot e2 e2 + (z - m) * (z - m) * dot e3 e3 + 2 * (x * y * dot e1 e2 + x * (z - m) * dot e1 e3 + y * (z - m) * dot e2 e3)
          + 2 * (x * dot d e1 + y * dot d e2 + (z - m) * dot d e3) + dot d d).
      { clearbody d. clear. spec_unfold. ring. }
      rewrite PP, R11, R22, R33, R12, R13, R23. fold d1 d2 d3 dd.
      assert (UP : forall v, dot v (vadd (vadd (vadd (vscale x e1) (vscale y e2)) (vscale (z - m) e3)) d) = dot v e1 * x + dot v e2 * y + dot v e3 * (z - m) + dot v d).
      { clearbody d. clear. intros. spec_unfold. ring. }
      rewrite !UP. fold u1 u2 u3 w1 w2 w3 ud wd. unfold quad, l1, l2, l3. ring.
    + assert (DI : dot u (mvec (madd I (mscale (rho * V) (point_inertia d))) w) = dot u (mvec I w) + rho * V * dot u (mvec (point_inertia d) w)) by (clear; spec_unfold; ring).
      rewrite DI, HI, dot_pi. fold K dd ud wd u1 u2 u3 w1 w2 w3.
      replace K with (u1 * w1 + u2 * w2 + u3 * w3) by (unfold K; rewrite (complete u w); reflexivity). ring.
Qed.
Lemma moments_mass rho :
  mass_properties int (along o e1 e2 e3) rho V c c (mscale rho (mmul (cols3 e1 e2 e3) (mmul (M3 (S2 + S3) 0 0 0 (S1 + S3) 0 0 0 (S1 + S2)) (mtr (cols3 e1 e2 e3))))).
Proof.
  destruct me_rel as (R11 & R22 & R33 & R12 & R13 & R23). split; [|split].
  - eapply Hext; [| |apply (Hint 1 0 0 0 0 0 0 0 0 0)]; [intros; unfold quad; ring|ring].
  - intros u. eapply Hext; [| |apply (Hint (dot u o) (dot u e1) (dot u e2) (dot u e3) 0 0 0 0 0 0)].
    + intros. unfold quad, along. clear. spec_unfold. ring.
    + unfold c. clear. spec_unfold. ring.
  - intros u w. set (K := dot u w).
    set (u1 := dot u e1). set (u2 := dot u e2). set (u3 := dot u e3). set (w1 := dot w e1). set (w2 := dot w e2). set (w3 := dot w e3).
    (* (x^2+y^2+(z-m)^2) K - (u1 x + u2 y + u3 (z-m)) (w1 x + w2 y + w3 (z-m)) *)
    eapply Hext; [| |apply (Hint (rho * (m * m * K - u3 * w3 * (m * m))) (rho * (u1 * w3 * m + u3 * w1 * m)) (rho * (u2 * w3 * m + u3 * w2 * m))
       (rho * (- 2 * m * K + 2 * u3 * w3 * m)) (rho * (K - u1 * w1)) (rho * (K - u2 * w2)) (rho * (K - u3 * w3))
       (rho * - (u1 * w2 + u2 * w1)) (rho * - (u1 * w3 + u3 * w1)) (rho * - (u2 * w3 + u3 * w2)))].
    + intros x y z. rewrite along_sub, dot_pi. fold K.
      assert (PP : dot (vadd (vadd (vscale x e1) (vscale y e2)) (vscale (z - m) e3)) (vadd (vadd (vscale x e1) (vscale y e2)) (vscale (z - m) e3))
        = x * x * dot e1 e1 + y * y * dot e2 e2 + (z - m) * (z - m) * dot e3 e3 + 2 * (x * y * dot e1 e2 + x * (z - m) * dot e1 e3 + y * (z - m) * dot e2 e3)).
      { clear. spec_unfold. ring. }
      rewrite PP, R11, R22, R33, R12, R13, R23.
      assert (UP : forall v, dot v (vadd (vadd (vscale x e1) (vscale y e2)) (vscale (z - m) e3)) = dot v e1 * x + dot v e2 * y + dot v e3 * (z - m)).
      { clear. intros. spec_unfold. ring. }
      rewrite !UP. fold u1 u2 u3 w1 w2 w3. unfold quad. ring.
    + assert (DI : dot u (mvec (mscale rho (mmul (cols3 e1 e2 e3) (mmul (M3 (S2 + S3) 0 0 0 (S1 + S3) 0 0 0 (S1 + S2)) (mtr (cols3 e1 e2 e3))))) w)
        = rho * ((S2 + S3) * (u1 * w1) + (S1 + S3) * (u2 * w2) + (S1 + S2) * (u3 * w3))).
      { unfold u1, u2, u3, w1, w2, w3. clear. spec_unfold. ring. }
      rewrite DI. unfold K. rewrite (complete u w). fold u1 u2 u3 w1 w2 w3. ring.
Qed.
End Moments.

(** ** the solids of the library *)
Lemma zrot_spec r m : zRotMat3D r m = mmul r (mmul m (mtr r)).
Proof. transitivity (mmul (zMulMat3DMat3D r m) (mtr r)); [apply zmmt_spec|]. transitivity (mmul (mmul r m) (mtr r)); [f_equal; apply zmm_spec|]. symmetry. apply mmul_assoc. Qed.
Lemma diag_form e1 e2 e3 rho d1 d2 d3 I : I = zRotMat3D (cols3 e1 e2 e3) (diag3 (rho * d1) (rho * d2) (rho * d3)) ->
  forall u w, dot u (mvec I w) = rho * (d1 * (dot u e1 * dot w e1) + d2 * (dot u e2 * dot w e2) + d3 * (dot u e3 * dot w e3)).
Proof. intros -> u w. rewrite zrot_spec. unfold diag3, zMat3DCreate, of_b. clear. spec_unfold. ring. Qed.
(** axially symmetric inertia does not depend on the choice of the transverse axes *)
Lemma axial_form e1 e2 e3 s1 s2 rho d1 d3 I : isometry (cols3 e1 e2 e3) -> isometry (cols3 s1 s2 e3) ->
  I = zRotMat3D (cols3 s1 s2 e3) (diag3 (rho * d1) (rho * d1) (rho * d3)) ->
  forall u w, dot u (mvec I w) = rho * (d1 * (dot u e1 * dot w e1) + d1 * (dot u e2 * dot w e2) + d3 * (dot u e3 * dot w e3)).
Proof.
  intros E S HI u w. rewrite (diag_form _ _ _ _ _ _ _ _ HI). pose proof (complete e1 e2 e3 E u w) as C1. pose proof (complete s1 s2 e3 S u w) as C2.
  replace (d1 * (dot u s1 * dot w s1) + d1 * (dot u s2 * dot w s2)) with (d1 * (dot u w - dot u e3 * dot w e3)) by (rewrite C2; ring).
  rewrite C1. ring.
Qed.
Lemma axis_att_ok z : 3 * zTOL <= norm z -> exists s1 s2 e, axis_att z = Some (cols3 s1 s2 e) /\ isometry (cols3 s1 s2 e) /\ vscale (norm z) e = z /\ dot e e = 1.
Proof.
  intros H. destruct (orthonormal_space_spec z H) as (u & s1 & s2 & E & S & N0 & N1 & N2 & D1 & D2 & D3 & X). exists s1, s2, u.
  unfold axis_att. rewrite E. split; [reflexivity|]. apply norm_unit in N0, N1, N2. split; [|auto].
  unfold isometry. clear - N0 N1 N2 D1 D2 D3. apply mat3_ext; revert N0 N1 N2 D1 D2 D3; spec_unfold; intros; lra.
Qed.

Lemma box_mass b rho ref : isometry (fatt (bframe b)) ->
  mass_properties (box_int (vx (bspan b)) (vy (bspan b)) (vz (bspan b))) (fun x y z => act (bframe b) (V3 x y z)) rho
    (zBox3DVolume b) (fpos (bframe b)) ref (madd (zBox3DBaryInertia b rho) (mscale (rho * zBox3DVolume b) (point_inertia (vsub (fpos (bframe b)) ref)))).
Proof.
  intros H. destruct b as [f sp]. destruct f as [p A]. destruct sp as [a b c]. cbn [bframe bspan fatt fpos vx vy vz] in *.
  assert (EA : A = cols3 (col0 A) (col1 A) (col2 A)) by (destruct A; reflexivity). 
  set (e1 := col0 A) in *. set (e2 := col1 A) in *. set (e3 := col2 A) in *.
  assert (HE : isometry (cols3 e1 e2 e3)) by (rewrite <- EA; exact H).
  pose proof (moments_mass_at (box_int a b c) (box_ext a b c) (a * b * c) 0 (a * b * c * (a * a) / 12) (a * b * c * (b * b) / 12) (a * b * c * (c * c) / 12)) as M.
  specialize (M ltac:(intros; eapply box_ext; [| |apply box_quad]; [reflexivity|field]) p e1 e2 e3 HE rho ref (zBox3DBaryInertia (BX (F3 p A) (V3 a b c)) rho)).
  replace (vadd p (vscale 0 e3)) with p in M by vring.
  assert (EP : forall x y z, along p e1 e2 e3 x y z = act (F3 p A) (V3 x y z)).
  { intros. unfold along, act. cbn [fpos fatt]. rewrite EA at 1. clear. spec_unfold. apply vec3_ext; spec_unfold; ring. }
  unfold mass_properties in M |- *. destruct M as (M1 & M2 & M3).
  { apply diag_form. unfold zBox3DBaryInertia, zBox3DBaryInertiaMass, zBox3DVolume, zBox3DSpan, diag3. cbn [bframe bspan fatt vx vy vz]. rewrite EA at 1. unfold zSqr. f_equal.
    unfold zMat3DCreate, of_b. apply mat3_ext; cbn; field. }
  assert (EV : zBox3DVolume (BX (F3 p A) (V3 a b c)) = a * b * c) by (unfold zBox3DVolume, zBox3DSpan; cbn; ring).
  rewrite EV. split; [exact M1|]. split.
  - intros u. eapply box_ext; [|reflexivity|apply M2]. intros. cbv beta. rewrite EP. reflexivity.
  - intros u w. eapply box_ext; [|reflexivity|apply M3]. intros. cbv beta. rewrite EP. reflexivity.
Qed.

Lemma round_moments a b rad z0 z1 V m S1 S2 S3 : 
  (forall k0 k3 q11 q22 q33, is_RInt (rsec a b rad k0 k3 q11 q22 q33) z0 z1 (V * k0 + V * m * k3 + S1 * q11 + S2 * q22 + (S3 + V * (m * m)) * q33)) ->
  forall k0 k1 k2 k3 q11 q22 q33 q12 q13 q23, round_int a b rad z0 z1 (quad k0 k1 k2 k3 q11 q22 q33 q12 q13 q23) (V * k0 + V * m * k3 + S1 * q11 + S2 * q22 + (S3 + V * (m * m)) * q33).
Proof. intros H *. apply round_quad, H. Qed.
Lemma int_ext_in (f g : R -> R) (a b I J : R) : a <= b -> (forall x, a < x < b -> f x = g x) -> I = J -> is_RInt f a b I -> is_RInt g a b J.
Proof. intros L E <- H. apply (is_RInt_ext f g); [|exact H]. intros x. rewrite Rmin_left, Rmax_right by exact L. apply E. Qed.
(** constant section *)
Lemma const_sec a b r h k0 k3 q11 q22 q33 :
  is_RInt (rsec a b (fun _ => r) k0 k3 q11 q22 q33) 0 h
    (PI * a * b * (r * r) * h * k0 + PI * a * b * (r * r) * h * (h / 2) * k3 + PI * a * b * (r * r) * h * (r * r) * (a * a) / 4 * q11
     + PI * a * b * (r * r) * h * (r * r) * (b * b) / 4 * q22 + (PI * a * b * (r * r) * h * (h * h) / 12 + PI * a * b * (r * r) * h * (h / 2 * (h / 2))) * q33).
Proof.
  eapply int_ext; [| |apply (pol_int (PI * a * b * (r * r * k0 + r * r * (r * r) / 4 * (q11 * (a * a) + q22 * (b * b)))) (PI * a * b * (r * r) * k3) (PI * a * b * (r * r) * q33) 0 0 0 h)].
  - intros z. unfold pol, rsec. field.
  - unfold Pol. field.
Qed.
(** conical section *)
Lemma cone_sec r h k0 k3 q11 q22 q33 : h <> 0 ->
  is_RInt (rsec 1 1 (fun z => r * (1 - z / h)) k0 k3 q11 q22 q33) 0 h
    (PI * (r * r) * h / 3 * k0 + PI * (r * r) * h / 3 * (h / 4) * k3 + PI * (r * r) * h / 3 * (r * r) * (3 / 20) * q11
     + PI * (r * r) * h / 3 * (r * r) * (3 / 20) * q22 + (PI * (r * r) * h / 3 * (h * h) * (3 / 80) + PI * (r * r) * h / 3 * (h / 4 * (h / 4))) * q33).
Proof.
  intros NZ. set (T := r * r * (r * r) / 4 * (q11 + q22)). set (k := / h).
  eapply int_ext; [| |apply (pol_int (PI * (r * r * k0 + T)) (PI * (r * r * (k3 - 2 * k * k0) - 4 * k * T)) (PI * (r * r * (q33 - 2 * k * k3 + k * k * k0) + 6 * (k * k) * T))
     (PI * (r * r * (- 2 * k * q33 + k * k * k3) - 4 * (k * k * k) * T)) (PI * (r * r * (k * k * q33) + k * k * k * k * T)) 0 h)].
  - intros z. unfold pol, rsec, T, k, Rdiv. field. exact NZ.
  - unfold Pol, T, k. field. exact NZ.
Qed.
(** elliptic section of an ellipsoid, half height c *)
Lemma ball_sec a b r c k0 k3 q11 q22 q33 : 0 < c ->
  is_RInt (rsec a b (fun z => sqrt (r * r * (1 - (z / c) * (z / c)))) k0 k3 q11 q22 q33) (- c) c
    (4 * PI * a * b * (r * r) * c / 3 * k0 + 4 * PI * a * b * (r * r) * c / 3 * 0 * k3 + 4 * PI * a * b * (r * r) * c / 3 * (r * r) * (a * a) / 5 * q11
     + 4 * PI * a * b * (r * r) * c / 3 * (r * r) * (b * b) / 5 * q22 + (4 * PI * a * b * (r * r) * c / 3 * (c * c) / 5 + 4 * PI * a * b * (r * r) * c / 3 * (0 * 0)) * q33).
Proof.
  intros P. set (T := r * r * (r * r) / 4 * (q11 * (a * a) + q22 * (b * b))). set (k := / (c * c)). set (w := PI * a * b).
  eapply int_ext_in; [lra| | |apply (pol_int (w * (r * r * k0 + T)) (w * (r * r * k3)) (w * (r * r * (q33 - k * k0) - 2 * k * T)) (w * (r * r * (- k * k3))) (w * (r * r * (- k * q33) + k * k * T)) (- c) c)].
  - intros z [Z1 Z2]. unfold rsec. 
    assert (Q : sqrt (r * r * (1 - z / c * (z / c))) * sqrt (r * r * (1 - z / c * (z / c))) = r * r * (1 - z / c * (z / c))).
    { apply sqrt_sqrt. apply Rmult_le_pos; [nra|]. assert (A : -1 <= z / c <= 1) by (split; apply (Rmult_le_reg_r c); try lra; unfold Rdiv; rewrite Rmult_assoc, Rinv_l by lra; lra). nra. }
    rewrite Q. unfold pol, T, k, w. field. lra.
  - unfold Pol, T, k, w. field. lra.
Qed.
Lemma axial_mass V m S1 S3 a b rad z0 z1 o e1 e2 e3 s1 s2 rho I ref : isometry (cols3 e1 e2 e3) -> isometry (cols3 s1 s2 e3) ->
  (forall k0 k3 q11 q22 q33, is_RInt (rsec a b rad k0 k3 q11 q22 q33) z0 z1 (V * k0 + V * m * k3 + S1 * q11 + S1 * q22 + (S3 + V * (m * m)) * q33)) ->
  I = zRotMat3D (cols3 s1 s2 e3) (diag3 (rho * (S1 + S3)) (rho * (S1 + S3)) (rho * (S1 + S1))) ->
  mass_properties (round_int a b rad z0 z1) (along o e1 e2 e3) rho V (vadd o (vscale m e3)) ref (madd I (mscale (rho * V) (point_inertia (vsub (vadd o (vscale m e3)) ref)))).
Proof.
  intros E S HI HT. apply (moments_mass_at _ (round_ext a b rad z0 z1) V m S1 S1 S3 (round_moments _ _ _ _ _ _ _ _ _ _ HI) o e1 e2 e3 E).
  exact (axial_form e1 e2 e3 s1 s2 rho (S1 + S3) (S1 + S1) I E S HT).
Qed.
Lemma cyl_mass c rho ref e1 e2 e3 : 3 * zTOL <= norm (vsub (cc1 c) (cc0 c)) -> isometry (cols3 e1 e2 e3) -> vscale (norm (vsub (cc1 c) (cc0 c))) e3 = vsub (cc1 c) (cc0 c) ->
  exists I, zCyl3DBaryInertia c rho = Some I /\
  mass_properties (round_int 1 1 (fun _ => crad c) 0 (norm (vsub (cc1 c) (cc0 c)))) (along (cc0 c) e1 e2 e3) rho
    (zCyl3DVolume c) (zCyl3DBarycenter c) ref (madd I (mscale (rho * zCyl3DVolume c) (point_inertia (vsub (zCyl3DBarycenter c) ref)))).
Proof.
  intros H E S. assert (HA : zCyl3DAxis c = vsub (cc1 c) (cc0 c)) by (unfold zCyl3DAxis; zvg; reflexivity).
  destruct (axis_att_ok _ H) as (s1 & s2 & e & EA & IS & SE & _).
  set (h := norm (vsub (cc1 c) (cc0 c))) in *. assert (HP : 0 < h) by (pose proof zTOL_pos; lra).
  assert (e = e3). { rewrite <- S in SE. apply (f_equal (vscale (/ h))) in SE. replace (vscale (/ h) (vscale h e)) with e in SE by (apply vec3_ext; spec_unfold; field; lra). rewrite SE. apply vec3_ext; spec_unfold; field; lra. } subst e.
  assert (HH : zVec3DSqrNorm (vsub (cc1 c) (cc0 c)) = h * h) by (unfold h; rewrite norm_sqr; reflexivity).
  eexists. unfold zCyl3DBaryInertia, zCyl3DBaryInertiaMass. rewrite HA, EA, HH. split; [reflexivity|].
  assert (EV : zCyl3DVolume c = PI * 1 * 1 * (crad c * crad c) * h) by (unfold zCyl3DVolume, zCyl3DHeight; rewrite HA; change (zVec3DNorm (vsub (cc1 c) (cc0 c))) with h; unfold zSqr; ring).
  assert (EB : zCyl3DBarycenter c = vadd (cc0 c) (vscale (h / 2) e3)).
  { replace (vscale (h / 2) e3) with (vscale (1 / 2) (vscale h e3)) by (clearbody h; clear; apply vec3_ext; spec_unfold; field). rewrite S. unfold zCyl3DBarycenter, zVec3DMid. replace 0.5 with (1 / 2) by lra. clear. apply vec3_ext; spec_unfold; field. }
  rewrite EV, EB. eapply axial_mass; [exact E|exact IS| |].
  - intros. eapply int_ext; [| |apply (const_sec 1 1 (crad c) h k0 k3 q11 q22 q33)]; [reflexivity|].
    instantiate (2 := PI * 1 * 1 * (crad c * crad c) * h * (crad c * crad c) / 4). instantiate (1 := PI * 1 * 1 * (crad c * crad c) * h * (h * h) / 12). field.
  - unfold zSqr. f_equal. unfold diag3, zMat3DCreate, of_b. apply mat3_ext; cbn; field.
Qed.
Lemma cone_mass c rho ref e1 e2 e3 : 3 * zTOL <= norm (vsub (kvert c) (kcen c)) -> isometry (cols3 e1 e2 e3) -> vscale (norm (vsub (kvert c) (kcen c))) e3 = vsub (kvert c) (kcen c) ->
  exists I, zCone3DBaryInertia c rho = Some I /\
  mass_properties (round_int 1 1 (fun z => krad c * (1 - z / norm (vsub (kvert c) (kcen c)))) 0 (norm (vsub (kvert c) (kcen c)))) (along (kcen c) e1 e2 e3) rho
    (zCone3DVolume c) (zCone3DBarycenter c) ref (madd I (mscale (rho * zCone3DVolume c) (point_inertia (vsub (zCone3DBarycenter c) ref)))).
Proof.
  intros H E S. assert (HA : zCone3DAxis c = vsub (kvert c) (kcen c)) by (unfold zCone3DAxis; zvg; reflexivity).
  destruct (axis_att_ok _ H) as (s1 & s2 & e & EA & IS & SE & _).
  set (h := norm (vsub (kvert c) (kcen c))) in *. assert (HP : 0 < h) by (pose proof zTOL_pos; lra).
  assert (e = e3). { rewrite <- S in SE. apply (f_equal (vscale (/ h))) in SE. replace (vscale (/ h) (vscale h e)) with e in SE by (apply vec3_ext; spec_unfold; field; lra). rewrite SE. apply vec3_ext; spec_unfold; field; lra. } subst e.
  assert (HH : zVec3DSqrNorm (vsub (kvert c) (kcen c)) = h * h) by (unfold h; rewrite norm_sqr; reflexivity).
  eexists. unfold zCone3DBaryInertia, zCone3DBaryInertiaMass. rewrite HA, EA, HH. split; [reflexivity|].
  assert (EV : zCone3DVolume c = PI * (krad c * krad c) * h / 3) by (unfold zCone3DVolume, zCone3DHeight; rewrite HA; change (zVec3DNorm (vsub (kvert c) (kcen c))) with h; unfold zSqr; field).
  assert (EB : zCone3DBarycenter c = vadd (kcen c) (vscale (h / 4) e3)).
  { replace (vscale (h / 4) e3) with (vscale (1 / 4) (vscale h e3)) by (clearbody h; clear; apply vec3_ext; spec_unfold; field). rewrite S. unfold zCone3DBarycenter, zVec3DInterDiv. clear. apply vec3_ext; spec_unfold; field. }
  rewrite EV, EB. eapply axial_mass; [exact E|exact IS| |].
  - intros. eapply int_ext; [| |apply (cone_sec (krad c) h k0 k3 q11 q22 q33); lra]; [reflexivity|].
    instantiate (2 := PI * (krad c * krad c) * h / 3 * (krad c * krad c) * (3 / 20)). instantiate (1 := PI * (krad c * krad c) * h / 3 * (h * h) * (3 / 80)). field.
  - unfold zSqr. f_equal. unfold diag3, zMat3DCreate, of_b. apply mat3_ext; cbn; field.
Qed.
Lemma ecyl_mass c rho ref e3 : ~ negligible (vsub (ec1 c) (ec0 c)) -> isometry (cols3 (ev0 c) (ev1 c) e3) -> vscale (norm (vsub (ec1 c) (ec0 c))) e3 = vsub (ec1 c) (ec0 c) ->
  mass_properties (round_int (er0 c) (er1 c) (fun _ => 1) 0 (norm (vsub (ec1 c) (ec0 c)))) (along (ec0 c) (ev0 c) (ev1 c) e3) rho
    (zECyl3DVolume c) (zECyl3DBarycenter c) ref (madd (zECyl3DBaryInertia c rho) (mscale (rho * zECyl3DVolume c) (point_inertia (vsub (zECyl3DBarycenter c) ref)))).
Proof.
  intros H E S. assert (HA : zECyl3DAxis c = vsub (ec1 c) (ec0 c)) by (unfold zECyl3DAxis; zvg; reflexivity).
  destruct (normDRC_ok _ H) as (e & EA & U & SE).
  assert (HH : zVec3DSqrNorm (vsub (ec1 c) (ec0 c)) = norm (vsub (ec1 c) (ec0 c)) * norm (vsub (ec1 c) (ec0 c))) by (rewrite norm_sqr; reflexivity).
  assert (HP : 0 < norm (vsub (ec1 c) (ec0 c))).
  { pose proof (norm_nonneg (vsub (ec1 c) (ec0 c))) as N. destruct (Rle_lt_or_eq_dec _ _ N) as [L|L]; [exact L|exfalso]. apply H.
    assert (Z : vsub (ec1 c) (ec0 c) = v3zero) by (apply norm_zero_iff; symmetry; exact L). rewrite Z. pose proof zTOL_pos. unfold negligible. spec_unfold. rewrite Rabs_R0. lra. }
  set (h := norm (vsub (ec1 c) (ec0 c))) in *.
  assert (e = e3). { rewrite <- S in SE. apply (f_equal (vscale (/ h))) in SE. replace (vscale (/ h) (vscale h e)) with e in SE by (apply vec3_ext; spec_unfold; field; lra). rewrite <- SE. apply vec3_ext; spec_unfold; field; lra. } subst e.
  assert (EV : zECyl3DVolume c = PI * er0 c * er1 c * (1 * 1) * h) by (unfold zECyl3DVolume, zECyl3DHeight; rewrite HA; change (zVec3DNorm (vsub (ec1 c) (ec0 c))) with h; ring).
  assert (EB : zECyl3DBarycenter c = vadd (ec0 c) (vscale (h / 2) e3)).
  { replace (vscale (h / 2) e3) with (vscale (1 / 2) (vscale h e3)) by (clearbody h; clear; apply vec3_ext; spec_unfold; field). rewrite S. unfold zECyl3DBarycenter, zVec3DMid. replace 0.5 with (1 / 2) by lra. clear. apply vec3_ext; spec_unfold; field. }
  rewrite EB, EV.
  eapply (moments_mass_at _ (round_ext _ _ _ _ _) _ (h / 2) _ _ _ (round_moments _ _ _ _ _ _ _ _ _ _ (const_sec (er0 c) (er1 c) 1 h)) (ec0 c) (ev0 c) (ev1 c) e3 E).
  apply diag_form. unfold zECyl3DBaryInertia, zECyl3DBaryInertiaMass. rewrite EV, HA, EA, HH. cbn [snd]. unfold zSqr. unfold of_b at 1. f_equal.
  unfold diag3, zMat3DCreate, of_b. apply mat3_ext; cbn; field.
Qed.
Lemma sphere_mass s rho ref e1 e2 e3 : 0 < srad s -> isometry (cols3 e1 e2 e3) ->
  mass_properties (round_int 1 1 (fun z => sqrt (srad s * srad s * (1 - (z / srad s) * (z / srad s)))) (- srad s) (srad s)) (along (scen s) e1 e2 e3) rho
    (zSphere3DVolume s) (scen s) ref (madd (zSphere3DBaryInertia s rho) (mscale (rho * zSphere3DVolume s) (point_inertia (vsub (scen s) ref)))).
Proof.
  intros P E. set (r := srad s) in *.
  assert (EV : zSphere3DVolume s = 4 * PI * 1 * 1 * (r * r) * r / 3) by (unfold zSphere3DVolume; fold r; field).
  pose proof (moments_mass_at _ (round_ext 1 1 (fun z => sqrt (r * r * (1 - (z / r) * (z / r)))) (- r) r) _ 0 _ _ _ (round_moments _ _ _ _ _ _ _ _ _ _ (fun k0 k3 q11 q22 q33 => ball_sec 1 1 r r k0 k3 q11 q22 q33 P)) (scen s) e1 e2 e3 E rho ref (zSphere3DBaryInertia s rho)) as M.
  replace (vadd (scen s) (vscale 0 e3)) with (scen s) in M by vring. rewrite EV. apply M. clear M.
  intros u w. unfold zSphere3DBaryInertia, zSphere3DBaryInertiaMass. rewrite EV. fold r. 
  set (d := 4 * PI * 1 * 1 * (r * r) * r / 3 * (r * r) * (1 * 1) / 5).
  transitivity (rho * (d + d) * dot u w).
  - unfold d, diag3, zMat3DCreate, of_b, zSqr. clear. spec_unfold. field.
  - rewrite (complete e1 e2 e3 E u w). unfold d. field.
Qed.
Lemma ellips_mass e rho ref : 0 < vz (elrad e) -> isometry (fatt (elf e)) ->
  mass_properties (round_int (vx (elrad e)) (vy (elrad e)) (fun z => sqrt (1 * 1 * (1 - (z / vz (elrad e)) * (z / vz (elrad e))))) (- vz (elrad e)) (vz (elrad e))) (fun x y z => act (elf e) (V3 x y z)) rho
    (zEllips3DVolume e) (fpos (elf e)) ref (madd (zEllips3DBaryInertia e rho) (mscale (rho * zEllips3DVolume e) (point_inertia (vsub (fpos (elf e)) ref)))).
Proof.
  intros P H. destruct e as [rd f dv]. destruct f as [p A]. destruct rd as [a b c]. cbn [elrad elf fatt fpos vx vy vz] in *.
  assert (EA : A = cols3 (col0 A) (col1 A) (col2 A)) by (destruct A; reflexivity). 
  set (e1 := col0 A) in *. set (e2 := col1 A) in *. set (e3 := col2 A) in *.
  assert (HE : isometry (cols3 e1 e2 e3)) by (rewrite <- EA; exact H).
  assert (EV : zEllips3DVolume (EL (V3 a b c) (F3 p A) dv) = 4 * PI * a * b * (1 * 1) * c / 3) by (unfold zEllips3DVolume; cbn; field).
  pose proof (moments_mass_at _ (round_ext a b (fun z => sqrt (1 * 1 * (1 - (z / c) * (z / c)))) (- c) c) _ 0 _ _ _ (round_moments _ _ _ _ _ _ _ _ _ _ (fun k0 k3 q11 q22 q33 => ball_sec a b 1 c k0 k3 q11 q22 q33 P)) p e1 e2 e3 HE rho ref (zEllips3DBaryInertia (EL (V3 a b c) (F3 p A) dv) rho)) as M.
  replace (vadd p (vscale 0 e3)) with p in M by vring.
  assert (EP : forall x y z, along p e1 e2 e3 x y z = act (F3 p A) (V3 x y z)).
  { intros. unfold along, act. cbn [fpos fatt]. rewrite EA at 1. clear. spec_unfold. apply vec3_ext; spec_unfold; ring. }
  unfold mass_properties in M |- *. destruct M as (M1 & M2 & M3).
  { apply diag_form. unfold zEllips3DBaryInertia, zEllips3DBaryInertiaMass. rewrite EV. cbn [elrad elf fatt vx vy vz]. rewrite EA at 1. unfold zSqr. f_equal.
    unfold diag3, zMat3DCreate, of_b. apply mat3_ext; cbn; field. }
  rewrite EV. split; [exact M1|]. split.
  - intros u. eapply round_ext; [|reflexivity|apply M2]. intros. cbv beta. rewrite EP. reflexivity.
  - intros u w. eapply round_ext; [|reflexivity|apply M3]. intros. cbv beta. rewrite EP. reflexivity.
Qed.
(** ** capsule *)
Lemma capsule_sec r h k0 k3 q11 q22 q33 : 0 <= r -> 0 <= h ->
  let V := PI * (r * r) * h + 4 * PI * (r * r * r) / 3 in
  let S1 := PI * (r * r * (r * r)) * (h / 4 + 4 * r / 15) in
  let S3 := PI * (r * r) * (h * h * h / 12 + r * (h * h) / 3 + r * r * h / 2 + 4 * (r * r * r) / 15) in
  is_RInt (rsec 1 1 (capsule_section r h) k0 k3 q11 q22 q33) (- r) (h + r) (V * k0 + V * (h / 2) * k3 + S1 * q11 + S1 * q22 + (S3 + V * (h / 2 * (h / 2))) * q33).
Proof.
  intros HR HH V S1 S3. set (T := (q11 + q22) / 4). set (s := r * r).
  (* section area^2/pi^.. = s - w^2 with w = z or z - h *)
  pose proof (pol_int (PI * (s * k0 + s * s * T)) (PI * (s * k3)) (PI * (s * q33 - k0 - 2 * s * T)) (PI * - k3) (PI * (T - q33)) (- r) 0) as A1.
  pose proof (pol_int (PI * (s * k0 + s * s * T)) (PI * (s * k3)) (PI * (s * q33)) 0 0 0 h) as A2.
  set (j0 := k0 + k3 * h + q33 * (h * h)). set (j3 := k3 + 2 * q33 * h).
  pose proof (pol_int 0 0 0 0 0 h (h + r)) as _.
  assert (A3 : is_RInt (fun z => pol (PI * (s * j0 + s * s * T)) (PI * (s * j3)) (PI * (s * q33 - j0 - 2 * s * T)) (PI * - j3) (PI * (T - q33)) (z - h)) h (h + r)
     (Pol (PI * (s * j0 + s * s * T)) (PI * (s * j3)) (PI * (s * q33 - j0 - 2 * s * T)) (PI * - j3) (PI * (T - q33)) r)).
  { pose proof (is_RInt_comp_lin (pol (PI * (s * j0 + s * s * T)) (PI * (s * j3)) (PI * (s * q33 - j0 - 2 * s * T)) (PI * - j3) (PI * (T - q33))) 1 (- h) h (h + r)) as L.
    specialize (L (Pol (PI * (s * j0 + s * s * T)) (PI * (s * j3)) (PI * (s * q33 - j0 - 2 * s * T)) (PI * - j3) (PI * (T - q33)) r)).
    eapply int_ext; [| |apply L]; [| reflexivity|].
    - intros z. unfold scal; cbn. unfold mult; cbn. rewrite Rmult_1_l. f_equal. ring.
    - replace (1 * h + - h) with 0 by ring. replace (1 * (h + r) + - h) with r by ring.
      eapply int_ext; [| |apply (pol_int (PI * (s * j0 + s * s * T)) (PI * (s * j3)) (PI * (s * q33 - j0 - 2 * s * T)) (PI * - j3) (PI * (T - q33)) 0 r)]; [reflexivity|unfold Pol; field]. }
  assert (Q : forall w, - r <= w <= r -> sqrt (s - w * w) * sqrt (s - w * w) = s - w * w) by (intros w W; apply sqrt_sqrt; unfold s; nra).
  assert (B1 : is_RInt (rsec 1 1 (capsule_section r h) k0 k3 q11 q22 q33) (- r) 0 (Pol (PI * (s * k0 + s * s * T)) (PI * (s * k3)) (PI * (s * q33 - k0 - 2 * s * T)) (PI * - k3) (PI * (T - q33)) 0 - Pol (PI * (s * k0 + s * s * T)) (PI * (s * k3)) (PI * (s * q33 - k0 - 2 * s * T)) (PI * - k3) (PI * (T - q33)) (- r))).
  { eapply int_ext_in; [lra| |reflexivity|exact A1]. intros z Z. unfold rsec, capsule_section. rewrite (proj2 (Rltb_true z 0)) by lra. fold s. rewrite Q by lra. unfold pol, T. field. }
  assert (B2 : is_RInt (rsec 1 1 (capsule_section r h) k0 k3 q11 q22 q33) 0 h (Pol (PI * (s * k0 + s * s * T)) (PI * (s * k3)) (PI * (s * q33)) 0 0 h - Pol (PI * (s * k0 + s * s * T)) (PI * (s * k3)) (PI * (s * q33)) 0 0 0)).
  { eapply int_ext_in; [lra| |reflexivity|exact A2]. intros z Z. unfold rsec, capsule_section. rewrite (proj2 (Rltb_false z 0)) by lra. rewrite (proj2 (Rltb_false h z)) by lra. fold s. unfold pol, T. field. }
  assert (B3 : is_RInt (rsec 1 1 (capsule_section r h) k0 k3 q11 q22 q33) h (h + r) (Pol (PI * (s * j0 + s * s * T)) (PI * (s * j3)) (PI * (s * q33 - j0 - 2 * s * T)) (PI * - j3) (PI * (T - q33)) r)).
  { eapply int_ext_in; [lra| |reflexivity|exact A3]. intros z Z. unfold rsec, capsule_section. rewrite (proj2 (Rltb_false z 0)) by lra. rewrite (proj2 (Rltb_true h z)) by lra. fold s. rewrite Q by lra. unfold pol, T, j0, j3. field. }
  pose proof (is_RInt_Chasles _ _ _ _ _ _ (is_RInt_Chasles _ _ _ _ _ _ B1 B2) B3) as C.
  eapply int_ext; [| |exact C]; [reflexivity|]. unfold plus; cbn. unfold Pol, T, j0, j3, V, S1, S3, s. field.
Qed.
Lemma capsule_mass c rho ref e1 e2 e3 : 0 <= crad c -> 3 * zTOL <= norm (vsub (cc1 c) (cc0 c)) -> isometry (cols3 e1 e2 e3) -> vscale (norm (vsub (cc1 c) (cc0 c))) e3 = vsub (cc1 c) (cc0 c) ->
  exists I, zCapsule3DBaryInertia c rho = Some I /\
  mass_properties (round_int 1 1 (capsule_section (crad c) (norm (vsub (cc1 c) (cc0 c)))) (- crad c) (norm (vsub (cc1 c) (cc0 c)) + crad c)) (along (cc0 c) e1 e2 e3) rho
    (zCapsule3DVolume c) (zCyl3DBarycenter c) ref (madd I (mscale (rho * zCapsule3DVolume c) (point_inertia (vsub (zCyl3DBarycenter c) ref)))).
Proof.
  intros HR H E S. assert (HA : zCyl3DAxis c = vsub (cc1 c) (cc0 c)) by (unfold zCyl3DAxis; zvg; reflexivity).
  destruct (axis_att_ok _ H) as (s1 & s2 & e & EA & IS & SE & _).
  set (h := norm (vsub (cc1 c) (cc0 c))) in *. assert (HP : 0 < h) by (pose proof zTOL_pos; lra).
  assert (e = e3). { rewrite <- S in SE. apply (f_equal (vscale (/ h))) in SE. replace (vscale (/ h) (vscale h e)) with e in SE by (apply vec3_ext; spec_unfold; field; lra). rewrite SE. apply vec3_ext; spec_unfold; field; lra. } subst e.
  eexists. unfold zCapsule3DBaryInertia. rewrite HA, EA. change (zVec3DNorm (vsub (cc1 c) (cc0 c))) with h. split; [reflexivity|].
  assert (EV : zCapsule3DVolume c = PI * (crad c * crad c) * h + 4 * PI * (crad c * crad c * crad c) / 3) by (unfold zCapsule3DVolume, zCyl3DVolume, zCyl3DHeight; rewrite HA; change (zVec3DNorm (vsub (cc1 c) (cc0 c))) with h; unfold zSqr; field).
  assert (EB : zCyl3DBarycenter c = vadd (cc0 c) (vscale (h / 2) e3)).
  { replace (vscale (h / 2) e3) with (vscale (1 / 2) (vscale h e3)) by (clearbody h; clear; apply vec3_ext; spec_unfold; field). rewrite S. unfold zCyl3DBarycenter, zVec3DMid. replace 0.5 with (1 / 2) by lra. clear. apply vec3_ext; spec_unfold; field. }
  rewrite EV, EB. eapply axial_mass; [exact E|exact IS| |].
  - intros. apply (capsule_sec (crad c) h k0 k3 q11 q22 q33 HR). lra.
  - unfold zSqr. f_equal. unfold diag3, zMat3DCreate, of_b. apply mat3_ext; cbn; field.
Qed.
(** ** tetrahedra *)
Lemma tetra_mass t rho : 
  mass_properties (tetra_int (tv0 t) (tv1 t) (tv2 t)) (along v3zero (tv0 t) (tv1 t) (tv2 t)) rho
    (zTri3DConeVolume t v3zero) (zTri3DConeBarycenter t v3zero) v3zero (zTri3DConeInertia t rho).
Proof.
  assert (EV : zTri3DConeVolume t v3zero = dot (tv0 t) (cross (tv1 t) (tv2 t)) / 6).
  { unfold zTri3DConeVolume. zvg. unfold zVec3DGrassmannProd. zvg. clear. spec_unfold. field. }
  rewrite cone_inertia_second. set (a := tv0 t) in *. set (b := tv1 t) in *. set (c := tv2 t) in *. set (D := dot a (cross b c)) in *.
  unfold mass_properties, tetra_int. fold D. split; [|split].
  - eapply simplex_ext; [| |apply (simplex_quad D 0 0 0 0 0 0 0 0 0)]; [intros; unfold quad; ring|rewrite EV; field].
  - intros u. eapply simplex_ext; [| |apply (simplex_quad 0 (D * dot u a) (D * dot u b) (D * dot u c) 0 0 0 0 0 0)].
    + intros. unfold quad, along. clearbody D. clear. spec_unfold. ring.
    + rewrite EV. unfold zTri3DConeBarycenter. zvg. fold a b c. clearbody D. clear. replace 0.25 with (1 / 4) by lra. spec_unfold. field.
  - intros u w. set (k := rho * D). set (K := dot u w).
    eapply simplex_ext; [| |apply (simplex_quad 0 0 0 0 (k * (dot a a * K - dot u a * dot w a)) (k * (dot b b * K - dot u b * dot w b)) (k * (dot c c * K - dot u c * dot w c))
      (k * (2 * dot a b * K - dot u a * dot w b - dot u b * dot w a)) (k * (2 * dot a c * K - dot u a * dot w c - dot u c * dot w a)) (k * (2 * dot b c * K - dot u b * dot w c - dot u c * dot w b)))].
    + intros x y z. rewrite dot_pi. fold K. unfold quad, along, k. clearbody K D. clear. spec_unfold. ring.
    + unfold k, K. unfold inertia_of_second, cone_second, cone_vol.
      assert (V6 : vol6 v3zero a b c = D) by (unfold D, vol6; clear; spec_unfold; ring). rewrite V6. clearbody D. clear. spec_unfold. field.
Qed.
