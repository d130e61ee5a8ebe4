(** Proofs: linear algebra of the small types; lines and edges in the plane. *)
From Verif Require Import Base Spec SpecGeom SpecFrame ModelVec ModelMat ModelEP ModelFrame Model2D ModelElem FactsVec FactsAlg FactsMat FactsEP FactsElem FactsTri FactsLine Facts2D.
Open Scope R_scope.

(** ** componentwise algebra *)
Lemma vec3_linear a b k : 
  zVec3DAdd a b = vadd a b /\ zVec3DSub a b = vadd a (vneg b) /\ zVec3DRev a = vneg a /\ zVec3DMul a k = vscale k a /\
  zVec3DCat a k b = vadd a (vscale k b) /\ zVec3DInnerProd a b = dot a b /\ zVec3DOuterProd a b = cross a b /\
  zVec3DTripleProd a b a = vsub (vscale (dot a a) b) (vscale (dot a b) a) /\
  zVec3DGrassmannProd a b (cross a b) = dot a a * dot b b - dot a b * dot a b /\ zVec3DNorm a = norm a /\ zVec3DDist a b = dist a b /\
  zVec3DInterDiv a b k = vadd (vscale (1 - k) a) (vscale k b) /\ zVec3DMid a b = vscale (1 / 2) (vadd a b) /\
  (forall i, (i < 3)%nat -> vnth (zVec3DAmp a b) i = vnth a i * vnth b i) /\ zVec3DWSqrNorm a b = dot a (zVec3DAmp a b).
Proof.
  assert (forall i, (i < 3)%nat -> vnth (zVec3DAmp a b) i = vnth a i * vnth b i) as AM.
  { intros i Hi. destruct i as [|[|[|i]]]; try lia; unfold vnth, zVec3DAmp; pcbn; ring. }
  repeat match goal with |- _ /\ _ => split end; try assumption; try reflexivity; try vring; try (unfold zVec3DGrassmannProd, zVec3DWSqrNorm, zVec3DAmp; zvg; spec_unfold; ring);
  try (unfold zVec3DTripleProd, zVec3DInterDiv, zVec3DMid; zvg; replace 0.5 with (1 / 2) by lra; apply vec3_ext; spec_unfold; try ring; field).
Qed.
Lemma vec3_equal a b : zVec3DEqual a b = true <-> negligible (vsub a b).
Proof. unfold zVec3DEqual, negligible, vsub; pcbn. rewrite !andb_true_iff, !zIsTiny_true. tauto. Qed.
Lemma vec6_linear a b k i : (i < 6)%nat ->
  vnth6 (zVec6DAdd a b) i = vnth6 a i + vnth6 b i /\ vnth6 (zVec6DSub a b) i = vnth6 a i - vnth6 b i /\
  vnth6 (zVec6DRev a) i = - vnth6 a i /\ vnth6 (zVec6DMul a k) i = k * vnth6 a i /\ vnth6 (zVec6DCat a k b) i = vnth6 a i + k * vnth6 b i /\
  (k = 0 -> zVec6DDiv a k = None) /\ (k <> 0 -> exists d, zVec6DDiv a k = Some d /\ k * vnth6 d i = vnth6 a i) /\
  (k <> 0 -> exists d, zVec6DDif a b k = Some d /\ vnth6 a i + k * vnth6 d i = vnth6 b i).
Proof.
  intros H. unfold zVec6DDif, zVec6DDiv. destruct a as [[a1 a2 a3] [a4 a5 a6]]; destruct b as [[b1 b2 b3] [b4 b5 b6]].
  assert (D : k <> 0 -> forall x, k * (1 / k * x) = x) by (intros; field; assumption).
  destruct (Reqb_reflect k 0) as [Z|Z];
  (repeat match goal with |- _ /\ _ => split end; try (intros; contradiction); try (intros; reflexivity)); try (intros _; eexists; split; [reflexivity|]);
  destruct i as [|[|[|[|[|[|i]]]]]]; try lia; unfold zVec6DAdd, zVec6DSub, zVec6DRev, zVec6DMul, zVec6DCat, vnth6; cbn; try reflexivity; try ring; field; exact Z.
Qed.
Lemma mat3_linear a b k v w :
  zMat3DAdd a b = madd a b /\ zMat3DSub a b = madd a (mscale (-1) b) /\ zMat3DRev a = mscale (-1) a /\ zMat3DMul a k = mscale k a /\
  zMat3DCat a k b = madd a (mscale k b) /\ zMat3DDyad v w = outer v w /\ zMat3DAddDyad a v w = madd a (outer v w) /\
  zMat3DSubDyad a v w = madd a (mscale (-1) (outer v w)) /\ zMulVec3DOuterProdMat3D v a = mmul (hat v) a /\
  zMat3DSqrNorm a = mtrace (mmul (mtr a) a) /\
  (k = 0 -> zMat3DDiv a k = None) /\ (k <> 0 -> exists d, zMat3DDiv a k = Some d /\ mscale k d = a).
Proof.
  assert (ME : forall x y : mat3, (forall r c, (r < 3)%nat -> (c < 3)%nat -> mnth x r c = mnth y r c) -> x = y).
  { intros x y H. apply mat3_ext;
    [apply (H 0 0)%nat | apply (H 1 0)%nat | apply (H 2 0)%nat | apply (H 0 1)%nat | apply (H 1 1)%nat | apply (H 2 1)%nat | apply (H 0 2)%nat | apply (H 1 2)%nat | apply (H 2 2)%nat]; lia. }
  clear ME. unfold zMat3DDiv. destruct (Reqb_reflect k 0) as [Z|Z];
  repeat match goal with |- _ /\ _ => split end; try (intros; contradiction); try (intros; reflexivity); try (intros _; eexists; split; [reflexivity|]);
  unfold zMat3DAdd, zMat3DSub, zMat3DRev, zMat3DMul, zMat3DCat, zMat3DDyad, zMat3DAddDyad, zMat3DSubDyad, zMulVec3DOuterProdMat3D, zMat3DSqrNorm, of_b, bx, by_, bz; zvg;
  try (apply mat3_ext; spec_unfold; ring); try (unfold mtrace; spec_unfold; ring); apply mat3_ext; spec_unfold; field; exact Z.
Qed.
Lemma vec2_linear a b k :
  zVec2DAdd a b = vadd2 a b /\ zVec2DSub a b = vadd2 a (vneg2 b) /\ zVec2DRev a = vneg2 a /\ zVec2DMul a k = vscale2 k a /\
  zVec2DCat a k b = vadd2 a (vscale2 k b) /\ zVec2DInnerProd a b = dot2 a b /\ zVec2DOuterProd a b = cross2 a b /\ zVec2DNorm a = norm_2 a /\ zVec2DDist a b = dist2 a b /\
  zVec2DInterDiv a b k = vadd2 (vscale2 (1 - k) a) (vscale2 k b) /\ zVec2DMid a b = vscale2 (1 / 2) (vadd2 a b).
Proof.
  repeat match goal with |- _ /\ _ => split end; try reflexivity; unfold zVec2DMid, zVec2DInterDiv, zVec2DCat, zVec2DSub; apply vec2_ext; unfold vadd2, vneg2, vscale2; pcbn; try ring; field.
Qed.
Lemma mat2_linear a b k v w i j : (i < 2)%nat -> (j < 2)%nat ->
  let e m := match i, j with 0%nat, 0%nat => dxx m | 0%nat, _ => dyx m | _, 0%nat => dxy m | _, _ => dyy m end in
  let c x := match i with 0%nat => x2 x | _ => y2 x end in let c' x := match j with 0%nat => x2 x | _ => y2 x end in
  e (zMat2DAdd a b) = e a + e b /\ e (zMat2DSub a b) = e a - e b /\ e (zMat2DMul a k) = k * e a /\ e (zMat2DDyad v w) = c v * c' w /\
  (k = 0 -> zMat2DDiv a k = None) /\ (k <> 0 -> exists d, zMat2DDiv a k = Some d /\ k * e d = e a).
Proof.
  intros Hi Hj e c c'. unfold zMat2DDiv. destruct (Reqb_reflect k 0) as [Z|Z];
  repeat match goal with |- _ /\ _ => split end; try (intros; contradiction); try (intros; reflexivity); try (intros _; eexists; split; [reflexivity|]);
  unfold e, c, c'; destruct i as [|[|i]]; try lia; destruct j as [|[|j]]; try lia;
  unfold zMat2DAdd, zMat2DSub, zMat2DMul, zMat2DDyad, zMat2DCreate; pcbn; try ring; field; exact Z.
Qed.
Lemma ep_linear p q k :
  zEPAdd p q = qadd p q /\ zEPSub p q = qadd p (qneg q) /\ zEPRev p = qneg p /\ zEPMul p k = qscale k p /\
  (zEPDif p q k = None <-> Rabs k < zTOL) /\ (zTOL <= Rabs k -> exists d, zEPDif p q k = Some d /\ qadd p (qscale k d) = q).
Proof.
  assert (QE : forall x y : quat, qw x = qw y -> qx x = qx y -> qy x = qy y -> qz x = qz y -> x = y).
  { intros [x1 x2' x3 x4] [y1 y2' y3 y4]; cbn; congruence. }
  split; [apply QE; reflexivity|]. split; [apply QE; cbn; unfold qneg; cbn; ring|]. split; [apply QE; reflexivity|]. split; [apply QE; reflexivity|].
  unfold zEPDif. destruct (zIsTiny k) eqn:E.
  - apply zIsTiny_true in E. split; [tauto|]. intros; lra.
  - pose proof (zIsTiny_false_neq _ E) as Z. apply zIsTiny_false in E. split; [split; [discriminate|intros; lra]|]. intros _. eexists; split; [reflexivity|].
    apply QE; cbn; field; exact Z.
Qed.
(** ** lines and edges in the plane and in space *)
Lemma line2_create p d : (zLine2DCreate p d = None <-> negligible2 d) /\
  (~ negligible2 d -> exists l, zLine2DCreate p d = Some l /\ lorg2 l = p /\ norm_2 (ldir2 l) = 1 /\ vscale2 (norm_2 d) (ldir2 l) = d).
Proof.
  unfold zLine2DCreate. destruct (zVec2DIsTiny d) eqn:E.
  - apply zVec2DIsTiny_true in E. split; [tauto|]. intros; contradiction.
  - pose proof E as E'. apply zVec2DIsTiny_false in E. split; [split; [discriminate|contradiction]|]. intros _. eexists; split; [reflexivity|].
    destruct (normalize2_ok d d E) as (u & A & B & C). unfold zVec2DNormalize in A. rewrite E' in A. injection A as <-. split; [reflexivity|]. split; [exact B|exact C].
Qed.
Lemma line2_two p q : ~ negligible2 (vsub2 q p) -> let l := zLine2DCreateTwoPoints p q in
  lorg2 l = p /\ norm_2 (ldir2 l) = 1 /\ on_line2 (lorg2 l) (ldir2 l) p /\ on_line2 (lorg2 l) (ldir2 l) q.
Proof.
  intros H l. unfold l, zLine2DCreateTwoPoints. change (zVec2DSub q p) with (vsub2 q p). destruct (normalize2_ok (vsub2 q p) (vsub2 q p) H) as (u & A & B & C). rewrite A. cbn [snd lorg2 ldir2].
  split; [reflexivity|]. split; [exact B|]. split; [exists 0; v2ring|]. exists (norm_2 (vsub2 q p)). rewrite C. v2ring.
Qed.
Lemma line3_two p q : ~ negligible (vsub q p) -> let l := zLine3DCreateTwoPoints p q in
  lorg l = p /\ norm (ldir l) = 1 /\ on_line (lorg l) (ldir l) p /\ on_line (lorg l) (ldir l) q.
Proof.
  intros H l. unfold l, zLine3DCreateTwoPoints. change (zVec3DSub q p) with (vsub q p). destruct (normalize3_ok (vsub q p) (vsub q p) H) as (u & A & B & C). unfold zVec3DNormalizeDRC. rewrite A. cbn [snd lorg ldir].
  split; [reflexivity|]. split; [exact B|]. split; [exists 0; vring|]. exists (norm (vsub q p)). rewrite C. vring.
Qed.
Lemma line2_proj l p : norm_2 (ldir2 l) = 1 ->
  nearest2 (on_line2 (lorg2 l) (ldir2 l)) p (zLine2DProjPoint l p) /\
  dot2 (vsub2 p (zLine2DProjPoint l p)) (ldir2 l) = 0 /\
  zLine2DDistFromPoint l p = dist2 p (zLine2DProjPoint l p).
Proof.
  intros U. pose proof (norm_2_sqr (ldir2 l)) as U2. rewrite U in U2. unfold zLine2DProjPoint, zLine2DPoint, zLine2DDistFromPoint, zVec2DOuterProdNorm.
  destruct l as [[o1 o2] [d1 d2]]; destruct p as [p1 p2]; cbn [lorg2 ldir2] in *. unfold zVec2DInnerProd, zVec2DSub, zVec2DCat, zVec2DOuterProd; pcbn.
  set (k := d1 * (p1 - o1) + d2 * (p2 - o2)).
  assert (N : d1 * d1 + d2 * d2 = 1) by (unfold dot2 in U2; pcbn; lra). clear U U2.
  split; [split|split].
  - exists k. reflexivity.
  - intros x [t ->]. apply norm_2_le_of_sqr. unfold dot2, vsub2, vadd2, vscale2; pcbn.
    assert ((p1 - (o1 + t * d1)) * (p1 - (o1 + t * d1)) + (p2 - (o2 + t * d2)) * (p2 - (o2 + t * d2)) - ((p1 - (o1 + k * d1)) * (p1 - (o1 + k * d1)) + (p2 - (o2 + k * d2)) * (p2 - (o2 + k * d2))) = (t - k) * (t - k)); [|pose proof (sqr_nonneg (t - k)); lra].
    replace ((t - k) * (t - k)) with ((t * t - k * k) * (d1 * d1 + d2 * d2) - 2 * (t - k) * k) by (rewrite N; ring). unfold k. ring.
  - unfold dot2, vsub2; pcbn. transitivity (k - k * (d1 * d1 + d2 * d2)); [unfold k; ring|rewrite N; ring].
  - unfold dist2, norm_2. rewrite <- sqrt_Rsqr_abs. f_equal. unfold Rsqr, dot2, vsub2; pcbn.
    transitivity (((p1 - o1) * (p1 - o1) + (p2 - o2) * (p2 - o2)) * (d1 * d1 + d2 * d2) - k * k); [unfold k; ring|].
    rewrite N. transitivity ((p1 - o1) * (p1 - o1) + (p2 - o2) * (p2 - o2) - 2 * k * k + k * k * (d1 * d1 + d2 * d2)); [rewrite N; ring|unfold k; ring].
Qed.
Lemma line2_on l p m : norm_2 (ldir2 l) = 1 ->
  zLine2DPointIsOn l p m = true <-> exists x, on_line2 (lorg2 l) (ldir2 l) x /\ dist2 p x < m.
Proof.
  intros U. destruct (line2_proj l p U) as ([H1 H2] & _ & H3). unfold zLine2DPointIsOn. rewrite Rltb_true, H3. split.
  - intros H. eexists; split; [exact H1|assumption].
  - intros (x & Hx & Hd). specialize (H2 x Hx). lra.
Qed.
Lemma on_line_scale o d u k : k <> 0 -> vscale k u = d -> forall x, on_line o u x <-> on_line o d x.
Proof.
  intros K E x. split.
  - intros [t ->]. exists (t / k). rewrite <- E. apply vec3_ext; spec_unfold; field; exact K.
  - intros [t ->]. exists (t * k). rewrite <- E. vring.
Qed.
Lemma edge_proj e p old : ~ negligible (vsub (ev1 e) (ev0 e)) ->
  nearest (on_line (ev0 e) (vsub (ev1 e) (ev0 e))) p (zEdge3DProjPoint e p old) /\
  (forall m, 0 <= m -> zEdge3DPointIsOnLine e p m old = true <-> negligible (vsub p (ev0 e)) \/ exists x, on_line (ev0 e) (vsub (ev1 e) (ev0 e)) x /\ dist p x < m).
Proof.
  intros H. unfold zEdge3DProjPoint, zEdge3DPointIsOnLine, zEdge3DVec. change (zVec3DSub (ev1 e) (ev0 e)) with (vsub (ev1 e) (ev0 e)).
  destruct (normalize3_ok (vsub (ev1 e) (ev0 e)) old H) as (u & A & B & C). rewrite A. cbn [snd].
  assert (K : norm (vsub (ev1 e) (ev0 e)) <> 0). { intros Z. apply norm_zero_iff in Z. rewrite Z in H. apply H. pose proof zTOL_pos. unfold negligible, v3zero; pcbn. rewrite Rabs_R0. auto. }
  pose proof (on_line_scale (ev0 e) _ _ _ K C) as OL.
  destruct (line_proj (L3 (ev0 e) u) p B) as ((N1 & N2) & _ & N3). cbn [lorg ldir] in *.
  assert (PE : zVec3DCat (ev0 e) (zVec3DInnerProd (zVec3DSub p (ev0 e)) u) u = zLine3DProjPoint (L3 (ev0 e) u) p).
  { unfold zLine3DProjPoint, zLine3DPoint; cbn [lorg ldir]. zvg. f_equal. f_equal. spec_unfold; ring. }
  split.
  - rewrite PE. split; [apply OL, N1|]. intros x Hx. apply N2, OL, Hx.
  - intros m Hm. change (zVec3DSub p (ev0 e)) with (vsub p (ev0 e)). destruct (zVec3DIsTiny (vsub p (ev0 e))) eqn:T.
    + apply zVec3DIsTiny_true in T. tauto.
    + apply zVec3DIsTiny_false in T. rewrite Rltb_true. change (zVec3DOuterProdNorm (vsub p (ev0 e)) u) with (zLine3DDistFromPoint (L3 (ev0 e) u) p). rewrite N3. split.
      * intros L. right. eexists; split; [apply OL, N1|exact L].
      * intros [L|(x & X & L)]; [contradiction|]. specialize (N2 x (proj2 (OL x) X)). lra.
Qed.
Lemma tri_flip v0 v1 v2 t : zTri3DCreate v0 v1 v2 = (true, t) -> exists t', zTri3DFlip t = (true, t') /\ zTri3DCreateFlip v0 v1 v2 = (true, t') /\
  tnorm t' = vneg (tnorm t) /\ (forall p, in_triangle (tv0 t') (tv1 t') (tv2 t') p <-> in_triangle v0 v1 v2 p) /\ zTri3DFlip t' = (true, t).
Proof.
  unfold zTri3DCreateFlip, zTri3DFlip, zTri3DCreate, triOuterProd. zvg.
  assert (C : forall a b c, cross (vsub c a) (vsub b c) = vneg (cross (vsub b a) (vsub c b))) by (intros; vring). intros E.
  destruct (zVec3DIsTiny (cross (vsub v1 v0) (vsub v2 v1))) eqn:T; [discriminate|]. injection E as <-. cbn [tv0 tv1 tv2 tnorm]. rewrite !(C v0 v1 v2).
  pose proof T as T0. apply zVec3DIsTiny_false in T0. set (n := cross (vsub v1 v0) (vsub v2 v1)) in *.
  assert (T' : zVec3DIsTiny (vneg n) = false). { apply zVec3DIsTiny_false. intros (A & B & D). apply T0. unfold negligible, vneg in *; pcbn. rewrite !Rabs_Ropp in *. auto. }
  rewrite T'. eexists; split; [reflexivity|]. split; [reflexivity|]. cbn [tv0 tv1 tv2 tnorm]. rewrite normalizeDRC_ok by (apply zVec3DIsTiny_false, T'). rewrite normalizeDRC_ok by exact T0.
  assert (N : norm (vneg n) = norm n) by (unfold norm; f_equal; spec_unfold; ring).
  split; [rewrite N; vring|]. split.
  - intros p. split; intros (a & b & c & (W1 & W2 & W3 & W4) & ->); exists a, c, b; (split; [repeat split; lra|]); cvring.
  - zvg. fold n. rewrite T. rewrite normalizeDRC_ok by exact T0. reflexivity.
Qed.
