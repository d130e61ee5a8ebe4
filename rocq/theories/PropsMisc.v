(** Properties C66-C69, and further parts of C22 and C24: angles between vectors, attitude
    increments, orthonormalisation, linear algebra, lines in the plane. *)
From Verif Require Import Base Spec SpecGeom SpecFrame ModelVec ModelMat ModelEP ModelFrame Model2D ModelElem FactsVec FactsAlg FactsMat FactsRot FactsElem FactsMisc FactsMisc2.
Open Scope R_scope.

(** * C66 angles *)
(** the unsigned angle *)
Theorem C66_angle : forall a b, let t := zVec3DAngle a b None in
  0 <= t <= PI /\ dot a b = norm a * norm b * cos t /\ norm (cross a b) = norm a * norm b * sin t.
Proof. exact angle_plain. Qed.
Print Assumptions C66_angle.
(** the signed angle about n turns the first direction into the second *)
Theorem C66_angle_about : forall a b n, norm n = 1 -> dot n a = 0 -> dot n b = 0 ->
  let t := zVec3DAngle a b (Some n) in - PI < t <= PI /\ vscale (norm a) b = vscale (norm b) (rodrigues n t a).
Proof. exact angle_about. Qed.
Print Assumptions C66_angle_about.
Theorem C66_antisymmetric : forall a b n, zVec3DAngle b a None = zVec3DAngle a b None /\
  (dot (cross a b) n <> 0 -> zVec3DAngle b a (Some n) = - zVec3DAngle a b (Some n)).
Proof. exact angle_symmetry. Qed.
Print Assumptions C66_antisymmetric.
(** in the plane *)
Theorem C66_angle2 : forall a b, let t := zVec2DAngle a b in - PI < t <= PI /\ vscale2 (norm_2 a) b = vscale2 (norm_2 b) (mvec2 (rot2 t) a).
Proof. exact angle2_ok. Qed.
Print Assumptions C66_angle2.
(** the rotation vector between two vectors that are not parallel *)
Theorem C66_error : forall a b, ~ negligible (cross a b) ->
  let aa := zVec3DAAError a b in
  norm aa = zVec3DAngle a b None /\ dot aa a = 0 /\ dot aa b = 0 /\
  (~ negligible aa -> exists r, zVec3DRot a aa = Some r /\ vscale (norm a) b = vscale (norm b) r).
Proof. exact aaerror_ok. Qed.
Print Assumptions C66_error.
Theorem C66_error_parallel : forall a b, negligible (cross a b) -> zVec3DAAError a b = v3zero.
Proof. exact aaerror_parallel. Qed.
Print Assumptions C66_error_parallel.
(** for opposite vectors the documented effect (v1 turned becomes parallel to v2, in the same sense) fails: no rotation is returned although the angle is PI *)
Theorem C66_error_opposite_refuted : exists a b r, norm a = 1 /\ norm b = 1 /\ zVec3DAngle a b None = PI /\
  zVec3DRot a (zVec3DAAError a b) = Some r /\ vscale (norm a) b <> vscale (norm b) r.
Proof. exact aaerror_opposite. Qed.
Print Assumptions C66_error_opposite_refuted.
Theorem C66_polar : forall r t p, norm (zVec3DCreatePolar r t p) = Rabs r /\
  (0 < r -> 0 <= t <= PI -> zVec3DAngle (V3 0 0 1) (zVec3DCreatePolar r t p) None = t) /\
  (0 < r -> 0 < t < PI -> - PI < p <= PI -> atan2 (vy (zVec3DCreatePolar r t p)) (vx (zVec3DCreatePolar r t p)) = p).
Proof. exact polar_ok. Qed.
Print Assumptions C66_polar.
Theorem C66_quarter_turn : forall v, zVec2DRot90CCW v = mvec2 (rot2 (PI / 2)) v /\ zVec2DRot90CW v = mvec2 (rot2 (- (PI / 2))) v.
Proof. exact rot90_ok. Qed.
Print Assumptions C66_quarter_turn.
(** hypotheses are met *)
Example C66_ex : norm (V3 0 0 1) = 1 /\ dot (V3 0 0 1) (V3 1 0 0) = 0 /\ dot (V3 0 0 1) (V3 0 1 0) = 0 /\ ~ negligible (cross (V3 1 0 0) (V3 0 1 0)).
Proof. exact angle_example. Qed.

(** * C67 attitude increments *)
Theorem C67_difference : forall v w dt, (zVec3DDif v w dt = None <-> dt = 0) /\ (dt <> 0 -> exists d, zVec3DDif v w dt = Some d /\ vadd v (vscale dt d) = w).
Proof. exact vdif_ok. Qed.
Print Assumptions C67_difference.
(** turning by w for time dt and differentiating gives w back *)
Theorem C67_integrate : forall m w dt, rotation m -> ~ negligible (vscale dt w) -> norm (vscale dt w) < PI -> zTOL <= 2 * sin (norm (vscale dt w)) -> dt <> 0 ->
  zMat3DDif m (zMat3DRotCat m w dt) dt = Some w.
Proof. exact rotcat_dif. Qed.
Print Assumptions C67_integrate.
(** differentiating and turning reaches the second attitude *)
Theorem C67_differentiate : forall m m' dt w, rotation m -> rotation m' -> let r := mmul m' (mtr m) in norm (skewv r) = 0 \/ 4 * zTOL <= norm (skewv r) ->
  zMat3DDif m m' dt = Some w -> zMat3DRotCat m w dt = m'.
Proof. exact dif_rotcat. Qed.
Print Assumptions C67_differentiate.
Theorem C67_cascade : forall a b, let r := mmul (zMat3DFromAA b) (zMat3DFromAA a) in norm (skewv r) = 0 \/ 4 * zTOL <= norm (skewv r) ->
  forall v, zVec3DRot v (zAACascade a b) = match zVec3DRot v a with Some w => zVec3DRot w b | None => None end.
Proof. exact aa_compose. Qed.
Print Assumptions C67_cascade.
Theorem C67_error : forall a b, let r := mmul (zMat3DFromAA a) (mtr (zMat3DFromAA b)) in norm (skewv r) = 0 \/ 4 * zTOL <= norm (skewv r) ->
  mmul (zMat3DFromAA (zAAError a b)) (zMat3DFromAA b) = zMat3DFromAA a.
Proof. exact aa_error. Qed.
Print Assumptions C67_error.
Theorem C67_change_of_basis : forall r m, rotation r -> zRotMat3DInv r (zRotMat3D r m) = m /\ zRotMat3D r (zRotMat3DInv r m) = m /\
  zRotMat3D r m = mmul r (mmul m (mtr r)) /\ mtrace (zRotMat3D r m) = mtrace m /\ mdet (zRotMat3D r m) = mdet m.
Proof. exact rotmat_ok. Qed.
Print Assumptions C67_change_of_basis.
Example C67_ex : ~ negligible (vscale (1 / 2) (V3 0 0 (PI / 2))) /\ norm (vscale (1 / 2) (V3 0 0 (PI / 2))) < PI /\ zTOL <= 2 * sin (norm (vscale (1 / 2) (V3 0 0 (PI / 2)))).
Proof. exact rotcat_example. Qed.

(** * C68 orthonormalisation *)
(** always orthonormal; right-handed exactly when the axes are given in cyclic order *)
Theorem C68_orthonormalize : forall src i j, (i < 3)%nat -> (j < 3)%nat ->
  (i = j -> zMat3DOrthonormalize src i j = None) /\
  (i <> j -> ~ negligible (mcol src i) -> ~ negligible (residual (mcol src j) (mcol src i)) ->
    exists m k1 k2, zMat3DOrthonormalize src i j = Some m /\ mmul (mtr m) m = mid /\
      0 < k1 /\ mcol src i = vscale k1 (mcol m i) /\ 0 < k2 /\ residual (mcol src j) (mcol src i) = vscale k2 (mcol m j) /\ 0 < dot (mcol m j) (mcol src j) /\
      mdet m = (if Nat.eqb ((i + 1) mod 3) j then 1 else -1)).
Proof. exact orthonormalize_ok. Qed.
Print Assumptions C68_orthonormalize.
Theorem C68_check_orthonormal : forall m, zMat3DIsOrthonormal m = true <->
  forall r c, (r < 3)%nat -> (c < 3)%nat -> Rabs (mnth (mmul (mtr m) m) r c - mnth mid r c) < zTOL.
Proof. exact isorthonormal_ok. Qed.
Print Assumptions C68_check_orthonormal.
Theorem C68_check_righthand : forall m, zMat3DIsRightHand m = true <-> 0 < mdet m.
Proof. exact isrighthand_ok. Qed.
Print Assumptions C68_check_righthand.
Theorem C68_rotations_pass : forall m, rotation m -> zMat3DIsOrthonormal m = true /\ zMat3DIsRightHand m = true.
Proof. exact ident_checks. Qed.
Print Assumptions C68_rotations_pass.
(** a right-handed matrix can be turned into a left-handed one *)
Theorem C68_lefthand_refuted : exists m', zMat3DOrthonormalize mid 0 2 = Some m' /\ mdet mid = 1 /\ mdet m' = -1.
Proof. exact orthonormalize_left. Qed.
Print Assumptions C68_lefthand_refuted.
(** * C69 linear algebra of the small types *)
Theorem C69_vec3 : forall a b k, zVec3DAdd a b = vadd a b /\ zVec3DSub a b = vadd a (vneg b) /\ zVec3DRev a = vneg a /\ zVec3DMul a k = vscale k a /\
  zVec3DCat a k b = vadd a (vscale k b) /\ zVec3DInnerProd a b = dot a b /\ zVec3DOuterProd a b = cross a b /\
  zVec3DTripleProd a b a = vsub (vscale (dot a a) b) (vscale (dot a b) a) /\
  zVec3DGrassmannProd a b (cross a b) = dot a a * dot b b - dot a b * dot a b /\ zVec3DNorm a = norm a /\ zVec3DDist a b = dist a b /\
  zVec3DInterDiv a b k = vadd (vscale (1 - k) a) (vscale k b) /\ zVec3DMid a b = vscale (1 / 2) (vadd a b) /\
  (forall i, (i < 3)%nat -> vnth (zVec3DAmp a b) i = vnth a i * vnth b i) /\ zVec3DWSqrNorm a b = dot a (zVec3DAmp a b).
Proof. exact vec3_linear. Qed.
Print Assumptions C69_vec3.
Theorem C69_equal : forall a b, zVec3DEqual a b = true <-> negligible (vsub a b).
Proof. exact vec3_equal. Qed.
Print Assumptions C69_equal.
Theorem C69_vec6 : forall a b k i, (i < 6)%nat ->
  vnth6 (zVec6DAdd a b) i = vnth6 a i + vnth6 b i /\ vnth6 (zVec6DSub a b) i = vnth6 a i - vnth6 b i /\
  vnth6 (zVec6DRev a) i = - vnth6 a i /\ vnth6 (zVec6DMul a k) i = k * vnth6 a i /\ vnth6 (zVec6DCat a k b) i = vnth6 a i + k * vnth6 b i /\
  (k = 0 -> zVec6DDiv a k = None) /\ (k <> 0 -> exists d, zVec6DDiv a k = Some d /\ k * vnth6 d i = vnth6 a i) /\
  (k <> 0 -> exists d, zVec6DDif a b k = Some d /\ vnth6 a i + k * vnth6 d i = vnth6 b i).
Proof. exact vec6_linear. Qed.
Print Assumptions C69_vec6.
Theorem C69_mat3 : forall a b k v w, zMat3DAdd a b = madd a b /\ zMat3DSub a b = madd a (mscale (-1) b) /\ zMat3DRev a = mscale (-1) a /\ zMat3DMul a k = mscale k a /\
  zMat3DCat a k b = madd a (mscale k b) /\ zMat3DDyad v w = outer v w /\ zMat3DAddDyad a v w = madd a (outer v w) /\
  zMat3DSubDyad a v w = madd a (mscale (-1) (outer v w)) /\ zMulVec3DOuterProdMat3D v a = mmul (hat v) a /\
  zMat3DSqrNorm a = mtrace (mmul (mtr a) a) /\
  (k = 0 -> zMat3DDiv a k = None) /\ (k <> 0 -> exists d, zMat3DDiv a k = Some d /\ mscale k d = a).
Proof. exact mat3_linear. Qed.
Print Assumptions C69_mat3.
Theorem C69_vec2 : forall a b k, zVec2DAdd a b = vadd2 a b /\ zVec2DSub a b = vadd2 a (vneg2 b) /\ zVec2DRev a = vneg2 a /\ zVec2DMul a k = vscale2 k a /\
  zVec2DCat a k b = vadd2 a (vscale2 k b) /\ zVec2DInnerProd a b = dot2 a b /\ zVec2DOuterProd a b = cross2 a b /\ zVec2DNorm a = norm_2 a /\ zVec2DDist a b = dist2 a b /\
  zVec2DInterDiv a b k = vadd2 (vscale2 (1 - k) a) (vscale2 k b) /\ zVec2DMid a b = vscale2 (1 / 2) (vadd2 a b).
Proof. exact vec2_linear. Qed.
Print Assumptions C69_vec2.
Theorem C69_mat2 : forall a b k v w i j, (i < 2)%nat -> (j < 2)%nat ->
  let e m := match i, j with 0%nat, 0%nat => dxx m | 0%nat, _ => dyx m | _, 0%nat => dxy m | _, _ => dyy m end in
  let c x := match i with 0%nat => x2 x | _ => y2 x end in let c' x := match j with 0%nat => x2 x | _ => y2 x end in
  e (zMat2DAdd a b) = e a + e b /\ e (zMat2DSub a b) = e a - e b /\ e (zMat2DMul a k) = k * e a /\ e (zMat2DDyad v w) = c v * c' w /\
  (k = 0 -> zMat2DDiv a k = None) /\ (k <> 0 -> exists d, zMat2DDiv a k = Some d /\ k * e d = e a).
Proof. exact mat2_linear. Qed.
Print Assumptions C69_mat2.
Theorem C69_ep : forall p q k, zEPAdd p q = qadd p q /\ zEPSub p q = qadd p (qneg q) /\ zEPRev p = qneg p /\ zEPMul p k = qscale k p /\
  (zEPDif p q k = None <-> Rabs k < zTOL) /\ (zTOL <= Rabs k -> exists d, zEPDif p q k = Some d /\ qadd p (qscale k d) = q).
Proof. exact ep_linear. Qed.
Print Assumptions C69_ep.
(** * further parts of C22 and C24 *)
Theorem C22_flip : forall v0 v1 v2 t, zTri3DCreate v0 v1 v2 = (true, t) -> exists t', zTri3DFlip t = (true, t') /\ zTri3DCreateFlip v0 v1 v2 = (true, t') /\
  tnorm t' = vneg (tnorm t) /\ (forall p, in_triangle (tv0 t') (tv1 t') (tv2 t') p <-> in_triangle v0 v1 v2 p) /\ zTri3DFlip t' = (true, t).
Proof. exact tri_flip. Qed.
Print Assumptions C22_flip.
Theorem C24_create2 : forall p d, (zLine2DCreate p d = None <-> negligible2 d) /\
  (~ negligible2 d -> exists l, zLine2DCreate p d = Some l /\ lorg2 l = p /\ norm_2 (ldir2 l) = 1 /\ vscale2 (norm_2 d) (ldir2 l) = d).
Proof. exact line2_create. Qed.
Print Assumptions C24_create2.
Theorem C24_two_points2 : forall p q, ~ negligible2 (vsub2 q p) -> let l := zLine2DCreateTwoPoints p q in
  lorg2 l = p /\ norm_2 (ldir2 l) = 1 /\ on_line2 (lorg2 l) (ldir2 l) p /\ on_line2 (lorg2 l) (ldir2 l) q.
Proof. exact line2_two. Qed.
Print Assumptions C24_two_points2.
Theorem C24_two_points : forall p q, ~ negligible (vsub q p) -> let l := zLine3DCreateTwoPoints p q in
  lorg l = p /\ norm (ldir l) = 1 /\ on_line (lorg l) (ldir l) p /\ on_line (lorg l) (ldir l) q.
Proof. exact line3_two. Qed.
Print Assumptions C24_two_points.
Theorem C24_projection2 : forall l p, norm_2 (ldir2 l) = 1 ->
  nearest2 (on_line2 (lorg2 l) (ldir2 l)) p (zLine2DProjPoint l p) /\
  dot2 (vsub2 p (zLine2DProjPoint l p)) (ldir2 l) = 0 /\
  zLine2DDistFromPoint l p = dist2 p (zLine2DProjPoint l p).
Proof. exact line2_proj. Qed.
Print Assumptions C24_projection2.
Theorem C24_margin2 : forall l p m, norm_2 (ldir2 l) = 1 ->
  zLine2DPointIsOn l p m = true <-> exists x, on_line2 (lorg2 l) (ldir2 l) x /\ dist2 p x < m.
Proof. exact line2_on. Qed.
Print Assumptions C24_margin2.
Theorem C24_edge_line : forall e p old, ~ negligible (vsub (ev1 e) (ev0 e)) ->
  nearest (on_line (ev0 e) (vsub (ev1 e) (ev0 e))) p (zEdge3DProjPoint e p old) /\
  (forall m, 0 <= m -> zEdge3DPointIsOnLine e p m old = true <-> negligible (vsub p (ev0 e)) \/ exists x, on_line (ev0 e) (vsub (ev1 e) (ev0 e)) x /\ dist p x < m).
Proof. exact edge_proj. Qed.
Print Assumptions C24_edge_line.
