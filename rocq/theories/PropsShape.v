(** Properties C32-C35, C63: spheres, cylinders, capsules, cones, ellipses, ellipsoids. *)
From Verif Require Import Base Spec SpecShape ModelShape FactsVec FactsAlg FactsElem FactsRound FactsCone FactsEllips FactsSolid.
Open Scope R_scope.

(** * C32 spheres and disks *)
Theorem C32_closest : forall s p, 0 < srad s -> exists cp, zSphere3DClosest s p = Some (dist p (scen s) - srad s, cp) /\
  nearest (ball (scen s) (srad s)) p cp /\ zSphere3DDistFromPoint s p = dist p (scen s) - srad s /\
  (dist p (scen s) <= srad s -> cp = p) /\ (srad s <= dist p (scen s) -> dist p cp = dist p (scen s) - srad s /\ dist (scen s) cp = srad s).
Proof. exact sphere_closest. Qed.
Print Assumptions C32_closest.
Theorem C32_inside : forall s p m, zSphere3DPointIsInside s p m = true <-> dist (scen s) p < srad s + m.
Proof. exact sphere_inside. Qed.
Print Assumptions C32_inside.
(** the sphere on two points is the smallest that contains both *)
Theorem C32_from2 : forall v1 v2, let s := zSphere3DFrom2 v1 v2 in
  dist (scen s) v1 = srad s /\ dist (scen s) v2 = srad s /\
  forall c r, ball c r v1 -> ball c r v2 -> srad s <= r.
Proof. exact sphere_from2. Qed.
Print Assumptions C32_from2.
(** the sphere through three points is the smallest sphere through them *)
Theorem C32_from3 : forall v1 v2 v3, tri_normal v1 v2 v3 <> v3zero -> exists s, zSphere3DFrom3 v1 v2 v3 = Some s /\
  dist (scen s) v1 = srad s /\ dist (scen s) v2 = srad s /\ dist (scen s) v3 = srad s /\ on_plane v1 (tri_normal v1 v2 v3) (scen s) /\
  forall c, dist c v1 = dist c v2 -> dist c v2 = dist c v3 -> srad s <= dist c v1.
Proof. exact sphere_from3. Qed.
Print Assumptions C32_from3.
Theorem C32_from4 : forall v1 v2 v3 v4, vol6 v1 v2 v3 v4 <> 0 -> exists s, zSphere3DFrom4 v1 v2 v3 v4 = Some s /\
  dist (scen s) v1 = srad s /\ dist (scen s) v2 = srad s /\ dist (scen s) v3 = srad s /\ dist (scen s) v4 = srad s.
Proof. exact sphere_from4. Qed.
Print Assumptions C32_from4.
Theorem C32_disk_from2 : forall v1 v2, let s := zDisk2DFrom2 v1 v2 in
  dist2 (dcen s) v1 = drad s /\ dist2 (dcen s) v2 = drad s /\ forall c r, disk c r v1 -> disk c r v2 -> drad s <= r.
Proof. exact disk_from2. Qed.
Print Assumptions C32_disk_from2.
Theorem C32_disk_from3 : forall v1 v2 v3, area2 v1 v2 v3 <> 0 -> exists s, zDisk2DFrom3 v1 v2 v3 = Some s /\
  dist2 (dcen s) v1 = drad s /\ dist2 (dcen s) v2 = drad s /\ dist2 (dcen s) v3 = drad s.
Proof. exact disk_from3. Qed.
Print Assumptions C32_disk_from3.
Theorem C32_disk_inside : forall d p m, zDisk2DPointIsInside d p m = true <-> dist2 (dcen d) p < drad d + m.
Proof. exact disk_inside. Qed.
Print Assumptions C32_disk_inside.
(** moving a sphere moves the set of its points *)
Theorem C32_xform : forall s f, isometry (fatt f) -> forall p,
  (ball (scen (zSphere3DXform s f)) (srad (zSphere3DXform s f)) p <-> image f (ball (scen s) (srad s)) p) /\
  (ball (scen (zSphere3DXformInv s f)) (srad (zSphere3DXformInv s f)) p <-> ball (scen s) (srad s) (act f p)).
Proof. exact sphere_xform. Qed.
Print Assumptions C32_xform.
Theorem C32_mirror : forall s a, (a < 3)%nat -> forall p,
  ball (scen (zSphere3DMirror s a)) (srad (zSphere3DMirror s a)) p <-> ball (scen s) (srad s) (reflect3 a p).
Proof. exact sphere_mirror. Qed.
Print Assumptions C32_mirror.
Theorem C32_xform_closest : forall s f p, isometry (fatt f) ->
  zSphere3DClosest (zSphere3DXform s f) (act f p) = match zSphere3DClosest s p with Some (d, q) => Some (d, act f q) | None => None end.
Proof. exact sphere_xform_closest. Qed.
Print Assumptions C32_xform_closest.
(** hypotheses are met *)
Example C32_ex3 : tri_normal (V3 1 0 0) (V3 0 1 0) (V3 0 0 1) <> v3zero.
Proof. intros H. apply (f_equal vx) in H. revert H. unfold tri_normal. spec_unfold. Lra.lra. Qed.
Example C32_ex4 : vol6 (V3 1 0 0) (V3 0 1 0) (V3 0 0 1) (V3 0 0 0) <> 0.
Proof. unfold vol6. spec_unfold. Lra.lra. Qed.

(** * C33 cylinders *)
(** the sign of the returned distance is wrong exactly above the second cap within the radius *)
Theorem C33_closest : forall c p, ~ negligible (vsub (cc1 c) (cc0 c)) -> 0 <= crad c ->
  let l := norm (vsub (cc1 c) (cc0 c)) in
  exists dv cp h w, axial (cc0 c) (cc1 c) p h w /\ zCyl3DClosest c p = Some (dv, cp) /\ zCyl3DDistFromPoint c p = dv /\
    nearest (in_cyl (cc0 c) (cc1 c) (crad c)) p cp /\
    (l < h /\ norm w <= crad c -> dv = - dist p cp) /\ (~ (l < h /\ norm w <= crad c) -> dv = dist p cp).
Proof. exact cyl_closest. Qed.
Print Assumptions C33_closest.
Theorem C33_inside : forall c p m, ~ negligible (vsub (cc1 c) (cc0 c)) -> forall h w, axial (cc0 c) (cc1 c) p h w ->
  zCyl3DPointIsInside c p m = true <-> norm w < crad c + m /\ - m < h < norm (vsub (cc1 c) (cc0 c)) + m.
Proof. exact cyl_inside. Qed.
Print Assumptions C33_inside.
(** the axial description used above exists for every point *)
Theorem C33_axial : forall c0 c1 p, c1 <> c0 -> exists h w, axial c0 c1 p h w.
Proof. exact axial_exists. Qed.
Print Assumptions C33_axial.
Theorem C33_axial_unique : forall c0 c1 p h w h' w', 0 < norm (vsub c1 c0) -> axial c0 c1 p h w -> axial c0 c1 p h' w' -> h = h' /\ w = w'.
Proof. exact axial_fun. Qed.
Print Assumptions C33_axial_unique.
(** the same functions serve cylinders and capsules *)
Theorem C33_xform : forall c f, isometry (fatt f) -> forall p,
  (in_cyl (cc0 (zCyl3DXform c f)) (cc1 (zCyl3DXform c f)) (crad (zCyl3DXform c f)) p <-> image f (in_cyl (cc0 c) (cc1 c) (crad c)) p) /\
  (in_cyl (cc0 (zCyl3DXformInv c f)) (cc1 (zCyl3DXformInv c f)) (crad (zCyl3DXformInv c f)) p <-> in_cyl (cc0 c) (cc1 c) (crad c) (act f p)) /\
  (in_capsule (cc0 (zCyl3DXform c f)) (cc1 (zCyl3DXform c f)) (crad (zCyl3DXform c f)) p <-> image f (in_capsule (cc0 c) (cc1 c) (crad c)) p) /\
  (in_capsule (cc0 (zCyl3DXformInv c f)) (cc1 (zCyl3DXformInv c f)) (crad (zCyl3DXformInv c f)) p <-> in_capsule (cc0 c) (cc1 c) (crad c) (act f p)).
Proof. exact cyl_xform. Qed.
Print Assumptions C33_xform.
Theorem C33_mirror : forall c a, (a < 3)%nat -> forall p,
  (in_cyl (cc0 (zCyl3DMirror c a)) (cc1 (zCyl3DMirror c a)) (crad (zCyl3DMirror c a)) p <-> in_cyl (cc0 c) (cc1 c) (crad c) (reflect3 a p)) /\
  (in_capsule (cc0 (zCyl3DMirror c a)) (cc1 (zCyl3DMirror c a)) (crad (zCyl3DMirror c a)) p <-> in_capsule (cc0 c) (cc1 c) (crad c) (reflect3 a p)).
Proof. exact cyl_mirror. Qed.
Print Assumptions C33_mirror.
(** above the cap: a point one unit above the unit cylinder is reported at distance -1 *)
Example C33_sign_refuted : zCyl3DDistFromPoint (CY (V3 0 0 0) (V3 0 0 1) 1 0) (V3 0 0 2) < 0.
Proof. exact cyl_sign_example. Qed.

(** * C34 capsules *)
(** the closest point is right; the separate distance function has the wrong sign beyond the ends *)
Theorem C34_closest : forall c p, ~ negligible (vsub (cc1 c) (cc0 c)) -> 0 <= crad c ->
  exists cp h w, axial (cc0 c) (cc1 c) p h w /\ zCapsule3DClosest c p = Some (dist p cp, cp) /\
    nearest (in_capsule (cc0 c) (cc1 c) (crad c)) p cp /\
    (0 <= h <= norm (vsub (cc1 c) (cc0 c)) -> zCapsule3DDistFromPoint c p = dist p cp) /\
    (~ (0 <= h <= norm (vsub (cc1 c) (cc0 c))) -> zCapsule3DDistFromPoint c p = - dist p cp).
Proof. exact capsule_closest. Qed.
Print Assumptions C34_closest.
(** exact characterisation of what the inside test answers *)
Theorem C34_inside : forall c p m h w, ~ negligible (vsub (cc1 c) (cc0 c)) -> 0 <= crad c -> axial (cc0 c) (cc1 c) p h w ->
  (0 <= h <= norm (vsub (cc1 c) (cc0 c)) ->
     (zCapsule3DPointIsInside c p m = true <-> exists x, in_capsule (cc0 c) (cc1 c) (crad c) x /\ dist p x < m)) /\
  (~ (0 <= h <= norm (vsub (cc1 c) (cc0 c))) ->
     (zCapsule3DPointIsInside c p m = true <-> 0 < m \/ forall x, in_capsule (cc0 c) (cc1 c) (crad c) x -> - m < dist p x)).
Proof. exact capsule_inside. Qed.
Print Assumptions C34_inside.
(** with zero margin no point of the capsule is reported inside *)
Theorem C34_zero_margin_refuted : forall c p, ~ negligible (vsub (cc1 c) (cc0 c)) -> 0 <= crad c -> in_capsule (cc0 c) (cc1 c) (crad c) p ->
  zCapsule3DPointIsInside c p 0 = false.
Proof. exact capsule_zero_margin. Qed.
Print Assumptions C34_zero_margin_refuted.
(** points arbitrarily far beyond an end are reported inside *)
Theorem C34_far_refuted : forall D, exists p, (forall x, in_capsule (V3 0 0 0) (V3 0 0 1) 1 x -> D < dist p x) /\
  zCapsule3DPointIsInside (CY (V3 0 0 0) (V3 0 0 1) 1 0) p 0 = true.
Proof. exact capsule_far. Qed.
Print Assumptions C34_far_refuted.
Example C34_hyp : ~ negligible (vsub (V3 0 0 1) (V3 0 0 0)).
Proof. exact unit_axis_ok. Qed.

(** * C35 cones *)
Theorem C35_inside : forall c p m h w, ~ negligible (vsub (kvert c) (kcen c)) -> axial (kcen c) (kvert c) p h w ->
  let l := norm (vsub (kvert c) (kcen c)) in
  exists b, zCone3DPointIsInside c p m = Some b /\
   (b = true <-> - m < h < l + m /\ (norm w * l - krad c * (l - h)) < m * sqrt (l * l + krad c * krad c)).
Proof. exact cone_inside. Qed.
Print Assumptions C35_inside.
Theorem C35_closest : forall c p, 2 * zTOL <= norm (vsub (kvert c) (kcen c)) -> 0 < krad c ->
  (forall h w, axial (kcen c) (kvert c) p h w -> w = v3zero \/ ~ negligible w) ->
  exists cp, zCone3DClosest c p = Some (dist p cp, cp) /\ zCone3DDistFromPoint c p = Some (dist p cp) /\
    nearest (in_cone (kcen c) (kvert c) (krad c)) p cp.
Proof. exact cone_closest. Qed.
Print Assumptions C35_closest.
Theorem C35_xform : forall c f, isometry (fatt f) -> forall p,
  (in_cone (kcen (zCone3DXform c f)) (kvert (zCone3DXform c f)) (krad (zCone3DXform c f)) p <-> image f (in_cone (kcen c) (kvert c) (krad c)) p) /\
  (in_cone (kcen (zCone3DXformInv c f)) (kvert (zCone3DXformInv c f)) (krad (zCone3DXformInv c f)) p <-> in_cone (kcen c) (kvert c) (krad c) (act f p)).
Proof. exact cone_xform. Qed.
Print Assumptions C35_xform.
Theorem C35_mirror : forall c a, (a < 3)%nat -> forall p,
  in_cone (kcen (zCone3DMirror c a)) (kvert (zCone3DMirror c a)) (krad (zCone3DMirror c a)) p <-> in_cone (kcen c) (kvert c) (krad c) (reflect3 a p).
Proof. exact cone_mirror. Qed.
Print Assumptions C35_mirror.
Example C35_hyp : 2 * zTOL <= norm (vsub (V3 0 0 1) (V3 0 0 0)) /\
  forall h w, axial (V3 0 0 0) (V3 0 0 1) (V3 3 4 2) h w -> w = v3zero \/ ~ negligible w.
Proof. exact cone_hyp_example. Qed.

(** * C63 ellipses, ellipsoids, elliptic cylinders *)
(** the equation solver of the ZM library enters through the contract [exact_solver] *)
Theorem C63_ellipse_closest : forall ans e p, exact_solver ans -> 0 < erad0 e -> 0 < erad1 e ->
  match zEllips2DClosest ans e p with
  | Some cp => nearest2 (in_ellipse (ecen e) (erad0 e) (erad1 e)) p cp /\ zEllips2DDistFromPoint ans e p = Some (dist2 cp p)
  | None => ~ in_ellipse (ecen e) (erad0 e) (erad1 e) p
  end.
Proof. exact ellips2_closest. Qed.
Print Assumptions C63_ellipse_closest.
Theorem C63_ellipse_inside : forall e p m, zEllips2DPointIsInside e p m = true <-> inside_ellipse (ecen e) (erad0 e + m) (erad1 e + m) p.
Proof. exact ellips2_inside. Qed.
Print Assumptions C63_ellipse_inside.
Theorem C63_ellipsoid_inside : forall e p m, isometry (fatt (elf e)) ->
  zEllips3DPointIsInside e p m = true <-> inside_ellipsoid (elf e) (vadd (elrad e) (V3 m m m)) p.
Proof. exact ellips3_inside. Qed.
Print Assumptions C63_ellipsoid_inside.
Theorem C63_ellipsoid_closest : forall ans e p, exact_solver ans -> isometry (fatt (elf e)) -> 0 < vx (elrad e) -> 0 < vy (elrad e) -> 0 < vz (elrad e) ->
  match zEllips3DClosest ans e p with
  | Some (d, cp) =>
      if zEllips3DPointIsInside e p zTOL then d = 0 /\ cp = p
      else nearest (in_ellipsoid (elf e) (elrad e)) p cp /\ d = dist p cp
  | None => ~ inside_ellipsoid (elf e) (vadd (elrad e) (V3 zTOL zTOL zTOL)) p
  end.
Proof. exact ellips3_closest. Qed.
Print Assumptions C63_ellipsoid_closest.
Theorem C63_ellipsoid_xform : forall e f p, isometry (fatt f) ->
  (in_ellipsoid (elf (zEllips3DXform e f)) (elrad (zEllips3DXform e f)) p <-> image f (in_ellipsoid (elf e) (elrad e)) p) /\
  (in_ellipsoid (elf (zEllips3DXformInv e f)) (elrad (zEllips3DXformInv e f)) p <-> in_ellipsoid (elf e) (elrad e) (act f p)).
Proof. exact ellips_xform. Qed.
Print Assumptions C63_ellipsoid_xform.
Theorem C63_ellipsoid_mirror : forall e a p, (a < 3)%nat ->
  in_ellipsoid (elf (zEllips3DMirror e a)) (elrad (zEllips3DMirror e a)) p <-> in_ellipsoid (elf e) (elrad e) (reflect3 a p).
Proof. exact ellips_mirror. Qed.
Print Assumptions C63_ellipsoid_mirror.
Theorem C63_sphere_to_ellipsoid : forall s p, 0 < srad s ->
  in_ellipsoid (elf (zSphere3DToEllips3D s)) (elrad (zSphere3DToEllips3D s)) p <-> ball (scen s) (srad s) p.
Proof. exact sphere_to_ellips. Qed.
Print Assumptions C63_sphere_to_ellipsoid.
Theorem C63_ecyl_axes : forall axis r, 2 * zTOL <= norm axis -> ~ negligible r ->
  (forall t, ~ negligible (vsub r (vscale t axis))) ->
  exists u0 u1, zECyl3DDefAxis axis (Some r) = Some (u0, u1) /\ radial_basis axis u0 u1 /\ 0 < dot r u0 /\ dot (cross u0 u1) axis = norm axis.
Proof. exact ecyl_defaxis. Qed.
Print Assumptions C63_ecyl_axes.
(** without a reference direction the second radial direction has the length of the axis instead of one *)
Theorem C63_ecyl_axes_null_refuted : forall axis, 3 * zTOL <= norm axis ->
  exists u0 u1, zECyl3DDefAxis axis None = Some (u0, u1) /\ norm u0 = 1 /\ norm u1 = norm axis /\ dot axis u0 = 0 /\ dot axis u1 = 0 /\ dot u0 u1 = 0.
Proof. exact ecyl_defaxis_null. Qed.
Print Assumptions C63_ecyl_axes_null_refuted.
Theorem C63_ecyl_inside : forall c p m l a h x y, ~ negligible (vsub (ec1 c) (ec0 c)) -> norm (vsub (ec1 c) (ec0 c)) = l -> vsub (ec1 c) (ec0 c) = vscale l a ->
  radial_basis (vsub (ec1 c) (ec0 c)) (ev0 c) (ev1 c) ->
  p = vadd (vadd (vadd (ec0 c) (vscale h a)) (vscale x (ev0 c))) (vscale y (ev1 c)) ->
  exists b, zECyl3DPointIsInside c p m = Some b /\
    (b = true <-> - m < h < l + m /\ inside_ellipse (V2 0 0) (er0 c + m) (er1 c + m) (V2 x y)).
Proof. exact ecyl_inside. Qed.
Print Assumptions C63_ecyl_inside.
Theorem C63_ecyl_closest : forall ans c p l, exact_solver ans -> norm (vsub (ec1 c) (ec0 c)) = l -> 2 * zTOL <= l -> l * l * zTOL <= 1 ->
  0 < er0 c -> 0 < er1 c -> radial_basis (vsub (ec1 c) (ec0 c)) (ev0 c) (ev1 c) ->
  match zECyl3DClosest ans c p with
  | Some (d, cp) => nearest (in_ecyl (ec0 c) (ec1 c) (er0 c) (er1 c) (ev0 c) (ev1 c)) p cp /\ d = dist p cp
  | None => ~ in_ecyl (ec0 c) (ec1 c) (er0 c) (er1 c) (ev0 c) (ev1 c) p
  end.
Proof. exact ecyl_closest. Qed.
Print Assumptions C63_ecyl_closest.
Theorem C63_ecyl_xform : forall c f, isometry (fatt f) -> forall p, let d := zECyl3DXform c f in let e := zECyl3DXformInv c f in
  (in_ecyl (ec0 d) (ec1 d) (er0 d) (er1 d) (ev0 d) (ev1 d) p <-> image f (in_ecyl (ec0 c) (ec1 c) (er0 c) (er1 c) (ev0 c) (ev1 c)) p) /\
  (in_ecyl (ec0 e) (ec1 e) (er0 e) (er1 e) (ev0 e) (ev1 e) p <-> in_ecyl (ec0 c) (ec1 c) (er0 c) (er1 c) (ev0 c) (ev1 c) (act f p)).
Proof. exact ecyl_xform. Qed.
Print Assumptions C63_ecyl_xform.
Theorem C63_ecyl_mirror : forall c a, (a < 3)%nat -> forall p, let d := zECyl3DMirror c a in
  (in_ecyl (ec0 d) (ec1 d) (er0 d) (er1 d) (ev0 d) (ev1 d) p <-> in_ecyl (ec0 c) (ec1 c) (er0 c) (er1 c) (ev0 c) (ev1 c) (reflect3 a p)).
Proof. exact ecyl_mirror. Qed.
Print Assumptions C63_ecyl_mirror.
Example C63_solver_ex : exact_solver (fun _ => []).
Proof. intros cs re im []. Qed.
Example C63_solver_ex2 : exists ans, exact_solver ans /\ zEllips2DClosest ans (E2 (V2 0 0) 1 1) (V2 2 0) = Some (V2 1 0).
Proof. exact solver_example. Qed.
Example C63_basis_ex : radial_basis (V3 0 0 2) (V3 1 0 0) (V3 0 1 0).
Proof. unfold radial_basis; spec_unfold; repeat split; Lra.lra. Qed.
