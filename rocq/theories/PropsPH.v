(** Properties C36-C38, C64, C65: polyhedra and mass properties. *)
From Coquelicot Require Import Coquelicot.
From Verif Require Import Base Spec SpecMesh SpecInt ModelPH ModelMass FactsVec FactsAlg FactsElem FactsTri FactsBox FactsSolid FactsPH FactsPH2 FactsPH3 FactsInt FactsMass FactsPH4.
Open Scope R_scope.

(** * C36 mass properties of closed triangle meshes *)
(** the volume is the signed volume seen from any point o *)
Theorem C36_apex : forall ph o, valid_ph ph -> closed (ph_faces ph) -> zPH3DVolume ph = Some (mesh_vol o (pverts ph) (ph_faces ph)).
Proof. exact mass_apex. Qed.
Print Assumptions C36_apex.
(** rigid motion: volume kept, barycentre moves along, inertia rotates *)
Theorem C36_xform : forall ph f rho, valid_ph ph -> closed (ph_faces ph) -> rotation (fatt f) ->
  exists ph', zPH3DXform ph f = Some ph' /\ pverts ph' = map (act f) (pverts ph) /\ ph_faces ph' = ph_faces ph /\ zPH3DVolume ph' = zPH3DVolume ph /\
  (zPH3DVolume ph <> Some 0 -> exists c i, zPH3DBarycenter ph = Some c /\ zPH3DBarycenter ph' = Some (act f c) /\
     zPH3DBaryInertia ph rho = Some i /\ zPH3DBaryInertia ph' rho = Some (mmul (fatt f) (mmul i (mtr (fatt f))))).
Proof. exact mass_xform. Qed.
Print Assumptions C36_xform.
Theorem C36_xforminv : forall ph f rho, valid_ph ph -> closed (ph_faces ph) -> rotation (fatt f) ->
  exists ph', zPH3DXformInv ph f = Some ph' /\ ph_faces ph' = ph_faces ph /\ map (act f) (pverts ph') = pverts ph /\ zPH3DVolume ph' = zPH3DVolume ph /\
  (zPH3DVolume ph <> Some 0 -> exists c c' i i', zPH3DBarycenter ph = Some c /\ zPH3DBarycenter ph' = Some c' /\ act f c' = c /\
     zPH3DBaryInertia ph rho = Some i /\ zPH3DBaryInertia ph' rho = Some i' /\ mmul (fatt f) (mmul i' (mtr (fatt f))) = i).
Proof. exact mass_xforminv. Qed.
Print Assumptions C36_xforminv.
Theorem C36_flip : forall ph, valid_ph ph -> exists ph' v, zPH3DFlip ph = Some ph' /\ zPH3DVolume ph = Some v /\ zPH3DVolume ph' = Some (- v) /\
  (v <> 0 -> zPH3DBarycenter ph' = zPH3DBarycenter ph) /\ (closed (ph_faces ph) -> closed (ph_faces ph')) /\ (oriented (ph_faces ph) -> oriented (ph_faces ph')).
Proof. exact mass_flip. Qed.
Print Assumptions C36_flip.
Theorem C36_mirror : forall ph a, (a < 3)%nat -> valid_ph ph -> exists ph' v, zPH3DMirror ph a = Some ph' /\ pverts ph' = map (reflect3 a) (pverts ph) /\
  zPH3DVolume ph = Some v /\ zPH3DVolume ph' = Some v /\
  (v <> 0 -> exists c, zPH3DBarycenter ph = Some c /\ zPH3DBarycenter ph' = Some (reflect3 a c)) /\
  (oriented (ph_faces ph) -> oriented (ph_faces ph')).
Proof. exact mass_mirror. Qed.
Print Assumptions C36_mirror.
Theorem C36_scale : forall ph s, valid_ph ph -> exists ph' v, zPH3DScale ph s = Some ph' /\ pverts ph' = map (vscale s) (pverts ph) /\ ph_faces ph' = ph_faces ph /\
  zPH3DVolume ph = Some v /\ zPH3DVolume ph' = Some (s * s * s * v) /\
  (s <> 0 -> v <> 0 -> exists c, zPH3DBarycenter ph = Some c /\ zPH3DBarycenter ph' = Some (vscale s c)).
Proof. exact mass_scale. Qed.
Print Assumptions C36_scale.
(** hypotheses are met: the standard simplex *)
Example C36_ex : sound_ph corner_ph /\ oriented (ph_faces corner_ph) /\ zPH3DVolume corner_ph = Some (1 / 6).
Proof. exact corner_sound. Qed.
Example C36_ex_valid : valid_ph corner_ph /\ closed (ph_faces corner_ph).
Proof. exact corner_valid. Qed.

(** * C37 the tetrahedron of a triangle and the origin *)
(** volume, barycentre and inertia are the integrals over the tetrahedron *)
Theorem C37_tetra : forall t rho, mass_properties (tetra_int (tv0 t) (tv1 t) (tv2 t)) (along v3zero (tv0 t) (tv1 t) (tv2 t)) rho
    (zTri3DConeVolume t v3zero) (zTri3DConeBarycenter t v3zero) v3zero (zTri3DConeInertia t rho).
Proof. exact tetra_mass. Qed.
Print Assumptions C37_tetra.
(** * C38 parallel axes *)
Theorem C38_mesh : forall ph rho, valid_ph ph -> closed (ph_faces ph) -> zPH3DVolume ph <> Some 0 ->
  exists v c i ib ph', zPH3DVolume ph = Some v /\ zPH3DBarycenter ph = Some c /\ zPH3DInertia ph rho = Some i /\ zPH3DBaryInertia ph rho = Some ib /\
    i = madd ib (mscale (rho * v) (point_inertia c)) /\ symmetric i /\ symmetric ib /\
    zPH3DXform ph (shift_by (vscale (-1) c)) = Some ph' /\ zPH3DInertia ph' rho = Some ib /\ zPH3DBarycenter ph' = Some v3zero /\
    zPH3DInertiaMass ph (rho * v) = Some i /\ zPH3DBaryInertiaMass ph (rho * v) = Some ib.
Proof. exact mass_parallel. Qed.
Print Assumptions C38_mesh.
Theorem C38_shape : forall s mass, match zShape3DBarycenter s, zShape3DBaryInertiaMass s mass with
  | Some c, Some ib => zShape3DInertiaMass s mass = Some (madd ib (mscale mass (point_inertia c)))
  | _, _ => zShape3DInertiaMass s mass = None
  end.
Proof. exact shape_parallel. Qed.
Print Assumptions C38_shape.
Theorem C38_density : forall s density v, zShape3DVolume s = Some v -> v <> 0 -> (forall p, s = ShPH p -> valid_ph p) ->
  zShape3DBaryInertia s density = zShape3DBaryInertiaMass s (density * v) /\ zShape3DInertia s density = zShape3DInertiaMass s (density * v).
Proof. exact shape_density. Qed.
Print Assumptions C38_density.
Theorem C38_symmetric : forall s mass ib, (forall p, s = ShPH p -> valid_ph p /\ closed (ph_faces p) /\ zPH3DVolume p <> Some 0) -> zShape3DBaryInertiaMass s mass = Some ib -> symmetric ib.
Proof. exact shape_symmetric. Qed.
Print Assumptions C38_symmetric.
(** * C64 convex polyhedra *)
Theorem C64_closest : forall ph p, sound_ph ph -> convex_surface (solid_tris ph) -> (exists y, solid ph y) ->
  exists d cp, zPH3DClosest ph p = Some (d, cp) /\
  (~ solid ph p -> nearest (solid ph) p cp /\ d = dist p cp /\ 0 < d) /\
  ((forall t, List.In t (solid_tris ph) -> height t p < 0) -> d = 0 /\ cp = p) /\
  (solid ph p -> (d = 0 /\ cp = p <-> forall t, List.In t (solid_tris ph) -> height t p = 0 -> in_triangle (tv0 t) (tv1 t) (tv2 t) p)).
Proof. exact convex_closest. Qed.
Print Assumptions C64_closest.
Theorem C64_inside : forall ph p margin, sound_ph ph ->
  exists b, zPH3DPointIsInside ph p margin = Some b /\
   (b = true <-> forall t, List.In t (solid_tris ph) -> height t p < margin * norm (tri_normal (tv0 t) (tv1 t) (tv2 t))) /\
   (forall x, solid ph x -> dist p x < margin -> b = true) /\
   (b = true -> margin <= 0 -> solid ph p).
Proof. exact convex_inside. Qed.
Print Assumptions C64_inside.
Theorem C64_contig : forall ph p, match zPH3DContigVert ph p with
  | None => pverts ph = []
  | Some (v, d) => List.In v (pverts ph) /\ d = dist p v /\ forall w, List.In w (pverts ph) -> d <= dist p w
  end.
Proof. exact ph_contig. Qed.
Print Assumptions C64_contig.
Theorem C64_aabb : forall ph, (forall v, List.In v (pverts ph) -> in_box (zPH3DAABB ph) v) /\ in_box (zPH3DAABB ph) v3zero /\
  (forall b, in_box b v3zero -> (forall v, List.In v (pverts ph) -> in_box b v) -> forall x, in_box (zPH3DAABB ph) x -> in_box b x).
Proof. exact ph_aabb. Qed.
Print Assumptions C64_aabb.
(** hypotheses are met: the standard simplex is sound (above), its solid is the expected set, its surface is convex *)
Example C64_ex_solid : forall x, solid corner_ph x <-> 0 <= vx x /\ 0 <= vy x /\ 0 <= vz x /\ vx x + vy x + vz x <= 1.
Proof. exact corner_solid. Qed.
Example C64_ex_convex : convex_surface (solid_tris corner_ph).
Proof. exact corner_convex. Qed.
(** a point of the surface of a pyramid on a square base made of two triangles is reported at a positive distance *)
Theorem C64_surface_refuted : sound_ph pyr_ph /\ oriented (ph_faces pyr_ph) /\ zPH3DVolume pyr_ph = Some (1 / 3) /\
  (exists t, List.In t (solid_tris pyr_ph) /\ in_triangle (tv0 t) (tv1 t) (tv2 t) (V3 (3 / 4) (1 / 4) 0)) /\
  exists d cp, zPH3DClosest pyr_ph (V3 (3 / 4) (1 / 4) 0) = Some (d, cp) /\ 0 < d.
Proof. exact pyr_refuted. Qed.
Print Assumptions C64_surface_refuted.
(** the box of a polyhedron lying in x >= 1 reaches x = 0 *)
Theorem C64_aabb_refuted : exists ph, valid_ph ph /\ (forall v, List.In v (pverts ph) -> 1 <= vx v) /\ exists x, in_box (zPH3DAABB ph) x /\ vx x = 0.
Proof. exact aabb_refuted. Qed.
Print Assumptions C64_aabb_refuted.
(** * C65 mass properties of the analytic solids as integrals *)
Theorem C65_box : forall b rho ref, isometry (fatt (bframe b)) ->
  mass_properties (box_int (vx (bspan b)) (vy (bspan b)) (vz (bspan b))) (fun x y z => act (bframe b) (V3 x y z)) rho
    (zBox3DVolume b) (fpos (bframe b)) ref (madd (zBox3DBaryInertia b rho) (mscale (rho * zBox3DVolume b) (point_inertia (vsub (fpos (bframe b)) ref)))).
Proof. exact box_mass. Qed.
Print Assumptions C65_box.
Theorem C65_sphere : forall s rho ref e1 e2 e3, 0 < srad s -> isometry (cols3 e1 e2 e3) ->
  mass_properties (round_int 1 1 (fun z => sqrt (srad s * srad s * (1 - (z / srad s) * (z / srad s)))) (- srad s) (srad s)) (along (scen s) e1 e2 e3) rho
    (zSphere3DVolume s) (scen s) ref (madd (zSphere3DBaryInertia s rho) (mscale (rho * zSphere3DVolume s) (point_inertia (vsub (scen s) ref)))).
Proof. exact sphere_mass. Qed.
Print Assumptions C65_sphere.
Theorem C65_ellipsoid : forall e rho ref, 0 < vz (elrad e) -> isometry (fatt (elf e)) ->
  mass_properties (round_int (vx (elrad e)) (vy (elrad e)) (fun z => sqrt (1 * 1 * (1 - (z / vz (elrad e)) * (z / vz (elrad e))))) (- vz (elrad e)) (vz (elrad e))) (fun x y z => act (elf e) (V3 x y z)) rho
    (zEllips3DVolume e) (fpos (elf e)) ref (madd (zEllips3DBaryInertia e rho) (mscale (rho * zEllips3DVolume e) (point_inertia (vsub (fpos (elf e)) ref)))).
Proof. exact ellips_mass. Qed.
Print Assumptions C65_ellipsoid.
Theorem C65_cylinder : forall c rho ref e1 e2 e3, 3 * zTOL <= norm (vsub (cc1 c) (cc0 c)) -> isometry (cols3 e1 e2 e3) -> vscale (norm (vsub (cc1 c) (cc0 c))) e3 = vsub (cc1 c) (cc0 c) ->
  exists I, zCyl3DBaryInertia c rho = Some I /\
  mass_properties (round_int 1 1 (fun _ => crad c) 0 (norm (vsub (cc1 c) (cc0 c)))) (along (cc0 c) e1 e2 e3) rho
    (zCyl3DVolume c) (zCyl3DBarycenter c) ref (madd I (mscale (rho * zCyl3DVolume c) (point_inertia (vsub (zCyl3DBarycenter c) ref)))).
Proof. exact cyl_mass. Qed.
Print Assumptions C65_cylinder.
Theorem C65_elliptic_cylinder : forall c rho ref e3, ~ negligible (vsub (ec1 c) (ec0 c)) -> isometry (cols3 (ev0 c) (ev1 c) e3) -> vscale (norm (vsub (ec1 c) (ec0 c))) e3 = vsub (ec1 c) (ec0 c) ->
  mass_properties (round_int (er0 c) (er1 c) (fun _ => 1) 0 (norm (vsub (ec1 c) (ec0 c)))) (along (ec0 c) (ev0 c) (ev1 c) e3) rho
    (zECyl3DVolume c) (zECyl3DBarycenter c) ref (madd (zECyl3DBaryInertia c rho) (mscale (rho * zECyl3DVolume c) (point_inertia (vsub (zECyl3DBarycenter c) ref)))).
Proof. exact ecyl_mass. Qed.
Print Assumptions C65_elliptic_cylinder.
Theorem C65_capsule : forall c rho ref e1 e2 e3, 0 <= crad c -> 3 * zTOL <= norm (vsub (cc1 c) (cc0 c)) -> isometry (cols3 e1 e2 e3) -> vscale (norm (vsub (cc1 c) (cc0 c))) e3 = vsub (cc1 c) (cc0 c) ->
  exists I, zCapsule3DBaryInertia c rho = Some I /\
  mass_properties (round_int 1 1 (capsule_section (crad c) (norm (vsub (cc1 c) (cc0 c)))) (- crad c) (norm (vsub (cc1 c) (cc0 c)) + crad c)) (along (cc0 c) e1 e2 e3) rho
    (zCapsule3DVolume c) (zCyl3DBarycenter c) ref (madd I (mscale (rho * zCapsule3DVolume c) (point_inertia (vsub (zCyl3DBarycenter c) ref)))).
Proof. exact capsule_mass. Qed.
Print Assumptions C65_capsule.
Theorem C65_cone : forall c rho ref e1 e2 e3, 3 * zTOL <= norm (vsub (kvert c) (kcen c)) -> isometry (cols3 e1 e2 e3) -> vscale (norm (vsub (kvert c) (kcen c))) e3 = vsub (kvert c) (kcen c) ->
  exists I, zCone3DBaryInertia c rho = Some I /\
  mass_properties (round_int 1 1 (fun z => krad c * (1 - z / norm (vsub (kvert c) (kcen c)))) 0 (norm (vsub (kvert c) (kcen c)))) (along (kcen c) e1 e2 e3) rho
    (zCone3DVolume c) (zCone3DBarycenter c) ref (madd I (mscale (rho * zCone3DVolume c) (point_inertia (vsub (zCone3DBarycenter c) ref)))).
Proof. exact cone_mass. Qed.
Print Assumptions C65_cone.
(** hypotheses are met: any axis of length 1, completed by an orthonormal frame *)
Example C65_ex : 3 * zTOL <= norm (vsub (V3 0 0 1) (V3 0 0 0)) /\ isometry (cols3 (V3 1 0 0) (V3 0 1 0) (V3 0 0 1)) /\
  vscale (norm (vsub (V3 0 0 1) (V3 0 0 0))) (V3 0 0 1) = vsub (V3 0 0 1) (V3 0 0 0) /\ ~ negligible (vsub (V3 0 0 1) (V3 0 0 0)).
Proof. exact unit_axis_frame. Qed.
