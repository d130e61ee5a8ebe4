(** Properties C39-C41: generated meshes are closed surfaces with vertices on the shape. *)
From Verif Require Import Base Spec SpecGeom SpecFrame SpecBox SpecShape SpecMesh SpecSweep ModelBox ModelShape ModelMesh FactsVec FactsSweep FactsSweep2 FactsSweep3 FactsSweep4 FactsSweep5 FactsSweep6.
From Coq Require Import Lra.
Open Scope R_scope.

(** * C39 box, cylinder, elliptic cylinder, cone *)
Theorem C39_box : forall b, closed_mesh (m_nv (zBox3DToPH b)) (m_nf (zBox3DToPH b)) (m_verts (zBox3DToPH b)) (m_faces (zBox3DToPH b)) /\
  m_nv (zBox3DToPH b) = 8%nat /\ m_nf (zBox3DToPH b) = 12%nat /\
  (0 < mdet (fatt (bframe b)) -> 0 < vx (bspan b) -> 0 < vy (bspan b) -> 0 < vz (bspan b) ->
   outward_convex (m_verts (zBox3DToPH b)) (m_faces (zBox3DToPH b)) (fpos (bframe b))).
Proof. exact box_mesh. Qed.
Print Assumptions C39_box.
(** succeeds; 2n vertices on the two rims; closed, consistently oriented, convex, all faces outward *)
Theorem C39_cylinder : forall c n, cdiv c = Z.of_nat n -> (3 <= n)%nat -> INR n <= 2147483648 -> 3 * zTOL <= norm (vsub (cc1 c) (cc0 c)) -> 0 < crad c ->
  exists m u s t, zCyl3DToPH c = Some m /\ right_triple u s t /\ vsub (cc1 c) (cc0 c) = vscale (norm (vsub (cc1 c) (cc0 c))) u /\
    closed_mesh (m_nv m) (m_nf m) (m_verts m) (m_faces m) /\ m_nv m = (2 * n)%nat /\
    (forall i, (i < n)%nat -> vpos (m_verts m) i = vadd (cc0 c) (on_ellipse (vscale (crad c) s) (vscale (crad c) t) (part_of_turn n i)) /\
                              vpos (m_verts m) (i + n) = vadd (cc1 c) (on_ellipse (vscale (crad c) s) (vscale (crad c) t) (part_of_turn n i))) /\
    outward_convex (m_verts m) (m_faces m) (vscale (1 / 2) (vadd (cc0 c) (cc1 c))).
Proof. exact cyl_mesh. Qed.
Print Assumptions C39_cylinder.
(** outward if the radial directions and the axis are right-handed *)
Theorem C39_elliptic_cylinder : forall c n, ecdiv c = Z.of_nat n -> (3 <= n)%nat ->
  exists m, zECyl3DToPH c = Some m /\ closed_mesh (m_nv m) (m_nf m) (m_verts m) (m_faces m) /\ m_nv m = (2 * n)%nat /\
    (forall i, (i < n)%nat -> vpos (m_verts m) i = vadd (ec0 c) (on_ellipse (vscale (er0 c) (ev0 c)) (vscale (er1 c) (ev1 c)) (part_of_turn n i)) /\
                              vpos (m_verts m) (i + n) = vadd (ec1 c) (on_ellipse (vscale (er0 c) (ev0 c)) (vscale (er1 c) (ev1 c)) (part_of_turn n i))) /\
    (0 < er0 c -> 0 < er1 c -> 0 < dot (cross (ev0 c) (ev1 c)) (vsub (ec1 c) (ec0 c)) ->
     outward_convex (m_verts m) (m_faces m) (vscale (1 / 2) (vadd (ec0 c) (ec1 c)))).
Proof. exact ecyl_mesh. Qed.
Print Assumptions C39_elliptic_cylinder.
Theorem C39_cone : forall c n, kdiv c = Z.of_nat n -> (3 <= n)%nat -> INR n <= 2147483648 -> 3 * zTOL <= norm (vsub (kvert c) (kcen c)) -> 0 < krad c ->
  exists m u s t, zCone3DToPH c = Some m /\ right_triple u s t /\ vsub (kvert c) (kcen c) = vscale (norm (vsub (kvert c) (kcen c))) u /\
    closed_mesh (m_nv m) (m_nf m) (m_verts m) (m_faces m) /\ m_nv m = (n + 1)%nat /\
    vpos (m_verts m) 0 = kvert c /\
    (forall i, (i < n)%nat -> vpos (m_verts m) (i + 1) = vadd (kcen c) (on_ellipse (vscale (krad c) s) (vscale (krad c) t) (part_of_turn n i))) /\
    outward_convex (m_verts m) (m_faces m) (vadd (vscale (3 / 4) (kcen c)) (vscale (1 / 4) (kvert c))).
Proof. exact cone_mesh. Qed.
Print Assumptions C39_cone.
(** hypotheses are met: a cylinder of 32 divisions along z *)
Example C39_ex : exists m, zCyl3DToPH (CY v3zero (V3 0 0 1) 1 32) = Some m /\ closed_mesh (m_nv m) (m_nf m) (m_verts m) (m_faces m) /\ m_nv m = 64%nat.
Proof.
  destruct (cyl_mesh (CY v3zero (V3 0 0 1) 1 32) 32) as (m & u & s & t & A & _ & _ & B & C & _).
  - reflexivity.
  - auto with arith.
  - simpl; Lra.lra.
  - replace (norm (vsub (cc1 (CY v3zero (V3 0 0 1) 1 32)) (cc0 (CY v3zero (V3 0 0 1) 1 32)))) with 1; [pose proof zTOL_nano; Lra.lra|].
    symmetry. apply norm_unit. cbn [cc1 cc0]. spec_unfold. ring.
  - simpl; Lra.lra.
  - exists m. auto.
Qed.

(** * C40 sphere, ellipsoid, capsule *)
(** vertices on the sphere; not closed as generated: the caps at the poles face inward while the body faces outward; with the caps turned the surface is closed and consistently oriented *)
Theorem C40_sphere : forall s n, sdiv s = Z.of_nat n -> (3 <= n)%nat -> 0 < srad s ->
  let m := zSphere3DToPH s in
  m_nv m = (n * (n - 1) + 2)%nat /\ m_nf m = (n * (n - 1) * 2)%nat /\ length (m_verts m) = m_nv m /\ length (m_faces m) = m_nf m /\ indices_below (m_nv m) (m_faces m) /\ ~ closed (m_faces m) /\
  (forall v, List.In v (m_verts m) -> dist v (scen s) = srad s) /\
  exists cap0 body cap1, m_faces m = cap0 ++ body ++ cap1 /\ length cap0 = n /\ length cap1 = n /\ oriented (map turned cap0 ++ body ++ map turned cap1) /\
   (forall f, List.In f body -> behind_face (m_verts m) f (scen s)) /\ (forall f, List.In f (cap0 ++ cap1) -> before_face (m_verts m) f (scen s)).
Proof. exact sphere_mesh. Qed.
Print Assumptions C40_sphere.
Theorem C40_ellipsoid : forall e n, eldiv e = Z.of_nat n -> (3 <= n)%nat -> 0 < mdet (fatt (elf e)) -> 0 < vx (elrad e) -> 0 < vy (elrad e) -> 0 < vz (elrad e) ->
  let m := zEllips3DToPH e in
  m_nv m = (n * (n - 1) + 2)%nat /\ m_nf m = (n * (n - 1) * 2)%nat /\ length (m_verts m) = m_nv m /\ length (m_faces m) = m_nf m /\ indices_below (m_nv m) (m_faces m) /\ ~ closed (m_faces m) /\
  (forall v, List.In v (m_verts m) -> exists q, v = vadd (mvec (fatt (elf e)) q) (fpos (elf e)) /\
      (vx q / vx (elrad e))² + (vy q / vy (elrad e))² + (vz q / vz (elrad e))² = 1) /\
  exists cap0 body cap1, m_faces m = cap0 ++ body ++ cap1 /\ length cap0 = n /\ length cap1 = n /\ oriented (map turned cap0 ++ body ++ map turned cap1) /\
   (forall f, List.In f body -> behind_face (m_verts m) f (fpos (elf e))) /\ (forall f, List.In f (cap0 ++ cap1) -> before_face (m_verts m) f (fpos (elf e))).
Proof. exact ellips_mesh. Qed.
Print Assumptions C40_ellipsoid.
(** closed and outward whenever the division number is a multiple of four *)
Theorem C40_capsule : forall c h, cdiv c = Z.of_nat (4 * h) -> (1 <= h)%nat -> INR (4 * h) <= 2147483648 -> 3 * zTOL <= norm (vsub (cc1 c) (cc0 c)) -> 0 < crad c ->
  exists m, zCapsule3DToPH c = Some m /\ closed_mesh (m_nv m) (m_nf m) (m_verts m) (m_faces m) /\ m_nv m = (8 * h * h + 2)%nat /\ m_nf m = (16 * h * h)%nat /\
    (forall v, List.In v (m_verts m) -> dist v (cc1 c) = crad c /\ 0 <= dot (vsub v (cc1 c)) (vsub (cc1 c) (cc0 c)) \/ dist v (cc0 c) = crad c /\ dot (vsub v (cc0 c)) (vsub (cc1 c) (cc0 c)) <= 0) /\
    (forall f, List.In f (m_faces m) -> behind_face (m_verts m) f (vscale (1 / 2) (vadd (cc0 c) (cc1 c)))).
Proof. exact capsule_mesh. Qed.
Print Assumptions C40_capsule.
(** otherwise vertices and faces are missing and a face refers to a vertex that is never set *)
Theorem C40_capsule_refuted : forall c n, cdiv c = Z.of_nat n -> (3 <= n)%nat -> (n mod 4 <> 0)%nat -> INR n <= 2147483648 -> 3 * zTOL <= norm (vsub (cc1 c) (cc0 c)) -> 0 < crad c ->
  exists m, zCapsule3DToPH c = Some m /\ (length (m_verts m) < m_nv m)%nat /\ (length (m_faces m) < m_nf m)%nat /\
    exists a b, List.In (m_nv m - 1, a, b)%nat (m_faces m) /\ (length (m_verts m) <= m_nv m - 1)%nat.
Proof. exact capsule_mesh_bad. Qed.
Print Assumptions C40_capsule_refuted.
Example C40_ex : ~ closed (m_faces (zSphere3DToPH (ModelShape.SP v3zero 1 16))).
Proof. apply (sphere_mesh (ModelShape.SP v3zero 1 16) 16); [reflexivity|auto with arith|simpl; Lra.lra]. Qed.

(** * C41 torus and lathe *)
(** any loop of at least three points, any division number *)
Theorem C41_torus : forall loop d o a, (3 <= length loop)%nat -> (3 <= d)%nat -> INR d <= 2147483648 -> dot a a = 1 ->
  exists m, zPH3DCreateTorus loop d o a = Some m /\ closed_mesh (m_nv m) (m_nf m) (m_verts m) (m_faces m) /\ m_nv m = (length loop * d)%nat /\ m_nf m = (2 * length loop * d)%nat /\
    forall i j, (i < length loop)%nat -> (j < d)%nat -> vpos (m_verts m) (i * d + j) = vadd o (rodrigues a (part_of_turn d j) (vsub (nth i loop v3zero) o)).
Proof. exact torus_mesh. Qed.
Print Assumptions C41_torus.
(** any rim of at least two points: the cap at the end of the rim is wound the wrong way round; turning it makes the surface closed and consistently oriented *)
Theorem C41_lathe_refuted : forall rim d o a, (2 <= length rim)%nat -> (3 <= d)%nat -> INR d <= 2147483648 -> dot a a = 1 ->
  exists m rest top, zPH3DCreateLathe rim d o a = Some m /\ m_nv m = (length rim * d)%nat /\ m_nf m = (2 * (length rim - 1) * d + 2 * (d - 2))%nat /\
    length (m_verts m) = m_nv m /\ length (m_faces m) = m_nf m /\ indices_below (m_nv m) (m_faces m) /\
    m_faces m = rest ++ top /\ length top = (d - 2)%nat /\ oriented (rest ++ map turned top) /\ ~ closed (m_faces m) /\
    forall i j, (i < length rim)%nat -> (j < d)%nat -> vpos (m_verts m) (i * d + j) = vadd o (rodrigues a (part_of_turn d j) (vsub (nth i rim v3zero) o)).
Proof. exact lathe_mesh. Qed.
Print Assumptions C41_lathe_refuted.
Theorem C41_volume : forall loop d o a m, zPH3DCreateTorus loop d o a = Some m \/ zPH3DCreateLathe loop d o a = Some m -> 0 <= mesh_vol v3zero (m_verts m) (m_faces m).
Proof. exact swept_volume. Qed.
Print Assumptions C41_volume.
Example C41_ex : exists m, zPH3DCreateTorus [V3 3 0 0; V3 4 0 0; V3 4 0 1] 12 v3zero (V3 0 0 1) = Some m /\ m_nf m = 72%nat.
Proof.
  destruct (torus_mesh [V3 3 0 0; V3 4 0 0; V3 4 0 1] 12 v3zero (V3 0 0 1)) as (m & A & _ & _ & B & _); auto with arith; [simpl; Lra.lra|spec_unfold; ring|exists m; auto].
Qed.
