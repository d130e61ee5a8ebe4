(** Property C72: oriented bounding boxes. *)
From Verif Require Import Base Spec SpecGeom SpecHull SpecMesh SpecBox SpecBBox ModelVec ModelElem ModelFrame ModelBox ModelPH ModelHull ModelBBox FactsVec FactsAlg FactsElem FactsHull2 FactsHull4 FactsPH2 FactsPH4 FactsBBox FactsBBox3 FactsBBox4 FactsBBox5.
From Coq Require Import List Lra Lia.
Import ListNotations.
Open Scope R_scope.

(** [hull] stands for zVec3DDataConvexHull, of which only the stated facts about its result [ch] are used: faces with fresh normals that are not negligible, all vertices on or beneath every face. [extent d l w]: w is the difference of the greatest and the least coordinate of l along d; [thinnest]: no other face normal has a smaller extent; [clear_shadows]: seen along the chosen normal, distinct vertices are told apart by the tolerance. The axes are orthonormal and right-handed, the box contains the hull and touches it on all six sides, the third axis is the normal of a face with the least height, the rectangle across it has the least area of all, and rests on two vertices seen as an edge *)
Theorem C72_box : forall sort hull data ch, sorts sort -> hull data = Some ch -> sound_ph ch -> pfaces ch <> [] -> beneath ch ->
  (forall t, List.In t (solid_tris ch) -> thinnest (pverts ch) (normals ch) (tnorm t) -> clear_shadows (tv0 t) (tnorm t) (pverts ch)) ->
  exists t, List.In t (solid_tris ch) /\ thinnest (pverts ch) (normals ch) (tnorm t) /\
  ((zConvexHull2DBase (shadows (tv0 t) (tnorm t) (pverts ch)) = None /\ zVec3DDataOBB sort hull data = Some None) \/
  exists b, zVec3DDataOBB sort hull data = Some (Some b) /\ good_box b /\ zBox3DAxis b 2 = tnorm t /\ cross (zBox3DAxis b 0) (zBox3DAxis b 1) = zBox3DAxis b 2 /\
    (forall x, convex_hull (pverts ch) x -> in_obb b x) /\
    extent (zBox3DAxis b 0) (pverts ch) (vx (bspan b)) /\ extent (zBox3DAxis b 1) (pverts ch) (vy (bspan b)) /\ extent (zBox3DAxis b 2) (pverts ch) (vz (bspan b)) /\
    (forall e we wf, dot e e = 1 -> dot (zBox3DAxis b 2) e = 0 -> extent e (pverts ch) we -> extent (cross (zBox3DAxis b 2) e) (pverts ch) wf -> vx (bspan b) * vy (bspan b) <= we * wf) /\
    (exists p q k, List.In p (pverts ch) /\ List.In q (pverts ch) /\ 0 < k /\ across (zBox3DAxis b 2) (vsub q p) = vscale k (zBox3DAxis b 0) /\
       ((forall x, List.In x (pverts ch) -> 0 <= dot (zBox3DAxis b 1) (vsub x p)) \/ (forall x, List.In x (pverts ch) -> dot (zBox3DAxis b 1) (vsub x p) <= 0)))).
Proof. exact obb_right. Qed.
Print Assumptions C72_box.
(** no box with the same third axis about the vertices is smaller *)
Theorem C72_least : forall sort hull data ch b, sorts sort -> hull data = Some ch -> sound_ph ch -> pfaces ch <> [] -> beneath ch ->
  (forall t, List.In t (solid_tris ch) -> thinnest (pverts ch) (normals ch) (tnorm t) -> clear_shadows (tv0 t) (tnorm t) (pverts ch)) ->
  zVec3DDataOBB sort hull data = Some (Some b) ->
  forall b', good_box b' -> zBox3DAxis b' 2 = zBox3DAxis b 2 -> (forall v, List.In v (pverts ch) -> in_obb b' v) ->
  vz (bspan b) <= vz (bspan b') /\ vx (bspan b) * vy (bspan b) <= vx (bspan b') * vy (bspan b') /\
  vx (bspan b) * vy (bspan b) * vz (bspan b) <= vx (bspan b') * vy (bspan b') * vz (bspan b').
Proof. exact obb_least_box. Qed.
Print Assumptions C72_least.
(** it is not the least box: a tetrahedron of four corners nearly of a box of volume 2 gets a box of volume at least 3 *)
Theorem C72_volume_refuted : forall sort hull data, sorts sort -> hull data = Some tetra ->
  exists b b', zVec3DDataOBB sort hull data = Some (Some b) /\ good_box b' /\ (forall x, convex_hull (pverts tetra) x -> in_obb b' x) /\
    vx (bspan b') * vy (bspan b') * vz (bspan b') = 2 /\ 3 <= vx (bspan b) * vy (bspan b) * vz (bspan b).
Proof. exact obb_not_least. Qed.
Print Assumptions C72_volume_refuted.
(** no hull: the null pointer; a hull without faces: a null pointer is followed *)
Theorem C72_null : forall sort hull data, (hull data = None -> zVec3DDataOBB sort hull data = Some None) /\
  (forall ch, hull data = Some ch -> pfaces ch = [] -> zVec3DDataOBB sort hull data = None).
Proof. exact obb_null. Qed.
Print Assumptions C72_null.
Example C72_ex : exists b, zVec3DDataOBB isort (fun _ => Some tetra) tv = Some (Some b) /\ good_box b /\ (forall x, convex_hull tv x -> in_obb b x) /\ vz (bspan b) = 31/30.
Proof.
  destruct (C72_box isort (fun _ => Some tetra) tv tetra isort_sorts eq_refl tetra_sound) as (t & It & TH & C); [discriminate|exact tetra_beneath|exact tetra_clear|].
  pose proof (thinnest0 t It TH) as ->. destruct C as [(C & _)|(b & E & G & A2 & _ & CO & _ & _ & X2 & _)]; [rewrite tshadows in C; change (zConvexHull2DBase sh = None) in C; rewrite tbase in C; discriminate|].
  exists b. split; [exact E|]. split; [exact G|]. split; [exact CO|]. rewrite A2, tnorm0 in X2. exact (extent_unique _ _ _ _ X2 extent0).
Qed.
