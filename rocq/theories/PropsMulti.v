(** Property C58: queries to sets of shapes. *)
From Verif Require Import Base Spec SpecShape SpecMulti SpecBall SpecOctree ModelMulti FactsVec FactsAlg FactsElem FactsPH4 FactsMulti FactsMulti2 FactsMulti3.
From Coq Require Import List Lra.
Import ListNotations.
Open Scope R_scope.

(** * C58 sets of shapes *)(** the answer is that of a member, none has a smaller distance; undefined exactly without members or when undefined for a member *)
Theorem C58_least : forall ans ms p, match zMultiShape3DClosest ans ms p with
  | Some (d, cp) => (exists s, List.In s ms /\ zShape3DClosest ans s p = Some (d, cp)) /\
      forall s, List.In s ms -> exists d' cp', zShape3DClosest ans s p = Some (d', cp') /\ d <= d'
  | None => ms = [] \/ exists s, List.In s ms /\ zShape3DClosest ans s p = None
  end.
Proof. exact multi_least. Qed.
Print Assumptions C58_least.
(** the point found is nearest in the union of the solids; the distance is right outside and not positive inside *)
Theorem C58_closest : forall ans ms p d cp, exact_solver ans -> Forall shape_ok ms -> Forall (fun s => ordinary s p) ms ->
  zMultiShape3DClosest ans ms p = Some (d, cp) ->
  nearest (union (map shape_solid ms)) p cp /\
  (union (map shape_solid ms) p -> d <= 0 /\ cp = p) /\ (~ union (map shape_solid ms) p -> 0 < d /\ d = dist p cp).
Proof. exact multi_union. Qed.
Print Assumptions C58_closest.
Theorem C58_exists : forall ans ms p, exact_solver ans -> Forall shape_ok ms -> Forall (fun s => ordinary s p) ms -> ms <> [] ->
  Forall quadratic_free ms -> exists d cp, zMultiShape3DClosest ans ms p = Some (d, cp).
Proof. exact multi_exists. Qed.
Print Assumptions C58_exists.
(** above the second cap of a cylinder its negative distance beats a nearer ball *)
Theorem C58_refuted : forall ans, exists ms p d cp, Forall shape_ok ms /\ zMultiShape3DClosest ans ms p = Some (d, cp) /\ d < 0 /\ ~ union (map shape_solid ms) p /\
  exists x, union (map shape_solid ms) x /\ dist p x < dist p cp.
Proof. exact multi_refuted. Qed.
Print Assumptions C58_refuted.
Theorem C58_inside : forall ms p m, (forall s, List.In s ms -> zShape3DPointIsInside s p m <> None) ->
  exists b, zMultiShape3DPointIsInside ms p m = Some b /\ (b = true <-> exists s, List.In s ms /\ zShape3DPointIsInside s p m = Some true).
Proof. exact multi_inside. Qed.
Print Assumptions C58_inside.
(** with margin zero: sound for the union, complete for interior points of members (capsules excepted) *)
Theorem C58_inside_union : forall ms p, Forall inside_ok ms -> exists b, zMultiShape3DPointIsInside ms p 0 = Some b /\
  (b = true -> union (map shape_solid ms) p) /\ (union (map (fun s => inner_point (shape_solid s)) ms) p -> b = true).
Proof. exact multi_inside0. Qed.
Print Assumptions C58_inside_union.
Theorem C58_contig : forall ph phs p, pverts ph <> [] -> exists v d, zMultiShape3DContigVert (map ShPH (ph :: phs)) p = Some (v, d) /\
  List.In v (flat_map pverts (ph :: phs)) /\ d = dist p v /\ forall w, List.In w (flat_map pverts (ph :: phs)) -> d <= dist p w.
Proof. exact multi_contig. Qed.
Print Assumptions C58_contig.
Theorem C58_contig_undefined : forall ms p, ms = [] \/ (exists s, List.In s ms /\ forall ph, s <> ShPH ph) -> zMultiShape3DContigVert ms p = None.
Proof. exact multi_contig_undefined. Qed.
Print Assumptions C58_contig_undefined.
Theorem C58_vertices : forall ms, match zMultiShape3DVertData ms with
  | Some l => Forall (fun s => shapeVerts s <> None) ms /\ forall v, List.In v l <-> exists s vs, List.In s ms /\ shapeVerts s = Some vs /\ List.In v vs
  | None => exists s, List.In s ms /\ shapeVerts s = None
  end.
Proof. exact multi_verts. Qed.
Print Assumptions C58_vertices.
Theorem C58_ball : forall ms l, zMultiShape3DVertData ms = Some l -> l <> [] -> exists N r, (forall fuel, (N <= fuel)%nat -> zMultiShape3DBoundingBall fuel ms = Some r) /\
  (r = Crashed /\ (3 < length l)%nat \/
   exists b d warned, r = Found (Some b) warned /\ fball b = Some d /\ incl (fpoints b) l /\ on_sphere (scen d) (srad d) (fpoints b) /\
     (warned = false ->
        (forall s vs v, List.In s ms -> shapeVerts s = Some vs -> List.In v vs -> dist (scen d) v < srad d + zTOL) /\
        (forall bx p, List.In (ShBox bx) ms -> good_box bx -> in_obb bx p -> dist (scen d) p < srad d + zTOL))).
Proof. exact multi_ball. Qed.
Print Assumptions C58_ball.
(** the boxes made from an octree: their union holds the inserted points and stays in the region; they meet the hypotheses of [C58_closest] and [C58_exists] *)
Theorem C58_octree : forall x1 y1 z1 x2 y2 z2 res h, 0 <= res -> sane h ->
  (forall p, List.In p (inserted h) -> betw x1 x2 (vx p) /\ betw y1 y2 (vy p) /\ betw z1 z2 (vz p)) ->
  exists n, forall fuel, (n <= fuel)%nat -> exists t ms, run_oops fuel (zVec3DOctreeInit x1 y1 z1 x2 y2 z2 res) h = Some t /\ zMultiShape3DFromOctree t = Some ms /\
  ms <> [] /\ Forall shape_ok ms /\ (forall p, Forall (fun s => ordinary s p) ms) /\ Forall quadratic_free ms /\
  (forall p, union (map shape_solid ms) p <-> exists b, List.In b (zVec3DOctantToAABox3DList (o_root t)) /\ in_box b p) /\
  (forall p, List.In p (inserted h) -> union (map shape_solid ms) p) /\
  (forall p, union (map shape_solid ms) p -> betw x1 x2 (vx p) /\ betw y1 y2 (vy p) /\ betw z1 z2 (vz p)).
Proof. exact multi_octree. Qed.
Print Assumptions C58_octree.
Theorem C58_octree_empty : forall x1 y1 z1 x2 y2 z2 res, zMultiShape3DFromOctree (zVec3DOctreeInit x1 y1 z1 x2 y2 z2 res) = Some [ShBox (zAABox3DToBox3D (zAABox3DCreate x1 y1 z1 x2 y2 z2))].
Proof. exact empty_octree. Qed.
Print Assumptions C58_octree_empty.
(** a ball and a box, queried from a point outside both *)
Example C58_ex : exact_solver (fun _ => []) /\ Forall shape_ok [ShSphere (ModelShape.SP (V3 0 0 0) 1 8); ShBox (BX (F3 (V3 5 0 0) mid) (V3 1 2 3))] /\
  Forall quadratic_free [ShSphere (ModelShape.SP (V3 0 0 0) 1 8); ShBox (BX (F3 (V3 5 0 0) mid) (V3 1 2 3))] /\
  Forall inside_ok [ShSphere (ModelShape.SP (V3 0 0 0) 1 8); ShBox (BX (F3 (V3 5 0 0) mid) (V3 1 2 3))] /\
  Forall (fun s => ordinary s (V3 3 0 0)) [ShSphere (ModelShape.SP (V3 0 0 0) 1 8); ShBox (BX (F3 (V3 5 0 0) mid) (V3 1 2 3))].
Proof.
  assert (I : isometry mid) by (unfold isometry; apply mat3_ext; spec_unfold; ring).
  split; [intros cs re im []|]. repeat split; repeat (constructor; cbn); try Lra.lra; try exact I.
Qed.
(** a polyhedron with vertices *)
Example C58_ex_contig : pverts (PH [V3 0 0 0; V3 1 0 0] []) <> [].
Proof. discriminate. Qed.
(** the vertices of a set of two shapes are exported *)
Example C58_ex_ball : exists l, zMultiShape3DVertData [ShBox (BX (F3 (V3 5 0 0) mid) (V3 1 2 3)); ShPH (PH [V3 0 0 0] [])] = Some l /\ l <> [].
Proof. eexists. split; [reflexivity|discriminate]. Qed.
(** a history of insertions in a region *)
Example C58_ex_octree : 0 <= 1 /\ sane [OInsert (V3 1 1 1); OResolution 2; OInsert (V3 (-1) 3 1)] /\
  (forall p, List.In p (inserted [OInsert (V3 1 1 1); OResolution 2; OInsert (V3 (-1) 3 1)]) -> betw (-4) 4 (vx p) /\ betw (-4) 4 (vy p) /\ betw (-4) 4 (vz p)).
Proof.
  split; [Lra.lra|]. split.
  - intros r [H|[H|[H|[]]]]; try discriminate. injection H as <-. Lra.lra.
  - intros p [<-|[<-|[]]]; cbn [vx vy vz]; unfold betw; Lra.lra.
Qed.
