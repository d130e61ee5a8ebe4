(** Vocabulary for boundary representations: cells of the lists at addresses, faces that
    refer to vertices and edges. *)
From Coq Require Export List Lia.
Export ListNotations.
From Verif Require Export SpecGeom SpecMesh.
Open Scope R_scope.

(** a vertex: its position, and its height over the last cutting plane *)
Record vcell := VC { vc_p : vec3; vc_d : R }.
(** an edge: its two ends, and the vertex where it is cut, if any *)
Record ecell := EGC { ec_a : nat; ec_b : nat; ec_cut : option nat }.
(** a face: three vertices, three edges, a normal *)
Record bface := BF { bf_v : nat * nat * nat; bf_e : nat * nat * nat; bf_norm : vec3 }.
(** the cells in memory ([None]: not allocated), the first address never used so far, and the lists *)
Record brep := BR { br_v : nat -> option vcell; br_e : nat -> option ecell; br_next : nat;
                    vlist : list nat; elist : list nat; flist : list bface }.

(** entry i of a triple, cyclic successor of an index *)
Definition get3 {A} (t : A * A * A) (i : nat) : A := let '(x, y, z) := t in match i with 0%nat => x | 1%nat => y | _ => z end.
Definition nxt (i : nat) : nat := match i with 0%nat => 1%nat | 1%nat => 2%nat | _ => 0%nat end.
(** the edge cell joins two vertices *)
Definition joins (e : ecell) (x y : nat) : Prop := (ec_a e = x /\ ec_b e = y) \/ (ec_a e = y /\ ec_b e = x).
(** edge i of a face joins the two vertices other than vertex i *)
Definition good_face (b : brep) (f : bface) : Prop :=
  forall i, (i < 3)%nat -> List.In (get3 (bf_v f) i) (vlist b) /\ List.In (get3 (bf_e f) i) (elist b) /\
    exists c, br_e b (get3 (bf_e f) i) = Some c /\ joins c (get3 (bf_v f) (nxt i)) (get3 (bf_v f) (nxt (nxt i))).
(** all cells of the lists are alive and refer to each other only; addresses are used once; no edge is marked as cut *)
Record good_brep (b : brep) : Prop := GB {
  gb_vnd : NoDup (vlist b);
  gb_end : NoDup (elist b);
  gb_v : forall v, List.In v (vlist b) -> (v < br_next b)%nat /\ exists c, br_v b v = Some c;
  gb_e : forall e, List.In e (elist b) -> (e < br_next b)%nat /\ exists c, br_e b e = Some c /\ List.In (ec_a c) (vlist b) /\ List.In (ec_b c) (vlist b) /\ ec_cut c = None;
  gb_f : forall f, List.In f (flist b) -> good_face b f }.
(** nothing but the faces' own vertices and edges is kept *)
Definition no_garbage (b : brep) : Prop :=
  (forall v, List.In v (vlist b) -> exists f i, List.In f (flist b) /\ (i < 3)%nat /\ get3 (bf_v f) i = v) /\
  (forall e, List.In e (elist b) -> exists f i, List.In f (flist b) /\ (i < 3)%nat /\ get3 (bf_e f) i = e).

(** the corners of a face *)
Definition vert_at (b : brep) (v : nat) (p : vec3) : Prop := exists c, br_v b v = Some c /\ vc_p c = p.
Definition face_at (b : brep) (f : bface) (t : vec3 * vec3 * vec3) : Prop := forall i, (i < 3)%nat -> vert_at b (get3 (bf_v f) i) (get3 t i).
Definition in_tri (t : vec3 * vec3 * vec3) (p : vec3) : Prop := let '(x, y, z) := t in in_triangle x y z p.
(** the points of the surface *)
Definition on_brep (b : brep) (p : vec3) : Prop := exists f t, List.In f (flist b) /\ face_at b f t /\ in_tri t p.
(** twice the area of a triangle, as a vector *)
Definition tri_area (t : vec3 * vec3 * vec3) : vec3 := let '(x, y, z) := t in tri_normal x y z.
(** a piece of a triangle, of the same orientation *)
Definition piece_of (t s : vec3 * vec3 * vec3) : Prop :=
  (forall p, in_tri s p -> in_tri t p) /\ exists k, 0 < k /\ tri_area s = vscale k (tri_area t).
(** signed distance from the plane through o with unit normal n *)
Definition height_over (o n p : vec3) : R := dot (vsub p o) n.
(** how a face runs along an edge: 1 from its first end to the second one, -1 in the other direction, 0 if it does not, or if the ends are the same *)
Definition run (c : ecell) (x y : nat) : R :=
  (if Nat.eqb (ec_a c) x && Nat.eqb (ec_b c) y then 1 else 0) - (if Nat.eqb (ec_a c) y && Nat.eqb (ec_b c) x then 1 else 0).
Definition side_run (b : brep) (f : bface) (e i : nat) : R :=
  if Nat.eqb (get3 (bf_e f) i) e then match br_e b e with Some c => run c (get3 (bf_v f) (nxt i)) (get3 (bf_v f) (nxt (nxt i))) | None => 0 end else 0.
Definition face_run (b : brep) (f : bface) (e : nat) : R := side_run b f e 0 + side_run b f e 1 + side_run b f e 2.
(** the faces at an edge run along it as often in one direction as in the other *)
Definition balanced (b : brep) (e : nat) : Prop := rsum (fun f => face_run b f e) (flist b) = 0.
Definition watertight (b : brep) : Prop := forall e, List.In e (elist b) -> balanced b e.
(** both ends of the edge lie on the plane, up to a tolerance *)
Definition edge_on (b : brep) (e : nat) (o n : vec3) (tol : R) : Prop :=
  exists c p q, br_e b e = Some c /\ vert_at b (ec_a c) p /\ vert_at b (ec_b c) q /\ Rabs (height_over o n p) < tol /\ Rabs (height_over o n q) < tol.
(** every vertex is on the plane or clear of it *)
Definition clear_of (b : brep) (o n : vec3) (tol : R) : Prop :=
  forall v p, List.In v (vlist b) -> vert_at b v p -> height_over o n p = 0 \/ tol <= Rabs (height_over o n p).
(** all coordinates agree up to a tolerance *)
Definition close_to (tol : R) (p q : vec3) : Prop := Rabs (vx p - vx q) < tol /\ Rabs (vy p - vy q) < tol /\ Rabs (vz p - vz q) < tol.
Definition close3 (tol : R) (s t : vec3 * vec3 * vec3) : Prop := forall i, (i < 3)%nat -> close_to tol (get3 s i) (get3 t i).
(** points of a list of triangles *)
Definition on_tris (ts : list (vec3 * vec3 * vec3)) (p : vec3) : Prop := exists t, List.In t ts /\ in_tri t p.
(** points that agree up to the tolerance are the same *)
Definition well_apart (tol : R) (l : list vec3) : Prop := forall p q, List.In p l -> List.In q l -> close_to tol p q -> p = q.
(** no pair of vertices has two edges *)
Definition single_edges (b : brep) : Prop :=
  forall e e' c c' x y, List.In e (elist b) -> List.In e' (elist b) -> br_e b e = Some c -> br_e b e' = Some c' -> joins c x y -> joins c' x y -> e = e'.
(** what the conversion to a polyhedron needs: the vertices of the list are alive, those of the faces are in the list *)
Definition good_verts (b : brep) : Prop :=
  NoDup (vlist b) /\ (forall v, List.In v (vlist b) -> exists c, br_v b v = Some c) /\ (forall f i, List.In f (flist b) -> (i < 3)%nat -> List.In (get3 (bf_v f) i) (vlist b)).
(** a point is, up to the tolerance, a vertex *)
Definition at_vertex (tol : R) (b : brep) (p : vec3) : Prop := exists v q, List.In v (vlist b) /\ vert_at b v q /\ close_to tol q p.
(** where a point of one surface is found when merged into another: at the first vertex that agrees with it, or where it was *)
Definition snapped (tol : R) (b : brep) (p p' : vec3) : Prop :=
  (at_vertex tol b p /\ close_to tol p' p /\ exists v, List.In v (vlist b) /\ vert_at b v p') \/ (~ at_vertex tol b p /\ p' = p).
Definition snapped3 (tol : R) (b : brep) (t t' : vec3 * vec3 * vec3) : Prop := forall i, (i < 3)%nat -> snapped tol b (get3 t i) (get3 t' i).
(** both ends of an edge of [s] agree with vertices of [b], or none does *)
Definition ends_agree (tol : R) (b s : brep) (e : nat) : Prop :=
  forall c p q, br_e s e = Some c -> vert_at s (ec_a c) p -> vert_at s (ec_b c) q -> (at_vertex tol b p <-> at_vertex tol b q).
(** [ts]: the part of the triangles [src] under all planes, up to the tolerance, in pieces *)
Definition cut_out (tol : R) (src : list (vec3 * vec3 * vec3)) (planes : list (vec3 * vec3)) (ts : list (vec3 * vec3 * vec3)) : Prop :=
  (forall p, on_tris ts p -> on_tris src p /\ forall o n, List.In (o, n) planes -> height_over o n p < tol) /\
  (forall p, on_tris src p -> (forall o n, List.In (o, n) planes -> height_over o n p <= - tol) -> on_tris ts p) /\
  (forall s, List.In s ts -> exists t, List.In t src /\ piece_of t s).
