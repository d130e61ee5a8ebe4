(** Vocabulary for triangle meshes and their mass properties. *)
From Coq Require Export Permutation.
From Verif Require Export SpecGeom SpecFrame SpecBox SpecShape.
Open Scope R_scope.

(** a face is a cyclic triple of vertex numbers; its directed sides *)
Definition sides (f : nat * nat * nat) : list (nat * nat) := let '(a, b, c) := f in [(a, b); (b, c); (c, a)].
Definition all_sides (fs : list (nat * nat * nat)) : list (nat * nat) := flat_map sides fs.
Definition opp {A} (e : A * A) : A * A := (snd e, fst e).
(** closed: every directed side is matched by an opposite one *)
Definition closed (fs : list (nat * nat * nat)) : Prop := Permutation (all_sides fs) (map opp (all_sides fs)).
(** closed surface with consistent orientation: besides, no directed side is used twice *)
Definition oriented (fs : list (nat * nat * nat)) : Prop := closed fs /\ NoDup (all_sides fs).
(** all vertex numbers are below [n] *)
Definition indices_below (n : nat) (fs : list (nat * nat * nat)) : Prop :=
  Forall (fun f => let '(a, b, c) := f in (a < n)%nat /\ (b < n)%nat /\ (c < n)%nat) fs.
(** no face repeats a vertex *)
Definition proper_faces (fs : list (nat * nat * nat)) : Prop := Forall (fun f => let '(a, b, c) := f in a <> b /\ b <> c /\ c <> a) fs.

(** sums over lists *)
Definition rsum {A} (f : A -> R) (l : list A) : R := fold_right (fun a s => f a + s) 0 l.
Definition vsum {A} (f : A -> vec3) (l : list A) : vec3 := fold_right (fun a s => vadd (f a) s) v3zero l.
Definition msum {A} (f : A -> mat3) (l : list A) : mat3 := fold_right (fun a s => madd (f a) s) mzero l.

(** corner positions of faces, given the vertex positions *)
Definition vpos (vs : list vec3) (i : nat) : vec3 := nth i vs v3zero.
Definition corners (vs : list vec3) (f : nat * nat * nat) : vec3 * vec3 * vec3 :=
  let '(a, b, c) := f in (vpos vs a, vpos vs b, vpos vs c).
(** signed volume of the tetrahedron with apex [o] *)
Definition cone_vol (o : vec3) (t : vec3 * vec3 * vec3) : R := let '(a, b, c) := t in vol6 o a b c / 6.
(** first moment about the origin of the tetrahedron with apex [o] *)
Definition cone_moment (o : vec3) (t : vec3 * vec3 * vec3) : vec3 :=
  let '(a, b, c) := t in vscale (cone_vol o t) (vscale (1 / 4) (vadd (vadd (vadd o a) b) c)).
Definition mesh_vol (o : vec3) (vs : list vec3) (fs : list (nat * nat * nat)) : R := rsum (fun f => cone_vol o (corners vs f)) fs.
Definition mesh_moment (o : vec3) (vs : list vec3) (fs : list (nat * nat * nat)) : vec3 := vsum (fun f => cone_moment o (corners vs f)) fs.
(** inertia of a unit point mass at [p] about the origin: |p|^2 I - p p^T *)
Definition point_inertia (p : vec3) : mat3 := madd (mscale (dot p p) mid) (mscale (-1) (outer p p)).
(** a face read in the opposite sense *)
Definition turned (f : nat * nat * nat) : nat * nat * nat := let '(a, b, c) := f in (a, c, b).
(** inertia of a distribution with second moment S: trace(S) I - S *)
Definition inertia_of_second (S : mat3) : mat3 := madd (mscale (cxx S + cyy S + czz S) mid) (mscale (-1) S).
(** the frame that only shifts *)
Definition shift_by (d : vec3) : frame3 := F3 d mid.
