(** Vocabulary for the geometry of generated meshes. *)
From Verif Require Export SpecMesh.
Open Scope R_scope.

(** right-handed orthonormal triple *)
Definition right_triple (u s t : vec3) : Prop := dot u u = 1 /\ dot s s = 1 /\ dot t t = 1 /\ dot u s = 0 /\ dot u t = 0 /\ dot s t = 0 /\ cross u s = t.
(** point at angle [a] of the ellipse spanned by the semi-axes p and q *)
Definition on_ellipse (p q : vec3) (a : R) : vec3 := vadd (vscale (cos a) p) (vscale (sin a) q).
(** the k-th of n equal parts of a full turn *)
Definition part_of_turn (n k : nat) : R := 2 * PI * INR k / INR n.
(** normal of a face, with the length of twice its area *)
Definition face_normal (vs : list vec3) (f : nat * nat * nat) : vec3 := let '(a, b, c) := corners vs f in tri_normal a b c.
Definition face_base (vs : list vec3) (f : nat * nat * nat) : vec3 := let '(a, _, _) := corners vs f in a.
(** [x] lies strictly behind / before the plane of the face, seen along its normal *)
Definition behind_face (vs : list vec3) (f : nat * nat * nat) (x : vec3) : Prop := dot (face_normal vs f) (vsub x (face_base vs f)) < 0.
Definition before_face (vs : list vec3) (f : nat * nat * nat) (x : vec3) : Prop := 0 < dot (face_normal vs f) (vsub x (face_base vs f)).
(** the faces bound a convex body and look outward: the inner point [x] is strictly behind every
    face, and no vertex is before any face *)
Definition outward_convex (vs : list vec3) (fs : list (nat * nat * nat)) (x : vec3) : Prop :=
  forall f, List.In f fs -> behind_face vs f x /\ forall v, List.In v vs -> ~ before_face vs f v.
(** a mesh that is a well-formed closed surface with [nv] vertices and [nf] faces *)
Definition closed_mesh (nv nf : nat) (vs : list vec3) (fs : list (nat * nat * nat)) : Prop :=
  length vs = nv /\ length fs = nf /\ indices_below nv fs /\ oriented fs.
