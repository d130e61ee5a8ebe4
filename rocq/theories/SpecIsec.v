(** Vocabulary for regions bounded by planes. *)
From Verif Require Export Spec SpecGeom SpecHull SpecMesh.
From Coq Require Import List.
Import ListNotations.
Open Scope R_scope.

(** half-spaces, given by an outward normal and a point of the plane *)
Definition half_space : Type := vec3 * vec3.
(** beneath all planes *)
Definition common (hs : list half_space) (x : vec3) : Prop := forall n a, List.In (n, a) hs -> dot n (vsub x a) <= 0.
(** beneath all planes, those nearer than [e] to [p] being moved away to the distance [e] *)
Definition widened (p : vec3) (e : R) (hs : list half_space) (x : vec3) : Prop :=
  forall n a, List.In (n, a) hs -> dot n (vsub x p) <= Rmax (dot n (vsub a p)) e.
(** vertices and faces (three vertex numbers and a normal): numbers below the number of vertices, unit normals, each
    perpendicular to its face *)
Definition flat_faces (vs : list vec3) (fs : list (nat * nat * nat * vec3)) : Prop :=
  forall a b c n, List.In (a, b, c, n) fs -> (a < length vs)%nat /\ (b < length vs)%nat /\ (c < length vs)%nat /\
    norm n = 1 /\ dot n (vsub (vpos vs b) (vpos vs a)) = 0 /\ dot n (vsub (vpos vs c) (vpos vs a)) = 0.
Definition planes (vs : list vec3) (fs : list (nat * nat * nat * vec3)) : list half_space := map (fun f => let '(a, b, c, n) := f in (n, vpos vs a)) fs.
(** the convex hull of the listed points, of the vertices, and the part of space beneath all faces are the same *)
Definition hull_planes (l vs : list vec3) (fs : list (nat * nat * nat * vec3)) : Prop :=
  flat_faces vs fs /\ (forall x, convex_hull l x <-> common (planes vs fs) x) /\ (forall x, convex_hull vs x <-> common (planes vs fs) x).
(** seen from [p], planes as points and back: a plane at the height [h > 0] along its normal [n] corresponds to [n / h] *)
Definition duals (p : vec3) (e : R) (hs : list half_space) : list vec3 := map (fun h => vscale (/ Rmax (dot (fst h) (vsub (snd h) p)) e) (fst h)) hs.
Definition backs (p : vec3) (hs : list half_space) : list vec3 := map (fun h => vadd p (vscale (/ dot (fst h) (snd h)) (fst h))) hs.
