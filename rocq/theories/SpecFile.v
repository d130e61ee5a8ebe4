(** Vocabulary for files of triangles: bytes, words of a text, codes of numbers, lists of
    triangles given by their corners. *)
From Coq Require Export List String ZArith.
Export ListNotations.
From Verif Require Export SpecGeom SpecMesh.
Open Scope R_scope.

(** a byte is a number from 0 to 255; four bytes of a 32-bit number, lowest first *)
Definition le32 (n : Z) : list Z := [n mod 256; (n / 256) mod 256; (n / 65536) mod 256; (n / 16777216) mod 256]%Z.
Definition of32 (b : list Z) : Z := match b with [a; b; c; d] => (a + 256 * b + 65536 * c + 16777216 * d)%Z | _ => 0%Z end.
(** a code of numbers by four bytes (single precision); what is left of a number after coding *)
Record fcodec := FCodec { fenc : R -> list Z; fdec : list Z -> R }.
Definition four_bytes (c : fcodec) : Prop := forall x, length (fenc c x) = 4%nat.
Definition recoded (c : fcodec) (x : R) : R := fdec c (fenc c x).
(** words of a text: a number or something else *)
Inductive tok := TW (w : string) | TN (x : R).
(** component by component *)
Definition each (g : R -> R) (v : vec3) : vec3 := V3 (g (vx v)) (g (vy v)) (g (vz v)).

Definition tri : Type := vec3 * vec3 * vec3.
Definition each3 (g : vec3 -> vec3) (t : tri) : tri := let '(a, b, c) := t in (g a, g b, g c).
Definition tri_corners (t : tri) : list vec3 := let '(a, b, c) := t in [a; b; c].
Definition all_corners (ts : list tri) : list vec3 := flat_map tri_corners ts.
(** two points that differ by less than [tol] in each coordinate *)
Definition about (tol : R) (p q : vec3) : Prop := Rabs (vx p - vx q) < tol /\ Rabs (vy p - vy q) < tol /\ Rabs (vz p - vz q) < tol.
Definition about3 (tol : R) (t u : tri) : Prop :=
  let '(a, b, c) := t in let '(a', b', c') := u in about tol a a' /\ about tol b b' /\ about tol c c'.
(** any two different points are apart *)
Definition well_apart (tol : R) (ps : list vec3) : Prop := forall p q, List.In p ps -> List.In q ps -> about tol p q -> p = q.
(** [vs] lists the points of [ps], each once, in the order of their first occurrences *)
Inductive first_occurrences : list vec3 -> list vec3 -> Prop :=
| FO_nil : first_occurrences [] []
| FO_old : forall ps vs p, first_occurrences ps vs -> List.In p vs -> first_occurrences (ps ++ [p]) vs
| FO_new : forall ps vs p, first_occurrences ps vs -> ~ List.In p vs -> first_occurrences (ps ++ [p]) (vs ++ [p]).
(** the triangles named by triples of numbers of vertices *)
Definition triangle_of (vs : list vec3) (f : nat * nat * nat) (t : tri) : Prop :=
  let '(i, j, k) := f in let '(a, b, c) := t in nth_error vs i = Some a /\ nth_error vs j = Some b /\ nth_error vs k = Some c.
(** the normal that goes with a triangle: of length one, towards the side from which the
    corners are seen counterclockwise; if the triangle is degenerate, within the tolerance of zero *)
Definition normal_of (t : tri) (n : vec3) : Prop :=
  let '(a, b, c) := t in let m := tri_normal a b c in
  (negligible m -> n = m) /\ (~ negligible m -> norm n = 1 /\ vscale (norm m) n = m).
(** [vs] and the faces [fs], numbers of vertices and a normal, are the triangles [ts] with the
    corners joined that are within the tolerance of each other: one face for each triangle, in
    the same order; vertices are among the corners, different, and all of them used.  If no two
    different corners are within the tolerance of each other nothing is moved, and the vertices
    are the corners in the order of their first occurrences *)
Definition welded (tol : R) (ts : list tri) (vs : list vec3) (fs : list ((nat * nat * nat) * vec3)) : Prop :=
  Forall2 (fun t f => exists u, triangle_of vs (fst f) u /\ about3 tol t u /\ normal_of u (snd f)) ts fs /\
  NoDup vs /\ (forall v, List.In v vs -> List.In v (all_corners ts)) /\
  (forall i, (i < length vs)%nat -> exists f a b c, List.In f fs /\ fst f = (a, b, c) /\ (i = a \/ i = b \/ i = c)) /\
  (well_apart tol (all_corners ts) -> first_occurrences (all_corners ts) vs /\ Forall2 (fun t f => triangle_of vs (fst f) t) ts fs).
(** the triangles of a mesh, face by face *)
Definition soup (vs : list vec3) (fs : list (nat * nat * nat)) (ts : list tri) : Prop := Forall2 (fun t f => triangle_of vs f t) ts fs.
Definition first_corner (ts : list tri) (v : vec3) : Prop := exists a b r, ts = (v, a, b) :: r.
Definition plain_word (t : tok) : Prop := t <> TW "facet" /\ t <> TW "endsolid".
