(** Vocabulary for the normal vectors of points and for the alignment of two sets of points. *)
From Verif Require Export Spec SpecGeom SpecData SpecPCA SpecBox SpecProfile.
From Coq Require Export Permutation.
Open Scope R_scope.

(** [n] is a direction along which the points of [l] in the vicinity of [p] deviate least from [p], up to a tolerance:
    for some list of exactly these points, each as often as in [l] *)
Definition flattest (l : list vec3) (r : R) (p n : vec3) : Prop :=
  exists near far, Permutation (near ++ far) l /\ (forall q, List.In q near -> dist q p < r) /\ (forall q, List.In q far -> r <= dist q p) /\
  forall x, norm x = 1 -> spread near p n <= spread near p x + 4 * zTOL.
(** [n] does not point towards [c] from [p] *)
Definition outward (c p n : vec3) : Prop := 0 <= dot n (vsub p c).
(** a normal vector at [p] of the points [l] with the centre [c] *)
Definition normal_at (l : list vec3) (r : R) (c p n : vec3) : Prop := norm n = 1 /\ outward c p n /\ flattest l r p n.
(** every point of [l] selected by [sel], mapped by the frame, is less than [tol] away from a point of [l'] *)
Definition matched (sel : nat -> Prop) (tol : R) (f : frame3) (l l' : list vec3) : Prop :=
  forall k p, nth_error l k = Some p -> sel k -> exists q, List.In q l' /\ dist (act f p) q < tol.
(** displacement only *)
Definition shift (t : vec3) : frame3 := F3 t mid.
(** displacement of the centre of the points [l] to that of the points [l'] *)
Definition centring (l l' : list vec3) : frame3 := shift (vsub (vmean l') (vmean l)).
