(** Prisms and pyramids over a bottom loop: src/zeo_ph3d.c 299-414.
    The triangulation of src/zeo_elem3d_list.c (see ModelClip.v) links vertices of the
    polyhedron; here it is followed on the numbers of the vertices in the array [vs]. *)
From Verif Require Export ModelClip ModelPH.
From Coq Require Import List.
Import ListNotations.
Open Scope R_scope.

Section Numbers.
Variable vs : list vec3.
Definition vertAt (i : nat) : vec3 := nth i vs v3zero.
(** src/zeo_elem3d_list.c 78-90, 106-113, 115: as in ModelClip.v *)
Definition otherNumbers (bef aft : list nat) : list nat :=
  match bef with [] => removelast aft | _ :: b => aft ++ rev b end.
Fixpoint clipScanNum (norm : vec3) (bef : list nat) (vp : nat) (aft : list nat) (t : option (nat * nat * nat)) : option (nat * nat * nat) * list nat :=
  match aft with
  | [] => (t, rev bef)
  | pst :: aft' =>
      let pre := match bef with u :: _ => u | [] => last aft vp end in
      let t := snd (zTri3DCreate (vertAt pre) (vertAt vp) (vertAt pst)) in
      if Rltb 0 (zVec3DInnerProd (tnorm t) norm) && zLoop3DTriangulateCheck t (map vertAt (otherNumbers bef aft'))
      then (Some (pre, vp, pst), rev bef ++ aft)
      else clipScanNum norm (vp :: bef) pst aft' (Some (pre, vp, pst))
  end.
(** src/zeo_elem3d_list.c 102-117 *)
Fixpoint clipLoopNum (fuel : nat) (norm : vec3) (loop : list nat) : option (list (nat * nat * nat)) :=
  if Nat.leb (length loop) 2 then Some []
  else match fuel, loop with
  | S k, vp :: aft =>
      match clipScanNum norm [] vp aft None with
      | (Some t, loop') => match clipLoopNum k norm loop' with Some r => Some (t :: r) | None => None end
      | (None, _) => None
      end
  | _, _ => None
  end.
(** src/zeo_elem3d_list.c 134-145 *)
Definition zTriangulateNum (loop : list nat) : option (list (nat * nat * nat)) :=
  match map vertAt loop with
  | [] => None
  | v :: r => clipLoopNum (length loop) (zLoop3DTriangulateNorm v r) loop
  end.
(** a face from three numbers: zTri3DCreate *)
Definition faceNum (f : nat * nat * nat) : face :=
  let '(i, j, k) := f in FC i j k (tnorm (snd (zTri3DCreate (vertAt i) (vertAt j) (vertAt k)))).
(** zTri3DCreateFlip *)
Definition faceNumFlip (f : nat * nat * nat) : face := let '(i, j, k) := f in faceNum (i, k, j).
(** src/zeo_ph3d.c 309-319: triangulation, alignment (src/zeo_elem3d_list.c 28-35) and
    copy into the array of faces *)
Definition zPH3DSweepBottom (loop : list nat) (ref : vec3) : option (list face) :=
  match zTriangulateNum loop with
  | Some ts => Some (map (fun f => if Rltb (zVec3DInnerProd ref (fnrm (faceNum f))) 0 then faceNumFlip f else faceNum f) ts)
  | None => None
  end.
End Numbers.

(** src/zeo_ph3d.c 302-306 *)
Definition zPH3DLoopNext (n i : nat) : nat := if Nat.eqb (S i) n then 0%nat else S i.
(** which way the side faces are made, from the first bottom face (348-352, 396-400):
    [Some true] for zTri3DCreateFlip, [None] for the fatal error *)
Definition sideFlip (n : nat) (f : face) : option bool :=
  let i1 := zPH3DLoopNext n (fi0 f) in
  if Nat.eqb (fi1 f) i1 then Some true else if negb (Nat.eqb (fi2 f) i1) then None else Some false.
Definition sideFace (vs : list vec3) (flip : bool) : nat * nat * nat -> face := if flip then faceNumFlip vs else faceNum vs.

(** results: [None] undefined (faces without contents are read), [Some None] the NULL
    return, [Some (Some ph)] *)
(** src/zeo_ph3d.c 322-370 *)
Definition zPH3DCreatePrism (bottom : list vec3) (shift : vec3) : option (option ph3) :=
  let n := length bottom in
  let vs := bottom ++ map (fun b => zVec3DAdd b shift) bottom in
  let ref := zVec3DRev shift in
  match zPH3DSweepBottom vs (seq 0 n) ref, zPH3DSweepBottom vs (seq n n) (zVec3DRev ref) with
  | Some (f0 :: fb), Some ft =>
      if Nat.ltb (2 * (n - 2)) (length (f0 :: fb) + length ft) then Some None
      else match sideFlip n f0 with
      | None => Some None
      | Some flip =>
          let sides := flat_map (fun i => let i1 := zPH3DLoopNext n i in
            [sideFace vs flip (i, i1, i1 + n); sideFace vs flip (i, i1 + n, i + n)])%nat (seq 0 n) in
          Some (Some (PH vs ((f0 :: fb) ++ ft ++ sides)))
      end
  | _, _ => None
  end.
(** src/zeo_ph3d.c 373-414 *)
Definition zPH3DCreatePyramid (bottom : list vec3) (vert : vec3) : option (option ph3) :=
  let n := length bottom in
  let vs := bottom ++ [vert] in
  let ref := zVec3DSub (vertAt vs 0) vert in
  match zPH3DSweepBottom vs (seq 0 n) ref with
  | Some (f0 :: fb) =>
      if Nat.ltb (n - 2) (length (f0 :: fb)) then Some None
      else match sideFlip n f0 with
      | None => Some None
      | Some flip => Some (Some (PH vs ((f0 :: fb) ++ map (fun i => sideFace vs flip (i, zPH3DLoopNext n i, n)) (seq 0 n))))
      end
  | _ => None
  end.
