(** Polyhedra: src/zeo_ph3d.c, include/zeo/zeo_ph3d.h, and the mass properties
    of triangle cones in src/zeo_elem3d.c.
    A polyhedron owns an array of vertices and an array of faces; a face points
    to three of the vertices (modelled by their numbers in the array, as the
    code does itself in zPH3DClone) and stores a normal.  A number outside of
    the array is an invalid pointer: the result is [None]. *)
From Verif Require Export ModelElem ModelFrame ModelBox ModelShape.
Open Scope R_scope.

Record face := FC { fi0 : nat; fi1 : nat; fi2 : nat; fnrm : vec3 }.
Record ph3 := PH { pverts : list vec3; pfaces : list face }.

(** dereferencing a face *)
Definition zPH3DFaceTri (ph : ph3) (f : face) : option tri3 :=
  match nth_error (pverts ph) (fi0 f), nth_error (pverts ph) (fi1 f), nth_error (pverts ph) (fi2 f) with
  | Some a, Some b, Some c => Some (T3 a b c (fnrm f))
  | _, _, _ => None
  end.
Fixpoint mapM {A B} (g : A -> option B) (l : list A) : option (list B) :=
  match l with
  | [] => Some []
  | a :: t => match g a, mapM g t with Some b, Some bs => Some (b :: bs) | _, _ => None end
  end.
Definition zPH3DTris (ph : ph3) : option (list tri3) := mapM (zPH3DFaceTri ph) (pfaces ph).

(** src/zeo_elem3d.c 241-247: the stored normal is recomputed from the vertices *)
Definition zTri3DCalcNorm (t : tri3) : tri3 := snd (zTri3DCreate (tv0 t) (tv1 t) (tv2 t)).
Definition faceCalcNorm (vs : list vec3) (f : face) : option face :=
  match zPH3DFaceTri (PH vs []) f with
  | Some t => Some (FC (fi0 f) (fi1 f) (fi2 f) (tnorm (zTri3DCalcNorm t)))
  | None => None
  end.
Definition with_faces (vs : list vec3) (fs : option (list face)) : option ph3 :=
  match fs with Some fs => Some (PH vs fs) | None => None end.

(** src/zeo_ph3d.c 60-74 *)
Definition zPH3DClone (src : ph3) : option ph3 :=
  with_faces (pverts src) (mapM (faceCalcNorm (pverts src)) (pfaces src)).
(** 77-90 *)
Definition zPH3DMirror (src : ph3) (axis : nat) : option ph3 :=
  match zPH3DClone src with
  | None => None
  | Some dest =>
      let vs := map (flip_e axis) (pverts dest) in
      with_faces vs (mapM (fun f => faceCalcNorm vs (FC (fi0 f) (fi2 f) (fi1 f) (zVec3DRev (fnrm f)))) (pfaces dest))
  end.
(** 93-107: normals are left alone *)
Definition zPH3DScaleDRC (ph : ph3) (scale : R) : ph3 := PH (map (fun v => zVec3DMul v scale) (pverts ph)) (pfaces ph).
Definition zPH3DScale (src : ph3) (scale : R) : option ph3 :=
  match zPH3DClone src with Some d => Some (zPH3DScaleDRC d scale) | None => None end.
(** 110-124 *)
Definition zPH3DFlipDRC (ph : ph3) : option ph3 :=
  with_faces (pverts ph) (mapM (fun f => faceCalcNorm (pverts ph) (FC (fi0 f) (fi2 f) (fi1 f) (fnrm f))) (pfaces ph)).
Definition zPH3DFlip (src : ph3) : option ph3 := match zPH3DClone src with Some d => zPH3DFlipDRC d | None => None end.
(** 127-148: [dest] has been prepared with the same faces as [src] *)
Definition zPH3DXform (src : ph3) (f : frame3) : option ph3 :=
  let vs := map (zXform3D f) (pverts src) in with_faces vs (mapM (faceCalcNorm vs) (pfaces src)).
Definition zPH3DXformInv (src : ph3) (f : frame3) : option ph3 :=
  let vs := map (zXform3DInv f) (pverts src) in with_faces vs (mapM (faceCalcNorm vs) (pfaces src)).
(** 151-169; [None] for the NULL return *)
Definition zPH3DContigVert (ph : ph3) (point : vec3) : option (vec3 * R) :=
  match pverts ph with
  | [] => None
  | v :: t => Some (fold_left (fun acc nv => let '(v, dmin) := acc in
                 let d := zVec3DDist nv point in if Rltb d dmin then (nv, d) else acc) t (v, zVec3DDist point v))
  end.
(** 177-197; the best candidate so far is [None] while dist_min is HUGE_VAL *)
Definition zPH3DClosestStep (point : vec3) (acc : option (option (R * vec3))) (t : tri3) : option (option (R * vec3)) :=
  match acc, zTri3DSignedClosest t point with
  | Some best, Some (d, ncp) =>
      if Rltb 0 d then
        match best with
        | None => Some (Some (d, ncp))
        | Some (dmin, _) => if Rltb d dmin then Some (Some (d, ncp)) else Some best
        end
      else Some best
  | _, _ => None
  end.
Definition zPH3DClosest (ph : ph3) (point : vec3) : option (R * vec3) :=
  match zPH3DTris ph with
  | None => None
  | Some ts =>
      match fold_left (zPH3DClosestStep point) ts (Some None) with
      | None => None
      | Some None => Some (0, point)
      | Some (Some (d, cp)) => Some (d, cp)
      end
  end.
Definition zPH3DDistFromPoint (ph : ph3) (point : vec3) : option R :=
  match zPH3DClosest ph point with Some (d, _) => Some d | None => None end.
(** 207-214 *)
Definition zPH3DPointIsInside (ph : ph3) (point : vec3) (margin : R) : option bool :=
  match zPH3DTris ph with
  | None => None
  | Some ts => Some (forallb (fun t => negb (Rleb margin (zTri3DDistFromPointToPlane t point))) ts)
  end.
(** 217-225 *)
Definition volume_of (ts : list tri3) : R := fold_left (fun v t => v + zTri3DConeVolume t v3zero) ts 0.
Definition zPH3DVolume (ph : ph3) : option R := match zPH3DTris ph with Some ts => Some (volume_of ts) | None => None end.
(** 228-244: a failing division leaves the sum as it is *)
Definition barycenter_of (ts : list tri3) : vec3 :=
  let '(c, vol) := fold_left (fun acc t => let '(c, vol) := acc in
      let v := zTri3DConeVolume t v3zero in
      (zVec3DAdd c (zVec3DMul (zTri3DConeBarycenter t v3zero) v), vol + v)) ts (v3zero, 0) in
  match zVec3DDiv c vol with Some c' => c' | None => c end.
Definition zPH3DBarycenter (ph : ph3) : option vec3 := match zPH3DTris ph with Some ts => Some (barycenter_of ts) | None => None end.
(** src/zeo_elem3d.c 496-517 *)
Definition coneInertiaStep (v1 v2 : vec3) (i : mat3) : mat3 :=
  let i := zMat3DSub i (zVec3DTripleProdToMat3D v1 v1) in
  let i := zMat3DSub i (zMat3DMul (zVec3DTripleProdToMat3D v1 v2) 0.5) in
  zMat3DSub i (zMat3DMul (zVec3DTripleProdToMat3D v2 v1) 0.5).
Definition zTri3DConeInertia (t : tri3) (density : R) : mat3 :=
  let i := coneInertiaStep (tv0 t) (tv1 t) ZMAT3DZERO in
  let i := coneInertiaStep (tv1 t) (tv2 t) i in
  let i := coneInertiaStep (tv2 t) (tv0 t) i in
  zMat3DMul i (density * zVec3DGrassmannProd (tv0 t) (tv1 t) (tv2 t) / 60).
(** src/zeo_ph3d.c 247-286 *)
Definition inertia_of (ts : list tri3) (density : R) : mat3 := fold_left (fun i t => zMat3DAdd i (zTri3DConeInertia t density)) ts ZMAT3DZERO.
Definition zPH3DInertia (ph : ph3) (density : R) : option mat3 :=
  match zPH3DTris ph with Some ts => Some (inertia_of ts density) | None => None end.
(** [None] also for the division by a zero volume *)
Definition zPH3DInertiaMass (ph : ph3) (mass : R) : option mat3 :=
  match zPH3DVolume ph with
  | Some v => if Reqb v 0 then None else zPH3DInertia ph (mass / v)
  | None => None
  end.
Definition zPH3DBaryInertia (ph : ph3) (density : R) : option mat3 :=
  match zPH3DInertia ph density, zPH3DBarycenter ph, zPH3DVolume ph with
  | Some i, Some c, Some v => Some (zMat3DCatVec3DDoubleOuterProd i (density * v) c)
  | _, _, _ => None
  end.
Definition zPH3DBaryInertiaMass (ph : ph3) (mass : R) : option mat3 :=
  match zPH3DInertiaMass ph mass, zPH3DBarycenter ph with
  | Some i, Some c => Some (zMat3DCatVec3DDoubleOuterProd i mass c)
  | _, _ => None
  end.
(** 289-297; zAABox3DInit (zeo_elem3d_box.c 14-19) makes the box of the origin *)
Definition zPH3DAABB (ph : ph3) : aabox3 := fold_left zAABox3DEnlarge (pverts ph) (B3 v3zero v3zero).
(** the faces of a polyhedron as triples of vertex numbers *)
Definition ph_faces (ph : ph3) : list (nat * nat * nat) := map (fun f => (fi0 f, fi1 f, fi2 f)) (pfaces ph).
