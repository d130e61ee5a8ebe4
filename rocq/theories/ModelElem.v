(** Model of the geometric elements: lines, edges, planes, triangles, tetrahedra. *)
From Verif Require Export ModelVec Model2D SpecGeom.
Open Scope R_scope.

(** ** Lines (zeo_elemxd.h 18-100): origin and direction *)
Record line3 := L3 { lorg : vec3; ldir : vec3 }.
Record line2 := L2 { lorg2 : vec2; ldir2 : vec2 }.
(** zeo_elemxd.h 37-52: [None] = error return.  The null-pointer check is not modelled. *)
Definition zLine3DCreate (p d : vec3) : option line3 :=
  if zVec3DIsTiny d then None else Some (L3 p (snd (zVec3DNormalizeNC d))).
Definition zLine2DCreate (p d : vec2) : option line2 :=
  if zVec2DIsTiny d then None else Some (L2 p (snd (zVec2DNormalizeNC d))).
(** zeo_elemxd.h 55-63: the status of the normalisation is ignored *)
Definition zLine3DCreateTwoPoints (p1 p2 : vec3) : line3 := L3 p1 (snd (zVec3DNormalizeDRC (zVec3DSub p2 p1))).
Definition zLine2DCreateTwoPoints (p1 p2 : vec2) : line2 :=
  let d := zVec2DSub p2 p1 in L2 p1 (snd (zVec2DNormalize d d)).
(** zeo_elemxd.h 66-81 *)
Definition zLine3DPoint (l : line3) (k : R) : vec3 := zVec3DCat (lorg l) k (ldir l).
Definition zLine2DPoint (l : line2) (k : R) : vec2 := zVec2DCat (lorg2 l) k (ldir2 l).
Definition zLine3DProjPoint (l : line3) (src : vec3) : vec3 :=
  zLine3DPoint l (zVec3DInnerProd (ldir l) (zVec3DSub src (lorg l))).
Definition zLine2DProjPoint (l : line2) (src : vec2) : vec2 :=
  zLine2DPoint l (zVec2DInnerProd (ldir2 l) (zVec2DSub src (lorg2 l))).
(** zeo_elemxd.h 84-99; zeo_vec2d.h: zVec2DOuterProdNorm is the absolute outer product *)
Definition zVec2DOuterProdNorm (v1 v2 : vec2) : R := Rabs (zVec2DOuterProd v1 v2).
Definition zLine3DDistFromPoint (l : line3) (p : vec3) : R := zVec3DOuterProdNorm (zVec3DSub p (lorg l)) (ldir l).
Definition zLine2DDistFromPoint (l : line2) (p : vec2) : R := zVec2DOuterProdNorm (zVec2DSub p (lorg2 l)) (ldir2 l).
Definition zLine3DPointIsOn (l : line3) (p : vec3) (margin : R) : bool := Rltb (zLine3DDistFromPoint l p) margin.
Definition zLine2DPointIsOn (l : line2) (p : vec2) (margin : R) : bool := Rltb (zLine2DDistFromPoint l p) margin.
(** src/zeo_elem2d.c 35-48 *)
Definition zIntersectLine2D (l1 l2 : line2) : option vec2 :=
  let dp := zVec2DSub (lorg2 l2) (lorg2 l1) in
  let m := M2 (x2 (ldir2 l1)) (y2 (ldir2 l1)) (- x2 (ldir2 l2)) (- y2 (ldir2 l2)) in
  match zMulInvMat2DVec2D m dp with
  | None => None
  | Some s => Some (zLine2DPoint l1 (x2 s))
  end.
(** src/zeo_elem3d.c 36-57 *)
Definition zLine3DCommonPerpEnd (l1 l2 : line3) : vec3 * vec3 :=
  let r11 := zVec3DInnerProd (ldir l1) (ldir l1) in
  let r12 := zVec3DInnerProd (ldir l1) (ldir l2) in
  let r22 := zVec3DInnerProd (ldir l2) (ldir l2) in
  let det := r11 * r22 - r12 * r12 in
  if zIsTiny det then let p1 := lorg l1 in (p1, zLine3DProjPoint l2 p1)
  else
    let dp := zVec3DSub (lorg l2) (lorg l1) in
    let d1 := zVec3DCat (zVec3DMul (ldir l1) r22) (- r12) (ldir l2) in
    let d2 := zVec3DCat (zVec3DMul (ldir l1) r12) (- r11) (ldir l2) in
    (zLine3DPoint l1 (zVec3DInnerProd d1 dp / det), zLine3DPoint l2 (zVec3DInnerProd d2 dp / det)).
(** src/zeo_elem3d.c 60-75 *)
Definition zLine3DCommonPerp (l1 l2 : line3) : vec3 * line3 :=
  let '(p1, p2) := zLine3DCommonPerpEnd l1 l2 in (p1, zLine3DCreateTwoPoints p1 p2).
Definition zDistLine3DLine3D (l1 l2 : line3) : R :=
  let '(p1, p2) := zLine3DCommonPerpEnd l1 l2 in zVec3DDist p1 p2.

(** ** Edges.  The structure holds pointers to two vertices and their difference
    ([vec], set by CalcVec on creation, zeo_elemxd.h 128-144); the model keeps the
    two vertices and recomputes the difference. *)
Record edge3 := E3 { ev0 : vec3; ev1 : vec3 }.
Record edge2 := E2 { ew0 : vec2; ew1 : vec2 }.
Definition zEdge3DVec (e : edge3) : vec3 := zVec3DSub (ev1 e) (ev0 e).
(** zeo_elemxd.h 157-184; [old] is the (uninitialised) content of the local unit vector *)
Definition zEdge3DProjPoint (e : edge3) (p old : vec3) : vec3 :=
  let rel := zVec3DSub p (ev0 e) in
  let u := snd (zVec3DNormalize (zEdge3DVec e) old) in
  zVec3DCat (ev0 e) (zVec3DInnerProd rel u) u.
Definition zEdge3DPointIsOnLine (e : edge3) (p : vec3) (margin : R) (old : vec3) : bool :=
  let rel := zVec3DSub p (ev0 e) in
  let u := snd (zVec3DNormalize (zEdge3DVec e) old) in
  if zVec3DIsTiny rel then true else Rltb (zVec3DOuterProdNorm rel u) margin.
(** zeo_elemxd.h 222-237: nearer end point and its distance *)
Definition zEdge3DContigVert (e : edge3) (p : vec3) : vec3 * R :=
  let d0 := zVec3DSqrDist p (ev0 e) in let d1 := zVec3DSqrDist p (ev1 e) in
  if Rleb d0 d1 then (ev0 e, sqrt d0) else (ev1 e, sqrt d1).
(** zeo_elemxd.h 239-266: (distance, s0, s1, closest point).  [None]: u.x + u.y = 0,
    the division gives NaN, all comparisons with it are false. *)
Definition zEdge3DClosestFromOrigin (v0 v1 : vec3) : option (R * R * R * vec3) :=
  let vtv := M2 (zVec3DSqrNorm v0) (zVec3DInnerProd v0 v1) (zVec3DInnerProd v0 v1) (zVec3DSqrNorm v1) in
  let u := zMulAdjMat2DVec2D vtv (V2 1 1) in
  if Reqb (x2 u + y2 u) 0 then None
  else
    let d := 1 / (x2 u + y2 u) in
    let s0 := x2 u * d in let s1 := y2 u * d in
    if Rltb s0 0 then Some (zVec3DNorm v1, 0, 1, v1)
    else if Rltb s1 0 then Some (zVec3DNorm v0, 1, 0, v0)
    else let cp := zVec3DCat (zVec3DMul v0 s0) s1 v1 in Some (zVec3DNorm cp, s0, s1, cp).
Definition zEdge2DClosestFromOrigin (v0 v1 : vec2) : option (R * R * R * vec2) :=
  let vtv := M2 (zVec2DSqrNorm v0) (zVec2DInnerProd v0 v1) (zVec2DInnerProd v0 v1) (zVec2DSqrNorm v1) in
  let u := zMulAdjMat2DVec2D vtv (V2 1 1) in
  if Reqb (x2 u + y2 u) 0 then None
  else
    let d := 1 / (x2 u + y2 u) in
    let s0 := x2 u * d in let s1 := y2 u * d in
    if Rltb s0 0 then Some (zVec2DNorm v1, 0, 1, v1)
    else if Rltb s1 0 then Some (zVec2DNorm v0, 1, 0, v0)
    else let cp := zVec2DCat (zVec2DMul v0 s0) s1 v1 in Some (zVec2DNorm cp, s0, s1, cp).
(** zeo_elemxd.h 268-295: distance and closest point; [None] = NaN *)
Definition zEdge3DClosest (e : edge3) (p : vec3) : option (R * vec3) :=
  match zEdge3DClosestFromOrigin (zVec3DSub (ev0 e) p) (zVec3DSub (ev1 e) p) with
  | None => None
  | Some (d, _, _, cp) => Some (d, zVec3DAdd cp p)
  end.
Definition zEdge2DClosest (e : edge2) (p : vec2) : option (R * vec2) :=
  match zEdge2DClosestFromOrigin (zVec2DSub (ew0 e) p) (zVec2DSub (ew1 e) p) with
  | None => None
  | Some (d, _, _, cp) => Some (d, zVec2DAdd cp p)
  end.
Definition zEdge3DPointIsOn (e : edge3) (p : vec3) (margin : R) : bool :=
  match zEdge3DClosest e p with None => false | Some (d, _) => Rltb d margin end.
Definition zEdge2DPointIsOn (e : edge2) (p : vec2) (margin : R) : bool :=
  match zEdge2DClosest e p with None => false | Some (d, _) => Rltb d margin end.

(** ** Planes *)
Record plane3 := P3 { porg : vec3; pnorm : vec3 }.
(** src/zeo_elem3d.c 127-136 *)
Definition zPlane3DCreate (o n : vec3) : option plane3 :=
  if zVec3DIsTiny n then None else Some (P3 o (snd (zVec3DNormalize n v3zero))).
(** src/zeo_elem3d.c 139-166 *)
Definition zPlane3DDistFromPoint (pl : plane3) (p : vec3) : R := zVec3DInnerProd (zVec3DSub p (porg pl)) (pnorm pl).
Definition zPlane3DPointIsOn (pl : plane3) (p : vec3) (margin : R) : bool :=
  let tmp := zVec3DSub p (porg pl) in
  if zVec3DIsTiny tmp then true
  else zIsTol (zVec3DInnerProd (snd (zVec3DNormalizeDRC tmp)) (pnorm pl)) margin.
Definition zPlane3DProjPoint (pl : plane3) (p : vec3) : R * vec3 :=
  let d := zPlane3DDistFromPoint pl p in (d, zVec3DCat p (- d) (pnorm pl)).

(** ** Triangles in 3D: three vertices and the stored normal *)
Record tri3 := T3 { tv0 : vec3; tv1 : vec3; tv2 : vec3; tnorm : vec3 }.
(** src/zeo_elem3d.c 222-247 *)
Definition triOuterProd (v0 v1 v2 : vec3) : vec3 := zVec3DOuterProd (zVec3DSub v1 v0) (zVec3DSub v2 v1).
(** src/zeo_elem3d.c 192-200: the boolean is false for a NULL return; the
    structure is filled either way *)
Definition zTri3DCreate (v0 v1 v2 : vec3) : bool * tri3 :=
  let n := triOuterProd v0 v1 v2 in
  if zVec3DIsTiny n then (false, T3 v0 v1 v2 n) else (true, T3 v0 v1 v2 (snd (zVec3DNormalizeDRC n))).
(** src/zeo_elem3d.c 203-212 *)
Definition zTri3DCreateFlip (v0 v1 v2 : vec3) : bool * tri3 := zTri3DCreate v0 v2 v1.
Definition zTri3DFlip (t : tri3) : bool * tri3 := zTri3DCreate (tv0 t) (tv2 t) (tv1 t).
(** src/zeo_elem3d.c 232-238 *)
Definition zTri3DArea (t : tri3) : R := 1 / 2 * zVec3DNorm (triOuterProd (tv0 t) (tv1 t) (tv2 t)).
(** src/zeo_elem3d.c 273-306 *)
Definition zTri3DDistFromPointToPlane (t : tri3) (p : vec3) : R :=
  (zVec3DInnerProd (zVec3DSub p (tv0 t)) (tnorm t) + zVec3DInnerProd (zVec3DSub p (tv1 t)) (tnorm t)
   + zVec3DInnerProd (zVec3DSub p (tv2 t)) (tnorm t)) / 3.
Definition zTri3DProjPoint (t : tri3) (p : vec3) : R * vec3 :=
  let d := zTri3DDistFromPointToPlane t p in (d, zVec3DCat p (- d) (tnorm t)).
Definition zTri3DPointIsOnPlane (t : tri3) (p : vec3) (margin : R) : bool :=
  let tmp := zVec3DSub p (tv0 t) in
  if zVec3DIsTiny tmp then true
  else zIsTol (zVec3DInnerProd (snd (zVec3DNormalizeDRC tmp)) (tnorm t)) margin.
(** src/zeo_elem3d.c 309-323: one iteration of the loop, then the three in order *)
Definition projEdgeOut (tn p va vb : vec3) : bool :=
  let n := snd (zVec3DNormalizeDRC (zVec3DOuterProd (zVec3DSub vb va) tn)) in
  Rltb 0 (zVec3DInnerProd n (zVec3DSub p va)).
Definition triProjIsInside (t : tri3) (p : vec3) : bool * vec3 :=
  let pr := snd (zTri3DProjPoint t p) in
  (if projEdgeOut (tnorm t) pr (tv0 t) (tv1 t) then false
   else if projEdgeOut (tnorm t) pr (tv1 t) (tv2 t) then false
   else if projEdgeOut (tnorm t) pr (tv2 t) (tv0 t) then false else true, pr).
(** src/zeo_elem3d.c 326-337: keep the best so far.  [None] is dist_min = HUGE_VAL
    with nothing written; an edge result [None] is NaN, which is not below anything. *)
Definition keep3 {A} (acc : option (R * A)) (new : option (R * A)) : option (R * A) :=
  match new with
  | None => acc
  | Some (d, x) => match acc with
                   | None => new
                   | Some (dmin, _) => if Rltb d dmin then new else acc
                   end
  end.
Definition edgeW3 (i : nat) (va vb : vec3) : option (R * (R * R * R * vec3)) :=
  match zEdge3DClosestFromOrigin va vb with
  | None => None
  | Some (d, a, b, cp) =>
      Some (d, match i with 0%nat => (a, b, 0, cp) | 1%nat => (0, a, b, cp) | _ => (b, 0, a, cp) end)
  end.
(** src/zeo_elem3d.c 340-369: distance, weights, closest point; [None] = HUGE_VAL
    returned and nothing written.  zVec3DOrthoSpace cannot fail on a unit normal. *)
Definition zTri3DClosestFromOrigin (v0 v1 v2 : vec3) : option (R * (R * R * R * vec3)) :=
  let '(ok, t) := zTri3DCreate v0 v1 v2 in
  let '(ins, cp) := triProjIsInside t v3zero in
  if ok && ins then
    let '(t1, t2) := match zVec3DOrthoSpace (tnorm t) with Some x => x | None => (v3zero, v3zero) end in
    let w v := let s := zVec3DSub v cp in V2 (zVec3DInnerProd t1 s) (zVec3DInnerProd t2 s) in
    let s0 := zVec2DOuterProd (w v1) (w v2) in
    let s1 := zVec2DOuterProd (w v2) (w v0) in
    let s2 := zVec2DOuterProd (w v0) (w v1) in
    let inv_det := 1 / (s0 + s1 + s2) in
    Some (zVec3DNorm cp, (s0 * inv_det, s1 * inv_det, s2 * inv_det, cp))
  else
    keep3 (keep3 (keep3 None (edgeW3 0 v0 v1)) (edgeW3 1 v1 v2)) (edgeW3 2 v2 v0).
(** src/zeo_elem3d.c 372-399 *)
Definition zTri3DClosest (t : tri3) (p : vec3) : option (R * vec3) :=
  match zTri3DClosestFromOrigin (zVec3DSub (tv0 t) p) (zVec3DSub (tv1 t) p) (zVec3DSub (tv2 t) p) with
  | None => None
  | Some (d, (_, _, _, cp)) => Some (d, zVec3DAdd cp p)
  end.
Definition zTri3DSignedClosest (t : tri3) (p : vec3) : option (R * vec3) :=
  match zTri3DClosest t p with
  | None => None
  | Some (d, cp) => Some (if Rleb 0 (zTri3DDistFromPointToPlane t p) then d else - d, cp)
  end.
(** zeo_elemxd.h 396-409 *)
Definition zTri3DPointIsInside (t : tri3) (p : vec3) (margin : R) : bool :=
  match zTri3DClosest t p with None => false | Some (d, _) => Rltb d margin end.
(** zeo_elemxd.h 369-394 *)
Definition zTri3DContigVert (t : tri3) (p : vec3) : vec3 * R :=
  let d0 := zVec3DSqrDist p (tv0 t) in let d1 := zVec3DSqrDist p (tv1 t) in let d2 := zVec3DSqrDist p (tv2 t) in
  if Rleb d0 d1 then if Rleb d0 d2 then (tv0 t, sqrt d0) else (tv2 t, sqrt d2)
  else if Rleb d1 d2 then (tv1 t, sqrt d1) else (tv2 t, sqrt d2).
(** zeo_elemxd.h 317-324, src/zeo_elem3d.c 250-267 *)
Definition zTri3DBarycenter (t : tri3) : option vec3 := zVec3DDiv (zVec3DAdd (zVec3DAdd (tv0 t) (tv1 t)) (tv2 t)) 3.
(** src/zeo_elem3d.c 252-258: [None] = zero total weight (division by zero) *)
Definition triWeightedCenter (v0 v1 v2 : vec3) (w1 w2 w3 : R) : option vec3 :=
  let d := w1 + w2 + w3 in
  if Reqb d 0 then None
  else Some (V3 ((w1 * vx v0 + w2 * vx v1 + w3 * vx v2) / d)
                ((w1 * vy v0 + w2 * vy v1 + w3 * vy v2) / d)
                ((w1 * vz v0 + w2 * vz v1 + w3 * vz v2) / d)).
(** zeo_elemxd.h 326-351 *)
Definition triCircumcenter (v0 v1 v2 : vec3) : option vec3 :=
  let r0 := zVec3DSqrDist v2 v1 in let r1 := zVec3DSqrDist v0 v2 in let r2 := zVec3DSqrDist v1 v0 in
  triWeightedCenter v0 v1 v2 (r0 * (r1 + r2 - r0)) (r1 * (r2 + r0 - r1)) (r2 * (r0 + r1 - r2)).
Definition zTri3DCircumcenter (t : tri3) : option vec3 := triCircumcenter (tv0 t) (tv1 t) (tv2 t).
Definition zTri3DIncenter (t : tri3) : option vec3 :=
  triWeightedCenter (tv0 t) (tv1 t) (tv2 t)
    (zVec3DDist (tv1 t) (tv2 t)) (zVec3DDist (tv2 t) (tv0 t)) (zVec3DDist (tv0 t) (tv1 t)).
(** zeo_elemxd.h 353-367: the status of the inner zTri3DCreate is ignored *)
Definition zTri3DOrthocenter (t : tri3) : option vec3 :=
  let e0 := zVec3DSub (zVec3DAdd (tv0 t) (tv1 t)) (tv2 t) in
  let e1 := zVec3DSub (zVec3DAdd (tv1 t) (tv2 t)) (tv0 t) in
  let e2 := zVec3DSub (zVec3DAdd (tv2 t) (tv0 t)) (tv1 t) in
  triCircumcenter e0 e1 e2.
(** src/zeo_elem3d.c 476-493 *)
Definition zTri3DConeVolume (t : tri3) (v : vec3) : R :=
  zVec3DGrassmannProd (zVec3DSub (tv0 t) v) (zVec3DSub (tv1 t) v) (zVec3DSub (tv2 t) v) / 6.
Definition zTri3DConeBarycenter (t : tri3) (v : vec3) : vec3 :=
  zVec3DMul (zVec3DAdd (zVec3DAdd (zVec3DAdd (tv0 t) (tv1 t)) (tv2 t)) v) (1 / 4).
(** src/zeo_elem3d.c 520-529 *)
Definition zTri3DConeCircumcenter (t : tri3) : option vec3 :=
  let c := zVec3DCat v3zero (zVec3DSqrNorm (tv0 t)) (zVec3DOuterProd (tv1 t) (tv2 t)) in
  let c := zVec3DCat c (zVec3DSqrNorm (tv1 t)) (zVec3DOuterProd (tv2 t) (tv0 t)) in
  let c := zVec3DCat c (zVec3DSqrNorm (tv2 t)) (zVec3DOuterProd (tv0 t) (tv1 t)) in
  zVec3DDiv c (2 * zVec3DGrassmannProd (tv0 t) (tv1 t) (tv2 t)).

(** ** Triangles in 2D *)
Record tri2 := T2 { tw0 : vec2; tw1 : vec2; tw2 : vec2 }.
(** src/zeo_elem2d.c 128-169: weights are stored by vertex index; [None] for zero
    signed area (division by zero) or a NaN edge *)
Definition edgeW2 (i : nat) (va vb : vec2) : option (R * (R * R * R * vec2)) :=
  match zEdge2DClosestFromOrigin va vb with
  | None => None
  | Some (d, a, b, cp) =>
      Some (d, match i with 0%nat => (0, a, b, cp) | 1%nat => (b, 0, a, cp) | _ => (a, b, 0, cp) end)
  end.
Definition zTri2DClosestFromOrigin (v0 v1 v2 : vec2) : option (R * (R * R * R * vec2)) :=
  let s0 := zVec2DOuterProd v1 v2 in let s1 := zVec2DOuterProd v2 v0 in let s2 := zVec2DOuterProd v0 v1 in
  if Reqb (s0 + s1 + s2) 0 then None
  else
    let inv_det := 1 / (s0 + s1 + s2) in
    let s0 := s0 * inv_det in let s1 := s1 * inv_det in let s2 := s2 * inv_det in
    let a := if Rltb s0 0 then keep3 None (edgeW2 0 v1 v2) else None in
    let b := if Rltb s1 0 then keep3 a (edgeW2 1 v2 v0) else a in
    let c := if Rltb s2 0 then keep3 b (edgeW2 2 v0 v1) else b in
    match c with
    | None => Some (0, (s0, s1, s2, v2zero))
    | Some (_, (a0, a1, a2, cp)) => Some (zVec2DNorm cp, (a0, a1, a2, cp))
    end.
(** src/zeo_elem2d.c 172-183 *)
Definition zTri2DClosest (t : tri2) (p : vec2) : option (R * vec2) :=
  match zTri2DClosestFromOrigin (zVec2DSub (tw0 t) p) (zVec2DSub (tw1 t) p) (zVec2DSub (tw2 t) p) with
  | None => None
  | Some (d, (_, _, _, cp)) => Some (d, zVec2DAdd cp p)
  end.
(** zeo_elemxd.h 404-409 *)
Definition zTri2DPointIsInside (t : tri2) (p : vec2) (margin : R) : bool :=
  match zTri2DClosest t p with None => false | Some (d, _) => Rltb d margin end.
(** src/zeo_elem2d.c 107-123 *)
Definition zTri2DBarycenter (t : tri2) : option vec2 := zVec2DDiv (zVec2DAdd (zVec2DAdd (tw0 t) (tw1 t)) (tw2 t)) 3.
Definition triWeightedCenter2 (v0 v1 v2 : vec2) (w1 w2 w3 : R) : option vec2 :=
  let d := w1 + w2 + w3 in
  if Reqb d 0 then None
  else Some (V2 ((w1 * x2 v0 + w2 * x2 v1 + w3 * x2 v2) / d) ((w1 * y2 v0 + w2 * y2 v1 + w3 * y2 v2) / d)).
Definition triCircumcenter2 (v0 v1 v2 : vec2) : option vec2 :=
  let r0 := zVec2DSqrDist v2 v1 in let r1 := zVec2DSqrDist v0 v2 in let r2 := zVec2DSqrDist v1 v0 in
  triWeightedCenter2 v0 v1 v2 (r0 * (r1 + r2 - r0)) (r1 * (r2 + r0 - r1)) (r2 * (r0 + r1 - r2)).
Definition zTri2DCircumcenter (t : tri2) : option vec2 := triCircumcenter2 (tw0 t) (tw1 t) (tw2 t).
Definition zTri2DIncenter (t : tri2) : option vec2 :=
  triWeightedCenter2 (tw0 t) (tw1 t) (tw2 t)
    (zVec2DDist (tw1 t) (tw2 t)) (zVec2DDist (tw2 t) (tw0 t)) (zVec2DDist (tw0 t) (tw1 t)).
Definition zTri2DOrthocenter (t : tri2) : option vec2 :=
  let e0 := zVec2DSub (zVec2DAdd (tw0 t) (tw1 t)) (tw2 t) in
  let e1 := zVec2DSub (zVec2DAdd (tw1 t) (tw2 t)) (tw0 t) in
  let e2 := zVec2DSub (zVec2DAdd (tw2 t) (tw0 t)) (tw1 t) in
  triCircumcenter2 e0 e1 e2.

(** ** Tetrahedra *)
(** src/zeo_elem3d.c 553-598: (distance, closest point, weights).  [None]: zero
    volume (division by zero). *)
Definition triW4 (i : nat) (va vb vc : vec3) : option (R * (R * R * R * R * vec3)) :=
  match zTri3DClosestFromOrigin va vb vc with
  | None => None
  | Some (d, (a, b, c, cp)) =>
      Some (d, match i with
               | 0%nat => (0, a, b, c, cp)      (* vertices 1 2 3 *)
               | 1%nat => (c, 0, a, b, cp)      (* vertices 2 3 0 *)
               | 2%nat => (b, c, 0, a, cp)      (* vertices 3 0 1 *)
               | _ => (a, b, c, 0, cp)          (* vertices 0 1 2 *)
               end)
  end.
Definition zTetra3DClosestFromOrigin (v0 v1 v2 v3 : vec3) : option (R * (R * R * R * R * vec3)) :=
  let s0 := zVec3DGrassmannProd v3 v2 v1 in let s1 := zVec3DGrassmannProd v2 v3 v0 in
  let s2 := zVec3DGrassmannProd v1 v0 v3 in let s3 := zVec3DGrassmannProd v0 v1 v2 in
  if Reqb (s0 + s1 + s2 + s3) 0 then None
  else
    let inv_det := 1 / (s0 + s1 + s2 + s3) in
    let s0 := s0 * inv_det in let s1 := s1 * inv_det in let s2 := s2 * inv_det in let s3 := s3 * inv_det in
    let a := if Rltb s0 0 then keep3 None (triW4 0 v1 v2 v3) else None in
    let b := if Rltb s1 0 then keep3 a (triW4 1 v2 v3 v0) else a in
    let c := if Rltb s2 0 then keep3 b (triW4 2 v3 v0 v1) else b in
    let d := if Rltb s3 0 then keep3 c (triW4 3 v0 v1 v2) else c in
    match d with
    | None => Some (0, (s0, s1, s2, s3, v3zero))
    | Some (_, (a0, a1, a2, a3, cp)) => Some (zVec3DNorm cp, (a0, a1, a2, a3, cp))
    end.
(** src/zeo_elem3d.c 601-613 *)
Definition zTetra3DClosest (v0 v1 v2 v3 p : vec3) : option (R * vec3) :=
  match zTetra3DClosestFromOrigin (zVec3DSub v0 p) (zVec3DSub v1 p) (zVec3DSub v2 p) (zVec3DSub v3 p) with
  | None => None
  | Some (d, (_, _, _, _, cp)) => Some (d, zVec3DAdd cp p)
  end.

(** ** Intersection line of two planes (src/zeo_col.c 41-67).  zLine3DCreate stores
    the address of the point it is given (zeo_elemxd.h 24, 49); here that point is a
    local variable of zIntersectPlane3D, whose lifetime ends at the return.  The model
    keeps the last value of the variable, marked [Ended]. *)
Inductive vptr := Alive (v : vec3) | Ended (v : vec3).
Definition deref (p : vptr) : option vec3 := match p with Alive v => Some v | Ended _ => None end.
Inductive plane_meet :=
| MeetSame                               (* returns -1 *)
| MeetNone                               (* returns 0 *)
| MeetLine (org : vptr) (dir : vec3).    (* returns 1 *)
Definition zIntersectPlane3D (pl1 pl2 : plane3) : plane_meet :=
  let d := zVec3DOuterProd (pnorm pl1) (pnorm pl2) in
  let dp := zVec3DSub (porg pl1) (porg pl2) in
  if zVec3DIsTiny d then
    if zIsTiny (zVec3DInnerProd (pnorm pl1) dp) then MeetSame else MeetNone
  else
    let p := zVec3DMid (porg pl1) (porg pl2) in
    let n := zVec3DInnerProd (pnorm pl1) (pnorm pl2) in
    let det := 2 * (1 - n * n) in
    let s1 := zVec3DInnerProd (pnorm pl1) dp in
    let s2 := zVec3DInnerProd (pnorm pl2) dp in
    let k1 := (s1 + n * s2) / det in
    let k2 := - (n * s1 + s2) / det in
    let p := zVec3DCat p k1 (pnorm pl1) in
    let p := zVec3DCat p k2 (pnorm pl2) in
    match zLine3DCreate p d with
    | None => MeetLine (Ended p) d          (* not reached: d is not tiny *)
    | Some l => MeetLine (Ended p) (ldir l)
    end.
