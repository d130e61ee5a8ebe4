(** Model of zTri3DLinScale: src/zeo_elem3d.c 401-467, include/zeo/zeo_elemxd.h 187-220.
    [None] where the text divides by zero (an edge that is negligible) or reads the solution of a
    singular system, which is not written. *)
From Verif Require Export Base SpecLin ModelVec Model2D ModelElem.
Open Scope R_scope.

(** zeo_elemxd.h 187-220: the result is (value, l0, l1, closest point).  zVec3DNormalize returns 0
    and not a negative number for a negligible vector (src/zeo_vec3d.c 273-280) *)
Definition zEdge3DLinScale (e : edge3) (p : vec3) : option (R * R * R * vec3) :=
  let dp0 := zVec3DSub p (ev0 e) in
  let dp1 := zVec3DSub p (ev1 e) in
  if zVec3DIsTiny (zEdge3DVec e) then None
  else
    let '(d, v) := zVec3DNormalize (zEdge3DVec e) v3zero in
    let '(l0, l1) :=
      if Rleb (zVec3DSqrNorm dp0) (zVec3DSqrNorm dp1)
      then let l1 := zVec3DInnerProd dp0 v / d in (1 - l1, l1)
      else let l0 := - zVec3DInnerProd dp1 v / d in (l0, 1 - l0) in
    if Rltb l1 0 then Some (- l1 * d, 1, 0, ev0 e)
    else if Rltb l0 0 then Some (- l0 * d, 0, 1, ev1 e)
    else Some (0, l0, l1, p).
(** 404-407: (l0, l1, l2) *)
Definition zTri3DLinScaleVal (l : vec2) (d1 d2 : R) : R * R * R :=
  let l1 := x2 l / d1 in let l2 := y2 l / d2 in (1 - (l1 + l2), l1, l2).
(** 409-418: (l1, l2, closest point); l0 is 0 *)
Definition zTri3DLinScaleDeg2 (v1 v2 p : vec3) : option (R * R * vec3) :=
  let e := E3 v1 v2 in
  match zEdge3DLinScale e (zEdge3DProjPoint e p v3zero) with Some (_, l1, l2, cp) => Some (l1, l2, cp) | None => None end.
Definition triVert (t : tri3) (i : nat) : vec3 := match i with 0%nat => tv0 t | 1%nat => tv1 t | _ => tv2 t end.
(** 426-449: the three factors *)
Definition linFactors (t : tri3) (p : vec3) : option (R * R * R) :=
  let d0 := zVec3DSqrDist p (tv0 t) in
  let d1 := zVec3DSqrDist p (tv1 t) in
  let d2 := zVec3DSqrDist p (tv2 t) in
  let i0 := if Rleb d0 d1 then (if Rleb d0 d2 then 0 else 2)%nat else (if Rleb d1 d2 then 1 else 2)%nat in
  let i1 := ((i0 + 1) mod 3)%nat in
  let i2 := ((i0 + 2) mod 3)%nat in
  let e1 := zVec3DSub (triVert t i1) (triVert t i0) in
  let e2 := zVec3DSub (triVert t i2) (triVert t i0) in
  if (zVec3DIsTiny e1 || zVec3DIsTiny e2)%bool then None
  else
    let '(d1, e1) := zVec3DNormalizeDRC e1 in
    let '(d2, e2) := zVec3DNormalizeDRC e2 in
    let dp := zVec3DSub p (triVert t i0) in
    let v := V2 (zVec3DInnerProd e1 dp) (zVec3DInnerProd e2 dp) in
    let mc := zVec3DInnerProd e1 e2 in
    match zMulInvMat2DVec2D (zMat2DCreate 1 mc mc 1) v with
    | None => None
    | Some l =>
        let '(a, b, c) := zTri3DLinScaleVal l d1 d2 in
        Some (match i0 with 0%nat => (a, b, c) | 1%nat => (c, a, b) | _ => (b, c, a) end)
    end.
(** 426-467: (value, (l0, l1, l2), closest point).  Three negative factors (455) do not occur *)
Definition zTri3DLinScale (t : tri3) (p : vec3) : option (R * (R * R * R) * vec3) :=
  match linFactors t p with
  | None => None
  | Some (l0, l1, l2) =>
      let ret l cp := Some (zVec3DDist p cp, l, cp) in
      match Rltb l0 0, Rltb l1 0, Rltb l2 0 with
      | false, false, false => Some (0, (l0, l1, l2), p)
      | true, false, false => match zTri3DLinScaleDeg2 (tv1 t) (tv2 t) p with Some (a, b, cp) => ret (0, a, b) cp | None => None end
      | false, true, false => match zTri3DLinScaleDeg2 (tv2 t) (tv0 t) p with Some (a, b, cp) => ret (b, 0, a) cp | None => None end
      | true, true, false => ret (0, 0, 1) (tv2 t)
      | false, false, true => match zTri3DLinScaleDeg2 (tv0 t) (tv1 t) p with Some (a, b, cp) => ret (a, b, 0) cp | None => None end
      | true, false, true => ret (0, 1, 0) (tv1 t)
      | false, true, true => ret (1, 0, 0) (tv0 t)
      | true, true, true => None
      end
  end.
