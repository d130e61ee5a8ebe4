(** Model of spheres, disks, ellipses and of the solid shapes (cylinder, capsule,
    cone, ellipsoid, elliptic cylinder): geometry and mass properties.
    The number of divisions [div] only affects the conversion to a polyhedron. *)
From Verif Require Export ModelElem ModelFrame ModelBox SpecShape.
Open Scope R_scope.

(** ** Sphere, src/zeo_elem3d_sphere.c; zeo_elem3d_sphere.h 15-45 *)
Record sphere3 := SP { scen : vec3; srad : R; sdiv : Z }.
Definition ZEO_ELEM_DEFAULT_DIV : Z := 32.
(** 14-20 *)
Definition zSphere3DCreate (c : vec3) (r : R) (div : Z) : sphere3 := SP c r (if Z.eqb div 0 then ZEO_ELEM_DEFAULT_DIV else div).
(** 32-36 *)
Definition zSphere3DCopy (s : sphere3) : sphere3 := zSphere3DCreate (scen s) (srad s) (sdiv s).
(** e[axis] *= -1 on a vector; axis 0, 1, 2 *)
Definition flip_e (axis : nat) (v : vec3) : vec3 :=
  match axis with O => V3 (vx v * -1) (vy v) (vz v) | 1%nat => V3 (vx v) (vy v * -1) (vz v) | _ => V3 (vx v) (vy v) (vz v * -1) end.
(** 39-44 *)
Definition zSphere3DMirror (s : sphere3) (axis : nat) : sphere3 :=
  let d := zSphere3DCopy s in SP (flip_e axis (scen d)) (srad d) (sdiv d).
(** 47-62 *)
Definition zSphere3DXform (s : sphere3) (f : frame3) : sphere3 := SP (zXform3D f (scen s)) (srad s) (sdiv s).
Definition zSphere3DXformInv (s : sphere3) (f : frame3) : sphere3 := SP (zXform3DInv f (scen s)) (srad s) (sdiv s).
(** 65-78; [None] for the division by l = 0 *)
Definition zSphere3DClosest (s : sphere3) (p : vec3) : option (R * vec3) :=
  let d := zVec3DSub p (scen s) in
  let l := zVec3DNorm d in
  if Rltb l (srad s) then Some (l - srad s, p)
  else if Reqb l 0 then None
  else Some (l - srad s, zVec3DAdd (scen s) (zVec3DMul d (srad s / l))).
(** 81-93 *)
Definition zSphere3DDistFromPoint (s : sphere3) (p : vec3) : R := zVec3DNorm (zVec3DSub p (scen s)) - srad s.
Definition zSphere3DPointIsInside (s : sphere3) (p : vec3) (margin : R) : bool := Rltb (zSphere3DDistFromPoint s p) margin.
(** 96-103 *)
Definition zSphere3DFrom2 (v1 v2 : vec3) : sphere3 :=
  let c := zVec3DMid v1 v2 in zSphere3DCreate c (zVec3DDist c v1) 0.
(** 106-115 *)
Definition zSphere3DFrom3 (v1 v2 v3 : vec3) : option sphere3 :=
  match triCircumcenter v1 v2 v3 with
  | Some c => Some (zSphere3DCreate c (zVec3DDist c v3) 0)
  | None => None
  end.
(** 118-131; zTri3DCreate only computes a normal besides storing the vertices *)
Definition zSphere3DFrom4 (v1 v2 v3 v4 : vec3) : option sphere3 :=
  match zTri3DConeCircumcenter (snd (zTri3DCreate (zVec3DSub v2 v1) (zVec3DSub v3 v1) (zVec3DSub v4 v1))) with
  | Some c => Some (zSphere3DCreate (zVec3DAdd c v1) (zVec3DNorm c) 0)
  | None => None
  end.
(** 134-153 *)
Definition diag3 (a b c : R) : mat3 := zMat3DCreate a 0 0 0 b 0 0 0 c.
Definition zSphere3DVolume (s : sphere3) : R := 4 * PI * (srad s * srad s * srad s) / 3.
Definition zSphere3DBaryInertiaMass (s : sphere3) (mass : R) : mat3 :=
  let i := 2 / 5 * mass * zSqr (srad s) in diag3 i i i.
Definition zSphere3DBaryInertia (s : sphere3) (density : R) : mat3 := zSphere3DBaryInertiaMass s (density * zSphere3DVolume s).

(** ** Disk and ellipse, src/zeo_elem2d_disk.c *)
Record disk2 := DK { dcen : vec2; drad : R }.
(** 22-31 *)
Definition zDisk2DDistFromPoint (d : disk2) (p : vec2) : R := zVec2DDist (dcen d) p - drad d.
Definition zDisk2DPointIsInside (d : disk2) (p : vec2) (margin : R) : bool := Rltb (zDisk2DDistFromPoint d p) margin.
(** 34-50 *)
Definition zDisk2DFrom2 (v1 v2 : vec2) : disk2 := let c := zVec2DMid v1 v2 in DK c (zVec2DDist c v1).
Definition zDisk2DFrom3 (v1 v2 v3 : vec2) : option disk2 :=
  match triCircumcenter2 v1 v2 v3 with Some c => Some (DK c (zVec2DDist c v3)) | None => None end.
Record ellips2 := E2 { ecen : vec2; erad0 : R; erad1 : R }.
(** selection of a root, 91-96 (and zeo_shape3d_ellips.c 111-116): the first root with
    non-negative real part, which must have a negligible imaginary part *)
Fixpoint pick_root (ans : list (R * R)) : option R :=
  match ans with
  | [] => None
  | (re, im) :: t => if Rleb 0 re then (if zIsTiny im then Some re else None) else pick_root t
  end.
(** 66-103, the polynomial handed to the equation solver of ZM: coefficients of
    degree 4 to 0.  zPexBH (Bairstow-Hitchcock method) belongs to ZM; its answer
    [ans], a list of (real part, imaginary part), is an input of the model. *)
Definition ellips2_poly (r02 r12 x2 y2 : R) : list R :=
  [1; 2 * (r02 + r12); r02 * r02 + 4 * r02 * r12 + r12 * r12 - x2 * r02 - y2 * r12;
   2 * (r02 + r12 - x2 - y2) * r02 * r12; (r02 * r12 - x2 * r12 - y2 * r02) * r02 * r12].
Definition zEllips2DClosest0 (ans : list R -> list (R * R)) (e : ellips2) (p : vec2) (margin : R) : option vec2 :=
  let v := zVec2DSub p (ecen e) in
  let xx := zSqr (x2 v) in let yy := zSqr (y2 v) in
  let r02 := zSqr (erad0 e + margin) in let r12 := zSqr (erad1 e + margin) in
  if Rltb 1 (xx / r02 + yy / r12) then
    match pick_root (ans (ellips2_poly r02 r12 xx yy)) with
    | Some l => Some (zVec2DAdd (V2 (x2 v / (1 + l / r02)) (y2 v / (1 + l / r12))) (ecen e))
    | None => None
    end
  else Some p.
(** 106-118; [None] for the value HUGE_VAL *)
Definition zEllips2DClosest ans (e : ellips2) (p : vec2) : option vec2 := zEllips2DClosest0 ans e p 0.
Definition zEllips2DDistFromPoint ans (e : ellips2) (p : vec2) : option R :=
  match zEllips2DClosest ans e p with Some cp => Some (zVec2DDist cp p) | None => None end.
(** 121-126 *)
Definition zEllips2DPointIsInside (e : ellips2) (p : vec2) (margin : R) : bool :=
  Rltb (zSqr ((x2 p - x2 (ecen e)) / (erad0 e + margin)) + zSqr ((y2 p - y2 (ecen e)) / (erad1 e + margin))) 1.

(** ** Cylinder, src/zeo_shape3d_cyl.c; zeo_shape3d_cyl.h 22-36, 95 *)
Record cyl3 := CY { cc0 : vec3; cc1 : vec3; crad : R; cdiv : Z }.
(** 14-21, 33-67 *)
Definition zCyl3DCreate (c1 c2 : vec3) (r : R) (div : Z) : cyl3 := CY c1 c2 r (if Z.eqb div 0 then ZEO_ELEM_DEFAULT_DIV else div).
Definition zCyl3DCopy (c : cyl3) : cyl3 := zCyl3DCreate (cc0 c) (cc1 c) (crad c) (cdiv c).
Definition zCyl3DMirror (c : cyl3) (axis : nat) : cyl3 :=
  let d := zCyl3DCopy c in CY (flip_e axis (cc0 d)) (flip_e axis (cc1 d)) (crad d) (cdiv d).
Definition zCyl3DXform (c : cyl3) (f : frame3) : cyl3 := CY (zXform3D f (cc0 c)) (zXform3D f (cc1 c)) (crad c) (cdiv c).
Definition zCyl3DXformInv (c : cyl3) (f : frame3) : cyl3 := CY (zXform3DInv f (cc0 c)) (zXform3DInv f (cc1 c)) (crad c) (cdiv c).
Definition zCyl3DAxis (c : cyl3) : vec3 := zVec3DSub (cc1 c) (cc0 c).
(** 69-76: (axis, v, l, r, d) *)
Definition zCyl3DClosestPrep (c : cyl3) (p : vec3) : vec3 * vec3 * R * R * R :=
  let v := zVec3DSub p (cc0 c) in
  let '(l, axis) := zVec3DNormalizeDRC (zCyl3DAxis c) in
  (axis, v, l, zVec3DOuterProdNorm v axis, zVec3DInnerProd axis v).
(** 79-108; [None] for a division by zero *)
Definition zCyl3DClosest (c : cyl3) (p : vec3) : option (R * vec3) :=
  let '(axis, v, l, r, d) := zCyl3DClosestPrep c p in
  if Rleb 0 d && Rleb d l then
    if Rleb r (crad c) then Some (0, p)
    else
      let v := zVec3DSub v (zVec3DMul axis d) in
      if Reqb (zVec3DNorm v) 0 then None
      else Some (r - crad c, zVec3DCat p (- (r - crad c) / zVec3DNorm v) v)
  else
    let '(d, cc) := if Rltb l d then (d - l, cc1 c) else (d, cc0 c) in
    let cp := zVec3DCat p (- d) axis in
    if Rleb r (crad c) then Some (- d, cp)
    else if Reqb r 0 then None
    else Some (sqrt (zSqr (r - crad c) + zSqr d), zVec3DCat cc (crad c / r) (zVec3DSub cp cc)).
(** 111-122 *)
Definition zCyl3DDistFromPoint (c : cyl3) (p : vec3) : R :=
  let '(axis, v, l, r, d) := zCyl3DClosestPrep c p in
  if Rleb 0 d && Rleb d l then (if Rleb r (crad c) then 0 else r - crad c)
  else
    let d := if Rltb l d then d - l else d in
    if Rleb r (crad c) then - d else sqrt (zSqr (r - crad c) + zSqr d).
(** 125-133 *)
Definition zCyl3DPointIsInside (c : cyl3) (p : vec3) (margin : R) : bool :=
  let '(axis, v, l, r, d) := zCyl3DClosestPrep c p in
  if Rleb margin (r - crad c) then false else Rltb (- margin) d && Rltb d (l + margin).
(** 136-178 *)
Definition zCyl3DHeight (c : cyl3) : R := zVec3DNorm (zCyl3DAxis c).
Definition zCyl3DVolume (c : cyl3) : R := PI * zSqr (crad c) * zCyl3DHeight c.
Definition zCyl3DBarycenter (c : cyl3) : vec3 := zVec3DMid (cc0 c) (cc1 c).
(** the attitude (x, y, z) built by zVec3DOrthonormalSpace( &att.b.z, &att.b.x, &att.b.y );
    [None] when it fails and leaves x and y uninitialised *)
Definition axis_att (z : vec3) : option mat3 :=
  match zVec3DOrthonormalSpace z with Some (z', x, y) => Some (of_b x y z') | None => None end.
Definition zCyl3DBaryInertiaMass (c : cyl3) (mass : R) : option mat3 :=
  let rr := 3 * mass * zSqr (crad c) in
  let hh := mass * zVec3DSqrNorm (zCyl3DAxis c) in
  match axis_att (zCyl3DAxis c) with
  | Some att => Some (zRotMat3D att (diag3 ((rr + hh) / 12) ((rr + hh) / 12) (rr / 6)))
  | None => None
  end.
Definition zCyl3DBaryInertia (c : cyl3) (density : R) : option mat3 := zCyl3DBaryInertiaMass c (density * zCyl3DVolume c).

(** ** Capsule, src/zeo_shape3d_capsule.c: same structure as the cylinder
    (zeo_shape3d_capsule.h 20-110) *)
(** 13-51 *)
Definition zCapsule3DClosest (c : cyl3) (p : vec3) : option (R * vec3) :=
  let '(axis, v, l, r, d) := zCyl3DClosestPrep c p in
  if Rleb 0 d && Rleb d l then
    if Rleb r (crad c) then Some (0, p)
    else
      let v := zVec3DSub v (zVec3DMul axis d) in
      if Reqb (zVec3DNorm v) 0 then None
      else Some (r - crad c, zVec3DCat p (- (r - crad c) / zVec3DNorm v) v)
  else
    let cc := if Rltb l d then cc1 c else cc0 c in
    let cr := zVec3DSub p cc in
    let r := zVec3DNorm cr in
    if Rleb r (crad c) then Some (0, p)
    else if Reqb r 0 then None
    else Some (r - crad c, zVec3DCat cc (crad c / r) cr).
(** 54-71 *)
Definition zCapsule3DDistFromPoint (c : cyl3) (p : vec3) : R :=
  let '(axis, v, l, r, d) := zCyl3DClosestPrep c p in
  if Rleb 0 d && Rleb d l then (if Rleb r (crad c) then 0 else r - crad c)
  else if Rltb l d then
    let r := zVec3DDist p (cc1 c) in if Rltb r (crad c) then 0 else crad c - r
  else
    let r := zVec3DDist p (cc0 c) in if Rltb r (crad c) then 0 else crad c - r.
Definition zCapsule3DPointIsInside (c : cyl3) (p : vec3) (margin : R) : bool := Rltb (zCapsule3DDistFromPoint c p) margin.
(** 74-111; [None] for a division by zero or an uninitialised attitude *)
Definition zCapsule3DHeight (c : cyl3) : R := zCyl3DHeight c + crad c * 2.
Definition zCapsule3DVolume (c : cyl3) : R := zCyl3DVolume c + 4 * PI * (crad c * crad c * crad c) / 3.
Definition zCapsule3DBaryInertia (c : cyl3) (density : R) : option mat3 :=
  let r := crad c in let r2 := zSqr r in
  let h := zVec3DNorm (zCyl3DAxis c) in
  let m := density * PI in
  let izz := m * r2 * r2 * (8 * r / 15 + 1 / 2 * h) in
  let ixx := m * r2 * (r2 * (8 * r / 15 + 3 / 4 * h) + (r + 1 / 4 * h) * h * h / 3) in
  match axis_att (zCyl3DAxis c) with
  | Some att => Some (zRotMat3D att (diag3 ixx ixx izz))
  | None => None
  end.
Definition zCapsule3DBaryInertiaMass (c : cyl3) (mass : R) : option mat3 :=
  if Reqb (zCapsule3DVolume c) 0 then None else zCapsule3DBaryInertia c (mass / zCapsule3DVolume c).

(** ** Cone, src/zeo_shape3d_cone.c; zeo_shape3d_cone.h 22-40, 93 *)
Record cone3 := CN { kcen : vec3; kvert : vec3; krad : R; kdiv : Z }.
(** 14-66 *)
Definition zCone3DCreate (c v : vec3) (r : R) (div : Z) : cone3 := CN c v r (if Z.eqb div 0 then ZEO_ELEM_DEFAULT_DIV else div).
Definition zCone3DCopy (c : cone3) : cone3 := zCone3DCreate (kcen c) (kvert c) (krad c) (kdiv c).
Definition zCone3DMirror (c : cone3) (axis : nat) : cone3 :=
  let d := zCone3DCopy c in CN (flip_e axis (kcen d)) (flip_e axis (kvert d)) (krad d) (kdiv d).
Definition zCone3DXform (c : cone3) (f : frame3) : cone3 := CN (zXform3D f (kcen c)) (zXform3D f (kvert c)) (krad c) (kdiv c).
Definition zCone3DXformInv (c : cone3) (f : frame3) : cone3 := CN (zXform3DInv f (kcen c)) (zXform3DInv f (kvert c)) (krad c) (kdiv c).
Definition zCone3DAxis (c : cone3) : vec3 := zVec3DSub (kvert c) (kcen c).
(** 69-105; [None] for a division by a zero radius or height *)
Definition zCone3DClosest (c : cone3) (p : vec3) : option (R * vec3) :=
  let '(l, axis) := zVec3DNormalizeDRC (zCone3DAxis c) in
  let v := zVec3DSub p (kcen c) in
  let d := zVec3DInnerProd axis v in
  let '(r, s) := zVec3DNormalizeDRC (zVec3DCat v (- d) axis) in
  let rim := Some (sqrt (d * d + zSqr (r - krad c)), zVec3DCat (kcen c) (krad c) s) in
  if Rltb d 0 then
    if Rltb r (krad c) then Some (- d, zVec3DCat p (- d) axis) else rim
  else if Reqb (krad c) 0 || Reqb l 0 then None
  else if Rltb r (l * (d - l) / krad c) then Some (sqrt (zSqr (d - l) + r * r), kvert c)
  else if Rleb (d / l + r / krad c) 1 then Some (0, p)
  else if Rleb r (l * d / krad c + krad c) then
    let g := zVec3DCat (zVec3DMul s (krad c)) (- l) axis in
    let g := snd (zVec3DNormalizeDRC g) in
    let v := zVec3DSub p (kvert c) in
    let cp := zVec3DCat (kvert c) (zVec3DInnerProd v g) g in
    Some (zVec3DDist p cp, cp)
  else rim.
(** 108-135 *)
Definition zCone3DDistFromPoint (c : cone3) (p : vec3) : option R :=
  let '(l, axis) := zVec3DNormalizeDRC (zCone3DAxis c) in
  let v := zVec3DSub p (kcen c) in
  let d := zVec3DInnerProd axis v in
  let '(r, s) := zVec3DNormalizeDRC (zVec3DCat v (- d) axis) in
  let rim := Some (sqrt (d * d + zSqr (r - krad c))) in
  if Rltb d 0 then
    if Rltb r (krad c) then Some (- d) else rim
  else if Reqb (krad c) 0 || Reqb l 0 then None
  else if Rltb r (l * (d - l) / krad c) then Some (sqrt (zSqr (d - l) + r * r))
  else if Rleb (d / l + r / krad c) 1 then Some 0
  else if Rleb r (l * d / krad c + krad c) then
    let g := zVec3DCat (zVec3DMul s (krad c)) (- l) axis in
    let g := snd (zVec3DNormalizeDRC g) in
    Some (zVec3DOuterProdNorm (zVec3DSub p (kvert c)) g)
  else rim.
(** 138-153; [None] for the normalisation of a zero vector *)
Definition zCone3DPointIsInside (c : cone3) (p : vec3) (margin : R) : option bool :=
  let v := zVec3DSub p (kvert c) in
  let '(l, axis) := zVec3DNormalizeDRC (zCone3DAxis c) in
  let d := - zVec3DInnerProd axis v in
  if Rleb d (- margin) || Rleb (l + margin) d then Some false
  else
    let p2d := V2 d (sqrt (zVec3DSqrNorm v - d * d)) in
    let l2d := V2 (- krad c) l in
    if Reqb (zVec2DNorm l2d) 0 then None
    else Some (Rltb (zVec2DInnerProd (zVec2DMul l2d (1 / zVec2DNorm l2d)) p2d) margin).
(** 156-198 *)
Definition zCone3DHeight (c : cone3) : R := zVec3DNorm (zCone3DAxis c).
Definition zCone3DVolume (c : cone3) : R := PI * zSqr (krad c) * zCone3DHeight c / 3.
Definition zCone3DBarycenter (c : cone3) : vec3 := zVec3DInterDiv (kcen c) (kvert c) (1 / 4).
Definition zCone3DBaryInertiaMass (c : cone3) (mass : R) : option mat3 :=
  let rr := 3 * mass * zSqr (krad c) in
  let hh := 3 / 4 * mass * zVec3DSqrNorm (zCone3DAxis c) in
  match axis_att (zCone3DAxis c) with
  | Some att => Some (zRotMat3D att (diag3 (1 / 20 * (rr + hh)) (1 / 20 * (rr + hh)) (1 / 10 * rr)))
  | None => None
  end.
Definition zCone3DBaryInertia (c : cone3) (density : R) : option mat3 := zCone3DBaryInertiaMass c (density * zCone3DVolume c).

(** ** Ellipsoid, src/zeo_shape3d_ellips.c; zeo_shape3d_ellips.h 22-42, 63 *)
Record ellips3 := EL { elrad : vec3; elf : frame3; eldiv : Z }.
(** 14-25, 37-82 *)
Definition zEllips3DCreate (c ax ay az : vec3) (rx ry rz : R) (div : Z) : ellips3 :=
  EL (V3 (Rabs rx) (Rabs ry) (Rabs rz)) (F3 c (of_b ax ay az)) (if Z.eqb div 0 then ZEO_ELEM_DEFAULT_DIV else div).
Definition zEllips3DCopy (e : ellips3) : ellips3 :=
  zEllips3DCreate (fpos (elf e)) (bx (fatt (elf e))) (by_ (fatt (elf e))) (bz (fatt (elf e)))
    (vx (elrad e)) (vy (elrad e)) (vz (elrad e)) (eldiv e).
Definition zEllips3DMirror (e : ellips3) (axis : nat) : ellips3 :=
  let d := zEllips3DCopy e in let a := fatt (elf d) in
  EL (elrad d) (F3 (flip_e axis (fpos (elf d))) (of_b (flip_e axis (bx a)) (flip_e axis (by_ a)) (flip_e axis (bz a)))) (eldiv d).
Definition zEllips3DXform (e : ellips3) (f : frame3) : ellips3 :=
  let a := fatt (elf e) in
  EL (elrad e) (F3 (zXform3D f (fpos (elf e)))
    (of_b (zMulMat3DVec3D (fatt f) (bx a)) (zMulMat3DVec3D (fatt f) (by_ a)) (zMulMat3DVec3D (fatt f) (bz a)))) (eldiv e).
Definition zEllips3DXformInv (e : ellips3) (f : frame3) : ellips3 :=
  let a := fatt (elf e) in
  EL (elrad e) (F3 (zXform3DInv f (fpos (elf e)))
    (of_b (zMulMat3DTVec3D (fatt f) (bx a)) (zMulMat3DTVec3D (fatt f) (by_ a)) (zMulMat3DTVec3D (fatt f) (bz a)))) (eldiv e).
(** 85-120: coefficients of degree 6 to 0 *)
Definition ellips3_poly (a b c p q r : R) : list R :=
  let p2 := p * p in let q2 := q * q in let r2 := r * r in let pqr := p * q * r in
  [1; 2 * (p + q + r);
   (1 - a) * p2 + (1 - c) * r2 + (1 - b) * q2 + 4 * (p * q + q * r + r * p);
   2 * (1 - a) * (q + r) * p2 + 2 * (1 - b) * (r + p) * q2 + 2 * (1 - c) * (p + q) * r2 + 8 * p * q * r;
   (1 - b - a) * p2 * q2 + (1 - a - c) * p2 * r2 + (1 - c - b) * q2 * r2 + 4 * pqr * ((1 - a) * p + (1 - b) * q + (1 - c) * r);
   2 * pqr * ((1 - b - a) * p * q + (1 - a - c) * r * p + (1 - c - b) * q * r);
   (1 - a - b - c) * pqr * pqr].
Definition zEllips3DClosest0 (ans : list R -> list (R * R)) (rx ry rz : R) (v : vec3) : option vec3 :=
  let a := zSqr (vx v / rx) in let b := zSqr (vy v / ry) in let c := zSqr (vz v / rz) in
  let p := rx * rx in let q := ry * ry in let r := rz * rz in
  match pick_root (ans (ellips3_poly a b c p q r)) with
  | Some l => Some (V3 (vx v / (1 + l / p)) (vy v / (1 + l / q)) (vz v / (1 + l / r)))
  | None => None
  end.
(** 146-154 *)
Definition zEllips3DPointIsInside (e : ellips3) (p : vec3) (margin : R) : bool :=
  let q := zXform3DInv (elf e) p in
  Rltb (zSqr (vx q / (vx (elrad e) + margin)) + zSqr (vy q / (vy (elrad e) + margin)) + zSqr (vz q / (vz (elrad e) + margin))) 1.
(** 123-143; the failure of the helper is not checked: [None] = unset result *)
Definition zEllips3DClosest ans (e : ellips3) (p : vec3) : option (R * vec3) :=
  if zEllips3DPointIsInside e p zTOL then Some (0, p)
  else match zEllips3DClosest0 ans (vx (elrad e)) (vy (elrad e)) (vz (elrad e)) (zXform3DInv (elf e) p) with
  | Some cp => let cp := zXform3D (elf e) cp in Some (zVec3DDist p cp, cp)
  | None => None
  end.
(** 157-189 *)
Definition zEllips3DVolume (e : ellips3) : R := 4 * PI * vx (elrad e) * vy (elrad e) * vz (elrad e) / 3.
Definition zEllips3DBaryInertiaMass (e : ellips3) (mass : R) : mat3 :=
  let c := 1 / 5 * mass in
  let xx := zSqr (vx (elrad e)) * c in let yy := zSqr (vy (elrad e)) * c in let zz := zSqr (vz (elrad e)) * c in
  zRotMat3D (fatt (elf e)) (diag3 (yy + zz) (zz + xx) (xx + yy)).
Definition zEllips3DBaryInertia (e : ellips3) (density : R) : mat3 := zEllips3DBaryInertiaMass e (density * zEllips3DVolume e).
Definition zSphere3DToEllips3D (s : sphere3) : ellips3 :=
  zEllips3DCreate (scen s) (V3 1 0 0) (V3 0 1 0) (V3 0 0 1) (srad s) (srad s) (srad s) (sdiv s).

(** ** Elliptic cylinder, src/zeo_shape3d_ecyl.c; zeo_shape3d_ecyl.h 20-36, 65 *)
Record ecyl3 := EC { ec0 : vec3; ec1 : vec3; er0 : R; er1 : R; ev0 : vec3; ev1 : vec3; ecdiv : Z }.
Definition zECyl3DAxis (c : ecyl3) : vec3 := zVec3DSub (ec1 c) (ec0 c).
(** 67-80: new radial vectors; [None] when an ignored failure leaves them unset.
    [ref] = [None] stands for a null pointer *)
Definition zECyl3DDefAxis (axis : vec3) (ref : option vec3) : option (vec3 * vec3) :=
  match (match ref with Some r => if zVec3DIsTiny r then None else Some r | None => None end) with
  | Some r =>
      match zVec3DOrthogonalize r axis with
      | Some r0 => let r0 := snd (zVec3DNormalizeDRC r0) in Some (r0, snd (zVec3DNormalizeDRC (zVec3DOuterProd axis r0)))
      | None => None
      end
  | None => zVec3DOrthoSpace axis
  end.
(** 14-23 *)
Definition zECyl3DCreate (c1 c2 : vec3) (r1 r2 : R) (ref : option vec3) (div : Z) : option ecyl3 :=
  match zECyl3DDefAxis (zVec3DSub c2 c1) ref with
  | Some (u0, u1) => Some (EC c1 c2 r1 r2 u0 u1 (if Z.eqb div 0 then ZEO_ELEM_DEFAULT_DIV else div))
  | None => None
  end.
(** 55-64, 83-106 *)
Definition zECyl3DMirror (c : ecyl3) (axis : nat) : ecyl3 :=
  EC (flip_e axis (ec0 c)) (flip_e axis (ec1 c)) (er0 c) (er1 c) (flip_e axis (ev0 c)) (zVec3DRev (flip_e axis (ev1 c))) (ecdiv c).
Definition zECyl3DXform (c : ecyl3) (f : frame3) : ecyl3 :=
  EC (zXform3D f (ec0 c)) (zXform3D f (ec1 c)) (er0 c) (er1 c) (zMulMat3DVec3D (fatt f) (ev0 c)) (zMulMat3DVec3D (fatt f) (ev1 c)) (ecdiv c).
Definition zECyl3DXformInv (c : ecyl3) (f : frame3) : ecyl3 :=
  EC (zXform3DInv f (ec0 c)) (zXform3DInv f (ec1 c)) (er0 c) (er1 c) (zMulMat3DTVec3D (fatt f) (ev0 c)) (zMulMat3DTVec3D (fatt f) (ev1 c)) (ecdiv c).
(** 109-132; [None] when the components or the ellipse helper fail *)
Definition zECyl3DClosest ans (c : ecyl3) (p : vec3) : option (R * vec3) :=
  let v := zVec3DSub p (ec0 c) in
  let axis := zECyl3DAxis c in
  match zVec3DCatRatio (ev0 c) (ev1 c) axis v with
  | Computed vs =>
      match zEllips2DClosest ans (E2 (V2 0 0) (er0 c) (er1 c)) (V2 (vx vs) (vy vs)) with
      | Some vc =>
          let cp := zVec3DCat (ec0 c) (zLimit (vz vs) 0 1) axis in
          let cp := zVec3DCat cp (x2 vc) (ev0 c) in
          let cp := zVec3DCat cp (y2 vc) (ev1 c) in
          Some (zVec3DDist cp p, cp)
      | None => None
      end
  | _ => None
  end.
(** 135-148 *)
Definition zECyl3DPointIsInside (c : ecyl3) (p : vec3) (margin : R) : option bool :=
  let v := zVec3DSub p (ec0 c) in
  let '(l, axis) := zVec3DNormalizeDRC (zECyl3DAxis c) in
  match zVec3DCatRatio (ev0 c) (ev1 c) axis v with
  | Computed vs =>
      if Rleb (vz vs) (- margin) || Rleb (l + margin) (vz vs) then Some false
      else Some (zEllips2DPointIsInside (E2 (V2 0 0) (er0 c) (er1 c)) (V2 (vx vs) (vy vs)) margin)
  | _ => None
  end.
(** 151-196 *)
Definition zECyl3DHeight (c : ecyl3) : R := zVec3DNorm (zECyl3DAxis c).
Definition zECyl3DVolume (c : ecyl3) : R := PI * er0 c * er1 c * zECyl3DHeight c.
Definition zECyl3DBarycenter (c : ecyl3) : vec3 := zVec3DMid (ec0 c) (ec1 c).
Definition zECyl3DBaryInertiaMass (c : ecyl3) (mass : R) : mat3 :=
  let aa := 1 / 4 * mass * zSqr (er0 c) in
  let bb := 1 / 4 * mass * zSqr (er1 c) in
  let hh := zVec3DSqrNorm (zECyl3DAxis c) * mass / 12 in
  let att := of_b (ev0 c) (ev1 c) (snd (zVec3DNormalizeDRC (zECyl3DAxis c))) in
  zRotMat3D att (diag3 (bb + hh) (aa + hh) (aa + bb)).
Definition zECyl3DBaryInertia (c : ecyl3) (density : R) : mat3 := zECyl3DBaryInertiaMass c (density * zECyl3DVolume c).
