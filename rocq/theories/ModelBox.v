(** Model of boxes: axis-aligned (2D and 3D), oriented, bounding boxes of point data, collision of boxes. *)
From Verif Require Export ModelVec ModelFrame ModelElem SpecBox.
Open Scope R_scope.

(** ** src/zeo_elem3d_box.c, axis-aligned *)
(** 22-27 *)
Definition zAABox3DCreate (x1 y1 z1 x2 y2 z2 : R) : aabox3 :=
  B3 (V3 (zMin x1 x2) (zMin y1 y2) (zMin z1 z2)) (V3 (zMax x1 x2) (zMax y1 y2) (zMax z1 z2)).
(** 30-39 *)
Definition zAABox3DCreateFromSize (center : vec3) (depth width height : R) : aabox3 :=
  B3 (V3 (vx center - 1/2 * Rabs depth) (vy center - 1/2 * Rabs width) (vz center - 1/2 * Rabs height))
     (V3 (vx center + 1/2 * Rabs depth) (vy center + 1/2 * Rabs width) (vz center + 1/2 * Rabs height)).
(** 42-45 *)
Definition zAABox3DEqual (b1 b2 : aabox3) : bool := zVec3DEqual (bmin b1) (bmin b2) && zVec3DEqual (bmax b1) (bmax b2).
(** 56-65 *)
Definition zAABox3DMerge (b1 b2 : aabox3) : aabox3 :=
  zAABox3DCreate
    (zMin (vx (bmin b1)) (vx (bmin b2))) (zMin (vy (bmin b1)) (vy (bmin b2))) (zMin (vz (bmin b1)) (vz (bmin b2)))
    (zMax (vx (bmax b1)) (vx (bmax b2))) (zMax (vy (bmax b1)) (vy (bmax b2))) (zMax (vz (bmax b1)) (vz (bmax b2))).
(** zeo_elem3d_box.h 58-62 *)
Definition zAABox3DDepth (b : aabox3) : R := vx (bmax b) - vx (bmin b).
Definition zAABox3DWidth (b : aabox3) : R := vy (bmax b) - vy (bmin b).
Definition zAABox3DHeight (b : aabox3) : R := vz (bmax b) - vz (bmin b).
Definition zAABox3DCenter (b : aabox3) : vec3 := zVec3DMid (bmin b) (bmax b).
(** 68-79; the warning printed for a negative magnitude is not modelled *)
Definition zAABox3DExpand (src : aabox3) (magnitude : R) : aabox3 :=
  let magnitude := if Rltb magnitude 0 then magnitude * -1 else magnitude in
  zAABox3DCreateFromSize (zAABox3DCenter src)
    (zAABox3DDepth src * magnitude) (zAABox3DWidth src * magnitude) (zAABox3DHeight src * magnitude).
(** 82-89 *)
Definition zAABox3DClosest (b : aabox3) (p : vec3) : R * vec3 :=
  let cp := V3 (zLimit (vx p) (vx (bmin b)) (vx (bmax b)))
               (zLimit (vy p) (vy (bmin b)) (vy (bmax b)))
               (zLimit (vz p) (vz (bmin b)) (vz (bmax b))) in
  (zVec3DDist p cp, cp).
(** one turn of the loop of 97-103 *)
Definition sqr_excess (v mn mx d2 : R) : R :=
  if Rltb v mn then d2 + zSqr (v - mn) else if Rltb mx v then d2 + zSqr (v - mx) else d2.
(** 92-105 *)
Definition zAABox3DSqrDistFromPoint (b : aabox3) (p : vec3) : R :=
  sqr_excess (vz p) (vz (bmin b)) (vz (bmax b))
    (sqr_excess (vy p) (vy (bmin b)) (vy (bmax b))
      (sqr_excess (vx p) (vx (bmin b)) (vx (bmax b)) 0)).
(** zeo_elem3d_box.h 93 *)
Definition zAABox3DDistFromPoint (b : aabox3) (p : vec3) : R := sqrt (zAABox3DSqrDistFromPoint b p).
(** 108-113 *)
Definition zAABox3DPointIsInside (b : aabox3) (p : vec3) (margin : R) : bool :=
  Rltb (vx (bmin b) - margin) (vx p) && Rleb (vx p) (vx (bmax b) + margin) &&
  Rltb (vy (bmin b) - margin) (vy p) && Rleb (vy p) (vy (bmax b) + margin) &&
  Rltb (vz (bmin b) - margin) (vz p) && Rleb (vz p) (vz (bmax b) + margin).
(** 116-121 *)
Definition zAABox3DVolume (b : aabox3) : R :=
  Rabs ((vx (bmax b) - vx (bmin b)) * (vy (bmax b) - vy (bmin b)) * (vz (bmax b) - vz (bmin b))).
(** 124-131 *)
Definition zAABox3DVert (b : aabox3) (i : nat) : vec3 :=
  V3 (if xorb (Nat.testbit i 0) (Nat.testbit i 1) then vx (bmin b) else vx (bmax b))
     (if Nat.testbit i 1 then vy (bmin b) else vy (bmax b))
     (if Nat.testbit i 2 then vz (bmin b) else vz (bmax b)).
(** 134-143 *)
Definition zAABox3DEnlarge (b : aabox3) (v : vec3) : aabox3 :=
  B3 (V3 (if Rltb (vx v) (vx (bmin b)) then vx v else vx (bmin b))
         (if Rltb (vy v) (vy (bmin b)) then vy v else vy (bmin b))
         (if Rltb (vz v) (vz (bmin b)) then vz v else vz (bmin b)))
     (V3 (if Rltb (vx (bmax b)) (vx v) then vx v else vx (bmax b))
         (if Rltb (vy (bmax b)) (vy v) then vy v else vy (bmax b))
         (if Rltb (vz (bmax b)) (vz v) then vz v else vz (bmax b))).

(** ** src/zeo_elem2d_box.c *)
(** 18-23 *)
Definition zAABox2DCreate (x1 y1 x2 y2 : R) : aabox2 :=
  B2 (V2 (zMin x1 x2) (zMin y1 y2)) (V2 (zMax x1 x2) (zMax y1 y2)).
(** 26-33 *)
Definition zAABox2DCreateFromSize (center : vec2) (depth width : R) : aabox2 :=
  B2 (V2 (x2 center - 1/2 * Rabs depth) (y2 center - 1/2 * Rabs width))
     (V2 (x2 center + 1/2 * Rabs depth) (y2 center + 1/2 * Rabs width)).
(** 50-57 *)
Definition zAABox2DMerge (b1 b2 : aabox2) : aabox2 :=
  zAABox2DCreate
    (zMin (x2 (bmin2 b1)) (x2 (bmin2 b2))) (zMin (y2 (bmin2 b1)) (y2 (bmin2 b2)))
    (zMax (x2 (bmax2 b1)) (x2 (bmax2 b2))) (zMax (y2 (bmax2 b1)) (y2 (bmax2 b2))).
(** zeo_elem2d_box.h, and 60-70 *)
Definition zAABox2DCenter (b : aabox2) : vec2 := zVec2DMid (bmin2 b) (bmax2 b).
Definition zAABox2DExpand (src : aabox2) (magnitude : R) : aabox2 :=
  let magnitude := if Rltb magnitude 0 then magnitude * -1 else magnitude in
  zAABox2DCreateFromSize (zAABox2DCenter src)
    ((x2 (bmax2 src) - x2 (bmin2 src)) * magnitude) ((y2 (bmax2 src) - y2 (bmin2 src)) * magnitude).
(** 73-79 *)
Definition zAABox2DClosest (b : aabox2) (p : vec2) : R * vec2 :=
  let cp := V2 (zLimit (x2 p) (x2 (bmin2 b)) (x2 (bmax2 b))) (zLimit (y2 p) (y2 (bmin2 b)) (y2 (bmax2 b))) in
  (zVec2DDist p cp, cp).
(** 82-95 *)
Definition zAABox2DSqrDistFromPoint (b : aabox2) (p : vec2) : R :=
  sqr_excess (y2 p) (y2 (bmin2 b)) (y2 (bmax2 b)) (sqr_excess (x2 p) (x2 (bmin2 b)) (x2 (bmax2 b)) 0).
Definition zAABox2DDistFromPoint (b : aabox2) (p : vec2) : R := sqrt (zAABox2DSqrDistFromPoint b p).
(** 98-102 *)
Definition zAABox2DPointIsInside (b : aabox2) (p : vec2) (margin : R) : bool :=
  Rltb (x2 (bmin2 b) - margin) (x2 p) && Rltb (x2 p) (x2 (bmax2 b) + margin) &&
  Rltb (y2 (bmin2 b) - margin) (y2 p) && Rltb (y2 p) (y2 (bmax2 b) + margin).
(** 105-109 *)
Definition zAABox2DArea (b : aabox2) : R := Rabs ((x2 (bmax2 b) - x2 (bmin2 b)) * (y2 (bmax2 b) - y2 (bmin2 b))).
(** 112-118 *)
Definition zAABox2DVert (b : aabox2) (i : nat) : vec2 :=
  V2 (if xorb (Nat.testbit i 0) (Nat.testbit i 1) then x2 (bmin2 b) else x2 (bmax2 b))
     (if Nat.testbit i 1 then y2 (bmin2 b) else y2 (bmax2 b)).
(** 121-128 *)
Definition zAABox2DEnlarge (b : aabox2) (v : vec2) : aabox2 :=
  B2 (V2 (if Rltb (x2 v) (x2 (bmin2 b)) then x2 v else x2 (bmin2 b))
         (if Rltb (y2 v) (y2 (bmin2 b)) then y2 v else y2 (bmin2 b)))
     (V2 (if Rltb (x2 (bmax2 b)) (x2 v) then x2 v else x2 (bmax2 b))
         (if Rltb (y2 (bmax2 b)) (y2 v) then y2 v else y2 (bmax2 b))).

(** ** Bounding box of point data: src/zeo_bv3d_aabb.c, src/zeo_bv2d_aabb.c.
    The data is the sequence of points in the order the fetch loop delivers them;
    the pointers of [vp] are represented by the points they refer to. *)
(** the six extreme points vp[0..5] *)
Record extreme3 := X3 { xp0 : vec3; xp1 : vec3; xp2 : vec3; xp3 : vec3; xp4 : vec3; xp5 : vec3 }.
(** 10-21 for one axis: new (max, min) and the return value *)
Definition _zAABBTest (mx mn p : R) : (R * R) * Z :=
  if Rltb mx p then ((p, mn), 0%Z)
  else if Rltb p mn then ((mx, p), 3%Z)
  else ((mx, mn), (-1)%Z).
Definition setvp (vp : extreme3) (i : Z) (p : vec3) : extreme3 :=
  let '(X3 a b c d e f) := vp in
  match i with
  | 0 => X3 p b c d e f | 1 => X3 a p c d e f | 2 => X3 a b p d e f
  | 3 => X3 a b c p e f | 4 => X3 a b c d p f | 5 => X3 a b c d e p
  | _ => vp
  end%Z.
(** 24-32 *)
Definition _zAABB3DInc (st : aabox3 * extreme3) (p : vec3) : aabox3 * extreme3 :=
  let '(bb, vp) := st in
  let '((xmax, xmin), s) := _zAABBTest (vx (bmax bb)) (vx (bmin bb)) (vx p) in
  let vp := if Z.eqb s (-1) then vp else setvp vp (0 + s) p in
  let '((ymax, ymin), s) := _zAABBTest (vy (bmax bb)) (vy (bmin bb)) (vy p) in
  let vp := if Z.eqb s (-1) then vp else setvp vp (1 + s) p in
  let '((zmax, zmin), s) := _zAABBTest (vz (bmax bb)) (vz (bmin bb)) (vz p) in
  let vp := if Z.eqb s (-1) then vp else setvp vp (2 + s) p in
  (B3 (V3 xmin ymin zmin) (V3 xmax ymax zmax), vp).
(** 35-53; [None] = NULL *)
Definition zVec3DDataAABB (data : list vec3) : option (aabox3 * extreme3) :=
  match data with
  | [] => None
  | v :: rest => Some (fold_left _zAABB3DInc rest (B3 v v, X3 v v v v v v))
  end.
(** 56-75: the box only *)
Definition zVec3DDataAABBXform (data : list vec3) (frame : frame3) : option aabox3 :=
  match data with
  | [] => None
  | v :: rest =>
      let px := zXform3D frame v in
      Some (fst (fold_left (fun st v => _zAABB3DInc st (zXform3D frame v)) rest (B3 px px, X3 px px px px px px)))
  end.
(** zeo_bv2d_aabb.c 10-44: the four extreme points are in the order xmax, ymax, xmin, ymin *)
Record extreme2 := X2 { xq0 : vec2; xq1 : vec2; xq2 : vec2; xq3 : vec2 }.
Definition _zAABBTest2 (mx mn p : R) : (R * R) * Z :=
  if Rltb mx p then ((p, mn), 0%Z)
  else if Rltb p mn then ((mx, p), 2%Z)
  else ((mx, mn), (-1)%Z).
Definition setvp2 (vp : extreme2) (i : Z) (p : vec2) : extreme2 :=
  let '(X2 a b c d) := vp in
  match i with 0 => X2 p b c d | 1 => X2 a p c d | 2 => X2 a b p d | 3 => X2 a b c p | _ => vp end%Z.
Definition _zAABB2DInc (st : aabox2 * extreme2) (p : vec2) : aabox2 * extreme2 :=
  let '(bb, vp) := st in
  let '((xmax, xmin), s) := _zAABBTest2 (x2 (bmax2 bb)) (x2 (bmin2 bb)) (x2 p) in
  let vp := if Z.eqb s (-1) then vp else setvp2 vp (0 + s) p in
  let '((ymax, ymin), s) := _zAABBTest2 (y2 (bmax2 bb)) (y2 (bmin2 bb)) (y2 p) in
  let vp := if Z.eqb s (-1) then vp else setvp2 vp (1 + s) p in
  (B2 (V2 xmin ymin) (V2 xmax ymax), vp).
Definition zVec2DDataAABB (data : list vec2) : option (aabox2 * extreme2) :=
  match data with
  | [] => None
  | v :: rest => Some (fold_left _zAABB2DInc rest (B2 v v, X2 v v v v))
  end.

(** ** Oriented boxes, src/zeo_elem3d_box.c *)
(** zeo_elem3d_box.h 188-193 *)
Definition zBox3DSpan (b : box3) (d : nat) : R := vnth (bspan b) d.
Definition zBox3DCenter (b : box3) : vec3 := fpos (bframe b).
Definition zBox3DAxis (b : box3) (i : nat) : vec3 :=
  match i with 0%nat => col0 (fatt (bframe b)) | 1%nat => col1 (fatt (bframe b)) | _ => col2 (fatt (bframe b)) end.
(** 208-220; a tiny axis vector leaves a local variable uninitialised: [None] *)
Definition zBox3DCreate (center ax ay az : vec3) (depth width height : R) : option box3 :=
  if zVec3DIsTiny ax || zVec3DIsTiny ay || zVec3DIsTiny az then None
  else Some (BX (F3 center (cols3 (snd (zVec3DNormalizeNC ax)) (snd (zVec3DNormalizeNC ay)) (snd (zVec3DNormalizeNC az))))
                (V3 (Rabs depth) (Rabs width) (Rabs height))).
(** 232-237 *)
Definition zBox3DCopy (src : box3) : option box3 :=
  zBox3DCreate (zBox3DCenter src) (zBox3DAxis src 0) (zBox3DAxis src 1) (zBox3DAxis src 2)
    (vx (bspan src)) (vy (bspan src)) (vz (bspan src)).
(** negation of one component, [e[axis] *= -1] *)
Definition negcomp (axis : nat) (v : vec3) : vec3 :=
  match axis with
  | 0%nat => V3 (vx v * -1) (vy v) (vz v)
  | 1%nat => V3 (vx v) (vy v * -1) (vz v)
  | _ => V3 (vx v) (vy v) (vz v * -1)
  end.
(** 240-248 *)
Definition zBox3DMirror (src : box3) (axis : nat) : option box3 :=
  match zBox3DCopy src with
  | None => None
  | Some d => Some (BX (F3 (negcomp axis (zBox3DCenter d))
                           (cols3 (negcomp axis (zBox3DAxis d 0)) (negcomp axis (zBox3DAxis d 1)) (negcomp axis (zBox3DAxis d 2))))
                       (bspan d))
  end.
(** 251-274; source and destination distinct *)
Definition zBox3DXform (src : box3) (f : frame3) : box3 :=
  BX (F3 (zXform3D f (zBox3DCenter src))
         (cols3 (zMulMat3DVec3D (fatt f) (zBox3DAxis src 0)) (zMulMat3DVec3D (fatt f) (zBox3DAxis src 1))
                (zMulMat3DVec3D (fatt f) (zBox3DAxis src 2)))) (bspan src).
Definition zBox3DXformInv (src : box3) (f : frame3) : box3 :=
  BX (F3 (zXform3DInv f (zBox3DCenter src))
         (cols3 (zMulMat3DTVec3D (fatt f) (zBox3DAxis src 0)) (zMulMat3DTVec3D (fatt f) (zBox3DAxis src 1))
                (zMulMat3DTVec3D (fatt f) (zBox3DAxis src 2)))) (bspan src).
(** 277-298 *)
Definition zBox3DClosest (b : box3) (p : vec3) : R * vec3 :=
  let _p := zXform3DInv (bframe b) p in
  let cp := V3 (zLimit (vx _p) (- (1/2) * zBox3DSpan b 0) (1/2 * zBox3DSpan b 0))
               (zLimit (vy _p) (- (1/2) * zBox3DSpan b 1) (1/2 * zBox3DSpan b 1))
               (zLimit (vz _p) (- (1/2) * zBox3DSpan b 2) (1/2 * zBox3DSpan b 2)) in
  let cp := zXform3D (bframe b) cp in
  (zVec3DDist p cp, cp).
Definition zBox3DDistFromPoint (b : box3) (p : vec3) : R := fst (zBox3DClosest b p).
(** 301-313 *)
Definition zBox3DPointIsInside (b : box3) (p : vec3) (margin : R) : bool :=
  let pl := zXform3DInv (bframe b) p in
  let test v span := let l := 1/2 * span + margin in negb (Rleb l v || Rleb v (- l)) in
  test (vx pl) (zBox3DSpan b 0) && test (vy pl) (zBox3DSpan b 1) && test (vz pl) (zBox3DSpan b 2).
(** 316-319 *)
Definition zBox3DVolume (b : box3) : R := zBox3DSpan b 0 * zBox3DSpan b 1 * zBox3DSpan b 2.
(** 322-336 *)
Definition zBox3DBaryInertiaMass (b : box3) (mass : R) : mat3 :=
  let c := mass / 12 in
  let xx := zSqr (zBox3DSpan b 0) * c in
  let yy := zSqr (zBox3DSpan b 1) * c in
  let zz := zSqr (zBox3DSpan b 2) * c in
  zRotMat3D (fatt (bframe b)) (zMat3DCreate (yy + zz) 0 0 0 (zz + xx) 0 0 0 (xx + yy)).
(** 339-342 *)
Definition zBox3DBaryInertia (b : box3) (density : R) : mat3 := zBox3DBaryInertiaMass b (density * zBox3DVolume b).
(** 345-352 *)
Definition zBox3DVert (b : box3) (i : nat) : vec3 :=
  zXform3D (bframe b)
   (V3 (if xorb (Nat.testbit i 0) (Nat.testbit i 1) then - (1/2) * zBox3DSpan b 0 else 1/2 * zBox3DSpan b 0)
       (if Nat.testbit i 1 then - (1/2) * zBox3DSpan b 1 else 1/2 * zBox3DSpan b 1)
       (if Nat.testbit i 2 then - (1/2) * zBox3DSpan b 2 else 1/2 * zBox3DSpan b 2)).
(** 355-363 *)
Definition zAABox3DToBox3D (b : aabox3) : box3 :=
  BX (F3 (zVec3DMid (bmax b) (bmin b)) (cols3 (V3 1 0 0) (V3 0 1 0) (V3 0 0 1))) (zVec3DSub (bmax b) (bmin b)).
(** 366-378: the initial box has min = +HUGE_VAL and max = -HUGE_VAL, so that the
    first call of zAABox3DEnlarge makes the box of the first vertex *)
Definition enlarge0 (b : option aabox3) (v : vec3) : option aabox3 :=
  match b with None => Some (B3 v v) | Some b => Some (zAABox3DEnlarge b v) end.
Definition zBox3DToAABox3D (b : box3) : option aabox3 :=
  fold_left (fun a i => enlarge0 a (zBox3DVert b i)) [0; 1; 2; 3; 4; 5; 6; 7]%nat None.

(** ** Collision, src/zeo_col_box.c *)
(** 207-216 *)
Definition zColChkAABox3D (b1 b2 : aabox3) : bool :=
  Rltb (vx (bmin b1)) (vx (bmax b2)) && Rltb (vx (bmin b2)) (vx (bmax b1)) &&
  Rltb (vy (bmin b1)) (vy (bmax b2)) && Rltb (vy (bmin b2)) (vy (bmax b1)) &&
  Rltb (vz (bmin b1)) (vz (bmax b2)) && Rltb (vz (bmin b2)) (vz (bmax b1)).
(** 219-229 *)
Definition zIntersectAABox3D (b1 b2 : aabox3) : option aabox3 :=
  if negb (zColChkAABox3D b1 b2) then None
  else Some (zAABox3DCreate
    (zMax (vx (bmin b1)) (vx (bmin b2))) (zMax (vy (bmin b1)) (vy (bmin b2))) (zMax (vz (bmin b1)) (vz (bmin b2)))
    (zMin (vx (bmax b1)) (vx (bmax b2))) (zMin (vy (bmax b1)) (vy (bmax b2))) (zMin (vz (bmax b1)) (vz (bmax b2)))).
(** 232-242, the polyhedra given by their vertices; [None] also when a vertex array
    is empty (the code then reads uninitialised boxes) *)
Definition zIntersectPH3DBox (ph1 ph2 : list vec3) : option aabox3 :=
  match zVec3DDataAABB ph1, zVec3DDataAABB ph2 with
  | Some (b1, _), Some (b2, _) => zIntersectAABox3D b1 b2
  | _, _ => None
  end.
(** 247-259 *)
Definition _zColChkBox3DAlong (b1 : box3) (axis : nat) (b2 : box3) (l : vec3) : bool :=
  let a := zBox3DAxis b1 axis in
  let d := 1/2 * (Rabs (zVec3DInnerProd (zBox3DAxis b2 0) a) * zBox3DSpan b2 0
                + Rabs (zVec3DInnerProd (zBox3DAxis b2 1) a) * zBox3DSpan b2 1
                + Rabs (zVec3DInnerProd (zBox3DAxis b2 2) a) * zBox3DSpan b2 2
                + zBox3DSpan b1 axis) in
  Rltb (Rabs (zVec3DInnerProd l a)) d.
(** 262-282 *)
Definition _zColChkBox3DPerp (b1 : box3) (ax1 : nat) (b2 : box3) (ax2 : nat) (l : vec3) : bool :=
  let p := zVec3DOuterProd (zBox3DAxis b1 ax1) (zBox3DAxis b2 ax2) in
  if zVec3DIsTiny p then true
  else
    let p := snd (zVec3DNormalizeDRC p) in
    let ax12 := Nat.modulo (ax1 + 1) 3 in
    let ax13 := Nat.modulo (ax1 + 2) 3 in
    let ax22 := Nat.modulo (ax2 + 1) 3 in
    let ax23 := Nat.modulo (ax2 + 2) 3 in
    let d := 1/2 * (Rabs (zVec3DInnerProd (zBox3DAxis b1 ax12) p) * zBox3DSpan b1 ax12
                  + Rabs (zVec3DInnerProd (zBox3DAxis b1 ax13) p) * zBox3DSpan b1 ax13
                  + Rabs (zVec3DInnerProd (zBox3DAxis b2 ax22) p) * zBox3DSpan b2 ax22
                  + Rabs (zVec3DInnerProd (zBox3DAxis b2 ax23) p) * zBox3DSpan b2 ax23) in
    Rltb (Rabs (zVec3DInnerProd l p)) d.
(** 285-305 *)
Definition zColChkBox3D (b1 b2 : box3) : bool :=
  let l := zVec3DSub (zBox3DCenter b1) (zBox3DCenter b2) in
  if negb (_zColChkBox3DAlong b1 0 b2 l) ||
     negb (_zColChkBox3DAlong b1 1 b2 l) ||
     negb (_zColChkBox3DAlong b1 2 b2 l) ||
     negb (_zColChkBox3DAlong b2 0 b1 l) ||
     negb (_zColChkBox3DAlong b2 1 b1 l) ||
     negb (_zColChkBox3DAlong b2 2 b1 l) ||
     negb (_zColChkBox3DPerp b1 0 b2 0 l) ||
     negb (_zColChkBox3DPerp b1 1 b2 0 l) ||
     negb (_zColChkBox3DPerp b1 2 b2 0 l) ||
     negb (_zColChkBox3DPerp b1 0 b2 1 l) ||
     negb (_zColChkBox3DPerp b1 1 b2 1 l) ||
     negb (_zColChkBox3DPerp b1 2 b2 1 l) ||
     negb (_zColChkBox3DPerp b1 0 b2 2 l) ||
     negb (_zColChkBox3DPerp b1 1 b2 2 l) ||
     negb (_zColChkBox3DPerp b1 2 b2 2 l)
  then false else true.
(** 310-319; a sphere is its centre and radius *)
Definition zColChkSphereAABox3D (c : vec3) (r : R) (b : aabox3) : bool := Rltb (zAABox3DDistFromPoint b c) r.
Definition zColChkSphereBox3D (c : vec3) (r : R) (b : box3) : bool := Rltb (zBox3DDistFromPoint b c) r.
