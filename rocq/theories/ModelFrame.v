(** Model of 3D frames, 6D vectors and 6x6 matrices. *)
From Verif Require Export ModelVec ModelMat SpecFrame.
From Coq Require Import ZArith.
Open Scope R_scope.

(** ** frames *)

(** src/zeo_frame3d.c 11-14 *)
Definition ZFRAME3DIDENT : frame3 := F3 (V3 0 0 0) ZMAT3DIDENT.
(** zeo_frame3d.h 136-140, src/zeo_frame3d.c 50-54 *)
Definition zXform3D (f : frame3) (v : vec3) : vec3 := zVec3DAdd (zMulMat3DVec3D (fatt f) v) (fpos f).
(** zeo_frame3d.h 142-146, src/zeo_frame3d.c 57-61 *)
Definition zXform3DInv (f : frame3) (v : vec3) : vec3 := zMulMat3DTVec3D (fatt f) (zVec3DSub v (fpos f)).
(** zeo_frame3d.h 172-177 *)
Definition zFrame3DInv (f : frame3) : frame3 :=
  let att := zMat3DT (fatt f) in F3 (zVec3DRev (zMulMat3DVec3D att (fpos f))) att.
(** zeo_frame3d.h 179-183 *)
Definition zFrame3DCascade (f1 f2 : frame3) : frame3 :=
  F3 (zXform3D f1 (fpos f2)) (zMulMat3DMat3D (fatt f1) (fatt f2)).
(** zeo_frame3d.h 185-189 *)
Definition zFrame3DXform (f1 f2 : frame3) : frame3 :=
  F3 (zXform3DInv f1 (fpos f2)) (zMulMat3DTMat3D (fatt f1) (fatt f2)).

(** ** 6D vectors *)

(** zeo_vec6d.h 202-221, src/zeo_vec6d.c 72-97 *)
Definition zVec6DAdd (v1 v2 : vec6) : vec6 := V6 (zVec3DAdd (lin v1) (lin v2)) (zVec3DAdd (ang v1) (ang v2)).
Definition zVec6DSub (v1 v2 : vec6) : vec6 := V6 (zVec3DSub (lin v1) (lin v2)) (zVec3DSub (ang v1) (ang v2)).
Definition zVec6DRev (v : vec6) : vec6 := V6 (zVec3DRev (lin v)) (zVec3DRev (ang v)).
Definition zVec6DMul (v : vec6) (k : R) : vec6 := V6 (zVec3DMul (lin v) k) (zVec3DMul (ang v) k).
(** src/zeo_vec6d.c 100-110 *)
Definition zVec6DDiv (v : vec6) (k : R) : option vec6 := if Reqb k 0 then None else Some (zVec6DMul v (1 / k)).
(** zeo_vec6d.h 223-227 *)
Definition zVec6DCat (v1 : vec6) (k : R) (v2 : vec6) : vec6 :=
  V6 (zVec3DCat (lin v1) k (lin v2)) (zVec3DCat (ang v1) k (ang v2)).
(** zeo_vec6d.h 262, src/zeo_vec6d.c 120-123 *)
Definition zVec6DInnerProd (v1 v2 : vec6) : R :=
  zVec3DInnerProd (lin v1) (lin v2) + zVec3DInnerProd (ang v1) (ang v2).
(** src/zeo_vec6d.c 126-144 *)
Definition zVec6DLinShift (src : vec6) (pos : vec3) : vec6 :=
  V6 (zVec3DAdd (lin src) (zVec3DOuterProd (ang src) pos)) (ang src).
Definition zVec6DLinShiftDRC (v : vec6) (pos : vec3) : vec6 :=
  V6 (zVec3DAdd (lin v) (zVec3DOuterProd (ang v) pos)) (ang v).
(** src/zeo_vec6d.c 147-165 *)
Definition zVec6DAngShift (src : vec6) (pos : vec3) : vec6 :=
  V6 (lin src) (zVec3DAdd (ang src) (zVec3DOuterProd pos (lin src))).
Definition zVec6DAngShiftDRC (v : vec6) (pos : vec3) : vec6 :=
  V6 (lin v) (zVec3DAdd (ang v) (zVec3DOuterProd pos (lin v))).
(** src/zeo_vec6d.c 172-176 *)
Definition zVec6DDif (v vnew : vec6) (dt : R) : option vec6 := zVec6DDiv (zVec6DSub vnew v) dt.
(** src/zeo_mat3d.c 582-595 *)
Definition zMulMat3DVec6D (m : mat3) (v : vec6) : vec6 := V6 (zMulMat3DVec3D m (lin v)) (zMulMat3DVec3D m (ang v)).
Definition zMulMat3DTVec6D (m : mat3) (v : vec6) : vec6 := V6 (zMulMat3DTVec3D m (lin v)) (zMulMat3DTVec3D m (ang v)).

(** src/zeo_frame3d.c 87-102 *)
Definition zXform6DLin (f : frame3) (v : vec6) : vec6 := zMulMat3DTVec6D (fatt f) (zVec6DLinShift v (fpos f)).
Definition zXform6DAng (f : frame3) (v : vec6) : vec6 := zVec6DAngShiftDRC (zMulMat3DVec6D (fatt f) v) (fpos f).

(** ** frames from and to parameters *)

(** src/zeo_frame3d.c 105-118 *)
Definition zFrame3DTwist (f : frame3) (twist : vec6) : frame3 :=
  F3 (zVec3DAdd (fpos f) (lin twist)) (zMat3DRot (fatt f) (ang twist)).
Definition zFrame3DError (f1 f2 : frame3) : vec6 :=
  V6 (zVec3DSub (fpos f1) (fpos f2)) (zMat3DError (fatt f1) (fatt f2)).
(** src/zeo_frame3d.c 121-145 *)
Definition zFrame3DFromPosZYX (x y z azim elev tilt : R) : frame3 := F3 (V3 x y z) (zMat3DFromZYX azim elev tilt).
Definition zFrame3DFromPosZYZ (x y z heading pitch bank : R) : frame3 := F3 (V3 x y z) (zMat3DFromZYZ heading pitch bank).
Definition zFrame3DFromPosAA (x y z xa ya za : R) : frame3 := F3 (V3 x y z) (zMat3DFromAA (V3 xa ya za)).
(** src/zeo_frame3d.c 148-160 *)
Definition zFrame3DFromDH (a alpha d theta : R) : frame3 :=
  let sa := sin alpha in let ca := cos alpha in
  let st := sin theta in let ct := cos theta in
  F3 (V3 a (- d * sa) (d * ca))
     (zMat3DCreate ct (- st) 0
                   (ca * st) (ca * ct) (- sa)
                   (sa * st) (sa * ct) ca).
(** arrays of six values; src/zeo_frame3d.c 217-313.  The C functions write through
    [v->e], the array view of the 6D vector: elements 0-2 linear, 3-5 angular. *)
Definition zVec6DToFrame3DZYX (v : vec6) : frame3 :=
  zFrame3DFromPosZYX (vx (lin v)) (vy (lin v)) (vz (lin v)) (vx (ang v)) (vy (ang v)) (vz (ang v)).
Definition zFrame3DToVec6DZYX (f : frame3) : vec6 := V6 (fpos f) (zMat3DToZYX (fatt f)).
Definition zVec6DToFrame3DZYZ (v : vec6) : frame3 :=
  zFrame3DFromPosZYZ (vx (lin v)) (vy (lin v)) (vz (lin v)) (vx (ang v)) (vy (ang v)) (vz (ang v)).
Definition zFrame3DToVec6DZYZ (f : frame3) : vec6 := V6 (fpos f) (zMat3DToZYZ (fatt f)).
Definition zVec6DToFrame3DAA (v : vec6) : frame3 :=
  zFrame3DFromPosAA (vx (lin v)) (vy (lin v)) (vz (lin v)) (vx (ang v)) (vy (ang v)) (vz (ang v)).
Definition zFrame3DToVec6DAA (f : frame3) : vec6 := V6 (fpos f) (zMat3DToAA (fatt f)).

(** ** view frames *)

(** src/zeo_frame3d.c 163-171 *)
Definition zFrame3DTranslateView (f : frame3) (x y z : R) : frame3 :=
  F3 (zVec3DAdd (fpos f) (zMulMat3DVec3D (fatt f) (V3 x y z))) (fatt f).
(** src/zeo_frame3d.c 174-186: the test is on the value returned by the in-place
    normalisation, that is the former norm, 0 for a negligible axis *)
Definition zFrame3DRotateView (f : frame3) (angle x y z : R) : frame3 :=
  let '(l, aa) := zVec3DNormalizeDRC (V3 x y z) in
  if zIsTiny l then f
  else F3 (fpos f) (zMulMat3DMat3D (fatt f) (zMat3DFromAA (zVec3DMul aa angle))).
(** src/zeo_frame3d.c 189-201: the columns written are X, then Z, then Y; a failing
    normalisation leaves the column as it was, a failing orthogonalisation leaves
    the upper vector as it was *)
Definition zFrame3DLookAtView (f : frame3) (eyex eyey eyez cx cy cz upx upy upz : R) : frame3 :=
  let gazevec := V3 (eyex - cx) (eyey - cy) (eyez - cz) in
  let uppervec := V3 upx upy upz in
  let uppervec := match zVec3DOrthogonalize uppervec gazevec with Some u => u | None => uppervec end in
  let x := snd (zVec3DNormalize gazevec (bx (fatt f))) in
  let z := snd (zVec3DNormalize uppervec (bz (fatt f))) in
  F3 (V3 eyex eyey eyez) (of_b x (zVec3DOuterProd z x) z).
(** src/zeo_frame3d.c 204-214 *)
Definition zFrame3DGazeAndRotateView (f : frame3) (cx cy cz distance pan tilt roll : R) : frame3 :=
  let att := zMulMat3DMat3D (fatt f) (zMat3DFromZYX pan tilt roll) in
  F3 (zVec3DCat (V3 cx cy cz) distance (bx att)) att.

(** ** 6x6 matrices *)

(** zeo_mat6d.h 41-46: arguments are the blocks, row by row *)
Definition zMat6DCreate (m1 m2 m3 m4 : mat3) : mat6 := M6 m1 m3 m2 m4.
(** zeo_mat6d.h 30: the C++ constructor initialises the array [m] (order of storage) in the
    order of its arguments *)
Definition zMat6D_constructor (m11 m12 m21 m22 : mat3) : mat6 := M6 m11 m12 m21 m22.
(** the array views [m[k]] and [e[i][j]] of the union, zeo_mat6d.h 18-27 *)
Definition m6m (m : mat6) (k : Z) : mat3 :=
  match k with 0%Z => ll m | 1%Z => la m | 2%Z => al m | _ => aa m end.
(** zeo_mat6d.h 52: writes e[col][row] *)
Definition zMat6DPutMat3D (m : mat6) (row col : bool) (m3d : mat3) : mat6 :=
  match col, row with
  | false, false => M6 m3d (la m) (al m) (aa m)
  | false, true => M6 (ll m) m3d (al m) (aa m)
  | true, false => M6 (ll m) (la m) m3d (aa m)
  | true, true => M6 (ll m) (la m) (al m) m3d
  end.
(** zeo_mat6d.h 54-60 *)
Definition zMat6DZero : mat6 := M6 ZMAT3DZERO ZMAT3DZERO ZMAT3DZERO ZMAT3DZERO.
(** zeo_mat6d.h 63-69 (distinct arguments) *)
Definition zMat6DT (m : mat6) : mat6 :=
  M6 (zMat3DT (ll m)) (zMat3DT (al m)) (zMat3DT (la m)) (zMat3DT (aa m)).
(** [e[a][b]] of a 3x3 matrix: column a, row b (as in ModelMat) *)
(** src/zeo_mat6d.c 39-53 *)
Definition zMat6DRow (m : mat6) (i : Z) : option vec6 :=
  if (i <? 0)%Z || (i >? 5)%Z then None
  else let j := Z.to_nat (i mod 3) in
       let r k := V3 (me (m6m m k) 0 j) (me (m6m m k) 1 j) (me (m6m m k) 2 j) in
       Some (V6 (r (i / 3)%Z) (r (i / 3 + 2)%Z)).
(** src/zeo_mat6d.c 56-69 *)
Definition zMat6DCol (m : mat6) (i : Z) : option vec6 :=
  if (i <? 0)%Z || (i >? 5)%Z then None
  else let j := Z.to_nat (i mod 3) in
       let k := (i / 3 * 2)%Z in
       Some (V6 (zMat3DVec (m6m m k) j) (zMat3DVec (m6m m (k + 1)) j)).
(** zeo_mat6d.h 79-107, src/zeo_mat6d.c 72-135 *)
Definition zMat6DAdd (m1 m2 : mat6) : mat6 :=
  M6 (zMat3DAdd (ll m1) (ll m2)) (zMat3DAdd (la m1) (la m2)) (zMat3DAdd (al m1) (al m2)) (zMat3DAdd (aa m1) (aa m2)).
Definition zMat6DSub (m1 m2 : mat6) : mat6 :=
  M6 (zMat3DSub (ll m1) (ll m2)) (zMat3DSub (la m1) (la m2)) (zMat3DSub (al m1) (al m2)) (zMat3DSub (aa m1) (aa m2)).
Definition zMat6DMul (m : mat6) (k : R) : mat6 :=
  M6 (zMat3DMul (ll m) k) (zMat3DMul (la m) k) (zMat3DMul (al m) k) (zMat3DMul (aa m) k).
Definition zMat6DDiv (m : mat6) (k : R) : option mat6 := if Reqb k 0 then None else Some (zMat6DMul m (1 / k)).
(** src/zeo_mat6d.c 138-163 *)
Definition zMulMat6DVec6D (m : mat6) (v : vec6) : vec6 :=
  V6 (zVec3DAdd (zMulMat3DVec3D (ll m) (lin v)) (zMulMat3DVec3D (al m) (ang v)))
     (zVec3DAdd (zMulMat3DVec3D (la m) (lin v)) (zMulMat3DVec3D (aa m) (ang v))).
Definition zMulMat6DTVec6D (m : mat6) (v : vec6) : vec6 :=
  V6 (zVec3DAdd (zMulMat3DTVec3D (ll m) (lin v)) (zMulMat3DTVec3D (la m) (ang v)))
     (zVec3DAdd (zMulMat3DTVec3D (al m) (lin v)) (zMulMat3DTVec3D (aa m) (ang v))).
(** src/zeo_mat6d.c 166-183 *)
Definition zMulMat6DMat6D (m1 m2 : mat6) : mat6 :=
  M6 (zMat3DAdd (zMulMat3DMat3D (ll m1) (ll m2)) (zMulMat3DMat3D (al m1) (la m2)))
     (zMat3DAdd (zMulMat3DMat3D (la m1) (ll m2)) (zMulMat3DMat3D (aa m1) (la m2)))
     (zMat3DAdd (zMulMat3DMat3D (ll m1) (al m2)) (zMulMat3DMat3D (al m1) (aa m2)))
     (zMat3DAdd (zMulMat3DMat3D (la m1) (al m2)) (zMulMat3DMat3D (aa m1) (aa m2))).
(** src/zeo_mat6d.c 186-203 *)
Definition zMulMat6DTMat6D (m1 m2 : mat6) : mat6 :=
  M6 (zMat3DAdd (zMulMat3DTMat3D (ll m1) (ll m2)) (zMulMat3DTMat3D (la m1) (la m2)))
     (zMat3DAdd (zMulMat3DTMat3D (al m1) (ll m2)) (zMulMat3DTMat3D (aa m1) (la m2)))
     (zMat3DAdd (zMulMat3DTMat3D (ll m1) (al m2)) (zMulMat3DTMat3D (la m1) (aa m2)))
     (zMat3DAdd (zMulMat3DTMat3D (al m1) (al m2)) (zMulMat3DTMat3D (aa m1) (aa m2))).
(** src/zeo_mat6d.c 206-223 *)
Definition zMulMat6DMat6DT (m1 m2 : mat6) : mat6 :=
  M6 (zMat3DAdd (zMulMat3DMat3DT (ll m1) (ll m2)) (zMulMat3DMat3DT (al m1) (al m2)))
     (zMat3DAdd (zMulMat3DMat3DT (la m1) (ll m2)) (zMulMat3DMat3DT (aa m1) (al m2)))
     (zMat3DAdd (zMulMat3DMat3DT (ll m1) (la m2)) (zMulMat3DMat3DT (al m1) (aa m2)))
     (zMat3DAdd (zMulMat3DMat3DT (la m1) (la m2)) (zMulMat3DMat3DT (aa m1) (aa m2))).
(** zeo_mat6d.h 163-169 *)
Definition zMat6DDyad (v1 v2 : vec6) : mat6 :=
  M6 (zMat3DDyad (lin v1) (lin v2)) (zMat3DDyad (ang v1) (lin v2))
     (zMat3DDyad (lin v1) (ang v2)) (zMat3DDyad (ang v1) (ang v2)).
(** src/zeo_mat6d.c 233-257: the six printed lines of six numbers (number formatting not modelled) *)
Definition zMat6DFPrint (m : mat6) : list (list R) :=
  [ [cxx (ll m); cyx (ll m); czx (ll m); cxx (la m); cyx (la m); czx (la m)];
    [cxy (ll m); cyy (ll m); czy (ll m); cxy (la m); cyy (la m); czy (la m)];
    [cxz (ll m); cyz (ll m); czz (ll m); cxz (la m); cyz (la m); czz (la m)];
    [cxx (al m); cyx (al m); czx (al m); cxx (aa m); cyx (aa m); czx (aa m)];
    [cxy (al m); cyy (al m); czy (al m); cxy (aa m); cyy (aa m); czy (aa m)];
    [cxz (al m); cyz (al m); czz (al m); cxz (aa m); cyz (aa m); czz (aa m)] ].
