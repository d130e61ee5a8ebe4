(** Model of 2x2 matrices, 2D coordinates and 2D frames. *)
From Verif Require Export ModelVec Spec.
Open Scope R_scope.

(** zeo_mat2d.h 100-104: arguments row by row *)
Definition zMat2DCreate (a11 a12 a21 a22 : R) : mat2 := M2 a11 a21 a12 a22.
(** src/zeo_mat2d.c 26-32 *)
Definition zMat2DCreateAngle (angle : R) : mat2 := zMat2DCreate (cos angle) (- sin angle) (sin angle) (cos angle).
Definition b2x (m : mat2) : vec2 := V2 (dxx m) (dxy m).
Definition b2y (m : mat2) : vec2 := V2 (dyx m) (dyy m).
(** zeo_mat2d.h 156-157 *)
Definition zMat2DRow (m : mat2) (i : nat) : vec2 := match i with 0%nat => V2 (dxx m) (dyx m) | _ => V2 (dxy m) (dyy m) end.
(** zeo_mat2d.h 165-171 (distinct arguments), and in place by a swap *)
Definition zMat2DT (m : mat2) : mat2 :=
  M2 (x2 (zMat2DRow m 0)) (y2 (zMat2DRow m 0)) (x2 (zMat2DRow m 1)) (y2 (zMat2DRow m 1)).
Definition zMat2DTDRC (m : mat2) : mat2 := M2 (dxx m) (dyx m) (dxy m) (dyy m).
(** zeo_mat2d.h 214-223 *)
Definition zMat2DAdd (m1 m2 : mat2) : mat2 :=
  zMat2DCreate (dxx m1 + dxx m2) (dyx m1 + dyx m2) (dxy m1 + dxy m2) (dyy m1 + dyy m2).
Definition zMat2DSub (m1 m2 : mat2) : mat2 :=
  zMat2DCreate (dxx m1 - dxx m2) (dyx m1 - dyx m2) (dxy m1 - dxy m2) (dyy m1 - dyy m2).
Definition zMat2DMul (m : mat2) (k : R) : mat2 :=
  zMat2DCreate (k * dxx m) (k * dyx m) (k * dxy m) (k * dyy m).
(** src/zeo_mat2d.c 113-122 *)
Definition zMat2DDiv (m : mat2) (k : R) : option mat2 := if Reqb k 0 then None else Some (zMat2DMul m (1 / k)).
(** zeo_mat2d.h 254-256 *)
Definition zMat2DDyad (v1 v2 : vec2) : mat2 :=
  zMat2DCreate (x2 v1 * x2 v2) (x2 v1 * y2 v2) (y2 v1 * x2 v2) (y2 v1 * y2 v2).
(** zeo_mat2d.h 281-291 *)
Definition zMat2DDet (m : mat2) : R := dxx m * dyy m - dyx m * dxy m.
Definition zMat2DAdj (m : mat2) : mat2 := zMat2DCreate (dyy m) (- dyx m) (- dxy m) (dxx m).
(** src/zeo_mat2d.c 162-174 *)
Definition zMat2DInv (m : mat2) : option mat2 :=
  let det := zMat2DDet m in
  if zIsTiny det then None else Some (zMat2DMul (zMat2DAdj m) (1 / det)).
(** src/zeo_mat2d.c 181-213 and the macros zeo_mat2d.h 318-350 *)
Definition zMulMat2DVec2D (m : mat2) (v : vec2) : vec2 :=
  V2 (dxx m * x2 v + dyx m * y2 v) (dxy m * x2 v + dyy m * y2 v).
Definition zMulMat2DTVec2D (m : mat2) (v : vec2) : vec2 :=
  V2 (dxx m * x2 v + dxy m * y2 v) (dyx m * x2 v + dyy m * y2 v).
Definition zMulAdjMat2DVec2D (m : mat2) (v : vec2) : vec2 :=
  V2 (dyy m * x2 v - dyx m * y2 v) (- dxy m * x2 v + dxx m * y2 v).
(** src/zeo_mat2d.c 216-228 *)
Definition zMulInvMat2DVec2D (m : mat2) (v : vec2) : option vec2 :=
  let det := zMat2DDet m in
  if zIsTiny det then None else Some (zVec2DMul (zMulAdjMat2DVec2D m v) (1 / det)).
Definition of_b2 (x y : vec2) : mat2 := M2 (x2 x) (y2 x) (x2 y) (y2 y).
(** src/zeo_mat2d.c 235-266 *)
Definition zMulMat2DMat2D (m1 m2 : mat2) : mat2 := of_b2 (zMulMat2DVec2D m1 (b2x m2)) (zMulMat2DVec2D m1 (b2y m2)).
Definition zMulMat2DTMat2D (m1 m2 : mat2) : mat2 := of_b2 (zMulMat2DTVec2D m1 (b2x m2)) (zMulMat2DTVec2D m1 (b2y m2)).
Definition zMulMat2DMat2DT (m1 m2 : mat2) : mat2 :=
  M2 (dxx m1 * dxx m2 + dyx m1 * dyx m2) (dxy m1 * dxx m2 + dyy m1 * dyx m2)
     (dxx m1 * dxy m2 + dyx m1 * dyy m2) (dxy m1 * dxy m2 + dyy m1 * dyy m2).
(** src/zeo_mat2d.c 269-282 *)
Definition zMulInvMat2DMat2D (m1 m2 : mat2) : option mat2 :=
  let det := zMat2DDet m1 in
  if zIsTiny det then None
  else Some (zMat2DMul (of_b2 (zMulAdjMat2DVec2D m1 (b2x m2)) (zMulAdjMat2DVec2D m1 (b2y m2))) (1 / det)).
(** zeo_mat2d.h 417 *)
Definition zMat2DAngle (m : mat2) : R := atan2 (dxy m - dyx m) (dxx m + dyy m).
(** zeo_mat2d.h 431-438, src/zeo_mat2d.c 295-308 *)
Definition zMat2DRotSC (m : mat2) (s c : R) : mat2 :=
  zMat2DCreate (c * dxx m - s * dxy m) (c * dyx m - s * dyy m) (s * dxx m + c * dxy m) (s * dyx m + c * dyy m).
Definition zMat2DRot (m : mat2) (theta : R) : mat2 := zMat2DRotSC m (sin theta) (cos theta).
(** zeo_mat2d.h 446-449 *)
Definition zMat2DError (m1 m2 : mat2) : R :=
  atan2 (dxx m2 * dxy m1 + dyx m2 * dyy m1 - dxy m2 * dxx m1 - dyy m2 * dyx m1)
        (dxx m2 * dxx m1 + dyx m2 * dyx m1 + dxy m2 * dxy m1 + dyy m2 * dyy m1).

(** ** 2D coordinates *)

(** src/zeo_coord2d.c 59-68 *)
Definition zCoord2DMul (c : coord2) (k : R) : coord2 := C2 (zVec2DMul (cpos2 c) k) (k * cang2 c).
Definition zCoord2DDiv (c : coord2) (k : R) : option coord2 := if Reqb k 0 then None else Some (zCoord2DMul c (1 / k)).
(** src/zeo_coord2d.c 118-123 *)
Definition zCoord2DInterDiv (c1 c2 : coord2) (ratio : R) : coord2 :=
  C2 (zVec2DInterDiv (cpos2 c1) (cpos2 c2) ratio) (cang2 c1 + ratio * (cang2 c2 - cang2 c1)).
(** src/zeo_coord2d.c 126-134 *)
Definition zCoord2DXform (src target : coord2) : coord2 :=
  C2 (zVec2DRot (zVec2DSub (cpos2 target) (cpos2 src)) (- cang2 src)) (cang2 target - cang2 src).
(** src/zeo_coord2d.c 137-143 (dest distinct from src) *)
Definition zCoord2DCascade (src xform : coord2) : coord2 :=
  C2 (zVec2DAdd (zVec2DRot (cpos2 xform) (cang2 src)) (cpos2 src)) (cang2 src + cang2 xform).

(** ** 2D frames *)

(** src/zeo_frame2d.c 25-30 *)
Definition zFrame2DCreateAngle (p : vec2) (angle : R) : frame2 := F2 p (zMat2DCreateAngle angle).
(** zeo_frame2d.h 117-127 *)
Definition zXform2D (f : frame2) (v : vec2) : vec2 := zVec2DAdd (zMulMat2DVec2D (fatt2 f) v) (fpos2 f).
Definition zXform2DInv (f : frame2) (v : vec2) : vec2 := zMulMat2DTVec2D (fatt2 f) (zVec2DSub v (fpos2 f)).
(** zeo_frame2d.h 153-170 *)
Definition zFrame2DInv (f : frame2) : frame2 :=
  let att := zMat2DT (fatt2 f) in F2 (zVec2DRev (zMulMat2DVec2D att (fpos2 f))) att.
Definition zFrame2DCascade (f1 f2 : frame2) : frame2 :=
  F2 (zXform2D f1 (fpos2 f2)) (zMulMat2DMat2D (fatt2 f1) (fatt2 f2)).
Definition zFrame2DXform (f1 f2 : frame2) : frame2 :=
  F2 (zXform2DInv f1 (fpos2 f2)) (zMulMat2DTMat2D (fatt2 f1) (fatt2 f2)).
(** src/zeo_frame2d.c 87-98 *)
Definition zFrame2DFromCoord2D (c : coord2) : frame2 := zFrame2DCreateAngle (cpos2 c) (cang2 c).
Definition zCoord2DFromFrame2D (f : frame2) : coord2 := C2 (fpos2 f) (zMat2DAngle (fatt2 f)).
