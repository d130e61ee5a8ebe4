(** Model of src/zeo_misc.c, zeo_vec2d.[hc], zeo_vec3d.[hc].
    Output arguments become results.  [option] stands for a pointer result
    ([None] = NULL, output left unwritten). *)
From Coq Require Import String.
From Verif Require Export Spec.
Open Scope R_scope.

(** ** zeo_misc *)

(** src/zeo_misc.c 9, 34-36 (the NULL terminator ends the list) *)
Definition zaxisname : list string := ["x"; "y"; "z"; "tilt"; "elev"; "azim"]%string.
Definition zdirname : list string :=
  ["none"; "right"; "left"; "forward"; "backward"; "up"; "down"; "cw"; "ccw"]%string.

(** src/zeo_misc.c 12-19: zAxisStr; enum values zX = 0 .. zZA = 5 (zeo_misc.h) *)
Definition zAxisStr (axis : Z) : option string :=
  if ((axis <? 0) || (axis >? 5))%Z then None else nth_error zaxisname (Z.to_nat axis).

(** src/zeo_misc.c 28-29, 55-56: the search loop shared by both functions *)
Fixpoint zNameSearch (str : string) (names : list string) (idx : Z) : option Z :=
  match names with
  | nil => None
  | n :: rest => if String.eqb str n then Some idx else zNameSearch str rest (idx + 1)%Z
  end.

(** src/zeo_misc.c 22-32: zAxisFromStr ([None] argument = NULL pointer); zAxisInvalid = -1 *)
Definition zAxisFromStr (str : option string) : Z :=
  match str with
  | None => -1
  | Some s => match zNameSearch s zaxisname 0 with Some a => a | None => -1 end
  end.

(** src/zeo_misc.c 39-46: zDirStr; ZEO_DIR_NONE = 0 .. ZEO_DIR_CCW = 8 *)
Definition zDirStr (dir : Z) : option string :=
  if ((dir <? 0) || (dir >? 8))%Z then None else nth_error zdirname (Z.to_nat dir).

(** src/zeo_misc.c 49-59: zDirFromStr *)
Definition zDirFromStr (str : option string) : Z :=
  match str with
  | None => 0
  | Some s => match zNameSearch s zdirname 0 with Some a => a | None => 0 end
  end.

(** src/zeo_misc.c 62-65: zDirRev (C remainder) *)
Definition zDirRev (dir : Z) : Z :=
  if (dir =? 0)%Z then 0%Z else (1 + dir - Z.rem (dir + 1) 2 * 2)%Z.

(** ** zeo_vec2d *)

(** zeo_vec2d.h: _zVec2DIsTol, componentwise *)
Definition zVec2DIsTol (v : vec2) (tol : R) : bool := zIsTol (x2 v) tol && zIsTol (y2 v) tol.
Definition zVec2DIsTiny (v : vec2) : bool := zVec2DIsTol v zTOL.
(** zeo_vec2d.h arithmetic macros *)
Definition zVec2DAdd (v1 v2 : vec2) : vec2 := V2 (x2 v1 + x2 v2) (y2 v1 + y2 v2).
Definition zVec2DSub (v1 v2 : vec2) : vec2 := V2 (x2 v1 - x2 v2) (y2 v1 - y2 v2).
Definition zVec2DRev (v : vec2) : vec2 := V2 (- x2 v) (- y2 v).
Definition zVec2DMul (v : vec2) (k : R) : vec2 := V2 (k * x2 v) (k * y2 v).
Definition zVec2DCat (v1 : vec2) (k : R) (v2 : vec2) : vec2 := V2 (x2 v1 + k * x2 v2) (y2 v1 + k * y2 v2).
Definition zVec2DInnerProd (v1 v2 : vec2) : R := x2 v1 * x2 v2 + y2 v1 * y2 v2.
Definition zVec2DOuterProd (v1 v2 : vec2) : R := x2 v1 * y2 v2 - y2 v1 * x2 v2.
Definition zVec2DSqrNorm (v : vec2) : R := zVec2DInnerProd v v.
Definition zVec2DNorm (v : vec2) : R := sqrt (zVec2DSqrNorm v).
(** src/zeo_vec2d.c 211-216 *)
Definition zVec2DSqrDist (v1 v2 : vec2) : R := zVec2DSqrNorm (zVec2DSub v1 v2).
Definition zVec2DDist (v1 v2 : vec2) : R := sqrt (zVec2DSqrDist v1 v2).
(** src/zeo_vec2d.c 99-108 *)
Definition zVec2DDiv (v : vec2) (k : R) : option vec2 :=
  if Reqb k 0 then None else Some (zVec2DMul v (1 / k)).
(** src/zeo_vec2d.c 219-226: no check; caller must guarantee a non-zero vector *)
Definition zVec2DNormalizeNC (v : vec2) : R * vec2 :=
  let l := zVec2DNorm v in (l, zVec2DMul v (1 / l)).
(** src/zeo_vec2d.c 229-240: returns (value, content of nv) given old content *)
Definition zVec2DNormalize (v old : vec2) : R * vec2 :=
  if zVec2DIsTiny v then (-1, old)
  else let l := zVec2DNorm v in (l, zVec2DMul v (1 / l)).
(** src/zeo_vec2d.c 247-258 (non-aliased result) *)
Definition zVec2DInterDiv (v1 v2 : vec2) (ratio : R) : vec2 := zVec2DCat v1 ratio (zVec2DSub v2 v1).
Definition zVec2DMid (v1 v2 : vec2) : vec2 := zVec2DInterDiv v1 v2 (1/2).
(** src/zeo_vec2d.c 261-264 *)
Definition zVec2DAngle (v1 v2 : vec2) : R := atan2 (zVec2DOuterProd v1 v2) (zVec2DInnerProd v1 v2).
(** src/zeo_vec2d.c 267-274 *)
Definition zVec2DProj (v n : vec2) : option vec2 :=
  let '(r, d) := zVec2DNormalize n v2zero in
  if Rltb r 0 then None else Some (zVec2DMul d (zVec2DInnerProd d v)).
(** src/zeo_vec2d.c 277-284 (non-aliased result) *)
Definition zVec2DRot (v : vec2) (angle : R) : vec2 :=
  let s := sin angle in let c := cos angle in
  V2 (c * x2 v - s * y2 v) (s * x2 v + c * y2 v).
(** zeo_vec2d.h 381-382 *)
Definition zVec2DRot90CW (v : vec2) : vec2 := V2 (y2 v) (- x2 v).
Definition zVec2DRot90CCW (v : vec2) : vec2 := V2 (- y2 v) (x2 v).

(** ** zeo_vec3d *)

(** src/zeo_vec3d.c 30-40: polar coordinates *)
Definition zVec3DCreatePolar (r theta phi : R) : vec3 :=
  let rs := r * sin theta in V3 (rs * cos phi) (rs * sin phi) (r * cos theta).
(** zeo_vec3d.h 133 *)
Definition zVec3DEqual (v1 v2 : vec3) : bool :=
  zIsTiny (vx v1 - vx v2) && zIsTiny (vy v1 - vy v2) && zIsTiny (vz v1 - vz v2).
(** zeo_vec3d.h 153-156 *)
Definition zVec3DIsTol (v : vec3) (tol : R) : bool :=
  zIsTol (vx v) tol && zIsTol (vy v) tol && zIsTol (vz v) tol.
Definition zVec3DIsTiny (v : vec3) : bool := zVec3DIsTol v zTOL.
(** zeo_vec3d.h 215-316 *)
Definition zVec3DAdd (v1 v2 : vec3) : vec3 := V3 (vx v1 + vx v2) (vy v1 + vy v2) (vz v1 + vz v2).
Definition zVec3DSub (v1 v2 : vec3) : vec3 := V3 (vx v1 - vx v2) (vy v1 - vy v2) (vz v1 - vz v2).
Definition zVec3DRev (v : vec3) : vec3 := V3 (- vx v) (- vy v) (- vz v).
Definition zVec3DMul (v : vec3) (k : R) : vec3 := V3 (k * vx v) (k * vy v) (k * vz v).
Definition zVec3DAmp (v a : vec3) : vec3 := V3 (vx a * vx v) (vy a * vy v) (vz a * vz v).
Definition zVec3DDem (v d : vec3) : vec3 := V3 (vx v / vx d) (vy v / vy d) (vz v / vz d).
Definition zVec3DCat (v1 : vec3) (k : R) (v2 : vec3) : vec3 :=
  V3 (vx v1 + k * vx v2) (vy v1 + k * vy v2) (vz v1 + k * vz v2).
(** src/zeo_vec3d.c 105-114 *)
Definition zVec3DDiv (v : vec3) (k : R) : option vec3 :=
  if Reqb k 0 then None else Some (zVec3DMul v (1 / k)).
(** zeo_vec3d.h 346-366 *)
Definition zVec3DInnerProd (v1 v2 : vec3) : R := vx v1 * vx v2 + vy v1 * vy v2 + vz v1 * vz v2.
Definition zVec3DOuterProd (v1 v2 : vec3) : vec3 :=
  V3 (vy v1 * vz v2 - vz v1 * vy v2) (vz v1 * vx v2 - vx v1 * vz v2) (vx v1 * vy v2 - vy v1 * vx v2).
(** zeo_vec3d.h 376-398; src/zeo_vec3d.c 205-256 *)
Definition zVec3DSqrNorm (v : vec3) : R := zVec3DInnerProd v v.
Definition zVec3DNorm (v : vec3) : R := sqrt (zVec3DSqrNorm v).
Definition zVec3DOuterProdNorm (v1 v2 : vec3) : R := zVec3DNorm (zVec3DOuterProd v1 v2).
Definition zVec3DGrassmannProd (v1 v2 v3 : vec3) : R :=
  zVec3DInnerProd v1 (zVec3DOuterProd v2 v3).
Definition zVec3DTripleProd (v1 v2 v3 : vec3) : vec3 := zVec3DOuterProd v1 (zVec3DOuterProd v2 v3).
Definition zVec3DWSqrNorm (v w : vec3) : R := vx v * vx v * vx w + vy v * vy v * vy w + vz v * vz v * vz w.
Definition zVec3DSqrDist (v1 v2 : vec3) : R := zVec3DSqrNorm (zVec3DSub v1 v2).
Definition zVec3DDist (v1 v2 : vec3) : R := sqrt (zVec3DSqrDist v1 v2).
(** src/zeo_vec3d.c 259-270: no check *)
Definition zVec3DNormalizeNC (v : vec3) : R * vec3 :=
  let l := zVec3DNorm v in (l, zVec3DMul v (1 / l)).
(** src/zeo_vec3d.c 273-280: (value, content of nv) given old content *)
Definition zVec3DNormalize (v old : vec3) : R * vec3 :=
  if zVec3DIsTiny v then (0, old)
  else let l := zVec3DNorm v in (l, zVec3DMul v (1 / l)).
(** zeo_vec3d.h 423: in place *)
Definition zVec3DNormalizeDRC (v : vec3) : R * vec3 := zVec3DNormalize v v.
(** zeo_vec3d.h 443-454 *)
Definition zVec3DInterDiv (v1 v2 : vec3) (r : R) : vec3 :=
  V3 (vx v1 + r * (vx v2 - vx v1)) (vy v1 + r * (vy v2 - vy v1)) (vz v1 + r * (vz v2 - vz v1)).
Definition zVec3DMid (v1 v2 : vec3) : vec3 :=
  V3 (0.5 * (vx v1 + vx v2)) (0.5 * (vy v1 + vy v2)) (0.5 * (vz v1 + vz v2)).
(** src/zeo_vec3d.c 301-311 ([None] = no reference axis) *)
Definition zVec3DAngle (v1 v2 : vec3) (n : option vec3) : R :=
  let c := zVec3DInnerProd v1 v2 in
  let d := zVec3DOuterProd v1 v2 in
  let s := zVec3DNorm d in
  let s := match n with
           | Some n => if Rltb (zVec3DInnerProd d n) 0 then - s else s
           | None => s
           end in
  atan2 s c.
(** src/zeo_vec3d.c 314-328 *)
Definition zVec3DAAError (v1 v2 : vec3) : vec3 :=
  let d := zVec3DOuterProd v1 v2 in
  if zVec3DIsTiny d then v3zero
  else let c := zVec3DInnerProd v1 v2 in
       let s := zVec3DNorm d in
       zVec3DMul d (atan2 s c / s).
(** src/zeo_vec3d.c 331-342 *)
Definition zVec3DProj (v n : vec3) : option vec3 :=
  if zVec3DIsTiny n then None
  else Some (zVec3DMul n (zVec3DInnerProd n v / zVec3DSqrNorm n)).
(** src/zeo_vec3d.c 345-357.  On failure the output holds the unnormalised
    vector; [None] abstracts from that content. *)
Definition zVec3DOrthonormal (v : vec3) : option vec3 :=
  let ov := if negb (zIsTiny (vx v)) || negb (zIsTiny (vy v))
            then V3 (vy v) (- vx v) 0
            else V3 (vy v - vz v) (vz v - vx v) (vx v - vy v) in
  if zVec3DIsTiny ov then None else Some (snd (zVec3DNormalizeDRC ov)).
(** src/zeo_vec3d.c 360-371 *)
Definition zVec3DOrthogonalize (v n : vec3) : option vec3 :=
  if zVec3DIsTiny n then None
  else Some (zVec3DCat v (- zVec3DInnerProd n v / zVec3DSqrNorm n) n).
(** src/zeo_vec3d.c 374-379: (sv1, sv2) *)
Definition zVec3DOrthoSpace (v : vec3) : option (vec3 * vec3) :=
  match zVec3DOrthonormal v with
  | None => None
  | Some sv1 => Some (sv1, zVec3DOuterProd v sv1)
  end.
(** src/zeo_vec3d.c 382-389: (v, sv1, sv2) *)
Definition zVec3DOrthonormalSpace (v : vec3) : option (vec3 * vec3 * vec3) :=
  match zVec3DOrthoSpace v with
  | None => None
  | Some (sv1, sv2) =>
      Some (snd (zVec3DNormalizeDRC v), snd (zVec3DNormalizeDRC sv1), snd (zVec3DNormalizeDRC sv2))
  end.
(** src/zeo_vec3d.c 392-406.  zVec3DProj is applied to a unit vector and its
    status is ignored by the code; [v0] stays uninitialised if it fails, which
    the model marks by [None]. *)
Definition zVec3DRot (v aa : vec3) : option vec3 :=
  if zVec3DIsTiny aa then Some v
  else
    let '(angle, n) := zVec3DNormalize aa v3zero in
    match zVec3DProj v n with
    | None => None
    | Some v0 =>
        let v1 := zVec3DSub v v0 in
        let v2 := zVec3DOuterProd n v in
        let s := sin angle in let c := cos angle in
        Some (zVec3DCat (zVec3DCat v0 c v1) s v2)
    end.
(** src/zeo_vec3d.c 413-417: differentiation; zVec3DDivDRC returns NULL if dt = 0 *)
Definition zVec3DDif (v vnew : vec3) (dt : R) : option vec3 := zVec3DDiv (zVec3DSub vnew v) dt.
(** src/zeo_vec3d.c 420-436 *)
Definition zZYXVelToAngVelSC (zyxvel : vec3) (sa ca sb cb : R) : vec3 :=
  V3 (- sa * vy zyxvel + ca * cb * vz zyxvel)
     (ca * vy zyxvel + sa * cb * vz zyxvel)
     (vx zyxvel - sb * vz zyxvel).
Definition zZYXVelToAngVel (zyxvel zyx : vec3) : vec3 :=
  zZYXVelToAngVelSC zyxvel (sin (vx zyx)) (cos (vx zyx)) (sin (vy zyx)) (cos (vy zyx)).
(** src/zeo_vec3d.c 439-460: [old] is the previous content of the output *)
Definition zAngVelToZYXVelSC (angvel : vec3) (sa ca sb cb : R) (old : vec3) : vec3 :=
  if zIsTiny cb then old
  else let w := (ca * vx angvel + sa * vy angvel) / cb in
       V3 (w * sb + vz angvel) (- sa * vx angvel + ca * vy angvel) w.
Definition zAngVelToZYXVel (angvel zyx old : vec3) : vec3 :=
  zAngVelToZYXVelSC angvel (sin (vx zyx)) (cos (vx zyx)) (sin (vy zyx)) (cos (vy zyx)) old.
(** src/zeo_vec3d.c 463-479 *)
Definition zZYZVelToAngVelSC (zyzvel : vec3) (sa ca sb cb : R) : vec3 :=
  V3 (- sa * vy zyzvel + ca * sb * vz zyzvel)
     (ca * vy zyzvel + sa * sb * vz zyzvel)
     (vx zyzvel + cb * vz zyzvel).
Definition zZYZVelToAngVel (zyzvel zyz : vec3) : vec3 :=
  zZYZVelToAngVelSC zyzvel (sin (vx zyz)) (cos (vx zyz)) (sin (vy zyz)) (cos (vy zyz)).
(** src/zeo_vec3d.c 482-503 *)
Definition zAngVelToZYZVelSC (angvel : vec3) (sa ca sb cb : R) (old : vec3) : vec3 :=
  if zIsTiny sb then old
  else let w := (ca * vx angvel + sa * vy angvel) / sb in
       V3 (vz angvel - w * cb) (- sa * vx angvel + ca * vy angvel) w.
Definition zAngVelToZYZVel (angvel zyz old : vec3) : vec3 :=
  zAngVelToZYZVelSC angvel (sin (vx zyz)) (cos (vx zyz)) (sin (vy zyz)) (cos (vy zyz)) old.
