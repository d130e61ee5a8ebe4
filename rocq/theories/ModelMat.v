(** Model of include/zeo/zeo_mat3d.h and src/zeo_mat3d.c (all but the
    power-iteration eigenvalue functions, which use random numbers, and I/O). *)
From Verif Require Export ModelVec.
Open Scope R_scope.

(** ** element access: [me m a b] is m->e[a][b] (column a, row b) *)
Definition vset (v : vec3) (i : nat) (x : R) : vec3 :=
  match i with
  | 0%nat => V3 x (vy v) (vz v)
  | 1%nat => V3 (vx v) x (vz v)
  | _ => V3 (vx v) (vy v) x
  end.
Definition ve (v : vec3) (i : nat) : R :=
  match i with 0%nat => vx v | 1%nat => vy v | _ => vz v end.
(** m->b.x, m->b.y, m->b.z / m->v[i] *)
Definition bx (m : mat3) : vec3 := V3 (cxx m) (cxy m) (cxz m).
Definition by_ (m : mat3) : vec3 := V3 (cyx m) (cyy m) (cyz m).
Definition bz (m : mat3) : vec3 := V3 (czx m) (czy m) (czz m).
Definition zMat3DVec (m : mat3) (axis : nat) : vec3 :=
  match axis with 0%nat => bx m | 1%nat => by_ m | _ => bz m end.
Definition of_b (x y z : vec3) : mat3 :=
  M3 (vx x) (vy x) (vz x) (vx y) (vy y) (vz y) (vx z) (vy z) (vz z).
Definition set_vec (m : mat3) (axis : nat) (v : vec3) : mat3 :=
  match axis with
  | 0%nat => of_b v (by_ m) (bz m)
  | 1%nat => of_b (bx m) v (bz m)
  | _ => of_b (bx m) (by_ m) v
  end.
Definition me (m : mat3) (a b : nat) : R := ve (zMat3DVec m a) b.
Definition mset (m : mat3) (a b : nat) (x : R) : mat3 := set_vec m a (vset (zMat3DVec m a) b x).

(** zeo_mat3d.h 119-123: arguments row by row *)
Definition zMat3DCreate a11 a12 a13 a21 a22 a23 a31 a32 a33 : mat3 :=
  of_b (V3 a11 a21 a31) (V3 a12 a22 a32) (V3 a13 a23 a33).
(** src/zeo_mat3d.c 14-15 *)
Definition ZMAT3DZERO : mat3 := of_b (V3 0 0 0) (V3 0 0 0) (V3 0 0 0).
Definition ZMAT3DIDENT : mat3 := of_b (V3 1 0 0) (V3 0 1 0) (V3 0 0 1).
(** zeo_mat3d.h 178 *)
Definition zMat3DRow (m : mat3) (i : nat) : vec3 := V3 (me m 0 i) (me m 1 i) (me m 2 i).
(** zeo_mat3d.h 194-198: to a different object *)
Definition zMat3DT (m : mat3) : mat3 := of_b (zMat3DRow m 0) (zMat3DRow m 1) (zMat3DRow m 2).
(** zeo_mat3d.h 199-204: in place, by three swaps *)
Definition zMat3DTDRC (m : mat3) : mat3 :=
  let tmp := me m 1 0 in let m := mset m 1 0 (me m 0 1) in let m := mset m 0 1 tmp in
  let tmp := me m 2 0 in let m := mset m 2 0 (me m 0 2) in let m := mset m 0 2 tmp in
  let tmp := me m 2 1 in let m := mset m 2 1 (me m 1 2) in let m := mset m 1 2 tmp in
  m.
(** zeo_mat3d.h 264-326 *)
Definition zMat3DAdd (m1 m2 : mat3) : mat3 :=
  of_b (zVec3DAdd (bx m1) (bx m2)) (zVec3DAdd (by_ m1) (by_ m2)) (zVec3DAdd (bz m1) (bz m2)).
Definition zMat3DSub (m1 m2 : mat3) : mat3 :=
  of_b (zVec3DSub (bx m1) (bx m2)) (zVec3DSub (by_ m1) (by_ m2)) (zVec3DSub (bz m1) (bz m2)).
Definition zMat3DRev (m : mat3) : mat3 := of_b (zVec3DRev (bx m)) (zVec3DRev (by_ m)) (zVec3DRev (bz m)).
Definition zMat3DMul (m : mat3) (k : R) : mat3 :=
  of_b (zVec3DMul (bx m) k) (zVec3DMul (by_ m) k) (zVec3DMul (bz m) k).
(** src/zeo_mat3d.c 130-139 *)
Definition zMat3DDiv (m : mat3) (k : R) : option mat3 :=
  if Reqb k 0 then None else Some (zMat3DMul m (1 / k)).
Definition zMat3DCat (m1 : mat3) (k : R) (m2 : mat3) : mat3 :=
  of_b (zVec3DCat (bx m1) k (bx m2)) (zVec3DCat (by_ m1) k (by_ m2)) (zVec3DCat (bz m1) k (bz m2)).
(** zeo_mat3d.h 336-370 *)
Definition zMat3DDyad (v1 v2 : vec3) : mat3 :=
  of_b (zVec3DMul v1 (vx v2)) (zVec3DMul v1 (vy v2)) (zVec3DMul v1 (vz v2)).
Definition zMat3DAddDyad (m : mat3) (v1 v2 : vec3) : mat3 :=
  of_b (zVec3DCat (bx m) (vx v2) v1) (zVec3DCat (by_ m) (vy v2) v1) (zVec3DCat (bz m) (vz v2) v1).
Definition zMat3DSubDyad (m : mat3) (v1 v2 : vec3) : mat3 :=
  of_b (zVec3DCat (bx m) (- vx v2) v1) (zVec3DCat (by_ m) (- vy v2) v1) (zVec3DCat (bz m) (- vz v2) v1).
(** zeo_mat3d.h 390-394 *)
Definition zVec3DOuterProdToMat3D (vo : vec3) : mat3 :=
  zMat3DCreate 0 (- vz vo) (vy vo) (vz vo) 0 (- vx vo) (- vy vo) (vx vo) 0.
(** zeo_mat3d.h 396-400 *)
Definition zVec3DTripleProdToMat3D (v1 v2 : vec3) : mat3 :=
  zMat3DCreate
    (- vy v1 * vy v2 - vz v1 * vz v2) (vy v1 * vx v2) (vz v1 * vx v2)
    (vx v1 * vy v2) (- vz v1 * vz v2 - vx v1 * vx v2) (vz v1 * vy v2)
    (vx v1 * vz v2) (vy v1 * vz v2) (- vx v1 * vx v2 - vy v1 * vy v2).
(** zeo_mat3d.h 402-413 *)
Definition zVec3DDoubleOuterProdToMat3D (v : vec3) : mat3 :=
  let xx := vx v * vx v in let yy := vy v * vy v in let zz := vz v * vz v in
  M3 (- yy - zz) (vx v * vy v) (vz v * vx v)
     (vx v * vy v) (- zz - xx) (vy v * vz v)
     (vz v * vx v) (vy v * vz v) (- xx - yy).
(** zeo_mat3d.h 417-434 *)
Definition zMat3DCatVec3DDoubleOuterProd (m : mat3) (k : R) (v : vec3) : mat3 :=
  let kxx := k * vx v * vx v in let kyy := k * vy v * vy v in let kzz := k * vz v * vz v in
  let kxy := k * vx v * vy v in let kyz := k * vy v * vz v in let kzx := k * vz v * vx v in
  M3 (cxx m - kyy - kzz) (cxy m + kxy) (cxz m + kzx)
     (cyx m + kxy) (cyy m - kzz - kxx) (cyz m + kyz)
     (czx m + kzx) (czy m + kyz) (czz m - kxx - kyy).
(** src/zeo_mat3d.c 198-204 *)
Definition zMulVec3DOuterProdMat3D (ohm : vec3) (m : mat3) : mat3 :=
  of_b (zVec3DOuterProd ohm (bx m)) (zVec3DOuterProd ohm (by_ m)) (zVec3DOuterProd ohm (bz m)).
(** zeo_mat3d.h 462 *)
Definition zMat3DSqrNorm (m : mat3) : R := zVec3DSqrNorm (bx m) + zVec3DSqrNorm (by_ m) + zVec3DSqrNorm (bz m).
(** src/zeo_mat3d.c 213-227 *)
Definition zMat3DIsOrthonormal (m : mat3) : bool :=
  zIsTiny (zVec3DInnerProd (bx m) (bx m) - 1) && zIsTiny (zVec3DInnerProd (by_ m) (by_ m) - 1) &&
  zIsTiny (zVec3DInnerProd (bz m) (bz m) - 1) && zIsTiny (zVec3DInnerProd (bx m) (by_ m)) &&
  zIsTiny (zVec3DInnerProd (by_ m) (bz m)) && zIsTiny (zVec3DInnerProd (bz m) (bx m)).
Definition zMat3DIsRightHand (m : mat3) : bool := Rltb 0 (zVec3DGrassmannProd (bx m) (by_ m) (bz m)).
(** src/zeo_mat3d.c 230-248.  [None]: identical axes (NULL), or one of the
    inner steps hits its tolerance guard and leaves parts of the destination
    unwritten (statuses are ignored by the code). *)
Definition zMat3DOrthonormalize (src : mat3) (axis1 axis2 : nat) : option mat3 :=
  let axis1 := Nat.modulo axis1 3 in
  let axis2 := Nat.modulo axis2 3 in
  if Nat.eqb axis1 axis2 then None
  else
    let axis3 := Nat.modulo (3 - axis1 - axis2) 3 in
    let v1 := zMat3DVec src axis1 in
    if zVec3DIsTiny v1 then None else
    let d1 := snd (zVec3DNormalize v1 v1) in
    match zVec3DOrthogonalize (zMat3DVec src axis2) v1 with
    | None => None
    | Some o =>
        if zVec3DIsTiny o then None else
        let d2 := snd (zVec3DNormalizeDRC o) in
        let d3 := zVec3DOuterProd d1 d2 in
        if zVec3DIsTiny d3 then None else
        let d3 := snd (zVec3DNormalizeDRC d3) in
        Some (set_vec (set_vec (set_vec src axis1 d1) axis2 d2) axis3 d3)
    end.

(** ** adjugate, determinant, inverse *)

(** src/zeo_mat3d.c 255-259 *)
Definition zMat3DAdjRow (mat adj : mat3) (i j k : nat) : mat3 :=
  let adj := mset adj i i (me mat j j * me mat k k - me mat k j * me mat j k) in
  let adj := mset adj j i (me mat k i * me mat j k - me mat j i * me mat k k) in
  mset adj k i (me mat j i * me mat k j - me mat k i * me mat j j).
(** src/zeo_mat3d.c 262-272; every element is overwritten *)
Definition zMat3DAdj (mat : mat3) : mat3 :=
  zMat3DAdjRow mat (zMat3DAdjRow mat (zMat3DAdjRow mat ZMAT3DZERO 0 1 2) 1 2 0) 2 0 1.
(** zeo_mat3d.h 488-490 *)
Definition zMat3DDet (m : mat3) : R :=
  (cyy m * czz m - cyz m * czy m) * cxx m
  + (cxz m * czy m - cxy m * czz m) * cyx m
  + (cxy m * cyz m - cxz m * cyy m) * czx m.
(** src/zeo_mat3d.c 275-289: (imax, imin) *)
Definition zMat3DBalancingMinMaxIndex (v : vec3) : nat * nat :=
  let '(imax, imin) := if Rltb (vy v) (vx v) then (0, 1)%nat else (1, 0)%nat in
  if Rltb (ve v imax) (vz v) then (2%nat, imin)
  else if Rltb (vz v) (ve v imin) then (imax, 2%nat)
  else (imax, imin).
Definition zMat3DBalancingMax (v : vec3) : R := ve v (fst (zMat3DBalancingMinMaxIndex v)).
(** src/zeo_mat3d.c 292-305, 308-321: the scale vector, and numerator and
    denominator of the returned ratio *)
Definition zMat3DRowBalancingScale (m : mat3) : vec3 :=
  V3 (zMat3DBalancingMax (V3 (Rabs (me m 0 0)) (Rabs (me m 1 0)) (Rabs (me m 2 0))))
     (zMat3DBalancingMax (V3 (Rabs (me m 0 1)) (Rabs (me m 1 1)) (Rabs (me m 2 1))))
     (zMat3DBalancingMax (V3 (Rabs (me m 0 2)) (Rabs (me m 1 2)) (Rabs (me m 2 2)))).
Definition zMat3DColBalancingScale (m : mat3) : vec3 :=
  V3 (zMat3DBalancingMax (V3 (Rabs (me m 0 0)) (Rabs (me m 0 1)) (Rabs (me m 0 2))))
     (zMat3DBalancingMax (V3 (Rabs (me m 1 0)) (Rabs (me m 1 1)) (Rabs (me m 1 2))))
     (zMat3DBalancingMax (V3 (Rabs (me m 2 0)) (Rabs (me m 2 1)) (Rabs (me m 2 2)))).
(** the ratio s[imin]/s[imax]; [None] when the denominator is 0 (NaN or inf in C) *)
Definition zMat3DBalancingRatio (s : vec3) : option R :=
  let '(imax, imin) := zMat3DBalancingMinMaxIndex s in
  if Reqb (ve s imax) 0 then None else Some (ve s imin / ve s imax).
(** comparison with a NaN is false *)
Definition ratio_lt (a b : option R) : bool :=
  match a, b with Some a, Some b => Rltb a b | _, _ => false end.
(** src/zeo_mat3d.c 324-333; defined only if no scale is 0 *)
Definition zMat3DRowBalancing (m : mat3) (s : vec3) : mat3 :=
  zMat3DCreate
    (me m 0 0 / ve s 0) (me m 1 0 / ve s 0) (me m 2 0 / ve s 0)
    (me m 0 1 / ve s 1) (me m 1 1 / ve s 1) (me m 2 1 / ve s 1)
    (me m 0 2 / ve s 2) (me m 1 2 / ve s 2) (me m 2 2 / ve s 2).
Definition zMat3DColBalancing (m : mat3) (s : vec3) : mat3 :=
  zMat3DCreate
    (me m 0 0 / ve s 0) (me m 1 0 / ve s 1) (me m 2 0 / ve s 2)
    (me m 0 1 / ve s 0) (me m 1 1 / ve s 1) (me m 2 1 / ve s 2)
    (me m 0 2 / ve s 0) (me m 1 2 / ve s 1) (me m 2 2 / ve s 2).
(** does the vector have a zero component (division by it gives NaN/inf)? *)
Definition hasZero (s : vec3) : bool := Reqb (vx s) 0 || Reqb (vy s) 0 || Reqb (vz s) 0.
(** src/zeo_mat3d.c 342-355 *)
Definition zMat3DInv0 (mat : mat3) : option mat3 :=
  let det := zMat3DDet mat in
  if zIsTiny det then None else Some (zMat3DMul (zMat3DAdj mat) (1 / det)).

(** What an inverting function leaves in its output object. *)
Inductive outcome (A : Type) : Type :=
| Computed (a : A)     (* a well-defined result *)
| Stale (a : A)        (* the inner routine reported singularity and wrote nothing:
                          the object holds (rescaled) old content *)
| NaN.                 (* a division by zero took place: non-finite content *)
Arguments Computed {A} _. Arguments Stale {A} _. Arguments NaN {A}.

(** balanced matrix with row and column scales: src/zeo_mat3d.c 363-373,
    454-462, 562-570.  [None]: a scale is zero, division by zero. *)
Definition zMat3DBalance (m : mat3) : option (bool * mat3 * vec3 * vec3) :=
  let sr := zMat3DRowBalancingScale m in
  let sc := zMat3DColBalancingScale m in
  if ratio_lt (zMat3DBalancingRatio sr) (zMat3DBalancingRatio sc) then
    if hasZero sr then None else
    let mb_tmp := zMat3DRowBalancing m sr in
    let sc := zMat3DColBalancingScale mb_tmp in
    if hasZero sc then None else
    Some (true, zMat3DColBalancing mb_tmp sc, sr, sc)
  else
    if hasZero sc then None else
    let mb_tmp := zMat3DColBalancing m sc in
    let sr := zMat3DRowBalancingScale mb_tmp in
    if hasZero sr then None else
    Some (false, zMat3DRowBalancing mb_tmp sr, sr, sc).

(** src/zeo_mat3d.c 358-379: (is the returned pointer non-null?, output).
    [old] is the previous content of the output object; the code returns [im]
    unconditionally. *)
Definition zMat3DInv (m old : mat3) : bool * outcome mat3 :=
  match zMat3DBalance m with
  | None => (true, NaN)
  | Some (rowfirst, mb, sr, sc) =>
      let post (im : mat3) :=
        if rowfirst : bool then zMat3DColBalancing (zMat3DRowBalancing im sc) sr
        else zMat3DRowBalancing (zMat3DColBalancing im sr) sc in
      match zMat3DInv0 mb with
      | Some im => (true, Computed (post im))
      | None => (true, Stale (post old))
      end
  end.

(** zeo_mat3d.h 524-538 *)
Definition zMulMat3DVec3D (m : mat3) (v : vec3) : vec3 :=
  V3 (cxx m * vx v + cyx m * vy v + czx m * vz v)
     (cxy m * vx v + cyy m * vy v + czy m * vz v)
     (cxz m * vx v + cyz m * vy v + czz m * vz v).
Definition zMulMat3DTVec3D (m : mat3) (v : vec3) : vec3 :=
  V3 (zVec3DInnerProd (bx m) v) (zVec3DInnerProd (by_ m) v) (zVec3DInnerProd (bz m) v).
(** src/zeo_mat3d.c 414-431 *)
Definition zMulAdjMat3DVec3DRow (mat : mat3) (v : vec3) (i j k : nat) : R :=
  (me mat j j * me mat k k - me mat k j * me mat j k) * ve v i
  + (me mat k i * me mat j k - me mat j i * me mat k k) * ve v j
  + (me mat j i * me mat k j - me mat k i * me mat j j) * ve v k.
Definition zMulAdjMat3DVec3D (mat : mat3) (v : vec3) : vec3 :=
  V3 (zMulAdjMat3DVec3DRow mat v 0 1 2) (zMulAdjMat3DVec3DRow mat v 1 2 0) (zMulAdjMat3DVec3DRow mat v 2 0 1).
(** src/zeo_mat3d.c 434-446 *)
Definition zMulInvMat3DVec3D0 (mat : mat3) (v : vec3) : option vec3 :=
  let val := zMat3DDet mat in
  if zIsTiny val then None else Some (zVec3DMul (zMulAdjMat3DVec3D mat v) (1 / val)).
(** src/zeo_mat3d.c 449-467 *)
Definition zMulInvMat3DVec3D (m : mat3) (v old : vec3) : bool * outcome vec3 :=
  match zMat3DBalance m with
  | None => (true, NaN)
  | Some (_, mb, sr, sc) =>
      match zMulInvMat3DVec3D0 mb (zVec3DDem v sr) with
      | Some iv => (true, Computed (zVec3DDem iv sc))
      | None => (true, Stale old)
      end
  end.
(** src/zeo_mat3d.c 470-480: components of v in the basis v1 v2 v3.  The status
    of zMat3DInv is ignored; [im] is an uninitialised local. *)
Definition zVec3DCatRatio (v1 v2 v3 v : vec3) : outcome vec3 :=
  match snd (zMat3DInv (of_b v1 v2 v3) ZMAT3DZERO) with
  | Computed im => Computed (zMulMat3DVec3D im v)
  | Stale _ => NaN
  | NaN => NaN
  end.

(** src/zeo_mat3d.c 487-525 *)
Definition zMulMat3DMat3D (m1 m2 : mat3) : mat3 :=
  of_b (zMulMat3DVec3D m1 (bx m2)) (zMulMat3DVec3D m1 (by_ m2)) (zMulMat3DVec3D m1 (bz m2)).
Definition zMulMat3DTMat3D (m1 m2 : mat3) : mat3 :=
  of_b (zMulMat3DTVec3D m1 (bx m2)) (zMulMat3DTVec3D m1 (by_ m2)) (zMulMat3DTVec3D m1 (bz m2)).
Definition zMulMat3DMat3DTElem (m1 m2 : mat3) (i j : nat) : R :=
  me m1 0 j * me m2 0 i + me m1 1 j * me m2 1 i + me m1 2 j * me m2 2 i.
Definition zMulMat3DMat3DT (m1 m2 : mat3) : mat3 :=
  let e := zMulMat3DMat3DTElem m1 m2 in
  M3 (e 0%nat 0%nat) (e 0%nat 1%nat) (e 0%nat 2%nat)
     (e 1%nat 0%nat) (e 1%nat 1%nat) (e 1%nat 2%nat)
     (e 2%nat 0%nat) (e 2%nat 1%nat) (e 2%nat 2%nat).
(** src/zeo_mat3d.c 528-575 *)
Definition zMulAdjMat3DMat3D (m1 m2 : mat3) : mat3 :=
  of_b (zMulAdjMat3DVec3D m1 (bx m2)) (zMulAdjMat3DVec3D m1 (by_ m2)) (zMulAdjMat3DVec3D m1 (bz m2)).
Definition zMulInvMat3DMat3D0 (m1 m2 : mat3) : option mat3 :=
  let val := zMat3DDet m1 in
  if zIsTiny val then None else Some (zMat3DMul (zMulAdjMat3DMat3D m1 m2) (1 / val)).
Definition zMulInvMat3DMat3D (m1 m2 old : mat3) : bool * outcome mat3 :=
  match zMat3DBalance m1 with
  | None => (true, NaN)
  | Some (_, mb, sr, sc) =>
      match zMulInvMat3DMat3D0 mb (zMat3DRowBalancing m2 sr) with
      | Some m => (true, Computed (zMat3DRowBalancing m sc))
      | None => (true, Stale old)
      end
  end.

(** ** rotation *)

(** src/zeo_mat3d.c 602-614: [rm] is a different object from [m] *)
Definition zMat3DRotRPYSC (m : mat3) (a0 a1 a2 : nat) (s c : R) (rm : mat3) : mat3 :=
  let rm := mset rm a0 a0 (me m a0 a0 * c - me m a0 a1 * s) in
  let rm := mset rm a1 a0 (me m a1 a0 * c - me m a1 a1 * s) in
  let rm := mset rm a2 a0 (me m a2 a0 * c - me m a2 a1 * s) in
  let rm := mset rm a0 a1 (me m a0 a0 * s + me m a0 a1 * c) in
  let rm := mset rm a1 a1 (me m a1 a0 * s + me m a1 a1 * c) in
  let rm := mset rm a2 a1 (me m a2 a0 * s + me m a2 a1 * c) in
  let rm := mset rm a0 a2 (me m a0 a2) in
  let rm := mset rm a1 a2 (me m a1 a2) in
  mset rm a2 a2 (me m a2 a2).
(** src/zeo_mat3d.c 617-634 *)
Definition zMat3DRotRPYSCDRC (m : mat3) (a0 a1 a2 : nat) (s c : R) : mat3 :=
  let r00 := me m a0 a0 in let r01 := me m a1 a0 in let r02 := me m a2 a0 in
  let r10 := me m a0 a1 in let r11 := me m a1 a1 in let r12 := me m a2 a1 in
  let m := mset m a0 a0 (r00 * c - r10 * s) in
  let m := mset m a1 a0 (r01 * c - r11 * s) in
  let m := mset m a2 a0 (r02 * c - r12 * s) in
  let m := mset m a0 a1 (r00 * s + r10 * c) in
  let m := mset m a1 a1 (r01 * s + r11 * c) in
  mset m a2 a1 (r02 * s + r12 * c).
(** src/zeo_mat3d.c 637-688 *)
Definition zMat3DRotRoll (m : mat3) (t : R) (rm : mat3) : mat3 := zMat3DRotRPYSC m 1 2 0 (sin t) (cos t) rm.
Definition zMat3DRotRollDRC (m : mat3) (t : R) : mat3 := zMat3DRotRPYSCDRC m 1 2 0 (sin t) (cos t).
Definition zMat3DRotPitch (m : mat3) (t : R) (rm : mat3) : mat3 := zMat3DRotRPYSC m 2 0 1 (sin t) (cos t) rm.
Definition zMat3DRotPitchDRC (m : mat3) (t : R) : mat3 := zMat3DRotRPYSCDRC m 2 0 1 (sin t) (cos t).
Definition zMat3DRotYaw (m : mat3) (t : R) (rm : mat3) : mat3 := zMat3DRotRPYSC m 0 1 2 (sin t) (cos t) rm.
Definition zMat3DRotYawDRC (m : mat3) (t : R) : mat3 := zMat3DRotRPYSCDRC m 0 1 2 (sin t) (cos t).

(** src/zeo_mat3d.c 691-707 *)
Definition zMat3DFromZYXSC (sa ca se ce st ct : R) : mat3 :=
  zMat3DCreate
    (ce*ca) (st*se*ca - ct*sa) (ct*se*ca + st*sa)
    (ce*sa) (st*se*sa + ct*ca) (ct*se*sa - st*ca)
    (- se)  (st*ce)            (ct*ce).
Definition zMat3DFromZYX (azim elev tilt : R) : mat3 :=
  zMat3DFromZYXSC (sin azim) (cos azim) (sin elev) (cos elev) (sin tilt) (cos tilt).
(** src/zeo_mat3d.c 710-720 *)
Definition zMat3DToZYX (m : mat3) : vec3 :=
  let azim := atan2 (cxy m) (cxx m) in
  let sa := sin azim in let ca := cos azim in
  V3 azim
     (atan2 (- cxz m) (cxx m * ca + cxy m * sa))
     (atan2 (czx m * sa - czy m * ca) (- cyx m * sa + cyy m * ca)).
(** src/zeo_mat3d.c 723-739 *)
Definition zMat3DFromZYZSC (sh ch sp cp sb cb : R) : mat3 :=
  zMat3DCreate
    (ch*cp*cb - sh*sb) (- ch*cp*sb - sh*cb) (ch*sp)
    (sh*cp*cb + ch*sb) (- sh*cp*sb + ch*cb) (sh*sp)
    (- sp*cb)          (sp*sb)              cp.
Definition zMat3DFromZYZ (heading pitch bank : R) : mat3 :=
  zMat3DFromZYZSC (sin heading) (cos heading) (sin pitch) (cos pitch) (sin bank) (cos bank).
(** src/zeo_mat3d.c 742-752 *)
Definition zMat3DToZYZ (m : mat3) : vec3 :=
  let heading := atan2 (czy m) (czx m) in
  let sh := sin heading in let ch := cos heading in
  V3 heading
     (atan2 (czx m * ch + czy m * sh) (czz m))
     (atan2 (- cxx m * sh + cxy m * ch) (- cyx m * sh + cyy m * ch)).
(** src/zeo_mat3d.c 755-779 *)
Definition zMat3DFromAA (aa : vec3) : mat3 :=
  if zVec3DIsTiny aa then ZMAT3DIDENT
  else
    let l := zVec3DNorm aa in
    let s := sin l in let c := cos l in
    let n := zVec3DMul aa (1 / l) in
    let nl := zVec3DMul n (1 - c) in
    let m := zVec3DTripleProdToMat3D n nl in
    let r1 := s * vx n in let r2 := s * vy n in let r3 := s * vz n in
    let m := mset m 0 0 (me m 0 0 + 1) in
    let m := mset m 1 0 (me m 1 0 - r3) in
    let m := mset m 2 0 (me m 2 0 + r2) in
    let m := mset m 0 1 (me m 0 1 + r3) in
    let m := mset m 1 1 (me m 1 1 + 1) in
    let m := mset m 2 1 (me m 2 1 - r1) in
    let m := mset m 0 2 (me m 0 2 - r2) in
    let m := mset m 1 2 (me m 1 2 + r1) in
    mset m 2 2 (me m 2 2 + 1).
(** src/zeo_mat3d.c 782-800 *)
Definition zMat3DToAA (m : mat3) : vec3 :=
  let aa := V3 (cyz m - czy m) (czx m - cxz m) (cxy m - cyx m) in
  let l := zVec3DNorm aa in
  let a := atan2 l (cxx m + cyy m + czz m - 1) in
  if zIsTiny a then v3zero
  else if negb (zIsTiny l) then zVec3DMul aa (a / l)
  else
    let i0 := if Rltb (cyy m) (cxx m) then (if Rltb (czz m) (cxx m) then 0 else 2)%nat
              else (if Rltb (czz m) (cyy m) then 1 else 2)%nat in
    let i1 := Nat.modulo (i0 + 1) 3 in
    let i2 := Nat.modulo (i0 + 2) 3 in
    let aa := vset aa i0 (sqrt ((1/2) * me m i0 i0 + (1/2))) in
    let aa := vset aa i1 ((1/2) * me m i0 i1 / ve aa i0) in
    let aa := vset aa i2 ((1/2) * me m i0 i2 / ve aa i0) in
    zVec3DMul aa a.
(** src/zeo_mat3d.c 803-814 *)
Definition zRotMat3D (r m : mat3) : mat3 := zMulMat3DMat3DT (zMulMat3DMat3D r m) r.
Definition zRotMat3DInv (r m : mat3) : mat3 := zMulMat3DTMat3D r (zMulMat3DMat3D m r).
(** src/zeo_mat3d.c 817-832 *)
Definition zMat3DRot (m : mat3) (aa : vec3) : mat3 := zMulMat3DMat3D (zMat3DFromAA aa) m.
Definition zMat3DRotCat (m : mat3) (omega : vec3) (dt : R) : mat3 := zMat3DRot m (zVec3DMul omega dt).
(** src/zeo_mat3d.c 835-873 *)
Definition zAACascade (aa1 aa2 : vec3) : vec3 := zMat3DToAA (zMulMat3DMat3D (zMat3DFromAA aa2) (zMat3DFromAA aa1)).
Definition zMat3DError (m1 m2 : mat3) : vec3 := zMat3DToAA (zMulMat3DMat3DT m1 m2).
Definition zAAError (a1 a2 : vec3) : vec3 := zMat3DError (zMat3DFromAA a1) (zMat3DFromAA a2).
Definition zMat3DDif (m mnew : mat3) (dt : R) : option vec3 := zVec3DDiv (zMat3DError mnew m) dt.

(** ** symmetric eigenvalue problem *)

(** src/zeo_mat3d.c 913-941: one Jacobi rotation on (m, r) *)
Definition zMat3DSymEigRot (m r : mat3) (i j : nat) : mat3 * mat3 :=
  if zIsTiny (me m j i) then (m, r)
  else
    let v := (1/2) * (me m j j - me m i i) / me m j i in
    let ti := sqrt (v * v + 1) in
    let t := - v + (if Rltb v 0 then ti else - ti) in
    let c := 1 / sqrt (t * t + 1) in
    let s := t * c in
    let tmp1 := t * me m j i in
    let m := mset m i j 0 in
    let m := mset m j i 0 in
    let m := mset m i i (me m i i - tmp1) in
    let m := mset m j j (me m j j + tmp1) in
    let body (st : mat3 * mat3) (k : nat) : mat3 * mat3 :=
      let '(m, r) := st in
      let tmp1 := me r i k in
      let tmp2 := me r j k in
      let r := mset r i k (c * tmp1 - s * tmp2) in
      let r := mset r j k (s * tmp1 + c * tmp2) in
      if (Nat.eqb k i || Nat.eqb k j)%bool then (m, r)
      else
        let tmp1 := me m k i in
        let tmp2 := me m k j in
        let m := mset m i k (c * tmp1 - s * tmp2) in
        let m := mset m k i (c * tmp1 - s * tmp2) in
        let m := mset m j k (s * tmp1 + c * tmp2) in
        let m := mset m k j (s * tmp1 + c * tmp2) in
        (m, r) in
    fold_left body [0; 1; 2]%nat (m, r).

(** state of the loop of zMat3DSymEig *)
Record jstate := JS { jl : mat3; jb : mat3; ji : nat; jj : nat }.
(** src/zeo_mat3d.c 956-964: one pass through the loop body; the boolean tells
    whether [goto TERMINATE] is taken *)
Definition zMat3DSymEigStep (st : jstate) : jstate * bool :=
  let '(l, b) := zMat3DSymEigRot (jl st) (jb st) (ji st) (jj st) in
  let i1 := Nat.modulo (ji st + 1) 3 in let j1 := Nat.modulo (jj st + 1) 3 in
  let i2 := Nat.modulo (ji st + 2) 3 in let j2 := Nat.modulo (jj st + 2) 3 in
  let '(i, j) := if Rltb (Rabs (me l j2 i2)) (Rabs (me l j1 i1)) then (i1, j1) else (i2, j2) in
  (JS l b i j, zIsTiny (me l j i)).
(** src/zeo_mat3d.c 955: the loop condition tests [i] (an index in 0..2)
    against Z_MAX_ITER_NUM (a positive constant of ZM, 1000), so it never
    fails: the loop is a "while true" with the exit above.  [None] = out of
    fuel (still running). *)
Fixpoint zMat3DSymEigLoop (fuel : nat) (st : jstate) : option jstate :=
  match fuel with
  | O => None
  | S f => let '(st', stop) := zMat3DSymEigStep st in
           if stop : bool then Some st' else zMat3DSymEigLoop f st'
  end.
(** src/zeo_mat3d.c 944-973: (eigval, eigbase) *)
Definition zMat3DSymEig (fuel : nat) (m : mat3) : option (vec3 * mat3) :=
  match zMat3DSymEigLoop fuel (JS m ZMAT3DIDENT 0 1) with
  | None => None
  | Some st => Some (V3 (me (jl st) 0 0) (me (jl st) 1 1) (me (jl st) 2 2), jb st)
  end.
(** zeo_mat3d.h 839 *)
Definition zMat3DEigMinID (v : vec3) : nat :=
  if Rltb (vx v) (vy v) then (if Rltb (vx v) (vz v) then 0 else 2)%nat
  else (if Rltb (vy v) (vz v) then 1 else 2)%nat.
(** src/zeo_mat3d.c 976-983 *)
Definition zMat3DSymEigMin (fuel : nat) (m : mat3) : option vec3 :=
  match zMat3DSymEig fuel m with
  | None => None
  | Some (val, base) => Some (zMat3DVec base (zMat3DEigMinID val))
  end.
