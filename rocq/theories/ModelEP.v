(** Model of src/zeo_ep.c, include/zeo/zeo_ep.h: Euler parameters (unit
    quaternions) of attitude.  The union zEP {ex.w, ex.v | e[4]} is [quat]:
    e[0] = ex.w = qw, e[1..3] = ex.v = (qx,qy,qz). *)
From Verif Require Export ModelMat.
Open Scope R_scope.

Definition exv (q : quat) : vec3 := V3 (qx q) (qy q) (qz q).
Definition of_ex (w : R) (v : vec3) : quat := Q4 w (vx v) (vy v) (vz v).

(** src/zeo_ep.c 208-211 *)
Definition zEPInnerProd (ep1 ep2 : quat) : R := qw ep1 * qw ep2 + zVec3DInnerProd (exv ep1) (exv ep2).
(** src/zeo_ep.c 214-217 *)
Definition zEPNorm (ep : quat) : R := sqrt (zEPInnerProd ep ep).
(** src/zeo_ep.c 220-231: in place; (non-null pointer returned?, content).
    zVec3DDivDRC fails only for a zero divisor, which the test excludes. *)
Definition zEPNormalize (ep : quat) : bool * quat :=
  let n := zEPNorm ep in
  if zIsTiny n then (false, ep)
  else (true, of_ex (qw ep / n) (zVec3DMul (exv ep) (1 / n))).
(** src/zeo_ep.c 10-17 *)
Definition zEPCreate (w x y z : R) : bool * quat := zEPNormalize (Q4 w x y z).
(** src/zeo_ep.c 20-33 *)
Definition zEPCreateAA (theta : R) (axis : vec3) : quat :=
  if zVec3DIsTiny axis then of_ex 1 (V3 0 0 0)
  else of_ex (cos ((1/2) * theta)) (zVec3DMul axis (sin ((1/2) * theta) / zVec3DNorm axis)).
(** src/zeo_ep.c 43-46 *)
Definition zEPIsIdent (ep : quat) : bool := zIsTiny (qw ep - 1) && zVec3DIsTiny (exv ep).
(** src/zeo_ep.c 49-56 *)
Definition zEP2AA (ep : quat) : vec3 :=
  let sh := zVec3DNorm (exv ep) in
  let theta := 2 * atan2 sh (qw ep) in
  if zIsTiny sh then V3 0 0 0 else zVec3DMul (exv ep) (theta / sh).
(** src/zeo_ep.c 59-62 *)
Definition zAA2EP (aa : vec3) : quat := zEPCreateAA (zVec3DNorm aa) aa.
(** src/zeo_ep.c 65-83 *)
Definition zMat3DFromEP (ep : quat) : mat3 :=
  let e00 := zSqr (qw ep) in let e11 := zSqr (qx ep) in let e22 := zSqr (qy ep) in let e33 := zSqr (qz ep) in
  let e12 := qx ep * qy ep in let e23 := qy ep * qz ep in let e31 := qz ep * qx ep in
  let e01 := qw ep * qx ep in let e02 := qw ep * qy ep in let e03 := qw ep * qz ep in
  zMat3DCreate
    (e00 + e11 - e22 - e33) (2 * (e12 - e03)) (2 * (e31 + e02))
    (2 * (e12 + e03)) (e00 - e11 + e22 - e33) (2 * (e23 - e01))
    (2 * (e31 - e02)) (2 * (e23 + e01)) (e00 - e11 - e22 + e33).
(** src/zeo_ep.c 86-125; [None]: the null pointer *)
Definition zMat3DToEP (m : mat3) : option quat :=
  let s0 := cxx m + cyy m + czz m + 1 in
  let s1 := cxx m - cyy m - czz m + 1 in
  let s2 := - cxx m + cyy m - czz m + 1 in
  let s3 := - cxx m - cyy m + czz m + 1 in
  let '(i1, m1) := if Rltb s0 s1 then (1%nat, s1) else (0%nat, s0) in
  let '(i2, m2) := if Rltb m1 s2 then (2%nat, s2) else (i1, m1) in
  let '(imax, smax) := if Rltb m2 s3 then (3%nat, s3) else (i2, m2) in
  if Rleb smax 0 then None
  else
    let e := (1/2) * sqrt smax in
    let k := (1/4) / e in
    Some match imax with
         | 0%nat => Q4 e (k * (me m 1 2 - me m 2 1)) (k * (me m 2 0 - me m 0 2)) (k * (me m 0 1 - me m 1 0))
         | 1%nat => Q4 (k * (me m 1 2 - me m 2 1)) e (k * (me m 1 0 + me m 0 1)) (k * (me m 0 2 + me m 2 0))
         | 2%nat => Q4 (k * (me m 2 0 - me m 0 2)) (k * (me m 1 0 + me m 0 1)) e (k * (me m 2 1 + me m 1 2))
         | _ => Q4 (k * (me m 0 1 - me m 1 0)) (k * (me m 0 2 + me m 2 0)) (k * (me m 2 1 + me m 1 2)) e
         end.
(** src/zeo_ep.c 128-135 (distinct input and output) *)
Definition zEPRotVec3D (ep : quat) (v : vec3) : vec3 :=
  let rv := zVec3DOuterProd (exv ep) v in
  let rv := zVec3DMul rv (2 * qw ep) in
  let rv := zVec3DCat rv (zSqr (qw ep) - zVec3DSqrNorm (exv ep)) v in
  zVec3DCat rv (2 * zVec3DInnerProd (exv ep) v) (exv ep).
(** src/zeo_ep.c 138-144 *)
Definition zEPVel2AngVel (epvel ep : quat) : vec3 :=
  let w := zVec3DOuterProd (exv ep) (exv epvel) in
  let w := zVec3DCat w (qw ep) (exv epvel) in
  let w := zVec3DCat w (- qw epvel) (exv ep) in
  zVec3DMul w 2.
(** src/zeo_ep.c 147-154 *)
Definition zAngVel2EPVel (angvel : vec3) (ep : quat) : quat :=
  let v := zVec3DOuterProd angvel (exv ep) in
  let v := zVec3DCat v (qw ep) angvel in
  of_ex (- (1/2) * zVec3DInnerProd (exv ep) angvel) (zVec3DMul v (1/2)).
(** src/zeo_ep.c 157-186 *)
Definition zEPAdd (ep1 ep2 : quat) : quat := of_ex (qw ep1 + qw ep2) (zVec3DAdd (exv ep1) (exv ep2)).
Definition zEPSub (ep1 ep2 : quat) : quat := of_ex (qw ep1 - qw ep2) (zVec3DSub (exv ep1) (exv ep2)).
Definition zEPRev (ep : quat) : quat := of_ex (- qw ep) (zVec3DRev (exv ep)).
Definition zEPMul (ep : quat) (k : R) : quat := of_ex (k * qw ep) (zVec3DMul (exv ep) k).
(** src/zeo_ep.c 189-194 *)
Definition zEPCat (ep1 : quat) (k : R) (ep2 : quat) : bool * quat :=
  zEPNormalize (of_ex (qw ep1 + k * qw ep2) (zVec3DCat (exv ep1) k (exv ep2))).
(** src/zeo_ep.c 197-205 *)
Definition zEPDif (ep1 ep2 : quat) (dt : R) : option quat :=
  if zIsTiny dt then None else Some (zEPMul (zEPSub ep2 ep1) (1 / dt)).
(** src/zeo_ep.c 234-244 *)
Definition zEPCascade (ep1 ep2 : quat) : quat :=
  let v := zVec3DOuterProd (exv ep2) (exv ep1) in
  let v := zVec3DCat v (qw ep1) (exv ep2) in
  let v := zVec3DCat v (qw ep2) (exv ep1) in
  of_ex (qw ep1 * qw ep2 - zVec3DInnerProd (exv ep1) (exv ep2)) v.
(** src/zeo_ep.c 247-269.  The status of the inner zEPCatDRC is ignored. *)
Definition zEPInterDiv (ep1 ep2 : quat) (t : R) : bool * quat :=
  let c := zEPInnerProd ep1 ep2 in
  let '(ep2', cth) := if Rltb c 0 then (zEPRev ep2, - c) else (ep2, c) in
  let cth := if Rltb 1 cth then 1 else cth in
  let th := acos cth in
  let sth := sin th in
  let ep := if zIsTiny sth then snd (zEPCat (zEPMul ep1 (1 - t)) t ep2')
            else let th2 := th * t in snd (zEPCat (zEPMul ep1 (sin (th - th2))) (sin th2) ep2') in
  zEPNormalize ep.
(** src/zeo_ep.c 272-280.  A null result of zMat3DToEP leaves a local
    uninitialised: [None]. *)
Definition zMat3DInterDiv (m1 m2 : mat3) (t : R) : option mat3 :=
  match zMat3DToEP m1, zMat3DToEP m2 with
  | Some ep1, Some ep2 => Some (zMat3DFromEP (snd (zEPInterDiv ep1 ep2 t)))
  | _, _ => None
  end.
