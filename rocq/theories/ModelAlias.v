(** The same functions with their pointers made explicit, for calls whose
    arguments may overlap.

    Memory is a flat array of doubles.  A pointer is the index of the first
    double of the object: a vector is 2 or 3 consecutive cells, a matrix its
    columns one after another (4 or 9 cells), a 2D coordinate its position then
    its angle (3 cells), an Euler parameter w,x,y,z (4 cells), a 6x6 matrix the
    four 3x3 blocks e[0][0], e[0][1], e[1][0], e[1][1] in that order (36 cells).
    Pointers are arbitrary numbers: they may coincide or overlap partly.
    Macros are expanded: each assignment evaluates its expression in the memory
    left by the assignments before it; a C local variable is a [let]-bound real. *)
From Verif Require Export Spec SpecFrame.
From Coq Require Import Arith.
Open Scope R_scope.

Definition mem := nat -> R.
Definition upd (s : mem) (a : nat) (x : R) : mem := fun b => if Nat.eqb b a then x else s b.
Definition rd2 (s : mem) (p : nat) : vec2 := V2 (s p) (s (p + 1)%nat).
Definition rd3 (s : mem) (p : nat) : vec3 := V3 (s p) (s (p + 1)%nat) (s (p + 2)%nat).
Definition rdm2 (s : mem) (p : nat) : mat2 := M2 (s p) (s (p + 1)%nat) (s (p + 2)%nat) (s (p + 3)%nat).
Definition rdm3 (s : mem) (p : nat) : mat3 :=
  M3 (s p) (s (p + 1)%nat) (s (p + 2)%nat) (s (p + 3)%nat) (s (p + 4)%nat) (s (p + 5)%nat)
     (s (p + 6)%nat) (s (p + 7)%nat) (s (p + 8)%nat).
Definition rdc2 (s : mem) (p : nat) : coord2 := C2 (rd2 s p) (s (p + 2)%nat).
Definition rdq (s : mem) (p : nat) : quat := Q4 (s p) (s (p + 1)%nat) (s (p + 2)%nat) (s (p + 3)%nat).

(** one assignment: cell [p+i] receives the expression evaluated now *)
Definition asg (p i : nat) (e : mem -> R) (s : mem) : mem := upd s (p + i) (e s).
Definition sqn (c d : mem -> mem) (s : mem) : mem := d (c s).
Notation "c ;; d" := (sqn c d) (at level 61, right associativity).

(** zeo_vec2d.h (_zVec2DCreate), zeo_vec3d.h 84-88: assignments in order *)
Definition create2 (p : nat) (ex ey : mem -> R) : mem -> mem := asg p 0 ex;; asg p 1 ey.
Definition create3 (p : nat) (ex ey ez : mem -> R) : mem -> mem := asg p 0 ex;; asg p 1 ey;; asg p 2 ez.
(** zeo_mat2d.h 100-104: column x then column y *)
Definition create22 (p : nat) (e11 e12 e21 e22 : mem -> R) : mem -> mem :=
  asg p 0 e11;; asg p 1 e21;; asg p 2 e12;; asg p 3 e22.
(** copies of a local object into memory (zMat3DCopy of a temporary) *)
Definition put_m2 (p : nat) (m : mat2) : mem -> mem :=
  asg p 0 (fun _ => dxx m);; asg p 1 (fun _ => dxy m);; asg p 2 (fun _ => dyx m);; asg p 3 (fun _ => dyy m).
Definition put_m3 (p : nat) (m : mat3) : mem -> mem :=
  asg p 0 (fun _ => cxx m);; asg p 1 (fun _ => cxy m);; asg p 2 (fun _ => cxz m);;
  asg p 3 (fun _ => cyx m);; asg p 4 (fun _ => cyy m);; asg p 5 (fun _ => cyz m);;
  asg p 6 (fun _ => czx m);; asg p 7 (fun _ => czy m);; asg p 8 (fun _ => czz m).
Definition c_ (p i : nat) : mem -> R := fun s => s (p + i)%nat.
Notation "p .[ i ]" := (c_ p i) (at level 1, format "p .[ i ]").

(** ** 3D: products through temporaries *)

(** zeo_vec3d.h 345-357 *)
Definition p_zVec3DOuterProd (v1 v2 v : nat) (s : mem) : mem :=
  let x := v1.[1] s * v2.[2] s - v1.[2] s * v2.[1] s in
  let y := v1.[2] s * v2.[0] s - v1.[0] s * v2.[2] s in
  let z := v1.[0] s * v2.[1] s - v1.[1] s * v2.[0] s in
  create3 v (fun _ => x) (fun _ => y) (fun _ => z) s.
(** zeo_mat3d.h 524-530, src/zeo_mat3d.c 386-404 *)
Definition p_zMulMat3DVec3D (m v mv : nat) (s : mem) : mem :=
  let x := m.[0] s * v.[0] s + m.[3] s * v.[1] s + m.[6] s * v.[2] s in
  let y := m.[1] s * v.[0] s + m.[4] s * v.[1] s + m.[7] s * v.[2] s in
  let z := m.[2] s * v.[0] s + m.[5] s * v.[1] s + m.[8] s * v.[2] s in
  create3 mv (fun _ => x) (fun _ => y) (fun _ => z) s.
(** zeo_mat3d.h 532-538, src/zeo_mat3d.c 393-411 *)
Definition p_zMulMat3DTVec3D (m v mv : nat) (s : mem) : mem :=
  let x := m.[0] s * v.[0] s + m.[1] s * v.[1] s + m.[2] s * v.[2] s in
  let y := m.[3] s * v.[0] s + m.[4] s * v.[1] s + m.[5] s * v.[2] s in
  let z := m.[6] s * v.[0] s + m.[7] s * v.[1] s + m.[8] s * v.[2] s in
  create3 mv (fun _ => x) (fun _ => y) (fun _ => z) s.
(** src/zeo_mat3d.c 487-525: every column computed into the local [tmp], then copied *)
Definition lmul (m v : nat) (s : mem) : vec3 :=
  V3 (m.[0] s * v.[0] s + m.[3] s * v.[1] s + m.[6] s * v.[2] s)
     (m.[1] s * v.[0] s + m.[4] s * v.[1] s + m.[7] s * v.[2] s)
     (m.[2] s * v.[0] s + m.[5] s * v.[1] s + m.[8] s * v.[2] s).
Definition ltmul (m v : nat) (s : mem) : vec3 :=
  V3 (m.[0] s * v.[0] s + m.[1] s * v.[1] s + m.[2] s * v.[2] s)
     (m.[3] s * v.[0] s + m.[4] s * v.[1] s + m.[5] s * v.[2] s)
     (m.[6] s * v.[0] s + m.[7] s * v.[1] s + m.[8] s * v.[2] s).
Definition lcols (x y z : vec3) : mat3 := M3 (vx x) (vy x) (vz x) (vx y) (vy y) (vz y) (vx z) (vy z) (vz z).
Definition p_zMulMat3DMat3D (m1 m2 m : nat) (s : mem) : mem :=
  let tmp := lcols (lmul m1 m2 s) (lmul m1 (m2 + 3) s) (lmul m1 (m2 + 6) s) in put_m3 m tmp s.
Definition p_zMulMat3DTMat3D (m1 m2 m : nat) (s : mem) : mem :=
  let tmp := lcols (ltmul m1 m2 s) (ltmul m1 (m2 + 3) s) (ltmul m1 (m2 + 6) s) in put_m3 m tmp s.
Definition tcol (m1 m2 i : nat) (s : mem) : vec3 :=
  let e j := m1.[j] s * m2.[i] s + m1.[3 + j] s * m2.[3 + i] s + m1.[6 + j] s * m2.[6 + i] s in V3 (e 0%nat) (e 1%nat) (e 2%nat).
Definition p_zMulMat3DMat3DT (m1 m2 m : nat) (s : mem) : mem :=
  let tmp := lcols (tcol m1 m2 0 s) (tcol m1 m2 1 s) (tcol m1 m2 2 s) in put_m3 m tmp s.
(** zeo_mat3d.h 178, 194-204: the macros; src/zeo_mat3d.c 67-75: the function *)
Definition p_mac_Mat3DT (m tm : nat) : mem -> mem :=
  create3 tm m.[0] m.[3] m.[6];; create3 (tm + 3) m.[1] m.[4] m.[7];; create3 (tm + 6) m.[2] m.[5] m.[8].
Definition swap (p i j : nat) (s : mem) : mem := let t := p.[i] s in (asg p i p.[j];; asg p j (fun _ => t)) s.
Definition p_zMat3DTDRC (m : nat) : mem -> mem := swap m 3 1;; swap m 6 2;; swap m 7 5.
Definition p_zMat3DT (m tm : nat) : mem -> mem := if Nat.eqb tm m then p_zMat3DTDRC tm else p_mac_Mat3DT m tm.
(** zeo_vec3d.h 215-263: component by component *)
Definition p_zVec3DAdd (v1 v2 v : nat) : mem -> mem :=
  create3 v (fun s => v1.[0] s + v2.[0] s) (fun s => v1.[1] s + v2.[1] s) (fun s => v1.[2] s + v2.[2] s).
Definition p_zVec3DCat (v1 : nat) (k : R) (v2 v : nat) : mem -> mem :=
  create3 v (fun s => v1.[0] s + k * v2.[0] s) (fun s => v1.[1] s + k * v2.[1] s) (fun s => v1.[2] s + k * v2.[2] s).
Definition p_zVec3DMul (v : nat) (k : R) (mv : nat) : mem -> mem :=
  create3 mv (fun s => k * v.[0] s) (fun s => k * v.[1] s) (fun s => k * v.[2] s).
(** src/zeo_ep.c 128-135 *)
Definition p_zEPRotVec3D (ep v rv : nat) : mem -> mem :=
  p_zVec3DOuterProd (ep + 1) v rv;;
  (fun s => p_zVec3DMul rv (2 * ep.[0] s) rv s);;
  (fun s => p_zVec3DCat rv (ep.[0] s * ep.[0] s - (ep.[1] s * ep.[1] s + ep.[2] s * ep.[2] s + ep.[3] s * ep.[3] s)) v rv s);;
  (fun s => p_zVec3DCat rv (2 * (ep.[1] s * v.[0] s + ep.[2] s * v.[1] s + ep.[3] s * v.[2] s)) (ep + 1) rv s).
(** src/zeo_vec3d.c 430-437 (zZYXVelToAngVelSC): sines and cosines are arguments *)
Definition p_zZYXVelToAngVelSC (zv : nat) (sa ca sb cb : R) (av : nat) : mem -> mem :=
  create3 av (fun s => - sa * zv.[1] s + ca * cb * zv.[2] s) (fun s => ca * zv.[1] s + sa * cb * zv.[2] s)
             (fun s => zv.[0] s - sb * zv.[2] s).

(** ** 2D *)
(** src/zeo_vec2d.c 247-252 *)
Definition p_zVec2DInterDiv (v1 v2 : nat) (ratio : R) (v : nat) : mem -> mem :=
  create2 v (fun s => v2.[0] s - v1.[0] s) (fun s => v2.[1] s - v1.[1] s);;
  create2 v (fun s => v1.[0] s + ratio * v.[0] s) (fun s => v1.[1] s + ratio * v.[1] s).
(** src/zeo_vec2d.c 277-284 *)
Definition p_zVec2DRot (v : nat) (angle : R) (rv : nat) : mem -> mem :=
  let s := sin angle in let c := cos angle in
  create2 rv (fun h => c * v.[0] h - s * v.[1] h) (fun h => s * v.[0] h + c * v.[1] h).
(** zeo_vec2d.h 381-382 *)
Definition p_zVec2DRot90CW (v d : nat) : mem -> mem := create2 d (fun h => v.[1] h) (fun h => - v.[0] h).
Definition p_zVec2DRot90CCW (v d : nat) : mem -> mem := create2 d (fun h => - v.[1] h) (fun h => v.[0] h).
(** src/zeo_mat2d.c 181-192: no temporaries *)
Definition p_zMulMat2DVec2D (m v mv : nat) : mem -> mem :=
  create2 mv (fun h => m.[0] h * v.[0] h + m.[2] h * v.[1] h) (fun h => m.[1] h * v.[0] h + m.[3] h * v.[1] h).
Definition p_zMulMat2DTVec2D (m v mv : nat) : mem -> mem :=
  create2 mv (fun h => m.[0] h * v.[0] h + m.[1] h * v.[1] h) (fun h => m.[2] h * v.[0] h + m.[3] h * v.[1] h).
(** src/zeo_mat2d.c 195-206 through zeo_mat2d.h 318-332: with temporaries *)
Definition p_zMulMat2DVec2DDRC (m v : nat) (h : mem) : mem :=
  let x := m.[0] h * v.[0] h + m.[2] h * v.[1] h in let y := m.[1] h * v.[0] h + m.[3] h * v.[1] h in
  create2 v (fun _ => x) (fun _ => y) h.
Definition p_zMulMat2DTVec2DDRC (m v : nat) (h : mem) : mem :=
  let x := m.[0] h * v.[0] h + m.[1] h * v.[1] h in let y := m.[2] h * v.[0] h + m.[3] h * v.[1] h in
  create2 v (fun _ => x) (fun _ => y) h.
(** src/zeo_mat2d.c 235-242 *)
Definition p_zMulMat2DMat2D (m1 m2 m : nat) (h : mem) : mem :=
  let tmp := M2 (m1.[0] h * m2.[0] h + m1.[2] h * m2.[1] h) (m1.[1] h * m2.[0] h + m1.[3] h * m2.[1] h)
                (m1.[0] h * m2.[2] h + m1.[2] h * m2.[3] h) (m1.[1] h * m2.[2] h + m1.[3] h * m2.[3] h) in
  put_m2 m tmp h.
(** zeo_mat2d.h 156-168, src/zeo_mat2d.c 67-71 *)
Definition p_zMat2DT (m tm : nat) : mem -> mem := create2 tm m.[0] m.[2];; create2 (tm + 2) m.[1] m.[3].
(** zeo_mat2d.h 290-291 *)
Definition p_zMat2DAdj (m adj : nat) : mem -> mem :=
  create22 adj m.[3] (fun h => - m.[2] h) (fun h => - m.[1] h) m.[0].
(** zeo_mat2d.h 431-436, src/zeo_mat2d.c 295-308 *)
Definition p_zMat2DRot (m : nat) (angle : R) (rm : nat) : mem -> mem :=
  let s := sin angle in let c := cos angle in
  create22 rm (fun h => c * m.[0] h - s * m.[1] h) (fun h => c * m.[2] h - s * m.[3] h)
              (fun h => s * m.[0] h + c * m.[1] h) (fun h => s * m.[2] h + c * m.[3] h).
(** src/zeo_coord2d.c 137-143; zeo_coord2d.h 202 *)
Definition p_zCoord2DCascade (src xform dest : nat) : mem -> mem :=
  (fun h => p_zVec2DRot xform (src.[2] h) dest h);;
  create2 dest (fun h => dest.[0] h + src.[0] h) (fun h => dest.[1] h + src.[1] h);;
  asg dest 2 (fun h => src.[2] h + xform.[2] h).
Definition p_zCoord2DCascadeDRC (c dc : nat) : mem -> mem := p_zCoord2DCascade c dc c.
(** zeo_mat6d.h (_zMat6DT): the macro transposes the blocks one by one *)
Definition p_zMat6DT (m tm : nat) : mem -> mem :=
  p_mac_Mat3DT m tm;; p_mac_Mat3DT (m + 9) (tm + 18);; p_mac_Mat3DT (m + 18) (tm + 9);; p_mac_Mat3DT (m + 27) (tm + 27).
(** src/zeo_mat3d.c 601-634: e[i][j] is cell 3i+j *)
Definition p_RotRPYSC (m a0 a1 a2 : nat) (s c : R) (rm : nat) : mem -> mem :=
  let e i j := (3 * i + j)%nat in
  asg rm (e a0 a0) (fun h => m.[e a0 a0] h * c - m.[e a0 a1] h * s);;
  asg rm (e a1 a0) (fun h => m.[e a1 a0] h * c - m.[e a1 a1] h * s);;
  asg rm (e a2 a0) (fun h => m.[e a2 a0] h * c - m.[e a2 a1] h * s);;
  asg rm (e a0 a1) (fun h => m.[e a0 a0] h * s + m.[e a0 a1] h * c);;
  asg rm (e a1 a1) (fun h => m.[e a1 a0] h * s + m.[e a1 a1] h * c);;
  asg rm (e a2 a1) (fun h => m.[e a2 a0] h * s + m.[e a2 a1] h * c);;
  asg rm (e a0 a2) m.[e a0 a2];; asg rm (e a1 a2) m.[e a1 a2];; asg rm (e a2 a2) m.[e a2 a2].
Definition p_RotRPYSCDRC (m a0 a1 a2 : nat) (s c : R) (h : mem) : mem :=
  let e i j := (3 * i + j)%nat in
  let r00 := m.[e a0 a0] h in let r01 := m.[e a1 a0] h in let r02 := m.[e a2 a0] h in
  let r10 := m.[e a0 a1] h in let r11 := m.[e a1 a1] h in let r12 := m.[e a2 a1] h in
  (asg m (e a0 a0) (fun _ => r00 * c - r10 * s);; asg m (e a1 a0) (fun _ => r01 * c - r11 * s);;
   asg m (e a2 a0) (fun _ => r02 * c - r12 * s);; asg m (e a0 a1) (fun _ => r00 * s + r10 * c);;
   asg m (e a1 a1) (fun _ => r01 * s + r11 * c);; asg m (e a2 a1) (fun _ => r02 * s + r12 * c)) h.
(** src/zeo_mat3d.c 636-690: roll, pitch and yaw use axes (1,2,0), (2,0,1), (0,1,2) *)
Definition p_zMat3DRotRoll m t rm := p_RotRPYSC m 1 2 0 (sin t) (cos t) rm.
Definition p_zMat3DRotPitch m t rm := p_RotRPYSC m 2 0 1 (sin t) (cos t) rm.
Definition p_zMat3DRotYaw m t rm := p_RotRPYSC m 0 1 2 (sin t) (cos t) rm.
Definition p_zMat3DRotRollDRC m t := p_RotRPYSCDRC m 1 2 0 (sin t) (cos t).
Definition p_zMat3DRotPitchDRC m t := p_RotRPYSCDRC m 2 0 1 (sin t) (cos t).
Definition p_zMat3DRotYawDRC m t := p_RotRPYSCDRC m 0 1 2 (sin t) (cos t).
(** src/zeo_mat3d.c 414-431 *)
Definition adjrow (m v i j k : nat) (h : mem) : R :=
  let e a b := m.[3 * a + b] h in
  (e j j * e k k - e k j * e j k) * v.[i] h + (e k i * e j k - e j i * e k k) * v.[j] h +
  (e j i * e k j - e k i * e j j) * v.[k] h.
Definition p_zMulAdjMat3DVec3D (m v av : nat) : mem -> mem :=
  create3 av (adjrow m v 0 1 2) (adjrow m v 1 2 0) (adjrow m v 2 0 1).

(** ** Vocabulary of the theorems (not part of the code) *)
(** memory outside [p, p+n) is untouched *)
Definition only (p n : nat) (s s' : mem) : Prop := forall a, (a < p \/ p + n <= a)%nat -> s' a = s a.
(** two ranges of cells do not meet *)
Definition apart (p n q k : nat) : Prop := (p + n <= q \/ q + k <= p)%nat.
(** rotation of a vector by a quaternion (the conjugation q v q*, expanded) *)
Definition qrotv (q : quat) (v : vec3) : vec3 :=
  let e := V3 (qx q) (qy q) (qz q) in
  vadd (vadd (vscale (2 * qw q) (cross e v)) (vscale (qw q * qw q - dot e e) v)) (vscale (2 * dot e v) e).
