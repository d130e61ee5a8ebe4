(** Model of the elevation map (src/zeo_map_terra.c, zeo_map_terra.h).
    [double] is idealised as R, [int] as Z, and [floor] is exact.  [None] is an
    undefined outcome: a division by zero or an access outside the array. *)
From Verif Require Import Base Spec ModelVec ModelMat.
From Coq Require Import List ZArith Lra.
Import ListNotations.
Open Scope R_scope.

(** zeo_map_terra.h 17-27 *)
Record tcell := TC { tz : R; tnorm : vec3; tvar : R; ttravs : bool; tprm : vec3; tS : mat3; tnp : nat }.

(** zeo_map_terra.h 29-30 *)
Definition zTerraCellZ (c : tcell) (x y : R) : R := vx (tprm c) * x + vy (tprm c) * y + vz (tprm c).

(** zeo_map_terra.c 14-24; the covariance starts as the identity matrix *)
Definition zTerraCellInit : tcell := TC 0 (V3 0 0 1) 1 false v3zero ZMAT3DIDENT 0.

(** zeo_map_terra.c 27-30 *)
Definition zTerraCellResidual (c : tcell) (p : vec3) : R := zTerraCellZ c (vx p) (vy p) - vz p.

(** zeo_map_terra.c 34-48 *)
Definition zTerraCellUpdate (c : tcell) (p : vec3) : option tcell :=
  let e := zTerraCellResidual c p in
  let w := V3 (vx p) (vy p) 1 in
  let q := zMulMat3DVec3D (tS c) w in
  let d := 1 + zVec3DInnerProd w q in
  match zVec3DDiv q d with
  | None => None
  | Some qd =>
    let prm := zVec3DCat (tprm c) (- e) qd in
    let s := zMat3DSubDyad (tS c) qd q in
    let c1 := TC (tz c) (tnorm c) (tvar c) (ttravs c) prm s (tnp c) in
    let e := zTerraCellResidual c1 p in
    let np := S (tnp c) in
    Some (TC (tz c) (tnorm c) (tvar c + (e * e - tvar c) / INR np) (ttravs c) prm s np)
  end.

(** zeo_map_terra.c 51-56 *)
Definition zTerraCellForm (c : tcell) (x y : R) : tcell :=
  TC (zTerraCellZ c x y) (snd (zVec3DNormalizeDRC (V3 (- vx (tprm c)) (- vy (tprm c)) 1))) (tvar c) (ttravs c) (tprm c) (tS c) (tnp c).

(** zeo_map_terra.h 37-50; the array of cells as a function of its valid indices *)
Record terra := Terra {
  xmin : R; xmax : R; ymin : R; ymax : R; zmin : R; zmax : R; tdx : R; tdy : R;
  th_var : R; th_grd : R; th_res : R;
  nx : Z; ny : Z; grid : Z -> Z -> tcell }.
Definition with_grid (t : terra) (g : Z -> Z -> tcell) : terra :=
  Terra (xmin t) (xmax t) (ymin t) (ymax t) (zmin t) (zmax t) (tdx t) (tdy t) (th_var t) (th_grd t) (th_res t) (nx t) (ny t) g.
(** zeo_map_terra.h 58-59 *)
Definition zTerraX (t : terra) (i : Z) : R := xmin t + IZR i * tdx t.
Definition zTerraY (t : terra) (j : Z) : R := ymin t + IZR j * tdy t.

(** zeo_map_terra.c 63-66 with ZEDA's [zArray2PosIsValid] *)
Definition valid (t : terra) (i j : Z) : bool := ((0 <=? i) && (i <? nx t) && (0 <=? j) && (j <? ny t))%Z.
Definition zTerraGrid (t : terra) (i j : Z) : option tcell := if valid t i j then Some (grid t i j) else None.
Definition set_cell (t : terra) (i j : Z) (c : tcell) : terra :=
  with_grid t (fun a b => if ((a =? i) && (b =? j))%Z then c else grid t a b).
(** [zTerraGridNC]: ZEDA's [zArray2ElemNC], the cell at [i * columns + j] of the buffer *)
Definition zTerraGridNC (t : terra) (i j : Z) : option tcell :=
  let k := (i * ny t + j)%Z in
  if ((0 <=? k) && (k <? nx t * ny t))%Z then Some (grid t (k / ny t) (k mod ny t))%Z else None.

(** zeo_map_terra.c 81-89: [zTerraLevel] *)
Definition zTerraLevel (t : terra) : terra := with_grid t (fun _ _ => zTerraCellInit).

(** zeo_map_terra.c 92-104, 107-117, 134-141 and zeo_map_terra.h 78-88:
    [zTerraAllocGrid] with [zTerraAlloc], [zTerraSetRegion]; memory is taken to
    be available; [None] is the null pointer *)
Definition zTerraAllocGrid (x0 y0 dx dy : R) (xs ys : Z) (z0 z1 : R) : option terra :=
  if ((xs =? 0) || (ys =? 0))%Z then None
  else Some (zTerraLevel (Terra x0 (x0 + IZR (xs - 1) * dx) y0 (y0 + IZR (ys - 1) * dy) z0 z1 dx dy (/ 10) (cos (PI / 4)) (/ 10) xs ys (fun _ _ => zTerraCellInit))).
(** zeo_map_terra.c 120-131 *)
Definition zTerraAllocRegion (x0 x1 y0 y1 z0 z1 dx dy : R) : option terra :=
  if (Rltb dx zTOL || Rltb dy zTOL)%bool then None
  else zTerraAllocGrid x0 y0 dx dy (Int_part ((x1 - x0) / dx) + 1) (Int_part ((y1 - y0) / dy) + 1) z0 z1.

(** zeo_map_terra.c 151-157: the indices are kept when the height is out of range *)
Definition zTerraGetBaseGrid (t : terra) (p : vec3) (ij : Z * Z) : option (option tcell * (Z * Z)) :=
  if (Rltb (vz p) (zmin t) || Rltb (zmax t) (vz p))%bool then Some (None, ij)
  else if (Reqb (tdx t) 0 || Reqb (tdy t) 0)%bool then None
  else let i := Int_part ((vx p - xmin t) / tdx t) in
       let j := Int_part ((vy p - ymin t) / tdy t) in
       Some (zTerraGrid t i j, (i, j)).

(** zeo_map_terra.c 160-169: [_zTerraUpdate] *)
Definition upd_at (t : terra) (i j : Z) (p : vec3) : option terra :=
  match zTerraGrid t i j with
  | None => Some t
  | Some c => match zTerraCellUpdate c p with Some c' => Some (set_cell t i j c') | None => None end
  end.
Definition bind {A B} (x : option A) (f : A -> option B) : option B := match x with Some a => f a | None => None end.
Definition zTerraUpdate_macro (t : terra) (p : vec3) (ij : Z * Z) : option (terra * (Z * Z)) :=
  match zTerraGetBaseGrid t p ij with
  | None => None
  | Some (g, (i, j)) =>
    bind (match g with Some _ => upd_at t i j p | None => Some t end) (fun t =>
    bind (upd_at t (i + 1) j p) (fun t =>
    bind (upd_at t i (j + 1) p) (fun t =>
    bind (upd_at t (i + 1) (j + 1) p) (fun t => Some (t, (i, j))))))
  end.
(** zeo_map_terra.c 170-177 *)
Definition zTerraUpdate (t : terra) (p : vec3) : option terra :=
  match zTerraUpdate_macro t p (0%Z, 0%Z) with Some (t, _) => Some t | None => None end.

(** zeo_map_terra.c 180-188 *)
Definition zTerraForm (t : terra) : terra :=
  with_grid t (fun i j => if valid t i j then zTerraCellForm (grid t i j) (zTerraX t i) (zTerraY t j) else grid t i j).

(** zeo_map_terra.c 206-213 *)
Definition zTerraCheckGridTravsRes (t : terra) (i j : Z) (p : vec3) : bool :=
  match zTerraGrid t i j with
  | None => true
  | Some cs => if Rltb (th_res t) (Rabs (zTerraCellResidual cs p)) then false else true
  end.
(** zeo_map_terra.c 216-234 *)
Definition zTerraCheckGridTravs (t : terra) (i j : Z) : bool :=
  let g := grid t i j in
  if Rltb (th_var t) (tvar g) then false
  else if Rltb (zVec3DInnerProd (tnorm g) (V3 0 0 1)) (th_grd t) then false
  else let p := V3 (zTerraX t i) (zTerraY t j) (tz g) in
  (zTerraCheckGridTravsRes t (i - 1) (j - 1) p && zTerraCheckGridTravsRes t (i - 1) j p && zTerraCheckGridTravsRes t (i - 1) (j + 1) p &&
   zTerraCheckGridTravsRes t i (j - 1) p && zTerraCheckGridTravsRes t i (j + 1) p &&
   zTerraCheckGridTravsRes t (i + 1) (j - 1) p && zTerraCheckGridTravsRes t (i + 1) j p && zTerraCheckGridTravsRes t (i + 1) (j + 1) p)%bool.
(** zeo_map_terra.c 237-244; the flag written is not read by the checks, hence no order of the loop *)
Definition zTerraCheckTravs (t : terra) : terra :=
  with_grid t (fun i j => let g := grid t i j in
    if valid t i j then TC (tz g) (tnorm g) (tvar g) (zTerraCheckGridTravs t i j) (tprm g) (tS g) (tnp g) else g).

(** zeo_map_terra.c 191-203; the points in the order of iteration *)
Fixpoint ident_loop (t : terra) (l : list vec3) (ij : Z * Z) : option terra :=
  match l with
  | [] => Some t
  | p :: l' => match zTerraUpdate_macro t p ij with Some (t', ij') => ident_loop t' l' ij' | None => None end
  end.
Definition zTerraIdent (t : terra) (l : list vec3) : option terra :=
  match ident_loop t l (0%Z, 0%Z) with Some t => Some (zTerraCheckTravs (zTerraForm t)) | None => None end.

(** zeo_map_terra.c 263-270 *)
Definition zTerraZGrid (t : terra) (x y : R) (i j : Z) : option (R * R) :=
  match zTerraGridNC t i j with
  | None => None
  | Some g => Some (zTerraCellZ g x y, (zSqr (x - zTerraX t i) + zSqr (y - zTerraY t j)) * tvar g)
  end.
(** zeo_map_terra.c 273-293; [Some None] is the error out of region *)
Definition zTerraZ (t : terra) (x y : R) : option (option R) :=
  match zTerraGetBaseGrid t (V3 x y (1/2 * (zmin t + zmax t))) (0%Z, 0%Z) with
  | None => None
  | Some (None, _) => Some None
  | Some (Some _, (i, j)) =>
    match zTerraZGrid t x y i j, zTerraZGrid t x y i (j + 1), zTerraZGrid t x y (i + 1) j, zTerraZGrid t x y (i + 1) (j + 1) with
    | Some (z0, d0), Some (z1, d1), Some (z2, d2), Some (z3, d3) =>
      let w0 := d1 * d2 * d3 in
      let w1 := d2 * d3 * d0 in
      let w2 := d3 * d0 * d1 in
      let w3 := d0 * d1 * d2 in
      if Reqb (w0 + w1 + w2 + w3) 0 then None
      else Some (Some ((w0 * z0 + w1 * z1 + w2 * z2 + w3 * z3) / (w0 + w1 + w2 + w3)))
    | _, _, _, _ => None
    end
  end.

(** zeo_map_terra.c 247-260; [None] is the untouched infinite bounds of an empty map *)
Fixpoint zrange_row (t : terra) (i : Z) (j : nat) (r : option (R * R)) : option (R * R) :=
  match j with
  | O => r
  | S k =>
    let z := tz (grid t i (ny t - Z.of_nat j)) in
    zrange_row t i k (Some (match r with
      | None => (z, z)
      | Some (a, b) => (if Rltb z a then z else a, if Rltb b z then z else b)
      end))
  end.
Fixpoint zrange_rows (t : terra) (i : nat) (r : option (R * R)) : option (R * R) :=
  match i with
  | O => r
  | S k => zrange_rows t k (zrange_row t (nx t - Z.of_nat i) (Z.to_nat (ny t)) r)
  end.
Definition zTerraZRange (t : terra) : option (R * R) := zrange_rows t (Z.to_nat (nx t)) None.
