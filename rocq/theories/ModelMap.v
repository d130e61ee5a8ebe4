(** Files of elevation maps and of nets of maps: src/zeo_map_terra.c 295-424,
    zeo_map.c, zeo_mapnet.c.  Values, the key loop and the counting of tags are
    those of ModelZtk.v.  Numbers are reals (the code prints ten digits). *)
From Coq Require Import Ascii String.
From Verif Require Export ModelZtk ModelTerra.
From Coq Require Import List ZArith Lra.
Import ListNotations.
Open Scope R_scope.

(** zeo_map_terra.c 69-78 with zeo_map_terra.h 78-82; no cells *)
Definition zTerraInit : terra := Terra 0 0 0 0 0 0 0 0 0 (cos 0) 0 0 0 (fun _ _ => zTerraCellInit).
(** zeo_map_terra.h 85-88 *)
Definition zTerraAdjustMax (t : terra) : terra :=
  Terra (xmin t) (xmin t + IZR (nx t - 1) * tdx t) (ymin t) (ymin t + IZR (ny t - 1) * tdy t) (zmin t) (zmax t) (tdx t) (tdy t) (th_var t) (th_grd t) (th_res t) (nx t) (ny t) (grid t).
(** zeo_map_terra.c 92-104 on a map; memory is taken to be available; negative
    sizes are left out *)
Definition zTerraAlloc (t : terra) (xs ys : Z) : rd terra :=
  if ((xs =? 0) || (ys =? 0))%Z then RFail t
  else if ((xs <? 0) || (ys <? 0))%Z then RUndef
  else ROk (zTerraLevel (Terra (xmin t) (xmax t) (ymin t) (ymax t) (zmin t) (zmax t) (tdx t) (tdy t) (th_var t) (th_grd t) (th_res t) xs ys (grid t))).
(** ZM *)
Definition zRad2Deg (x : R) : R := x * 180 / PI.

(** 297-301 *)
Definition trOrigin (t : terra) (_ : nat) (v : list tok) : rd terra :=
  let '(x, v) := ZTKDouble v in let '(y, _) := ZTKDouble v in
  ROk (Terra x (xmax t) y (ymax t) (zmin t) (zmax t) (tdx t) (tdy t) (th_var t) (th_grd t) (th_res t) (nx t) (ny t) (grid t)).
(** 302-310 *)
Definition trResol (t : terra) (_ : nat) (v : list tok) : rd terra :=
  let '(x, v) := ZTKDouble v in let '(y, _) := ZTKDouble v in
  let t := Terra (xmin t) (xmax t) (ymin t) (ymax t) (zmin t) (zmax t) x y (th_var t) (th_grd t) (th_res t) (nx t) (ny t) (grid t) in
  if (zIsTiny x || zIsTiny y)%bool then RFail t else ROk t.
(** 311-318 *)
Definition trSize (t : terra) (_ : nat) (v : list tok) : rd terra :=
  let '(x, v) := ZTKInt v in let '(y, _) := ZTKInt v in
  match zTerraAlloc t x y with ROk t => ROk (zTerraAdjustMax t) | r => r end.
(** 319-326 *)
Definition trZRange (t : terra) (_ : nat) (v : list tok) : rd terra :=
  let '(z1, v) := ZTKDouble v in let '(z2, _) := ZTKDouble v in
  ROk (Terra (xmin t) (xmax t) (ymin t) (ymax t) (zMin z1 z2) (zMax z1 z2) (tdx t) (tdy t) (th_var t) (th_grd t) (th_res t) (nx t) (ny t) (grid t)).
(** 327-338: the gradient threshold is an angle in degrees in the file *)
Definition trTh (a b c : R) (t : terra) : terra :=
  Terra (xmin t) (xmax t) (ymin t) (ymax t) (zmin t) (zmax t) (tdx t) (tdy t) a b c (nx t) (ny t) (grid t).
Definition trVar (t : terra) (_ : nat) (v : list tok) : rd terra := ROk (trTh (num1 v) (th_grd t) (th_res t) t).
Definition trGrd (t : terra) (_ : nat) (v : list tok) : rd terra := ROk (trTh (th_var t) (cos (zDeg2Rad (num1 v))) (th_res t) t).
Definition trRes (t : terra) (_ : nat) (v : list tok) : rd terra := ROk (trTh (th_var t) (th_grd t) (num1 v) t).
(** 339-356: the planes and covariances of the cells are not in the file *)
Definition trGrid (t : terra) (_ : nat) (v : list tok) : rd terra :=
  let '(j, v) := ZTKInt v in let '(k, v) := ZTKInt v in
  match zTerraGrid t j k with
  | None => RFail t
  | Some c =>
      let '(z, v) := ZTKDouble v in let '(a, v) := ZTKDouble v in let '(b, v) := ZTKDouble v in let '(d, v) := ZTKDouble v in let '(w, v) := ZTKDouble v in
      ROk (set_cell t j k (TC z (V3 a b d) w (negb (fst (ZTKInt v) =? 0)%Z) (tprm c) (tS c) (tnp c)))
  end.
Open Scope string_scope. Open Scope list_scope.
(** 389-398; zeo_map_terra.h 125-132 *)
Definition terraPrp : list (prp terra) := [
  PRP "origin" (Some 1%nat) trOrigin; PRP "resolution" (Some 1%nat) trResol; PRP "size" (Some 1%nat) trSize; PRP "zrange" (Some 1%nat) trZRange;
  PRP "th_var" (Some 1%nat) trVar; PRP "th_grd" (Some 1%nat) trGrd; PRP "th_res" (Some 1%nat) trRes; PRP "grid" None trGrid].
(** 401-405 *)
Definition zTerraFromZTK (d : sect) : rd terra := ZTKEvalKey terraPrp zTerraInit d.
(** 418-419 *)
Definition gridLine (t : terra) (i j : Z) : entry := let c := grid t i j in
  ("grid", [TInt i; TInt j; TNum (tz c); TNum (vx (tnorm c)); TNum (vy (tnorm c)); TNum (vz (tnorm c)); TNum (tvar c); TInt (if ttravs c then 1 else 0)]).
(** 358-387, 408-421; [None]: the arc cosine of the threshold is not a number *)
Definition indices (n : Z) : list Z := map Z.of_nat (seq 0 (Z.to_nat n)).
Definition zTerraFPrintZTK (t : terra) : option sect :=
  if (Rltb (th_grd t) (-1) || Rltb 1 (th_grd t))%bool then None
  else Some ([("origin", [TNum (xmin t); TNum (ymin t)]); ("resolution", [TNum (tdx t); TNum (tdy t)]); ("size", [TInt (nx t); TInt (ny t)]);
              ("zrange", [TNum (zmin t); TNum (zmax t)]); ("th_var", [TNum (th_var t)]); ("th_grd", [TNum (zRad2Deg (acos (th_grd t)))]); ("th_res", [TNum (th_res t)])]
             ++ flat_map (fun i => map (gridLine t i) (indices (ny t))) (indices (nx t))).

(** ** Maps: zeo_map.c.  The only kind is the elevation map *)
Record zmap := MP { mpname : option string; mpbody : option terra }.
(** 10-16 *)
Definition zMapInit : zmap := MP None None.
(** 28-31 *)
Definition mapName (m : zmap) (_ : nat) (v : list tok) : rd zmap := match ZTKVal v with Some w => ROk (MP (Some w) (mpbody m)) | None => RUndef end.
(** 32-45; the contents of a new body are set by zTerraInit before they are used *)
Definition mapType (m : zmap) (_ : nat) (v : list tok) : rd zmap :=
  match ZTKVal v with
  | Some w => if String.eqb "terra" w then ROk (MP (mpname m) (Some zTerraInit)) else RFail m
  | None => RUndef
  end.
(** 56-59 *)
Definition mapPrp : list (prp zmap) := [PRP "name" (Some 1%nat) mapName; PRP "type" (Some 1%nat) mapType].
(** 61-70 *)
Definition zMapFromZTK (d : sect) : rd zmap :=
  match ZTKEvalKey mapPrp zMapInit d with
  | ROk m =>
      match mpbody m with
      | None => RFail m
      | Some _ =>
          match zTerraFromZTK d with
          | ROk t => ROk (MP (mpname m) (Some t))
          | RFail t => RFail (MP (mpname m) (Some t))
          | RUndef => RUndef
          end
      end
  | r => r
  end.
(** 47-54, 72-76; [None]: a null pointer, or a number that is none *)
Definition zMapFPrintZTK (m : zmap) : option sect :=
  match mpbody m with
  | Some t => match zTerraFPrintZTK t with Some d => Some ([("name", [TWord (zName (mpname m))]); ("type", [TWord "terra"])] ++ d) | None => None end
  | None => None
  end.

(** ** Nets of maps: zeo_mapnet.c.  A file is a list of sections, [None] those of
    another tag *)
Fixpoint evalMaps (ms : list zmap) (i : nat) (doc : list (option sect)) : rd (list zmap) :=
  match doc with
  | [] => ROk ms
  | None :: doc => evalMaps ms i doc
  | Some d :: doc =>
      match zMapFromZTK d with
      | ROk m => match set_nth ms i m with Some ms => evalMaps ms (S i) doc | None => RUndef end
      | RFail m => match set_nth ms i m with Some ms => RFail ms | None => RUndef end
      | RUndef => RUndef
      end
  end.
Definition isMap (s : option sect) : bool := match s with Some _ => true | None => false end.
(** 17-26, 50-59: the outcome of the evaluation is not looked at *)
Definition zMapNetFromZTK (doc : list (option sect)) : rd (list zmap) :=
  let n := length (filter isMap doc) in
  if Nat.eqb n 0 then RFail []
  else match evalMaps (repeat zMapInit n) 0 doc with
       | ROk ms | RFail ms => ROk ms
       | RUndef => RUndef
       end.
(** 62-70 *)
Definition zMapNetFPrintZTK (ms : list zmap) : option (list (option sect)) :=
  match mapM zMapFPrintZTK ms with Some ds => Some (map Some ds) | None => None end.
