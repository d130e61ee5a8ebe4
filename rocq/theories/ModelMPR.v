(** Model of the penetration depth by Minkowski portal refinement (src/zeo_col_mpr.c 149-327).
    The portal search and its slots are those of ModelGJK. The number of rounds of the last loop (ZITERINIT) and a
    bound on the rounds of the two loops without one are parameters; the pointers depth, pos and dir are not NULL.
    Where the function returns false, depth, pos and dir are left as they were. *)
From Verif Require Export ModelGJK.
From Coq Require Import List.
Import ListNotations.
Open Scope R_scope.

(** 149-166 with the portal it leaves; [RBroken]: out of fuel or a division by zero *)
Inductive refined := RBroken | RApart | RPortal (s1 s2 s3 : mslot).
Fixpoint mprRefinePortal (fuel : nat) (l1 l2 : list vec3) (s0 s1 s2 s3 : mslot) : refined :=
  match fuel with
  | O => RBroken
  | S fuel =>
      match mprSimplexDir s1 s2 s3 with
      | None => RBroken
      | Some dir =>
          if Rltb (- zTOL) (zVec3DInnerProd (ms_v s1) dir) then RPortal s1 s2 s3
          else match mprSupportMap l1 l2 dir with
               | None => RBroken
               | Some s =>
                   if Rleb (zVec3DInnerProd (ms_v s) dir) (- zTOL) || mprIsReached s1 s2 s3 s dir then RApart
                   else let '(s1, s2, s3) := mprExpand s0 s1 s2 s3 s in mprRefinePortal fuel l1 l2 s0 s1 s2 s3
               end
      end
  end.
(** 193-199: the weighted points of one set, times 1/sum *)
Definition mprMix (sum b0 b1 b2 b3 : R) (p0 p1 p2 p3 : vec3) : vec3 :=
  zVec3DMul (zVec3DCat (zVec3DCat (zVec3DCat (zVec3DCat v3zero b0 p0) b1 p1) b2 p2) b3 p3) (1 / sum).
(** 169-203; [None]: a division by zero *)
Definition mprDepthPair (s0 s1 s2 s3 : mslot) : option vec3 :=
  match mprSimplexDir s1 s2 s3 with
  | None => None
  | Some dir =>
      let b0 := zVec3DGrassmannProd (ms_v s3) (ms_v s1) (ms_v s2) in
      let b1 := zVec3DGrassmannProd (ms_v s0) (ms_v s3) (ms_v s2) in
      let b2 := zVec3DGrassmannProd (ms_v s3) (ms_v s0) (ms_v s1) in
      let b3 := zVec3DGrassmannProd (ms_v s0) (ms_v s2) (ms_v s1) in
      let sum := b0 + b1 + b2 + b3 in
      let '(b0, b1, b2, b3, sum) :=
        if Rltb sum zTOL then
          let b1 := zVec3DGrassmannProd dir (ms_v s2) (ms_v s3) in
          let b2 := zVec3DGrassmannProd dir (ms_v s3) (ms_v s1) in
          let b3 := zVec3DGrassmannProd dir (ms_v s1) (ms_v s2) in
          (0, b1, b2, b3, b1 + b2 + b3)
        else (b0, b1, b2, b3, sum) in
      if Reqb sum 0 then None
      else Some (zVec3DMid (mprMix sum b0 b1 b2 b3 (ms_v1 s0) (ms_v1 s1) (ms_v1 s2) (ms_v1 s3))
                           (mprMix sum b0 b1 b2 b3 (ms_v2 s0) (ms_v2 s1) (ms_v2 s2) (ms_v2 s3)))
  end.
(** 206-226: the squared distance and the point; [None]: both ends are the same point *)
Definition mprCalcSegDist (p0 p1 : vec3) : option (R * vec3) :=
  let d := zVec3DSub p1 p0 in
  if Reqb (zVec3DSqrNorm d) 0 then None
  else
    let t := - zVec3DInnerProd p0 d / zVec3DSqrNorm d in
    if Rltb t zTOL then Some (zVec3DSqrNorm p0, p0)
    else if Rltb (zTOL + 1) t then Some (zVec3DSqrNorm p1, p1)
    else let q := zVec3DCat p0 t d in Some (zVec3DSqrNorm q, q).
(** 229-262: the squared distance and dir; [None]: a division by zero *)
Definition mprCalcDepth (p0 p1 p2 : vec3) : option (R * vec3) :=
  let d1 := zVec3DSub p1 p0 in
  let d2 := zVec3DSub p2 p0 in
  let u2 := zVec3DSqrNorm d1 in
  let u3 := zVec3DSqrNorm d2 in
  let v1 := zVec3DInnerProd p0 d1 in
  let v2 := zVec3DInnerProd p0 d2 in
  let v3 := zVec3DInnerProd d1 d2 in
  if Reqb (u3 * u2 - v3 * v3) 0 || Reqb u3 0 then None
  else
    let s := (v2 * v3 - u3 * v1) / (u3 * u2 - v3 * v3) in
    let t := (- s * v3 - v2) / u3 in
    if Rltb zTOL s && Rltb s (zTOL + 1) && Rltb zTOL t && Rltb t (zTOL + 1) && Rltb (t + s) (zTOL + 1) then
      let dir := zVec3DCat (zVec3DCat p0 s d1) t d2 in Some (zVec3DSqrNorm dir, dir)
    else
      match mprCalcSegDist p0 p1, mprCalcSegDist p0 p2, mprCalcSegDist p1 p2 with
      | Some (dist, dir), Some (e2, w2), Some (e3, w3) =>
          let '(dist, dir) := if Rltb e2 dist then (e2, w2) else (dist, dir) in
          Some (if Rltb e3 dist then (e3, w3) else (dist, dir))
      | _, _, _ => None
      end.
(** 265-287: depth, pos and dir. The outer [None]: undefined; the inner one: false *)
Fixpoint mprDepthLoop (iter : nat) (l1 l2 : list vec3) (s0 s1 s2 s3 : mslot) : option (option (R * vec3 * vec3)) :=
  match iter with
  | O => Some None
  | S iter =>
      match mprSimplexDir s1 s2 s3 with
      | None => None
      | Some d =>
          match mprSupportMap l1 l2 d with
          | None => None
          | Some s =>
              if mprIsReached s1 s2 s3 s d then
                match mprCalcDepth (ms_v s1) (ms_v s2) (ms_v s3) with
                | None => None
                | Some (dist, w) =>
                    match normalizeNC w, mprDepthPair s0 s1 s2 s3 with
                    | Some dir, Some pos => Some (Some (sqrt dist, pos, dir))
                    | _, _ => None
                    end
                end
              else let '(s1, s2, s3) := mprExpand s0 s1 s2 s3 s in mprDepthLoop iter l1 l2 s0 s1 s2 s3
          end
      end
  end.
(** 304-330 *)
Definition zMPRDepth (fuel iter : nat) (l1 l2 : list vec3) : option (option (R * vec3 * vec3)) :=
  match mprFindPortal fuel l1 l2 with
  | AtPoint s1 => Some (Some (0, zVec3DMid (ms_v1 s1) (ms_v2 s1), v3zero))
  | OnSeg _ s1 =>
      match normalizeNC (ms_v s1) with
      | None => None
      | Some dir => Some (Some (zVec3DNorm (ms_v s1), zVec3DMid (ms_v1 s1) (ms_v2 s1), dir))
      end
  | ToRefine s0 s1 s2 s3 =>
      match mprRefinePortal fuel l1 l2 s0 s1 s2 s3 with
      | RBroken => None
      | RApart => Some None
      | RPortal s1 s2 s3 => mprDepthLoop iter l1 l2 s0 s1 s2 s3
      end
  | Outside => Some None
  | MFuel | MBroken => None
  end.
