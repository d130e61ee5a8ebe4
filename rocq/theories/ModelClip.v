(** Lists of triangles and triangulation of loops: src/zeo_elem3d_list.c *)
From Verif Require Import Base ModelVec ModelElem.
From Coq Require Import List.
Import ListNotations.
Open Scope R_scope.

(** Lists are written in the order of zListForEach, from tail to head; adding at the
    head is appending. *)
(** src/zeo_elem3d_list.c 28-35 *)
Definition zTri3DListAlign (l : list tri3) (ref : vec3) : list tri3 :=
  map (fun t => if Rltb (zVec3DInnerProd ref (tnorm t)) 0 then snd (zTri3DFlip t) else t) l.
(** src/zeo_elem3d_list.c 38-47: the values written to t[0], t[1], ...; the first one is
    written before the size is looked at *)
Definition zTri3DListCopyArray (l : list tri3) (n : nat) : list tri3 := firstn (Nat.max 1 n) l.

(** src/zeo_elem3d_list.c 60-66: index of the first corner with the least x *)
Fixpoint xExtreme (i st : nat) (x_min : R) (l : list vec3) : nat :=
  match l with
  | [] => st
  | v :: r => if Rltb (vx v) x_min then xExtreme (S i) i (vx v) r else xExtreme (S i) st x_min r
  end.
(** src/zeo_elem3d_list.c 54-75 *)
Definition zLoop3DTriangulateNorm (v : vec3) (r : list vec3) : vec3 :=
  let loop := v :: r in
  let st := xExtreme 0 0 (vx v) loop in
  let pre := nth (if Nat.eqb st 0 then length loop - 1 else st - 1)%nat loop v in
  let pst := nth (if Nat.eqb st (length loop - 1) then 0 else st + 1)%nat loop v in
  let e1 := zVec3DSub pre (nth st loop v) in
  let e2 := zVec3DSub pst (nth st loop v) in
  snd (zVec3DNormalizeDRC (zVec3DOuterProd e2 e1)).
(** src/zeo_elem3d_list.c 78-90: the corners visited are [others] *)
Definition zLoop3DTriangulateCheck (t : tri3) (others : list vec3) : bool :=
  forallb (fun v => negb (zTri3DPointIsInside t v zTOL)) others.
(** the corners from the one after [pst] round to the one before [pre]; [bef]: the
    corners before [vp], latest first; [aft]: the corners after [pst] *)
Definition otherCorners (bef aft : list vec3) : list vec3 :=
  match bef with [] => removelast aft | _ :: b => aft ++ rev b end.
(** src/zeo_elem3d_list.c 106-113, then 115: the triangle to be added and the loop
    without [vp].  When [vp] arrives at the head no corner was accepted; the last
    triangle tried is kept, which is not the one at [vp]. *)
Fixpoint clipScan (norm : vec3) (bef : list vec3) (vp : vec3) (aft : list vec3) (t : option tri3) : option tri3 * list vec3 :=
  match aft with
  | [] => (t, rev bef)
  | pst :: aft' =>
      let pre := match bef with u :: _ => u | [] => last aft vp end in
      let t := snd (zTri3DCreate pre vp pst) in
      if Rltb 0 (zVec3DInnerProd (tnorm t) norm) && zLoop3DTriangulateCheck t (otherCorners bef aft')
      then (Some t, rev bef ++ aft)
      else clipScan norm (vp :: bef) pst aft' (Some t)
  end.
(** src/zeo_elem3d_list.c 102-117.  [None]: out of fuel, or an unset triangle *)
Fixpoint clipLoop (fuel : nat) (norm : vec3) (loop : list vec3) : option (list tri3) :=
  if Nat.leb (length loop) 2 then Some []
  else match fuel, loop with
  | S k, vp :: aft =>
      match clipScan norm [] vp aft None with
      | (Some t, loop') => match clipLoop k norm loop' with Some r => Some (t :: r) | None => None end
      | (None, _) => None
      end
  | _, _ => None
  end.
(** src/zeo_elem3d_list.c 92-119; 122-131 and 134-145 call it on a copy of the loop in
    the same order.  [None] for an empty loop: the data of the root cell are read *)
Definition zLoop3DTriangulate (loop : list vec3) : option (list tri3) :=
  match loop with
  | [] => None
  | v :: r => clipLoop (length loop) (zLoop3DTriangulateNorm v r) loop
  end.
