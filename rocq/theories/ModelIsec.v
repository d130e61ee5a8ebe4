(** Model of the intersection of convex polyhedra: src/zeo_col_ph.c 23-133 (Muller and Preparata's method).
    zGJKDepth and zVec3DDataConvexHull enter as parameters.  [None]: undefined behaviour; [Some None]: the null pointer.
    Memory exhaustion is not modelled. *)
From Verif Require Import Base Spec ModelVec ModelElem ModelPH.
From Coq Require Import List.
Import ListNotations.
Open Scope R_scope.

(** 24 *)
Definition zeoDualMinOffset : R := / 100000.
(** include/zeo/zeo_col_ph.h 21 *)
Definition zeoIntersectThreshold : R := / 10000.
(** 26-36; [None] when zVec3DDiv returns the null pointer *)
Definition zTri3DDualXform (t : tri3) (p : vec3) : option vec3 :=
  let d := zVec3DInnerProd (tnorm t) p in
  let d := if Rltb d 0 && Rltb (- zeoDualMinOffset) d then - zeoDualMinOffset
           else if Rleb 0 d && Rltb d zeoDualMinOffset then zeoDualMinOffset else d in
  zVec3DDiv (tnorm t) d.
(** 39-45 *)
Definition zTri3DDualXform_a (c : vec3) (t : tri3) : option vec3 := zTri3DDualXform t (zVec3DSub (tv0 t) c).
(** 48-51 *)
Definition zTri3DDualXform_b (t : tri3) : option vec3 := zTri3DDualXform t (tv0 t).
(** 54-66: the first face that the point is not clearly beneath, and the excess *)
Fixpoint zIntersectPH3DPointIsInside (ts : list tri3) (p : vec3) : option (tri3 * R) :=
  match ts with
  | [] => None
  | t :: r => let dis := zTri3DDistFromPointToPlane t p in
              if Rleb (- zTOL) dis then Some (t, dis + zTOL) else zIntersectPH3DPointIsInside r p
  end.
(** 96, 97 *)
Definition push (p : vec3) (o : option (tri3 * R)) : vec3 :=
  match o with None => p | Some (t, dis) => zVec3DCat p (- zTOL - dis) (tnorm t) end.
(** 91-98: [iter] moves are allowed (Z_MAX_ITER_NUM); [None]: the null pointer is returned *)
Fixpoint isec_base (iter : nat) (ts1 ts2 : list tri3) (p : vec3) : option vec3 :=
  match zIntersectPH3DPointIsInside ts1 p, zIntersectPH3DPointIsInside ts2 p with
  | None, None => Some p
  | o1, o2 => match iter with O => None | S iter => isec_base iter ts1 ts2 (push (push p o1) o2) end
  end.
(** 103-116: the faces as points of the dual space; [None]: the null pointer *)
Definition isec_dual (p : vec3) (ts : list tri3) : option (list vec3) := mapM (zTri3DDualXform_a p) ts.
(** 121-126: the faces of the dual hull as points *)
Definition isec_back (p : vec3) (ts : list tri3) : option (list vec3) :=
  mapM (fun t => match zTri3DDualXform_b t with None => None | Some z => Some (zVec3DAdd z p) end) ts.
(** 74-133; [hull]: zVec3DDataConvexHull, [depth]: zGJKDepth applied to the vertices, None when it returns false *)
Definition zIntersectPH3D (hull : list vec3 -> option ph3) (iter : nat) (depth : list vec3 -> list vec3 -> option (vec3 * vec3))
  (ph1 ph2 : ph3) : option (option ph3) :=
  match depth (pverts ph1) (pverts ph2) with
  | None => Some None
  | Some (p1, p2) =>
      if Rltb (zVec3DDist p1 p2) zeoIntersectThreshold then Some None else
      match zPH3DTris ph1, zPH3DTris ph2 with
      | Some ts1, Some ts2 =>
          match isec_base iter ts1 ts2 (zVec3DMid p1 p2) with
          | None => Some None
          | Some p =>
              match isec_dual p (ts1 ++ ts2) with
              | None => None
              | Some ys =>
                  match hull ys with
                  | None => Some None
                  | Some ch =>
                      match zPH3DTris ch with
                      | None => None
                      | Some tc => match isec_back p tc with None => Some None | Some zs => Some (hull zs) end
                      end
                  end
              end
          end
      | _, _ => None
      end
  end.
