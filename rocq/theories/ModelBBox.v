(** src/zeo_bv3d_obb.c: oriented bounding box of points.  The hull polyhedron [ch] is the result of zVec3DDataConvexHull
    (src/zeo_bv3d_convexhull.c), which is not modelled and enters as a parameter.  [None]: an undefined value. *)
From Verif Require Import Base Spec SpecBox ModelVec ModelElem ModelBox ModelPH ModelHull.
From Coq Require Import List ZArith.
Import ListNotations.
Open Scope R_scope.

(** 19-21: depth of the polyhedron under the plane of a face *)
Definition obb_depth (t : tri3) (vs : list vec3) : R :=
  fold_left (fun l v => let ls := - zTri3DDistFromPointToPlane t v in if Rltb l ls then ls else l) vs 0.
(** 17-26: the face with the least depth; the height starts as HUGE_VAL, here None *)
Definition obb_bot (ts : list tri3) (vs : list vec3) : option (tri3 * R) :=
  fold_left (fun b t => let l := obb_depth t vs in
    if match b with None => true | Some (_, h) => Rltb l h end then Some (t, l) else b) ts None.
(** 11-34: (height, axis Z, centre, plane); without faces a null pointer is dereferenced *)
Definition zOBB3DMinDir (ch : ph3) : option (R * vec3 * vec3 * plane3) :=
  match zPH3DTris ch with
  | None => None
  | Some ts =>
      match obb_bot ts (pverts ch) with
      | None => None
      | Some (bot, h) =>
          let c := zVec3DCat (tv0 bot) (- (1 / 2) * h) (tnorm bot) in
          match zPlane3DCreate c (tnorm bot) with None => None | Some pl => Some (h, tnorm bot, c, pl) end
      end
  end.
(** 42-51: least and greatest coordinate *)
Definition obb_range (d : vec3) (t : vec3) (l : list vec3) : R * R :=
  fold_left (fun '(mn, mx) v => let x := zVec3DInnerProd d v in (if Rltb x mn then x else mn, if Rltb mx x then x else mx)) l
    (zVec3DInnerProd d t, zVec3DInnerProd d t).
(** 36-55: (area, centre, l1, l2); an empty loop has no tail *)
Definition zOBB3DRect (edge : list vec3) (d1 d2 : vec3) : option (R * vec3 * R * R) :=
  match edge with
  | [] => None
  | t :: _ =>
      let '(min1, max1) := obb_range d1 t edge in
      let '(min2, max2) := obb_range d2 t edge in
      let c := zVec3DCat (zVec3DMul d1 (1 / 2 * (max1 + min1))) (1 / 2 * (max2 + min2)) d2 in
      Some ((max1 - min1) * (max2 - min2), c, max1 - min1, max2 - min2)
  end.
(** 83: the pairs of cells (vp1, vp2) the loop runs through: tail and head, then each cell and the one before it *)
Fixpoint obb_pairs (prev : vec3) (l : list vec3) : list (vec3 * vec3) :=
  match l with [] => [] | v :: r => (v, prev) :: obb_pairs v r end.
(** 84-96: one turn; the state is (area_min, X, Y, dc, depth, width), None before the first success *)
Definition obb_turn (az : vec3) (rim : list vec3) (st : option (R * vec3 * vec3 * vec3 * R * R)) (e : vec3 * vec3)
  : option (R * vec3 * vec3 * vec3 * R * R) :=
  let e1 := zVec3DSub (snd e) (fst e) in
  let e2 := zVec3DOuterProd az e1 in
  let e1 := snd (zVec3DNormalizeDRC e1) in
  let e2 := snd (zVec3DNormalizeDRC e2) in
  match zOBB3DRect rim e1 e2 with
  | None => st
  | Some (area, c, l1, l2) =>
      if match st with None => true | Some (am, _, _, _, _, _) => Rltb area am end then Some (area, e1, e2, c, l1, l2) else st
  end.
(** 57-103; Some None: no planar hull, the function returns false.  The vertices of [ch] are overwritten, and discarded by the caller. *)
Definition zOBB3DMaxDir (sort : (vec3 -> vec3 -> Z) -> list vec3 -> list vec3) (ch : ph3) (h : R) (az center : vec3) (pl : plane3)
  : option (option box3) :=
  let vs := map (fun v => zVec3DSub (snd (zPlane3DProjPoint pl v)) center) (pverts ch) in
  match zVec3DDataConvexHull2D sort vs with
  | None => Some None
  | Some rim =>
      match fold_left (obb_turn az rim) (obb_pairs (last rim v3zero) rim) None with
      | None => None
      | Some (_, e1, e2, dc, l1, l2) => Some (Some (BX (F3 (zVec3DAdd center dc) (cols3 e1 e2 az)) (V3 l1 l2 h)))
      end
  end.
(** 105-117; [hull]: zVec3DDataConvexHull. Some None: the null pointer *)
Definition zVec3DDataOBB (sort : (vec3 -> vec3 -> Z) -> list vec3 -> list vec3) (hull : list vec3 -> option ph3) (data : list vec3)
  : option (option box3) :=
  match hull data with
  | None => Some None
  | Some ch =>
      match zOBB3DMinDir ch with
      | None => None
      | Some (h, az, c, pl) => zOBB3DMaxDir sort ch h az c pl
      end
  end.
