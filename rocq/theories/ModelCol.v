(** Model of src/zeo_col.c (edges, planes, triangles) and of the plane and
    triangle part of src/zeo_col_box.c.

    An output array [ip] with its counter is a list.  A write behind the end of
    a local array, and the use of a plane that was never initialised, are [None]. *)
From Coq Require Import List Bool.
Import ListNotations.
From Verif Require Import Base ModelVec ModelElem ModelBox ModelTree.
Open Scope R_scope.

(** ** Edges and planes *)
(** src/zeo_col.c 10-18 *)
Definition zColChkEdgePlane3D (e : edge3) (pl : plane3) : bool :=
  let v0 := zVec3DSub (ev0 e) (porg pl) in
  let v1 := zVec3DSub (ev1 e) (porg pl) in
  Rleb (zVec3DInnerProd v0 (pnorm pl) * zVec3DInnerProd v1 (pnorm pl)) 0.
(** src/zeo_col.c 21-38: the list holds the points written to [ip] *)
Definition zIntersectEdgePlane3D (e : edge3) (pl : plane3) : list vec3 :=
  if negb (zColChkEdgePlane3D e pl) then []
  else
    let v := zVec3DSub (porg pl) (ev0 e) in
    let d := zVec3DInnerProd (zEdge3DVec e) (pnorm pl) in
    if zIsTiny d then [ev0 e; ev1 e]
    else [zVec3DAdd (ev0 e) (zVec3DMul (zEdge3DVec e) (zVec3DInnerProd v (pnorm pl) / d))].

(** ** Triangles and planes *)
(** the three edges of the loops of src/zeo_col.c 75-77 and 90-91 *)
Definition triEdges (t : tri3) : list edge3 := [E3 (tv0 t) (tv1 t); E3 (tv1 t) (tv2 t); E3 (tv2 t) (tv0 t)].
(** src/zeo_col.c 70-80 *)
Definition zColChkTriPlane3D (t : tri3) (pl : plane3) : bool :=
  existsb (fun e => zColChkEdgePlane3D e pl) (triEdges t).
(** src/zeo_col.c 93-97, 150-153, 158-161: keep a point unless an equal one is already there *)
Definition addNew (ip : list vec3) (v : vec3) : list vec3 :=
  if existsb (fun q => zVec3DEqual v q) ip then ip else ip ++ [v].
(** src/zeo_col.c 83-101 *)
Definition zIntersectTriPlane3D (t : tri3) (pl : plane3) : list vec3 :=
  fold_left (fun ip e => fold_left addNew (zIntersectEdgePlane3D e pl) ip) (triEdges t) [].

(** ** Edges and triangles *)
(** zeo_elem3d.h 317 *)
Definition zTri3DToPlane3D (t : tri3) : option plane3 := zPlane3DCreate (tv0 t) (tnorm t).
(** src/zeo_col.c 112-125 *)
Definition zIntersectEdgeTri3D (e : edge3) (t : tri3) : list vec3 :=
  match zTri3DToPlane3D t with
  | None => []
  | Some pl => filter (fun v => zTri3DPointIsInside t v zTOL) (zIntersectEdgePlane3D e pl)
  end.
(** src/zeo_col.c 104-109 *)
Definition zColChkEdgeTri3D (e : edge3) (t : tri3) : bool := Nat.ltb 0 (length (zIntersectEdgeTri3D e t)).

(** ** Pairs of triangles *)
(** src/zeo_col.c 147-154: one of the two filtering loops *)
Definition keepInside (t : tri3) (v : list vec3) (ip : list vec3) : list vec3 :=
  fold_left (fun ip v => if zTri3DPointIsInside t v zTOL then addNew ip v else ip) v ip.
(** src/zeo_col.c 136-164.  [None]: the local [plane] is read uninitialised, or one
    of the local arrays [v[0]], [v[1]] of three points is overrun.  When the second
    zTri3DToPlane3D fails, [plane] still holds the first one *)
Definition zIntersectTri3D (t1 t2 : tri3) : option (list vec3) :=
  match zTri3DToPlane3D t2 with
  | None => None
  | Some p2 =>
      let v0 := zIntersectTriPlane3D t1 p2 in
      let p1 := match zTri3DToPlane3D t1 with Some p1 => p1 | None => p2 end in
      let v1 := zIntersectTriPlane3D t2 p1 in
      if Nat.leb (length v0) 3 && Nat.leb (length v1) 3
      then Some (keepInside t1 v1 (keepInside t2 v0 []))
      else None
  end.
(** src/zeo_col.c 128-133: the local array [ip] holds two points; [None] when it is overrun *)
Definition zColChkTri3D (t1 t2 : tri3) : option bool :=
  match zIntersectTri3D t1 t2 with
  | None => None
  | Some ip => if Nat.leb (length ip) 2 then Some (Nat.ltb 0 (length ip)) else None
  end.

(** ** Planes and axis-aligned boxes *)
(** a vector from its components along [a] and the two following axes *)
Definition alongAxis (a : axis) (w1 w2 w3 : R) : vec3 :=
  match a with AX => V3 w1 w2 w3 | AY => V3 w3 w1 w2 | AZ => V3 w2 w3 w1 end.
(** src/zeo_col_box.c 12-30: [Some ip] for the return value 1 *)
Definition zIntersectPlaneAABox3DEdge (p : plane3) (a : axis) (w1min w1max w2 w3 : R) : option vec3 :=
  if zIsTiny (elem a (pnorm p)) then None
  else
    let a2 := axis_next a in
    let a3 := axis_next a2 in
    let w1 := (zVec3DInnerProd (pnorm p) (porg p) - elem a2 (pnorm p) * w2 - elem a3 (pnorm p) * w3) / elem a (pnorm p) in
    if Rltb w1min w1 && Rltb w1 w1max then Some (alongAxis a w1 w2 w3) else None.
(** src/zeo_col_box.c 44-55 = 71-82: the twelve calls in their order *)
Definition boxEdgeCalls (p : plane3) (b : aabox3) : list (option vec3) :=
  let x1 := vx (bmin b) in let y1 := vy (bmin b) in let z1 := vz (bmin b) in
  let x2 := vx (bmax b) in let y2 := vy (bmax b) in let z2 := vz (bmax b) in
  [zIntersectPlaneAABox3DEdge p AX x1 x2 y1 z1; zIntersectPlaneAABox3DEdge p AX x1 x2 y2 z1;
   zIntersectPlaneAABox3DEdge p AX x1 x2 y2 z2; zIntersectPlaneAABox3DEdge p AX x1 x2 y1 z2;
   zIntersectPlaneAABox3DEdge p AY y1 y2 z1 x1; zIntersectPlaneAABox3DEdge p AY y1 y2 z2 x1;
   zIntersectPlaneAABox3DEdge p AY y1 y2 z2 x2; zIntersectPlaneAABox3DEdge p AY y1 y2 z1 x2;
   zIntersectPlaneAABox3DEdge p AZ z1 z2 x1 y1; zIntersectPlaneAABox3DEdge p AZ z1 z2 x2 y1;
   zIntersectPlaneAABox3DEdge p AZ z1 z2 x2 y2; zIntersectPlaneAABox3DEdge p AZ z1 z2 x1 y2].
(** src/zeo_col_box.c 33-57 *)
Definition zColChkPlaneAABox3D (p : plane3) (b : aabox3) : bool :=
  existsb (fun r => match r with Some _ => true | None => false end) (boxEdgeCalls p b).
(** src/zeo_col_box.c 60-84 *)
Definition zIntersectPlaneAABox3D (p : plane3) (b : aabox3) : list vec3 :=
  flat_map (fun r => match r with Some ip => [ip] | None => [] end) (boxEdgeCalls p b).

(** ** Triangles and axis-aligned boxes *)
(** src/zeo_col_box.c 87-109: [Some ip] for true.  When the edge lies in the plane of
    the face, [d1] and [d2] both vanish, the quotients are 0/0 and all comparisons
    with them fail *)
Definition zColChkTriAABox3DEdgeAxOne (v1 v2 : vec3) (a : axis) (p : vec3) (b : aabox3) : option vec3 :=
  let d1 := elem a v1 - elem a p in
  let d2 := elem a v2 - elem a p in
  if (Rltb 0 d1 && Rltb 0 d2) || (Rltb d1 0 && Rltb d2 0) then None
  else if Reqb (d2 - d1) 0 then None
  else
    let a1 := axis_next a in
    let a2 := axis_next a1 in
    let s1 := elem a1 v1 - (elem a1 v2 - elem a1 v1) * d1 / (d2 - d1) in
    let s2 := elem a2 v1 - (elem a2 v2 - elem a2 v1) * d1 / (d2 - d1) in
    if Rltb (elem a1 (bmin b)) s1 && Rltb s1 (elem a1 (bmax b)) &&
       Rltb (elem a2 (bmin b)) s2 && Rltb s2 (elem a2 (bmax b))
    then Some (alongAxis a (elem a p) s1 s2) else None.
(** src/zeo_col_box.c 112-125 and 162-183: the calls for one edge of the triangle, in order *)
Definition triEdgeCalls (b : aabox3) (v1 v2 : vec3) : list (option vec3) :=
  flat_map (fun a => [zColChkTriAABox3DEdgeAxOne v1 v2 a (bmin b) b; zColChkTriAABox3DEdgeAxOne v1 v2 a (bmax b) b]) [AX; AY; AZ].
Definition zColChkTriAABox3DEdge (v1 v2 : vec3) (b : aabox3) : bool :=
  existsb (fun r => match r with Some _ => true | None => false end) (triEdgeCalls b v1 v2).
Definition zIntersectTriAABox3DEdge (v1 v2 : vec3) (b : aabox3) : list vec3 :=
  flat_map (fun r => match r with Some ip => [ip] | None => [] end) (triEdgeCalls b v1 v2).
(** src/zeo_col_box.c 134-137 and 191-194: the box edges that pierce the triangle.  [None]: the
    local plane is uninitialised or the local array of six points is overrun *)
Definition triPlanePoints (t : tri3) (b : aabox3) : option (list vec3) :=
  match zTri3DToPlane3D t with
  | None => None
  | Some p =>
      let ip := zIntersectPlaneAABox3D p b in
      if Nat.leb (length ip) 6 then Some (filter (fun v => zTri3DPointIsInside t v (- zTOL)) ip) else None
  end.
(** src/zeo_col_box.c 128-139 *)
Definition zColChkTriAABox3DPlane (t : tri3) (b : aabox3) : option bool :=
  match triPlanePoints t b with None => None | Some l => Some (Nat.ltb 0 (length l)) end.
(** src/zeo_col_box.c 142-153 *)
Definition zColChkTriAABox3D (t : tri3) (b : aabox3) : option bool :=
  if zAABox3DPointIsInside b (tv0 t) (- zTOL) || zAABox3DPointIsInside b (tv1 t) (- zTOL) || zAABox3DPointIsInside b (tv2 t) (- zTOL)
  then Some true
  else if zColChkTriAABox3DEdge (tv0 t) (tv1 t) b || zColChkTriAABox3DEdge (tv1 t) (tv2 t) b || zColChkTriAABox3DEdge (tv2 t) (tv0 t) b
  then Some true
  else zColChkTriAABox3DPlane t b.
(** src/zeo_col_box.c 195-204 *)
Definition zIntersectTriAABox3D (t : tri3) (b : aabox3) : option (list vec3) :=
  match triPlanePoints t b with
  | None => None
  | Some l =>
      Some (zIntersectTriAABox3DEdge (tv0 t) (tv1 t) b ++ zIntersectTriAABox3DEdge (tv1 t) (tv2 t) b ++
            zIntersectTriAABox3DEdge (tv2 t) (tv0 t) b ++ l)
  end.
