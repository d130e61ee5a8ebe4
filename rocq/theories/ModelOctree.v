(** Model of the octree: include/zeo/zeo_vec3d_octree.h, src/zeo_vec3d_octree.c.
    Memory allocation succeeds.  The members _norm and _ncov (normal vector estimation) are not
    modelled: they are never read by the functions below.  Lists of points are given from tail to
    head, insertion being at the head; zListAppend is modelled by concatenation.
    Recursion that descends into octants it creates takes a depth limit; [None] means that the
    limit is exceeded. *)
From Verif Require Export Base ModelVec ModelBox ModelData.
From Verif Require SpecOctree.
Open Scope R_scope.

(** index 0..7 of a suboctant: bits 0x1 (x), 0x2 (y), 0x4 (z) *)
Inductive oidx := OI (xb yb zb : bool).
(** 0, 1, ..., 7 *)
Definition octs : list oidx :=
  [OI false false false; OI true false false; OI false true false; OI true true false;
   OI false false true; OI true false true; OI false true true; OI true true true].
Definition oidx_eqb (i j : oidx) : bool :=
  match i, j with OI a b c, OI a' b' c' => Bool.eqb a a' && Bool.eqb b b' && Bool.eqb c c' end.
(** zeo_vec3d_octree.h 15-24: [ONull] is a null pointer *)
Inductive octant := ONull | Oct (region : aabox3) (center : vec3) (points : list vec3) (sub : oidx -> octant).
Definition sub_null (o : octant) : bool := match o with ONull => true | _ => false end.
Definition o_points (o : octant) : list vec3 := match o with ONull => [] | Oct _ _ pts _ => pts end.
Definition o_region (o : octant) : aabox3 := match o with ONull => B3 (V3 0 0 0) (V3 0 0 0) | Oct r _ _ _ => r end.
Definition no_sub : oidx -> octant := fun _ => ONull.
Definition set_sub (sub : oidx -> octant) (i : oidx) (o : octant) : oidx -> octant := fun j => if oidx_eqb i j then o else sub j.
(** zeo_vec3d_octree.h 27 *)
Definition zVec3DOctantPointIsInside (region : aabox3) (point : vec3) : bool := zAABox3DPointIsInside region point zTOL.
(** zeo_vec3d_octree.h 30-33 *)
Definition zVec3DOctantIsSmallest (region : aabox3) (resolution : R) : bool :=
  Rltb (zAABox3DDepth region) (resolution + zTOL) && Rltb (zAABox3DWidth region) (resolution + zTOL) && Rltb (zAABox3DHeight region) (resolution + zTOL).
(** 11-31: an initialised octant covering a region *)
Definition zVec3DOctantCreate (xmin ymin zmin xmax ymax zmax : R) : octant :=
  let region := zAABox3DCreate xmin ymin zmin xmax ymax zmax in
  Oct region (zAABox3DCenter region) [] no_sub.
(** 49-53 *)
Definition oct_index (center point : vec3) : oidx :=
  OI (Rltb (vx center) (vx point)) (Rltb (vy center) (vy point)) (Rltb (vz center) (vz point)).
(** 59-66 *)
Definition suboctant_create (region : aabox3) (center : vec3) (i : oidx) : octant :=
  match i with
  | OI xb yb zb =>
      zVec3DOctantCreate
        (if xb then vx center else vx (bmin region)) (if yb then vy center else vy (bmin region)) (if zb then vz center else vz (bmin region))
        (if xb then vx (bmax region) else vx center) (if yb then vy (bmax region) else vy center) (if zb then vz (bmax region) else vz center)
  end.
(** 47-70: the suboctant for a point, allocated if necessary *)
Definition zVec3DOctantAllocSuboctant (region : aabox3) (center : vec3) (sub : oidx -> octant) (i : oidx) : octant :=
  if sub_null (sub i) then suboctant_create region center i else sub i.
(** 83-91 *)
Fixpoint zVec3DOctantAddPoint (fuel : nat) (o : octant) (point : vec3) (resolution : R) : option octant :=
  match fuel, o with
  | _, ONull => None
  | O, _ => None
  | S k, Oct region center points sub =>
      if zVec3DOctantIsSmallest region resolution then Some (Oct region center (points ++ [point]) sub)
      else let i := oct_index center point in
           match zVec3DOctantAddPoint k (zVec3DOctantAllocSuboctant region center sub i) point resolution with
           | Some s => Some (Oct region center points (set_sub sub i s))
           | None => None
           end
  end.
(** results of all eight suboctants *)
Definition all_sub (f : oidx -> option octant) : option (oidx -> octant) :=
  if forallb (fun i => match f i with Some _ => true | None => false end) octs
  then Some (fun i => match f i with Some o => o | None => ONull end) else None.
(** 128-132: one point is moved to its suboctant *)
Definition divide_step (region : aabox3) (center : vec3) (sub : oidx -> octant) (point : vec3) : oidx -> octant :=
  let i := oct_index center point in
  match zVec3DOctantAllocSuboctant region center sub i with
  | Oct r c pts s => set_sub sub i (Oct r c (pts ++ [point]) s)
  | ONull => sub
  end.
(** 114-138 *)
Fixpoint zVec3DOctantDivide (fuel : nat) (o : octant) (resolution : R) : option octant :=
  match fuel, o with
  | _, ONull => Some ONull
  | O, _ => None
  | S k, Oct region center points sub =>
      if zVec3DOctantIsSmallest region resolution then Some o
      else let sub := fold_left (divide_step region center) (rev points) sub in
           match all_sub (fun i => zVec3DOctantDivide k (sub i) resolution) with
           | Some sub => Some (Oct region center [] sub)
           | None => None
           end
  end.
(** 141-148, 157-160 and 179-181: all suboctants are merged; what is below them is destroyed *)
Definition merge_points (points : list vec3) (sub : oidx -> octant) : list vec3 := points ++ flat_map (fun i => o_points (sub i)) octs.
(** 151-165 *)
Fixpoint zVec3DOctantMerge (o : octant) (resolution : R) : octant :=
  match o with
  | ONull => ONull
  | Oct region center points sub =>
      let sub := fun i => zVec3DOctantMerge (sub i) resolution in
      if zVec3DOctantIsSmallest region resolution then Oct region center (merge_points points sub) no_sub
      else Oct region center points sub
  end.
(** 168-183 *)
Fixpoint zVec3DOctantUnify (o : octant) : octant * bool :=
  match o with
  | ONull => (ONull, false)
  | Oct region center points sub =>
      let sub' := fun i => fst (zVec3DOctantUnify (sub i)) in
      let bit := fun i => if sub_null (sub i) then false else snd (zVec3DOctantUnify (sub i)) in
      if negb (existsb bit octs) then (Oct region center points sub', true)
      else if negb (forallb bit octs) then (Oct region center points sub', false)
      else (Oct region center (merge_points points sub') no_sub, true)
  end.
(** 186-196 *)
Fixpoint zVec3DOctantFindContainer (o : octant) (point : vec3) : option octant :=
  match o with
  | ONull => None
  | Oct region _ _ sub =>
      if negb (zVec3DOctantPointIsInside region point) then None
      else match fold_left (fun found i => match found with Some _ => found | None => zVec3DOctantFindContainer (sub i) point end) octs None with
           | Some s => Some s
           | None => Some o
           end
  end.
(** 199-212: the boxes added, in order *)
Fixpoint zVec3DOctantToAABox3DList (o : octant) : list aabox3 :=
  match o with
  | ONull => []
  | Oct region _ _ sub =>
      if existsb (fun i => negb (sub_null (sub i))) octs then flat_map (fun i => zVec3DOctantToAABox3DList (sub i)) octs
      else [region]
  end.
(** zeo_vec3d_octree.h 36-38 *)
Record octree := OT { o_res : R; o_root : octant }.
(** 217-223 *)
Definition zVec3DOctreeInit (xmin ymin zmin xmax ymax zmax resolution : R) : octree :=
  OT resolution (zVec3DOctantCreate xmin ymin zmin xmax ymax zmax).
(** ceil *)
Definition ceil (x : R) : R := - IZR (Int_part (- x)).
(** ceil( zLog( 2, x ) ), [None] being minus infinity, for x >= 0 *)
Definition ceil_log2 (x : R) : option R := if Reqb x 0 then None else Some (ceil (ln x / ln 2)).
Definition omax (a b : option R) : option R :=
  match a, b with None, _ => b | _, None => a | Some x, Some y => Some (zMax x y) end.
(** 226-239 *)
Definition zVec3DOctreeInitAuto (region : aabox3) (resolution : R) : octree :=
  let e := omax (ceil_log2 (zAABox3DDepth region / resolution)) (omax (ceil_log2 (zAABox3DWidth region / resolution)) (ceil_log2 (zAABox3DHeight region / resolution))) in
  let p := match e with None => 0 | Some e => Rpower 2 (e - 1) end in
  let h := resolution * zMax p 1 in
  let c := zAABox3DCenter region in
  zVec3DOctreeInit (vx c - h) (vy c - h) (vz c - h) (vx c + h) (vy c + h) (vz c + h) resolution.
(** 248-255: the octree and whether a pointer to an octant is returned *)
Definition zVec3DOctreeAddPoint (fuel : nat) (t : octree) (point : vec3) : option (octree * bool) :=
  match o_root t with
  | ONull => None
  | Oct region _ _ _ =>
      if negb (zVec3DOctantPointIsInside region point) then Some (t, false)
      else match zVec3DOctantAddPoint fuel (o_root t) point (o_res t) with
           | Some r => Some (OT (o_res t) r, true)
           | None => None
           end
  end.
(** 258-267: stops at the first point refused *)
Definition zVec3DOctreeAddData (fuel : nat) (t : octree) (pointdata : data vec3) : option (data vec3 * option (octree * bool)) :=
  while_fetch (fuel_of pointdata) (zVecXDDataRewind pointdata) (Some (t, true))
    (fun s v => match s with
                | None => inr None
                | Some (t, _) => match zVec3DOctreeAddPoint fuel t v with
                                 | None => inr None
                                 | Some (t', true) => inl (Some (t', true))
                                 | Some (t', false) => inr (Some (t', false))
                                 end
                end).
(** 283-292 *)
Definition zVec3DOctreeChangeResolution (fuel : nat) (t : octree) (resolution : R) : option octree :=
  if Rltb resolution (o_res t)
  then match zVec3DOctantDivide fuel (o_root t) resolution with Some r => Some (OT resolution r) | None => None end
  else Some (OT resolution (zVec3DOctantMerge (o_root t) resolution)).
(** 295-299 *)
Definition zVec3DOctreeUnifyOctant (t : octree) : octree := OT (o_res t) (fst (zVec3DOctantUnify (o_root t))).
(** 302-305 *)
Definition zVec3DOctreeFindContainer (t : octree) (point : vec3) : option octant := zVec3DOctantFindContainer (o_root t) point.
(** 308-320: the pointer to the nearest point so far ([None]: not set) and its distance ([None]: HUGE_VAL) *)
Definition leaf_nn_step (point : vec3) (s : option vec3 * option R) (v : vec3) : option vec3 * option R :=
  let d_sqr := zVec3DSqrDist v point in
  if match snd s with None => true | Some dmin => Rltb d_sqr (zSqr dmin) end then (Some v, Some (sqrt d_sqr)) else s.
Definition zVec3DOctantLeafNN (points : list vec3) (point : vec3) (s : option vec3 * option R) : option vec3 * option R :=
  fold_left (leaf_nn_step point) points s.
(** 323-335 *)
Fixpoint zVec3DOctantNN (o : octant) (point : vec3) (s : option vec3 * option R) : option vec3 * option R :=
  match o with
  | ONull => s
  | Oct _ _ points sub =>
      match points with
      | _ :: _ => zVec3DOctantLeafNN points point s
      | [] =>
          fold_left (fun s i =>
            if sub_null (sub i) then s
            else if match snd s with None => false | Some dmin => Rltb (zSqr dmin) (zAABox3DSqrDistFromPoint (o_region (sub i)) point) end then s
            else zVec3DOctantNN (sub i) point s) octs s
      end
  end.
(** 338-346 *)
Definition zVec3DOctreeNN (t : octree) (point : vec3) : option vec3 * option R :=
  let s := match zVec3DOctreeFindContainer t point with
           | Some c => zVec3DOctantLeafNN (o_points c) point (None, None)
           | None => (None, None)
           end in
  zVec3DOctantNN (o_root t) point s.
(** 349-368; [None] is failure *)
Definition vic_step (point : vec3) (radius_sqr : R) (s : option (data vec3)) (v : vec3) : option (data vec3) :=
  match s with
  | None => None
  | Some vic => if Rltb (zVec3DSqrDist v point) radius_sqr
                then let '(vic, ok) := zVecXDDataAdd vic v in if ok then Some vic else None
                else s
  end.
Fixpoint zVec3DOctantVicinity (o : octant) (point : vec3) (radius_sqr : R) (s : option (data vec3)) : option (data vec3) :=
  match o with
  | ONull => s
  | Oct region _ points sub =>
      if Rleb radius_sqr (zAABox3DSqrDistFromPoint region point) then s
      else match points with
           | _ :: _ => fold_left (vic_step point radius_sqr) points s
           | [] => fold_left (fun s i => match s with None => None | _ => zVec3DOctantVicinity (sub i) point radius_sqr s end) octs s
           end
  end.
(** 369-373 *)
Definition zVec3DOctreeVicinity (t : octree) (point : vec3) (radius : R) : option (data vec3) :=
  zVec3DOctantVicinity (o_root t) point (radius * radius) (Some zVecXDDataInitAddrList).
(** 376-381: the boxes appended to the list of the caller and the number returned *)
Definition zVec3DOctreeToAABox3DList (t : octree) (list : List.list aabox3) : List.list aabox3 * nat :=
  let boxes := zVec3DOctantToAABox3DList (o_root t) in
  let list := list ++ boxes in
  (list, if Nat.eqb (length boxes) (length list) then length boxes else 0%nat).
(** a history of operations; [None]: the depth limit is exceeded *)
Definition run_oop (fuel : nat) (t : octree) (o : SpecOctree.oop) : option octree :=
  match o with
  | SpecOctree.OInsert p => match zVec3DOctreeAddPoint fuel t p with Some (t', _) => Some t' | None => None end
  | SpecOctree.OResolution r => zVec3DOctreeChangeResolution fuel t r
  end.
Fixpoint run_oops (fuel : nat) (t : octree) (h : list SpecOctree.oop) : option octree :=
  match h with [] => Some t | o :: h => match run_oop fuel t o with Some t' => run_oops fuel t' h | None => None end end.
