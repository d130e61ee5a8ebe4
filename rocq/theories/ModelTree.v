(** Model of the kd-tree: include/zeo/zeo_vec3d_tree.h, src/zeo_vec3d_tree.c.
    Memory allocation succeeds.  A bound of a region is an optional number, [None] being -HUGE_VAL
    for a lower and HUGE_VAL for an upper bound; a distance is an optional number, [None] being
    HUGE_VAL.  Reading the split axis of an empty root (point.e[-1]) or its point (not initialised)
    is undefined behaviour: the result is [None]. *)
From Verif Require Export Base ModelVec ModelBox ModelData.
Open Scope R_scope.

(** zAxis restricted to zX, zY, zZ *)
Inductive axis := AX | AY | AZ.
(** (split+1)%3 *)
Definition axis_next (a : axis) : axis := match a with AX => AY | AY => AZ | AZ => AX end.
(** v.e[axis] *)
Definition elem (a : axis) (v : vec3) : R := match a with AX => vx v | AY => vy v | AZ => vz v end.
(** zAABox3D with possibly infinite bounds *)
Record xbox := XBX { lox : option R; loy : option R; loz : option R; hix : option R; hiy : option R; hiz : option R }.
(** 14 *)
Definition xbox_all : xbox := XBX None None None None None None.
Definition set_lo (b : xbox) (a : axis) (v : R) : xbox :=
  match a with
  | AX => XBX (Some v) (loy b) (loz b) (hix b) (hiy b) (hiz b)
  | AY => XBX (lox b) (Some v) (loz b) (hix b) (hiy b) (hiz b)
  | AZ => XBX (lox b) (loy b) (Some v) (hix b) (hiy b) (hiz b)
  end.
Definition set_hi (b : xbox) (a : axis) (v : R) : xbox :=
  match a with
  | AX => XBX (lox b) (loy b) (loz b) (Some v) (hiy b) (hiz b)
  | AY => XBX (lox b) (loy b) (loz b) (hix b) (Some v) (hiz b)
  | AZ => XBX (lox b) (loy b) (loz b) (hix b) (hiy b) (Some v)
  end.
(** zAABox3DSqrDistFromPoint (src/zeo_elem3d_box.c 92-105) with possibly infinite bounds:
    the comparison with an infinite bound is false *)
Definition xsqr_excess (v : R) (mn mx : option R) (d2 : R) : R :=
  match mn with
  | Some m => if Rltb v m then d2 + zSqr (v - m) else match mx with Some M => if Rltb M v then d2 + zSqr (v - M) else d2 | None => d2 end
  | None => match mx with Some M => if Rltb M v then d2 + zSqr (v - M) else d2 | None => d2 end
  end.
Definition xbox_sqrdist (b : xbox) (p : vec3) : R :=
  xsqr_excess (vz p) (loz b) (hiz b) (xsqr_excess (vy p) (loy b) (hiy b) (xsqr_excess (vx p) (lox b) (hix b) 0)).

(** zeo_vec3d_tree.h 24-33: [Nil] is a null child, or, as a root, an initialised empty tree
    (split = zAxisInvalid, size 0, region unbounded) *)
Inductive tree := Nil | Node (size id : nat) (split : axis) (point : vec3) (region : xbox) (child0 child1 : tree).
Definition t_size (t : tree) : nat := match t with Nil => 0%nat | Node s _ _ _ _ _ _ => s end.
Definition t_id (t : tree) : option nat := match t with Nil => None | Node _ i _ _ _ _ _ => Some i end.
Definition t_point (t : tree) : option vec3 := match t with Nil => None | Node _ _ _ p _ _ _ => Some p end.
Definition t_region (t : tree) : xbox := match t with Nil => xbox_all | Node _ _ _ _ r _ _ => r end.
(** 10-18 *)
Definition zVec3DTreeInit : tree := Nil.
(** 38-41: true is branch 0 *)
Definition zVec3DTreeChooseBranch (split : axis) (p : vec3) (point : vec3) : bool := Rleb (elem split p) (elem split point).
(** 21-35 (the region is set by the caller) *)
Definition zVec3DTreeCreateLeaf (split : axis) (point : vec3) (id : nat) (region : xbox) : tree := Node 1 id split point region Nil Nil.
(** 44-61 *)
Fixpoint zVec3DTreeAddPoint_node (node : tree) (point : vec3) (id : nat) : tree :=
  match node with
  | Nil => Nil
  | Node size i split p region c0 c1 =>
      if zVec3DTreeChooseBranch split p point then
        match c0 with
        | Nil => Node (S size) i split p region (zVec3DTreeCreateLeaf (axis_next split) point id (set_lo region split (elem split p))) c1
        | _ => Node (S size) i split p region (zVec3DTreeAddPoint_node c0 point id) c1
        end
      else
        match c1 with
        | Nil => Node (S size) i split p region c0 (zVec3DTreeCreateLeaf (axis_next split) point id (set_hi region split (elem split p)))
        | _ => Node (S size) i split p region c0 (zVec3DTreeAddPoint_node c1 point id)
        end
  end.
(** 64-74 *)
Definition zVec3DTreeAddPoint (tree : tree) (point : vec3) : ModelTree.tree :=
  match tree with
  | Nil => Node 1 0 AX point xbox_all Nil Nil
  | _ => zVec3DTreeAddPoint_node tree point (t_size tree)
  end.
(** 77-84; [None]: undefined behaviour on an empty root *)
Fixpoint zVec3DTreePart (node : tree) (point : vec3) : option tree :=
  match node with
  | Nil => None
  | Node _ _ split p _ c0 c1 =>
      if zVec3DTreeChooseBranch split p point then match c0 with Nil => Some node | _ => zVec3DTreePart c0 point end
      else match c1 with Nil => Some node | _ => zVec3DTreePart c1 point end
  end.
(** 89, with the square of the current distance, which is infinite at first *)
Definition zVec3DTreeIsOverlap (region : xbox) (point : vec3) (dmin : option R) : bool :=
  match dmin with None => true | Some d => Rltb (xbox_sqrdist region point) (zSqr d) end.
(** 92-100: the pointer to the nearest node so far and its distance *)
Definition zVec3DTreeNNTest (node : tree) (p : vec3) (point : vec3) (s : option tree * option R) : option tree * option R :=
  let d_sqr := zVec3DSqrDist p point in
  if match snd s with None => true | Some dmin => Rltb d_sqr (zSqr dmin) end then (Some node, Some (sqrt d_sqr)) else s.
(** 103-111 *)
Fixpoint zVec3DTreeNNOpp (node : tree) (point : vec3) (s : option tree * option R) : option tree * option R :=
  match node with
  | Nil => s
  | Node _ _ _ p _ c0 c1 =>
      let s := zVec3DTreeNNTest node p point s in
      let s := match c0 with Nil => s | _ => if zVec3DTreeIsOverlap (t_region c0) point (snd s) then zVec3DTreeNNOpp c0 point s else s end in
      match c1 with Nil => s | _ => if zVec3DTreeIsOverlap (t_region c1) point (snd s) then zVec3DTreeNNOpp c1 point s else s end
  end.
(** 114-126 *)
Fixpoint zVec3DTreeNN_node (node : tree) (point : vec3) (s : option tree * option R) : option tree * option R :=
  match node with
  | Nil => s
  | Node _ _ split p _ c0 c1 =>
      let b := zVec3DTreeChooseBranch split p point in
      let s := if b then zVec3DTreeNN_node c0 point s else zVec3DTreeNN_node c1 point s in
      let s := zVec3DTreeNNTest node p point s in
      let ob := if b then c1 else c0 in
      match ob with Nil => s | _ => if zVec3DTreeIsOverlap (t_region ob) point (snd s) then zVec3DTreeNNOpp ob point s else s end
  end.
(** 129-135: the node found and the distance returned; [None]: undefined behaviour *)
Definition zVec3DTreeNN (tree : tree) (point : vec3) : option (option ModelTree.tree * option R) :=
  match tree with Nil => None | _ => Some (zVec3DTreeNN_node tree point (None, None)) end.
(** 138-144; [None] is failure *)
Definition zVec3DTreeVicinityTest (p : vec3) (point : vec3) (radius_sqr : R) (vicinity : data vec3) : option (data vec3) :=
  if Rltb (zVec3DSqrDist p point) radius_sqr
  then let '(v, ok) := zVecXDDataAdd vicinity p in if ok then Some v else None
  else Some vicinity.
Definition bind {A B} (x : option A) (f : A -> option B) : option B := match x with Some a => f a | None => None end.
(** 147-155 *)
Fixpoint zVec3DTreeVicinityOpp (node : tree) (point : vec3) (radius_sqr : R) (vicinity : data vec3) : option (data vec3) :=
  match node with
  | Nil => Some vicinity
  | Node _ _ _ p _ c0 c1 =>
      bind (zVec3DTreeVicinityTest p point radius_sqr vicinity) (fun v =>
      bind (match c0 with Nil => Some v | _ => if Rltb (xbox_sqrdist (t_region c0) point) radius_sqr then zVec3DTreeVicinityOpp c0 point radius_sqr v else Some v end) (fun v =>
      match c1 with Nil => Some v | _ => if Rltb (xbox_sqrdist (t_region c1) point) radius_sqr then zVec3DTreeVicinityOpp c1 point radius_sqr v else Some v end))
  end.
(** 158-170 *)
Fixpoint zVec3DTreeVicinity_node (node : tree) (point : vec3) (radius_sqr : R) (vicinity : data vec3) : option (data vec3) :=
  match node with
  | Nil => Some vicinity
  | Node _ _ split p _ c0 c1 =>
      let b := zVec3DTreeChooseBranch split p point in
      bind (if b then zVec3DTreeVicinity_node c0 point radius_sqr vicinity else zVec3DTreeVicinity_node c1 point radius_sqr vicinity) (fun v =>
      bind (zVec3DTreeVicinityTest p point radius_sqr v) (fun v =>
      let ob := if b then c1 else c0 in
      match ob with Nil => Some v | _ => if Rltb (xbox_sqrdist (t_region ob) point) radius_sqr then zVec3DTreeVicinityOpp ob point radius_sqr v else Some v end))
  end.
(** 171-175 *)
Definition zVec3DTreeVicinity (tree : tree) (point : vec3) (radius : R) : option (data vec3) :=
  match tree with Nil => None | _ => zVec3DTreeVicinity_node tree point (radius * radius) zVecXDDataInitAddrList end.
(** 178-186; an array is the list of its elements *)
Definition zVec3DArrayToTree (array : list vec3) : tree := fold_left zVec3DTreeAddPoint array zVec3DTreeInit.
(** zArraySetElem: fails if the index is out of range *)
Fixpoint set_elem (array : list vec3) (i : nat) (v : vec3) : option (list vec3) :=
  match array, i with
  | [], _ => None
  | _ :: t, O => Some (v :: t)
  | x :: t, S j => match set_elem t j v with Some t' => Some (x :: t') | None => None end
  end.
(** 189-200: the array and whether the result is non-null *)
Fixpoint zVec3DTreeToArray_node (node : tree) (array : list vec3) : list vec3 * bool :=
  match node with
  | Nil => (array, true)
  | Node _ id _ p _ c0 c1 =>
      match set_elem array id p with
      | None => (array, false)
      | Some array =>
          let '(array, ret0) := zVec3DTreeToArray_node c0 array in
          let '(array, ret1) := zVec3DTreeToArray_node c1 array in
          (array, ret0 && ret1)
      end
  end.
(** 203-207: the cells allocated are zero; on an empty tree the index -1 is refused, [None] is null *)
Definition zVec3DTreeToArray (tree : tree) : option (list vec3) :=
  match tree with
  | Nil => None
  | _ => let '(array, ok) := zVec3DTreeToArray_node tree (repeat (V3 0 0 0) (t_size tree)) in if ok then Some array else None
  end.
(** 210-218: a list is given from tail to head, insertion being at the head *)
Fixpoint zVec3DTreeNodeToList (node : tree) (list : list vec3) : List.list vec3 :=
  match node with
  | Nil => list
  | Node _ _ _ p _ c0 c1 => zVec3DTreeNodeToList c1 (zVec3DTreeNodeToList c0 (list ++ [p]))
  end.
(** 221-226; [None]: the uninitialised point of an empty root is added *)
Definition zVec3DTreeToList (tree : tree) : option (list vec3) :=
  match tree with Nil => None | _ => Some (zVec3DTreeNodeToList tree []) end.
(** 229-238 *)
Definition zVec3DListToTree (list : list vec3) : tree := fold_left zVec3DTreeAddPoint list zVec3DTreeInit.
(** 241-250 *)
Definition zVec3DTreeAddData (tree : tree) (pointdata : data vec3) : option (data vec3 * ModelTree.tree) :=
  while_fetch (fuel_of pointdata) (zVecXDDataRewind pointdata) tree (fun t v => inl (zVec3DTreeAddPoint t v)).
(** 253-257 *)
Definition zVec3DDataToTree (pointdata : data vec3) : option (data vec3 * tree) := zVec3DTreeAddData zVec3DTreeInit pointdata.
(** 260-271: data and whether the result is non-null *)
Fixpoint zVec3DTreeToData_node (node : tree) (d : data vec3) : data vec3 * bool :=
  match node with
  | Nil => (d, true)
  | Node _ _ _ p _ c0 c1 =>
      let '(d, ok) := zVecXDDataAdd d p in
      if ok then
        let '(d, ret0) := zVec3DTreeToData_node c0 d in
        let '(d, ret1) := zVec3DTreeToData_node c1 d in
        (d, ret0 && ret1)
      else (d, false)
  end.
(** 274-277; [None]: undefined behaviour *)
Definition zVec3DTreeToData (tree : tree) (d : data vec3) : option (data vec3 * bool) :=
  match tree with Nil => None | _ => Some (zVec3DTreeToData_node tree d) end.
