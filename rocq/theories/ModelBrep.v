(** Boundary representations: src/zeo_brep.c, src/zeo_brep_trunc.c, src/zeo_brep_bool.c,
    include/zeo/zeo_brep.h.
    Cells of the vertex and edge lists live at addresses; lists are given in the order of
    zListForEach, from tail to head, so that zListInsertHead appends and zListInsertTail
    puts in front.  Nothing refers to a face cell: faces are kept by value.  An address
    that has been freed is not given out again.  Allocation succeeds.
    [None]: a dangling or null pointer is followed, or a NULL pointer is returned. *)
From Verif Require Export SpecBrep ModelVec ModelElem ModelPH ModelCol.
Open Scope R_scope.

Definition upd {A} (h : nat -> option A) (k : nat) (x : option A) : nat -> option A := fun j => if Nat.eqb j k then x else h j.
Definition set3 {A} (t : A * A * A) (i : nat) (a : A) : A * A * A := let '(x, y, z) := t in match i with 0%nat => (a, y, z) | 1%nat => (x, a, z) | _ => (x, y, a) end.
Definition empty_brep : brep := BR (fun _ => None) (fun _ => None) 0 [] [] [].
Definition bind {A B} (x : option A) (f : A -> option B) : option B := match x with Some a => f a | None => None end.

(** ** Cutting: src/zeo_brep_trunc.c *)
(** 10-23: the heights are stored in the vertices; the number of vertices beyond *)
Fixpoint truncBBCheck (pl : plane3) (l : list nat) (h : nat -> option vcell) : option ((nat -> option vcell) * nat) :=
  match l with
  | [] => Some (h, 0%nat)
  | v :: t =>
      match h v with
      | None => None
      | Some c =>
          let d := zVec3DInnerProd (zVec3DSub (vc_p c) (porg pl)) (pnorm pl) in
          let d := if zIsTiny d then 0 else d in
          match truncBBCheck pl t (upd h v (Some (VC (vc_p c) d))) with
          | None => None
          | Some (h, count) => Some (h, if Rltb 0 d then S count else count)
          end
      end
  end.
(** 26-49: one new vertex for every edge with ends on both sides *)
Fixpoint truncIntersect (l : list nat) (b : brep) : option brep :=
  match l with
  | [] => Some b
  | e :: t =>
      match br_e b e with
      | None => None
      | Some c =>
          match br_v b (ec_a c), br_v b (ec_b c) with
          | Some v0, Some v1 =>
              if Rltb (vc_d v0 * vc_d v1) 0 then
                let d1 := Rabs (vc_d v0) in
                let d2 := Rabs (vc_d v1) in
                let vp := br_next b in
                let p := zVec3DInterDiv (vc_p v0) (vc_p v1) (d1 / (d1 + d2)) in
                truncIntersect t (BR (upd (br_v b) vp (Some (VC p 0))) (upd (br_e b) e (Some (EGC (ec_a c) (ec_b c) (Some vp)))) (S vp) (vlist b ++ [vp]) (elist b) (flist b))
              else truncIntersect t b
          | _, _ => None
          end
      end
  end.
(** a new edge at the head of the list *)
Definition newEdge (b : brep) (x y : nat) : brep * nat :=
  (BR (br_v b) (upd (br_e b) (br_next b) (Some (EGC x y None))) (S (br_next b)) (vlist b) (elist b ++ [br_next b]) (flist b), br_next b).
(** the vertex where edge i of the face is cut *)
Definition cutOf (b : brep) (f : bface) (i : nat) : option nat := match br_e b (get3 (bf_e f) i) with Some c => ec_cut c | None => None end.
(** 52-85: the face as changed in its place, and a new face *)
Definition truncFaceA (b : brep) (f : bface) (i1 i2 i3 : nat) : option (brep * option bface * option bface) :=
  bind (cutOf b f i2) (fun c2 => bind (cutOf b f i3) (fun c3 =>
    let '(b, e4) := newEdge b c2 c3 in
    let '(b, e5) := newEdge b c2 (get3 (bf_v f) i2) in
    let fp := BF (get3 (bf_v f) i2, c2, c3) (e4, get3 (bf_e f) i3, e5) v3zero in
    Some (b, Some (BF (set3 (bf_v f) i1 c2) (set3 (bf_e f) i3 e5) (bf_norm f)), Some fp))).
(** 88-104 *)
Definition truncFaceV (b : brep) (f : bface) (i1 i2 i3 : nat) : option (brep * option bface * option bface) :=
  bind (cutOf b f i3) (fun c3 => bind (cutOf b f i2) (fun c2 =>
    let '(b, e4) := newEdge b c3 c2 in
    Some (b, Some (BF (set3 (set3 (bf_v f) i2 c3) i3 c2) (set3 (bf_e f) i1 e4) (bf_norm f)), None))).
(** 107-122 *)
Definition truncFaceE (b : brep) (f : bface) (i1 i2 i3 : nat) : option (brep * option bface * option bface) :=
  bind (cutOf b f i1) (fun c1 =>
    let '(b, e4) := newEdge b (get3 (bf_v f) i1) c1 in
    Some (b, Some (BF (set3 (bf_v f) i3 c1) (set3 (bf_e f) i2 e4) (bf_norm f)), None)).
(** 175 *)
Definition truncPat (d : R) : nat := if Rltb d 0 then 3%nat else if Rltb 0 d then 1%nat else 0%nat.
(** 176-210: the pattern as a number; the cases with a vertex beyond and none beneath remove the face *)
Definition truncFace (b : brep) (f : bface) : option (brep * option bface * option bface) :=
  match br_v b (get3 (bf_v f) 0), br_v b (get3 (bf_v f) 1), br_v b (get3 (bf_v f) 2) with
  | Some v0, Some v1, Some v2 =>
      match (truncPat (vc_d v0) + truncPat (vc_d v1) * 4 + truncPat (vc_d v2) * 16)%nat with
      | 1%nat | 4%nat | 5%nat | 16%nat | 17%nat | 20%nat | 21%nat => Some (b, None, None)
      | 0%nat | 3%nat | 12%nat | 15%nat | 48%nat | 51%nat | 60%nat | 63%nat => Some (b, Some f, None)
      | 31%nat => truncFaceA b f 2 0 1
      | 55%nat => truncFaceA b f 1 2 0
      | 61%nat => truncFaceA b f 0 1 2
      | 7%nat => truncFaceE b f 2 0 1
      | 13%nat => truncFaceE b f 2 1 0
      | 19%nat => truncFaceE b f 1 0 2
      | 28%nat => truncFaceE b f 0 1 2
      | 49%nat => truncFaceE b f 1 2 0
      | 52%nat => truncFaceE b f 0 2 1
      | 23%nat => truncFaceV b f 0 1 2
      | 29%nat => truncFaceV b f 1 2 0
      | 53%nat => truncFaceV b f 2 0 1
      | _ => None
      end
  | _, _, _ => None
  end.
(** 221-222: the faces in order; new faces are put in front of the list, where they are not met any more *)
Definition ocons {A} (o : option A) (l : list A) : list A := match o with Some a => a :: l | None => l end.
Fixpoint truncFaces (l : list bface) (b : brep) (front done : list bface) : option (brep * list bface) :=
  match l with
  | [] => Some (b, front ++ rev done)
  | f :: t => match truncFace b f with
              | None => None
              | Some (b, old, new) => truncFaces t b (ocons new front) (ocons old done)
              end
  end.
(** 125-138 *)
Fixpoint truncEdgeShrink (l : list nat) (b : brep) : option brep :=
  match l with
  | [] => Some b
  | e :: t =>
      match br_e b e with
      | None => None
      | Some c =>
          match ec_cut c with
          | None => truncEdgeShrink t b
          | Some x => match br_v b (ec_a c) with
                      | None => None
                      | Some v0 => truncEdgeShrink t (BR (br_v b) (upd (br_e b) e (Some (if Rltb 0 (vc_d v0) then EGC x (ec_b c) None else EGC (ec_a c) x None))) (br_next b) (vlist b) (elist b) (flist b))
                      end
          end
      end
  end.
(** 141-172: the marks of the cells are kept as the lists of addresses met in the faces *)
Definition memb (x : nat) (l : list nat) : bool := existsb (Nat.eqb x) l.
Definition list3 {A} (t : A * A * A) : list A := let '(x, y, z) := t in [x; y; z].
Definition free_unmarked {A} (h : nat -> option A) (l marked : list nat) : nat -> option A := fun k => if memb k l && negb (memb k marked) then None else h k.
Definition isSome {A} (o : option A) : bool := match o with Some _ => true | None => false end.
Definition truncGR (b : brep) : option brep :=
  let mv := flat_map (fun f => list3 (bf_v f)) (flist b) in
  let me := flat_map (fun f => list3 (bf_e f)) (flist b) in
  if forallb (fun v => isSome (br_v b v)) mv && forallb (fun e => isSome (br_e b e)) me then
    Some (BR (free_unmarked (br_v b) (vlist b) mv) (fun k => match free_unmarked (br_e b) (elist b) me k with Some c => Some (if memb k (elist b) then EGC (ec_a c) (ec_b c) None else c) | None => None end) (br_next b)
             (filter (fun v => memb v mv) (vlist b)) (filter (fun e => memb e me) (elist b)) (flist b))
  else None.
(** 213-227 *)
Definition with_flist (b : brep) (l : list bface) : brep := BR (br_v b) (br_e b) (br_next b) (vlist b) (elist b) l.
Definition zBREPTrunc (b : brep) (pl : plane3) : option brep :=
  match truncBBCheck pl (vlist b) (br_v b) with
  | None => None
  | Some (h, count) =>
      let b := BR h (br_e b) (br_next b) (vlist b) (elist b) (flist b) in
      if Nat.eqb count 0 then Some b
      else bind (truncIntersect (elist b) b) (fun b =>
           bind (truncFaces (flist b) b [] []) (fun '(b, l) =>
           let b := with_flist b l in
           bind (truncEdgeShrink (elist b) b) truncGR))
  end.
(** 230-241: a degenerate face leaves the last plane, none at first *)
Fixpoint truncTris (b : brep) (ts : list tri3) (last : option plane3) : option brep :=
  match ts with
  | [] => Some b
  | t :: ts =>
      let last := match zTri3DToPlane3D t with Some pl => Some pl | None => last end in
      match last with
      | None => None
      | Some pl => match zBREPTrunc b pl with None => None | Some b => truncTris b ts last end
      end
  end.
Definition zBREPTruncPH3D (b : brep) (ph : ph3) : option brep :=
  match zPH3DTris ph with None => None | Some ts => truncTris b ts None end.

(** ** Conversion: src/zeo_brep.c *)
(** 15-22: the first vertex of the list equal to [v]; the outer [None]: a dangling pointer *)
Fixpoint vertListFind (h : nat -> option vcell) (l : list nat) (v : vec3) : option (option nat) :=
  match l with
  | [] => Some None
  | x :: t => match h x with None => None | Some c => if zVec3DEqual (vc_p c) v then Some (Some x) else vertListFind h t v end
  end.
(** 25-37 *)
Definition vertFindnReg (b : brep) (v : vec3) : option (brep * nat) :=
  match vertListFind (br_v b) (vlist b) v with
  | None => None
  | Some (Some x) => Some (b, x)
  | Some None => Some (BR (upd (br_v b) (br_next b) (Some (VC v 0))) (br_e b) (S (br_next b)) (vlist b ++ [br_next b]) (elist b) (flist b), br_next b)
  end.
(** 40-49 *)
Fixpoint edgeListFind (h : nat -> option ecell) (l : list nat) (v1 v2 : nat) : option (option nat) :=
  match l with
  | [] => Some None
  | x :: t => match h x with
              | None => None
              | Some c => if (Nat.eqb (ec_a c) v1 && Nat.eqb (ec_b c) v2) || (Nat.eqb (ec_a c) v2 && Nat.eqb (ec_b c) v1) then Some (Some x) else edgeListFind h t v1 v2
              end
  end.
(** 52-64 *)
Definition edgeFindnReg (b : brep) (v1 v2 : nat) : option (brep * nat) :=
  match edgeListFind (br_e b) (elist b) v1 v2 with
  | None => None
  | Some (Some x) => Some (b, x)
  | Some None => Some (newEdge b v1 v2)
  end.
(** 67-83 *)
Definition faceInsert (b : brep) (t : tri3) : option brep :=
  bind (vertFindnReg b (tv0 t)) (fun '(b, v0) =>
  bind (vertFindnReg b (tv1 t)) (fun '(b, v1) =>
  bind (vertFindnReg b (tv2 t)) (fun '(b, v2) =>
  bind (edgeFindnReg b v1 v2) (fun '(b, e0) =>
  bind (edgeFindnReg b v2 v0) (fun '(b, e1) =>
  bind (edgeFindnReg b v0 v1) (fun '(b, e2) =>
  Some (with_flist b (flist b ++ [BF (v0, v1, v2) (e0, e1, e2) (tnorm t)])))))))).
Fixpoint facesInsert (b : brep) (ts : list tri3) : option brep :=
  match ts with [] => Some b | t :: ts => bind (faceInsert b t) (fun b => facesInsert b ts) end.
(** 90-105 *)
Definition zPH3D2BREP (ph : ph3) : option brep := bind (zPH3DTris ph) (facesInsert empty_brep).
(** 108-127; [None] also when the check of a face is undefined *)
Fixpoint chosen (box : aabox3) (ts : list tri3) : option (list tri3) :=
  match ts with
  | [] => Some []
  | t :: ts => match zColChkTriAABox3D t box, chosen box ts with Some c, Some r => Some (if c then t :: r else r) | _, _ => None end
  end.
Definition zPH3D2BREPInBox (ph : ph3) (box : aabox3) : option brep := bind (zPH3DTris ph) (fun ts => bind (chosen box ts) (facesInsert empty_brep)).
(** 130-152: a vertex of a face that is not in the list has no place in the array *)
Fixpoint place (x : nat) (l : list nat) : option nat :=
  match l with [] => None | y :: t => if Nat.eqb x y then Some 0%nat else match place x t with Some n => Some (S n) | None => None end end.
Definition facePlaces (b : brep) (vs : list vec3) (f : bface) : option face :=
  let '(x, y, z) := bf_v f in
  match place x (vlist b), place y (vlist b), place z (vlist b) with
  | Some i, Some j, Some k => faceCalcNorm vs (FC i j k v3zero)
  | _, _, _ => None
  end.
Definition zBREP2PH3D (b : brep) : option ph3 :=
  bind (mapM (fun v => match br_v b v with Some c => Some (vc_p c) | None => None end) (vlist b)) (fun vs =>
  with_faces vs (mapM (facePlaces b vs) (flist b))).

(** ** Merging: src/zeo_brep_bool.c *)
(** the two representations live in the same memory: the addresses of the second one are moved behind those of the first one *)
Definition shift_face (k : nat) (f : bface) : bface :=
  let '(x, y, z) := bf_v f in let '(p, q, r) := bf_e f in BF (k + x, k + y, k + z)%nat (k + p, k + q, k + r)%nat (bf_norm f).
Definition shift_edge (k : nat) (c : ecell) : ecell := EGC (k + ec_a c) (k + ec_b c) (option_map (Nat.add k) (ec_cut c)).
Definition shift_brep (k : nat) (b : brep) : brep :=
  BR (fun a => if Nat.ltb a k then None else br_v b (a - k)) (fun a => if Nat.ltb a k then None else option_map (shift_edge k) (br_e b (a - k)))
     (k + br_next b) (map (Nat.add k) (vlist b)) (map (Nat.add k) (elist b)) (map (shift_face k) (flist b)).
(** 18-20: to every vertex of the second list its equal in the first list *)
Fixpoint markVerts (t : brep) (h : nat -> option vcell) (l : list nat) : option (nat -> option nat) :=
  match l with
  | [] => Some (fun _ => None)
  | v :: r => match h v with
              | None => None
              | Some c => match vertListFind (br_v t) (vlist t) (vc_p c), markVerts t h r with
                          | Some o, Some m => Some (upd m v o)
                          | _, _ => None
                          end
              end
  end.
(** 22-35 *)
Fixpoint markEdges (t : brep) (h : nat -> option ecell) (mv : nat -> option nat) (l : list nat) : option (brep * (nat -> option nat)) :=
  match l with
  | [] => Some (t, fun _ => None)
  | e :: r =>
      match h e with
      | None => None
      | Some c =>
          bind (match mv (ec_a c), mv (ec_b c) with
                | Some x, Some y => match edgeFindnReg t x y with Some (t, n) => Some (t, Some n) | None => None end
                | _, _ => Some (t, None)
                end) (fun '(t, o) => match markEdges t h mv r with Some (t, m) => Some (t, upd m e o) | None => None end)
      end
  end.
(** 37-43 *)
Definition orElse (o : option nat) (x : nat) : nat := match o with Some y => y | None => x end.
Definition reassign (mv me : nat -> option nat) (f : bface) : bface :=
  let '(x, y, z) := bf_v f in let '(p, q, r) := bf_e f in
  BF (orElse (mv x) x, orElse (mv y) y, orElse (mv z) z) (orElse (me p) p, orElse (me q) q, orElse (me r) r) (bf_norm f).
(** 45-63: cells taken from the head of the second list; those with a mark are freed *)
Definition unmarked (m : nat -> option nat) (l : list nat) : list nat := filter (fun x => negb (isSome (m x))) (rev l).
Definition join_heap {A} (t s : nat -> option A) (l moved : list nat) : nat -> option A := fun k => if memb k l then (if memb k moved then s k else None) else t k.
(** 10-63: faces of the second list end up behind those of the first one *)
Definition zBREPMerge (t s : brep) : option brep :=
  let s := shift_brep (br_next t) s in
  bind (markVerts t (br_v s) (vlist s)) (fun mv =>
  let t := BR (br_v t) (br_e t) (br_next s) (vlist t) (elist t) (flist t) in
  bind (markEdges t (br_e s) mv (elist s)) (fun '(t, me) =>
  let nv := unmarked mv (vlist s) in
  let ne := unmarked me (elist s) in
  Some (BR (join_heap (br_v t) (br_v s) (vlist s) nv) (join_heap (br_e t) (br_e s) (elist s) ne) (br_next t) (vlist t ++ nv) (elist t ++ ne) (flist t ++ map (reassign mv me) (flist s))))).
(** 66-76 *)
Definition zPH3DTruncBREP (src cut : ph3) : option ph3 := bind (zPH3D2BREP src) (fun b => bind (zBREPTruncPH3D b cut) zBREP2PH3D).
(** 79-91 *)
Definition zIntersectPH3DBREP (src1 src2 : ph3) : option ph3 :=
  bind (zPH3D2BREP src1) (fun b1 => bind (zPH3D2BREP src2) (fun b2 =>
  bind (zBREPTruncPH3D b1 src2) (fun b1 => bind (zBREPTruncPH3D b2 src1) (fun b2 => bind (zBREPMerge b1 b2) zBREP2PH3D)))).
