(** Point data containers: include/zeo/zeo_vecxd_data.h (macros instantiated for 2D and 3D by
    zeo_vec2d_data.h and zeo_vec3d_data.h), over an arbitrary element type [A].
    Pointers to elements are modelled by the elements themselves (aliasing between a list of
    addresses and the place the points live is not modelled); memory allocation succeeds. *)
From Verif Require Export Base ModelVec.
From Verif Require SpecData.
From Coq Require Export List.
Export ListNotations.
Open Scope R_scope.

(** 99-331: the method tables *)
Inductive method := MDummy | MArray | MArrayDirect | MList | MAddrList | MArrayPtr | MListPtr | MAddrListPtr.
(** [d_store]: memory cells written so far (array) or list cells from tail to head (list);
    [d_size], [d_cap]: size and capacity of the array; [d_i]: pointer.i; [d_c]: pointer.cp/ap,
    [None] being the root of the list *)
Record data (A : Type) := DT { d_method : method; d_store : list A; d_size : nat; d_cap : nat; d_i : nat; d_c : option nat }.
Arguments DT {A}. Arguments d_method {A}. Arguments d_store {A}. Arguments d_size {A}. Arguments d_cap {A}. Arguments d_i {A}. Arguments d_c {A}.

Section data.
Context {A : Type}.
Implicit Types (d : data A) (v : A).
Definition listlike (m : method) : bool := match m with MList | MAddrList | MListPtr | MAddrListPtr => true | _ => false end.
(** 137, 193, 226, 259, 282, 311 *)
Definition zVecXDDataSize d : nat :=
  match d_method d with MDummy => 0%nat | m => if listlike m then length (d_store d) else d_size d end.
(** 138, 194...: [None] is INT_MAX *)
Definition zVecXDDataCapacity d : option nat :=
  match d_method d with MDummy => Some 0%nat | m => if listlike m then None else Some (d_cap d) end.
(** 139, 195, ... *)
Definition zVecXDDataIsEmpty d : bool :=
  match d_method d with MDummy => true | m => if listlike m then match d_store d with [] => true | _ => false end else Nat.eqb (d_size d) 0 end.
(** 104, 140-146, 196, 229 (zeo_vecxd_list.h 38-45, zListInsertHead) *)
Definition zVecXDDataAdd d v : data A * bool :=
  match d_method d with
  | MArray =>
      if Nat.leb (d_cap d) (d_i d) then (d, false)
      else let i := d_i d in
           (DT MArray (firstn i (d_store d) ++ v :: skipn (S i) (d_store d)) (S i) (d_cap d) (S i) (d_c d), true)
  | MList => (DT MList (d_store d ++ [v]) (d_size d) (d_cap d) (d_i d) (d_c d), true)
  | MAddrList => (DT MAddrList (d_store d ++ [v]) (d_size d) (d_cap d) (d_i d) (d_c d), true)
  | _ => (d, false)
  end.
(** 105, 147, 197, 230, 285, 314: zListTail of an empty list is the root *)
Definition zVecXDDataRewind d : data A :=
  match d_method d with
  | MDummy => d
  | m => if listlike m then DT m (d_store d) (d_size d) (d_cap d) (d_i d) (match d_store d with [] => None | _ => Some 0%nat end)
         else DT m (d_store d) (d_size d) (d_cap d) 0 (d_c d)
  end.
(** 106, 148-151, 198-201, 231-234, 262-265, 286-289, 315-318 *)
Definition zVecXDDataPeek d : option A :=
  match d_method d with
  | MDummy => None
  | m => if listlike m then match d_c d with None => None | Some i => nth_error (d_store d) i end
         else if Nat.leb (d_size d) (d_i d) then None else nth_error (d_store d) (d_i d)
  end.
(** zListCellNext: the cell after the head is the root *)
Definition cell_next (l : list A) (c : option nat) : option nat :=
  match c with Some i => if Nat.ltb (S i) (length l) then Some (S i) else None | None => None end.
(** 107, 152-157, 202-207, 235-240, 266-271, 290-295, 319-324 *)
Definition zVecXDDataFetch d : data A * option A :=
  match zVecXDDataPeek d with
  | None => (d, None)
  | Some v =>
      (if listlike (d_method d) then DT (d_method d) (d_store d) (d_size d) (d_cap d) (d_i d) (cell_next (d_store d) (d_c d))
       else DT (d_method d) (d_store d) (d_size d) (d_cap d) (S (d_i d)) (d_c d), Some v)
  end.
(** 334-352: a fresh array *)
Definition zVecXDDataInitArray (capacity : nat) : data A := DT MArray [] 0 capacity 0 None.
(** 355-383 *)
Definition zVecXDDataInitList : data A := DT MList [] 0 0 0 None.
Definition zVecXDDataInitAddrList : data A := DT MAddrList [] 0 0 0 None.
(** 386-403: NULL for no points *)
Definition zVecXDDataAssignArrayDirect (l : list A) : data A :=
  match l with [] => DT MDummy [] 0 0 0 None | _ => DT MArrayDirect l (length l) (length l) 0 None end.
(** 406-448 *)
Definition zVecXDDataAssignArray (l : list A) : data A := DT MArrayPtr l (length l) (length l) 0 None.
Definition zVecXDDataAssignList (l : list A) : data A := zVecXDDataRewind (DT MListPtr l 0 0 0 None).
Definition zVecXDDataAssignAddrList (l : list A) : data A := zVecXDDataRewind (DT MAddrListPtr l 0 0 0 None).

(** while( ( v = Fetch( data ) ) ) body; the number of rounds is bounded by [fuel]; [None]: out of fuel *)
Fixpoint while_fetch {S} (fuel : nat) (d : data A) (s : S) (body : S -> A -> S + S) : option (data A * S) :=
  match fuel with
  | O => None
  | Datatypes.S k =>
      match zVecXDDataFetch d with
      | (d', None) => Some (d', s)
      | (d', Some v) => match body s v with inl s' => while_fetch k d' s' body | inr s' => Some (d', s') end
      end
  end.
Definition fuel_of d : nat := S (S (zVecXDDataSize d)).
(** 451-467: the list of addresses, from tail to head *)
Definition zVecXDDataToAddrList d : option (data A * list A) :=
  while_fetch (fuel_of d) (zVecXDDataRewind d) [] (fun l v => inl (l ++ [v])).
(** 612, the C++ method toAddrList: calls zVecXDDataAssignAddrList on the object itself *)
Definition cpp_toAddrList d (addrlist : list A) : data A * list A := (zVecXDDataAssignAddrList addrlist, addrlist).
(** 470-479 *)
Definition zVecXDDataFind (equal : A -> A -> bool) d (point : A) : option (data A * option A) :=
  while_fetch (fuel_of d) (zVecXDDataRewind d) None (fun s v => if equal point v then inr (Some v) else inl s).
(** 482-496 *)
Definition zVecXDDataXform (xf : A -> A) (mul : A -> A) d : option (data A * data A) :=
  while_fetch (fuel_of d) (zVecXDDataRewind d) zVecXDDataInitList (fun dest v => inl (fst (zVecXDDataAdd dest (mul (xf v))))).
(** 499-523: [None] in the distance is HUGE_VAL, which exceeds every number *)
Definition nn_step (sqrdist : A -> A -> R) (point : A) (s : option R * option A) (v : A) : option R * option A :=
  let d := sqrdist v point in
  match fst s with
  | None => (Some d, Some v)
  | Some dmin => if Rltb d dmin then (Some d, Some v) else s
  end.
Definition zVecXDDataNN (sqrdist : A -> A -> R) d (point : A) : option (data A * (option R * option A)) :=
  if zVecXDDataIsEmpty d then Some (d, (None, None))
  else match while_fetch (fuel_of d) (zVecXDDataRewind d) (None, None) (fun s v => inl (nn_step sqrdist point s v)) with
       | Some (d', (dmin, nn)) => Some (d', (match dmin with Some x => Some (sqrt x) | None => None end, nn))
       | None => None
       end.
(** 526-541 *)
Definition zVecXDDataVicinity (sqrdist : A -> A -> R) d (point : A) (radius : R) : option (data A * data A) :=
  let r2 := radius * radius in
  while_fetch (fuel_of d) (zVecXDDataRewind d) zVecXDDataInitAddrList
    (fun vic v => inl (if Rltb (sqrdist v point) r2 then fst (zVecXDDataAdd vic v) else vic)).
(** 544-568 *)
Definition zVecXDDataSupportMap (inner : A -> A -> R) d (direction : A) : option (data A * option A) :=
  if zVecXDDataIsEmpty d then Some (d, None)
  else match zVecXDDataFetch (zVecXDDataRewind d) with
       | (_, None) => None
       | (d1, Some sp) =>
           match while_fetch (fuel_of d) d1 (sp, inner sp direction)
                   (fun s v => inl (let x := inner v direction in if Rltb (snd s) x then (v, x) else s)) with
           | Some (d', (sp', _)) => Some (d', Some sp')
           | None => None
           end
       end.
End data.
(** the operations a user performs through the method table, 88-95 *)
Definition run_op {A} (d : data A) (o : SpecData.op A) : data A * SpecData.obs A :=
  match o with
  | SpecData.OAdd v => let '(d', b) := zVecXDDataAdd d v in (d', SpecData.BFlag b)
  | SpecData.ORewind => (zVecXDDataRewind d, SpecData.BUnit)
  | SpecData.OPeek => (d, SpecData.BPoint (zVecXDDataPeek d))
  | SpecData.OFetch => let '(d', p) := zVecXDDataFetch d in (d', SpecData.BPoint p)
  | SpecData.OSize => (d, SpecData.BNum (zVecXDDataSize d))
  | SpecData.OEmpty => (d, SpecData.BFlag (zVecXDDataIsEmpty d))
  end.
Fixpoint run_ops {A} (d : data A) (h : list (SpecData.op A)) : data A * list (SpecData.obs A) :=
  match h with
  | [] => (d, [])
  | o :: t => let '(d1, b) := run_op d o in let '(d2, bs) := run_ops d1 t in (d2, b :: bs)
  end.
(** src/zeo_vec2d_data.c, src/zeo_vec3d_data.c: instances *)
Definition zVec3DDataFind := @zVecXDDataFind vec3 zVec3DEqual.
Definition zVec3DDataNN := @zVecXDDataNN vec3 zVec3DSqrDist.
Definition zVec3DDataVicinity := @zVecXDDataVicinity vec3 zVec3DSqrDist.
Definition zVec3DDataSupportMap := @zVecXDDataSupportMap vec3 zVec3DInnerProd.
Definition zVec2DDataNN := @zVecXDDataNN vec2 zVec2DSqrDist.
Definition zVec2DDataVicinity := @zVecXDDataVicinity vec2 zVec2DSqrDist.
Definition zVec2DDataSupportMap := @zVecXDDataSupportMap vec2 zVec2DInnerProd.
