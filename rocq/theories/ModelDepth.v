(** Model of the penetration depth of two sets of points: src/zeo_col_gjk.c 214-425, 477-484.
    zVec3DDataConvexHull is the parameter [hull]: it takes the collected points in the order of their insertion and returns
    the faces, or [None] for NULL.  The set vert_data always has the positions of the list of slots, so it is not kept apart.
    A list is given in the order of zListForEach.  Memory allocation succeeds; positions are no NaN. *)
From Verif Require Export ModelGJK ModelLin.
From Coq Require Import List.
Import ListNotations.
Open Scope R_scope.

(** a cell of zGJKSlotList: w, and p1 and p2 *)
Definition pslot := (vec3 * option (vec3 * vec3))%type.
(** 220-240: (distance, closest point, face).  Left out: a hull without faces or with a face that is one point (both [None]) *)
Fixpoint pdNear (best : R * vec3 * tri3) (fs : list tri3) : option (R * vec3 * tri3) :=
  match fs with
  | [] => Some best
  | t :: r => match zTri3DClosest t v3zero with
              | None => None
              | Some (d, cp) => pdNear (if Rltb d (fst (fst best)) then (d, cp, t) else best) r
              end
  end.
Definition gjkPH3DClosest (fs : list tri3) : option (R * vec3 * tri3) :=
  match fs with
  | [] => None
  | t :: r => match zTri3DClosest t v3zero with None => None | Some (d, cp) => pdNear (d, cp, t) r end
  end.
(** 244-259: inserted at the head, which zListForEach visits last *)
Definition gjkSlotListInsert (sl : list pslot) (s : pslot) : list pslot := sl ++ [s].

(** the corners of a face *)
Definition corners (t : tri3) : vec3 * vec3 * vec3 := (tv0 t, tv1 t, tv2 t).
(** what the search ends with: out of steps, undefined, false, or the list, the face and the vector [v] *)
Inductive pd_outcome := PFuel | PUndef | PFail | PDone (sl : list pslot) (f : tri3) (v : vec3).
Section PD.
  Variable hull : list vec3 -> option (list tri3).
  Variables l1 l2 : list vec3.
  (** 268-279: [near] is the distance from the edge or the triangle; the inner [None]: false *)
  Definition gjkPDAddPoint (near : vec3 -> option (R * vec3)) (v : vec3) (sl : list pslot) : option (option (list pslot)) :=
    match gjkSupportMap l1 l2 v with
    | None => None
    | Some (p1, p2, w) =>
        match near w with
        | None => None
        | Some (d, _) => if zIsTiny d then Some None else Some (Some (gjkSlotListInsert sl (w, Some (p1, p2))))
        end
    end.
  Definition andThen (o : option (option (list pslot))) (k : list pslot -> option (option (list pslot))) : option (option (list pslot)) :=
    match o with Some (Some sl) => k sl | _ => o end.
  (** 288-345 *)
  Definition gjkPDInit (s : simplex) : option (option (list pslot)) :=
    let sl := fold_left (fun sl x => gjkSlotListInsert sl (sl_w x, sl_p x)) (firstn (sx_n s) (sx_slot s)) [] in
    let w i := sl_w (nth i (sx_slot s) slotInit) in
    match sx_n s with
    | 0%nat | 1%nat => Some None
    | 2%nat =>
        let edge := E3 (w 0%nat) (w 1%nat) in
        match zVec3DOrthoSpace (zEdge3DVec edge) with
        | None => Some None
        | Some (v1, v2) =>
            andThen (gjkPDAddPoint (zEdge3DClosest edge) v1 sl) (fun sl =>
            andThen (gjkPDAddPoint (zEdge3DClosest edge) v2 sl) (fun sl =>
            andThen (gjkPDAddPoint (zEdge3DClosest edge) (zVec3DRev v1) sl) (fun sl =>
            andThen (gjkPDAddPoint (zEdge3DClosest edge) (zVec3DRev v2) sl) (fun sl =>
            match hull (map fst sl) with
            | None => Some None
            | Some fs => if forallb (fun t => negb (Rleb (- zTOL) (zTri3DDistFromPointToPlane t v3zero))) fs then Some (Some sl) else Some None
            end))))
        end
    | 3%nat =>
        let '(ok, tri) := zTri3DCreate (w 0%nat) (w 1%nat) (w 2%nat) in
        if ok then
          andThen (gjkPDAddPoint (zTri3DClosest tri) (tnorm tri) sl) (fun sl => gjkPDAddPoint (zTri3DClosest tri) (zVec3DRev (tnorm tri)) sl)
        else Some None
    | _ => Some (Some sl)
    end.
  (** 388-405: the loop.  [v] is reversed where a known point ends it (398) *)
  Fixpoint gjkPDLoop (fuel : nat) (sl : list pslot) (v_temp : vec3) : pd_outcome :=
    match fuel with
    | O => PFuel
    | S fuel =>
        match hull (map fst sl) with
        | None => PFail
        | Some fs =>
            match gjkPH3DClosest fs with
            | None => PUndef
            | Some (_, v, f) =>
                if zVec3DEqual v v_temp then PDone sl f v
                else match gjkSupportMap l1 l2 (zVec3DRev v) with
                     | None => PUndef
                     | Some (p1, p2, w) =>
                         if existsb (fun c => zVec3DEqual w (fst c)) sl then PDone sl f (zVec3DRev v)
                         else gjkPDLoop fuel (gjkSlotListInsert sl (w, Some (p1, p2))) v
                     end
            end
        end
    end.
  (** 412-418 for one slot and the corners of the face with their factors: (c1, c2, j); [None]: a null pointer is followed *)
  Fixpoint pdCorners (s : pslot) (cs : list (vec3 * R)) (acc : vec3 * vec3 * nat) : option (vec3 * vec3 * nat) :=
    match cs with
    | [] => Some acc
    | (v, l) :: r =>
        if zVec3DEqual v (fst s) then
          match snd s with
          | None => None
          | Some (p1, p2) => let '(c1, c2, j) := acc in pdCorners s r (zVec3DCat c1 l p1, zVec3DCat c2 l p2, S j)
          end
        else pdCorners s r acc
    end.
  (** 411-420 *)
  Fixpoint pdSum (sl : list pslot) (cs : list (vec3 * R)) (acc : vec3 * vec3 * nat) : option (vec3 * vec3) :=
    match sl with
    | [] => Some (fst acc)
    | s :: r => match pdCorners s cs acc with
                | None => None
                | Some acc => if Nat.eqb (snd acc) 3 then Some (fst acc) else pdSum r cs acc
                end
    end.
  (** 407-410 *)
  Definition gjkPDPair (sl : list pslot) (f : tri3) (v : vec3) : option (vec3 * vec3) :=
    match zTri3DLinScale f v with
    | None => None
    | Some (_, (a, b, c), _) => pdSum sl [(tv0 f, a); (tv1 f, b); (tv2 f, c)] (v3zero, v3zero, 0%nat)
    end.
  (** 371-425; the inner [None]: false, c1 and c2 are not written *)
  Definition gjkPD (fuel : nat) (s : simplex) : option (option (vec3 * vec3)) :=
    match gjkPDInit s with
    | None => None
    | Some None => Some None
    | Some (Some sl) =>
        match gjkPDLoop fuel sl v3zero with
        | PFail => Some None
        | PDone sl f v => match gjkPDPair sl f v with None => None | Some c => Some (Some c) end
        | _ => None
        end
    end.
  (** 477-484: (c1, c2, returned value); the pair of _zGJK remains where there is no depth *)
  Definition zGJKDepth (fuel : nat) (old : vec3) : option (vec3 * vec3 * bool) :=
    match l1, l2 with
    | a :: _, b :: _ =>
        match gjkLoop fuel l1 l2 simplexInit (zVec3DSub a b) None with
        | Done s _ =>
            match gjkPair (sx_slot s) v3zero v3zero with
            | None => None
            | Some (c1, c2) =>
                if gjkCheck old s then
                  match gjkPD fuel s with
                  | None => None
                  | Some None => Some (c1, c2, false)
                  | Some (Some (d1, d2)) => Some (d1, d2, true)
                  end
                else Some (c1, c2, false)
            end
        | _ => None
        end
    | _, _ => None
    end.
End PD.
