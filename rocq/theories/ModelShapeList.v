(** Model of lists of shapes: src/zeo_shape3d_list.c.  A list of ZEDA is given from its tail to its head, the order of
    zListCellNext.  A pointer to a shape is its shape.  Memory allocation succeeds. *)
From Verif Require Export ModelMulti SpecShapeList.
From Coq Require Import List.
Import ListNotations.
Open Scope R_scope.

(** 10-18: zListInsertTail puts the cell before the tail *)
Definition zShape3DListPush {A} (l : list A) (s : A) : list A := s :: l.
(** 21-31: zListDeleteTail; the inner [None] is NULL *)
Definition zShape3DListPop {A} (l : list A) : list A * option A := match l with [] => ([], None) | s :: r => (r, Some s) end.
(** a history of calls from the list [l]: the list and the values that the pops returned *)
Fixpoint listRun {A} (l : list A) (h : list (op A)) : list A * list (option A) :=
  match h with
  | [] => (l, [])
  | Push s :: h => listRun (zShape3DListPush l s) h
  | Pop :: h => let '(l', r) := zShape3DListPop l in let '(l'', rs) := listRun l' h in (l'', r :: rs)
  end.

(** 56-71; [None]: the root cell of an empty list has no shape, or undefined for a member *)
Definition zShape3DListClosest (ans : list R -> list (R * R)) (l : list shape3) (p : vec3) : option (R * vec3) :=
  match l with
  | [] => None
  | s :: rest =>
      fold_left (fun acc s =>
        match acc, zShape3DClosest ans s p with
        | Some (dist_min, closestpoint), Some (dist, cp) => if Rltb dist dist_min then Some (dist, cp) else Some (dist_min, closestpoint)
        | _, _ => None
        end) rest (zShape3DClosest ans s p)
  end.
(** 34-53, as zMultiShape3DContigVert *)
Definition zShape3DListContigVert (l : list shape3) (p : vec3) : option (vec3 * R) :=
  match l with
  | [] => None
  | s :: rest =>
      match zShape3DContigVert s p with
      | Vert v d =>
          match fold_left (fun acc s =>
            match acc, zShape3DContigVert s p with
            | Some (v, dist_min, distance), Vert nv d => if Rltb d dist_min then Some (Some nv, d, d) else Some (v, dist_min, d)
            | Some (v, dist_min, distance), NoVert => if Rltb distance dist_min then Some (None, distance, distance) else Some (v, dist_min, distance)
            | _, _ => None
            end) rest (Some (Some v, d, d)) with
          | Some (Some v, dist_min, _) => Some (v, dist_min)
          | _ => None
          end
      | _ => None
      end
  end.
