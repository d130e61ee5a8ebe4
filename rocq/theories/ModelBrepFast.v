(** Model of the intersection of polyhedra restricted to the common box,
    src/zeo_brep_bool.c. *)
From Verif Require Export ModelBrep ModelBox.
From Coq Require Import List.
Import ListNotations.
Open Scope R_scope.

(** src/zeo_brep_bool.c 92-107.  The outer [None]: undefined, in particular boxes
    never written because a polyhedron has no vertex; the inner one: NULL. *)
Definition zIntersectPH3DBREPFast (src1 src2 : ph3) : option (option ph3) :=
  match pverts src1, pverts src2 with
  | [], _ | _, [] => None
  | _, _ =>
      match zIntersectPH3DBox (pverts src1) (pverts src2) with
      | None => Some None
      | Some ib =>
          bind (zPH3D2BREPInBox src1 ib) (fun b1 => bind (zPH3D2BREPInBox src2 ib) (fun b2 =>
          bind (zBREPTruncPH3D b1 src2) (fun b1 => bind (zBREPTruncPH3D b2 src1) (fun b2 =>
          bind (zBREPMerge b1 b2) (fun b => bind (zBREP2PH3D b) (fun ph => Some (Some ph)))))))
      end
  end.
