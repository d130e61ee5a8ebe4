(** Model of the Delaunay triangulation and the Voronoi diagram of points in the plane: src/zeo_voronoi2d.c.
    Addresses of points are modelled by numbers: 0, 1, 2 for the three corners sp[0], sp[1], sp[2] of the outer triangle, and
    i + 3 for the i-th point fetched from the data.  Triangles live in list cells, modelled by a finite map from addresses
    (numbers, never reused) to contents, in the order in which zListForEach visits the list (from the tail to the head).
    [None] stands for undefined behaviour: a dangling or null pointer, an array index out of range, or a NaN.
    Memory exhaustion is not modelled. *)
From Verif Require Export ModelBall.
From Coq Require Import List Lia.
Import ListNotations.
Open Scope R_scope.

(** zDelaunayTri2D, include/zeo/zeo_voronoi2d.h 17-20 *)
Record dtri := DT { dv : nat -> nat; dadj : nat -> option nat }.
Definition mem : Type := list (nat * dtri).
Definition setf {A} (f : nat -> A) (i : nat) (x : A) : nat -> A := fun j => if Nat.eqb j i then x else f j.
Definition of3 {A} (a b c : A) : nat -> A := fun i => match i with 0%nat => a | 1%nat => b | _ => c end.
(** dereference and overwrite a triangle *)
Fixpoint dget (m : mem) (t : nat) : option dtri :=
  match m with [] => None | (s, x) :: r => if Nat.eqb s t then Some x else dget r t end.
Fixpoint dput (m : mem) (t : nat) (x : dtri) : mem :=
  match m with [] => [] | (s, y) :: r => if Nat.eqb s t then (s, x) :: r else (s, y) :: dput r t x end.

Section Points.
Variable pts : list vec2. (* the three corners followed by the data *)
Definition dpt (v : nat) : vec2 := nth v pts v2zero.
Definition dtri2 (t : dtri) : tri2 := T2 (dpt (dv t 0)) (dpt (dv t 1)) (dpt (dv t 2)).

(** 22-37: _zDelaunayTri2DBind *)
Definition zDelaunayTri2DBind (m : mem) (t i : nat) (a : option nat) : option mem :=
  match dget m t with
  | None => None
  | Some T =>
      let m1 := dput m t (DT (dv T) (setf (dadj T) i a)) in
      match a with
      | None => Some m1
      | Some a =>
          let pj := dv T (Nat.modulo (i + 1) 3) in
          match dget m1 a with
          | None => None
          | Some A => match find (fun ia => Nat.eqb (dv A ia) pj) [0%nat; 1%nat; 2%nat] with
                      | Some ia => Some (dput m1 a (DT (dv A) (setf (dadj A) ia (Some t))))
                      | None => Some m1
                      end
          end
      end
  end.
(** 40-47; [None]: -1 *)
Definition zDelaunayTri2DFindAdj (A : dtri) (t : nat) : option nat :=
  find (fun i => match dadj A i with Some s => Nat.eqb s t | None => false end) [0%nat; 1%nat; 2%nat].
(** 64-71 *)
Fixpoint zDelaunayTri2DListFind (m : mem) (p : nat) : option (nat * dtri) :=
  match m with
  | [] => None
  | (t, T) :: r => if zTri2DPointIsInside (dtri2 T) (dpt p) zTOL then Some (t, T) else zDelaunayTri2DListFind r p
  end.
(** 106-119: the stack from its head *)
Definition zDelaunayPair2DStackPush (m : mem) (ps : list (nat * nat)) (t i : nat) : option (list (nat * nat)) :=
  match dget m t with
  | None => None
  | Some T => Some (match dadj T i with None => ps | Some _ => (t, i) :: ps end)
  end.
(** 122-149: the result is ignored by the caller; an index of -1 writes out of the array *)
Definition zDelaunay2DLegalizeOne (m : mem) (t i : nat) (ps : list (nat * nat)) : option (mem * list (nat * nat)) :=
  match dget m t with
  | None => None
  | Some T =>
      match dadj T i with
      | None => Some (m, ps)
      | Some a =>
          match dget m a with
          | None => None
          | Some A =>
              match zDelaunayTri2DFindAdj A t, zTri2DCircumcenter (dtri2 T) with
              | Some ia, Some c =>
                  let r := zVec2DDist (dpt (dv T 0)) c in
                  let ka := Nat.modulo (ia + 2) 3 in
                  let pn := dv A ka in
                  if Rltb r (zVec2DDist (dpt pn) c) then Some (m, ps)
                  else
                    let k := Nat.modulo (i + 2) 3 in let pk := dv T k in
                    let j := Nat.modulo (i + 1) 3 in let tj := dadj T j in
                    let ja := Nat.modulo (ia + 1) 3 in let aj := dadj A ja in
                    let m := dput m t (DT (setf (dv T) j pn) (dadj T)) in
                    match zDelaunayTri2DBind m t i aj with
                    | None => None
                    | Some m =>
                    match zDelaunayTri2DBind m t j (Some a) with
                    | None => None
                    | Some m =>
                    match dget m a with
                    | None => None
                    | Some A =>
                    let m := dput m a (DT (setf (dv A) ja pk) (dadj A)) in
                    match zDelaunayTri2DBind m a ia tj with
                    | None => None
                    | Some m =>
                    match zDelaunayTri2DBind m a ja (Some t) with
                    | None => None
                    | Some m =>
                    match zDelaunayPair2DStackPush m ps t i with
                    | None => None
                    | Some ps =>
                    match zDelaunayPair2DStackPush m ps a ka with
                    | None => None
                    | Some ps => Some (m, ps)
                    end end end end end end end
              | _, _ => None
              end
          end
      end
  end.
(** outcomes of a loop *)
Inductive dres (A : Type) := DFuel | DUndef | DFail | DDone (x : A).
Arguments DFuel {A}. Arguments DUndef {A}. Arguments DFail {A}. Arguments DDone {A}.
(** 152-161 *)
Fixpoint zDelaunay2DLegalize (fuel : nat) (m : mem) (ps : list (nat * nat)) : dres mem :=
  match ps with
  | [] => DDone m
  | (t, i) :: ps =>
      match fuel with
      | O => DFuel
      | S fuel => match zDelaunay2DLegalizeOne m t i ps with
                  | None => DUndef
                  | Some (m, ps) => zDelaunay2DLegalize fuel m ps
                  end
      end
  end.
(** 183-218: [new] is the next unused address; zListInsertHead adds a cell at the end of the order of visit.  The contents of
    the three cells are only read after they are all created or bound, except that a neighbour is bound to a cell just created *)
Definition zDelaunay2DUpdate (fuel : nat) (st : mem * nat) (p : nat) : dres (mem * nat) :=
  let '(m, new) := st in
  match zDelaunayTri2DListFind m p with
  | None => DFail
  | Some (tc, T) =>
      let m := filter (fun c => negb (Nat.eqb (fst c) tc)) m in
      let t1 := new in let t2 := (new + 1)%nat in let t3 := (new + 2)%nat in
      let blank := DT (fun _ => 0%nat) (fun _ => None) in
      let m := m ++ [(t1, blank); (t2, blank); (t3, blank)] in
      let m := dput m t1 (DT (of3 (dv T 0) (dv T 1) p) (of3 (dadj T 0) (Some t2) (Some t3))) in
      match zDelaunayTri2DBind m t1 0 (dadj T 0) with
      | None => DUndef
      | Some m =>
      let m := dput m t2 (DT (of3 p (dv T 1) (dv T 2)) (of3 (Some t1) (dadj T 1) (Some t3))) in
      match zDelaunayTri2DBind m t2 1 (dadj T 1) with
      | None => DUndef
      | Some m =>
      let m := dput m t3 (DT (of3 (dv T 0) p (dv T 2)) (of3 (Some t1) (Some t2) (dadj T 2))) in
      match zDelaunayTri2DBind m t3 2 (dadj T 2) with
      | None => DUndef
      | Some m =>
      match zDelaunayPair2DStackPush m [] t1 0 with
      | None => DUndef
      | Some ps =>
      match zDelaunayPair2DStackPush m ps t2 1 with
      | None => DUndef
      | Some ps =>
      match zDelaunayPair2DStackPush m ps t3 2 with
      | None => DUndef
      | Some ps =>
      match zDelaunay2DLegalize fuel m ps with
      | DFuel => DFuel | DUndef => DUndef | DFail => DFail
      | DDone m => DDone (m, (new + 3)%nat)
      end end end end end end end
  end.
(** the loops 245-246 and 290-299 over the remaining data *)
Fixpoint zDelaunay2DAll (fuel : nat) (st : mem * nat) (ps : list nat) : dres (mem * nat) :=
  match ps with
  | [] => DDone st
  | p :: r => match zDelaunay2DUpdate fuel st p with DDone st => zDelaunay2DAll fuel st r | e => e end
  end.
(** 221-235 *)
Definition zDelaunay2DPurgeOuter (m : mem) : mem :=
  filter (fun c => negb (existsb (fun i => Nat.ltb (dv (snd c) i) 3) [0%nat; 1%nat; 2%nat])) m.
End Points.
Arguments DFuel {A}. Arguments DUndef {A}. Arguments DFail {A}. Arguments DDone {A}.

(** 172-174: the corners of the outer triangle *)
Definition outer_corners (d : disk2) : list vec2 :=
  [V2 (x2 (dcen d)) (y2 (dcen d) + 3 * drad d);
   V2 (x2 (dcen d) - 3 / 2 * sqrt 3 * drad d) (y2 (dcen d) - 3 / 2 * drad d);
   V2 (x2 (dcen d) + 3 / 2 * sqrt 3 * drad d) (y2 (dcen d) - 3 / 2 * drad d)].
(** 164-177: [None] when the list of triangles stays uninitialised (no points) or the disk has NaN entries; the points and
    the first triangle *)
Definition zDelaunay2DCreateOuter (data : list vec2) : option (list vec2 * (mem * nat)) :=
  match zVec2DDataBoundingBallRecursive data with
  | Some b => match fpoints b, fball b with
              | _ :: _, Some d => Some (outer_corners d ++ data, ([(0%nat, DT (of3 0%nat 1%nat 2%nat) (of3 None None None))], 1%nat))
              | _, _ => None
              end
  | None => None
  end.
(** 238-249: the points and the list of triangles *)
Definition zVec2DDataDelaunayTriangulate (fuel : nat) (data : list vec2) : dres (list vec2 * mem) :=
  match zDelaunay2DCreateOuter data with
  | None => DUndef
  | Some (pts, st) =>
      match zDelaunay2DAll pts fuel st (seq 3 (length data)) with
      | DFuel => DFuel | DUndef => DUndef | DFail => DFail
      | DDone (m, _) => DDone (pts, zDelaunay2DPurgeOuter m)
      end
  end.
