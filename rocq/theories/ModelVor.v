(** Model of the Voronoi diagram of points in the plane: src/zeo_voronoi2d.c 278-406.
    Addresses and memory as in ModelDel.  Lists are given in the order in which zListForEach visits them (from the tail to
    the head), so zListInsertHead appends.  Memory exhaustion is not modelled. *)
From Verif Require Export ModelDel.
From Coq Require Import List.
Import ListNotations.
Open Scope R_scope.

(** zVoronoi2DLoopData, include/zeo/zeo_voronoi2d.h 45-48: node, t[0], t[1] *)
Record vnode := VN { vn_node : vec2; vn_t : nat; vn_a : nat }.
(** zVoronoi2DData, 52-55: the seed and the loop *)
Definition vcell : Type := nat * list vnode.

(** 312-320 and 322-336: _zVoronoi2DListFind and _zVoronoi2DCellAddLoop; a triangle corner that is no seed is skipped *)
Fixpoint zVoronoi2DAddLoop (vl : list vcell) (p : nat) (n : vnode) : list vcell :=
  match vl with
  | [] => []
  | (s, l) :: r => if Nat.eqb s p then (s, l ++ [n]) :: r else (s, l) :: zVoronoi2DAddLoop r p n
  end.
(** 353-361 *)
Definition zVoronoi2DListFromDelaunayTri2D (vl : list vcell) (t : nat) (T : dtri) (i : nat) (node : vec2) : list vcell :=
  match dadj T i with None => vl | Some a => zVoronoi2DAddLoop vl (dv T i) (VN node t a) end.
(** 369-374; [None]: the node has NaN entries *)
Fixpoint voronoi_add (pts : list vec2) (m : mem) (vl : list vcell) : option (list vcell) :=
  match m with
  | [] => Some vl
  | (t, T) :: r =>
      match zTri2DCircumcenter (dtri2 pts T) with
      | None => None
      | Some node =>
          let vl := zVoronoi2DListFromDelaunayTri2D vl t T 0 node in
          let vl := zVoronoi2DListFromDelaunayTri2D vl t T 1 node in
          let vl := zVoronoi2DListFromDelaunayTri2D vl t T 2 node in
          voronoi_add pts r vl
      end
  end.
(** 346-350: the loop over lc2; [passed] are the cells between lc1 and lc2, [rest] begins with lc2.  A cell that follows lc1
    is moved next to it, and the loop goes on with the cell behind it there *)
Fixpoint close_inner (fuel : nat) (lc1 : vnode) (passed rest : list vnode) : dres (list vnode) :=
  match rest with
  | [] => DDone passed
  | lc2 :: rest =>
      match fuel with
      | O => DFuel
      | S fuel => if Nat.eqb (vn_t lc2) (vn_a lc1) then close_inner fuel lc1 [lc2] (passed ++ rest)
                  else close_inner fuel lc1 (passed ++ [lc2]) rest
      end
  end.
(** 345-350: the loop over lc1, with as many rounds as there are cells *)
Fixpoint close_loop (rounds fuel : nat) (l : list vnode) : dres (list vnode) :=
  match l with
  | [] => DDone []
  | lc1 :: r =>
      match rounds with
      | O => DFuel
      | S rounds =>
          match close_inner fuel lc1 [] r with
          | DDone r => match close_loop rounds fuel r with DDone r => DDone (lc1 :: r) | e => e end
          | e => e
          end
      end
  end.
(** 338-351: _zVoronoi2DListLoopClose *)
Fixpoint zVoronoi2DListLoopClose (fuel : nat) (vl : list vcell) : dres (list vcell) :=
  match vl with
  | [] => DDone []
  | (s, l) :: r =>
      match close_loop (length l) fuel l with
      | DFuel => DFuel | DUndef => DUndef | DFail => DFail
      | DDone l => match zVoronoi2DListLoopClose fuel r with DDone r => DDone ((s, l) :: r) | e => e end
      end
  end.
(** 363-377 *)
Definition zVoronoi2DListFromDelaunayTri2DList (pts : list vec2) (fuel : nat) (m : mem) (vl : list vcell) : dres (list vcell) :=
  match voronoi_add pts m vl with None => DUndef | Some vl => zVoronoi2DListLoopClose fuel vl end.
(** 278-298 and 393-406: a cell is made for each point, then the triangles, those with outer corners included, are turned
    into loops *)
Definition zVec2DDataVoronoiDiagram (fuel : nat) (data : list vec2) : dres (list vec2 * list vcell) :=
  match zDelaunay2DCreateOuter data with
  | None => DUndef
  | Some (pts, st) =>
      match zDelaunay2DAll pts fuel st (seq 3 (length data)) with
      | DFuel => DFuel | DUndef => DUndef | DFail => DFail
      | DDone (m, _) =>
          match zVoronoi2DListFromDelaunayTri2DList pts fuel m (map (fun v => (v, [])) (seq 3 (length data))) with
          | DFuel => DFuel | DUndef => DUndef | DFail => DFail
          | DDone vl => DDone (pts, vl)
          end
      end
  end.
