(** src/zeo_bv2d_convexhull.c: hull of points on a plane. An address list is the list of the points it refers to, from tail to head
    (the order of zListCellNext); the addresses themselves are not modelled. *)
From Verif Require Import Base Spec ModelVec ModelElem.
From Coq Require Import List ZArith.
Import ListNotations.
Open Scope R_scope.

(** 12-35: the first loop, which stops at the first point away from the tail; the second result is the rest of the list *)
Fixpoint ch2d_base1 (t : vec3) (l : list vec3) : option (vec3 * list vec3) :=
  match l with
  | [] => None
  | p :: r => let s0 := zVec3DSub p t in if zVec3DIsTiny s0 then ch2d_base1 t r else Some (s0, r)
  end.
(** the second loop *)
Fixpoint ch2d_base2 (t s0 : vec3) (l : list vec3) : option (vec3 * vec3) :=
  match l with
  | [] => None
  | p :: r => let s1 := zVec3DSub p t in let n := zVec3DOuterProd s0 s1 in
              if negb (zVec3DIsTiny s1) && negb (zVec3DIsTiny n) then Some (s1, n) else ch2d_base2 t s0 r
  end.
(** None: an error has been reported (all points alike, or on a line) *)
Definition zConvexHull2DBase (l : list vec3) : option (vec3 * vec3) :=
  match l with
  | [] => None
  | t :: r => match ch2d_base1 t r with
              | None => None
              | Some (s0, r') => match ch2d_base2 t s0 r' with
                                 | None => None
                                 | Some (_, n) => let s1 := zVec3DOuterProd n s0 in Some (snd (zVec3DNormalizeDRC s0), snd (zVec3DNormalizeDRC s1))
                                 end
              end
  end.
(** 38-55 *)
Definition z_ch2d_cmp (s1 s2 v1 v2 : vec3) : Z :=
  let d1 := zVec3DInnerProd v1 s1 in let d2 := zVec3DInnerProd v2 s1 in
  if zIsTiny (d1 - d2) then
    let d1 := zVec3DInnerProd v1 s2 in let d2 := zVec3DInnerProd v2 s2 in
    if zIsTiny (d1 - d2) then 0%Z else if Rltb d2 d1 then 1%Z else (-1)%Z
  else if Rltb d2 d1 then 1%Z else (-1)%Z.
(** 71-76, the inner loop: [best] is p1 and what follows it *)
Fixpoint ch2d_pick (s0 s1 p0 : vec3) (t_max : R) (best l : list vec3) : list vec3 :=
  match l with
  | [] => best
  | p :: r => let d := zVec3DSub p p0 in let t := atan2 (zVec3DInnerProd d s1) (zVec3DInnerProd d s0) in
              if negb (zVec3DIsTiny d) && Rleb t_max t then ch2d_pick s0 s1 p0 t l r else ch2d_pick s0 s1 p0 t_max best r
  end.
(** 70-77, 82-88: the points passed from the first of the list up to its last, which is not included; fuel at least the length is never used up
    (out of fuel: None) *)
Fixpoint ch2d_wrap (fuel : nat) (s0 s1 : vec3) (l : list vec3) : option (list vec3) :=
  match l with
  | [] => Some []
  | [p] => Some []
  | p0 :: r => match fuel with
               | O => None
               | S f => match ch2d_wrap f s0 s1 (ch2d_pick s0 s1 p0 (- (PI / 2)) r r) with None => None | Some c => Some (p0 :: c) end
               end
  end.
(** 58-90; [sort] stands for zVec3DAddrListQuickSort of ZEDA, ascending from tail to head. The loop is given in the order of zLoop3DAdd, tail to head. *)
Definition zConvexHull2D (sort : (vec3 -> vec3 -> Z) -> list vec3 -> list vec3) (l : list vec3) : option (list vec3) :=
  match zConvexHull2DBase l with
  | None => None
  | Some (s0, s1) =>
      let a := sort (z_ch2d_cmp s0 s1) l in
      match ch2d_wrap (length a) s0 s1 a, ch2d_wrap (length a) (zVec3DRev s0) (zVec3DRev s1) (rev a) with
      | Some upper, Some lower => Some (upper ++ lower)
      | _, _ => None
      end
  end.
(** 93-113: vertices and faces of the dual-faced polyhedron; vn - 2 faces first, then the same seen from behind *)
Definition zConvexHull2DToPH3D (chloop : list vec3) : list vec3 * list (nat * nat * nat) :=
  let vn := length chloop in
  (chloop, map (fun i => (0, i - 1, i)%nat) (seq 2 (vn - 2)) ++ map (fun i => (0, i, i - 1)%nat) (seq 2 (vn - 2))).
(** 116-130, 133-142: zVec3DDataConvexHull2D and zVec3DDataConvexHull2DPH3D hand the points over *)
Definition zVec3DDataConvexHull2D := zConvexHull2D.
Definition zVec3DDataConvexHull2DPH3D sort (l : list vec3) : option (list vec3 * list (nat * nat * nat)) :=
  match zVec3DDataConvexHull2D sort l with None => None | Some c => Some (zConvexHull2DToPH3D c) end.

(** 145-187: the closest point. The distance starts as HUGE_VAL, here None. The outer None is an undefined value: the empty hull
    (HUGE_VAL with an error, [cp] not written) or a degenerate edge, whose closest point is not a number. *)
Fixpoint ch2d_scan (p norm v1 vcp : vec3) (d : option R) (cp : vec3) (l : list vec3) : option (option R * vec3) :=
  match l with
  | [] => Some (d, cp)
  | vc :: r =>
      let v2 := zVec3DSub vc p in
      if Rltb (zVec3DInnerProd norm (zVec3DOuterProd v1 v2)) 0 then
        match zEdge3DClosest (E3 vc vcp) p with
        | None => None
        | Some (d_new, tmp) => if match d with None => false | Some d => Rltb d d_new end then Some (d, cp) else ch2d_scan p norm v2 vc (Some d_new) tmp r
        end
      else ch2d_scan p norm v2 vc d cp r
  end.
Definition zConvexHull2DClosest (ch : list vec3) (p : vec3) : option (option R * vec3) :=
  match rev ch with
  | [] => None
  | [h] => Some (Some (zVec3DDist h p), h)
  | [h; h1] => match zEdge3DClosest (E3 h1 h) p with None => None | Some (d, cp) => Some (Some d, cp) end
  | h :: h1 :: h2 :: _ =>
      let v1 := zVec3DSub h1 h in let v2 := zVec3DSub h2 h in
      let norm := zVec3DOuterProd v2 v1 in
      ch2d_scan p norm (zVec3DSub h p) h None p ch
  end.
