(** Model of the Gilbert-Johnson-Keerthi algorithm (src/zeo_col_gjk.c) and of the Minkowski portal
    refinement (src/zeo_col_mpr.c).
    A set of points is the list of its members in the order of zVec3DDataFetch
    (see [zVec3DDataSupportMap] in ModelData for the containers themselves).
    The penetration depths zGJKDepth and zMPRDepth are in ModelDepth and ModelMPR. *)
From Verif Require Export ModelElem ModelData ModelPCA.
From Coq Require Import List.
Import ListNotations.
Open Scope R_scope.

(** ** include/zeo/zeo_vecxd_data.h 544-568 on the list of points: the first point with the greatest product; [None] for NULL *)
Definition supportMap (l : list vec3) (direction : vec3) : option vec3 :=
  match l with
  | [] => None
  | sp :: t => Some (fst (fold_left (fun s v => let x := zVec3DInnerProd v direction in if Rltb (snd s) x then (v, x) else s) t (sp, zVec3DInnerProd sp direction)))
  end.

(** ** zeo_col_gjk.c 11-23: [sl_p] holds p1 and p2, [None] while they are NULL *)
Record slot := SL { sw_w : bool; sw_y : bool; sl_w : vec3; sl_p : option (vec3 * vec3); sl_s : R }.
Record simplex := SX { sx_n : nat; sx_slot : list slot }.
(** 26-32, 52-59 *)
Definition slotInit : slot := SL false false v3zero None 0.
Definition simplexInit : simplex := SX 0 [slotInit; slotInit; slotInit; slotInit].
(** zeo_vec3d.h 131 *)
Definition zVec3DMatch (v1 v2 : vec3) : bool := Reqb (vx v1) (vx v2) && Reqb (vy v1) (vy v2) && Reqb (vz v1) (vz v2).
(** 110-118 *)
Definition checkDupSlot (s : simplex) (w : vec3) : bool := existsb (fun sl => sw_y sl && zVec3DMatch (sl_w sl) w) (sx_slot s).
(** 121-138; the indefinite member s of the new slot is overwritten before it is read *)
Fixpoint fillSlot (l : list slot) (w p1 p2 : vec3) : list slot :=
  match l with
  | [] => []
  | sl :: t => if sw_y sl then sl :: fillSlot t w p1 p2 else SL (sw_w sl) true w (Some (p1, p2)) 0 :: t
  end.
Definition addSlot (s : simplex) (w p1 p2 : vec3) : simplex :=
  SX (sx_n s) (fillSlot (map (fun sl => SL (sw_w sl) (sw_w sl) (sl_w sl) (sl_p sl) (sl_s sl)) (sx_slot s)) w p1 p2).
(** 145-171: weights of the chosen slots in order and the closest point; [None]: NaN, nothing written, or an error *)
Definition closestOf (ws : list vec3) : option (list R * vec3) :=
  match ws with
  | [a] => Some ([1], a)
  | [a; b] => match zEdge3DClosestFromOrigin a b with Some (_, s0, s1, v) => Some ([s0; s1], v) | None => None end
  | [a; b; c] => match zTri3DClosestFromOrigin a b c with Some (_, (s0, s1, s2, v)) => Some ([s0; s1; s2], v) | None => None end
  | [a; b; c; d] => match zTetra3DClosestFromOrigin a b c d with Some (_, (s0, s1, s2, s3, v)) => Some ([s0; s1; s2; s3], v) | None => None end
  | _ => None
  end.
Fixpoint putWeights (l : list slot) (ss : list R) : list slot :=
  match l with
  | [] => []
  | sl :: t => if sw_y sl then match ss with s :: ss => SL (sw_w sl) true (sl_w sl) (sl_p sl) s :: putWeights t ss | [] => sl :: t end
               else sl :: putWeights t ss
  end.
(** 173-181 *)
Definition minimizeSlot (sl : slot) : slot :=
  if zIsTiny (sl_s sl) then SL false (sw_y sl) (sl_w sl) (sl_p sl) 0 else SL true (sw_y sl) (sl_w sl) (sl_p sl) (sl_s sl).
Definition simplexClosest (s : simplex) : option (simplex * vec3) :=
  match closestOf (map sl_w (filter sw_y (sx_slot s))) with
  | None => None
  | Some (ss, v) =>
      let l := map minimizeSlot (putWeights (sx_slot s) ss) in
      Some (SX (length (filter sw_w l)) l, v)
  end.
(** 190-199: (p1, p2, w) *)
Definition gjkSupportMap (l1 l2 : list vec3) (v : vec3) : option (vec3 * vec3 * vec3) :=
  match supportMap l1 (zVec3DRev v), supportMap l2 v with
  | Some p1, Some p2 => Some (p1, p2, zVec3DSub p1 p2)
  | _, _ => None
  end.
(** 202-213; [None]: a NULL pointer is followed *)
Fixpoint gjkPair (l : list slot) (c1 c2 : vec3) : option (vec3 * vec3) :=
  match l with
  | [] => Some (c1, c2)
  | sl :: t => if sw_w sl then match sl_p sl with
                               | Some (p1, p2) => gjkPair t (zVec3DCat c1 (sl_s sl) p1) (zVec3DCat c2 (sl_s sl) p2)
                               | None => None
                               end
               else gjkPair t c1 c2
  end.
(** 425-441; [old]: indefinite content of a local of zEdge3DPointIsOnLine *)
Definition gjkCheck (old : vec3) (s : simplex) : bool :=
  let w i := sl_w (nth i (sx_slot s) slotInit) in
  match sx_n s with
  | 4%nat => true
  | 3%nat => zTri3DPointIsOnPlane (snd (zTri3DCreate (w 0%nat) (w 1%nat) (w 2%nat))) v3zero zTOL
  | 2%nat => zEdge3DPointIsOnLine (E3 (w 0%nat) (w 1%nat)) v3zero zTOL old
  | 1%nat => zVec3DEqual (w 0%nat) v3zero
  | _ => false
  end.
(** 456-466: the loop; [proximity] and [dv2norm] ([None]: HUGE_VAL) are its variables *)
Inductive gjk_outcome := OutOfFuel | Broken | Done (s : simplex) (proximity : vec3).
Fixpoint gjkLoop (fuel : nat) (l1 l2 : list vec3) (s : simplex) (proximity : vec3) (dv2norm : option R) : gjk_outcome :=
  match fuel with
  | O => OutOfFuel
  | S fuel =>
      match gjkSupportMap l1 l2 proximity with
      | None => Broken
      | Some (p1, p2, w) =>
          if checkDupSlot s w || match dv2norm with None => false | Some d => Rleb (d - zVec3DInnerProd w proximity) zTOL end then Done s proximity
          else match simplexClosest (addSlot s w p1 p2) with
               | None => Broken
               | Some (s, proximity) =>
                   if Nat.ltb (sx_n s) 4 then gjkLoop fuel l1 l2 s proximity (Some (zVec3DSqrNorm proximity)) else Done s proximity
               end
      end
  end.
(** 443-475: (c1, c2, returned value); [None]: undefined, or out of fuel *)
Definition zGJK (fuel : nat) (old : vec3) (l1 l2 : list vec3) : option (vec3 * vec3 * bool) :=
  match l1, l2 with
  | a :: _, b :: _ =>
      match gjkLoop fuel l1 l2 simplexInit (zVec3DSub a b) None with
      | Done s _ => match gjkPair (sx_slot s) v3zero v3zero with
                    | Some (c1, c2) => Some (c1, c2, gjkCheck old s)
                    | None => None
                    end
      | _ => None
      end
  | _, _ => None
  end.
(** 486-531: the second point of every slot is the given point *)
Definition gjkPointSupportMap (l : list vec3) (p v : vec3) : option (vec3 * vec3 * vec3) :=
  match supportMap l (zVec3DRev v) with
  | Some p1 => Some (p1, p, zVec3DSub p1 p)
  | _ => None
  end.
Fixpoint gjkPointLoop (fuel : nat) (l : list vec3) (p : vec3) (s : simplex) (proximity : vec3) (dv2norm : option R) : gjk_outcome :=
  match fuel with
  | O => OutOfFuel
  | S fuel =>
      match gjkPointSupportMap l p proximity with
      | None => Broken
      | Some (p1, p2, w) =>
          if checkDupSlot s w || match dv2norm with None => false | Some d => Rleb (d - zVec3DInnerProd w proximity) zTOL end then Done s proximity
          else match simplexClosest (addSlot s w p1 p2) with
               | None => Broken
               | Some (s, proximity) =>
                   if Nat.ltb (sx_n s) 4 then gjkPointLoop fuel l p s proximity (Some (zVec3DSqrNorm proximity)) else Done s proximity
               end
      end
  end.
Fixpoint gjkPointClosest (l : list slot) (c : vec3) : option vec3 :=
  match l with
  | [] => Some c
  | sl :: t => if sw_w sl then match sl_p sl with Some (p1, _) => gjkPointClosest t (zVec3DCat c (sl_s sl) p1) | None => None end
               else gjkPointClosest t c
  end.
Definition zGJKPoint (fuel : nat) (old : vec3) (l : list vec3) (p : vec3) : option (vec3 * bool) :=
  match l with
  | a :: _ =>
      match gjkPointLoop fuel l p simplexInit (zVec3DSub a p) None with
      | Done s _ => match gjkPointClosest (sx_slot s) v3zero with Some c => Some (c, gjkCheck old s) | None => None end
      | _ => None
      end
  | _ => None
  end.

(** ** zeo_col_mpr.c 9-32: slots are (v, v1, v2) *)
Record mslot := MPS { ms_v : vec3; ms_v1 : vec3; ms_v2 : vec3 }.
Definition mprSupportMap (l1 l2 : list vec3) (v : vec3) : option mslot :=
  match supportMap l1 v, supportMap l2 (zVec3DRev v) with
  | Some v1, Some v2 => Some (MPS (zVec3DSub v1 v2) v1 v2)
  | _, _ => None
  end.
(** zVec3DNormalizeNCDRC, [None] for the zero vector, where it divides by zero *)
Definition normalizeNC (v : vec3) : option vec3 := if Reqb (zVec3DNorm v) 0 then None else Some (snd (zVec3DNormalizeNC v)).
(** src/zeo_vec3d_pca.c: mean of the points *)
Definition barycenterOf (l : list vec3) : option vec3 :=
  match l with [] => None | _ => zVec3DDiv (fold_left zVec3DAdd l v3zero) (INR (length l)) end.
(** 35-41 *)
Definition mprOrigin (l1 l2 : list vec3) : option mslot :=
  match barycenterOf l1, barycenterOf l2 with Some v1, Some v2 => Some (MPS (zVec3DSub v1 v2) v1 v2) | _, _ => None end.
(** 44-53 *)
Definition mprSimplexDir (s0 s1 s2 : mslot) : option vec3 :=
  normalizeNC (zVec3DOuterProd (zVec3DSub (ms_v s1) (ms_v s0)) (zVec3DSub (ms_v s2) (ms_v s0))).
Inductive portal := Outside | ToRefine (s0 s1 s2 s3 : mslot) | AtPoint (s1 : mslot) | OnSeg (s0 s1 : mslot) | MFuel | MBroken.
(** 95-112: the loop *)
Fixpoint mprPortalLoop (fuel : nat) (l1 l2 : list vec3) (s0 s1 s2 : mslot) (dir : vec3) : portal :=
  match fuel with
  | O => MFuel
  | S fuel =>
      match mprSupportMap l1 l2 dir with
      | None => MBroken
      | Some s3 =>
          if Rltb (zVec3DInnerProd (ms_v s3) dir) zTOL then Outside
          else if Rleb (zVec3DGrassmannProd (ms_v s0) (ms_v s1) (ms_v s3)) (- zTOL) then
            match mprSimplexDir s0 s1 s3 with Some dir => mprPortalLoop fuel l1 l2 s0 s1 s3 dir | None => MBroken end
          else if Rleb (zVec3DGrassmannProd (ms_v s0) (ms_v s3) (ms_v s2)) (- zTOL) then
            match mprSimplexDir s0 s3 s2 with Some dir => mprPortalLoop fuel l1 l2 s0 s3 s2 dir | None => MBroken end
          else ToRefine s0 s1 s2 s3
      end
  end.
(** 60-116 *)
Definition mprFindPortal (fuel : nat) (l1 l2 : list vec3) : portal :=
  match mprOrigin l1 l2 with
  | None => MBroken
  | Some s0 =>
      let s0 := if zVec3DIsTiny (ms_v s0) then MPS (V3 (vx (ms_v s0) + zTOL * 10) (vy (ms_v s0)) (vz (ms_v s0))) (ms_v1 s0) (ms_v2 s0) else s0 in
      match normalizeNC (zVec3DRev (ms_v s0)) with
      | None => MBroken
      | Some dir =>
          match mprSupportMap l1 l2 dir with
          | None => MBroken
          | Some s1 =>
              if Rltb (zVec3DInnerProd (ms_v s1) dir) zTOL then Outside
              else
                let dir := zVec3DOuterProd (ms_v s1) (ms_v s0) in
                if zVec3DIsTiny dir then (if zVec3DIsTiny (ms_v s1) then AtPoint s1 else OnSeg s0 s1)
                else match normalizeNC dir with
                     | None => MBroken
                     | Some dir =>
                         match mprSupportMap l1 l2 dir with
                         | None => MBroken
                         | Some s2 =>
                             if Rltb (zVec3DInnerProd (ms_v s2) dir) zTOL then Outside
                             else match mprSimplexDir s0 s1 s2 with
                                  | None => MBroken
                                  | Some dir => if Rltb 0 (zVec3DInnerProd dir (ms_v s0)) then mprPortalLoop fuel l1 l2 s0 s2 s1 (zVec3DRev dir)
                                                else mprPortalLoop fuel l1 l2 s0 s1 s2 dir
                                  end
                         end
                     end
          end
      end
  end.
(** 126-134 *)
Definition mprIsReached (s1 s2 s3 s : mslot) (dir : vec3) : bool :=
  let r := zVec3DInnerProd (ms_v s) dir in
  Rltb (r - zVec3DInnerProd (ms_v s1) dir) zTOL && Rltb (r - zVec3DInnerProd (ms_v s2) dir) zTOL && Rltb (r - zVec3DInnerProd (ms_v s3) dir) zTOL.
(** 137-147 *)
Definition mprExpand (s0 s1 s2 s3 s : mslot) : mslot * mslot * mslot :=
  let d := zVec3DOuterProd (ms_v s) (ms_v s0) in
  if Rltb 0 (zVec3DInnerProd (ms_v s1) d) then (if Rltb 0 (zVec3DInnerProd (ms_v s2) d) then (s, s2, s3) else (s1, s2, s))
  else if Rltb 0 (zVec3DInnerProd (ms_v s3) d) then (s1, s, s3) else (s, s2, s3).
(** 150-170; [None]: out of fuel or undefined *)
Fixpoint mprRefine (fuel : nat) (l1 l2 : list vec3) (s0 s1 s2 s3 : mslot) : option bool :=
  match fuel with
  | O => None
  | S fuel =>
      match mprSimplexDir s1 s2 s3 with
      | None => None
      | Some dir =>
          if Rltb (- zTOL) (zVec3DInnerProd (ms_v s1) dir) then Some true
          else match mprSupportMap l1 l2 dir with
               | None => None
               | Some s =>
                   if Rleb (zVec3DInnerProd (ms_v s) dir) (- zTOL) || mprIsReached s1 s2 s3 s dir then Some false
                   else let '(s1, s2, s3) := mprExpand s0 s1 s2 s3 s in mprRefine fuel l1 l2 s0 s1 s2 s3
               end
      end
  end.
(** 290-301 *)
Definition zMPR (fuel : nat) (l1 l2 : list vec3) : option bool :=
  match mprFindPortal fuel l1 l2 with
  | Outside => Some false
  | ToRefine s0 s1 s2 s3 => mprRefine fuel l1 l2 s0 s1 s2 s3
  | AtPoint _ | OnSeg _ _ => Some true
  | MFuel | MBroken => None
  end.
(** ** zeo_col_minkowski.c 15-26: the points whose hull is taken (the hull itself is not modelled); data2 is rewound only once *)
Definition minkowskiCollect (data1 data2 : data vec3) : option (data vec3) :=
  let n := (zVecXDDataSize data1 * zVecXDDataSize data2)%nat in
  match while_fetch (fuel_of data1) (zVecXDDataRewind data1) (Some (zVecXDDataRewind data2, zVecXDDataInitArray n))
          (fun s v1 => match s with
                       | None => inr None
                       | Some (d2, d) =>
                           match while_fetch (fuel_of data2) d2 d (fun d v2 => inl (fst (zVecXDDataAdd d (zVec3DSub v1 v2)))) with
                           | Some (d2, d) => inl (Some (d2, d))
                           | None => inr None
                           end
                       end) with
  | Some (_, Some (_, d)) => Some d
  | _ => None
  end.
