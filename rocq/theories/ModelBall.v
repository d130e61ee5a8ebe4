(** Model of the smallest enclosing balls of point sets:
    include/zeo/zeo_bvxd_boundingball.h, src/zeo_bv2d_boundingball.c, src/zeo_bv3d_boundingball.c.
    Lists of ZEDA are rings read from the tail to the head: zListForEach and zListCellNext
    start at the tail; zListInsertHead, zListDeleteTail etc. are named accordingly, and
    zStackMoveCell(a,b) moves the head of [a] to the head of [b].
    Memory exhaustion is not modelled. *)
From Verif Require Export ModelShape.
From Coq Require Import List Lia.
Import ListNotations.
Open Scope R_scope.

(** what a routine leaves behind: the extreme points (their number is returned) and the
    ball, [None] for a ball with NaN entries, which contains no point *)
Record found (P B : Type) := FD { fpoints : list P; fball : option B }.
Arguments FD {P B}. Arguments fpoints {P B}. Arguments fball {P B}.

Section Welzl.
Context {P B : Type} (inside : B -> P -> bool) (direct : list P -> option (found P B)) (DIM : nat).
(** BALLTYPE##PointIsInside( bb, p, zTOL ) *)
Definition contains (b : found P B) (p : P) : bool := match fball b with Some x => inside x p | None => false end.

(** ** zeo_bvxd_boundingball.h 18-34: both lists from tail to head; [None]: a null pointer is dereferenced *)
Fixpoint recursive (pl shell : list P) : option (found P B) :=
  match pl with
  | [] => direct shell
  | p :: rest =>
      if Nat.eqb (length shell) DIM then direct shell
      else match recursive rest shell with
           | None => None
           | Some b => if contains b p then Some b else recursive rest (p :: shell)
           end
  end.

(** ** 55-71: the stacks, each from head to tail; the saved shell cells only matter by their
    number, which is [DIM] minus the size of the shell *)
Inductive action := SAVE | CHECK | REVERT.
Record bbdata := BD { pointstack : list P; pointsave : list P; shellstack : list P; actionstack : list action; actionsave : list action }.
(** 73-101, on the list of addresses from tail to head *)
Definition dataAlloc (l : list P) : bbdata := BD (rev l) [] [] (repeat SAVE (length l)) [].
(** 113-119; [None]: an empty stack of actions is accessed *)
Definition savePoint (d : bbdata) (next : action) : option (bbdata * bool) :=
  match pointstack d with
  | [] => Some (d, false)
  | p :: ps => match actionstack d with
               | [] => None
               | _ :: acts => Some (BD ps (p :: pointsave d) (shellstack d) acts (next :: actionsave d), true)
               end
  end.
(** 121-126 *)
Definition revertPoint (d : bbdata) : option (bbdata * bool) :=
  match pointsave d with
  | [] => Some (d, false)
  | p :: pss => match actionsave d with
                | [] => None
                | a :: asv => Some (BD (p :: pointstack d) pss (shellstack d) (a :: actionstack d) asv, true)
                end
  end.
(** 128-131 *)
Definition addShell (d : bbdata) : option bbdata :=
  match pointstack d with
  | [] => None
  | p :: _ => if Nat.ltb (length (shellstack d)) DIM then Some (BD (pointstack d) (pointsave d) (p :: shellstack d) (actionstack d) (actionsave d)) else None
  end.
(** 133-135 *)
Definition revertShell (d : bbdata) : option bbdata :=
  match shellstack d with
  | [] => None
  | _ :: sh => Some (BD (pointstack d) (pointsave d) sh (actionstack d) (actionsave d))
  end.
(** 137-143; ACTION_NONE is [None] *)
Definition nextAction (d : bbdata) : option action := match actionstack d with [] => None | a :: _ => Some a end.
Definition setAction (d : bbdata) (a : action) : option bbdata :=
  match actionstack d with
  | [] => None
  | _ :: acts => Some (BD (pointstack d) (pointsave d) (shellstack d) (a :: acts) (actionsave d))
  end.

(** 175-198: one round of the endless loop.  [bb] is what the last direct computation left, [None] before it *)
Inductive outcome := Next (d : bbdata) (bb : option (found P B)) | Out (d : bbdata) (bb : option (found P B)) | Crash.
Definition back (d : bbdata) (bb : option (found P B)) : outcome :=
  match revertPoint d with None => Crash | Some (d', true) => Next d' bb | Some (d', false) => Out d' bb end.
(** 180-198 *)
Definition second (d : bbdata) (bb : option (found P B)) : outcome :=
  if (match pointstack d with [] => true | _ => false end || Nat.eqb (length (shellstack d)) DIM)%bool
  then match direct (rev (shellstack d)) with None => Crash | Some b => back d (Some b) end
  else match nextAction d with
       | Some SAVE => match savePoint d CHECK with Some (d', _) => Next d' bb | None => Crash end
       | Some CHECK =>
           match bb, pointstack d with
           | Some b, p :: _ =>
               if contains b p then match setAction d SAVE with Some d' => back d' bb | None => Crash end
               else match addShell d with
                    | Some d' => match savePoint d' REVERT with Some (d'', _) => Next d'' bb | None => Crash end
                    | None => Crash
                    end
           | _, _ => Crash
           end
       | _ => Next d bb
       end.
Definition round (d : bbdata) (bb : option (found P B)) : outcome :=
  match nextAction d with
  | Some REVERT =>
      match revertShell d with
      | None => Crash
      | Some d1 =>
          match setAction d1 SAVE with
          | None => Crash
          | Some d2 => match back d2 bb with Next d3 bb' => second d3 bb' | o => o end
          end
      end
  | _ => second d bb
  end.
(** 174-199; [None]: out of fuel *)
Fixpoint rounds (fuel : nat) (d : bbdata) (bb : option (found P B)) : option outcome :=
  match fuel with
  | O => None
  | S k => match round d bb with Next d' bb' => rounds k d' bb' | o => Some o end
  end.
(** 149-166: the first outlier from the tail; [None]: no outlier *)
Fixpoint pickOut (b : option (found P B)) (l : list P) : option (P * list P) :=
  match l with
  | [] => None
  | p :: r => if match b with Some x => contains x p | None => false end
              then match pickOut b r with Some (q, r') => Some (q, p :: r') | None => None end
              else Some (p, r)
  end.
Definition reorder (d : bbdata) (b : option (found P B)) : option bbdata :=
  match pickOut b (rev (pointstack d)) with
  | None => None
  | Some (q, r) => Some (BD (q :: rev r) (pointsave d) (shellstack d) (map (fun _ => SAVE) (actionstack d)) (actionsave d))
  end.
(** 173-204: [n] is the number of tries left; the flag tells whether the warning is issued *)
Inductive answer := Fuel | Crashed | Found (b : option (found P B)) (warned : bool).
Fixpoint tries (n fuel : nat) (d : bbdata) (bb : option (found P B)) : answer :=
  match n with
  | O => Found bb true
  | S k =>
      match rounds fuel d bb with
      | None => Fuel
      | Some (Out d' bb') => match reorder d' bb' with None => Found bb' false | Some d'' => tries k fuel d'' bb' end
      | Some _ => Crashed
      end
  end.
(** 53 *)
Definition ZEO_BOUNDINGBALL_MAX_RETRY_NUM : nat := 100.
(** 168-208, on the points in the order of the data *)
Definition boundingBall (fuel : nat) (l : list P) : answer := tries ZEO_BOUNDINGBALL_MAX_RETRY_NUM fuel (dataAlloc l) None.
End Welzl.
Arguments Found {P B}. Arguments Fuel {P B}. Arguments Crashed {P B}.
Arguments BD {P}. Arguments pointstack {P}. Arguments pointsave {P}. Arguments shellstack {P}. Arguments actionstack {P}. Arguments actionsave {P}.
Arguments Next {P B}. Arguments Out {P B}. Arguments Crash {P B}.

(** first success in a chain of alternatives joined by || *)
Fixpoint firstOf {A} (l : list (option A)) : option A :=
  match l with [] => None | Some x :: _ => Some x | None :: r => firstOf r end.

(** ** src/zeo_bv2d_boundingball.c *)
(** 10-18; [None]: NULL *)
Definition zBoundingBall2DTest2 (v1 v2 v3 : vec2) : option (found vec2 disk2) :=
  let b := zDisk2DFrom2 v1 v2 in
  if zDisk2DPointIsInside b v3 zTOL then Some (FD [v1; v2] (Some b)) else None.
(** 21-28 *)
Definition zBoundingBall2DTest3 (v1 v2 v3 : vec2) : found vec2 disk2 := FD [v1; v2; v3] (zDisk2DFrom3 v1 v2 v3).
(** 31-38 *)
Definition zBoundingBall2D3 (v0 v1 v2 : vec2) : found vec2 disk2 :=
  match firstOf [zBoundingBall2DTest2 v0 v1 v2; zBoundingBall2DTest2 v1 v2 v0; zBoundingBall2DTest2 v2 v0 v1] with
  | Some b => b
  | None => zBoundingBall2DTest3 v0 v1 v2
  end.
(** 41-69: the list from tail to head; a longer list, never met, raises an error *)
Definition zBoundingBall2DDirect (pl : list vec2) : option (found vec2 disk2) :=
  match pl with
  | [] => Some (FD [] (Some (DK v2zero (-1))))
  | [v] => Some (FD [v] (Some (DK v 0)))
  | [t; h] => Some (FD [h; t] (Some (zDisk2DFrom2 h t)))
  | [t; n; h] => Some (zBoundingBall2D3 t n h)
  | _ => None
  end.
(** 72-75 and zeo_bvxd_boundingball.h 36-48, 168-208 *)
Definition inside2 (b : disk2) (p : vec2) : bool := zDisk2DPointIsInside b p zTOL.
Definition zVec2DDataBoundingBallRecursive (l : list vec2) : option (found vec2 disk2) := recursive inside2 zBoundingBall2DDirect 3 l [].
Definition zVec2DDataBoundingBall (fuel : nat) (l : list vec2) : answer := boundingBall inside2 zBoundingBall2DDirect 3 fuel l.

(** ** src/zeo_bv3d_boundingball.c *)
Definition inside3 (b : sphere3) (p : vec3) : bool := zSphere3DPointIsInside b p zTOL.
(** 10-18 *)
Definition zBoundingBall3DTest2 (v1 v2 v3 v4 : vec3) : option (found vec3 sphere3) :=
  let b := zSphere3DFrom2 v1 v2 in
  if (negb (inside3 b v3) || negb (inside3 b v4))%bool then None else Some (FD [v1; v2] (Some b)).
(** 21-29: a sphere with NaN entries contains nothing *)
Definition zBoundingBall3DTest3 (v1 v2 v3 v4 : vec3) : option (found vec3 sphere3) :=
  match zSphere3DFrom3 v1 v2 v3 with
  | None => None
  | Some b => if inside3 b v4 then Some (FD [v1; v2; v3] (Some b)) else None
  end.
(** 32-38; [None]: for points in a plane zTri3DConeCircumcenter returns NULL, which zVec3DNorm dereferences *)
Definition zBoundingBall3DTest4 (v1 v2 v3 v4 : vec3) : option (found vec3 sphere3) :=
  match zSphere3DFrom4 v1 v2 v3 v4 with None => None | Some b => Some (FD [v1; v2; v3; v4] (Some b)) end.
(** 41-54 *)
Definition zBoundingBall3D4 (v0 v1 v2 v3 : vec3) : option (found vec3 sphere3) :=
  match firstOf [zBoundingBall3DTest2 v0 v1 v2 v3; zBoundingBall3DTest2 v0 v2 v1 v3; zBoundingBall3DTest2 v0 v3 v1 v2;
                 zBoundingBall3DTest2 v1 v2 v0 v3; zBoundingBall3DTest2 v1 v3 v0 v2; zBoundingBall3DTest2 v2 v3 v0 v1] with
  | Some b => Some b
  | None =>
      match firstOf [zBoundingBall3DTest3 v0 v1 v2 v3; zBoundingBall3DTest3 v0 v1 v3 v2; zBoundingBall3DTest3 v1 v2 v3 v0] with
      | Some b => Some b
      | None => zBoundingBall3DTest4 v0 v1 v2 v3
      end
  end.
(** 57-87: with three points the third, which is the head, is taken twice *)
Definition zBoundingBall3DDirect (pl : list vec3) : option (found vec3 sphere3) :=
  match pl with
  | [] => Some (FD [] (Some (zSphere3DCreate v3zero (-1) 0)))
  | [v] => Some (FD [v] (Some (zSphere3DCreate v 0 0)))
  | [t; h] => Some (FD [h; t] (Some (zSphere3DFrom2 h t)))
  | [t; n; h] => zBoundingBall3D4 t n h h
  | [t; n; m; h] => zBoundingBall3D4 t n m h
  | _ => None
  end.
(** 90-93 *)
Definition zVec3DDataBoundingBallRecursive (l : list vec3) : option (found vec3 sphere3) := recursive inside3 zBoundingBall3DDirect 4 l [].
Definition zVec3DDataBoundingBall (fuel : nat) (l : list vec3) : answer := boundingBall inside3 zBoundingBall3DDirect 4 fuel l.
