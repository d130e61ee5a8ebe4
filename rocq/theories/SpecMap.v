(** Vocabulary for files of elevation maps. *)
From Coq Require Import Ascii String.
From Verif Require Export SpecTerra ModelZtk ModelTerra.
From Coq Require Import List ZArith.
Import ListNotations.
Open Scope R_scope.

(** a line for one node: where it is, its height, normal, variance and flag *)
Record node := ND { ndi : Z; ndj : Z; ndz : R; ndn : vec3; ndv : R; ndt : bool }.
Definition at_node (i j : Z) (g : node) : Prop := ndi g = i /\ ndj g = j.
(** as written in a file *)
Definition node_line (g : node) : entry :=
  ("grid"%string, [TInt (ndi g); TInt (ndj g); TNum (ndz g); TNum (vx (ndn g)); TNum (vy (ndn g)); TNum (vz (ndn g)); TNum (ndv g); TInt (if ndt g then 1 else 0)]).
(** the last line for a node *)
Definition last_for (l : list node) (i j : Z) (g : node) : Prop :=
  exists l1 l2, l = l1 ++ g :: l2 /\ at_node i j g /\ Forall (fun h => ~ at_node i j h) l2.
(** a cell shows the values of a line *)
Definition shows (c : tcell) (g : node) : Prop := tz c = ndz g /\ tnorm c = ndn g /\ tvar c = ndv g /\ ttravs c = ndt g.
(** a cell that has seen no point: the plane of height 0, nothing learnt *)
Definition fresh (c : tcell) : Prop := tprm c = V3 0 0 0 /\ tS c = ZMAT3DIDENT /\ tnp c = 0%nat.
(** the lines above those of the nodes *)
Definition head_lines (x0 y0 dx dy : R) (xs ys : Z) (z0 z1 tv tg tr : R) : sect := [
  ("origin", [TNum x0; TNum y0]); ("resolution", [TNum dx; TNum dy]); ("size", [TInt xs; TInt ys]); ("zrange", [TNum z0; TNum z1]);
  ("th_var", [TNum tv]); ("th_grd", [TNum tg]); ("th_res", [TNum tr])]%string.
(** a map fit to be stored *)
Definition map_ok (t : terra) : Prop :=
  (0 < nx t)%Z /\ (0 < ny t)%Z /\ zTOL <= Rabs (tdx t) /\ zTOL <= Rabs (tdy t) /\ zmin t <= zmax t /\ -1 <= th_grd t <= 1 /\
  xmax t = xmin t + IZR (nx t - 1) * tdx t /\ ymax t = ymin t + IZR (ny t - 1) * tdy t.
(** the same region, grid, thresholds, and nodes as far as they are shown *)
Definition same_map (t t' : terra) : Prop :=
  xmin t' = xmin t /\ xmax t' = xmax t /\ ymin t' = ymin t /\ ymax t' = ymax t /\ zmin t' = zmin t /\ zmax t' = zmax t /\
  tdx t' = tdx t /\ tdy t' = tdy t /\ th_var t' = th_var t /\ th_grd t' = th_grd t /\ th_res t' = th_res t /\ nx t' = nx t /\ ny t' = ny t /\
  forall i j, (0 <= i < nx t)%Z -> (0 <= j < ny t)%Z -> exists c c', zTerraGrid t i j = Some c /\ zTerraGrid t' i j = Some c' /\
    tz c' = tz c /\ tnorm c' = tnorm c /\ tvar c' = tvar c /\ ttravs c' = ttravs c.
(** nothing learnt anywhere *)
Definition all_fresh (t : terra) : Prop := forall i j c, zTerraGrid t i j = Some c -> fresh c.
