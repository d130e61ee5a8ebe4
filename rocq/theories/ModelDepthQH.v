(** The hull that the penetration depth works with: src/zeo_col_gjk.c 386-395. *)
From Verif Require Export ModelDepth ModelQH.
From Coq Require Import List.
Import ListNotations.
Open Scope R_scope.

(** 390-393 with src/zeo_bv3d_convexhull.c 497-530: the faces of the modelled zVec3DDataConvexHull of the collected points.
    [sort] is zVec3DAddrListQuickSort of ZEDA.  [None]: the null pointer.  Left out: undefined behaviour of the hull, also [None], which C76_hull
    excludes *)
Definition depthHull sort (l : list vec3) : option (list tri3) :=
  match zVec3DDataConvexHull sort (length l) l with
  | Some (Some ch) => zPH3DTris ch
  | _ => None
  end.
