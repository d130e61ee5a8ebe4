(** C77: Delaunay triangulation of points in the plane. *)
From Verif Require Import Base Spec SpecGeom SpecShape SpecDel ModelElem ModelShape ModelBall ModelDel FactsDel10 FactsDel11.
From Coq Require Import List.
From Coq Require Lra Lia.
Import ListNotations.
Open Scope R_scope.

(** [bounding_disk]: the disk that zVec2DDataBoundingBallRecursive gives; [delaunay_list]: the triangles join data points counter-clockwise, their circles are empty of data and outer corners, they do not overlap, every triangle of data with an empty circle is among them; [linked]: the pointers between neighbours *)
Theorem C77_delaunay : forall data d, data <> [] -> bounding_disk data d -> no_three_in_line (outer_corners d ++ data) -> (forall p, List.In p data -> within (outer_corners d) p) ->
  exists m, (forall fuel, (4 * length data + 5 <= fuel)%nat -> zVec2DDataDelaunayTriangulate fuel data = DDone (outer_corners d ++ data, m)) /\
    delaunay_list (outer_corners d) data (triangles (outer_corners d ++ data) m) /\ linked m.
Proof. exact delaunay_ok. Qed.
Print Assumptions C77_delaunay.
(** a point outside the outer triangle: the function returns false *)
Theorem C77_fails : forall data d p, bounding_disk data d -> no_three_in_line (outer_corners d ++ data) -> List.In p data -> ~ within (outer_corners d) p ->
  forall fuel, (4 * length data + 5 <= fuel)%nat -> zVec2DDataDelaunayTriangulate fuel data = DFail.
Proof. exact delaunay_fails. Qed.
Print Assumptions C77_fails.
(** the outer triangle holds the points within one and a half radii of the centre of the disk *)
Theorem C77_outer : forall d p, dist2 (dcen d) p < 3 / 2 * drad d -> surrounded d p.
Proof. exact disk_surrounded. Qed.
Print Assumptions C77_outer.
(** no points: the list of triangles is used uninitialised *)
Theorem C77_none_refuted : forall fuel, zVec2DDataDelaunayTriangulate fuel [] = DUndef.
Proof. exact delaunay_none. Qed.
Print Assumptions C77_none_refuted.
(** ordinary points for which the function returns false *)
Theorem C77_fails_refuted : exists data, no_three_in_line data /\ (forall fuel, (25 <= fuel)%nat -> zVec2DDataDelaunayTriangulate fuel data = DFail).
Proof. exact five_fails. Qed.
Print Assumptions C77_fails_refuted.
(** three points that are not joined though they make a triangle *)
Theorem C77_flat_refuted : exists data a b c pts, List.In a data /\ List.In b data /\ List.In c data /\ delaunay_triangle data a b c /\
  forall fuel, (17 <= fuel)%nat -> zVec2DDataDelaunayTriangulate fuel data = DDone (pts, []).
Proof. exact skinny_lost. Qed.
Print Assumptions C77_flat_refuted.
(** the only triangle has three neighbours, all of them freed *)
Theorem C77_dangling_refuted : exists data pts m t X, (forall fuel, (17 <= fuel)%nat -> zVec2DDataDelaunayTriangulate fuel data = DDone (pts, m)) /\ List.In (t, X) m /\
  forall i, (i < 3)%nat -> exists s, dadj X i = Some s /\ dget m s = None.
Proof. exact dangling. Qed.
Print Assumptions C77_dangling_refuted.
(** a right-angled triangle meets the hypotheses of C77_delaunay *)
Example C77_ex : exists m, (forall fuel, (17 <= fuel)%nat -> zVec2DDataDelaunayTriangulate fuel three = DDone (outer_corners (DK (V2 3 4) 5) ++ three, m)) /\ delaunay_list (outer_corners (DK (V2 3 4) 5)) three (triangles (outer_corners (DK (V2 3 4) 5) ++ three) m) /\ linked m.
Proof. apply (C77_delaunay three); [discriminate|exact three_disk|exact three_line|exact three_within]. Qed.
Example C77_ex_fails : forall fuel, (25 <= fuel)%nat -> zVec2DDataDelaunayTriangulate fuel five_points = DFail.
Proof. intros fuel HF. destruct five_out as (I & N). exact (C77_fails _ _ _ five_disk five_line I N fuel HF). Qed.
