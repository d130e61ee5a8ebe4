(** C78: Voronoi diagram of points in the plane. *)
From Verif Require Import Base Spec SpecGeom SpecShape SpecDel SpecVor ModelElem ModelShape ModelBall ModelDel ModelVor FactsDel10 FactsDel11 FactsVor4.
From Coq Require Import List.
From Coq Require Lra Lia.
Import ListNotations.
Open Scope R_scope.

(** [bounding_disk]: the disk that zVec2DDataBoundingBallRecursive gives; [voronoi_diagram]: one cell for each point in order, and the loop of each cell is a closed polygon of at least three corners in clockwise order, each side of which lies midway to another site, and whose half-planes hold exactly the positions that no other site is nearer to; the sites are the data and the outer corners *)
Theorem C78_voronoi : forall data d, data <> [] -> bounding_disk data d -> no_three_in_line (outer_corners d ++ data) -> (forall p, List.In p data -> within (outer_corners d) p) ->
  forall fuel, (4 * length data + 5 <= fuel)%nat -> exists vl, zVec2DDataVoronoiDiagram fuel data = DDone (outer_corners d ++ data, vl) /\
    voronoi_diagram (outer_corners d ++ data) data (cells (outer_corners d ++ data) vl).
Proof. exact voronoi_ok. Qed.
Print Assumptions C78_voronoi.
(** a point outside the outer triangle: the function returns false *)
Theorem C78_fails : forall data d p, bounding_disk data d -> no_three_in_line (outer_corners d ++ data) -> List.In p data -> ~ within (outer_corners d) p ->
  forall fuel, (4 * length data + 5 <= fuel)%nat -> zVec2DDataVoronoiDiagram fuel data = DFail.
Proof. exact voronoi_fails. Qed.
Print Assumptions C78_fails.
(** no points: the list of triangles is used uninitialised *)
Theorem C78_none_refuted : forall fuel, zVec2DDataVoronoiDiagram fuel [] = DUndef.
Proof. exact voronoi_none. Qed.
Print Assumptions C78_none_refuted.
(** a position whose nearest datum does not own it: the corners of the outer triangle own a part of the plane *)
Theorem C78_cut_refuted : exists data p x pts, List.In p data /\ (forall q, List.In q data -> dist2 x p <= dist2 x q) /\
  forall fuel, (17 <= fuel)%nat -> exists vl, zVec2DDataVoronoiDiagram fuel data = DDone (pts, vl) /\ map fst (cells pts vl) = data /\
    forall nodes, List.In (p, nodes) (cells pts vl) -> exists us, voronoi_polygon pts p nodes us /\ ~ (forall u, List.In u us -> dist2 x p <= dist2 x u).
Proof. exact voronoi_cut. Qed.
Print Assumptions C78_cut_refuted.
(** a right-angled triangle meets the hypotheses of C78_voronoi *)
Example C78_ex : forall fuel, (17 <= fuel)%nat -> exists vl, zVec2DDataVoronoiDiagram fuel three = DDone (outer_corners (DK (V2 3 4) 5) ++ three, vl) /\ voronoi_diagram (outer_corners (DK (V2 3 4) 5) ++ three) three (cells (outer_corners (DK (V2 3 4) 5) ++ three) vl).
Proof. apply (C78_voronoi three); [discriminate|exact three_disk|exact three_line|exact three_within]. Qed.
Example C78_ex_fails : forall fuel, (25 <= fuel)%nat -> zVec2DDataVoronoiDiagram fuel five_points = DFail.
Proof. intros fuel HF. destruct five_out as (I & N). exact (C78_fails _ _ _ five_disk five_line I N fuel HF). Qed.
