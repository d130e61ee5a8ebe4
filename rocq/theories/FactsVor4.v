(** zVec2DDataVoronoiDiagram as a whole, and examples. *)
From Verif Require Import ModelVor SpecVor SpecDel FactsElem FactsTri2 FactsCentre FactsBallQ3 FactsDel FactsDel2 FactsDel3 FactsDel4 FactsDel5 FactsDel6 FactsDel7 FactsDel8 FactsDel9 FactsDel10 FactsDel11 FactsVor FactsVor2 FactsVor3.
From Coq Require Import List Lra Lia Bool Permutation.
Import ListNotations.
Open Scope R_scope.

(** seeds and nodes of the cells that the function gives *)
Definition cells (pts : list vec2) (vl : list vcell) : list (vec2 * list vec2) := map (fun c => (dpt pts (fst c), map vn_node (snd c))) vl.
Lemma seq_points (l r : list vec2) : map (dpt (l ++ r)) (seq (length l) (length r)) = r.
Proof.
  revert l. induction r as [|p r IH]; intros l; cbn [length seq map]; [reflexivity|]. f_equal; [unfold dpt; rewrite app_nth2 by lia; rewrite Nat.sub_diag; reflexivity|]. specialize (IH (l ++ [p])). rewrite <- app_assoc in IH. cbn [app] in IH. rewrite app_length in IH. cbn [length] in IH. rewrite Nat.add_1_r in IH. exact IH.
Qed.
Lemma voronoi_ok data d : data <> [] -> bounding_disk data d -> no_three_in_line (outer_corners d ++ data) -> (forall p, List.In p data -> within (outer_corners d) p) ->
  forall fuel, (4 * length data + 5 <= fuel)%nat -> exists vl, zVec2DDataVoronoiDiagram fuel data = DDone (outer_corners d ++ data, vl) /\
    voronoi_diagram (outer_corners d ++ data) data (cells (outer_corners d ++ data) vl).
Proof.
  intros NE BD GP SU fuel HF. set (pts := outer_corners d ++ data).
  destruct (all_ok pts (seq 3 (length data)) _ _ (outer_ok pts (top_ar data d NE SU))) as ((m, new) & V & F & T & E & L).
  - apply NoDup_app_ok.
  - exact (top_spread data d GP).
  - intros p I. apply in_seq in I. apply (top_rim data d SU), top_in. lia.
  - cbn [fst length] in F, L. rewrite seq_length in F, L. pose proof (T_mesh _ _ _ T) as M. pose proof (T_empty _ _ _ T) as EC. cbn [fst] in M, EC.
    pose proof (res_distinct data d GP V E) as D. assert (RV : forall k, List.In k V <-> (k < length data + 3)%nat) by (intros k; exact (res_V data V E k)).
    assert (VS : forall q, List.In q pts <-> exists k, List.In k V /\ q = dpt pts k).
    { intros q. split; [intros I; destruct (top_all data d q I) as (k & K & EQ); exists k; split; [apply RV, K|exact EQ]|]. intros (k & K & ->). apply RV in K. exact (nth_error_In _ _ (top_nth data d k K)). }
    unfold zVec2DDataVoronoiDiagram, zDelaunay2DCreateOuter. destruct BD as (b & B1 & B2). destruct (plane_recursive data NE) as (b' & d' & B1' & B2' & _ & BL & _). rewrite B1 in B1'. injection B1' as <-. rewrite B1, B2. destruct (fpoints b) as [|q r]; [cbn [length] in BL; lia|]. fold pts. rewrite F by lia.
    unfold zVoronoi2DListFromDelaunayTri2DList. rewrite add_all; [| |intros t X I; destruct (mesh_centre pts m V M t X I) as (C & _); rewrite C; discriminate].
    + unfold extend. rewrite map_map. cbn [fst snd app].
      destruct (close_all pts m V M D EC VS fuel ltac:(lia) (seq 3 (length data))) as (vl & C & CM & CP).
      * intros v I. apply in_seq in I. split; [lia|]. split; [apply RV; lia|]. apply (top_rim data d SU), top_in. lia.
      * rewrite C. exists vl. split; [reflexivity|]. split.
        -- unfold cells. rewrite map_map. cbn [fst]. rewrite <- (map_map fst (dpt pts)), CM. exact (seq_points (outer_corners d) data).
        -- intros v nodes I. apply in_map_iff in I. destruct I as ((k, l) & EQ & I). cbn [fst snd] in EQ. injection EQ as <- <-. exact (CP k l I).
    + rewrite map_map. cbn [fst]. rewrite map_id. apply seq_NoDup.
Qed.
Lemma voronoi_fails data d p : bounding_disk data d -> no_three_in_line (outer_corners d ++ data) -> List.In p data -> ~ within (outer_corners d) p ->
  forall fuel, (4 * length data + 5 <= fuel)%nat -> zVec2DDataVoronoiDiagram fuel data = DFail.
Proof.
  intros BD GP I N fuel HF. pose proof (delaunay_fails data d p BD GP I N fuel HF) as H. unfold zVec2DDataDelaunayTriangulate in H. unfold zVec2DDataVoronoiDiagram. destruct (zDelaunay2DCreateOuter data) as [(pts, st)|]; [|discriminate]. destruct (zDelaunay2DAll pts fuel st (seq 3 (length data))); try discriminate H; try reflexivity. destruct x. discriminate H.
Qed.
Lemma voronoi_none fuel : zVec2DDataVoronoiDiagram fuel [] = DUndef.
Proof. reflexivity. Qed.
(** a position whose nearest datum does not own it *)
Lemma voronoi_cut : exists data p x pts, List.In p data /\ (forall q, List.In q data -> dist2 x p <= dist2 x q) /\
  forall fuel, (17 <= fuel)%nat -> exists vl, zVec2DDataVoronoiDiagram fuel data = DDone (pts, vl) /\ map fst (cells pts vl) = data /\
    forall nodes, List.In (p, nodes) (cells pts vl) -> exists us, voronoi_polygon pts p nodes us /\ ~ (forall u, List.In u us -> dist2 x p <= dist2 x u).
Proof.
  exists three, (V2 0 8), (V2 3 19), (outer_corners (DK (V2 3 4) 5) ++ three). split; [right; right; left; reflexivity|]. split.
  - intros q I. apply dist2_le. destruct I as [<-|[<-|[<-|[]]]]; plane; lra.
  - intros fuel HF. destruct (voronoi_ok three _ ltac:(discriminate) three_disk three_line three_within fuel HF) as (vl & E & (EM & EP)). exists vl. split; [exact E|]. split; [exact EM|]. intros nodes I. destruct (EP _ _ I) as (us & P). exists us. split; [exact P|]. intros H.
    pose proof (proj2 (P_cell _ _ _ _ P (V2 3 19)) H) as K. specialize (K (V2 3 19)). assert (C : List.In (V2 3 19) (outer_corners (DK (V2 3 4) 5) ++ three)). { apply in_app_iff. left. cbn [outer_corners List.In dcen drad]. left. apply vec2_ext; plane; field. }
    specialize (K C). apply dist2_le in K. revert K. plane. lra.
Qed.
