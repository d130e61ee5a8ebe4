(** C76: convex hull of points in space. C72: the oriented bounding box found with it. *)
From Verif Require Import Base Spec SpecGeom SpecHull SpecMesh SpecBox SpecBBox SpecQH ModelVec ModelElem ModelFrame ModelBox ModelPH ModelHull ModelBBox ModelQH FactsVec FactsAlg FactsHull2 FactsHull4 FactsPH2 FactsPH4 FactsBBox FactsBBox3 FactsQH7 FactsQH8 FactsQH9.
From Coq Require Lra Lia.
Open Scope R_scope.

(** [hull_surface]: vertices are distinct data points, all used; closed surface of one orientation; unit outward normals; other data points strictly beneath each face; the common part of the half-spaces is the convex hull of the vertices and contains the data. [norm_faces]: vertex numbers and normal of each face *)
Theorem C76_hull : forall sort fuel data, general_position data -> (4 <= length data)%nat -> (length data <= fuel)%nat ->
  exists ch, zVec3DDataConvexHull sort fuel data = Some (Some ch) /\ hull_surface data (pverts ch) (norm_faces ch).
Proof. exact quickhull_correct. Qed.
Print Assumptions C76_hull.
(** exactly the points that are not in the convex hull of others become vertices *)
Theorem C76_extreme : forall sort fuel data ch, general_position data -> (4 <= length data)%nat -> (length data <= fuel)%nat -> zVec3DDataConvexHull sort fuel data = Some (Some ch) ->
  forall x, List.In x data -> (List.In x (pverts ch) <-> ~ exists L, (forall y, List.In y L -> List.In y data /\ y <> x) /\ convex_hull L x).
Proof. exact quickhull_extreme. Qed.
Print Assumptions C76_extreme.
(** no point, or all within the tolerance of each other: the null pointer *)
Theorem C76_place : forall sort fuel data, (forall x y, List.In x data -> List.In y data -> negligible (vsub x y)) -> zVec3DDataConvexHull sort fuel data = Some None.
Proof. exact degenerate_place. Qed.
Print Assumptions C76_place.
(** all points on a line: the null pointer *)
Theorem C76_line : forall sort fuel data o d, (forall x, List.In x data -> on_line o d x) -> zVec3DDataConvexHull sort fuel data = Some None.
Proof. exact degenerate_line. Qed.
Print Assumptions C76_line.
(** all points on a plane: the null pointer or what the planar method gives *)
Theorem C76_plane : forall sort fuel data o w, w <> v3zero -> (forall x, List.In x data -> dot w (vsub x o) = 0) ->
  zVec3DDataConvexHull sort fuel data = Some None \/ zVec3DDataConvexHull sort fuel data = planar_hull sort data.
Proof. exact degenerate_plane. Qed.
Print Assumptions C76_plane.
(** five points with small integer coordinates in general position *)
Example C76_ex_general : general_position [V3 0 0 0; V3 1 0 0; V3 0 1 0; V3 0 0 1; V3 2 3 5].
Proof.
  intros i j k m a b c d ND A B C D.
  assert (BX : forall n v, List.nth_error [V3 0 0 0; V3 1 0 0; V3 0 1 0; V3 0 0 1; V3 2 3 5] n = Some v -> boxed v /\ (n < 5)%nat).
  { intros n v E. split; [|apply (List.nth_error_Some [V3 0 0 0; V3 1 0 0; V3 0 1 0; V3 0 0 1; V3 2 3 5] n); rewrite E; discriminate]. apply List.nth_error_In in E. cbn in E. unfold boxed. destruct E as [<-|[<-|[<-|[<-|[<-|[]]]]]]; cbn [vx vy vz]; repeat split; Lra.lra. }
  destruct (BX i a A) as (Ba & Li), (BX j b B) as (Bb & Lj), (BX k c C) as (Bc & Lk), (BX m d D) as (Bd & Lm). apply boxed_apart; try assumption.
  assert (NE : i <> j /\ i <> k /\ i <> m /\ j <> k /\ j <> m /\ k <> m). { repeat (apply List.NoDup_cons_iff in ND; destruct ND as (? & ND)). cbn in *. intuition. } clear ND BX Ba Bb Bc Bd. destruct NE as (N1 & N2 & N3 & N4 & N5 & N6).
  assert (Z : forall q : R, q <= -1 \/ 1 <= q -> 1 <= Rabs q) by (intros q [H|H]; [rewrite Rabs_left; Lra.lra|rewrite Rabs_right; Lra.lra]). apply Z. clear Z.
  unfold vol6, det3v, dot, cross, vsub.
  destruct i as [|[|[|[|[|i]]]]]; try Lia.lia; cbn in A; injection A as <-; destruct j as [|[|[|[|[|j]]]]]; try Lia.lia; cbn in B; injection B as <-; destruct k as [|[|[|[|[|k]]]]]; try Lia.lia; cbn in C; injection C as <-; destruct m as [|[|[|[|[|m]]]]]; try Lia.lia; cbn in D; injection D as <-; cbn [vx vy vz]; first [left; Lra.lra|right; Lra.lra].
Qed.
Example C76_ex : forall sort, exists ch, zVec3DDataConvexHull sort 5 [V3 0 0 0; V3 1 0 0; V3 0 1 0; V3 0 0 1; V3 2 3 5] = Some (Some ch) /\ hull_surface [V3 0 0 0; V3 1 0 0; V3 0 1 0; V3 0 0 1; V3 2 3 5] (pverts ch) (norm_faces ch).
Proof. intros sort. apply quickhull_correct; [exact C76_ex_general|cbn; Lia.lia|cbn; Lia.lia]. Qed.
Example C76_ex_line : forall sort fuel, zVec3DDataConvexHull sort fuel [V3 0 0 0; V3 1 2 3; V3 2 4 6; V3 3 6 9] = Some None.
Proof. intros. apply (degenerate_line _ _ _ (V3 0 0 0) (V3 1 2 3)). intros x H. cbn in H. destruct H as [<-|[<-|[<-|[<-|[]]]]]; [exists 0|exists 1|exists 2|exists 3]; apply vec3_ext; cbn; Lra.lra. Qed.
(** the box of points in general position, no three of them nearly on a line: [quickhull] is the modelled zVec3DDataConvexHull; extents and inclusion refer to the given points *)
Theorem C72_data : forall sort fuel data ch, sorts sort -> general_position data -> (4 <= length data)%nat -> (length data <= fuel)%nat -> wide_triples data -> quickhull sort fuel data = Some ch ->
  (forall t, List.In t (solid_tris ch) -> thinnest (pverts ch) (normals ch) (tnorm t) -> clear_shadows (tv0 t) (tnorm t) (pverts ch)) ->
  exists t, List.In t (solid_tris ch) /\ thinnest data (normals ch) (tnorm t) /\
  ((zConvexHull2DBase (shadows (tv0 t) (tnorm t) (pverts ch)) = None /\ zVec3DDataOBB sort (quickhull sort fuel) data = Some None) \/
  exists b, zVec3DDataOBB sort (quickhull sort fuel) data = Some (Some b) /\ good_box b /\ zBox3DAxis b 2 = tnorm t /\
    (forall x, List.In x data -> in_obb b x) /\
    extent (zBox3DAxis b 0) data (vx (bspan b)) /\ extent (zBox3DAxis b 1) data (vy (bspan b)) /\ extent (zBox3DAxis b 2) data (vz (bspan b)) /\
    (forall e we wf, dot e e = 1 -> dot (zBox3DAxis b 2) e = 0 -> extent e data we -> extent (cross (zBox3DAxis b 2) e) data wf -> vx (bspan b) * vy (bspan b) <= we * wf)).
Proof. exact obb_data. Qed.
Print Assumptions C72_data.
Lemma five_wide : wide_triples [V3 0 0 0; V3 1 0 0; V3 0 1 0; V3 0 0 1; V3 2 3 5].
Proof.
  assert (Z : forall x y z, 1 <= Rabs x \/ 1 <= Rabs y \/ 1 <= Rabs z -> ~ negligible (V3 x y z)). { intros x y z H (A & B & C). pose proof zTOL_small. cbn [vx vy vz] in *. destruct H as [H|[H|H]]; Lra.lra. }
  assert (Q : forall x, x <= -1 \/ 1 <= x -> 1 <= Rabs x) by (intros x [H|H]; [rewrite Rabs_left; Lra.lra|rewrite Rabs_right; Lra.lra]).
  intros a b c A B C. cbn in A, B, C. unfold tri_normal, cross, vsub.
  destruct A as [<-|[<-|[<-|[<-|[<-|[]]]]]]; destruct B as [<-|[<-|[<-|[<-|[<-|[]]]]]]; intros N1; try (exfalso; apply N1; reflexivity); destruct C as [<-|[<-|[<-|[<-|[<-|[]]]]]]; intros N2 N3; try (exfalso; apply N2; reflexivity); try (exfalso; apply N3; reflexivity); clear N1 N2 N3; cbn [vx vy vz]; apply Z;
    first [left; apply Q; left; Lra.lra|left; apply Q; right; Lra.lra|right; left; apply Q; left; Lra.lra|right; left; apply Q; right; Lra.lra|right; right; apply Q; left; Lra.lra|right; right; apply Q; right; Lra.lra].
Qed.
Example C72_ex_data : forall sort, exists ch, quickhull sort 5 [V3 0 0 0; V3 1 0 0; V3 0 1 0; V3 0 0 1; V3 2 3 5] = Some ch /\ sound_ph ch /\ beneath ch.
Proof.
  intros sort. destruct (C76_ex sort) as (ch & E & H). exists ch. split; [unfold quickhull; rewrite E; reflexivity|]. exact (hull_sound _ ch H five_wide).
Qed.
