(** Property C51: elevation maps. *)
From Verif Require Import Base Spec SpecTerra ModelVec ModelMat ModelTerra FactsAlg FactsVec FactsMat FactsTerra FactsTerra2 FactsTerra3.
From Coq Require Import List ZArith Lra Lia Permutation.
Import ListNotations.
Open Scope R_scope.

(** [fits l k]: the plane [k] has the least regularised squared error over the points [l]; [online l s]: [s] is the sum of squared errors of the points, each just after it was taken in; [window]: within one interval of a node *)
(** a cell fed with any points; [cell_run] is repeated update *)
Theorem C51_cell : forall l, exists c, cell_run zTerraCellInit l = Some c /\ fits l (tprm c) /\ tnp c = length l /\ (exists s, online l s /\ INR (length l) * tvar c = s) /\ 0 <= tvar c.
Proof. exact terra_cell. Qed.
Print Assumptions C51_cell.
Theorem C51_cell_order : forall l l' c c', Permutation l l' -> cell_run zTerraCellInit l = Some c -> cell_run zTerraCellInit l' = Some c' -> tprm c = tprm c' /\ tnp c = tnp c'.
Proof. exact terra_cell_order. Qed.
Print Assumptions C51_cell_order.
(** the fit is determined by the points *)
Theorem C51_unique : forall l k k', fits l k -> fits l k' -> k = k'.
Proof. exact fits_unique. Qed.
Print Assumptions C51_unique.
(** every node is fitted to exactly the points of its window; [upd_all] is repeated single update *)
Theorem C51_ident : forall x0 y0 dx dy xs ys z0 z1 l0 l, (0 < xs)%Z -> (0 < ys)%Z -> 0 < dx -> 0 < dy -> Forall (fun p => z0 <= vz p <= z1) (l0 ++ l) ->
  exists t t1 t2, zTerraAllocGrid x0 y0 dx dy xs ys z0 z1 = Some t /\ upd_all t l0 = Some t1 /\ zTerraIdent t1 l = Some t2 /\
  forall i j, (0 <= i < xs)%Z -> (0 <= j < ys)%Z -> exists c, zTerraGrid t2 i j = Some c /\
    let seen := filter (in_window x0 y0 dx dy i j) (l0 ++ l) in
    fits seen (tprm c) /\ tnp c = length seen /\ (exists s, online seen s /\ INR (length seen) * tvar c = s) /\ 0 <= tvar c /\
    tz c = plane_z (tprm c) (x0 + IZR i * dx) (y0 + IZR j * dy) /\
    norm (tnorm c) = 1 /\ 0 < vz (tnorm c) /\ (forall x y, dot (tnorm c) (V3 x y (plane_z (tprm c) x y - vz (tprm c))) = 0).
Proof. exact terra_ident. Qed.
Print Assumptions C51_ident.
Theorem C51_travs : forall t i j c, valid t i j = true -> zTerraGrid (zTerraCheckTravs t) i j = Some c ->
  ttravs c = true <-> tvar c <= th_var t /\ th_grd t <= vz (tnorm c) /\
   (forall a b c', (Z.abs (a - i) <= 1)%Z -> (Z.abs (b - j) <= 1)%Z -> (a, b) <> (i, j) -> zTerraGrid (zTerraCheckTravs t) a b = Some c' ->
      Rabs (plane_z (tprm c') (zTerraX t i) (zTerraY t j) - tz c) <= th_res t).
Proof. exact terra_travs. Qed.
Print Assumptions C51_travs.
(** a point out of the range of heights should be ignored *)
Theorem C51_out_refuted : forall x0 y0 dx dy xs ys z0 z1 p, (2 <= xs)%Z -> (2 <= ys)%Z -> vz p < z0 \/ z1 < vz p ->
  exists t t', zTerraAllocGrid x0 y0 dx dy xs ys z0 z1 = Some t /\ zTerraUpdate t p = Some t' /\
  forall i j, (i, j) = (1, 0)%Z \/ (i, j) = (0, 1)%Z \/ (i, j) = (1, 1)%Z -> exists c, zTerraGrid t' i j = Some c /\ tnp c = 1%nat /\ fits [p] (tprm c).
Proof. exact terra_out_refuted. Qed.
Print Assumptions C51_out_refuted.
Theorem C51_height : forall t i j x y, 0 < tdx t -> 0 < tdy t -> zmin t <= zmax t -> in_square t i j x y -> valid t i j = true -> valid t (i + 1) (j + 1) = true ->
  (forall a b, (i <= a <= i + 1)%Z -> (j <= b <= j + 1)%Z -> 0 < tvar (grid t a b)) ->
  exists z, zTerraZ t x y = Some (Some z) /\
   (forall lo hi, (forall a b, (i <= a <= i + 1)%Z -> (j <= b <= j + 1)%Z -> lo <= plane_z (tprm (grid t a b)) x y <= hi) -> lo <= z <= hi) /\
   (x = zTerraX t i -> y = zTerraY t j -> z = plane_z (tprm (grid t i j)) x y).
Proof. exact terra_height. Qed.
Print Assumptions C51_height.
(** on exactly flat measured ground the height is nought divided by nought *)
Theorem C51_flat_refuted : forall x0 y0 dx dy xs ys z0 z1 l p x y i j, 0 < dx -> 0 < dy -> z0 <= 0 <= z1 -> Forall (fun p => vz p = 0) l ->
  (0 <= i < xs - 1)%Z -> (0 <= j < ys - 1)%Z -> x0 + IZR i * dx <= x < x0 + IZR (i + 1) * dx -> y0 + IZR j * dy <= y < y0 + IZR (j + 1) * dy ->
  In p l -> x0 + IZR i * dx <= vx p < x0 + IZR (i + 1) * dx -> y0 + IZR j * dy <= vy p < y0 + IZR (j + 1) * dy ->
  exists t t', zTerraAllocGrid x0 y0 dx dy xs ys z0 z1 = Some t /\ zTerraIdent t l = Some t' /\ zTerraZ t' x y = None.
Proof. exact terra_flat_refuted. Qed.
Print Assumptions C51_flat_refuted.
(** places in the last row, within the region, read outside the array *)
Theorem C51_edge_refuted : forall t i j x y, 0 < tdx t -> 0 < tdy t -> zmin t <= zmax t -> valid t i j = true -> i = (nx t - 1)%Z -> in_square t i j x y -> zTerraZ t x y = None.
Proof. exact terra_edge_refuted. Qed.
Print Assumptions C51_edge_refuted.
(** places in the last column use cells of the next row *)
Theorem C51_column_refuted : zTerraZ two_levels (1/2) (3/2) = Some (Some (1/2)) /\
  (forall i, (0 <= i < 3)%Z -> zTerraCellZ (grid two_levels i 1) (1/2) (3/2) = 0).
Proof. exact terra_column_refuted. Qed.
Print Assumptions C51_column_refuted.
Theorem C51_zrange : forall t, (0 < nx t)%Z -> (0 < ny t)%Z -> exists a b, zTerraZRange t = Some (a, b) /\
  (forall i j, valid t i j = true -> a <= tz (grid t i j) <= b) /\
  (exists i j, valid t i j = true /\ a = tz (grid t i j)) /\ (exists i j, valid t i j = true /\ b = tz (grid t i j)).
Proof. exact terra_zrange. Qed.
Print Assumptions C51_zrange.
Theorem C51_region : forall x0 x1 y0 y1 z0 z1 dx dy, zTOL <= dx -> zTOL <= dy -> x0 <= x1 -> y0 <= y1 ->
  exists t, zTerraAllocRegion x0 x1 y0 y1 z0 z1 dx dy = Some t /\ xmin t = x0 /\ ymin t = y0 /\ tdx t = dx /\ tdy t = dy /\ zmin t = z0 /\ zmax t = z1 /\
  (0 < nx t)%Z /\ (0 < ny t)%Z /\ xmax t = zTerraX t (nx t - 1) /\ xmax t <= x1 < xmax t + dx /\ ymax t = zTerraY t (ny t - 1) /\ ymax t <= y1 < ymax t + dy.
Proof. exact terra_region. Qed.
Print Assumptions C51_region.
Example C51_ex : window 0 0 1 1 1 1 (V3 (1/2) (1/2) 3) /\ fits [V3 1 0 3] (V3 1 0 1) /\ online [V3 1 0 3] 1.
Proof.
  assert (F : fits [V3 1 0 3] (V3 1 0 1)).
  { intros x. unfold cost, rsum, plane_z, dot, vsub; cbn [fold_right vx vy vz]. pose proof (Rle_0_sqr (vx x + vz x - 2)) as Q. unfold Rsqr in Q. Lra.lra. }
  split; [unfold window; cbn; Lra.lra|]. split; [exact F|].
  replace 1 with (0 + (plane_z (V3 1 0 1) 1 0 - 3) * (plane_z (V3 1 0 1) 1 0 - 3)) at 2 by (unfold plane_z; cbn; Lra.lra).
  exact (on_snoc [] 0 (V3 1 0 3) (V3 1 0 1) on_nil F).
Qed.
Example C51_ident_ex : (0 < 3)%Z /\ 0 < 1 /\ Forall (fun p => 0 <= vz p <= 2) ([V3 0 0 1] ++ [V3 1 1 2]) /\ filter (in_window 0 0 1 1 1 1) ([V3 0 0 1] ++ [V3 1 1 2]) = [V3 0 0 1; V3 1 1 2].
Proof.
  split; [lia|]. split; [Lra.lra|]. split; [repeat constructor; cbn; Lra.lra|]. cbn [app filter].
  replace (in_window 0 0 1 1 1 1 (V3 0 0 1)) with true by (symmetry; apply in_window_iff; unfold window; cbn; Lra.lra).
  replace (in_window 0 0 1 1 1 1 (V3 1 1 2)) with true by (symmetry; apply in_window_iff; unfold window; cbn; Lra.lra). reflexivity.
Qed.
