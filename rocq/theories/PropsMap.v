(** C86: files of elevation maps and of nets of maps. *)
From Coq Require Import Ascii String.
From Verif Require Import Base SpecMap ModelMap FactsTerra FactsTerra2 FactsTerra3 FactsMap FactsMap2.
From Coq Require Import List ZArith.
From Coq Require Lra Lia.
Import ListNotations.
Open Scope R_scope.

(** [head_lines], [node_line]: the lines of a file; [last_for]: the last line for a node; [shows]: height, normal, variance and flag; [all_fresh]: no node has learnt anything.  Any lines of nodes, in any order and number, after a head *)
Theorem C86_lines : forall x0 y0 dx dy xs ys z0 z1 tv tg tr gs, zTOL <= Rabs dx -> zTOL <= Rabs dy -> (0 < xs)%Z -> (0 < ys)%Z ->
  Forall (fun g => (0 <= ndi g < xs)%Z /\ (0 <= ndj g < ys)%Z) gs ->
  exists t, zTerraFromZTK (head_lines x0 y0 dx dy xs ys z0 z1 tv tg tr ++ map node_line gs) = ROk t /\
    xmin t = x0 /\ ymin t = y0 /\ tdx t = dx /\ tdy t = dy /\ nx t = xs /\ ny t = ys /\
    xmax t = zTerraX t (xs - 1) /\ ymax t = zTerraY t (ys - 1) /\ zmin t = Rmin z0 z1 /\ zmax t = Rmax z0 z1 /\
    th_var t = tv /\ th_grd t = cos (tg * PI / 180) /\ th_res t = tr /\ all_fresh t /\
    forall i j, (0 <= i < xs)%Z -> (0 <= j < ys)%Z -> exists c, zTerraGrid t i j = Some c /\
      (forall g, last_for gs i j g -> shows c g) /\ (Forall (fun g => ~ at_node i j g) gs -> c = zTerraCellInit).
Proof. exact map_lines. Qed.
Print Assumptions C86_lines.
(** what zTerraFPrintZTK writes, zTerraFromZTK reads back: region, grid, thresholds, and what the nodes show; but no node has learnt anything *)
Theorem C86_round_trip : forall t, map_ok t -> exists d t', zTerraFPrintZTK t = Some d /\ zTerraFromZTK d = ROk t' /\ same_map t t' /\ all_fresh t'.
Proof. exact map_round. Qed.
Print Assumptions C86_round_trip.
(** what was read is written as the same file again *)
Theorem C86_again : forall t d t', map_ok t -> zTerraFPrintZTK t = Some d -> zTerraFromZTK d = ROk t' -> zTerraFPrintZTK t' = Some d /\ map_ok t'.
Proof. exact map_again. Qed.
Print Assumptions C86_again.
(** the height of a map read from a file is 0 everywhere, whatever it was when it was written *)
Theorem C86_height_refuted : forall t d t' i j x y, map_ok t -> zTerraFPrintZTK t = Some d -> zTerraFromZTK d = ROk t' ->
  0 < tdx t -> 0 < tdy t -> in_square t i j x y -> (0 <= i < nx t - 1)%Z -> (0 <= j < ny t - 1)%Z ->
  (forall a b, (i <= a <= i + 1)%Z -> (j <= b <= j + 1)%Z -> 0 < tvar (grid t a b)) -> zTerraZ t' x y = Some (Some 0).
Proof. exact map_height. Qed.
Print Assumptions C86_height_refuted.
(** checking a map read from a file refuses every node higher or lower than the threshold, however flat the ground *)
Theorem C86_travs_refuted : forall t d t' i j a b c, map_ok t -> zTerraFPrintZTK t = Some d -> zTerraFromZTK d = ROk t' ->
  (0 <= i < nx t)%Z -> (0 <= j < ny t)%Z -> (0 <= a < nx t)%Z -> (0 <= b < ny t)%Z -> (Z.abs (a - i) <= 1)%Z -> (Z.abs (b - j) <= 1)%Z -> (a, b) <> (i, j) ->
  th_res t < Rabs (tz (grid t i j)) -> zTerraGrid (zTerraCheckTravs t') i j = Some c -> ttravs c = false.
Proof. exact map_travs. Qed.
Print Assumptions C86_travs_refuted.
(** points given to a map read from a file: the planes are fitted to these points only *)
Theorem C86_forgets : forall t d t' i j c l, map_ok t -> zTerraFPrintZTK t = Some d -> zTerraFromZTK d = ROk t' -> zTerraGrid t' i j = Some c ->
  exists c', cell_run c l = Some c' /\ fits l (tprm c') /\ tnp c' = length l.
Proof. exact map_forgets. Qed.
Print Assumptions C86_forgets.
(** with the size before origin and resolution the upper bounds of the region are 0 *)
Theorem C86_order_refuted : forall x0 y0 dx dy xs ys, zTOL <= Rabs dx -> zTOL <= Rabs dy -> (0 < xs)%Z -> (0 < ys)%Z ->
  exists t t', zTerraFromZTK [("origin", [TNum x0; TNum y0]); ("resolution", [TNum dx; TNum dy]); ("size", [TInt xs; TInt ys])]%string = ROk t /\
    zTerraFromZTK [("size", [TInt xs; TInt ys]); ("origin", [TNum x0; TNum y0]); ("resolution", [TNum dx; TNum dy])]%string = ROk t' /\
    xmax t = x0 + IZR (xs - 1) * dx /\ ymax t = y0 + IZR (ys - 1) * dy /\ xmax t' = 0 /\ ymax t' = 0 /\
    (forall i, zTerraX t' i = zTerraX t i) /\ (forall j, zTerraY t' j = zTerraY t j).
Proof. exact map_order. Qed.
Print Assumptions C86_order_refuted.
(** refused: a node outside the grid (also before the size is known), a negligible resolution, an empty grid *)
Theorem C86_refused : forall d1 d2 t, zTerraFromZTK d1 = ROk t ->
  (forall i j r, ~ ((0 <= i < nx t)%Z /\ (0 <= j < ny t)%Z) -> zTerraFromZTK (d1 ++ ("grid"%string, TInt i :: TInt j :: r) :: d2) = RFail t) /\
  (forall dx dy, ~ List.In "resolution"%string (map fst d1) -> Rabs dx < zTOL \/ Rabs dy < zTOL -> exists t', zTerraFromZTK (d1 ++ ("resolution"%string, [TNum dx; TNum dy]) :: d2) = RFail t') /\
  (forall xs ys, ~ List.In "size"%string (map fst d1) -> xs = 0%Z \/ ys = 0%Z -> zTerraFromZTK (d1 ++ ("size"%string, [TInt xs; TInt ys]) :: d2) = RFail t).
Proof. exact map_refused. Qed.
Print Assumptions C86_refused.
(** [zmap_ok]: named, with an elevation map fit to be stored; [same_zmap]: the same name, and the same map but for what was learnt *)
Theorem C86_section : forall m, zmap_ok m -> exists d m', zMapFPrintZTK m = Some d /\ zMapFromZTK d = ROk m' /\ same_zmap m m'.
Proof. exact map_section. Qed.
Print Assumptions C86_section.
(** a map without a type, or of an unknown type, is refused *)
Theorem C86_type : forall d, (~ List.In "type"%string (map fst d) -> forall m, zMapFromZTK d <> ROk m) /\
  (forall w v, w <> "terra"%string -> zMapFromZTK (("type"%string, TWord w :: v) :: d) = RFail (MP None None)).
Proof. exact map_untyped. Qed.
Print Assumptions C86_type.
(** a map is accepted only if its terrain is *)
Theorem C86_accepted : forall d m, zMapFromZTK d = ROk m -> exists t, zTerraFromZTK d = ROk t /\ mpbody m = Some t.
Proof. exact map_accepted. Qed.
Print Assumptions C86_accepted.
(** a net of maps is read back *)
Theorem C86_net : forall ms, ms <> [] -> Forall zmap_ok ms -> exists doc ms', zMapNetFPrintZTK ms = Some doc /\ zMapNetFromZTK doc = ROk ms' /\ Forall2 same_zmap ms ms'.
Proof. exact net_round. Qed.
Print Assumptions C86_net.
(** the reader of a net reports success though a map is refused; that map is left as it was at the failure, all that follow are empty *)
Theorem C86_net_refuted : forall ds ms d m ds2, Forall2 (fun d m => zMapFromZTK d = ROk m) ds ms -> zMapFromZTK d = RFail m ->
  zMapNetFromZTK (map Some (ds ++ d :: ds2)) = ROk (ms ++ m :: repeat (MP None None) (length ds2)).
Proof. exact net_lost. Qed.
Print Assumptions C86_net_refuted.
(** a file without maps is refused *)
Theorem C86_net_empty : forall doc, (forall d, ~ List.In (Some d) doc) -> zMapNetFromZTK doc = RFail [].
Proof. exact net_empty. Qed.
Print Assumptions C86_net_empty.
(** a plateau of height 1 that meets the hypotheses of C86_round_trip, C86_height_refuted and C86_travs_refuted; before it was written its height was 1 *)
Definition plateau : terra := Terra 0 1 0 1 0 2 1 1 1 0 (1/10) 2 2 (fun _ _ => TC 1 (V3 0 0 1) 1 true (V3 0 0 1) ZMAT3DIDENT 5).
Example C86_ex : map_ok plateau /\ 0 < tdx plateau /\ 0 < tdy plateau /\ in_square plateau 0 0 0 0 /\ (0 <= 0 < nx plateau - 1)%Z /\
  (forall a b, (0 <= a <= 0 + 1)%Z -> (0 <= b <= 0 + 1)%Z -> 0 < tvar (grid plateau a b)) /\ th_res plateau < Rabs (tz (grid plateau 0 0)) /\ zTerraZ plateau 0 0 = Some (Some 1).
Proof.
  assert (Y := zTOL_small). assert (A : Rabs 1 = 1) by apply Rabs_R1.
  assert (SQ : in_square plateau 0 0 0 0) by (unfold in_square, zTerraX, zTerraY; cbn; Lra.lra).
  split; [|split; [|split; [|split; [exact SQ|split; [|split; [|split]]]]]].
  - unfold map_ok, plateau. cbn [nx ny tdx tdy zmin zmax th_grd xmin xmax ymin ymax]. change (2 - 1)%Z with 1%Z. rewrite A. repeat split; try Lra.lra; Lia.lia.
  - cbn. Lra.lra.
  - cbn. Lra.lra.
  - cbn. Lia.lia.
  - intros a b _ _. cbn. Lra.lra.
  - cbn [plateau grid tz th_res]. rewrite A. Lra.lra.
  - destruct (terra_height plateau 0 0 0 0) as (z & E & _ & F); try (cbn; Lra.lra); try reflexivity; [exact SQ|intros a b _ _; cbn; Lra.lra|].
    rewrite E, F; [|unfold zTerraX; cbn; Lra.lra|unfold zTerraY; cbn; Lra.lra]. unfold plane_z. cbn. do 2 f_equal. Lra.lra.
Qed.
(** a section that is refused, for C86_net_refuted *)
Example C86_ex_refused : zMapFromZTK [("type"%string, [TWord "plan"])] = RFail (MP None None).
Proof. reflexivity. Qed.
