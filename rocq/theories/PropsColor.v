(** Properties C49 and C50: colours and optical properties. *)
From Verif Require Import Base SpecColor ModelColor FactsColor FactsOptic.
From Coq Require Import List Ascii String NArith ZArith Lra Lia.
Import ListNotations.
Open Scope R_scope.

(** [colour] is the colour circle, [denotes] what a hexadecimal numeral means, [fraction v n] its share of the greatest [n]-digit numeral *)
Theorem C49_set : forall r g b, zRGBSet r g b = RGB (clamp01 r) (clamp01 g) (clamp01 b) /\ in_cube (zRGBSet r g b) /\ (in_cube (RGB r g b) -> zRGBSet r g b = RGB r g b).
Proof. exact color_set. Qed.
Print Assumptions C49_set.
Theorem C49_multiply : forall c1 c2, in_cube c1 -> in_cube c2 ->
  zRGBMul c1 c2 = RGB (cr c1 * cr c2) (cg c1 * cg c2) (cb c1 * cb c2) /\ in_cube (zRGBMul c1 c2) /\ zRGBMul c1 c2 = zRGBMul c2 c1 /\ zRGBMul c1 zrgbwhite = c1 /\ zRGBMul c1 zrgbblack = zrgbblack.
Proof. exact color_mul. Qed.
Print Assumptions C49_multiply.
Theorem C49_blend : forall c1 c2 t, zRGBBlend c1 c2 1 = c1 /\ zRGBBlend c1 c2 0 = c2 /\ zRGBBlend c1 c1 t = c1 /\ zRGBBlend c1 c2 t = zRGBBlend c2 c1 (1 - t) /\
  (in_cube c1 -> in_cube c2 -> in01 t -> in_cube (zRGBBlend c1 c2 t)).
Proof. exact color_blend. Qed.
Print Assumptions C49_blend.
(** greyscale keeps the total intensity *)
Theorem C49_grey : forall c, let k := zRGBToGS c in cr k = cg k /\ cg k = cb k /\ cr k + cg k + cb k = cr c + cg c + cb c /\ zRGBToGS k = k /\ (in_cube c -> in_cube k).
Proof. exact color_grey. Qed.
Print Assumptions C49_grey.
(** hue in [0,360), saturation and value in [0,1], denoting the same colour *)
Theorem C49_to_hsv : forall c, in_cube c -> hsv_valid (zRGB2HSV c) /\ colour (zRGB2HSV c) = c.
Proof. exact color_to_hsv. Qed.
Print Assumptions C49_to_hsv.
Theorem C49_from_hsv : forall x old, hsv_valid x -> zHSV2RGB x old = colour x /\ in_cube (colour x).
Proof. exact color_from_hsv. Qed.
Print Assumptions C49_from_hsv.
Theorem C49_round_trip : forall c old, in_cube c -> zHSV2RGB (zRGB2HSV c) old = c.
Proof. exact color_round_trip. Qed.
Print Assumptions C49_round_trip.
Theorem C49_hsv_round_trip : forall x old, hsv_valid x -> 0 < sat x -> 0 < val x -> zRGB2HSV (zHSV2RGB x old) = x.
Proof. exact color_hsv_round_trip. Qed.
Print Assumptions C49_hsv_round_trip.
(** the documented hue of 360 degrees gives yellow instead of red; negative hues give nothing *)
Theorem C49_hue_refuted : forall old, colour (HSV 360 1 1) = colour (HSV 0 1 1) /\ colour (HSV 0 1 1) = RGB 1 0 0 /\ zHSV2RGB (HSV 0 1 1) old = RGB 1 0 0 /\ zHSV2RGB (HSV 360 1 1) old = RGB 1 1 0 /\
  (forall h s v, -300 <= h < 0 -> zHSV2RGB (HSV h s v) old = old).
Proof. exact color_hue_refuted. Qed.
Print Assumptions C49_hue_refuted.
Theorem C49_hex : forall scan n rs gs bs rest r g b, (1 <= n <= 8)%nat -> List.length rs = n -> List.length gs = n -> List.length bs = n -> (List.length rest < 3)%nat -> denotes rs r -> denotes gs g -> denotes bs b ->
  zRGBByStr scan (Some (str "#" ++ rs ++ gs ++ bs ++ rest)) = Some (RGB (fraction r n) (fraction g n) (fraction b n)).
Proof. exact color_hex. Qed.
Print Assumptions C49_hex.
Theorem C49_hex_long : forall scan n rs gs bs rest r g b, (8 < n)%nat -> List.length rs = n -> List.length gs = n -> List.length bs = n -> (List.length rest < 3)%nat -> denotes rs r -> denotes gs g -> denotes bs b ->
  zRGBByStr scan (Some (str "#" ++ rs ++ gs ++ bs ++ rest)) = Some (RGB (fraction (r mod 16 ^ 8) 8) (fraction (g mod 16 ^ 8) 8) (fraction (b mod 16 ^ 8) 8)).
Proof. exact color_hex_long. Qed.
Print Assumptions C49_hex_long.
Theorem C49_hex_short_refuted : forall scan s, (List.length s < 3)%nat -> zRGBByStr scan (Some (str "#" ++ s)) = None.
Proof. exact color_hex_short. Qed.
Print Assumptions C49_hex_short_refuted.
Theorem C49_names : forall scan, zRGBByStr scan (Some (str "black")) = Some (RGB 0 0 0) /\ zRGBByStr scan (Some (str "red")) = Some (RGB 1 0 0) /\ zRGBByStr scan (Some (str "green")) = Some (RGB 0 1 0) /\ zRGBByStr scan (Some (str "blue")) = Some (RGB 0 0 1) /\
  zRGBByStr scan (Some (str "yellow")) = Some (RGB 1 1 0) /\ zRGBByStr scan (Some (str "cyan")) = Some (RGB 0 1 1) /\ zRGBByStr scan (Some (str "magenta")) = Some (RGB 1 0 1) /\ zRGBByStr scan (Some (str "white")) = Some (RGB 1 1 1) /\
  zRGBByStr scan None = Some (RGB 0 0 0) /\
  (forall s, ~ In s (map str ["red"; "green"; "blue"; "yellow"; "cyan"; "magenta"; "white"]%string) -> (forall c, hd_error s = Some c -> c <> "#"%char /\ isdigit c = false) -> zRGBByStr scan (Some s) = Some (RGB 0 0 0)).
Proof. exact color_names. Qed.
Print Assumptions C49_names.
Theorem C49_ratio : forall scan s c r g b, hd_error s = Some c -> isdigit c = true -> scan s = Some (r, g, b) -> zRGBByStr scan (Some s) = Some (RGB (clamp01 r) (clamp01 g) (clamp01 b)).
Proof. exact color_ratio. Qed.
Print Assumptions C49_ratio.
(** the example of the header *)
Example C49_hex_ex scan : zRGBByStr scan (Some (str "#0f3df8")) = Some (RGB (15 / 255) (61 / 255) (248 / 255)).
Proof.
  change (str "#0f3df8") with (str "#" ++ str "0f" ++ str "3d" ++ str "f8" ++ [])%list.
  assert (D : forall a b i j, digit a i -> digit b j -> denotes [a; b] (16 * (16 * 0 + N.of_nat i) + N.of_nat j)).
  { intros a b i j A B. apply (den_snoc [a]); [|exact B]. apply (den_snoc []); [constructor|exact A]. }
  rewrite (C49_hex scan 2 (str "0f") (str "3d") (str "f8") [] 15 61 248); try reflexivity; try (cbn; lia).
  - unfold fraction. cbn [Z.of_N]. do 2 f_equal; Lra.lra.
  - apply (D _ _ 0%nat 15%nat); left; reflexivity.
  - apply (D _ _ 3%nat 13%nat); left; reflexivity.
  - apply (D _ _ 15%nat 8%nat); left; reflexivity.
Qed.
Example C49_ex : in_cube (RGB (1/2) (1/4) 0) /\ zRGB2HSV (RGB (1/2) (1/4) 0) = HSV 30 1 (1/2).
Proof.
  split; [unfold in_cube, in01; cbn; Lra.lra|]. unfold zRGB2HSV; cbn [cr cg cb].
  destruct (Rltb_reflect (1/4) (1/2)); [|Lra.lra]. destruct (Rltb_reflect 0 (1/2)); [|Lra.lra]. rewrite Rmin_right by Lra.lra.
  destruct (Reqb_reflect (1/2 - 0) 0); [Lra.lra|]. destruct (Reqb_reflect (1/2) 0); [Lra.lra|]. destruct (Rltb_reflect (60 * (1/4 - 0) / (1/2 - 0) + 0) 0); [Lra.lra|]. f_equal; Lra.lra.
Qed.
(** [coeffs]: the twelve coefficients; the ratio is limited to the unit interval *)
Theorem C50_blend : forall o1 o2 ratio name, let o := zOpticalInfoBlend o1 o2 ratio name in
  oname o = name /\
  (forall i x y, nth_error (coeffs o1) i = Some x -> nth_error (coeffs o2) i = Some y ->
     exists z, nth_error (coeffs o) i = Some z /\ z = y + clamp01 ratio * (x - y) /\ Rmin x y <= z <= Rmax x y) /\
  (1 <= ratio -> coeffs o = coeffs o1) /\ (ratio <= 0 -> coeffs o = coeffs o2).
Proof. exact optic_blend. Qed.
Print Assumptions C50_blend.
Theorem C50_multiply : forall o1 o2 old, in_cubes o1 -> in_cubes o2 -> let o := zOpticalInfoMul o1 o2 old in
  (forall i x y, nth_error (coeffs o1) i = Some x -> nth_error (coeffs o2) i = Some y -> nth_error (coeffs o) i = Some (x * y)) /\ in_cubes o /\ oname o = oname old /\ zOpticalInfoMul o2 o1 old = o.
Proof. exact optic_mul. Qed.
Print Assumptions C50_multiply.
Theorem C50_create : forall ar ag ab dr dg db sr sg sb e s a name, let o := zOpticalInfoCreate ar ag ab dr dg db sr sg sb e s a name in
  oname o = name /\ coeffs o = [clamp01 ar; clamp01 ag; clamp01 ab; clamp01 dr; clamp01 dg; clamp01 db; clamp01 sr; clamp01 sg; clamp01 sb; e; s; a] /\ in_cubes o.
Proof. exact optic_create. Qed.
Print Assumptions C50_create.
Theorem C50_copy : forall src dest, coeffs (zOpticalInfoCopy src dest) = coeffs src /\ oname (zOpticalInfoCopy src dest) = oname dest.
Proof. exact optic_copy. Qed.
Print Assumptions C50_copy.
(** the header says all parameters are set to 1 *)
Theorem C50_init_refuted : coeffs zOpticalInfoInit = [1;1;1;1;1;1;1;1;1;0;0;1] /\ coeffs zOpticalInfoInit <> repeat 1 12.
Proof. exact optic_init_refuted. Qed.
Print Assumptions C50_init_refuted.
(** printing and reading restores a material up to the tolerance *)
Theorem C50_print_read : forall scan o name, exists o', zOpticalInfoFromZTK scan (zOpticalInfoFPrintZTK o name) = Some o' /\
  oname o' = Some name /\ ambient o' = ambient o /\ diffuse o' = diffuse o /\ specular o' = specular o /\
  Rabs (esr o' - esr o) < zTOL /\ Rabs (shininess o' - shininess o) < zTOL /\ Rabs (alpha o' - alpha o) < zTOL /\
  (esr o = 0 \/ zTOL <= Rabs (esr o) -> esr o' = esr o) /\ (shininess o = 0 \/ zTOL <= Rabs (shininess o) -> shininess o' = shininess o) /\ (alpha o = 1 \/ zTOL <= Rabs (1 - alpha o) -> alpha o' = alpha o).
Proof. exact optic_print_read. Qed.
Print Assumptions C50_print_read.
(** what the document builder loses *)
Theorem C50_ztk_read : forall scan o name, exists o', zOpticalInfoFromZTK scan (zOpticalInfoToZTK o name) = Some o' /\
  oname o' = Some name /\
  (ambient o' = if zRGBIsZero (ambient o) then zrgbwhite else ambient o) /\ (diffuse o' = if zRGBIsZero (diffuse o) then zrgbwhite else diffuse o) /\ (specular o' = if zRGBIsZero (specular o) then zrgbwhite else specular o) /\
  Rabs (esr o' - esr o) < zTOL /\ Rabs (shininess o' - shininess o) < zTOL /\ (alpha o' = if zIsTiny (alpha o) then 1 else alpha o).
Proof. exact optic_ztk_read. Qed.
Print Assumptions C50_ztk_read.
(** a black transparent material comes back white and opaque *)
Theorem C50_ztk_refuted : forall scan name, let o := zOpticalInfoCreate 0 0 0 0 0 0 0 0 0 0 0 0 (Some name) in
  oname o = Some name /\ coeffs o = repeat 0 12 /\ exists o', zOpticalInfoFromZTK scan (zOpticalInfoToZTK o name) = Some o' /\ ambient o' = RGB 1 1 1 /\ diffuse o' = RGB 1 1 1 /\ specular o' = RGB 1 1 1 /\ alpha o' = 1.
Proof. exact optic_ztk_refuted. Qed.
Print Assumptions C50_ztk_refuted.
Example C50_ex : in_cubes (zOpticalInfoCreate 1 0 0 (1/2) 1 0 0 0 3 2 3 (1/2) None) /\ coeffs (zOpticalInfoCreate 1 0 0 (1/2) 1 0 0 0 3 2 3 (1/2) None) = [1;0;0;1/2;1;0;0;0;1;2;3;1/2].
Proof.
  destruct (C50_create 1 0 0 (1/2) 1 0 0 0 3 2 3 (1/2) None) as (_ & E & H). split; [exact H|]. rewrite E.
  assert (K : forall x, 0 <= x <= 1 -> clamp01 x = x) by (intros x ?; unfold clamp01, Rmax, Rmin; destruct (Rle_dec 1 x); destruct (Rle_dec 0 _); Lra.lra).
  rewrite !K by Lra.lra. replace (clamp01 3) with 1 by (unfold clamp01; rewrite Rmin_left, Rmax_right by Lra.lra; reflexivity). reflexivity.
Qed.
