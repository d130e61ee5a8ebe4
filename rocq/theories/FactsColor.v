(** Proofs about colours. *)
From Verif Require Import Base SpecColor ModelColor.
From Coq Require Import List Ascii String NArith ZArith Lra Lia.
Import ListNotations.
Open Scope R_scope.

Ltac cube := split; [|split]; cbn [cr cg cb].
Lemma zLimit_in x : in01 x -> zLimit x 0 1 = x.
Proof. unfold in01, zLimit. intros H. destruct (Rltb_reflect x 0); [lra|]. destruct (Rltb_reflect 1 x); [lra|reflexivity]. Qed.
Lemma zLimit_clamp x : zLimit x 0 1 = clamp01 x.
Proof.
  unfold zLimit, clamp01, Rmax, Rmin. destruct (Rltb_reflect x 0); destruct (Rle_dec 1 x); destruct (Rle_dec 0 _); try lra; destruct (Rltb_reflect 1 x); lra.
Qed.
Lemma clamp01_in x : in01 (clamp01 x).
Proof. unfold in01, clamp01, Rmax, Rmin. destruct (Rle_dec 1 x); destruct (Rle_dec 0 _); lra. Qed.
Lemma set_in_cube c : in_cube c -> zRGBSet (cr c) (cg c) (cb c) = c.
Proof. intros (H1 & H2 & H3). unfold zRGBSet. rewrite !zLimit_in by assumption. destruct c; reflexivity. Qed.

(** setting limits every intensity to the unit interval *)
Lemma color_set r g b : zRGBSet r g b = RGB (clamp01 r) (clamp01 g) (clamp01 b) /\ in_cube (zRGBSet r g b) /\ (in_cube (RGB r g b) -> zRGBSet r g b = RGB r g b).
Proof.
  split; [unfold zRGBSet; rewrite !zLimit_clamp; reflexivity|]. split.
  - unfold zRGBSet; rewrite !zLimit_clamp; cube; apply clamp01_in.
  - intros H. exact (set_in_cube _ H).
Qed.

Lemma mul01 x y : in01 x -> in01 y -> in01 (x * y).
Proof. unfold in01. intros [? ?] [? ?]. split; nra. Qed.
Lemma color_mul c1 c2 : in_cube c1 -> in_cube c2 ->
  zRGBMul c1 c2 = RGB (cr c1 * cr c2) (cg c1 * cg c2) (cb c1 * cb c2) /\ in_cube (zRGBMul c1 c2) /\ zRGBMul c1 c2 = zRGBMul c2 c1 /\ zRGBMul c1 zrgbwhite = c1 /\ zRGBMul c1 zrgbblack = zrgbblack.
Proof.
  intros (A1 & A2 & A3) (B1 & B2 & B3).
  assert (E : zRGBMul c1 c2 = RGB (cr c1 * cr c2) (cg c1 * cg c2) (cb c1 * cb c2)).
  { unfold zRGBMul, zRGBSet. rewrite !zLimit_in by (apply mul01; assumption). reflexivity. }
  split; [exact E|]. split; [rewrite E; cube; apply mul01; assumption|].
  split; [|split].
  - rewrite E. unfold zRGBMul, zRGBSet. rewrite !zLimit_in by (apply mul01; assumption). f_equal; ring.
  - unfold zRGBMul, zrgbwhite; cbn [cr cg cb]. rewrite !Rmult_1_r. apply set_in_cube. cube; assumption.
  - unfold zRGBMul, zrgbblack; cbn [cr cg cb]. rewrite !Rmult_0_r. apply (set_in_cube (RGB 0 0 0)). unfold in_cube, in01; cbn. lra.
Qed.

Lemma blend01 x y t : in01 t -> in01 x -> in01 y -> in01 (t * x + (1 - t) * y).
Proof. unfold in01. intros [? ?] [? ?] [? ?]. split; nra. Qed.
Lemma color_blend c1 c2 t :
  zRGBBlend c1 c2 1 = c1 /\ zRGBBlend c1 c2 0 = c2 /\ zRGBBlend c1 c1 t = c1 /\ zRGBBlend c1 c2 t = zRGBBlend c2 c1 (1 - t) /\
  (in_cube c1 -> in_cube c2 -> in01 t -> in_cube (zRGBBlend c1 c2 t)).
Proof.
  destruct c1 as [r1 g1 b1], c2 as [r2 g2 b2]. unfold zRGBBlend; cbn [cr cg cb].
  split; [f_equal; ring|]. split; [f_equal; ring|]. split; [f_equal; ring|]. split; [f_equal; ring|].
  intros (A1 & A2 & A3) (B1 & B2 & B3) T. cbn [cr cg cb] in *. cube; apply blend01; assumption.
Qed.

(** greyscale: equal intensities of the same total, idempotent *)
Lemma color_grey c : let k := zRGBToGS c in cr k = cg k /\ cg k = cb k /\ cr k + cg k + cb k = cr c + cg c + cb c /\ zRGBToGS k = k /\ (in_cube c -> in_cube k).
Proof.
  cbv zeta. unfold zRGBToGS, zGSSet, zGS; cbn [cr cg cb]. split; [reflexivity|]. split; [reflexivity|]. split; [field|]. split; [f_equal; field|].
  intros (H1 & H2 & H3). unfold in_cube, in01 in *; cbn [cr cg cb]. lra.
Qed.

(** * Hue, saturation and value *)
Lemma weight_full h c : arc h c <= 60 -> weight h c = 1.
Proof. intros H. unfold weight, clamp01, Rmax, Rmin. destruct (Rle_dec 1 _); [destruct (Rle_dec 0 1); lra|]. exfalso; apply n. lra. Qed.
Lemma weight_none h c : 120 <= arc h c -> weight h c = 0.
Proof. intros H. unfold weight, clamp01, Rmax, Rmin. destruct (Rle_dec 1 _); [lra|]. destruct (Rle_dec 0 _); lra. Qed.
Lemma weight_mid h c : 60 <= arc h c <= 120 -> weight h c = 2 - arc h c / 60.
Proof. intros H. unfold weight, clamp01, Rmax, Rmin. destruct (Rle_dec 1 _); destruct (Rle_dec 0 _); lra. Qed.
Lemma arc_eq h c d : (h - c = d \/ h - c = - d \/ h - c = d - 360 \/ h - c = 360 - d) -> 0 <= d <= 180 -> arc h c = d.
Proof.
  intros H D. unfold arc, Rmin. assert (K : Rabs (h - c) = d \/ Rabs (h - c) = 360 - d).
  { destruct H as [-> | [-> | [-> | ->]]].
    - left. apply Rabs_pos_eq; lra.
    - left. rewrite Rabs_Ropp. apply Rabs_pos_eq; lra.
    - right. rewrite Rabs_left1; lra.
    - right. apply Rabs_pos_eq; lra. }
  destruct (Rle_dec _ _); destruct K as [K | K]; rewrite K in *; lra.
Qed.

Lemma int_part_eq x n : IZR n <= x < IZR n + 1 -> Int_part x = n.
Proof.
  intros [H1 H2]. unfold Int_part. assert (up x = n + 1)%Z; [|lia].
  symmetry. apply tech_up; rewrite plus_IZR; lra.
Qed.

Lemma v01 v s w : in01 v -> in01 s -> in01 w -> in01 (v * (1 - s + s * w)).
Proof. unfold in01. intros [? ?] [? ?] [? ?]. assert (0 <= s * w <= s) by nra. split; nra. Qed.
Lemma weight01 h c : in01 (weight h c).
Proof. apply clamp01_in. Qed.

Lemma sector n : (0 <= n < 6)%Z -> n = 0%Z \/ n = 1%Z \/ n = 2%Z \/ n = 3%Z \/ n = 4%Z \/ n = 5%Z.
Proof. lia. Qed.

Lemma sector_of h : 0 <= h < 360 -> exists n, (0 <= n < 6)%Z /\ 60 * IZR n <= h < 60 * (IZR n + 1).
Proof.
  intros H. destruct (Rlt_le_dec h 60); [exists 0%Z; split; [lia|lra]|].
  destruct (Rlt_le_dec h 120); [exists 1%Z; split; [lia|lra]|].
  destruct (Rlt_le_dec h 180); [exists 2%Z; split; [lia|lra]|].
  destruct (Rlt_le_dec h 240); [exists 3%Z; split; [lia|lra]|].
  destruct (Rlt_le_dec h 300); [exists 4%Z; split; [lia|lra]|]. exists 5%Z; split; [lia|lra].
Qed.

Lemma sector_z h n : (0 <= n < 6)%Z -> 60 * IZR n <= h < 60 * (IZR n + 1) -> Z.rem (Int_part (h / 60)) 6 = n.
Proof. intros N H. rewrite (int_part_eq _ n) by lra. apply Z.rem_small. lia. Qed.

Lemma zHSV2RGB_colour x old : hsv_valid x -> zHSV2RGB x old = colour x.
Proof.
  destruct x as [h s v]. intros (Hh & Hs & Hv). cbn [hue sat val] in *.
  destruct (sector_of h Hh) as (n & Nn & Hn).
  unfold zHSV2RGB; cbn [hue sat val]. rewrite (sector_z h n Nn Hn).
  assert (K : colour (HSV h s v) = RGB (v * (1 - s + s * weight h 0)) (v * (1 - s + s * weight h 120)) (v * (1 - s + s * weight h 240))) by reflexivity.
  assert (S0 := v01 v s _ Hv Hs (weight01 h 0)). assert (S1 := v01 v s _ Hv Hs (weight01 h 120)). assert (S2 := v01 v s _ Hv Hs (weight01 h 240)).
  rewrite K. unfold zRGBSet. rewrite <- (zLimit_in _ S0), <- (zLimit_in _ S1), <- (zLimit_in _ S2).
  clear K S0 S1 S2.
  destruct (sector n Nn) as [-> | [-> | [-> | [-> | [-> | ->]]]]]; cbn [IZR IPR IPR_2] in Hn.
  - rewrite (weight_full h 0) by (rewrite (arc_eq h 0 h); lra).
    rewrite (weight_mid h 120) by (rewrite (arc_eq h 120 (120 - h)); lra). rewrite (arc_eq h 120 (120 - h)) by lra.
    rewrite (weight_none h 240) by (rewrite (arc_eq h 240 (if Rle_dec 60 h then 240 - h else 120 + h)); destruct (Rle_dec 60 h); lra).
    f_equal; f_equal; field.
  - rewrite (weight_mid h 0) by (rewrite (arc_eq h 0 h); lra). rewrite (arc_eq h 0 h) by lra.
    rewrite (weight_full h 120) by (rewrite (arc_eq h 120 (120 - h)); lra).
    rewrite (weight_none h 240) by (rewrite (arc_eq h 240 (240 - h)); lra).
    f_equal; f_equal; field.
  - rewrite (weight_none h 0) by (rewrite (arc_eq h 0 h); lra).
    rewrite (weight_full h 120) by (rewrite (arc_eq h 120 (h - 120)); lra).
    rewrite (weight_mid h 240) by (rewrite (arc_eq h 240 (240 - h)); lra). rewrite (arc_eq h 240 (240 - h)) by lra.
    f_equal; f_equal; field.
  - rewrite (weight_none h 0) by (rewrite (arc_eq h 0 (360 - h)); lra).
    rewrite (weight_mid h 120) by (rewrite (arc_eq h 120 (h - 120)); lra). rewrite (arc_eq h 120 (h - 120)) by lra.
    rewrite (weight_full h 240) by (rewrite (arc_eq h 240 (240 - h)); lra).
    f_equal; f_equal; field.
  - rewrite (weight_mid h 0) by (rewrite (arc_eq h 0 (360 - h)); lra). rewrite (arc_eq h 0 (360 - h)) by lra.
    rewrite (weight_none h 120) by (rewrite (arc_eq h 120 (h - 120)); lra).
    rewrite (weight_full h 240) by (rewrite (arc_eq h 240 (h - 240)); lra).
    f_equal; f_equal; field.
  - rewrite (weight_full h 0) by (rewrite (arc_eq h 0 (360 - h)); lra).
    rewrite (weight_none h 120) by (rewrite (arc_eq h 120 (if Rle_dec h 300 then h - 120 else 480 - h)); destruct (Rle_dec h 300); lra).
    rewrite (weight_mid h 240) by (rewrite (arc_eq h 240 (h - 240)); lra). rewrite (arc_eq h 240 (h - 240)) by lra.
    f_equal; f_equal; field.
Qed.

Lemma W0 h : 0 <= h <= 60 -> weight h 0 = 1 /\ weight h 120 = h / 60 /\ weight h 240 = 0.
Proof.
  intros H. split; [|split].
  - apply weight_full. rewrite (arc_eq h 0 h); lra.
  - rewrite weight_mid; rewrite (arc_eq h 120 (120 - h)); lra.
  - apply weight_none. rewrite (arc_eq h 240 (if Rle_dec 60 h then 240 - h else 120 + h)); destruct (Rle_dec 60 h); lra.
Qed.
Lemma W1 h : 60 <= h <= 120 -> weight h 0 = 2 - h / 60 /\ weight h 120 = 1 /\ weight h 240 = 0.
Proof.
  intros H. split; [|split].
  - rewrite weight_mid; rewrite (arc_eq h 0 h); lra.
  - apply weight_full. rewrite (arc_eq h 120 (120 - h)); lra.
  - apply weight_none. rewrite (arc_eq h 240 (240 - h)); lra.
Qed.
Lemma W2 h : 120 <= h <= 180 -> weight h 0 = 0 /\ weight h 120 = 1 /\ weight h 240 = h / 60 - 2.
Proof.
  intros H. split; [|split].
  - apply weight_none. rewrite (arc_eq h 0 h); lra.
  - apply weight_full. rewrite (arc_eq h 120 (h - 120)); lra.
  - rewrite weight_mid; rewrite (arc_eq h 240 (240 - h)); lra.
Qed.
Lemma W3 h : 180 <= h <= 240 -> weight h 0 = 0 /\ weight h 120 = 4 - h / 60 /\ weight h 240 = 1.
Proof.
  intros H. split; [|split].
  - apply weight_none. rewrite (arc_eq h 0 (360 - h)); lra.
  - rewrite weight_mid; rewrite (arc_eq h 120 (h - 120)); lra.
  - apply weight_full. rewrite (arc_eq h 240 (240 - h)); lra.
Qed.
Lemma W4 h : 240 <= h <= 300 -> weight h 0 = h / 60 - 4 /\ weight h 120 = 0 /\ weight h 240 = 1.
Proof.
  intros H. split; [|split].
  - rewrite weight_mid; rewrite (arc_eq h 0 (360 - h)); lra.
  - apply weight_none. rewrite (arc_eq h 120 (h - 120)); lra.
  - apply weight_full. rewrite (arc_eq h 240 (h - 240)); lra.
Qed.
Lemma W5 h : 300 <= h <= 360 -> weight h 0 = 1 /\ weight h 120 = 0 /\ weight h 240 = 6 - h / 60.
Proof.
  intros H. split; [|split].
  - apply weight_full. rewrite (arc_eq h 0 (360 - h)); lra.
  - apply weight_none. rewrite (arc_eq h 120 (if Rle_dec h 300 then h - 120 else 480 - h)); destruct (Rle_dec h 300); lra.
  - rewrite weight_mid; rewrite (arc_eq h 240 (h - 240)); lra.
Qed.

Lemma colour_md h m v : v <> 0 -> colour (HSV h ((v - m) / v) v) = RGB (m + (v - m) * weight h 0) (m + (v - m) * weight h 120) (m + (v - m) * weight h 240).
Proof. intros. unfold colour; cbn [hue sat val]. f_equal; field; assumption. Qed.
Lemma sat_md m v : 0 <= m < v -> v <= 1 -> in01 ((v - m) / v) /\ in01 v.
Proof. intros. unfold in01. split; [|lra]. split; [apply Rmult_le_pos; [lra|left; apply Rinv_0_lt_compat; lra]|apply Rmult_le_reg_r with v; [lra|]; field_simplify; lra]. Qed.

(** a quotient by a positive number *)
Lemma quot a d : 0 < d -> exists q, a / d = q /\ a = q * d.
Proof. intros. exists (a / d). split; [reflexivity|]. field. lra. Qed.

Lemma color_to_hsv c : in_cube c -> hsv_valid (zRGB2HSV c) /\ colour (zRGB2HSV c) = c.
Proof.
  destruct c as [r g b]. intros (Hr & Hg & Hb). cbn [cr cg cb] in *. unfold in01 in Hr, Hg, Hb.
  assert (FIN : forall ph ph0 m v, 0 <= m < v -> v <= 1 ->
    (forall q, ph = q * (v - m) -> let h := if Rltb (60 * q + ph0) 0 then 60 * q + ph0 + 360 else 60 * q + ph0 in 0 <= h < 360 /\ m + (v - m) * weight h 0 = r /\ m + (v - m) * weight h 120 = g /\ m + (v - m) * weight h 240 = b) ->
    let x := HSV (let h := if Reqb (v - m) 0 then 0 else 60 * ph / (v - m) + ph0 in if Rltb h 0 then h + 360 else h) (if Reqb v 0 then 0 else (v - m) / v) v in
    hsv_valid x /\ colour x = RGB r g b).
  { intros ph ph0 m v M V H. cbv zeta. destruct (Reqb_reflect (v - m) 0); [lra|]. destruct (Reqb_reflect v 0); [lra|].
    destruct (quot ph (v - m) ltac:(lra)) as (q & Q & E). destruct (H q E) as (H1 & H2 & H3 & H4).
    replace (60 * ph / (v - m) + ph0) with (60 * q + ph0) by (rewrite <- Q; field; lra).
    destruct (sat_md m v M V) as [S1 S2].
    split; [split; [exact H1|split; assumption]|].
    rewrite colour_md by lra. rewrite H2, H3, H4. reflexivity. }
  unfold zRGB2HSV; cbn [cr cg cb].
  destruct (Rltb_reflect g r); [destruct (Rltb_reflect b r)|destruct (Rltb_reflect b g)].
  - apply FIN; [unfold Rmin; destruct (Rle_dec g b); lra|lra|]. intros q E. cbv zeta.
    unfold Rmin in *. destruct (Rle_dec g b) as [L | L].
    + destruct (Rle_lt_or_eq_dec _ _ L) as [L' | L'].
      * assert (-1 < q < 0) by (split; nra). destruct (Rltb_reflect (60 * q + 0) 0); [|lra]. split; [lra|].
        destruct (W5 (60 * q + 0 + 360) ltac:(lra)) as (-> & -> & ->). split; [lra|]. split; [lra|]. nra.
      * assert (q = 0) by nra. subst q. destruct (Rltb_reflect (60 * 0 + 0) 0); [lra|]. split; [lra|].
        destruct (W0 (60 * 0 + 0) ltac:(lra)) as (-> & -> & ->). split; [lra|]. split; [nra|]. nra.
    + assert (0 <= q < 1) by (split; nra). destruct (Rltb_reflect (60 * q + 0) 0); [lra|]. split; [lra|].
      destruct (W0 (60 * q + 0) ltac:(lra)) as (-> & -> & ->). split; [lra|]. split; [nra|]. nra.
  - apply FIN; [lra|lra|]. intros q E. cbv zeta. assert (0 < q <= 1) by (split; nra).
    destruct (Rltb_reflect (60 * q + 240) 0); [lra|]. split; [lra|].
    destruct (W4 (60 * q + 240) ltac:(lra)) as (-> & -> & ->). split; [nra|]. split; [nra|]. nra.
  - apply FIN; [unfold Rmin; destruct (Rle_dec r b); lra|lra|]. intros q E. cbv zeta.
    unfold Rmin in *. destruct (Rle_dec r b) as [L | L].
    + assert (0 <= q < 1) by (split; nra). destruct (Rltb_reflect (60 * q + 120) 0); [lra|]. split; [lra|].
      destruct (W2 (60 * q + 120) ltac:(lra)) as (-> & -> & ->). split; [nra|]. split; [nra|]. nra.
    + assert (-1 <= q < 0) by (split; nra). destruct (Rltb_reflect (60 * q + 120) 0); [lra|]. split; [lra|].
      destruct (W1 (60 * q + 120) ltac:(lra)) as (-> & -> & ->). split; [nra|]. split; [nra|]. nra.
  - destruct (Req_EM_T b r) as [-> | N].
    + assert (g = r) by lra. subst g. unfold Rminus. rewrite Rplus_opp_r. destruct (Reqb_reflect 0 0); [|lra]. destruct (Rltb_reflect 0 0); [lra|].
      assert (Z : (if Reqb r 0 then 0 else 0 / r) = 0) by (destruct (Reqb_reflect r 0); [reflexivity|field; lra]). rewrite Z.
      split; [split; [cbn; lra|split; unfold in01; cbn; lra]|]. unfold colour; cbn [hue sat val]. f_equal; ring.
    + apply FIN; [lra|lra|]. intros q E. cbv zeta. assert (-1 <= q <= 0) by (split; nra).
      destruct (Rltb_reflect (60 * q + 240) 0); [lra|]. split; [lra|].
      destruct (W3 (60 * q + 240) ltac:(lra)) as (-> & -> & ->). split; [nra|]. split; [nra|]. nra.
Qed.

Lemma color_round_trip c old : in_cube c -> zHSV2RGB (zRGB2HSV c) old = c.
Proof. intros H. destruct (color_to_hsv c H) as [V E]. rewrite zHSV2RGB_colour by exact V. exact E. Qed.

Lemma colour_in_cube x : hsv_valid x -> in_cube (colour x).
Proof. intros (H1 & H2 & H3). unfold colour. cube; apply v01; try assumption; apply weight01. Qed.

Lemma color_from_hsv x old : hsv_valid x -> zHSV2RGB x old = colour x /\ in_cube (colour x).
Proof. intros H. split; [apply zHSV2RGB_colour; exact H|apply colour_in_cube; exact H]. Qed.

(** a chromatic colour determines its hue, saturation and value *)
Lemma colour_inj x y : hsv_valid x -> hsv_valid y -> 0 < sat x -> 0 < val x -> colour x = colour y -> x = y.
Proof.
  destruct x as [h s v], y as [h' s' v']. intros (H1 & H2 & H3) (H4 & H5 & H6) S0 V0 E. unfold in01 in *. cbn [hue sat val] in *.
  assert (SD : forall k s v, 0 <= k < 360 -> 0 <= s <= 1 -> 0 <= v <= 1 -> exists a b c, colour (HSV k s v) = RGB a b c /\ a <= v /\ b <= v /\ c <= v /\ (a = v \/ b = v \/ c = v) /\
     v * (1 - s) <= a /\ v * (1 - s) <= b /\ v * (1 - s) <= c /\ (a = v * (1 - s) \/ b = v * (1 - s) \/ c = v * (1 - s))).
  { clear. intros k s v K S V. unfold colour; cbn [hue sat val].
    pose proof (weight01 k 0) as A0. pose proof (weight01 k 120) as A1. pose proof (weight01 k 240) as A2. unfold in01 in *.
    do 3 eexists. split; [reflexivity|].
    assert (P : 0 <= v * s) by nra.
    split; [nra|]. split; [nra|]. split; [nra|].
    assert (Q : forall w, 0 <= w <= 1 -> v * (1 - s) <= v * (1 - s + s * w)) by (intros; nra).
    destruct (sector_of k K) as (n & Nn & Hn).
    destruct (sector n Nn) as [-> | [-> | [-> | [-> | [-> | ->]]]]].
    - destruct (W0 k ltac:(lra)) as (E0 & E1 & E2). rewrite E0, E2. split; [left; ring|]. split; [apply Q; lra|]. split; [apply Q; lra|]. split; [apply Q; lra|]. right; right; ring.
    - destruct (W1 k ltac:(lra)) as (E0 & E1 & E2). rewrite E1, E2. split; [right; left; ring|]. split; [apply Q; lra|]. split; [apply Q; lra|]. split; [apply Q; lra|]. right; right; ring.
    - destruct (W2 k ltac:(lra)) as (E0 & E1 & E2). rewrite E1, E0. split; [right; left; ring|]. split; [apply Q; lra|]. split; [apply Q; lra|]. split; [apply Q; lra|]. left; ring.
    - destruct (W3 k ltac:(lra)) as (E0 & E1 & E2). rewrite E2, E0. split; [right; right; ring|]. split; [apply Q; lra|]. split; [apply Q; lra|]. split; [apply Q; lra|]. left; ring.
    - destruct (W4 k ltac:(lra)) as (E0 & E1 & E2). rewrite E2, E1. split; [right; right; ring|]. split; [apply Q; lra|]. split; [apply Q; lra|]. split; [apply Q; lra|]. right; left; ring.
    - destruct (W5 k ltac:(lra)) as (E0 & E1 & E2). rewrite E0, E1. split; [left; ring|]. split; [apply Q; lra|]. split; [apply Q; lra|]. split; [apply Q; lra|]. right; left; ring. }
  destruct (SD h s v) as (a & b & c & E1 & B); [lra|lra|lra|]. destruct (SD h' s' v') as (a' & b' & c' & E2 & B'); [lra|lra|lra|].
  rewrite E1, E2 in E. injection E as <- <- <-.
  assert (v' = v) by lra. subst v'.
  assert (P : v * (1 - s') = v * (1 - s)) by lra. assert (s' = s) by (apply Rmult_eq_reg_l with v; lra). subst s'.
  clear B B' SD P. assert (X : colour (HSV h s v) = colour (HSV h' s v)) by congruence. unfold colour in X; cbn [hue sat val] in X.
  injection X as X0 X1 X2.
  assert (C : forall w w', v * (1 - s + s * w) = v * (1 - s + s * w') -> w = w').
  { intros w w' W. apply Rmult_eq_reg_l with (v * s); [|nra]. nra. }
  apply C in X0, X1, X2. f_equal.
  destruct (sector_of h H1) as (n & Nn & Hn). destruct (sector_of h' H4) as (m & Nm & Hm).
  destruct (sector n Nn) as [-> | [-> | [-> | [-> | [-> | ->]]]]];
  [destruct (W0 h ltac:(lra)) as (E3 & E4 & E5) | destruct (W1 h ltac:(lra)) as (E3 & E4 & E5) | destruct (W2 h ltac:(lra)) as (E3 & E4 & E5) | destruct (W3 h ltac:(lra)) as (E3 & E4 & E5) | destruct (W4 h ltac:(lra)) as (E3 & E4 & E5) | destruct (W5 h ltac:(lra)) as (E3 & E4 & E5)];
  rewrite E3 in X0; rewrite E4 in X1; rewrite E5 in X2;
  (destruct (sector m Nm) as [-> | [-> | [-> | [-> | [-> | ->]]]]];
  [destruct (W0 h' ltac:(lra)) as (F3 & F4 & F5) | destruct (W1 h' ltac:(lra)) as (F3 & F4 & F5) | destruct (W2 h' ltac:(lra)) as (F3 & F4 & F5) | destruct (W3 h' ltac:(lra)) as (F3 & F4 & F5) | destruct (W4 h' ltac:(lra)) as (F3 & F4 & F5) | destruct (W5 h' ltac:(lra)) as (F3 & F4 & F5)];
  rewrite F3 in X0; rewrite F4 in X1; rewrite F5 in X2; lra).
Qed.

Lemma color_hsv_round_trip x old : hsv_valid x -> 0 < sat x -> 0 < val x -> zRGB2HSV (zHSV2RGB x old) = x.
Proof.
  intros V S0 V0. rewrite zHSV2RGB_colour by exact V. destruct (color_to_hsv (colour x) (colour_in_cube x V)) as [A B].
  symmetry. apply colour_inj; auto.
Qed.

(** outside [0,360): the hue of 360 degrees is not that of 0, and a negative hue leaves the result as it was *)
Lemma color_hue_refuted old : colour (HSV 360 1 1) = colour (HSV 0 1 1) /\ colour (HSV 0 1 1) = RGB 1 0 0 /\ zHSV2RGB (HSV 0 1 1) old = RGB 1 0 0 /\ zHSV2RGB (HSV 360 1 1) old = RGB 1 1 0 /\
  (forall h s v, -300 <= h < 0 -> zHSV2RGB (HSV h s v) old = old).
Proof.
  assert (C0 : colour (HSV 0 1 1) = RGB 1 0 0).
  { unfold colour; cbn [hue sat val]. destruct (W0 0 ltac:(lra)) as (-> & -> & ->). f_equal; lra. }
  assert (C1 : colour (HSV 360 1 1) = RGB 1 0 0).
  { unfold colour; cbn [hue sat val]. destruct (W5 360 ltac:(lra)) as (-> & -> & ->). f_equal; lra. }
  split; [rewrite C0, C1; reflexivity|]. split; [exact C0|]. split; [rewrite zHSV2RGB_colour; [exact C0|unfold hsv_valid, in01; cbn; lra]|]. split.
  - unfold zHSV2RGB; cbn [hue sat val]. rewrite (int_part_eq _ 6) by lra. change (Z.rem 6 6) with 0%Z. cbv iota. unfold zRGBSet. rewrite !zLimit_clamp. unfold clamp01, Rmax, Rmin.
    f_equal; repeat (destruct (Rle_dec _ _)); lra.
  - intros h s v H. unfold zHSV2RGB; cbn [hue sat val].
    assert (I : (Int_part (h / 60) = -1 \/ Int_part (h / 60) = -2 \/ Int_part (h / 60) = -3 \/ Int_part (h / 60) = -4 \/ Int_part (h / 60) = -5)%Z).
    { destruct (Rlt_le_dec h (-240)); [do 4 right; apply int_part_eq; lra|].
      destruct (Rlt_le_dec h (-180)); [do 3 right; left; apply int_part_eq; lra|].
      destruct (Rlt_le_dec h (-120)); [do 2 right; left; apply int_part_eq; lra|].
      destruct (Rlt_le_dec h (-60)); [right; left; apply int_part_eq; lra|]. left; apply int_part_eq; lra. }
    destruct I as [-> | [-> | [-> | [-> | ->]]]]; reflexivity.
Qed.

(** * Strings *)
Lemma digit_x c n : digit c n -> zA2X_c c = Some (N.of_nat n) /\ (n < 16)%nat.
Proof.
  unfold digit, str; cbn [list_ascii_of_string].
  intros [H | H]; (do 16 (destruct n as [|n]; [cbn in H; injection H as <-; split; [vm_compute; reflexivity|lia]|])); cbn in H; destruct n; discriminate.
Qed.

(** bits of a shifted number and a digit do not overlap *)
Lemma push_eq r x : (x < 16)%N -> push r x = ((16 * r) mod 2 ^ 32 + x)%N.
Proof.
  intros X. unfold push, shl4. rewrite N.shiftl_mul_pow2. rewrite (N.mul_comm r).
  change (2 ^ 4)%N with 16%N.
  replace ((16 * r) mod 2 ^ 32)%N with (16 * (r mod 2 ^ 28))%N by (change (2 ^ 32)%N with (16 * 2 ^ 28)%N; rewrite N.mul_mod_distr_l by (try discriminate); reflexivity).
  set (k := (r mod 2 ^ 28)%N). 
  replace (16 * k)%N with (N.shiftl k 4) by (rewrite N.shiftl_mul_pow2; change (2 ^ 4)%N with 16%N; apply N.mul_comm).
  rewrite <- N.lxor_lor, N.add_nocarry_lxor; [reflexivity| |].
  all: apply N.bits_inj; intros i; rewrite N.land_spec, N.bits_0; destruct (N.lt_ge_cases i 4);
   [rewrite N.shiftl_spec_low by assumption; reflexivity
   |rewrite (N.bits_above_log2 x), Bool.andb_false_r; [reflexivity|]].
  all: destruct (N.eq_dec x 0) as [-> | NZ]; [cbn; lia|]; apply N.lt_le_trans with 4%N; [|assumption]; apply N.log2_lt_pow2; [lia|exact X].
Qed.

Lemma push_mod v r x : (x < 16)%N -> r = (v mod 2 ^ 32)%N -> push r x = ((16 * v + x) mod 2 ^ 32)%N.
Proof.
  intros X ->. rewrite push_eq by exact X. rewrite N.mul_mod_idemp_r by discriminate.
  change (2 ^ 32)%N with (16 * 2 ^ 28)%N. rewrite N.mul_mod_distr_l by discriminate.
  symmetry. rewrite N.mod_mul_r by discriminate.
  replace ((16 * v + x) mod 16)%N with x by (rewrite N.add_comm, N.mul_comm, N.mod_add by discriminate; symmetry; apply N.mod_small; exact X).
  replace ((16 * v + x) / 16)%N with v by (rewrite N.add_comm, N.mul_comm, N.div_add by discriminate; rewrite N.div_small by exact X; reflexivity).
  rewrite N.add_comm. reflexivity.
Qed.

(** value of the first [i] digits *)
Definition prefix_val (l : list ascii) (v : nat -> N) : Prop :=
  v 0%nat = 0%N /\ forall i c, nth_error l i = Some c -> exists n, digit c n /\ v (S i) = (16 * v i + N.of_nat n)%N.
Lemma denotes_prefix l x : denotes l x -> exists v, prefix_val l v /\ v (List.length l) = x.
Proof.
  induction 1 as [|l x c n D (v & (V0 & V) & E) G].
  - exists (fun _ => 0%N). split; [|reflexivity]. split; [reflexivity|]. intros [|i] c H; discriminate.
  - exists (fun i => if (i <=? List.length l)%nat then v i else (16 * x + N.of_nat n)%N). split.
    + split; [cbn; exact V0|]. intros i c' H.
      destruct (Nat.lt_ge_cases i (List.length l)) as [L | L].
      * rewrite nth_error_app1 in H by exact L. destruct (V i c' H) as (m & M1 & M2). exists m. split; [exact M1|].
        destruct (Nat.leb_spec (S i) (List.length l)); [|lia]. destruct (Nat.leb_spec i (List.length l)); [|lia]. exact M2.
      * rewrite nth_error_app2 in H by exact L. destruct (i - List.length l)%nat as [|k] eqn:K; [|destruct k; discriminate].
        assert (i = List.length l) by lia. subst i. cbn in H. injection H as <-. exists n. split; [exact G|].
        destruct (Nat.leb_spec (S (List.length l)) (List.length l)); [lia|]. rewrite Nat.leb_refl, E. reflexivity.
    + rewrite app_length; cbn. destruct (Nat.leb_spec (List.length l + 1) (List.length l)); [lia|reflexivity].
Qed.

Lemma hex_loop_ok hex n (vr vg vb : nat -> N) :
  (forall i, (i < n)%nat -> exists a b c x y z, nth_error hex i = Some a /\ nth_error hex (i + n) = Some b /\ nth_error hex (i + n * 2) = Some c /\
     digit a x /\ digit b y /\ digit c z /\ vr (S i) = (16 * vr i + N.of_nat x)%N /\ vg (S i) = (16 * vg i + N.of_nat y)%N /\ vb (S i) = (16 * vb i + N.of_nat z)%N) ->
  forall k i, (i + k = n)%nat ->
  hex_loop hex n k i (vr i mod 2 ^ 32) (vg i mod 2 ^ 32) (vb i mod 2 ^ 32) ((16 ^ N.of_nat i - 1) mod 2 ^ 32) =
  Some (vr n mod 2 ^ 32, vg n mod 2 ^ 32, vb n mod 2 ^ 32, (16 ^ N.of_nat n - 1) mod 2 ^ 32)%N.
Proof.
  intros H. induction k as [|k IH]; intros i K.
  - assert (i = n) by lia. subst i. reflexivity.
  - destruct (H i ltac:(lia)) as (a & b & c & x & y & z & A1 & A2 & A3 & B1 & B2 & B3 & C1 & C2 & C3).
    apply digit_x in B1, B2, B3. destruct B1 as [B1 X], B2 as [B2 Y], B3 as [B3 Z].
    cbn [hex_loop]. unfold getx. rewrite A1, A2, A3, B1, B2, B3.
    rewrite (push_mod (vr i)), (push_mod (vg i)), (push_mod (vb i)), (push_mod (16 ^ N.of_nat i - 1)) by (first [lia | reflexivity]).
    rewrite <- C1, <- C2, <- C3.
    replace (16 * (16 ^ N.of_nat i - 1) + 15)%N with (16 ^ N.of_nat (S i) - 1)%N.
    + apply IH. lia.
    + rewrite Nnat.Nat2N.inj_succ, N.pow_succ_r'. pose proof (N.pow_nonzero 16 (N.of_nat i) ltac:(discriminate)). lia.
Qed.

Lemma hex_split n (rs gs bs rest : list ascii) : List.length rs = n -> List.length gs = n -> List.length bs = n -> (List.length rest < 3)%nat ->
  (List.length (rs ++ gs ++ bs ++ rest) / 3 = n)%nat.
Proof. intros. rewrite !app_length. symmetry. apply Nat.div_unique with (List.length rest); lia. Qed.

Lemma hex_loop_str n rs gs bs rest r g b : List.length rs = n -> List.length gs = n -> List.length bs = n -> denotes rs r -> denotes gs g -> denotes bs b ->
  hex_loop (rs ++ gs ++ bs ++ rest) n n 0 0 0 0 0 = Some (r mod 2 ^ 32, g mod 2 ^ 32, b mod 2 ^ 32, (16 ^ N.of_nat n - 1) mod 2 ^ 32)%N.
Proof.
  intros Lr Lg Lb Dr Dg Db.
  destruct (denotes_prefix _ _ Dr) as (vr & (R0 & Rv) & Re). destruct (denotes_prefix _ _ Dg) as (vg & (G0 & Gv) & Ge). destruct (denotes_prefix _ _ Db) as (vb & (B0 & Bv) & Be).
  rewrite Lr in Re. rewrite Lg in Ge. rewrite Lb in Be.
  pose proof (hex_loop_ok (rs ++ gs ++ bs ++ rest) n vr vg vb) as P. rewrite Re, Ge, Be in P.
  specialize (fun h => P h n 0%nat eq_refl). rewrite R0, G0, B0 in P. change ((16 ^ N.of_nat 0 - 1) mod 2 ^ 32)%N with 0%N in P. change (0 mod 2 ^ 32)%N with 0%N in P.
  apply P. intros i I.
  assert (T : forall l : list ascii, List.length l = n -> exists a, nth_error l i = Some a).
  { intros l L. destruct (nth_error l i) eqn:E; [eexists; reflexivity|]. apply nth_error_None in E. lia. }
  destruct (T rs Lr) as (a & A). destruct (T gs Lg) as (b0 & B). destruct (T bs Lb) as (c & C).
  destruct (Rv _ _ A) as (x & X1 & X2). destruct (Gv _ _ B) as (y & Y1 & Y2). destruct (Bv _ _ C) as (z & Z1 & Z2).
  exists a, b0, c, x, y, z.
  split; [rewrite nth_error_app1 by lia; exact A|].
  split; [rewrite nth_error_app2, Lr by lia; replace (i + n - n)%nat with i by lia; rewrite nth_error_app1 by lia; exact B|].
  split; [rewrite nth_error_app2, Lr by lia; rewrite nth_error_app2, Lg by lia; replace (i + n * 2 - n - n)%nat with i by lia; rewrite nth_error_app1 by lia; exact C|].
  auto 10.
Qed.

Lemma denotes_lt l v : denotes l v -> (v < 16 ^ N.of_nat (List.length l))%N.
Proof.
  induction 1 as [|l v c n D IH G]; [cbn; lia|]. apply digit_x in G. destruct G as [_ G].
  rewrite app_length; cbn [List.length]. rewrite Nat.add_1_r, Nnat.Nat2N.inj_succ, N.pow_succ_r'. lia.
Qed.

Lemma pow16_R n : (1 <= n)%nat -> IZR (Z.of_N (16 ^ N.of_nat n - 1)) = 16 ^ n - 1 /\ 0 < 16 ^ n - 1.
Proof.
  intros N1. assert (P : IZR (Z.of_N (16 ^ N.of_nat n)) = 16 ^ n).
  { rewrite Znat.N2Z.inj_pow, Znat.nat_N_Z. change (Z.of_N 16) with 16%Z. rewrite <- pow_IZR. reflexivity. }
  assert (1 < 16 ^ n) by (apply Rlt_pow_R1; [lra|lia]).
  split; [|lra]. rewrite Znat.N2Z.inj_sub. { rewrite minus_IZR, P. cbn. lra. }
  pose proof (N.pow_nonzero 16 (N.of_nat n) ltac:(discriminate)). lia.
Qed.

Lemma fraction01 v n : (1 <= n)%nat -> (v < 16 ^ N.of_nat n)%N -> in01 (fraction v n).
Proof.
  intros N1 V. destruct (pow16_R n N1) as [E P]. unfold fraction, in01.
  assert (A : 0 <= IZR (Z.of_N v)) by (apply IZR_le; lia).
  assert (B : IZR (Z.of_N v) <= 16 ^ n - 1) by (rewrite <- E; apply IZR_le; lia).
  split; [apply Rmult_le_pos; [exact A|left; apply Rinv_0_lt_compat; exact P]|]. apply Rmult_le_reg_r with (16 ^ n - 1); [exact P|]. unfold Rdiv. rewrite Rmult_assoc, Rinv_l by lra. lra.
Qed.

Lemma pow_le_32 n : (n <= 8)%nat -> (16 ^ N.of_nat n <= 2 ^ 32)%N.
Proof. intros. change (2 ^ 32)%N with (16 ^ 8)%N. apply N.pow_le_mono_r; [discriminate|lia]. Qed.

(** up to eight digits for each primary, a remainder of one or two digits being ignored *)
Lemma color_hex scan n rs gs bs rest r g b : (1 <= n <= 8)%nat -> List.length rs = n -> List.length gs = n -> List.length bs = n -> (List.length rest < 3)%nat -> denotes rs r -> denotes gs g -> denotes bs b ->
  zRGBByStr scan (Some (str "#" ++ rs ++ gs ++ bs ++ rest)) = Some (RGB (fraction r n) (fraction g n) (fraction b n)).
Proof.
  intros N1 Lr Lg Lb Lx Dr Dg Db. cbn [str list_ascii_of_string app zRGBByStr zRGBDecodeStr]. cbn [Ascii.eqb Bool.eqb orb].
  unfold zRGBHex. rewrite (hex_split n) by assumption. rewrite (hex_loop_str n _ _ _ _ r g b) by assumption.
  assert (Br := denotes_lt _ _ Dr). assert (Bg := denotes_lt _ _ Dg). assert (Bb := denotes_lt _ _ Db). rewrite Lr in Br. rewrite Lg in Bg. rewrite Lb in Bb.
  pose proof (pow_le_32 n ltac:(lia)) as P. pose proof (N.pow_nonzero 16 (N.of_nat n) ltac:(discriminate)) as P0.
  rewrite !N.mod_small by lia. destruct (pow16_R n ltac:(lia)) as [E E0].
  unfold rat. destruct (N.eqb_spec (16 ^ N.of_nat n - 1) 0) as [Z | _].
  { exfalso. rewrite Z in E. cbn in E. lra. }
  rewrite E. fold (fraction r n) (fraction g n) (fraction b n). unfold zRGBSet. rewrite !zLimit_in by (apply fraction01; [lia|assumption]). reflexivity.
Qed.

(** beyond eight digits only the last eight of each primary count *)
Lemma color_hex_long scan n rs gs bs rest r g b : (8 < n)%nat -> List.length rs = n -> List.length gs = n -> List.length bs = n -> (List.length rest < 3)%nat -> denotes rs r -> denotes gs g -> denotes bs b ->
  zRGBByStr scan (Some (str "#" ++ rs ++ gs ++ bs ++ rest)) = Some (RGB (fraction (r mod 16 ^ 8) 8) (fraction (g mod 16 ^ 8) 8) (fraction (b mod 16 ^ 8) 8)).
Proof.
  intros N1 Lr Lg Lb Lx Dr Dg Db. cbn [str list_ascii_of_string app zRGBByStr zRGBDecodeStr]. cbn [Ascii.eqb Bool.eqb orb].
  unfold zRGBHex. rewrite (hex_split n) by assumption. rewrite (hex_loop_str n _ _ _ _ r g b) by assumption.
  assert (M : ((16 ^ N.of_nat n - 1) mod 2 ^ 32 = 16 ^ 8 - 1)%N).
  { replace (N.of_nat n) with (8 + (N.of_nat n - 8))%N by lia. rewrite N.pow_add_r. set (k := (16 ^ (N.of_nat n - 8))%N).
    assert (K : k <> 0%N) by (apply N.pow_nonzero; discriminate).
    replace (16 ^ 8 * k - 1)%N with ((16 ^ 8 - 1) + (k - 1) * 2 ^ 32)%N by (change (2 ^ 32)%N with (16 ^ 8)%N; lia).
    rewrite N.mod_add by discriminate. apply N.mod_small. reflexivity. }
  rewrite M. change (2 ^ 32)%N with (16 ^ 8)%N. unfold rat. change (16 ^ 8 - 1 =? 0)%N with false. cbv iota.
  destruct (pow16_R 8 ltac:(lia)) as [E E0]. change (N.of_nat 8) with 8%N in E. rewrite E. fold (fraction (r mod 16 ^ 8) 8) (fraction (g mod 16 ^ 8) 8) (fraction (b mod 16 ^ 8) 8).
  unfold zRGBSet. rewrite !zLimit_in by (apply fraction01; [lia|apply N.mod_lt; discriminate]). reflexivity.
Qed.

(** fewer than three digits: a division of zero by zero *)
Lemma color_hex_short scan s : (List.length s < 3)%nat -> zRGBByStr scan (Some (str "#" ++ s)) = None.
Proof.
  intros L. cbn [str list_ascii_of_string app zRGBByStr zRGBDecodeStr]. cbn [Ascii.eqb Bool.eqb orb]. unfold zRGBHex.
  rewrite Nat.div_small by exact L. reflexivity.
Qed.

(** names *)
Lemma color_names scan : 
  zRGBByStr scan (Some (str "black")) = Some (RGB 0 0 0) /\ zRGBByStr scan (Some (str "red")) = Some (RGB 1 0 0) /\ zRGBByStr scan (Some (str "green")) = Some (RGB 0 1 0) /\ zRGBByStr scan (Some (str "blue")) = Some (RGB 0 0 1) /\
  zRGBByStr scan (Some (str "yellow")) = Some (RGB 1 1 0) /\ zRGBByStr scan (Some (str "cyan")) = Some (RGB 0 1 1) /\ zRGBByStr scan (Some (str "magenta")) = Some (RGB 1 0 1) /\ zRGBByStr scan (Some (str "white")) = Some (RGB 1 1 1) /\
  zRGBByStr scan None = Some (RGB 0 0 0) /\
  (forall s, ~ In s (map str ["red"; "green"; "blue"; "yellow"; "cyan"; "magenta"; "white"]%string) -> (forall c, hd_error s = Some c -> c <> "#"%char /\ isdigit c = false) -> zRGBByStr scan (Some s) = Some (RGB 0 0 0)).
Proof.
  assert (L0 : zLimit 0 0 1 = 0) by (apply zLimit_in; unfold in01; lra). assert (L1 : zLimit 1 0 1 = 1) by (apply zLimit_in; unfold in01; lra).
  assert (F : forall s, ~ In s (map str ["red"; "green"; "blue"; "yellow"; "cyan"; "magenta"; "white"]%string) -> zRGBByName (Some s) = RGB 0 0 0).
  { intros s H. cbn [zRGBByName]. unfold color_table. cbn [find_name]. unfold str_eqb.
    destruct (list_eq_dec Ascii.ascii_dec (str "black") s); [unfold zRGBSet; rewrite L0; reflexivity|].
    destruct (list_eq_dec Ascii.ascii_dec (str "red") s) as [<- | _]; [exfalso; apply H; cbn; auto 10|].
    destruct (list_eq_dec Ascii.ascii_dec (str "green") s) as [<- | _]; [exfalso; apply H; cbn; auto 10|].
    destruct (list_eq_dec Ascii.ascii_dec (str "blue") s) as [<- | _]; [exfalso; apply H; cbn; auto 10|].
    destruct (list_eq_dec Ascii.ascii_dec (str "yellow") s) as [<- | _]; [exfalso; apply H; cbn; auto 10|].
    destruct (list_eq_dec Ascii.ascii_dec (str "cyan") s) as [<- | _]; [exfalso; apply H; cbn; auto 10|].
    destruct (list_eq_dec Ascii.ascii_dec (str "magenta") s) as [<- | _]; [exfalso; apply H; cbn; auto 10|].
    destruct (list_eq_dec Ascii.ascii_dec (str "white") s) as [<- | _]; [exfalso; apply H; cbn; auto 10|]. reflexivity. }
  do 8 (split; [cbn; unfold zRGBSet; rewrite ?L0, ?L1; reflexivity|]). split; [reflexivity|].
  intros [|c s] H G; [cbn [zRGBByStr]; f_equal; apply F; exact H|].
  cbn [zRGBByStr]. destruct (G c eq_refl) as [G1 G2]. rewrite G2. destruct (Ascii.eqb_spec c "#"%char); [contradiction|]. cbn [orb]. f_equal. apply F. exact H.
Qed.

(** three numbers in the unit interval are taken as they are *)
Lemma color_ratio scan s c r g b : hd_error s = Some c -> isdigit c = true -> scan s = Some (r, g, b) -> zRGBByStr scan (Some s) = Some (RGB (clamp01 r) (clamp01 g) (clamp01 b)).
Proof.
  destruct s as [|c0 s]; [discriminate|]. intros [= ->] D S0. cbn [zRGBByStr zRGBDecodeStr]. rewrite D, Bool.orb_true_r.
  destruct (Ascii.eqb_spec c "#"%char) as [-> | _]; [discriminate D|]. unfold zRGBRatio. rewrite S0. f_equal. apply (color_set r g b).
Qed.
