(** Proofs about optical properties. *)
From Verif Require Import Base SpecColor ModelColor FactsColor.
From Coq Require Import List Ascii String NArith ZArith Lra Lia.
Import ListNotations.
Open Scope R_scope.

(** every coefficient of a material *)
Definition coeffs (o : optic) : list R :=
  [cr (ambient o); cg (ambient o); cb (ambient o); cr (diffuse o); cg (diffuse o); cb (diffuse o);
   cr (specular o); cg (specular o); cb (specular o); esr o; shininess o; alpha o].

Lemma coeffs_inj o1 o2 : oname o1 = oname o2 -> coeffs o1 = coeffs o2 -> o1 = o2.
Proof.
  destruct o1 as [n1 [a1 a2 a3] [b1 b2 b3] [c1 c2 c3] e1 s1 t1], o2 as [n2 [d1 d2 d3] [f1 f2 f3] [g1 g2 g3] e2 s2 t2].
  unfold coeffs; cbn. intros -> H. injection H as -> -> -> -> -> -> -> -> -> -> -> ->. reflexivity.
Qed.

Lemma blend_between t x y : in01 t -> Rmin x y <= t * x + (1 - t) * y <= Rmax x y.
Proof. unfold in01, Rmin, Rmax. intros [? ?]. destruct (Rle_dec x y); split; nra. Qed.

Lemma optic_blend o1 o2 ratio name : let o := zOpticalInfoBlend o1 o2 ratio name in
  oname o = name /\
  (forall i x y, nth_error (coeffs o1) i = Some x -> nth_error (coeffs o2) i = Some y ->
     exists z, nth_error (coeffs o) i = Some z /\ z = y + clamp01 ratio * (x - y) /\ Rmin x y <= z <= Rmax x y) /\
  (1 <= ratio -> coeffs o = coeffs o1) /\ (ratio <= 0 -> coeffs o = coeffs o2).
Proof.
  cbv zeta. unfold zOpticalInfoBlend. rewrite zLimit_clamp. pose proof (clamp01_in ratio) as T. set (t := clamp01 ratio) in *.
  split; [reflexivity|]. split.
  - intros i x y Hx Hy.
    assert (K : nth_error (coeffs (Optic name (zRGBBlend (ambient o1) (ambient o2) t) (zRGBBlend (diffuse o1) (diffuse o2) t) (zRGBBlend (specular o1) (specular o2) t)
        (t * esr o1 + (1 - t) * esr o2) (t * shininess o1 + (1 - t) * shininess o2) (t * alpha o1 + (1 - t) * alpha o2))) i = Some (t * x + (1 - t) * y)).
    { unfold coeffs, zRGBBlend in *. cbn [ambient diffuse specular esr shininess alpha cr cg cb] in *.
      do 12 (destruct i as [|i]; [cbn in *; injection Hx as <-; injection Hy as <-; reflexivity|]). destruct i; discriminate. }
    exists (t * x + (1 - t) * y). split; [exact K|]. split; [ring|]. apply blend_between. exact T.
  - assert (E : forall u, coeffs (Optic name (zRGBBlend (ambient o1) (ambient o2) u) (zRGBBlend (diffuse o1) (diffuse o2) u) (zRGBBlend (specular o1) (specular o2) u)
        (u * esr o1 + (1 - u) * esr o2) (u * shininess o1 + (1 - u) * shininess o2) (u * alpha o1 + (1 - u) * alpha o2)) = map (fun p => u * fst p + (1 - u) * snd p) (combine (coeffs o1) (coeffs o2))) by reflexivity.
    split; intros H; rewrite E.
    + assert (Ht : t = 1) by (unfold t, clamp01, Rmax, Rmin; destruct (Rle_dec 1 ratio); destruct (Rle_dec 0 _); lra). rewrite Ht.
      unfold coeffs; cbn [combine map fst snd]. repeat (f_equal; [ring|]). f_equal. ring.
    + assert (Ht : t = 0) by (unfold t, clamp01, Rmax, Rmin; destruct (Rle_dec 1 ratio); destruct (Rle_dec 0 _); lra). rewrite Ht.
      unfold coeffs; cbn [combine map fst snd]. repeat (f_equal; [ring|]). f_equal. ring.
Qed.

Definition in_cubes (o : optic) : Prop := in_cube (ambient o) /\ in_cube (diffuse o) /\ in_cube (specular o).

Lemma optic_mul o1 o2 old : in_cubes o1 -> in_cubes o2 -> let o := zOpticalInfoMul o1 o2 old in
  (forall i x y, nth_error (coeffs o1) i = Some x -> nth_error (coeffs o2) i = Some y -> nth_error (coeffs o) i = Some (x * y)) /\ in_cubes o /\ oname o = oname old /\ zOpticalInfoMul o2 o1 old = o.
Proof.
  intros (A1 & A2 & A3) (B1 & B2 & B3). cbv zeta.
  destruct (color_mul _ _ A1 B1) as (E1 & C1 & S1 & _). destruct (color_mul _ _ A2 B2) as (E2 & C2 & S2 & _). destruct (color_mul _ _ A3 B3) as (E3 & C3 & S3 & _).
  split; [|split; [|split]].
  - intros i x y Hx Hy. unfold zOpticalInfoMul, coeffs. cbn [ambient diffuse specular esr shininess alpha]. rewrite E1, E2, E3. unfold coeffs in *. cbn [cr cg cb] in *.
    do 12 (destruct i as [|i]; [cbn in *; injection Hx as <-; injection Hy as <-; reflexivity|]). destruct i; discriminate.
  - unfold in_cubes, zOpticalInfoMul; cbn. auto.
  - reflexivity.
  - unfold zOpticalInfoMul. rewrite S1, S2, S3. f_equal; ring.
Qed.

Lemma optic_create ar ag ab dr dg db sr sg sb e s a name : let o := zOpticalInfoCreate ar ag ab dr dg db sr sg sb e s a name in
  oname o = name /\ coeffs o = [clamp01 ar; clamp01 ag; clamp01 ab; clamp01 dr; clamp01 dg; clamp01 db; clamp01 sr; clamp01 sg; clamp01 sb; e; s; a] /\ in_cubes o.
Proof.
  cbv zeta. split; [reflexivity|]. split.
  - unfold coeffs, zOpticalInfoCreate, zRGBSet; cbn. rewrite !zLimit_clamp. reflexivity.
  - unfold in_cubes, zOpticalInfoCreate; cbn. split; [|split]; apply color_set.
Qed.

Lemma optic_copy src dest : coeffs (zOpticalInfoCopy src dest) = coeffs src /\ oname (zOpticalInfoCopy src dest) = oname dest.
Proof. split; reflexivity. Qed.

(** the header says that every parameter is set to one *)
Lemma optic_init_refuted : coeffs zOpticalInfoInit = [1;1;1;1;1;1;1;1;1;0;0;1] /\ coeffs zOpticalInfoInit <> repeat 1 12.
Proof.
  assert (L1 : zLimit 1 0 1 = 1) by (apply zLimit_in; unfold in01; lra).
  assert (E : coeffs zOpticalInfoInit = [1;1;1;1;1;1;1;1;1;0;0;1]) by (unfold zOpticalInfoInit, zOpticalInfoCreate, zRGBSet, coeffs; cbn; rewrite L1; reflexivity).
  split; [exact E|]. rewrite E. cbn. intros H. injection H as H. lra.
Qed.

(** * Writing and reading *)
Definition or_default (drop : bool) (x d : R) : R := if drop then d else x.

Lemma rgb_eta c : RGB (cr c) (cg c) (cb c) = c.
Proof. destruct c; reflexivity. Qed.

Lemma init_white : zOpticalInfoInit = Optic None zrgbwhite zrgbwhite zrgbwhite 0 0 1.
Proof. unfold zOpticalInfoInit, zOpticalInfoCreate, zRGBSet. rewrite !zLimit_in by (unfold in01; lra). reflexivity. Qed.

Lemma optic_print_read scan o name : exists o', zOpticalInfoFromZTK scan (zOpticalInfoFPrintZTK o name) = Some o' /\
  oname o' = Some name /\ ambient o' = ambient o /\ diffuse o' = diffuse o /\ specular o' = specular o /\
  Rabs (esr o' - esr o) < zTOL /\ Rabs (shininess o' - shininess o) < zTOL /\ Rabs (alpha o' - alpha o) < zTOL /\
  (esr o = 0 \/ zTOL <= Rabs (esr o) -> esr o' = esr o) /\ (shininess o = 0 \/ zTOL <= Rabs (shininess o) -> shininess o' = shininess o) /\ (alpha o = 1 \/ zTOL <= Rabs (1 - alpha o) -> alpha o' = alpha o).
Proof.
  exists (Optic (Some name) (ambient o) (diffuse o) (specular o) (or_default (zIsTiny (esr o)) (esr o) 0) (or_default (zIsTiny (shininess o)) (shininess o) 0) (or_default (zIsTiny (1 - alpha o)) (alpha o) 1)).
  split.
  { unfold zOpticalInfoFromZTK, zOpticalInfoFPrintZTK. rewrite init_white.
    destruct (zIsTiny (esr o)), (zIsTiny (shininess o)), (zIsTiny (1 - alpha o)); cbn; rewrite ?rgb_eta; reflexivity. }
  cbn [oname ambient diffuse specular esr shininess alpha]. pose proof zTOL_pos as TP.
  assert (Z : forall x, Rabs (or_default (zIsTiny x) x 0 - x) < zTOL /\ (x = 0 \/ zTOL <= Rabs x -> or_default (zIsTiny x) x 0 = x)).
  { intros x. unfold or_default. destruct (zIsTiny x) eqn:E.
    - apply zIsTiny_true in E. split; [unfold Rminus; rewrite Rplus_0_l, Rabs_Ropp; exact E|]. intros [H | H]; [auto|lra].
    - split; [unfold Rminus; rewrite Rplus_opp_r, Rabs_R0; exact TP|auto]. }
  assert (Y : Rabs (or_default (zIsTiny (1 - alpha o)) (alpha o) 1 - alpha o) < zTOL /\ (alpha o = 1 \/ zTOL <= Rabs (1 - alpha o) -> or_default (zIsTiny (1 - alpha o)) (alpha o) 1 = alpha o)).
  { unfold or_default. destruct (zIsTiny (1 - alpha o)) eqn:E.
    - apply zIsTiny_true in E. split; [exact E|]. intros [H | H]; [auto|lra].
    - split; [unfold Rminus; rewrite Rplus_opp_r, Rabs_R0; exact TP|auto]. }
  destruct (Z (esr o)), (Z (shininess o)), Y. auto 15.
Qed.

(** what is read back from the document made by [zOpticalInfoToZTK] *)
Lemma optic_ztk_read scan o name : exists o', zOpticalInfoFromZTK scan (zOpticalInfoToZTK o name) = Some o' /\
  oname o' = Some name /\
  (ambient o' = if zRGBIsZero (ambient o) then zrgbwhite else ambient o) /\ (diffuse o' = if zRGBIsZero (diffuse o) then zrgbwhite else diffuse o) /\ (specular o' = if zRGBIsZero (specular o) then zrgbwhite else specular o) /\
  Rabs (esr o' - esr o) < zTOL /\ Rabs (shininess o' - shininess o) < zTOL /\ (alpha o' = if zIsTiny (alpha o) then 1 else alpha o).
Proof.
  exists (Optic (Some name) (if zRGBIsZero (ambient o) then zrgbwhite else ambient o) (if zRGBIsZero (diffuse o) then zrgbwhite else diffuse o) (if zRGBIsZero (specular o) then zrgbwhite else specular o) (or_default (zIsTiny (esr o)) (esr o) 0) (or_default (zIsTiny (shininess o)) (shininess o) 0) (or_default (zIsTiny (alpha o)) (alpha o) 1)).
  split.
  { unfold zOpticalInfoFromZTK, zOpticalInfoToZTK. rewrite init_white.
    destruct (zRGBIsZero (ambient o)), (zRGBIsZero (diffuse o)), (zRGBIsZero (specular o)), (zIsTiny (esr o)), (zIsTiny (shininess o)), (zIsTiny (alpha o)); cbn; rewrite ?rgb_eta; reflexivity. }
  cbn [oname ambient diffuse specular esr shininess alpha]. pose proof zTOL_pos as TP.
  assert (Z : forall x, Rabs (or_default (zIsTiny x) x 0 - x) < zTOL).
  { intros x. unfold or_default. destruct (zIsTiny x) eqn:E.
    - apply zIsTiny_true in E. unfold Rminus; rewrite Rplus_0_l, Rabs_Ropp; exact E.
    - unfold Rminus; rewrite Rplus_opp_r, Rabs_R0; exact TP. }
  unfold or_default. pose proof (Z (esr o)). pose proof (Z (shininess o)). auto 15.
Qed.

(** black comes back as white, fully transparent as opaque *)
Lemma optic_ztk_refuted scan name : let o := zOpticalInfoCreate 0 0 0 0 0 0 0 0 0 0 0 0 (Some name) in
  oname o = Some name /\ coeffs o = repeat 0 12 /\ exists o', zOpticalInfoFromZTK scan (zOpticalInfoToZTK o name) = Some o' /\ ambient o' = RGB 1 1 1 /\ diffuse o' = RGB 1 1 1 /\ specular o' = RGB 1 1 1 /\ alpha o' = 1.
Proof.
  cbv zeta. set (o := zOpticalInfoCreate 0 0 0 0 0 0 0 0 0 0 0 0 (Some name)).
  assert (E : o = Optic (Some name) (RGB 0 0 0) (RGB 0 0 0) (RGB 0 0 0) 0 0 0).
  { unfold o, zOpticalInfoCreate, zRGBSet. rewrite !zLimit_in by (unfold in01; lra). reflexivity. }
  split; [rewrite E; reflexivity|]. split; [rewrite E; reflexivity|].
  destruct (optic_ztk_read scan o name) as (o' & R & _ & A & D & S0 & _ & _ & L). exists o'. split; [exact R|].
  assert (Z : zRGBIsZero (RGB 0 0 0) = true).
  { unfold zRGBIsZero; cbn [cr cg cb]. assert (zIsTol 0 ZRGB_TOL = true) as ->; [|reflexivity]. apply zIsTol_true. rewrite Rabs_R0. unfold ZRGB_TOL. lra. }
  rewrite E in A, D, S0, L. cbn [ambient diffuse specular alpha] in *. rewrite Z in A, D, S0. rewrite zIsTiny_0 in L. auto.
Qed.
