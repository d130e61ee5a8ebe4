(** Intersections of triangles: cases the functions get wrong. *)
From Coq Require Import List Bool Lia.
Import ListNotations.
From Verif Require Import Base ModelVec ModelBox ModelTree ModelElem ModelCol SpecCol FactsVec FactsAlg Facts2D FactsElem FactsTri FactsTri2 FactsLine FactsCentre FactsObb FactsSweep FactsCol FactsCol2 FactsCol3.
Open Scope R_scope.

Lemma edge_flat a b pl : height (porg pl) (pnorm pl) a * height (porg pl) (pnorm pl) b <= 0 ->
  Rabs (height (porg pl) (pnorm pl) b - height (porg pl) (pnorm pl) a) < zTOL -> zIntersectEdgePlane3D (E3 a b) pl = [a; b].
Proof.
  intros H T. destruct (edge_plane (E3 a b) pl) as [(_ & N)|[(q & _ & _ & _ & _ & T')|(E & _)]]; cbn [ev0 ev1] in *; [| |assumption]; exfalso.
  - apply N, meets_product, H.
  - lra.
Qed.
Lemma edge_cut a b pl q : segment a b q -> on_plane (porg pl) (pnorm pl) q ->
  zTOL <= Rabs (height (porg pl) (pnorm pl) b - height (porg pl) (pnorm pl) a) -> zIntersectEdgePlane3D (E3 a b) pl = [q].
Proof.
  intros H P T. destruct (edge_plane (E3 a b) pl) as [(_ & N)|[(q' & E & _ & _ & U & _)|(_ & _ & T')]]; cbn [ev0 ev1] in *.
  - exfalso. apply N. exists q. auto.
  - rewrite E. f_equal. symmetry. apply U; assumption.
  - lra.
Qed.
Definition ez : vec3 := V3 0 0 1.
Definition slim : tri3 := T3 (V3 0 0 0) (V3 1 0 (9 / 10 * zTOL)) (V3 0 1 (- (9 / 10 * zTOL))) (snd (zVec3DNormalizeDRC (tri_normal (V3 0 0 0) (V3 1 0 (9 / 10 * zTOL)) (V3 0 1 (- (9 / 10 * zTOL)))))).
Definition flat1 : tri3 := T3 (V3 0 0 0) (V3 1 0 0) (V3 0 1 0) (snd (zVec3DNormalizeDRC (tri_normal (V3 0 0 0) (V3 1 0 0) (V3 0 1 0)))).
Lemma hz x y z : height (V3 0 0 0) ez (V3 x y z) = z.
Proof. unfold height, ez. spec_unfold. ring. Qed.
Lemma far_x a b c a' b' c' : zTOL <= Rabs (a - a') -> ~ alike (V3 a b c) (V3 a' b' c').
Proof. intros H (K & _). cbn [vsub vx] in K. lra. Qed.
Lemma far_y a b c a' b' c' : zTOL <= Rabs (b - b') -> ~ alike (V3 a b c) (V3 a' b' c').
Proof. intros H (_ & K & _). cbn [vsub vx vy] in K. lra. Qed.
Lemma equal_false p q : ~ alike p q -> zVec3DEqual p q = false.
Proof. intros H. destruct (zVec3DEqual p q) eqn:E; [exfalso; apply H, equal_alike, E|reflexivity]. Qed.
Lemma equal_refl p : zVec3DEqual p p = true.
Proof. apply equal_alike, alike_refl. Qed.
Ltac farx := apply equal_false; first [apply far_x; unfold Rabs; destruct (Rcase_abs _); pose proof zTOL_small; lra
                                       |apply far_y; unfold Rabs; destruct (Rcase_abs _); pose proof zTOL_small; lra].
Lemma slim_points : zIntersectTriPlane3D slim (P3 (V3 0 0 0) ez) =
  [V3 0 0 0; V3 1 0 (9 / 10 * zTOL); V3 (1 / 2) (1 / 2) 0; V3 0 1 (- (9 / 10 * zTOL))].
Proof.
  pose proof zTOL_pos as TP. pose proof zTOL_small as TS. rewrite tri_plane_fold. unfold slim. cbn [tv0 tv1 tv2].
  rewrite (edge_flat (V3 0 0 0)); cbn [porg pnorm]; rewrite ?hz; [|lra|rewrite Rminus_0_r, Rabs_pos_eq; lra].
  rewrite (edge_cut (V3 1 0 (9 / 10 * zTOL)) _ _ (V3 (1 / 2) (1 / 2) 0)); cbn [porg pnorm]; rewrite ?hz.
  2: { exists (1 / 2), (1 / 2). split; [unfold weights2; lra|]. unfold comb2. apply vec3_ext; spec_unfold; field. }
  2: { apply hz. }
  2: { rewrite Rabs_left; lra. }
  rewrite (edge_flat (V3 0 1 _)); cbn [porg pnorm]; rewrite ?hz; [|lra|rewrite Rabs_pos_eq; lra].
  cbn [app fold_left].
  set (a := V3 0 0 0). set (b := V3 1 0 (9 / 10 * zTOL)). set (m := V3 (1 / 2) (1 / 2) 0). set (c := V3 0 1 (- (9 / 10 * zTOL))).
  assert (Eba : zVec3DEqual b a = false) by (unfold a, b; farx).
  assert (Ema : zVec3DEqual m a = false) by (unfold a, m; farx).
  assert (Emb : zVec3DEqual m b = false) by (unfold b, m; farx).
  assert (Eca : zVec3DEqual c a = false) by (unfold a, c; farx).
  assert (Ecb : zVec3DEqual c b = false) by (unfold b, c; farx).
  assert (Ecm : zVec3DEqual c m = false) by (unfold c, m; farx).
  assert (S1 : addNew [a] b = [a; b]) by (unfold addNew; cbn [existsb]; rewrite Eba; reflexivity).
  assert (S2 : addNew [a; b] m = [a; b; m]) by (unfold addNew; cbn [existsb]; rewrite Ema, Emb; reflexivity).
  assert (S3 : addNew [a; b; m] c = [a; b; m; c]) by (unfold addNew; cbn [existsb]; rewrite Eca, Ecb, Ecm; reflexivity).
  assert (S4 : addNew [a; b; m; c] a = [a; b; m; c]) by (unfold addNew; cbn [existsb]; rewrite (equal_refl a); reflexivity).
  replace (addNew [] a) with [a] by reflexivity. rewrite ?S1, ?S2, ?S3, ?S4. reflexivity.
Qed.
Lemma create_ok v0 v1 v2 : ~ negligible (tri_normal v0 v1 v2) ->
  zTri3DCreate v0 v1 v2 = (true, T3 v0 v1 v2 (snd (zVec3DNormalizeDRC (tri_normal v0 v1 v2)))).
Proof.
  intros H. unfold zTri3DCreate. cbv zeta. change (triOuterProd v0 v1 v2) with (cross (vsub v1 v0) (vsub v2 v1)). rewrite tri_normal_alt.
  rewrite (proj2 (zVec3DIsTiny_false _) H). reflexivity.
Qed.
Lemma big_z v : 1 <= Rabs (vz v) -> ~ negligible v.
Proof. intros H (_ & _ & K). pose proof zTOL_small. lra. Qed.
Lemma flat_norm v0 v1 v2 t : zTri3DCreate v0 v1 v2 = (true, t) -> vx (tri_normal v0 v1 v2) = 0 -> vy (tri_normal v0 v1 v2) = 0 -> 0 < vz (tri_normal v0 v1 v2) -> tnorm t = ez.
Proof.
  intros E Hx Hy Hz. destruct (tri_made _ _ _ _ E) as (_ & _ & _ & _ & U & (k & Hk & Sc) & _).
  rewrite <- Sc in Hx, Hy, Hz. cbn [vscale vx vy vz] in *. apply Rmult_integral in Hx, Hy.
  assert (Ex : vx (tnorm t) = 0) by (destruct Hx; [lra|assumption]). assert (Ey : vy (tnorm t) = 0) by (destruct Hy; [lra|assumption]).
  assert (Q : norm (tnorm t) * norm (tnorm t) = dot (tnorm t) (tnorm t)) by apply norm_sqr. rewrite U in Q. unfold dot in Q. rewrite Ex, Ey in Q.
  assert (0 < vz (tnorm t)) by nra. unfold ez. apply vec3_ext; cbn [vx vy vz]; [assumption|assumption|nra].
Qed.
Lemma slim_made : zTri3DCreate (V3 0 0 0) (V3 1 0 (9 / 10 * zTOL)) (V3 0 1 (- (9 / 10 * zTOL))) = (true, slim).
Proof. apply create_ok, big_z. unfold tri_normal. spec_unfold. pose proof zTOL_small. rewrite Rabs_pos_eq; lra. Qed.
Lemma flat1_made : zTri3DCreate (V3 0 0 0) (V3 1 0 0) (V3 0 1 0) = (true, flat1).
Proof. apply create_ok, big_z. unfold tri_normal. spec_unfold. rewrite Rabs_pos_eq; lra. Qed.
Lemma flat1_norm : tnorm flat1 = ez.
Proof. apply (flat_norm _ _ _ _ flat1_made); unfold tri_normal; spec_unfold; lra. Qed.
(** four points, one more than the documented size of the result: a local array is overrun *)
Lemma tri_overrun : exists v0 v1 v2 w0 w1 w2 t1 t2,
  zTri3DCreate v0 v1 v2 = (true, t1) /\ zTri3DCreate w0 w1 w2 = (true, t2) /\
  (exists pl, zTri3DToPlane3D t2 = Some pl /\ length (zIntersectTriPlane3D t1 pl) = 4%nat) /\
  zIntersectTri3D t1 t2 = None /\ zColChkTri3D t1 t2 = None.
Proof.
  do 6 eexists. exists slim, flat1. split; [apply slim_made|]. split; [apply flat1_made|].
  destruct (tri_made _ _ _ _ flat1_made) as (_ & _ & _ & _ & _ & _ & Pl). rewrite flat1_norm in Pl.
  split. { eexists; split; [exact Pl|]. rewrite slim_points. reflexivity. }
  assert (K : zIntersectTri3D slim flat1 = None) by (unfold zIntersectTri3D; rewrite Pl; cbv zeta; rewrite slim_points; reflexivity).
  split; [exact K|]. unfold zColChkTri3D. rewrite K. reflexivity.
Qed.
(** a triangle against itself: three points for an array of two *)
Lemma corners_in a b c : in_triangle a b c a /\ in_triangle a b c b /\ in_triangle a b c c.
Proof. split; [|split]; apply outline_tri; unfold outline; auto using seg_l, seg_r. Qed.
Lemma tri_self v0 v1 v2 t : zTri3DCreate v0 v1 v2 = (true, t) -> ~ alike v0 v1 -> ~ alike v1 v2 -> ~ alike v2 v0 ->
  zIntersectTri3D t t = Some [v0; v1; v2] /\ zColChkTri3D t t = None.
Proof.
  intros E A01 A12 A20. destruct (tri_made _ _ _ _ E) as (T0 & T1 & T2 & _ & _ & _ & Pl). destruct (corners_in v0 v1 v2) as (C0 & C1 & C2).
  assert (F : zIntersectTriPlane3D t (P3 v0 (tnorm t)) = [v0; v1; v2]).
  { rewrite <- T0, <- T1, <- T2. apply tri_plane_flat; cbn [porg pnorm]; rewrite ?T0, ?T1, ?T2; auto; apply (tri_on_plane _ _ _ _ _ E); assumption. }
  assert (K : zIntersectTri3D t t = Some [v0; v1; v2]).
  { unfold zIntersectTri3D. rewrite Pl. cbv zeta. rewrite F. cbn [length Nat.leb andb]. f_equal. unfold keepInside. cbn [fold_left].
    rewrite (inside_self _ _ _ _ _ E C0), (inside_self _ _ _ _ _ E C1), (inside_self _ _ _ _ _ E C2).
    assert (S1 : addNew [v0] v1 = [v0; v1]) by (unfold addNew; cbn [existsb]; rewrite equal_false; [reflexivity|intros H; apply A01, alike_sym, H]).
    assert (S2 : addNew [v0; v1] v2 = [v0; v1; v2]).
    { unfold addNew; cbn [existsb]. rewrite (equal_false v2 v0) by assumption. rewrite (equal_false v2 v1); [reflexivity|intros H; apply A12, alike_sym, H]. }
    replace (addNew [] v0) with [v0] by reflexivity. rewrite S1, S2.
    assert (S : forall v, List.In v [v0; v1; v2] -> addNew [v0; v1; v2] v = [v0; v1; v2]).
    { intros v Hv. unfold addNew. assert (X : existsb (fun q => zVec3DEqual v q) [v0; v1; v2] = true) by (apply existsb_exists; exists v; split; [assumption|apply equal_refl]). rewrite X. reflexivity. }
    rewrite !S by (cbn; auto). reflexivity. }
  split; [exact K|]. unfold zColChkTri3D. rewrite K. reflexivity.
Qed.
(** coplanar figures that cross without containing each other's corners are reported apart *)
Lemma dist_coords p q m : dist p q < m -> Rabs (vx p - vx q) < m /\ Rabs (vy p - vy q) < m /\ Rabs (vz p - vz q) < m.
Proof.
  intros H. assert (Q : dist p q * dist p q = dot (vsub p q) (vsub p q)) by (unfold dist; apply norm_sqr).
  assert (P : 0 <= dist p q) by (unfold dist; apply norm_nonneg). unfold dot, vsub in Q. cbn [vx vy vz] in Q.
  pose proof (Rle_0_sqr (vx p - vx q)) as S1. pose proof (Rle_0_sqr (vy p - vy q)) as S2. pose proof (Rle_0_sqr (vz p - vz q)) as S3. unfold Rsqr in *.
  assert (K : forall d, d * d <= dist p q * dist p q -> Rabs d < m).
  { intros d Hd. apply Rle_lt_trans with (dist p q); [|assumption]. rewrite <- (Rabs_pos_eq _ P). apply Rsqr_le_abs_0. unfold Rsqr. assumption. }
  split; [|split]; apply K; lra.
Qed.
Lemma not_within a b c p f g :
  f * vx a + g * vy a <= f * vx p + g * vy p - 2 -> f * vx b + g * vy b <= f * vx p + g * vy p - 2 -> f * vx c + g * vy c <= f * vx p + g * vy p - 2 ->
  Rabs f <= 2 -> Rabs g <= 2 -> ~ within zTOL (in_triangle a b c) p.
Proof.
  intros A B C F G (x & (s0 & s1 & s2 & (W0 & W1 & W2 & W) & ->) & D). apply dist_coords in D. destruct D as (Dx & Dy & _). pose proof zTOL_small as TS.
  unfold comb3, comb2 in *. cbn [vadd vscale vx vy vz] in *.
  set (X := s0 * vx a + s1 * vx b + s2 * vx c) in *. set (Y := s0 * vy a + s1 * vy b + s2 * vy c) in *.
  assert (L : f * X + g * Y <= f * vx p + g * vy p - 2).
  { replace (f * X + g * Y) with (s0 * (f * vx a + g * vy a) + s1 * (f * vx b + g * vy b) + s2 * (f * vx c + g * vy c)) by (unfold X, Y; ring).
    set (M := f * vx p + g * vy p - 2) in *. replace M with (s0 * M + s1 * M + s2 * M) by (replace s0 with (1 - s1 - s2) by lra; ring).
    apply Rplus_le_compat; [apply Rplus_le_compat|]; apply Rmult_le_compat_l; assumption. }
  assert (K : Rabs (f * (vx p - X)) <= 2 * zTOL /\ Rabs (g * (vy p - Y)) <= 2 * zTOL).
  { rewrite !Rabs_mult. split; apply Rmult_le_compat; try apply Rabs_pos; lra. }
  destruct K as [K1 K2]. pose proof (Rle_abs (f * (vx p - X))). pose proof (Rle_abs (g * (vy p - Y))). lra.
Qed.
Definition starA : tri3 := T3 (V3 0 0 0) (V3 6 0 0) (V3 3 6 0) (snd (zVec3DNormalizeDRC (tri_normal (V3 0 0 0) (V3 6 0 0) (V3 3 6 0)))).
Definition starB : tri3 := T3 (V3 0 4 0) (V3 3 (-2) 0) (V3 6 4 0) (snd (zVec3DNormalizeDRC (tri_normal (V3 0 4 0) (V3 3 (-2) 0) (V3 6 4 0)))).
Lemma starA_made : zTri3DCreate (V3 0 0 0) (V3 6 0 0) (V3 3 6 0) = (true, starA).
Proof. apply create_ok, big_z. unfold tri_normal. spec_unfold. rewrite Rabs_pos_eq; lra. Qed.
Lemma starB_made : zTri3DCreate (V3 0 4 0) (V3 3 (-2) 0) (V3 6 4 0) = (true, starB).
Proof. apply create_ok, big_z. unfold tri_normal. spec_unfold. rewrite Rabs_pos_eq; lra. Qed.
Lemma star_missed : exists a0 a1 a2 b0 b1 b2 t1 t2 x,
  zTri3DCreate a0 a1 a2 = (true, t1) /\ zTri3DCreate b0 b1 b2 = (true, t2) /\
  in_triangle a0 a1 a2 x /\ in_triangle b0 b1 b2 x /\ zIntersectTri3D t1 t2 = Some [] /\ zColChkTri3D t1 t2 = Some false.
Proof.
  do 6 eexists. exists starA, starB, (V3 3 2 0). split; [exact starA_made|]. split; [exact starB_made|].
  split. { exists (1 / 3), (1 / 3), (1 / 3). split; [unfold weights3; lra|]. unfold comb3, comb2. apply vec3_ext; spec_unfold; field. }
  split. { exists (1 / 3), (1 / 3), (1 / 3). split; [unfold weights3; lra|]. unfold comb3, comb2. apply vec3_ext; spec_unfold; field. }
  assert (NA : tnorm starA = ez) by (apply (flat_norm _ _ _ _ starA_made); unfold tri_normal; spec_unfold; lra).
  assert (NB : tnorm starB = ez) by (apply (flat_norm _ _ _ _ starB_made); unfold tri_normal; spec_unfold; lra).
  destruct (tri_made _ _ _ _ starA_made) as (_ & _ & _ & _ & _ & _ & PA). destruct (tri_made _ _ _ _ starB_made) as (_ & _ & _ & _ & _ & _ & PB).
  assert (K : zIntersectTri3D starA starB = Some []).
  { unfold zIntersectTri3D. rewrite PA, PB, NA, NB. cbv zeta.
    rewrite (tri_plane_flat starA (P3 (V3 0 4 0) ez)), (tri_plane_flat starB (P3 (V3 0 0 0) ez)).
    2-13: unfold starA, starB; cbn [tv0 tv1 tv2 porg pnorm]; first [unfold on_plane, ez; spec_unfold; ring|first [apply far_x; unfold Rabs; destruct (Rcase_abs _); pose proof zTOL_small; lra|apply far_y; unfold Rabs; destruct (Rcase_abs _); pose proof zTOL_small; lra]].
    cbn [length Nat.leb andb tv0 tv1 tv2 starA starB]. fold starA starB. f_equal. unfold keepInside. cbn [fold_left].
    assert (Fa : forall p, ~ within zTOL (in_triangle (V3 0 0 0) (V3 6 0 0) (V3 3 6 0)) p -> zTri3DPointIsInside starA p zTOL = false).
    { intros p H. destruct (zTri3DPointIsInside starA p zTOL) eqn:E; [exfalso; apply H, (inside_within _ _ _ _ _ _ starA_made), E|reflexivity]. }
    assert (Fb : forall p, ~ within zTOL (in_triangle (V3 0 4 0) (V3 3 (-2) 0) (V3 6 4 0)) p -> zTri3DPointIsInside starB p zTOL = false).
    { intros p H. destruct (zTri3DPointIsInside starB p zTOL) eqn:E; [exfalso; apply H, (inside_within _ _ _ _ _ _ starB_made), E|reflexivity]. }
    assert (A2 : Rabs (-2) <= 2) by (rewrite Rabs_left; lra). assert (A2' : Rabs 2 <= 2) by (rewrite Rabs_pos_eq; lra). assert (A1 : Rabs 1 <= 2) by (rewrite Rabs_pos_eq; lra). assert (A1' : Rabs (-1) <= 2) by (rewrite Rabs_left; lra). assert (A0 : Rabs 0 <= 2) by (rewrite Rabs_R0; lra).
    rewrite (Fb (V3 0 0 0)) by (apply (not_within _ _ _ _ (-2) (-1)); cbn [vx vy]; try assumption; lra).
    rewrite (Fb (V3 6 0 0)) by (apply (not_within _ _ _ _ 2 (-1)); cbn [vx vy]; try assumption; lra).
    rewrite (Fb (V3 3 6 0)) by (apply (not_within _ _ _ _ 0 1); cbn [vx vy]; try assumption; lra).
    rewrite (Fa (V3 0 4 0)) by (apply (not_within _ _ _ _ (-2) 1); cbn [vx vy]; try assumption; lra).
    rewrite (Fa (V3 3 (-2) 0)) by (apply (not_within _ _ _ _ 0 (-1)); cbn [vx vy]; try assumption; lra).
    rewrite (Fa (V3 6 4 0)) by (apply (not_within _ _ _ _ 2 1); cbn [vx vy]; try assumption; lra).
    reflexivity. }
  split; [exact K|]. unfold zColChkTri3D. rewrite K. reflexivity.
Qed.
Lemma edge_missed : exists v0 v1 v2 t e x, zTri3DCreate v0 v1 v2 = (true, t) /\ segment (ev0 e) (ev1 e) x /\ in_triangle v0 v1 v2 x /\
  zIntersectEdgeTri3D e t = [] /\ zColChkEdgeTri3D e t = false.
Proof.
  do 3 eexists. exists starA, (E3 (V3 (-2) 2 0) (V3 8 2 0)), (V3 3 2 0). split; [exact starA_made|]. cbn [ev0 ev1].
  split. { exists (1 / 2), (1 / 2). split; [unfold weights2; lra|]. unfold comb2. apply vec3_ext; spec_unfold; field. }
  split. { exists (1 / 3), (1 / 3), (1 / 3). split; [unfold weights3; lra|]. unfold comb3, comb2. apply vec3_ext; spec_unfold; field. }
  assert (NA : tnorm starA = ez) by (apply (flat_norm _ _ _ _ starA_made); unfold tri_normal; spec_unfold; lra).
  destruct (tri_made _ _ _ _ starA_made) as (_ & _ & _ & _ & _ & _ & PA). pose proof zTOL_pos as TP.
  assert (K : zIntersectEdgeTri3D (E3 (V3 (-2) 2 0) (V3 8 2 0)) starA = []).
  { unfold zIntersectEdgeTri3D. rewrite PA, NA. rewrite edge_flat; cbn [porg pnorm]; rewrite ?hz; [|lra|rewrite Rminus_0_r, Rabs_R0; assumption]. cbn [filter].
    assert (Fa : forall p, ~ within zTOL (in_triangle (V3 0 0 0) (V3 6 0 0) (V3 3 6 0)) p -> zTri3DPointIsInside starA p zTOL = false).
    { intros p H. destruct (zTri3DPointIsInside starA p zTOL) eqn:E; [exfalso; apply H, (inside_within _ _ _ _ _ _ starA_made), E|reflexivity]. }
    rewrite (Fa (V3 (-2) 2 0)) by (apply (not_within _ _ _ _ (-1) 0); cbn [vx vy]; [lra|lra|lra|rewrite Rabs_left; lra|rewrite Rabs_R0; lra]).
    rewrite (Fa (V3 8 2 0)) by (apply (not_within _ _ _ _ 1 0); cbn [vx vy]; [lra|lra|lra|rewrite Rabs_pos_eq; lra|rewrite Rabs_R0; lra]).
    reflexivity. }
  split; [exact K|]. unfold zColChkEdgeTri3D. rewrite K. reflexivity.
Qed.
(** *** a pair of triangles in regular position *)
Lemma regular_two o n a b c y z : zTOL <= Rabs (height o n b - height o n a) -> 0 < height o n b * height o n c -> zTOL <= Rabs (height o n a - height o n c) ->
  height o n a * height o n b < 0 ->
  segment a b y -> on_plane o n y -> segment c a z -> on_plane o n z -> ~ alike y z -> regular o n a b c.
Proof.
  intros T1 P T2 Q Sy Oy Sz Oz N. split.
  - intros p q [(-> & ->)|[(-> & ->)|(-> & ->)]] H; [assumption|lra|assumption].
  - assert (Un : forall u v p q, zTOL <= Rabs (height o n v - height o n u) -> segment u v p -> on_plane o n p -> segment u v q -> on_plane o n q -> p = q).
    { intros u v p q T Hp Op Hq Oq. pose proof (edge_cut u v (P3 o n) p Hp Op T) as E1. pose proof (edge_cut u v (P3 o n) q Hq Oq T) as E2. rewrite E1 in E2. inversion E2. reflexivity. }
    assert (Only : forall p, outline a b c p -> on_plane o n p -> p = y \/ p = z).
    { intros p [H|[H|H]] O.
      - left. apply (Un a b); assumption.
      - exfalso. assert (M : meets (segment b c) (on_plane o n)) by (exists p; auto). apply meets_product in M. lra.
      - right. apply (Un c a); assumption. }
    intros p q Hp Op Hq Oq A. destruct (Only p Hp Op), (Only q Hq Oq); subst; try reflexivity; [contradiction|exfalso; apply N, alike_sym, A].
Qed.
Definition wall : tri3 := T3 (V3 1 1 1) (V3 1 2 (-1)) (V3 1 0 (-1)) (snd (zVec3DNormalizeDRC (tri_normal (V3 1 1 1) (V3 1 2 (-1)) (V3 1 0 (-1))))).
Lemma wall_made : zTri3DCreate (V3 1 1 1) (V3 1 2 (-1)) (V3 1 0 (-1)) = (true, wall).
Proof. apply create_ok. intros (K & _). unfold tri_normal in K. revert K. spec_unfold. intros K. pose proof zTOL_small. rewrite Rabs_left in K; lra. Qed.
Lemma wall_norm : tnorm wall = V3 (-1) 0 0.
Proof.
  destruct (tri_made _ _ _ _ wall_made) as (_ & _ & _ & _ & U & (k & Hk & Sc) & _).
  assert (Sx : k * vx (tnorm wall) = -4) by (change (vx (vscale k (tnorm wall)) = -4); rewrite Sc; unfold tri_normal; spec_unfold; ring).
  assert (Sy : k * vy (tnorm wall) = 0) by (change (vy (vscale k (tnorm wall)) = 0); rewrite Sc; unfold tri_normal; spec_unfold; ring).
  assert (Sz : k * vz (tnorm wall) = 0) by (change (vz (vscale k (tnorm wall)) = 0); rewrite Sc; unfold tri_normal; spec_unfold; ring).
  apply Rmult_integral in Sy, Sz. assert (Ey : vy (tnorm wall) = 0) by (destruct Sy; [lra|assumption]). assert (Ez : vz (tnorm wall) = 0) by (destruct Sz; [lra|assumption]).
  assert (Q : norm (tnorm wall) * norm (tnorm wall) = dot (tnorm wall) (tnorm wall)) by apply norm_sqr. rewrite U in Q. unfold dot in Q. rewrite Ey, Ez in Q.
  assert (vx (tnorm wall) < 0) by nra. apply vec3_ext; cbn [vx vy vz]; [nra|assumption|assumption].
Qed.
Lemma starA_norm : tnorm starA = ez.
Proof. apply (flat_norm _ _ _ _ starA_made); unfold tri_normal; spec_unfold; lra. Qed.
Lemma pair_regular : regular (V3 0 0 0) (tnorm starA) (V3 1 1 1) (V3 1 2 (-1)) (V3 1 0 (-1)) /\ regular (V3 1 1 1) (tnorm wall) (V3 0 0 0) (V3 6 0 0) (V3 3 6 0) /\
  meets (in_triangle (V3 1 1 1) (V3 1 2 (-1)) (V3 1 0 (-1))) (in_triangle (V3 0 0 0) (V3 6 0 0) (V3 3 6 0)).
Proof.
  pose proof zTOL_small as TS. rewrite starA_norm, wall_norm. split; [|split].
  - apply (regular_two _ _ _ _ _ (V3 1 (3 / 2) 0) (V3 1 (1 / 2) 0)); rewrite ?hz; try lra.
    + rewrite Rabs_left; lra.
    + rewrite Rabs_pos_eq; lra.
    + exists (1 / 2), (1 / 2). split; [unfold weights2; lra|]. unfold comb2. apply vec3_ext; spec_unfold; field.
    + apply hz.
    + exists (1 / 2), (1 / 2). split; [unfold weights2; lra|]. unfold comb2. apply vec3_ext; spec_unfold; field.
    + apply hz.
    + apply far_y. rewrite Rabs_pos_eq; lra.
  - assert (Hx : forall x y z, height (V3 1 1 1) (V3 (-1) 0 0) (V3 x y z) = 1 - x) by (intros; unfold height; spec_unfold; ring).
    apply (regular_two _ _ _ _ _ (V3 1 0 0) (V3 1 2 0)); rewrite ?Hx; try lra.
    + rewrite Rabs_left; lra.
    + rewrite Rabs_pos_eq; lra.
    + exists (5 / 6), (1 / 6). split; [unfold weights2; lra|]. unfold comb2. apply vec3_ext; spec_unfold; field.
    + unfold on_plane. spec_unfold. ring.
    + exists (1 / 3), (2 / 3). split; [unfold weights2; lra|]. unfold comb2. apply vec3_ext; spec_unfold; field.
    + unfold on_plane. spec_unfold. ring.
    + apply far_y. rewrite Rabs_left; lra.
  - exists (V3 1 1 0). split.
    + exists (1 / 2), (1 / 4), (1 / 4). split; [unfold weights3; lra|]. unfold comb3, comb2. apply vec3_ext; spec_unfold; field.
    + exists (3 / 4), (1 / 12), (1 / 6). split; [unfold weights3; lra|]. unfold comb3, comb2. apply vec3_ext; spec_unfold; field.
Qed.
