(** A polyhedron whose oriented bounding box is not the least box about it *)
From Verif Require Import Base Spec SpecGeom SpecHull SpecMesh SpecBBox ModelVec ModelElem ModelFrame ModelBox ModelPH ModelHull ModelBBox FactsVec FactsAlg FactsElem FactsTri2 FactsSat FactsHull FactsHull2 FactsHull3 FactsHull4 FactsHull5 FactsHull6 FactsHull7 FactsHull8 FactsLine FactsCentre FactsPH2 FactsPH4 FactsObb FactsBBox FactsBBox2 FactsBBox3 FactsBBox4.
From Coq Require Import List Lia Lra ZArith.
Import ListNotations.
Open Scope R_scope.

Definition tv : list vec3 := [V3 0 0 0; V3 1 2 0; V3 1 0 1; V3 (1/5) (19/10) (4/5)].
Definition tface (i j k : nat) : face := FC i j k (tnorm (snd (zTri3DCreate (vpos tv i) (vpos tv j) (vpos tv k)))).
Definition tetra : ph3 := PH tv [tface 0 1 2; tface 0 2 3; tface 0 3 1; tface 1 3 2].
Definition tnor (i j k : nat) : vec3 := tri_normal (vpos tv i) (vpos tv j) (vpos tv k).
Ltac tcalc := unfold tnor, tri_normal, vpos, tv; cbn [nth]; apply vec3_ext; spec_unfold; cbn; lra.
Lemma tnor0 : tnor 0 1 2 = V3 2 (-1) (-2). Proof. tcalc. Qed.
Lemma tnor1 : tnor 0 2 3 = V3 (-19/10) (-6/10) (19/10). Proof. tcalc. Qed.
Lemma tnor2 : tnor 0 3 1 = V3 (-16/10) (8/10) (-15/10). Proof. tcalc. Qed.
Lemma tnor3 : tnor 1 3 2 = V3 (15/10) (8/10) (16/10). Proof. tcalc. Qed.
Lemma big_not_negl v : 1 <= Rabs (vx v) \/ 1 <= Rabs (vy v) \/ 1 <= Rabs (vz v) -> ~ negligible v.
Proof. intros H (A & B & C). pose proof zTOL_small. destruct H as [H|[H|H]]; lra. Qed.
Lemma tnn i j k : In (i, j, k) [(0, 1, 2); (0, 2, 3); (0, 3, 1); (1, 3, 2)]%nat -> ~ negligible (tnor i j k).
Proof.
  intros I. apply big_not_negl. left. cbn in I. destruct I as [I|[I|[I|[I|[]]]]]; injection I as <- <- <-; rewrite ?tnor0, ?tnor1, ?tnor2, ?tnor3; cbn [vx]; unfold Rabs; destruct (Rcase_abs _); lra.
Qed.
Lemma tetra_sound : sound_ph tetra.
Proof.
  split; [|split].
  - unfold valid_ph, indices_below, ph_faces, tetra. cbn. repeat constructor.
  - unfold fresh, tetra. cbn [pfaces pverts]. repeat constructor.
  - unfold tetra. cbn [pfaces pverts]. repeat apply Forall_cons; [| | | |apply Forall_nil]; cbn [fi0 fi1 fi2 tface]; [apply (tnn 0 1 2)|apply (tnn 0 2 3)|apply (tnn 0 3 1)|apply (tnn 1 3 2)]; cbn; tauto.
Qed.
Definition ttri i j k : tri3 := tri_at tv (tface i j k).
Lemma tetra_tris : solid_tris tetra = [ttri 0 1 2; ttri 0 2 3; ttri 0 3 1; ttri 1 3 2]. Proof. reflexivity. Qed.
Lemma ttri_height i j k v : height (ttri i j k) v = dot (vsub v (vpos tv i)) (tnor i j k). Proof. reflexivity. Qed.
Lemma tetra_beneath : beneath tetra.
Proof.
  intros v t Iv It. rewrite tetra_tris in It. cbn [In] in It. destruct It as [<-|[<-|[<-|[<-|[]]]]]; rewrite ttri_height, ?tnor0, ?tnor1, ?tnor2, ?tnor3; unfold vpos, tv; cbn [nth];
    (cbn [pverts tetra tv In] in Iv; destruct Iv as [<-|[<-|[<-|[<-|[]]]]]; spec_unfold; cbn; lra).
Qed.
Lemma ttri_norm i j k : In (i, j, k) [(0, 1, 2); (0, 2, 3); (0, 3, 1); (1, 3, 2)]%nat -> tnorm (ttri i j k) = vscale (1 / norm (tnor i j k)) (tnor i j k).
Proof.
  intros I. pose proof (tnn i j k I) as N. unfold ttri, tri_at, tface. cbn [fnrm tnorm fi0 fi1 fi2]. unfold zTri3DCreate, triOuterProd. change (zVec3DOuterProd (zVec3DSub (vpos tv j) (vpos tv i)) (zVec3DSub (vpos tv k) (vpos tv j))) with (cross (vsub (vpos tv j) (vpos tv i)) (vsub (vpos tv k) (vpos tv j))).
  rewrite tri_normal_alt. fold (tnor i j k). rewrite (proj2 (zVec3DIsTiny_false _) N). cbn [snd tnorm]. rewrite (normalizeDRC_ok _ N). reflexivity.
Qed.
Definition nb : vec3 := V3 (2/3) (-1/3) (-2/3).
Lemma tnorm0 : tnorm (ttri 0 1 2) = nb.
Proof.
  rewrite ttri_norm by (cbn; tauto). rewrite tnor0. assert (E : norm (V3 2 (-1) (-2)) = 3) by (unfold norm; replace (dot (V3 2 (-1) (-2)) (V3 2 (-1) (-2))) with (3 * 3) by (spec_unfold; cbn; ring); apply sqrt_square; lra).
  rewrite E. unfold nb. apply vec3_ext; unfold vscale; cbn; lra.
Qed.
Lemma extent0 : extent nb tv (31/30).
Proof.
  exists (V3 0 0 0), (V3 (1/5) (19/10) (4/5)). split; [cbn; tauto|]. split; [cbn; tauto|]. split; [unfold nb; spec_unfold; cbn; lra|].
  intros x y X Y. unfold tv, nb in *. cbn [In] in X, Y. destruct X as [<-|[<-|[<-|[<-|[]]]]]; destruct Y as [<-|[<-|[<-|[<-|[]]]]]; spec_unfold; cbn; lra.
Qed.
(** the other faces are farther from the opposite corners *)
Lemma wide i j k p q w : In (i, j, k) [(0, 1, 2); (0, 2, 3); (0, 3, 1); (1, 3, 2)]%nat -> In p tv -> In q tv -> dot (tnor i j k) (vsub p q) = 31/10 -> dot (tnor i j k) (tnor i j k) < 9 ->
  extent (tnorm (ttri i j k)) tv w -> 31/30 < w.
Proof.
  intros I P Q D S (_ & _ & _ & _ & _ & M). specialize (M p q P Q). rewrite (ttri_norm i j k I) in M. set (N := tnor i j k) in *.
  replace (dot (vscale (1 / norm N) N) (vsub p q)) with (1 / norm N * dot N (vsub p q)) in M by (spec_unfold; ring). rewrite D in M. rewrite <- norm_sqr in S. pose proof (norm_nonneg N) as NN.
  assert (PN : 0 < norm N). { apply nonneg_norm_pos, tnn, I. } assert (N3 : norm N < 3) by nra. apply Rlt_le_trans with (2 := M).
  apply (Rmult_lt_reg_r (norm N)); [exact PN|]. replace (1 / norm N * (31 / 10) * norm N) with (31 / 10) by (field; lra). lra.
Qed.
Lemma thinnest0 t : In t (solid_tris tetra) -> thinnest (pverts tetra) (normals tetra) (tnorm t) -> t = ttri 0 1 2.
Proof.
  intros It TH. rewrite tetra_tris in It. cbn [In] in It. change (pverts tetra) with tv in TH.
  destruct (extent_ex (tnorm t) tv) as (w & X); [discriminate|]. assert (W : w <= 31/30).
  { apply (TH nb w (31/30)); [|exact X|exact extent0]. unfold normals. rewrite tetra_tris. cbn [map In]. left. exact tnorm0. }
  destruct It as [<-|[<-|[<-|[<-|[]]]]]; [reflexivity|exfalso|exfalso|exfalso].
  - pose proof (wide 0 2 3 (V3 0 0 0) (V3 1 2 0) w ltac:(cbn; tauto) ltac:(cbn; tauto) ltac:(cbn; tauto)) as H. rewrite tnor1 in H. specialize (H ltac:(spec_unfold; cbn; lra) ltac:(spec_unfold; cbn; lra) X). lra.
  - pose proof (wide 0 3 1 (V3 0 0 0) (V3 1 0 1) w ltac:(cbn; tauto) ltac:(cbn; tauto) ltac:(cbn; tauto)) as H. rewrite tnor2 in H. specialize (H ltac:(spec_unfold; cbn; lra) ltac:(spec_unfold; cbn; lra) X). lra.
  - pose proof (wide 1 3 2 (V3 1 2 0) (V3 0 0 0) w ltac:(cbn; tauto) ltac:(cbn; tauto) ltac:(cbn; tauto)) as H. rewrite tnor3 in H. specialize (H ltac:(spec_unfold; cbn; lra) ltac:(spec_unfold; cbn; lra) X). lra.
Qed.
Lemma tshadows : shadows (tv0 (ttri 0 1 2)) (tnorm (ttri 0 1 2)) (pverts tetra) = [V3 0 0 0; V3 1 2 0; V3 1 0 1; V3 (8/9) (14/9) (1/9)].
Proof.
  rewrite tnorm0. change (tv0 (ttri 0 1 2)) with (V3 0 0 0). unfold shadows, tetra, tv, across, nb. cbn [pverts map]. f_equal; [|f_equal; [|f_equal; [|f_equal]]]; apply vec3_ext; spec_unfold; cbn; lra.
Qed.
Definition sx : vec3 := vscale (1 / norm (V3 1 2 0)) (V3 1 2 0).
Definition sy : vec3 := vscale (1 / norm (V3 4 (-2) 5)) (V3 4 (-2) 5).
Definition sh : list vec3 := [V3 0 0 0; V3 1 2 0; V3 1 0 1; V3 (8/9) (14/9) (1/9)].
Lemma tbase : zConvexHull2DBase sh = Some (sx, sy).
Proof.
  assert (N0 : ~ negligible (V3 1 2 0)) by (apply big_not_negl; left; cbn; rewrite Rabs_R1; lra). assert (N1 : ~ negligible (V3 1 0 1)) by (apply big_not_negl; left; cbn; rewrite Rabs_R1; lra).
  assert (N2 : ~ negligible (V3 2 (-1) (-2))) by (apply big_not_negl; left; cbn; rewrite Rabs_pos_eq; lra). assert (N3 : ~ negligible (V3 4 (-2) 5)) by (apply big_not_negl; left; cbn; rewrite Rabs_pos_eq; lra).
  unfold zConvexHull2DBase, sh. cbn [ch2d_base1]. assert (E0 : zVec3DSub (V3 1 2 0) (V3 0 0 0) = V3 1 2 0) by (zvg; apply vec3_ext; spec_unfold; cbn; lra). rewrite E0, (proj2 (zVec3DIsTiny_false _) N0).
  cbn [ch2d_base2]. assert (E1 : zVec3DSub (V3 1 0 1) (V3 0 0 0) = V3 1 0 1) by (zvg; apply vec3_ext; spec_unfold; cbn; lra). rewrite E1.
  assert (E2 : zVec3DOuterProd (V3 1 2 0) (V3 1 0 1) = V3 2 (-1) (-2)) by (zvg; apply vec3_ext; spec_unfold; cbn; lra). rewrite E2, (proj2 (zVec3DIsTiny_false _) N1), (proj2 (zVec3DIsTiny_false _) N2). cbn [negb andb].
  assert (E3 : zVec3DOuterProd (V3 2 (-1) (-2)) (V3 1 2 0) = V3 4 (-2) 5) by (zvg; apply vec3_ext; spec_unfold; cbn; lra). rewrite E3, (normalizeDRC_ok _ N0), (normalizeDRC_ok _ N3). reflexivity.
Qed.
Lemma sh_cases (P : vec3 -> vec3 -> Prop) : (forall p, P p p) -> (forall p q, P p q -> P q p) -> P (V3 0 0 0) (V3 1 2 0) -> P (V3 0 0 0) (V3 1 0 1) -> P (V3 0 0 0) (V3 (8/9) (14/9) (1/9)) -> P (V3 1 2 0) (V3 1 0 1) ->
  P (V3 1 2 0) (V3 (8/9) (14/9) (1/9)) -> P (V3 1 0 1) (V3 (8/9) (14/9) (1/9)) -> forall p q, In p sh -> In q sh -> P p q.
Proof. intros R0 S0 A B C D E F p q Ip Iq. cbn in Ip, Iq. destruct Ip as [<-|[<-|[<-|[<-|[]]]]]; destruct Iq as [<-|[<-|[<-|[<-|[]]]]]; auto. Qed.
Lemma coord_dist p q : Rabs (vx p - vx q) <= dist p q /\ Rabs (vy p - vy q) <= dist p q /\ Rabs (vz p - vz q) <= dist p q.
Proof.
  unfold dist. pose proof (norm_nonneg (vsub p q)) as P. pose proof (norm_sqr (vsub p q)) as S. set (d := norm (vsub p q)) in *. unfold dot, vsub in S. cbn [vx vy vz] in S.
  set (a := vx p - vx q) in *. set (b := vy p - vy q) in *. set (c := vz p - vz q) in *. clearbody d a b c. repeat split; apply Rabs_le; split; nra.
Qed.
Lemma sh_clear : forall s0 s1, zConvexHull2DBase sh = Some (s0, s1) -> parted s0 s1 sh /\ spaced sh.
Proof.
  intros s0 s1 E. rewrite tbase in E. injection E as <- <-. pose proof zTOL_small as ZS. pose proof zTOL_pos as ZP.
  assert (N5 : 0 < norm (V3 1 2 0) < 3). { pose proof (norm_sqr (V3 1 2 0)) as Q. pose proof (norm_nonneg (V3 1 2 0)). unfold dot in Q. cbn in Q. nra. }
  assert (R3 : 1 / 3 < 1 / norm (V3 1 2 0)). { apply (Rmult_lt_reg_r (norm (V3 1 2 0))); [lra|]. replace (1 / norm (V3 1 2 0) * norm (V3 1 2 0)) with 1 by (field; lra). lra. }
  assert (DX : forall p, dot p sx = 1 / norm (V3 1 2 0) * (vx p + 2 * vy p)) by (intros p; unfold sx; generalize (1 / norm (V3 1 2 0)); intros; spec_unfold; cbn; ring).
  set (r := 1 / norm (V3 1 2 0)) in *. clearbody r.
  assert (VG : forall p q, In p sh -> In q sh -> vgap p q).
  { apply sh_cases; [left; reflexivity|intros p q [ -> |[H|[H|H]]]; [left; reflexivity|right; left|right; right; left|right; right; right]; rewrite Rabs_minus_sym; exact H| | | | | |]; right; cbn [vx vy vz]; first [left; unfold Rabs; destruct (Rcase_abs _); lra|right; left; unfold Rabs; destruct (Rcase_abs _); lra]. }
  assert (GX : forall p q, In p sh -> In q sh -> p = q \/ zTOL <= Rabs (dot p sx - dot q sx)).
  { apply sh_cases; [left; reflexivity|intros p q [ -> |H]; [left; reflexivity|right; rewrite Rabs_minus_sym; exact H]| | | | | |]; right; rewrite !DX; cbn [vx vy vz]; unfold Rabs; destruct (Rcase_abs _); lra. }
  split.
  - intros p q Ip Iq. split; [apply VG; assumption|]. destruct (GX p q Ip Iq) as [ -> |H]; [split; [left; reflexivity|intros _; left; reflexivity]|]. split; [right; exact H|]. intros E. rewrite E in H. replace (dot q sx - dot q sx) with 0 in H by ring. rewrite Rabs_R0 in H. lra.
  - unfold spaced. apply sh_cases; [left; reflexivity|intros p q [ -> |H]; [left; reflexivity|right; replace (dist q p) with (dist p q); [exact H|]]| | | | | |].
    { unfold dist, norm. f_equal. spec_unfold. ring. }
    all: right; match goal with |- _ <= dist ?p ?q => destruct (coord_dist p q) as (C1 & C2 & C3) end; cbn [vx vy vz] in *; unfold Rabs in C1, C2, C3; destruct (Rcase_abs _) in C1; destruct (Rcase_abs _) in C2; destruct (Rcase_abs _) in C3; lra.
Qed.
Lemma tetra_clear t : In t (solid_tris tetra) -> thinnest (pverts tetra) (normals tetra) (tnorm t) -> clear_shadows (tv0 t) (tnorm t) (pverts tetra).
Proof. intros It TH. rewrite (thinnest0 t It TH). unfold clear_shadows. rewrite tshadows. exact sh_clear. Qed.
(** a triangle covers at most half of a rectangle *)
Lemma half_rect w h x1 x2 y1 y2 : - w <= x1 <= w -> - w <= x2 <= w -> - w <= x1 - x2 <= w -> - h <= y1 <= h -> - h <= y2 <= h -> - h <= y1 - y2 <= h -> x1 * y2 - x2 * y1 <= w * h.
Proof.
  intros. destruct (Rle_or_lt 0 y1) as [A|A]; destruct (Rle_or_lt 0 y2) as [B|B].
  - destruct (Rle_or_lt y1 y2); [assert (x1 * (y2 - y1) + (x1 - x2) * y1 <= w * (y2 - y1) + w * y1) by nra; nra|assert ((x1 - x2) * y2 - x2 * (y1 - y2) <= w * y2 + w * (y1 - y2)) by nra; nra].
  - assert (x1 * y2 - x2 * y1 <= w * (y1 - y2)) by nra. nra.
  - assert (x1 * y2 - x2 * y1 <= w * (y2 - y1)) by nra. nra.
  - destruct (Rle_or_lt y1 y2); [assert ((x1 - x2) * y2 - x2 * (y1 - y2) <= w * - y2 + w * (y2 - y1)) by nra; nra|assert (x1 * (y2 - y1) + (x1 - x2) * y1 <= w * (y1 - y2) + w * - y1) by nra; nra].
Qed.
Lemma extent_abs d l w p q : extent d l w -> In p l -> In q l -> - w <= dot d p - dot d q <= w.
Proof. intros (_ & _ & _ & _ & _ & M) P Q. pose proof (M p q P Q). pose proof (M q p Q P). rewrite !dsub in *. lra. Qed.
Lemma obb_not_least sort hull data : sorts sort -> hull data = Some tetra ->
  exists b b', zVec3DDataOBB sort hull data = Some (Some b) /\ good_box b' /\ (forall x, convex_hull (pverts tetra) x -> in_obb b' x) /\
    vx (bspan b') * vy (bspan b') * vz (bspan b') = 2 /\ 3 <= vx (bspan b) * vy (bspan b) * vz (bspan b).
Proof.
  intros ST EH. destruct (obb_right sort hull data tetra ST EH tetra_sound) as (t & It & TH & C); [discriminate|exact tetra_beneath|exact tetra_clear|].
  pose proof (thinnest0 t It TH) as ->. destruct C as [(C & _)|(b & E & G & A2 & CR & CO & X0 & X1 & X2 & _)]; [rewrite tshadows in C; change (zConvexHull2DBase sh = None) in C; rewrite tbase in C; discriminate|].
  rewrite tnorm0 in A2. exists b, (BX (F3 (V3 (1/2) 1 (1/2)) mid) (V3 1 2 1)). split; [exact E|]. change (pverts tetra) with tv in *.
  split; [|split; [|split]].
  - split; [unfold isometry; cbn [fatt bframe]; mring|]. cbn. lra.
  - intros x X. apply (obb_convex _ tv x); [|exact X]. intros v Iv. exists (vsub v (V3 (1/2) 1 (1/2))). cbn [bspan bframe vx vy vz].
    assert (Q : 0 <= vx v <= 1 /\ 0 <= vy v <= 2 /\ 0 <= vz v <= 1) by (unfold tv in Iv; cbn [In] in Iv; destruct Iv as [<-|[<-|[<-|[<-|[]]]]]; cbn; lra).
    unfold vsub; cbn [vx vy vz]. split; [apply Rabs_le; lra|]. split; [apply Rabs_le; lra|]. split; [apply Rabs_le; lra|]. unfold act. cbn [fatt fpos]. apply vec3_ext; spec_unfold; cbn; lra.
  - cbn. lra.
  - rewrite A2 in X2. pose proof (extent_unique _ _ _ _ X2 extent0) as EZ. rewrite EZ. set (X := zBox3DAxis b 0) in *. set (Y := zBox3DAxis b 1) in *.
    pose proof (extent_abs _ _ _ (V3 1 2 0) (V3 0 0 0) X0 ltac:(cbn; tauto) ltac:(cbn; tauto)) as P1. pose proof (extent_abs _ _ _ (V3 1 0 1) (V3 0 0 0) X0 ltac:(cbn; tauto) ltac:(cbn; tauto)) as P2. pose proof (extent_abs _ _ _ (V3 1 2 0) (V3 1 0 1) X0 ltac:(cbn; tauto) ltac:(cbn; tauto)) as P3.
    pose proof (extent_abs _ _ _ (V3 1 2 0) (V3 0 0 0) X1 ltac:(cbn; tauto) ltac:(cbn; tauto)) as Q1. pose proof (extent_abs _ _ _ (V3 1 0 1) (V3 0 0 0) X1 ltac:(cbn; tauto) ltac:(cbn; tauto)) as Q2. pose proof (extent_abs _ _ _ (V3 1 2 0) (V3 1 0 1) X1 ltac:(cbn; tauto) ltac:(cbn; tauto)) as Q3.
    assert (Z : forall d, dot d (V3 0 0 0) = 0) by (intros; spec_unfold; cbn; ring). rewrite !Z in *.
    pose proof (half_rect (vx (bspan b)) (vy (bspan b)) (dot X (V3 1 2 0)) (dot X (V3 1 0 1)) (dot Y (V3 1 2 0)) (dot Y (V3 1 0 1)) ltac:(lra) ltac:(lra) ltac:(lra) ltac:(lra) ltac:(lra) ltac:(lra)) as HR.
    assert (LG : dot X (V3 1 2 0) * dot Y (V3 1 0 1) - dot X (V3 1 0 1) * dot Y (V3 1 2 0) = dot (cross X Y) (cross (V3 1 2 0) (V3 1 0 1))) by (spec_unfold; cbn; ring).
    rewrite LG, CR, A2 in HR. assert (DV : dot nb (cross (V3 1 2 0) (V3 1 0 1)) = 3) by (unfold nb; spec_unfold; cbn; lra). rewrite DV in HR. lra.
Qed.
