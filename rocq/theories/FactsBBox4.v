(** The oriented bounding box: closed forms *)
From Verif Require Import Base Spec SpecGeom SpecHull SpecMesh SpecBBox ModelVec ModelElem ModelFrame ModelBox ModelPH ModelHull ModelBBox FactsVec FactsAlg FactsElem FactsSat FactsHull FactsHull2 FactsHull3 FactsHull4 FactsHull5 FactsHull6 FactsHull7 FactsHull8 FactsLine FactsCentre FactsPH2 FactsPH4 FactsObb FactsBBox FactsBBox2 FactsBBox3.
From Coq Require Import List Lia Lra ZArith.
Import ListNotations.
Open Scope R_scope.

Lemma obb_convex b L x : (forall v, List.In v L -> in_obb b v) -> convex_hull L x -> in_obb b x.
Proof.
  intros H C. induction C as [p I|p q x _ (u & U1 & U2 & U3 & ->) _ (v & V1 & V2 & V3 & ->) (s & t & (W & W1 & W2) & ->)]; [apply H, I|].
  exists (vadd (vscale s u) (vscale t v)). apply abs_le_inv in U1, U2, U3, V1, V2, V3. unfold vadd, vscale. cbn [vx vy vz].
  split; [apply Rabs_le; nra|]. split; [apply Rabs_le; nra|]. split; [apply Rabs_le; nra|]. unfold comb2, act.
  replace s with (1 - t) by lra. vring.
Qed.
Lemma face_facts ch t : sound_ph ch -> beneath ch -> List.In t (solid_tris ch) ->
  dot (tnorm t) (tnorm t) = 1 /\ List.In (tv0 t) (pverts ch) /\ extent (tnorm t) (pverts ch) (obb_depth t (pverts ch)) /\ 0 <= obb_depth t (pverts ch) /\
  forall v, List.In v (pverts ch) -> - obb_depth t (pverts ch) <= dot (tnorm t) (vsub v (tv0 t)) <= 0.
Proof.
  intros SD BE I. destruct (sound_tris ch SD) as (_ & CR). rewrite Forall_forall in CR. pose proof (CR t I) as C. destruct SD as (V & _ & N).
  unfold solid_tris in I. pose proof I as I'. apply in_map_iff in I'. destruct I' as (f & E & If). rewrite Forall_forall in N. pose proof (N f If) as NG.
  assert (T0 : tv0 t = vpos (pverts ch) (fi0 f) /\ tv1 t = vpos (pverts ch) (fi1 f) /\ tv2 t = vpos (pverts ch) (fi2 f)) by (rewrite <- E; auto). destruct T0 as (T0 & T1 & T2).
  rewrite <- T0, <- T1, <- T2 in NG. destruct (created_unit t C NG) as (U & D & (k & Kp & Hk)).
  assert (I0 : List.In (tv0 t) (pverts ch)).
  { rewrite T0. unfold valid_ph, indices_below in V. rewrite Forall_forall in V. specialize (V (fi0 f, fi1 f, fi2 f)). unfold vpos. apply nth_In. apply V. unfold ph_faces. apply in_map_iff. exists f. auto. }
  split; [exact U|]. split; [exact I0|]. apply depth_ok; [exact D|exact I0|]. intros v Iv. pose proof (BE v t Iv I) as B. rewrite Hk in B. nra.
Qed.
Lemma obb_right sort hull data ch : sorts sort -> hull data = Some ch -> sound_ph ch -> pfaces ch <> [] -> beneath ch ->
  (forall t, List.In t (solid_tris ch) -> thinnest (pverts ch) (normals ch) (tnorm t) -> clear_shadows (tv0 t) (tnorm t) (pverts ch)) ->
  exists t, List.In t (solid_tris ch) /\ thinnest (pverts ch) (normals ch) (tnorm t) /\
  ((zConvexHull2DBase (shadows (tv0 t) (tnorm t) (pverts ch)) = None /\ zVec3DDataOBB sort hull data = Some None) \/
  exists b, zVec3DDataOBB sort hull data = Some (Some b) /\ good_box b /\ zBox3DAxis b 2 = tnorm t /\ cross (zBox3DAxis b 0) (zBox3DAxis b 1) = zBox3DAxis b 2 /\
    (forall x, convex_hull (pverts ch) x -> in_obb b x) /\
    extent (zBox3DAxis b 0) (pverts ch) (vx (bspan b)) /\ extent (zBox3DAxis b 1) (pverts ch) (vy (bspan b)) /\ extent (zBox3DAxis b 2) (pverts ch) (vz (bspan b)) /\
    (forall e we wf, dot e e = 1 -> dot (zBox3DAxis b 2) e = 0 -> extent e (pverts ch) we -> extent (cross (zBox3DAxis b 2) e) (pverts ch) wf -> vx (bspan b) * vy (bspan b) <= we * wf) /\
    (exists p q k, List.In p (pverts ch) /\ List.In q (pverts ch) /\ 0 < k /\ across (zBox3DAxis b 2) (vsub q p) = vscale k (zBox3DAxis b 0) /\
       ((forall x, List.In x (pverts ch) -> 0 <= dot (zBox3DAxis b 1) (vsub x p)) \/ (forall x, List.In x (pverts ch) -> dot (zBox3DAxis b 1) (vsub x p) <= 0)))).
Proof.
  intros ST EH SD NF BE CS. destruct (sound_tris ch SD) as (ET & _).
  assert (NT : solid_tris ch <> []) by (unfold solid_tris; destruct (pfaces ch); [contradiction|discriminate]).
  destruct (bot_ok (solid_tris ch) (pverts ch) NT) as (t & EB & IT & MT). destruct (face_facts ch t SD BE IT) as (U & I0 & XT & Dp & Bt).
  assert (TH : thinnest (pverts ch) (normals ch) (tnorm t)).
  { intros d' w w' Id Xw Xw'. unfold normals in Id. apply in_map_iff in Id. destruct Id as (t' & <- & It'). destruct (face_facts ch t' SD BE It') as (_ & _ & XT' & _).
    rewrite (extent_unique _ _ _ _ Xw XT), (extent_unique _ _ _ _ Xw' XT'). apply MT, It'. }
  exists t. split; [exact IT|]. split; [exact TH|]. unfold zVec3DDataOBB, zOBB3DMinDir. rewrite EH, ET, EB.
  set (h := obb_depth t (pverts ch)) in *. set (c := zVec3DCat (tv0 t) (- (1 / 2) * h) (tnorm t)).
  assert (EPL : zPlane3DCreate c (tnorm t) = Some (P3 c (tnorm t))).
  { unfold zPlane3DCreate. rewrite (unit_not_tiny _ U). f_equal. f_equal. assert (NN : norm (tnorm t) = 1) by (unfold norm; rewrite U; apply sqrt_1).
    pose proof (proj1 (zVec3DIsTiny_false (tnorm t)) (unit_not_tiny _ U)) as NG. destruct (normalize3_ok (tnorm t) v3zero NG) as (u & E & Hu & Hs). rewrite E. cbn [snd]. rewrite NN in *. transitivity (vscale 1 u); [vring|]. tauto. }
  rewrite EPL. destruct (max_dir sort ch h (tnorm t) (tv0 t) c (P3 c (tnorm t)) ST U) as [(A & B)|(b & E & G & A2 & Sz & CR & CO & X0 & X1 & LE & FL)]; try assumption.
  - unfold c. zvg. vring.
  - reflexivity.
  - apply CS; assumption.
  - left. split; assumption.
  - right. exists b. split; [exact E|]. split; [exact G|]. split; [exact A2|]. rewrite A2. split; [exact CR|]. split; [intros x X; apply (obb_convex b (pverts ch) x CO X)|]. split; [exact X0|]. split; [exact X1|]. split; [rewrite Sz; exact XT|]. split; [exact LE|exact FL].
Qed.
(** extents are at most the sides of a box about the points *)
Lemma box_extent b l i w : good_box b -> (i < 3)%nat -> (forall v, List.In v l -> in_obb b v) -> extent (zBox3DAxis b i) l w ->
  w <= match i with 0%nat => vx (bspan b) | 1%nat => vy (bspan b) | _ => vz (bspan b) end.
Proof.
  intros (ISO & _) Hi H (p & q & Ip & Iq & E & _). destruct (H p Ip) as (u & U1 & U2 & U3 & ->). destruct (H q Iq) as (v & V1 & V2 & V3 & ->).
  apply abs_le_inv in U1, U2, U3, V1, V2, V3. destruct (iso_axes _ ISO) as (A & B & C & D & F & G).
  assert (X : forall d, dot d (vsub (act (bframe b) u) (act (bframe b) v)) = (vx u - vx v) * dot d (col0 (fatt (bframe b))) + (vy u - vy v) * dot d (col1 (fatt (bframe b))) + (vz u - vz v) * dot d (col2 (fatt (bframe b)))).
  { intros d. unfold act. rewrite !mvec_cols. generalize (col0 (fatt (bframe b))), (col1 (fatt (bframe b))), (col2 (fatt (bframe b))). intros. spec_unfold. ring. }
  rewrite E, X. destruct i as [|[|[|i]]]; [| | |lia]; cbn [zBox3DAxis].
  - rewrite A, D, (dot_comm (col0 _) (col2 _)), G. lra.
  - rewrite B, F, (dot_comm (col1 _) (col0 _)), D. lra.
  - rewrite C, G, (dot_comm (col2 _) (col1 _)), F. lra.
Qed.
Lemma obb_least b l : (forall e we wf, dot e e = 1 -> dot (zBox3DAxis b 2) e = 0 -> extent e l we -> extent (cross (zBox3DAxis b 2) e) l wf -> vx (bspan b) * vy (bspan b) <= we * wf) ->
  good_box b -> extent (zBox3DAxis b 2) l (vz (bspan b)) -> l <> [] ->
  forall b', good_box b' -> zBox3DAxis b' 2 = zBox3DAxis b 2 -> (forall v, List.In v l -> in_obb b' v) ->
  vz (bspan b) <= vz (bspan b') /\ vx (bspan b) * vy (bspan b) <= vx (bspan b') * vy (bspan b') /\
  vx (bspan b) * vy (bspan b) * vz (bspan b) <= vx (bspan b') * vy (bspan b') * vz (bspan b').
Proof.
  intros LE GB XZ NL b' GB' AX CO. assert (HZ : vz (bspan b) <= vz (bspan b')) by (apply (box_extent b' l 2 _ GB' ltac:(lia) CO); rewrite AX; exact XZ).
  assert (HA : vx (bspan b) * vy (bspan b) <= vx (bspan b') * vy (bspan b')).
  { destruct (extent_ex (zBox3DAxis b' 0) l NL) as (we & Xe). destruct (extent_ex (zBox3DAxis b' 1) l NL) as (w1 & X1).
    pose proof (box_extent b' l 0 _ GB' ltac:(lia) CO Xe) as B0. pose proof (box_extent b' l 1 _ GB' ltac:(lia) CO X1) as B1. cbv iota in B0, B1.
    destruct GB' as (ISO & _). destruct (iso_axes _ ISO) as (A & B & C & D & F & G). cbn [zBox3DAxis] in Xe, X1, AX.
    set (e := col0 (fatt (bframe b'))) in *. set (f := col1 (fatt (bframe b'))) in *. set (n := col2 (fatt (bframe b'))) in *. change (zBox3DAxis b 2) with (col2 (fatt (bframe b))) in LE. rewrite <- AX in LE.
    assert (NF : cross n e = vscale (dot (cross n e) f) f).
    { set (g := cross n e). assert (O1 : dot g e = 0) by (unfold g; spec_unfold; ring). assert (O2 : dot g n = 0) by (unfold g; spec_unfold; ring).
      destruct (cross_plane f e n) as (k & K); [rewrite dot_comm; exact D|exact F|intros Z; rewrite Z in B; unfold v3zero in B; spec_unfold; cbn in B; lra|].
      assert (GK : g = vscale (- k) f) by (unfold g; transitivity (vscale (-1) (cross e n)); [vring|rewrite K; vring]). rewrite GK. replace (dot (vscale (- k) f) f) with (- k * dot f f) by (spec_unfold; ring). rewrite B. f_equal. ring. }
    assert (K1 : Rabs (dot (cross n e) f) = 1).
    { set (k := dot (cross n e) f) in *. assert (KK : k * k = 1). { transitivity (dot (vscale k f) (vscale k f)); [replace (dot (vscale k f) (vscale k f)) with (k * k * dot f f) by (spec_unfold; ring); rewrite B; ring|]. rewrite <- NF. replace (dot (cross n e) (cross n e)) with (dot n n * dot e e - dot n e * dot n e) by (spec_unfold; ring). rewrite C, A, G. ring. }
      unfold Rabs. destruct (Rcase_abs k); nra. }
    assert (Xf : extent (cross n e) l w1) by (rewrite NF; replace w1 with (Rabs (dot (cross n e) f) * w1) by (rewrite K1; ring); apply extent_scale, X1).
    specialize (LE e we w1 A ltac:(exact G) Xe Xf). pose proof (extent_nonneg _ _ _ Xe). pose proof (extent_nonneg _ _ _ X1). nra. }
  split; [exact HZ|]. split; [exact HA|]. destruct GB as (_ & G1 & G2 & G3). assert (0 <= vx (bspan b) * vy (bspan b)) by (apply Rmult_le_pos; assumption). nra.
Qed.
Lemma obb_least_box sort hull data ch b : sorts sort -> hull data = Some ch -> sound_ph ch -> pfaces ch <> [] -> beneath ch ->
  (forall t, List.In t (solid_tris ch) -> thinnest (pverts ch) (normals ch) (tnorm t) -> clear_shadows (tv0 t) (tnorm t) (pverts ch)) ->
  zVec3DDataOBB sort hull data = Some (Some b) ->
  forall b', good_box b' -> zBox3DAxis b' 2 = zBox3DAxis b 2 -> (forall v, List.In v (pverts ch) -> in_obb b' v) ->
  vz (bspan b) <= vz (bspan b') /\ vx (bspan b) * vy (bspan b) <= vx (bspan b') * vy (bspan b') /\
  vx (bspan b) * vy (bspan b) * vz (bspan b) <= vx (bspan b') * vy (bspan b') * vz (bspan b').
Proof.
  intros ST EH SD NF BE CS E. destruct (obb_right sort hull data ch ST EH SD NF BE CS) as (t & IT & _ & [(_ & E')|(b0 & E' & G & _ & _ & _ & _ & _ & X2 & LE & _)]); rewrite E in E'; [discriminate|]. injection E' as <-.
  apply obb_least; [exact LE|exact G|exact X2|]. destruct (face_facts ch t SD BE IT) as (_ & I0 & _). intros Z. rewrite Z in I0. exact I0.
Qed.
Lemma obb_null sort hull data : (hull data = None -> zVec3DDataOBB sort hull data = Some None) /\
  (forall ch, hull data = Some ch -> pfaces ch = [] -> zVec3DDataOBB sort hull data = None).
Proof.
  split; [intros E; unfold zVec3DDataOBB; rewrite E; reflexivity|]. intros ch E F. unfold zVec3DDataOBB, zOBB3DMinDir, zPH3DTris. rewrite E, F. reflexivity.
Qed.
