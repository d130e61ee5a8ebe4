(** The oriented bounding box of points by way of their convex hull. *)
From Verif Require Import Base Spec SpecGeom SpecHull SpecMesh SpecBox SpecBBox ModelVec ModelElem ModelFrame ModelBox ModelPH ModelHull ModelBBox FactsVec FactsAlg FactsElem FactsHull2 FactsHull4 FactsPH2 FactsPH4 FactsBBox FactsBBox2 FactsBBox3 FactsBBox4.
From Verif Require FactsTri2.
From Verif Require Export FactsQH8.
From Coq Require Import Lra Lia List Arith Bool.
Import ListNotations.
Open Scope R_scope.

(** no three points nearly on a line *)
Definition wide_triples (l : list vec3) : Prop :=
  forall a b c, List.In a l -> List.In b l -> List.In c l -> a <> b -> b <> c -> c <> a -> ~ negligible (tri_normal a b c).
(** the hull routine, the null pointer for undefined behaviour, which C76_hull excludes *)
Definition quickhull sort (fuel : nat) (data : list vec3) : option ph3 := match zVec3DDataConvexHull sort fuel data with Some r => r | None => None end.

Lemma parallel_unit n v : norm n = 1 -> v <> v3zero -> cross n v = v3zero -> 0 < dot n v -> n = vscale (1 / norm v) v.
Proof.
  intros U Z C P. assert (NV : 0 < norm v) by (destruct (norm_nonneg v) as [K|K]; [exact K|exfalso; apply Z, norm_zero_iff; auto]).
  assert (E : v = vscale (dot n v) n). { assert (UU : dot n n = 1) by (rewrite <- norm_sqr, U; ring). assert (K : vsub (vscale (dot n n) v) (vscale (dot n v) n) = vscale (-1) (cross n (cross n v))) by (clear; vring). rewrite C, UU in K.
    assert (K2 : vsub (vscale 1 v) (vscale (dot n v) n) = v3zero) by (rewrite K; vring). clear - K2. destruct v as [x y z] eqn:EV. revert K2. generalize (dot n (V3 x y z)). intros k K2. unfold vsub, vscale, v3zero in *. cbn [vx vy vz] in *. injection K2 as A B C. f_equal; lra. }
  assert (EN : norm v = dot n v). { rewrite E at 1. rewrite FactsSvd.norm_scale, U, Rabs_pos_eq by lra. ring. }
  rewrite EN. transitivity (vscale (1 / dot n v) (vscale (dot n v) n)); [|f_equal; symmetry; exact E]. rewrite scale_scale. replace (1 / dot n v * dot n v) with 1 by (field; lra). vring.
Qed.
Lemma perp_two n e f : dot n e = 0 -> dot n f = 0 -> cross n (cross e f) = v3zero.
Proof. intros E F. replace (cross n (cross e f)) with (vsub (vscale (dot n f) e) (vscale (dot n e) f)) by (clear; vring). rewrite E, F. vring. Qed.
Lemma hull_sound data ch : hull_surface data (pverts ch) (norm_faces ch) -> wide_triples data -> sound_ph ch /\ beneath ch.
Proof.
  intros (ND & IN & IB & PR & _ & _ & FO & CV & HS) WT.
  assert (FF : forall f, List.In f (pfaces ch) -> (fi0 f < length (pverts ch))%nat /\ (fi1 f < length (pverts ch))%nat /\ (fi2 f < length (pverts ch))%nat /\ outward_face data (pverts ch) (fi0 f) (fi1 f) (fi2 f) (fnrm f) /\ ~ negligible (tri_normal (vpos (pverts ch) (fi0 f)) (vpos (pverts ch) (fi1 f)) (vpos (pverts ch) (fi2 f)))).
  { intros f F. assert (T : List.In (fi0 f, fi1 f, fi2 f, fnrm f) (norm_faces ch)) by (unfold norm_faces; apply in_map_iff; exists f; auto). assert (T' : List.In (fi0 f, fi1 f, fi2 f) (map fst (norm_faces ch))) by (apply in_map_iff; eexists; split; [|exact T]; reflexivity).
    unfold indices_below in IB. unfold proper_faces in PR. rewrite Forall_forall in IB, PR. destruct (IB _ T') as (I0 & I1 & I2). destruct (PR _ T') as (P0 & P1 & P2). split; [exact I0|]. split; [exact I1|]. split; [exact I2|]. split; [apply FO; exact T|].
    assert (VI : forall i, (i < length (pverts ch))%nat -> List.In (vpos (pverts ch) i) data) by (intros i I; apply IN, nth_In; exact I). assert (VD : forall i j, (i < length (pverts ch))%nat -> (j < length (pverts ch))%nat -> i <> j -> vpos (pverts ch) i <> vpos (pverts ch) j) by (intros i j I J NE Q; apply NE; apply (proj1 (NoDup_nth (pverts ch) v3zero) ND i j I J Q)).
    apply WT; auto. }
  assert (NF : map fst (norm_faces ch) = ph_faces ch) by (unfold norm_faces, ph_faces; rewrite map_map; reflexivity).
  split; [split; [unfold valid_ph; rewrite <- NF; exact IB|split]|].
  - apply Forall_forall. intros f F. destruct (FF f F) as (_ & _ & _ & (U & D1 & D2 & P & _) & NN). set (a := vpos (pverts ch) (fi0 f)) in *. set (b := vpos (pverts ch) (fi1 f)) in *. set (c := vpos (pverts ch) (fi2 f)) in *.
    assert (E : zTri3DCreate a b c = (true, T3 a b c (snd (zVec3DNormalizeDRC (tri_normal a b c))))).
    { unfold zTri3DCreate, triOuterProd. change (zVec3DOuterProd (zVec3DSub b a) (zVec3DSub c b)) with (cross (vsub b a) (vsub c b)). rewrite FactsTri2.tri_normal_alt. destruct (zVec3DIsTiny (tri_normal a b c)) eqn:T; [apply zVec3DIsTiny_true in T; contradiction|]. reflexivity. }
    rewrite E. cbn [snd tnorm]. unfold zVec3DNormalizeDRC, zVec3DNormalize. destruct (zVec3DIsTiny (tri_normal a b c)) eqn:T; [exfalso; apply NN; apply zVec3DIsTiny_true; exact T|]. cbn [snd]. change (fnrm f = vscale (1 / norm (tri_normal a b c)) (tri_normal a b c)). apply parallel_unit; [exact U| |apply perp_two; assumption|exact P].
    intros Z. apply NN. rewrite Z. unfold negligible, v3zero. cbn [vx vy vz]. rewrite Rabs_R0. pose proof zTOL_pos. auto.
  - apply Forall_forall. intros f F. apply (FF f F).
  - intros v t V T. apply in_map_iff in T. destruct T as (f & <- & F). pose proof (proj1 (HS v) (hull_point _ v V)) as K.
    assert (T : List.In (fi0 f, fi1 f, fi2 f, fnrm f) (norm_faces ch)) by (unfold norm_faces; apply in_map_iff; exists f; auto). specialize (K _ _ _ _ T).
    destruct (FF f F) as (_ & _ & _ & (U & D1 & D2 & P & _) & NN). unfold height, tri_at. cbn [tnorm tv0 tv1 tv2]. set (a := vpos (pverts ch) (fi0 f)) in *. set (b := vpos (pverts ch) (fi1 f)) in *. set (c := vpos (pverts ch) (fi2 f)) in *. fold (tri_normal a b c) in P.
    assert (NZ : tri_normal a b c <> v3zero). { intros Z. apply NN. rewrite Z. unfold negligible, v3zero. cbn [vx vy vz]. rewrite Rabs_R0. pose proof zTOL_pos. auto. }
    assert (EQ : fnrm f = vscale (1 / norm (tri_normal a b c)) (tri_normal a b c)) by (apply parallel_unit; [exact U|exact NZ|apply perp_two; assumption|exact P]).
    assert (NV : 0 < norm (tri_normal a b c)) by (destruct (norm_nonneg (tri_normal a b c)) as [Q|Q]; [exact Q|exfalso; apply NZ, norm_zero_iff; auto]). rewrite EQ in K.
    replace (dot (vscale (1 / norm (tri_normal a b c)) (tri_normal a b c)) (vsub v a)) with (/ norm (tri_normal a b c) * dot (vsub v a) (tri_normal a b c)) in K by (unfold Rdiv; generalize (/ norm (tri_normal a b c)) (tri_normal a b c); clear; intros; spec_unfold; ring).
    assert (IP : 0 < / norm (tri_normal a b c)) by (apply Rinv_0_lt_compat; exact NV). clear - K IP. nra.
Qed.
Lemma extent_data d vs data w : (forall v, List.In v vs -> List.In v data) -> (forall x, List.In x data -> convex_hull vs x) -> extent d vs w -> extent d data w.
Proof.
  intros IN CV (p & q & P & Q & -> & M). exists p, q. split; [auto|]. split; [auto|]. split; [reflexivity|]. intros x y X Y.
  assert (K1 : forall y, List.In y vs -> dot d (vsub x y) <= dot d (vsub p q)). { intros z Z. apply (hull_le d z (dot d (vsub p q)) vs); [|apply CV; exact X]. intros v V. apply M; assumption. }
  assert (K2 : dot (vscale (-1) d) (vsub y x) <= dot d (vsub p q)). { apply (hull_le (vscale (-1) d) x (dot d (vsub p q)) vs); [|apply CV; exact Y]. intros v V. specialize (K1 v V). replace (dot (vscale (-1) d) (vsub v x)) with (dot d (vsub x v)) by (clear; spec_unfold; ring). exact K1. }
  replace (dot d (vsub x y)) with (dot (vscale (-1) d) (vsub y x)) by (clear; spec_unfold; ring). exact K2.
Qed.
Lemma extent_verts d vs data w : (forall v, List.In v vs -> List.In v data) -> (forall x, List.In x data -> convex_hull vs x) -> vs <> [] -> extent d data w -> extent d vs w.
Proof.
  intros IN CV NE E. assert (K : exists w', extent d vs w').
  { destruct vs as [|v vs]; [congruence|]. clear - vs. assert (MX : exists p, List.In p (v :: vs) /\ forall x, List.In x (v :: vs) -> dot d x <= dot d p).
    { induction vs as [|u vs (p & P & K)]; [exists v; split; [left; reflexivity|intros x [<-|[]]; lra]|]. destruct (Rle_dec (dot d u) (dot d p)) as [L|L].
      - exists p. split; [destruct P; cbn; auto|]. intros x [<-|[<-|X]]; [apply K; left; reflexivity|exact L|apply K; right; exact X].
      - exists u. split; [cbn; auto|]. intros x [<-|[<-|X]]; [|lra|]; (eapply Rle_trans; [apply K|lra]); cbn; auto. }
    assert (MN : exists p, List.In p (v :: vs) /\ forall x, List.In x (v :: vs) -> dot d p <= dot d x).
    { clear MX. induction vs as [|u vs (p & P & K)]; [exists v; split; [left; reflexivity|intros x [<-|[]]; lra]|]. destruct (Rle_dec (dot d p) (dot d u)) as [L|L].
      - exists p. split; [destruct P; cbn; auto|]. intros x [<-|[<-|X]]; [apply K; left; reflexivity|exact L|apply K; right; exact X].
      - exists u. split; [cbn; auto|]. intros x [<-|[<-|X]]; [|lra|]; (eapply Rle_trans; [|apply K]; [lra|]); cbn; auto. }
    destruct MX as (p & P & KP), MN as (q & Q & KQ). exists (dot d (vsub p q)), p, q. split; [exact P|]. split; [exact Q|]. split; [reflexivity|]. intros x y X Y. specialize (KP x X). specialize (KQ y Y).
    assert (DS : forall a b, dot d (vsub a b) = dot d a - dot d b) by (clear; intros; spec_unfold; ring). rewrite !DS. lra. }
  destruct K as (w' & K). pose proof (extent_data d vs data w' IN CV K) as K2. assert (w = w'); [|subst; exact K].
  destruct E as (p & q & P & Q & -> & M), K2 as (p' & q' & P' & Q' & -> & M'). apply Rle_antisym; auto.
Qed.
(** the box about the points *)
Lemma obb_data sort fuel data ch : sorts sort -> general_position data -> (4 <= length data)%nat -> (length data <= fuel)%nat -> wide_triples data -> quickhull sort fuel data = Some ch ->
  (forall t, List.In t (solid_tris ch) -> thinnest (pverts ch) (normals ch) (tnorm t) -> clear_shadows (tv0 t) (tnorm t) (pverts ch)) ->
  exists t, List.In t (solid_tris ch) /\ thinnest data (normals ch) (tnorm t) /\
  ((zConvexHull2DBase (shadows (tv0 t) (tnorm t) (pverts ch)) = None /\ zVec3DDataOBB sort (quickhull sort fuel) data = Some None) \/
  exists b, zVec3DDataOBB sort (quickhull sort fuel) data = Some (Some b) /\ good_box b /\ zBox3DAxis b 2 = tnorm t /\
    (forall x, List.In x data -> in_obb b x) /\
    extent (zBox3DAxis b 0) data (vx (bspan b)) /\ extent (zBox3DAxis b 1) data (vy (bspan b)) /\ extent (zBox3DAxis b 2) data (vz (bspan b)) /\
    (forall e we wf, dot e e = 1 -> dot (zBox3DAxis b 2) e = 0 -> extent e data we -> extent (cross (zBox3DAxis b 2) e) data wf -> vx (bspan b) * vy (bspan b) <= we * wf)).
Proof.
  intros S G N F WT E CS. destruct (quickhull_correct sort fuel data G N F) as (ch' & E' & HS). unfold quickhull in E. rewrite E' in E. injection E as ->. destruct (hull_sound data ch HS WT) as (SP & BN).
  assert (FN : pfaces ch <> []). { pose proof HS as (_ & _ & _ & _ & _ & US & _ & CV & _). intros Z. assert (exists x, List.In x data) as (x & X) by (destruct data as [|x r]; [cbn in N; lia|exists x; left; reflexivity]). assert (V : pverts ch <> []) by (intros Q; pose proof (CV x X) as C; rewrite Q in C; clear - C; induction C; auto). destruct (pverts ch) as [|v r] eqn:PV; [congruence|]. destruct (US 0%nat ltac:(cbn; lia)) as (a & b & c & T & _). unfold norm_faces in T. rewrite Z in T. destruct T. }
  assert (Q : quickhull sort fuel data = Some ch) by (unfold quickhull; rewrite E'; reflexivity).
  destruct HS as (_ & IN & _ & _ & _ & _ & _ & CV & _). assert (VN : pverts ch <> []). { destruct data as [|x r]; [cbn in N; lia|]. intros V. pose proof (CV x (or_introl eq_refl)) as C. rewrite V in C. clear - C. induction C; auto. }
  destruct (obb_right sort (quickhull sort fuel) data ch S Q SP FN BN CS) as (t & T & TH & R). exists t. split; [exact T|].
  assert (ED : forall d w, extent d (pverts ch) w -> extent d data w) by (intros; eapply extent_data; eauto). assert (EV : forall d w, extent d data w -> extent d (pverts ch) w) by (intros; eapply extent_verts; eauto).
  split; [intros d' w w' D W W'; apply (TH d' w w' D); auto|]. destruct R as [R|(b & B1 & B2 & B3 & _ & B5 & B6 & B7 & B8 & B9 & _)]; [left; exact R|]. right. exists b. split; [exact B1|]. split; [exact B2|]. split; [exact B3|]. split; [auto|]. split; [auto|]. split; [auto|]. split; [auto|]. intros e we wf E1 E2 E3 E4. apply (B9 e we wf E1 E2); auto.
Qed.
