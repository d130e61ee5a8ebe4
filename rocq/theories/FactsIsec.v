(** Intersection of convex polyhedra through the dual space. *)
From Verif Require Export ModelIsec SpecIsec FactsQH7.
From Verif Require FactsSvd FactsPH2 FactsBrep11.
From Coq Require Import Lra Lia List Bool.
Import ListNotations.
Open Scope R_scope.

Lemma dual_core p e hs P Q : 0 < e -> (forall n a, List.In (n, a) hs -> norm n = 1) -> (forall n a, List.In (n, a) P -> norm n = 1) -> (forall n a, List.In (n, a) Q -> norm n = 1) ->
  (forall w, convex_hull (duals p e hs) w <-> common P w) -> (forall x, convex_hull (backs p P) x <-> common Q x) ->
  (forall x, widened p e hs x -> dist x p <= / e) ->
  (forall n a, List.In (n, a) P -> e <= dot n a) /\ forall x, convex_hull (backs p P) x <-> widened p e hs x.
Proof.
  intros E U1 UP UQ HP HQ B.
  assert (MX : forall h, e <= Rmax h e) by (intros; apply Rmax_r).
  assert (W : forall x, widened p e hs x <-> forall y, List.In y (duals p e hs) -> dot y (vsub x p) <= 1).
  { intros x. split.
    - intros H y I. unfold duals in I. apply in_map_iff in I. destruct I as ((n & a) & <- & I). cbn [fst snd]. specialize (H n a I). pose proof (MX (dot n (vsub a p))) as M. set (c := Rmax _ e) in *. clearbody c.
      replace (dot (vscale (/ c) n) (vsub x p)) with (dot n (vsub x p) / c) by (spec_unfold; field; lra). apply (Rmult_le_reg_r c); [lra|]. replace (dot n (vsub x p) / c * c) with (dot n (vsub x p)) by (field; lra). lra.
    - intros H n a I. assert (I' : List.In (vscale (/ Rmax (dot n (vsub a p)) e) n) (duals p e hs)) by (apply in_map_iff; exists (n, a); auto). specialize (H _ I'). pose proof (MX (dot n (vsub a p))) as M. set (c := Rmax _ e) in *. clearbody c.
      replace (dot (vscale (/ c) n) (vsub x p)) with (dot n (vsub x p) / c) in H by (spec_unfold; field; lra). apply (Rmult_le_compat_r c) in H; [|lra]. replace (dot n (vsub x p) / c * c) with (dot n (vsub x p)) in H by (field; lra). lra. }
  assert (Y : forall y n a, List.In y (duals p e hs) -> List.In (n, a) P -> dot n y <= dot n a).
  { intros y n a I J. pose proof (Logic.proj1 (HP y) (hull_point _ y I) n a J) as K. replace (dot n (vsub y a)) with (dot n y - dot n a) in K by (spec_unfold; ring). lra. }
  assert (Ei : 0 < / e) by (apply Rinv_0_lt_compat, E).
  assert (D : forall n a, List.In (n, a) P -> 0 < dot n a).
  { intros n a I. destruct (Rlt_le_dec 0 (dot n a)) as [L|L]; [exact L|exfalso]. specialize (UP n a I).
    assert (K : dist (vadd p (vscale (2 * / e) n)) p <= / e). { apply B, W. intros y J. pose proof (Y y n a J I). replace (dot y (vsub (vadd p (vscale (2 * / e) n)) p)) with (2 * (/ e * dot n y)) by (spec_unfold; ring). assert (/ e * dot n y <= / e * 0) by (apply Rmult_le_compat_l; lra). lra. }
    unfold dist in K. replace (vsub (vadd p (vscale (2 * / e) n)) p) with (vscale (2 * / e) n) in K by vring. rewrite FactsSvd.norm_scale, UP, Rabs_pos_eq in K by lra. lra. }
  assert (BW : forall z, List.In z (backs p P) -> widened p e hs z).
  { intros z I. unfold backs in I. apply in_map_iff in I. destruct I as ((n & a) & <- & I). cbn [fst snd]. pose proof (D n a I) as Dn. apply W. intros y J. pose proof (Y y n a J I) as Yn. set (d := dot n a) in *. clearbody d.
    replace (dot y (vsub (vadd p (vscale (/ d) n)) p)) with (dot n y / d) by (spec_unfold; field; lra). apply (Rmult_le_reg_r d); [lra|]. replace (dot n y / d * d) with (dot n y) by (field; lra). lra. }
  split.
  { intros n a I. pose proof (D n a I) as Dn. assert (K : dist (vadd p (vscale (/ dot n a) n)) p <= / e). { apply B, BW. apply in_map_iff. exists (n, a). auto. }
    unfold dist in K. replace (vsub (vadd p (vscale (/ dot n a) n)) p) with (vscale (/ dot n a) n) in K by (generalize (/ dot n a); intros; vring). rewrite FactsSvd.norm_scale, (UP n a I), Rabs_pos_eq in K by (left; apply Rinv_0_lt_compat, Dn).
    set (d := dot n a) in *. clearbody d. apply Rnot_lt_le. intros L. pose proof (Rinv_lt_contravar d e ltac:(apply Rmult_lt_0_compat; lra) L). lra. }
  intros x. split.
  - intros H. apply W. intros y J. apply (hull_le y p 1 (backs p P)); [|exact H]. intros z I. apply (Logic.proj1 (W z) (BW z I)), J.
  - intros Wx. apply HQ. intros m b I. set (F := dot m (vsub b p)).
    assert (ZF : forall n a, List.In (n, a) P -> dot m n <= F * dot n a).
    { intros n a J. pose proof (D n a J) as Dn. assert (IZ : List.In (vadd p (vscale (/ dot n a) n)) (backs p P)) by (apply in_map_iff; exists (n, a); auto).
      pose proof (Logic.proj1 (HQ _) (hull_point _ _ IZ) m b I) as K. set (d := dot n a) in *. clearbody d.
      replace (dot m (vsub (vadd p (vscale (/ d) n)) b)) with (dot m n / d - F) in K by (unfold F; spec_unfold; field; lra).
      assert (K' : dot m n / d <= F) by lra. apply (Rmult_le_compat_r d) in K'; [|lra]. replace (dot m n / d * d) with (dot m n) in K' by (field; lra). exact K'. }
    assert (YB : forall y, List.In y (duals p e hs) -> dot m (vsub y v3zero) <= / e).
    { intros y J. unfold duals in J. apply in_map_iff in J. destruct J as ((n & a) & <- & J). cbn [fst snd]. pose proof (MX (dot n (vsub a p))) as M. set (c := Rmax _ e) in *. clearbody c.
      replace (dot m (vsub (vscale (/ c) n) v3zero)) with (/ c * dot m n) by (spec_unfold; field; lra).
      pose proof (FactsSvd.dot_cs m n) as CS. rewrite (UQ m b I), (U1 n a J) in CS. assert (IC : 0 < / c) by (apply Rinv_0_lt_compat; lra). assert (/ c <= / e) by (apply Rinv_le_contravar; lra).
      assert (/ c * dot m n <= / c * 1) by (apply Rmult_le_compat_l; lra). lra. }
    assert (FP : 0 < F).
    { destruct (Rlt_le_dec 0 F) as [L|L]; [exact L|exfalso].
      assert (HY : convex_hull (duals p e hs) (vscale (2 * / e) m)). { apply HP. intros n a J. pose proof (ZF n a J). pose proof (D n a J). replace (dot n (vsub (vscale (2 * / e) m) a)) with (2 * (/ e * dot m n) - dot n a) by (spec_unfold; ring). assert (F * dot n a <= 0 * dot n a) by (apply Rmult_le_compat_r; lra). assert (/ e * dot m n <= / e * 0) by (apply Rmult_le_compat_l; lra). lra. }
      pose proof (hull_le m v3zero (/ e) _ YB _ HY) as K. replace (dot m (vsub (vscale (2 * / e) m) v3zero)) with (2 * / e * dot m m) in K by (spec_unfold; ring). rewrite <- norm_sqr, (UQ m b I) in K. lra. }
    assert (HW : convex_hull (duals p e hs) (vscale (/ F) m)).
    { apply HP. intros n a J. pose proof (ZF n a J) as K. clearbody F. replace (dot n (vsub (vscale (/ F) m) a)) with ((dot m n - F * dot n a) / F) by (spec_unfold; field; lra). apply (Rmult_le_reg_r F); [lra|]. replace ((dot m n - F * dot n a) / F * F) with (dot m n - F * dot n a) by (field; lra). lra. }
    assert (K : dot (vsub x p) (vsub (vscale (/ F) m) v3zero) <= 1). { apply (hull_le _ _ 1 (duals p e hs)); [|exact HW]. intros y J. pose proof (Logic.proj1 (W x) Wx y J) as K. replace (dot (vsub x p) (vsub y v3zero)) with (dot y (vsub x p)) by (spec_unfold; ring). exact K. }
    assert (G : dot m (vsub x b) = dot m (vsub x p) - F) by (unfold F; spec_unfold; ring). rewrite G. clearbody F. clear G.
    replace (dot (vsub x p) (vsub (vscale (/ F) m) v3zero)) with (dot m (vsub x p) / F) in K by (spec_unfold; field; lra).
    apply (Rmult_le_compat_r F) in K; [|lra]. replace (dot m (vsub x p) / F * F) with (dot m (vsub x p)) in K by (field; lra). lra.
Qed.

(** ** the program *)
Definition ph_nfaces (ph : ph3) : list (nat * nat * nat * vec3) := map (fun f => (fi0 f, fi1 f, fi2 f, fnrm f)) (pfaces ph).
Definition ph_planes (ph : ph3) : list half_space := planes (pverts ph) (ph_nfaces ph).
Definition ph_flat (ph : ph3) : Prop := flat_faces (pverts ph) (ph_nfaces ph).
Definition ph_hull (l : list vec3) (ph : ph3) : Prop := hull_planes l (pverts ph) (ph_nfaces ph).

Lemma flat_face ph f : ph_flat ph -> List.In f (pfaces ph) -> (fi0 f < length (pverts ph))%nat /\ (fi1 f < length (pverts ph))%nat /\ (fi2 f < length (pverts ph))%nat /\ norm (fnrm f) = 1 /\
  dot (fnrm f) (vsub (vpos (pverts ph) (fi1 f)) (vpos (pverts ph) (fi0 f))) = 0 /\ dot (fnrm f) (vsub (vpos (pverts ph) (fi2 f)) (vpos (pverts ph) (fi0 f))) = 0.
Proof. intros F I. apply F. apply in_map_iff. exists f. auto. Qed.
Lemma flat_tris ph : ph_flat ph -> zPH3DTris ph = Some (map (FactsPH2.tri_at (pverts ph)) (pfaces ph)).
Proof.
  intros F. apply FactsPH2.tris_ok. unfold FactsPH2.valid_ph, indices_below, ph_faces. apply Forall_forall. intros t I. apply in_map_iff in I. destruct I as (f & <- & I). destruct (flat_face ph f F I) as (A & B & C & _). auto.
Qed.
Lemma planes_in ph n a : List.In (n, a) (ph_planes ph) <-> exists f, List.In f (pfaces ph) /\ n = fnrm f /\ a = vpos (pverts ph) (fi0 f).
Proof.
  unfold ph_planes, planes, ph_nfaces. rewrite map_map, in_map_iff. split.
  - intros (f & E & I). injection E as <- <-. exists f. auto.
  - intros (f & I & -> & ->). exists f. auto.
Qed.
Lemma planes_unit ph n a : ph_flat ph -> List.In (n, a) (ph_planes ph) -> norm n = 1.
Proof. intros F I. apply planes_in in I. destruct I as (f & I & -> & _). apply (flat_face ph f F I). Qed.
(** a triangle with its normal perpendicular to the edges *)
Definition flat_tri (t : tri3) : Prop := norm (tnorm t) = 1 /\ dot (tnorm t) (vsub (tv1 t) (tv0 t)) = 0 /\ dot (tnorm t) (vsub (tv2 t) (tv0 t)) = 0.
Lemma flat_tris_in ph ts t : ph_flat ph -> zPH3DTris ph = Some ts -> List.In t ts -> flat_tri t.
Proof. intros F E I. rewrite (flat_tris ph F) in E. injection E as <-. apply in_map_iff in I. destruct I as (f & <- & I). destruct (flat_face ph f F I) as (_ & _ & _ & A & B & C). unfold flat_tri, FactsPH2.tri_at. cbn. auto. Qed.
Lemma flat_dist t p : flat_tri t -> zTri3DDistFromPointToPlane t p = dot (tnorm t) (vsub p (tv0 t)).
Proof.
  intros (_ & A & B). unfold zTri3DDistFromPointToPlane. revert A B. destruct t as [[a b c] [d e f] [g h i] [j k l]], p as [x y z]. unfold zVec3DInnerProd, zVec3DSub. spec_unfold. cbn [tv0 tv1 tv2 tnorm vx vy vz]. intros A B. lra.
Qed.
Definition tplane (t : tri3) : half_space := (tnorm t, tv0 t).
Lemma tris_planes ph ts : ph_flat ph -> zPH3DTris ph = Some ts -> map tplane ts = ph_planes ph.
Proof. intros F E. rewrite (flat_tris ph F) in E. injection E as <-. unfold ph_planes, planes, ph_nfaces. rewrite !map_map. reflexivity. Qed.
(** the base point *)
Lemma inside_none ts p : (forall t, List.In t ts -> flat_tri t) -> zIntersectPH3DPointIsInside ts p = None -> forall t, List.In t ts -> dot (tnorm t) (vsub p (tv0 t)) < - zTOL.
Proof.
  induction ts as [|t ts IH]; intros F H u I; [destruct I|]. cbn [zIntersectPH3DPointIsInside] in H. rewrite (flat_dist t p (F t (or_introl eq_refl))) in H. destruct (Rleb_reflect (- zTOL) (dot (tnorm t) (vsub p (tv0 t)))) as [L|L]; [discriminate|].
  destruct I as [<-|I]; [lra|]. apply IH; [intros v J; apply F; right; exact J|exact H|exact I].
Qed.
Lemma inside_some ts p : (forall t, List.In t ts -> flat_tri t) -> (forall t, List.In t ts -> dot (tnorm t) (vsub p (tv0 t)) < - zTOL) -> zIntersectPH3DPointIsInside ts p = None.
Proof.
  induction ts as [|t ts IH]; intros F H; [reflexivity|]. cbn [zIntersectPH3DPointIsInside]. rewrite (flat_dist t p (F t (or_introl eq_refl))). pose proof (H t (or_introl eq_refl)). destruct (Rleb_reflect (- zTOL) (dot (tnorm t) (vsub p (tv0 t)))) as [L|L]; [lra|].
  apply IH; intros v J; [apply F|apply H]; right; exact J.
Qed.
Lemma base_ok ts1 ts2 : (forall t, List.In t ts1 -> flat_tri t) -> (forall t, List.In t ts2 -> flat_tri t) -> forall iter p0 p, isec_base iter ts1 ts2 p0 = Some p -> forall t, List.In t (ts1 ++ ts2) -> dot (tnorm t) (vsub p (tv0 t)) < - zTOL.
Proof.
  intros F1 F2. induction iter as [|k IH]; intros p0 p H; cbn [isec_base] in H.
  - destruct (zIntersectPH3DPointIsInside ts1 p0) eqn:E1; [discriminate|]. destruct (zIntersectPH3DPointIsInside ts2 p0) eqn:E2; [discriminate|]. injection H as <-.
    intros t I. apply in_app_or in I. destruct I as [I|I]; [apply (inside_none ts1 p0 F1 E1 t I)|apply (inside_none ts2 p0 F2 E2 t I)].
  - destruct (zIntersectPH3DPointIsInside ts1 p0) eqn:E1; [apply (IH _ _ H)|]. destruct (zIntersectPH3DPointIsInside ts2 p0) eqn:E2; [apply (IH _ _ H)|]. injection H as <-.
    intros t I. apply in_app_or in I. destruct I as [I|I]; [apply (inside_none ts1 p0 F1 E1 t I)|apply (inside_none ts2 p0 F2 E2 t I)].
Qed.
(** the transformations *)
Lemma dual_min_pos : 0 < zeoDualMinOffset. Proof. unfold zeoDualMinOffset. lra. Qed.
Lemma zdiv_ok n d : d <> 0 -> zVec3DDiv n d = Some (vscale (/ d) n).
Proof. intros H. unfold zVec3DDiv. destruct (Reqb_reflect d 0) as [E|_]; [contradiction|]. f_equal. unfold zVec3DMul. spec_unfold. apply vec3_ext; cbn; unfold Rdiv; ring. Qed.
Lemma dual_pos t p : 0 <= dot (tnorm t) p -> zTri3DDualXform t p = Some (vscale (/ Rmax (dot (tnorm t) p) zeoDualMinOffset) (tnorm t)).
Proof.
  intros H. unfold zTri3DDualXform. change (zVec3DInnerProd (tnorm t) p) with (dot (tnorm t) p). pose proof dual_min_pos. set (d := dot (tnorm t) p) in *. clearbody d.
  destruct (Rltb_reflect d 0) as [L|L]; [lra|]. cbn [andb]. destruct (Rleb_reflect 0 d) as [L'|L']; [|lra]. cbn [andb]. destruct (Rltb_reflect d zeoDualMinOffset) as [K|K].
  - rewrite Rmax_right by lra. apply zdiv_ok. lra.
  - rewrite Rmax_left by lra. apply zdiv_ok. lra.
Qed.
Lemma dual_some t p : exists y, zTri3DDualXform t p = Some y.
Proof.
  unfold zTri3DDualXform. pose proof dual_min_pos. set (d := zVec3DInnerProd (tnorm t) p) in *. clearbody d. cbv zeta.
  set (d' := if _ && _ then _ else _). assert (NZ : d' <> 0). { unfold d'. destruct (Rltb_reflect d 0), (Rltb_reflect (- zeoDualMinOffset) d), (Rleb_reflect 0 d), (Rltb_reflect d zeoDualMinOffset); cbn [andb]; lra. }
  rewrite (zdiv_ok _ _ NZ). eexists. reflexivity.
Qed.
Lemma mapM_total {A B} (g : A -> option B) l : (forall a, exists b, g a = Some b) -> exists m, mapM g l = Some m.
Proof. intros H. induction l as [|a l (m & IH)]; [exists []; reflexivity|]. cbn [mapM]. destruct (H a) as (b & ->). rewrite IH. eexists. reflexivity. Qed.
Lemma back_some p t : exists z, (match zTri3DDualXform_b t with None => None | Some z => Some (zVec3DAdd z p) end) = Some z.
Proof. unfold zTri3DDualXform_b. destruct (dual_some t (tv0 t)) as (y & ->). eexists. reflexivity. Qed.
Lemma dual_list p ts : (forall t, List.In t ts -> dot (tnorm t) (vsub p (tv0 t)) < - zTOL) -> isec_dual p ts = Some (duals p zeoDualMinOffset (map tplane ts)).
Proof.
  intros H. unfold isec_dual, duals. rewrite map_map. apply FactsPH2.mapM_map. intros t I. unfold zTri3DDualXform_a. cbn [tplane fst snd]. rewrite zsub_spec. apply dual_pos.
  specialize (H t I). pose proof zTOL_pos. replace (dot (tnorm t) (vsub (tv0 t) p)) with (- dot (tnorm t) (vsub p (tv0 t))) by (spec_unfold; ring). lra.
Qed.
Lemma back_list p ts : (forall t, List.In t ts -> zeoDualMinOffset <= dot (tnorm t) (tv0 t)) -> isec_back p ts = Some (backs p (map tplane ts)).
Proof.
  intros H. unfold isec_back, backs. rewrite map_map. apply FactsPH2.mapM_map. intros t I. specialize (H t I). pose proof dual_min_pos. unfold zTri3DDualXform_b. cbn [tplane fst snd]. rewrite dual_pos by lra. rewrite Rmax_left by lra.
  f_equal. generalize (/ dot (tnorm t) (tv0 t)). intros. apply vec3_ext; spec_unfold; cbn; ring.
Qed.
Lemma isec_region hull iter depth ph1 ph2 ph : ph_flat ph1 -> ph_flat ph2 -> zIntersectPH3D hull iter depth ph1 ph2 = Some (Some ph) ->
  let hs := ph_planes ph1 ++ ph_planes ph2 in let e := / 100000 in
  exists p ch, (forall n a, List.In (n, a) hs -> dot n (vsub p a) < - zTOL) /\ hull (duals p e hs) = Some ch /\
    (ph_hull (duals p e hs) ch -> (forall x, widened p e hs x -> dist x p <= 100000) ->
     hull (backs p (ph_planes ch)) = Some ph /\ (ph_hull (backs p (ph_planes ch)) ph -> forall x, convex_hull (pverts ph) x <-> widened p e hs x)).
Proof.
  intros F1 F2. unfold zIntersectPH3D. destruct (depth _ _) as [(p1, p2)|]; [|discriminate]. destruct (Rltb _ _); [discriminate|].
  pose proof (flat_tris ph1 F1) as T1. pose proof (flat_tris ph2 F2) as T2. rewrite T1, T2. set (ts1 := map _ (pfaces ph1)) in *. set (ts2 := map _ (pfaces ph2)) in *.
  destruct (isec_base iter ts1 ts2 (zVec3DMid p1 p2)) as [p|] eqn:EB; [|discriminate].
  pose proof (base_ok ts1 ts2 (fun t => flat_tris_in ph1 ts1 t F1 T1) (fun t => flat_tris_in ph2 ts2 t F2 T2) _ _ _ EB) as BP.
  rewrite (dual_list p _ BP). rewrite map_app, (tris_planes ph1 ts1 F1 T1), (tris_planes ph2 ts2 F2 T2). change zeoDualMinOffset with (/ 100000). cbv zeta. set (hs := ph_planes ph1 ++ ph_planes ph2).
  destruct (hull (duals p (/ 100000) hs)) as [ch|] eqn:EC; [|discriminate]. intros R0. exists p, ch.
  split. { intros n a I. assert (I' : List.In (n, a) (map tplane (ts1 ++ ts2))) by (rewrite map_app, (tris_planes ph1 ts1 F1 T1), (tris_planes ph2 ts2 F2 T2); exact I). apply in_map_iff in I'. destruct I' as (t & E & I'). injection E as <- <-. apply BP, I'. }
  split; [exact EC|]. intros (FC & HC & _) BD.
  pose proof (flat_tris ch FC) as TC. rewrite TC in R0. set (tc := map _ (pfaces ch)) in *. pose proof (tris_planes ch tc FC TC) as PC.
  assert (U1 : forall n a, List.In (n, a) hs -> norm n = 1). { intros n a I. apply in_app_or in I. destruct I as [I|I]; [exact (planes_unit ph1 n a F1 I)|exact (planes_unit ph2 n a F2 I)]. }
  assert (E0 : 0 < / 100000) by lra.
  assert (DP : forall n a, List.In (n, a) (ph_planes ch) -> 0 < dot n a).
  { intros n a I. apply Rnot_le_lt. intros L. pose proof (planes_unit ch n a FC I) as U.
    assert (K : dist (vadd p (vscale 200000 n)) p <= 100000).
    { apply BD. intros m b J. assert (JY : List.In (vscale (/ Rmax (dot m (vsub b p)) (/ 100000)) m) (duals p (/ 100000) hs)) by (apply in_map_iff; exists (m, b); auto).
      pose proof (Logic.proj1 (HC _) (hull_point _ _ JY) n a I) as Q. pose proof (Rmax_r (dot m (vsub b p)) (/ 100000)) as M. set (c := Rmax _ _) in *. clearbody c.
      replace (dot n (vsub (vscale (/ c) m) a)) with (dot m n / c - dot n a) in Q by (spec_unfold; field; lra). assert (Q' : dot m n / c <= 0) by lra.
      apply (Rmult_le_compat_r c) in Q'; [|lra]. replace (dot m n / c * c) with (dot m n) in Q' by (field; lra). replace (dot m (vsub (vadd p (vscale 200000 n)) p)) with (200000 * dot m n) by (spec_unfold; ring). lra. }
    unfold dist in K. replace (vsub (vadd p (vscale 200000 n)) p) with (vscale 200000 n) in K by vring. rewrite FactsSvd.norm_scale, U, Rabs_pos_eq in K by lra. lra. }
  assert (DE : forall n a, List.In (n, a) (ph_planes ch) -> / 100000 <= dot n a).
  { intros n a I. pose proof (DP n a I) as Dn.
    assert (K : dist (vadd p (vscale (/ dot n a) n)) p <= 100000).
    { apply BD. intros m b J. assert (JY : List.In (vscale (/ Rmax (dot m (vsub b p)) (/ 100000)) m) (duals p (/ 100000) hs)) by (apply in_map_iff; exists (m, b); auto).
      pose proof (Logic.proj1 (HC _) (hull_point _ _ JY) n a I) as Q. pose proof (Rmax_r (dot m (vsub b p)) (/ 100000)) as M. set (c := Rmax _ _) in *. clearbody c.
      replace (dot n (vsub (vscale (/ c) m) a)) with (dot m n / c - dot n a) in Q by (spec_unfold; field; lra). assert (Q' : dot m n / c <= dot n a) by lra. set (d := dot n a) in *. clearbody d.
      apply (Rmult_le_compat_r c) in Q'; [|lra]. replace (dot m n / c * c) with (dot m n) in Q' by (field; lra). replace (dot m (vsub (vadd p (vscale (/ d) n)) p)) with (dot m n / d) by (spec_unfold; field; lra).
      apply (Rmult_le_reg_r d); [lra|]. replace (dot m n / d * d) with (dot m n) by (field; lra). lra. }
    unfold dist in K. replace (vsub (vadd p (vscale (/ dot n a) n)) p) with (vscale (/ dot n a) n) in K by (generalize (/ dot n a); intros; vring). rewrite FactsSvd.norm_scale, (planes_unit ch n a FC I), Rabs_pos_eq in K by (left; apply Rinv_0_lt_compat, Dn).
    set (d := dot n a) in *. clearbody d. apply Rnot_lt_le. intros L. pose proof (Rinv_lt_contravar d (/ 100000) ltac:(apply Rmult_lt_0_compat; lra) L). rewrite Rinv_inv in *. lra. }
  rewrite (back_list p tc) in R0. 2: { intros t I. apply (DE (tnorm t) (tv0 t)). rewrite <- PC. apply in_map_iff. exists t. auto. }
  rewrite PC in R0. injection R0 as R0. split; [exact R0|]. intros (FP & HP1 & HP2).
  destruct (dual_core p (/ 100000) hs (ph_planes ch) (ph_planes ph) E0 U1 (fun n a => planes_unit ch n a FC) (fun n a => planes_unit ph n a FP) HC HP1) as (_ & K); [intros x Wx; rewrite Rinv_inv; auto|].
  intros x. rewrite (HP2 x), <- (HP1 x). apply K.
Qed.
