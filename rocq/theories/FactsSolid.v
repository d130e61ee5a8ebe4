(** Proofs about moving and mirroring solids, and about elliptic cylinders. *)
From Verif Require Import Base Spec SpecShape ModelShape FactsVec FactsAlg FactsMat FactsElem FactsTri FactsCentre FactsFrame FactsBox FactsObb FactsRound FactsCone FactsEllips.
Open Scope R_scope.

(** ** rigid maps: [g] acts on points, [L] on displacements *)
Definition rigid (g L : vec3 -> vec3) : Prop :=
  (forall p v, g (vadd p v) = vadd (g p) (L v)) /\ (forall a b, L (vadd a b) = vadd (L a) (L b)) /\
  (forall k a, L (vscale k a) = vscale k (L a)) /\ (forall a b, dot (L a) (L b) = dot a b).
Lemma rigid_sub g L p q : rigid g L -> vsub (g p) (g q) = L (vsub p q).
Proof. intros (G & _). replace p with (vadd q (vsub p q)) at 1 by vring. rewrite G. vring. Qed.
Lemma rigid_norm g L w : rigid g L -> norm (L w) = norm w.
Proof. intros (_ & _ & _ & D). unfold norm. rewrite D. reflexivity. Qed.
Lemma rigid_dist g L p q : rigid g L -> dist (g p) (g q) = dist p q.
Proof. intros H. unfold dist. rewrite (rigid_sub _ _ _ _ H). apply (rigid_norm _ _ _ H). Qed.
Lemma rigid_cyl g L c0 c1 r q : rigid g L -> in_cyl c0 c1 r q -> in_cyl (g c0) (g c1) r (g q).
Proof.
  intros H (t & w & T & O & N & ->). exists t, (L w). rewrite (rigid_sub _ _ _ _ H), (rigid_norm _ _ _ H).
  destruct H as (G & A & S & D). rewrite D, !G, S. auto.
Qed.
Lemma rigid_cone g L c0 c1 r q : rigid g L -> in_cone c0 c1 r q -> in_cone (g c0) (g c1) r (g q).
Proof.
  intros H (t & w & T & O & N & ->). exists t, (L w). rewrite (rigid_sub _ _ _ _ H), (rigid_norm _ _ _ H).
  destruct H as (G & A & S & D). rewrite D, !G, S. auto.
Qed.
Lemma rigid_segment g L c0 c1 q : rigid g L -> segment c0 c1 q -> segment (g c0) (g c1) (g q).
Proof.
  intros H K. apply segment_cyl0. apply segment_cyl0 in K. apply (rigid_cyl g L); assumption.
Qed.
Lemma rigid_capsule g L c0 c1 r q : rigid g L -> in_capsule c0 c1 r q -> in_capsule (g c0) (g c1) r (g q).
Proof.
  intros H (x & T & N). exists (g x). split; [apply (rigid_segment g L); assumption|]. rewrite (rigid_dist _ _ _ _ H). exact N.
Qed.
Lemma rigid_ecyl g L c0 c1 r0 r1 u0 u1 q : rigid g L -> in_ecyl c0 c1 r0 r1 u0 u1 q -> in_ecyl (g c0) (g c1) r0 r1 (L u0) (L u1) (g q).
Proof.
  intros H (t & a & b & T & N & ->). exists t, a, b. rewrite (rigid_sub _ _ _ _ H).
  destruct H as (G & A & S & D). rewrite !G, !S. auto.
Qed.

Lemma rigid_act f : isometry (fatt f) -> rigid (act f) (mvec (fatt f)).
Proof.
  intros H. unfold rigid. repeat split; intros; try (unfold act; vring). apply iso_dot, H.
Qed.
Lemma iso_tr m : isometry m -> isometry (mtr m).
Proof. intros H. unfold isometry. rewrite mtr_mtr. apply iso_r, H. Qed.
Lemma rigid_inv f : isometry (fatt f) -> rigid (zXform3DInv f) (mvec (mtr (fatt f))).
Proof.
  intros H. unfold rigid. repeat split; intros; try (rewrite !xforminv_spec; vring); try vring. apply iso_dot, iso_tr, H.
Qed.
(** the spec of a mirror: negate one coordinate *)
Lemma flip_flip a p : flip_e a (flip_e a p) = p.
Proof. destruct p as [x y z]. destruct a as [|[|a]]; apply vec3_ext; cbn [flip_e vx vy vz]; ring. Qed.
Lemma rigid_flip a : rigid (flip_e a) (flip_e a).
Proof.
  unfold rigid. repeat split; intros; destruct a as [|[|a]]; try (apply vec3_ext; unfold flip_e; spec_unfold; ring); unfold flip_e; spec_unfold; ring.
Qed.
Lemma flip_reflect a p : (a < 3)%nat -> flip_e a p = reflect3 a p.
Proof. intros H. destruct p as [x y z]. destruct a as [|[|[|a]]]; [| | |lia]; apply vec3_ext; unfold flip_e, reflect3; cbn [Nat.eqb vx vy vz]; ring. Qed.

(** a solid given by any rigid-invariant description *)
Lemma image_iff f (S T : vec3 -> Prop) : isometry (fatt f) -> (forall q, S q -> T (act f q)) -> (forall q, T q -> S (zXform3DInv f q)) ->
  forall p, T p <-> image f S p.
Proof.
  intros H A B p. split.
  - intros K. exists (zXform3DInv f p). split; [apply B, K|]. symmetry. apply iso_act_inv, H.
  - intros (q & K & ->). apply A, K.
Qed.
Lemma image_inv_iff f (S T : vec3 -> Prop) : isometry (fatt f) -> (forall q, S q -> T (act f q)) -> (forall q, T q -> S (zXform3DInv f q)) ->
  forall p, S p <-> T (act f p).
Proof.
  intros H A B p. split; [apply A|]. intros K. apply B in K. rewrite iso_inv_act in K by exact H. exact K.
Qed.
Lemma mirror_iff a (S T : vec3 -> Prop) : (a < 3)%nat -> (forall q, S q -> T (flip_e a q)) -> (forall q, T q -> S (flip_e a q)) ->
  forall p, T p <-> S (reflect3 a p).
Proof.
  intros L A B p. rewrite <- flip_reflect by exact L. split; [apply B|]. intros K. apply A in K. rewrite flip_flip in K. exact K.
Qed.

Lemma sphere_xform s f : isometry (fatt f) -> forall p,
  (ball (scen (zSphere3DXform s f)) (srad (zSphere3DXform s f)) p <-> image f (ball (scen s) (srad s)) p) /\
  (ball (scen (zSphere3DXformInv s f)) (srad (zSphere3DXformInv s f)) p <-> ball (scen s) (srad s) (act f p)).
Proof.
  intros H p. unfold zSphere3DXform, zSphere3DXformInv; cbn [scen srad]. rewrite xform_spec. unfold ball. split.
  - apply (image_iff f (ball (scen s) (srad s)) (ball (act f (scen s)) (srad s)) H); unfold ball; intros q.
    + rewrite (rigid_dist _ _ _ _ (rigid_act f H)). auto.
    + rewrite <- (iso_inv_act f (scen s) H) at 2. rewrite (rigid_dist _ _ _ _ (rigid_inv f H)). auto.
  - rewrite <- (rigid_dist _ _ _ _ (rigid_act f H)). rewrite iso_act_inv by exact H. reflexivity.
Qed.
Lemma sphere_mirror s a : (a < 3)%nat -> forall p,
  ball (scen (zSphere3DMirror s a)) (srad (zSphere3DMirror s a)) p <-> ball (scen s) (srad s) (reflect3 a p).
Proof.
  intros L. apply mirror_iff; [exact L| |]; unfold ball, zSphere3DMirror, zSphere3DCopy; cbn [scen srad]; intros q.
  - intros K. rewrite (rigid_dist _ _ _ _ (rigid_flip a)). exact K.
  - intros K. rewrite <- (rigid_dist _ _ _ _ (rigid_flip a)), flip_flip. exact K.
Qed.
Lemma sphere_xform_closest s f p : isometry (fatt f) ->
  zSphere3DClosest (zSphere3DXform s f) (act f p) = match zSphere3DClosest s p with Some (d, q) => Some (d, act f q) | None => None end.
Proof.
  intros H. unfold zSphere3DClosest, zSphere3DXform; cbn [scen srad]. zvg. rewrite xform_spec.
  rewrite (rigid_sub _ _ _ _ (rigid_act f H)), (rigid_norm _ _ _ (rigid_act f H)).
  cbv beta iota zeta. destruct (rigid_act f H) as (G & A & S & D).
  repeat match goal with |- context [if ?b then _ else _] => destruct b end; try reflexivity; zvg; rewrite ?G, ?S; reflexivity.
Qed.

Lemma cyl_xform c f : isometry (fatt f) -> forall p,
  (in_cyl (cc0 (zCyl3DXform c f)) (cc1 (zCyl3DXform c f)) (crad (zCyl3DXform c f)) p <-> image f (in_cyl (cc0 c) (cc1 c) (crad c)) p) /\
  (in_cyl (cc0 (zCyl3DXformInv c f)) (cc1 (zCyl3DXformInv c f)) (crad (zCyl3DXformInv c f)) p <-> in_cyl (cc0 c) (cc1 c) (crad c) (act f p)) /\
  (in_capsule (cc0 (zCyl3DXform c f)) (cc1 (zCyl3DXform c f)) (crad (zCyl3DXform c f)) p <-> image f (in_capsule (cc0 c) (cc1 c) (crad c)) p) /\
  (in_capsule (cc0 (zCyl3DXformInv c f)) (cc1 (zCyl3DXformInv c f)) (crad (zCyl3DXformInv c f)) p <-> in_capsule (cc0 c) (cc1 c) (crad c) (act f p)).
Proof.
  intros H p. unfold zCyl3DXform, zCyl3DXformInv; cbn [cc0 cc1 crad]. rewrite !xform_spec.
  assert (I : forall q, zXform3DInv f (act f q) = q) by (intros; apply iso_inv_act, H).
  assert (J : forall q, act f (zXform3DInv f q) = q) by (intros; apply iso_act_inv, H).
  repeat split.
  - apply image_iff; [exact H| |].
    + intros q K. apply (rigid_cyl _ _ _ _ _ _ (rigid_act f H)), K.
    + intros q K. apply (rigid_cyl _ _ _ _ _ _ (rigid_inv f H)) in K. rewrite !I in K. exact K.
  - intros (q & K & ->). apply (rigid_cyl _ _ _ _ _ _ (rigid_act f H)), K.
  - intros K. apply (rigid_cyl _ _ _ _ _ _ (rigid_act f H)) in K. rewrite !J in K. exact K.
  - intros K. apply (rigid_cyl _ _ _ _ _ _ (rigid_inv f H)) in K. rewrite !I in K. exact K.
  - apply image_iff; [exact H| |].
    + intros q K. apply (rigid_capsule _ _ _ _ _ _ (rigid_act f H)), K.
    + intros q K. apply (rigid_capsule _ _ _ _ _ _ (rigid_inv f H)) in K. rewrite !I in K. exact K.
  - intros (q & K & ->). apply (rigid_capsule _ _ _ _ _ _ (rigid_act f H)), K.
  - intros K. apply (rigid_capsule _ _ _ _ _ _ (rigid_act f H)) in K. rewrite !J in K. exact K.
  - intros K. apply (rigid_capsule _ _ _ _ _ _ (rigid_inv f H)) in K. rewrite !I in K. exact K.
Qed.
Lemma cyl_mirror c a : (a < 3)%nat -> forall p,
  (in_cyl (cc0 (zCyl3DMirror c a)) (cc1 (zCyl3DMirror c a)) (crad (zCyl3DMirror c a)) p <-> in_cyl (cc0 c) (cc1 c) (crad c) (reflect3 a p)) /\
  (in_capsule (cc0 (zCyl3DMirror c a)) (cc1 (zCyl3DMirror c a)) (crad (zCyl3DMirror c a)) p <-> in_capsule (cc0 c) (cc1 c) (crad c) (reflect3 a p)).
Proof.
  intros L p. unfold zCyl3DMirror, zCyl3DCopy; cbn [cc0 cc1 crad]. split; revert p; apply mirror_iff; try exact L; intros q K.
  - apply (rigid_cyl _ _ _ _ _ _ (rigid_flip a)), K.
  - apply (rigid_cyl _ _ _ _ _ _ (rigid_flip a)) in K. rewrite !flip_flip in K. exact K.
  - apply (rigid_capsule _ _ _ _ _ _ (rigid_flip a)), K.
  - apply (rigid_capsule _ _ _ _ _ _ (rigid_flip a)) in K. rewrite !flip_flip in K. exact K.
Qed.
Lemma cone_xform c f : isometry (fatt f) -> forall p,
  (in_cone (kcen (zCone3DXform c f)) (kvert (zCone3DXform c f)) (krad (zCone3DXform c f)) p <-> image f (in_cone (kcen c) (kvert c) (krad c)) p) /\
  (in_cone (kcen (zCone3DXformInv c f)) (kvert (zCone3DXformInv c f)) (krad (zCone3DXformInv c f)) p <-> in_cone (kcen c) (kvert c) (krad c) (act f p)).
Proof.
  intros H p. unfold zCone3DXform, zCone3DXformInv; cbn [kcen kvert krad]. rewrite !xform_spec.
  assert (I : forall q, zXform3DInv f (act f q) = q) by (intros; apply iso_inv_act, H).
  assert (J : forall q, act f (zXform3DInv f q) = q) by (intros; apply iso_act_inv, H).
  split; [apply image_iff; [exact H| |]|split].
  - intros q K. apply (rigid_cone _ _ _ _ _ _ (rigid_act f H)), K.
  - intros q K. apply (rigid_cone _ _ _ _ _ _ (rigid_inv f H)) in K. rewrite !I in K. exact K.
  - intros K. apply (rigid_cone _ _ _ _ _ _ (rigid_act f H)) in K. rewrite !J in K. exact K.
  - intros K. apply (rigid_cone _ _ _ _ _ _ (rigid_inv f H)) in K. rewrite !I in K. exact K.
Qed.
Lemma cone_mirror c a : (a < 3)%nat -> forall p,
  in_cone (kcen (zCone3DMirror c a)) (kvert (zCone3DMirror c a)) (krad (zCone3DMirror c a)) p <-> in_cone (kcen c) (kvert c) (krad c) (reflect3 a p).
Proof.
  intros L. unfold zCone3DMirror, zCone3DCopy; cbn [kcen kvert krad]. apply mirror_iff; try exact L; intros q K.
  - apply (rigid_cone _ _ _ _ _ _ (rigid_flip a)), K.
  - apply (rigid_cone _ _ _ _ _ _ (rigid_flip a)) in K. rewrite !flip_flip in K. exact K.
Qed.

(** ** ellipsoids *)
Lemma ellips_xform e f p : isometry (fatt f) ->
  (in_ellipsoid (elf (zEllips3DXform e f)) (elrad (zEllips3DXform e f)) p <-> image f (in_ellipsoid (elf e) (elrad e)) p) /\
  (in_ellipsoid (elf (zEllips3DXformInv e f)) (elrad (zEllips3DXformInv e f)) p <-> in_ellipsoid (elf e) (elrad e) (act f p)).
Proof.
  intros H. unfold zEllips3DXform, zEllips3DXformInv; cbn [elf elrad]. rewrite xform_spec.
  assert (E1 : forall q, act (F3 (act f (fpos (elf e))) (of_b (zMulMat3DVec3D (fatt f) (bx (fatt (elf e)))) (zMulMat3DVec3D (fatt f) (by_ (fatt (elf e)))) (zMulMat3DVec3D (fatt f) (bz (fatt (elf e)))))) q = act f (act (elf e) q)).
  { intros q. destruct f as [fp fm], e as [r [ep em] d]. cbn [elf fpos fatt]. unfold act; cbn [fpos fatt].
    apply vec3_ext; unfold zMulMat3DVec3D, of_b, bx, by_, bz; spec_unfold; ring. }
  assert (E2 : forall q, act (F3 (zXform3DInv f (fpos (elf e))) (of_b (zMulMat3DTVec3D (fatt f) (bx (fatt (elf e)))) (zMulMat3DTVec3D (fatt f) (by_ (fatt (elf e)))) (zMulMat3DTVec3D (fatt f) (bz (fatt (elf e)))))) q = zXform3DInv f (act (elf e) q)).
  { intros q. rewrite !zmtv_spec, !xforminv_spec. destruct f as [fp fm], e as [r [ep em] d]. cbn [elf fpos fatt]. unfold act; cbn [fpos fatt].
    apply vec3_ext; unfold of_b, bx, by_, bz; spec_unfold; ring. }
  split; (split; [intros (q & K & ->)|]).
  - exists (act (elf e) q). split; [exists q; auto|]. apply E1.
  - intros (q & (q' & K & ->) & ->). exists q'. split; [exact K|]. symmetry. apply E1.
  - exists q. split; [exact K|]. rewrite E2. apply iso_act_inv, H.
  - intros (q & K & E). exists q. split; [exact K|]. rewrite E2, <- E. symmetry. apply iso_inv_act, H.
Qed.
Lemma ellips_abs f r p : in_ellipsoid f (V3 (Rabs (vx r)) (Rabs (vy r)) (Rabs (vz r))) p <-> in_ellipsoid f r p.
Proof.
  assert (E : forall x k, x / Rabs k * (x / Rabs k) = x / k * (x / k)).
  { intros x k. unfold Rabs; destruct (Rcase_abs k); [|reflexivity]. unfold Rdiv. replace (/ - k) with (- / k) by (field; lra). ring. }
  unfold in_ellipsoid; cbn [vx vy vz]. split; intros (q & K & H); exists q; (split; [|exact H]); rewrite !E in *; exact K.
Qed.
Lemma ellips_mirror e a p : (a < 3)%nat ->
  in_ellipsoid (elf (zEllips3DMirror e a)) (elrad (zEllips3DMirror e a)) p <-> in_ellipsoid (elf e) (elrad e) (reflect3 a p).
Proof.
  intros L. rewrite <- flip_reflect by exact L. unfold zEllips3DMirror.
  unfold zEllips3DCopy, zEllips3DCreate; cbn [elf elrad fpos fatt]. rewrite (ellips_abs _ (elrad e)).
  replace (of_b (bx (fatt (elf e))) (by_ (fatt (elf e))) (bz (fatt (elf e)))) with (fatt (elf e)) by (destruct (fatt (elf e)); reflexivity).
  assert (E : forall q, act (F3 (flip_e a (fpos (elf e))) (of_b (flip_e a (bx (fatt (elf e)))) (flip_e a (by_ (fatt (elf e)))) (flip_e a (bz (fatt (elf e)))))) q = flip_e a (act (elf e) q)).
  { intros q. destruct e as [r [ep em] d]. cbn [elf fpos fatt]. unfold act; cbn [fpos fatt]. destruct a as [|[|a]]; apply vec3_ext; unfold flip_e, of_b, bx, by_, bz; spec_unfold; ring. }
  split.
  - intros (q & K & ->). exists q. split; [exact K|]. rewrite E, flip_flip. reflexivity.
  - intros (q & K & Ep). exists q. split; [exact K|]. rewrite E, <- Ep, flip_flip. reflexivity.
Qed.
Lemma sphere_to_ellips s p : 0 < srad s ->
  in_ellipsoid (elf (zSphere3DToEllips3D s)) (elrad (zSphere3DToEllips3D s)) p <-> ball (scen s) (srad s) p.
Proof.
  intros H. unfold zSphere3DToEllips3D, zEllips3DCreate, in_ellipsoid, ball; cbn [elf elrad vx vy vz]. rewrite (Rabs_pos_eq (srad s)) by lra.
  set (c := scen s). set (r := srad s) in *. 
  assert (E : forall u, dist c u <= r <-> dot (vsub u c) (vsub u c) <= r * r).
  { intros u. rewrite dist_sym. unfold dist. split; intros K.
    - rewrite <- norm_sqr. pose proof (norm_nonneg (vsub u c)). nra.
    - apply Rsqr_incr_0_var; [|lra]. unfold Rsqr. rewrite norm_sqr. exact K. }
  rewrite E. 
  assert (Q : forall q : vec3, vx q / r * (vx q / r) + vy q / r * (vy q / r) + vz q / r * (vz q / r) <= 1 <-> dot q q <= r * r).
  { intros q. replace (vx q / r * (vx q / r) + vy q / r * (vy q / r) + vz q / r * (vz q / r)) with (dot q q / (r * r)) by (spec_unfold; field; lra).
    assert (P : 0 < r * r) by nra. split; intros K.
    - apply (Rmult_le_compat_r (r * r)) in K; [|lra]. unfold Rdiv in K. rewrite Rmult_assoc, Rinv_l in K; lra.
    - apply (Rmult_le_reg_r (r * r)); [exact P|]. unfold Rdiv. rewrite Rmult_assoc, Rinv_l; lra. }
  split.
  - intros (q & K & ->). rewrite Q in K. replace (vsub _ c) with q; [exact K|]. unfold act; cbn [fpos fatt]. apply vec3_ext; unfold of_b; spec_unfold; ring.
  - intros K. exists (vsub p c). split; [apply Q, K|]. unfold act; cbn [fpos fatt]. apply vec3_ext; unfold of_b; spec_unfold; ring.
Qed.

(** ** elliptic cylinders *)
Lemma normDRC_ok v : ~ negligible v -> exists a, zVec3DNormalizeDRC v = (norm v, a) /\ dot a a = 1 /\ v = vscale (norm v) a.
Proof.
  intros H. destruct (normalize3_ok v v H) as (a & E & U & S). exists a. split; [exact E|]. split; [apply norm_unit, U|congruence].
Qed.
Lemma unit_comp a : dot a a = 1 -> Rabs (vx a) <= 1 /\ Rabs (vy a) <= 1 /\ Rabs (vz a) <= 1.
Proof.
  intros H. apply norm_unit in H. pose proof (norm_ge_comp a) as (A & B & C). lra.
Qed.
Lemma catratio_ortho u0 u1 a l v : dot a a = 1 -> radial_basis a u0 u1 -> zTOL <= l -> l * l * zTOL <= 1 ->
  zVec3DCatRatio u0 u1 (vscale l a) v = Computed (V3 (dot u0 v) (dot u1 v) (dot a v / l)).
Proof.
  intros Ha (H0 & H1 & H01 & Ha0 & Ha1) Hl Hl2. pose proof zTOL_pos as Tp. pose proof zTOL_small as Ts.
  set (m := of_b u0 u1 (vscale l a)).
  assert (D : mdet m * mdet m = l * l).
  { assert (I : mdet (mmul (mtr m) m) = l * l).
    { replace (mmul (mtr m) m) with (M3 1 0 0 0 1 0 0 0 (l * l)); [spec_unfold; ring|].
      apply mat3_ext; unfold m, of_b; revert H0 H1 H01 Ha0 Ha1 Ha; spec_unfold; intros; nra. }
    rewrite mdet_mmul, mdet_mtr in I. exact I. }
  assert (AD : Rabs (mdet m) = l).
  { rewrite <- sqrt_sqr_abs, D. apply sqrt_square. lra. }
  assert (W : well_conditioned m).
  { destruct (unit_comp _ H0) as (X0 & Y0 & Z0). destruct (unit_comp _ H1) as (X1 & Y1 & Z1). destruct (unit_comp _ Ha) as (XA & YA & ZA).
    assert (EL : forall k, 1 <= k -> l <= k -> entries_le m k).
    { intros k K1 K2 r c. assert (S : forall x, Rabs x <= 1 -> Rabs (l * x) <= k).
      { intros x Hx. rewrite Rabs_mult, (Rabs_pos_eq l) by lra. pose proof (Rabs_pos x). nra. }
      assert (Z : Rabs 0 <= k) by (rewrite Rabs_R0; lra).
      pose proof (S _ XA). pose proof (S _ YA). pose proof (S _ ZA).
      destruct r as [|[|[|r]]]; destruct c as [|[|[|c]]]; unfold m, of_b, mnth, col0, col1, col2; cbn [vnth cxx cxy cxz cyx cyy cyz czx czy czz vscale vx vy vz]; lra. }
    destruct (Rle_dec l 1) as [L|L].
    - exists 1. split; [apply EL; lra|]. rewrite AD. split; lra.
    - exists l. split; [apply EL; lra|]. rewrite AD. split; [lra|]. replace (zTOL * (l * l * l)) with (l * l * zTOL * l) by ring. nra. }
  destruct (inv_complete m ZMAT3DZERO W) as (im & E & _ & I2).
  unfold zVec3DCatRatio. fold m. rewrite E. cbn [snd]. f_equal.
  assert (V : mvec m (V3 (dot u0 v) (dot u1 v) (dot a v / l)) = v).
  { assert (MM : isometry (cols3 u0 u1 a)).
    { apply iso_cols; auto. rewrite dot_comm; exact Ha1. }
    rewrite <- (iso_inv_r _ v MM) at 4. replace (mvec (mtr (cols3 u0 u1 a)) v) with (V3 (dot u0 v) (dot u1 v) (dot a v)) by vring.
    unfold m, of_b. apply vec3_ext; spec_unfold; field; lra. }
  change (zMulMat3DVec3D im v) with (mvec im v). rewrite <- V at 1. rewrite <- mvec_mmul, I2. apply mvec_id.
Qed.
Lemma basis_scale l a u0 u1 : l <> 0 -> radial_basis (vscale l a) u0 u1 <-> radial_basis a u0 u1.
Proof.
  intros H. assert (E : forall x, dot (vscale l a) x = 0 <-> dot a x = 0).
  { intros x. replace (dot (vscale l a) x) with (l * dot a x) by (spec_unfold; ring). split; intros K; [apply Rmult_integral in K as [K|K]; [contradiction|exact K]|rewrite K; ring]. }
  unfold radial_basis. rewrite !E. tauto.
Qed.
Lemma ecyl_defaxis axis r : 2 * zTOL <= norm axis -> ~ negligible r ->
  (forall t, ~ negligible (vsub r (vscale t axis))) ->
  exists u0 u1, zECyl3DDefAxis axis (Some r) = Some (u0, u1) /\ radial_basis axis u0 u1 /\ 0 < dot r u0 /\ dot (cross u0 u1) axis = norm axis.
Proof.
  intros Hl Hr Hp. pose proof zTOL_pos as Tp.
  assert (NA : ~ negligible axis) by (apply long_not_negligible, Hl).
  destruct (orth3_spec r axis NA) as (p & o & Ep & Eo & E & O).
  assert (K : exists t, p = vscale t axis).
  { unfold zVec3DProj in Ep. destruct (zVec3DIsTiny axis); [discriminate|]. injection Ep as <-. eexists. zvg. reflexivity. }
  destruct K as [t Et]. subst p.
  assert (NO : ~ negligible o).
  { rewrite E. apply Hp. }
  unfold zECyl3DDefAxis. rewrite (proj2 (zVec3DIsTiny_false r) Hr), Eo.
  destruct (normDRC_ok o NO) as (u0 & Eu & U & S). rewrite Eu. cbn [snd].
  assert (PO : 0 < norm o) by (apply nonneg_norm_pos, NO).
  assert (O0 : dot axis u0 = 0).
  { rewrite S in O. replace (dot (vscale (norm o) u0) axis) with (norm o * dot axis u0) in O by (spec_unfold; ring). apply Rmult_integral in O as [O|O]; lra. }
  zvg. set (w := cross axis u0).
  assert (NW : norm w = norm axis).
  { unfold norm. f_equal. unfold w. transitivity (dot axis axis * dot u0 u0 - dot axis u0 * dot axis u0); [spec_unfold; ring|]. rewrite U, O0. ring. }
  assert (NNW : ~ negligible w) by (apply long_not_negligible; lra).
  destruct (normDRC_ok w NNW) as (u1 & E1 & U1 & S1). rewrite E1. cbn [snd].
  exists u0, u1. split; [reflexivity|]. assert (PW : 0 < norm w) by lra.
  assert (Z : forall x, dot w x = 0 -> dot u1 x = 0).
  { intros x Hx. rewrite S1 in Hx. replace (dot (vscale (norm w) u1) x) with (norm w * dot u1 x) in Hx by (spec_unfold; ring). apply Rmult_integral in Hx as [Hx|Hx]; lra. }
  repeat split; auto.
  - rewrite dot_comm. apply Z. unfold w. spec_unfold; ring.
  - rewrite dot_comm. apply Z. unfold w. spec_unfold; ring.
  - assert (Er : r = vadd o (vscale t axis)) by (rewrite E; vring). rewrite Er. rewrite S at 1.
    replace (dot (vadd (vscale (norm o) u0) (vscale t axis)) u0) with (norm o * dot u0 u0 + t * dot axis u0) by (spec_unfold; ring). rewrite U, O0. lra.
  - assert (X : dot (cross u0 w) axis = norm axis * norm axis).
    { rewrite norm_sqr. unfold w. transitivity (dot axis axis * dot u0 u0 - dot axis u0 * dot axis u0); [spec_unfold; ring|]. rewrite U, O0. ring. }
    rewrite S1 in X. replace (dot (cross u0 (vscale (norm w) u1)) axis) with (norm w * dot (cross u0 u1) axis) in X by (spec_unfold; ring).
    rewrite NW in X. apply (Rmult_eq_reg_l (norm axis)); lra.
Qed.
Lemma ecyl_defaxis_null axis : 3 * zTOL <= norm axis ->
  exists u0 u1, zECyl3DDefAxis axis None = Some (u0, u1) /\ norm u0 = 1 /\ norm u1 = norm axis /\ dot axis u0 = 0 /\ dot axis u1 = 0 /\ dot u0 u1 = 0.
Proof.
  intros H. destruct (orthospace_spec axis H) as (s1 & s2 & E & A & B & C & D & F & _). exists s1, s2. unfold zECyl3DDefAxis. auto 8.
Qed.

Lemma ecyl_inside c p m l a h x y : ~ negligible (vsub (ec1 c) (ec0 c)) -> norm (vsub (ec1 c) (ec0 c)) = l -> vsub (ec1 c) (ec0 c) = vscale l a ->
  radial_basis (vsub (ec1 c) (ec0 c)) (ev0 c) (ev1 c) ->
  p = vadd (vadd (vadd (ec0 c) (vscale h a)) (vscale x (ev0 c))) (vscale y (ev1 c)) ->
  exists b, zECyl3DPointIsInside c p m = Some b /\
    (b = true <-> - m < h < l + m /\ inside_ellipse (V2 0 0) (er0 c + m) (er1 c + m) (V2 x y)).
Proof.
  intros Hn Hl Ha HB Ep. pose proof (nonneg_norm_pos _ Hn) as Pl. rewrite Hl in Pl.
  unfold zECyl3DPointIsInside, zECyl3DAxis. zvg. destruct (normDRC_ok _ Hn) as (a' & E & U & S). rewrite E, Hl. rewrite Hl in S.
  assert (a' = a) as ->. { rewrite Ha in S. apply (vscale_inj l); [lra|congruence]. }
  rewrite Ha, basis_scale in HB by lra. pose proof zTOL_small as Ts. pose proof zTOL_pos as Tp.
  assert (EV : vscale 1 a = a) by vring. cbv beta iota zeta. zvg.
  pose proof (catratio_ortho (ev0 c) (ev1 c) a 1 (vsub p (ec0 c)) U HB ltac:(lra) ltac:(lra)) as CR. rewrite EV in CR. rewrite CR.
  destruct HB as (B0 & B1 & B01 & BA0 & BA1).
  assert (X : dot (ev0 c) (vsub p (ec0 c)) = x).
  { rewrite Ep. transitivity (h * dot a (ev0 c) + x * dot (ev0 c) (ev0 c) + y * dot (ev0 c) (ev1 c)); [spec_unfold; ring|]. rewrite B0, B01, BA0. ring. }
  assert (Y : dot (ev1 c) (vsub p (ec0 c)) = y).
  { rewrite Ep. transitivity (h * dot a (ev1 c) + x * dot (ev0 c) (ev1 c) + y * dot (ev1 c) (ev1 c)); [spec_unfold; ring|]. rewrite B1, B01, BA1. ring. }
  assert (Z : dot a (vsub p (ec0 c)) / 1 = h).
  { rewrite Ep. transitivity (h * dot a a + x * dot a (ev0 c) + y * dot a (ev1 c)); [spec_unfold; field|]. rewrite U, BA0, BA1. ring. }
  rewrite X, Y, Z. cbn [vx vy vz].
  destruct (Rleb_reflect h (- m)) as [L|L]; cbn [orb].
  { exists false. split; [reflexivity|]. split; [discriminate|]. lra. }
  destruct (Rleb_reflect (l + m) h) as [L2|L2].
  { exists false. split; [reflexivity|]. split; [discriminate|]. lra. }
  eexists. split; [reflexivity|]. rewrite ellips2_inside. cbn [ecen erad0 erad1]. split; [intros K; split; [lra|exact K]|tauto].
Qed.
Lemma ecyl_closest ans c p l : exact_solver ans -> norm (vsub (ec1 c) (ec0 c)) = l -> 2 * zTOL <= l -> l * l * zTOL <= 1 ->
  0 < er0 c -> 0 < er1 c -> radial_basis (vsub (ec1 c) (ec0 c)) (ev0 c) (ev1 c) ->
  match zECyl3DClosest ans c p with
  | Some (d, cp) => nearest (in_ecyl (ec0 c) (ec1 c) (er0 c) (er1 c) (ev0 c) (ev1 c)) p cp /\ d = dist p cp
  | None => ~ in_ecyl (ec0 c) (ec1 c) (er0 c) (er1 c) (ev0 c) (ev1 c) p
  end.
Proof.
  intros HA Hl Hl1 Hl2 R0 R1 HB. pose proof zTOL_pos as Tp.
  assert (Hn : ~ negligible (vsub (ec1 c) (ec0 c))) by (apply long_not_negligible; lra).
  destruct (normDRC_ok _ Hn) as (a & _ & U & S). rewrite Hl in S.
  unfold zECyl3DClosest, zECyl3DAxis. zvg. set (ax := vsub (ec1 c) (ec0 c)) in *.
  assert (HB' : radial_basis a (ev0 c) (ev1 c)) by (rewrite S, basis_scale in HB by lra; exact HB).
  pose proof (catratio_ortho (ev0 c) (ev1 c) a l (vsub p (ec0 c)) U HB' ltac:(lra) ltac:(lra)) as CR. rewrite <- S in CR. rewrite CR. clear CR.
  destruct HB' as (B0 & B1 & B01 & BA0 & BA1).
  set (v := vsub p (ec0 c)). set (x := dot (ev0 c) v). set (y := dot (ev1 c) v). set (t := dot a v / l).
  cbn [vx vy vz].
  assert (MM : isometry (cols3 (ev0 c) (ev1 c) a)) by (apply iso_cols; auto; rewrite dot_comm; exact BA1).
  assert (Ev : v = vadd (vadd (vscale t ax) (vscale x (ev0 c))) (vscale y (ev1 c))).
  { rewrite <- (iso_inv_r _ v MM) at 1. rewrite S. unfold x, y, t. apply vec3_ext; spec_unfold; field; lra. }
  assert (DX : forall t' x' y', dist p (vadd (vadd (vadd (ec0 c) (vscale t' ax)) (vscale x' (ev0 c))) (vscale y' (ev1 c))) =
     sqrt (l * l * ((t - t') * (t - t')) + ((x - x') * (x - x') + (y - y') * (y - y')))).
  { intros t' x' y'. unfold dist, norm. f_equal.
    replace (vsub p _) with (vadd (vadd (vscale ((t - t') * l) a) (vscale (x - x') (ev0 c))) (vscale (y - y') (ev1 c))).
    2: { replace p with (vadd (ec0 c) v) by (unfold v; vring). rewrite Ev. rewrite S. clear; vring. }
    transitivity ((t - t') * l * ((t - t') * l) * dot a a + (x - x') * (x - x') * dot (ev0 c) (ev0 c) + (y - y') * (y - y') * dot (ev1 c) (ev1 c)
      + 2 * ((t - t') * l) * (x - x') * dot a (ev0 c) + 2 * ((t - t') * l) * (y - y') * dot a (ev1 c) + 2 * (x - x') * (y - y') * dot (ev0 c) (ev1 c)).
    { clear. spec_unfold; ring. }
    rewrite U, B0, B1, B01, BA0, BA1. ring. }
  pose proof (ellips2_closest ans (E2 (V2 0 0) (er0 c) (er1 c)) (V2 x y) HA R0 R1) as EC2. cbn [ecen erad0 erad1] in EC2.
  destruct (zEllips2DClosest ans _ _) as [[cx cy]|] eqn:EE; cbn [x2 y2].
  - destruct EC2 as [[C1 C2] _]. zvg. split; [|apply dist_sym].
    destruct (clamp_spec t 0 1 ltac:(lra)) as [CA CB]. set (tc := zLimit t 0 1) in *. split.
    + exists tc, cx, cy. split; [exact CA|]. split; [|reflexivity]. unfold in_ellipse in C1; cbn [x2 y2] in C1. rewrite !Rminus_0_r in C1. exact C1.
    + intros q (t' & x' & y' & T & N & ->). fold ax. rewrite !DX. apply sqrt_le_1_alt.
      assert (K : (x - cx) * (x - cx) + (y - cy) * (y - cy) <= (x - x') * (x - x') + (y - y') * (y - y')).
      { assert (M : dist2 (V2 x y) (V2 cx cy) <= dist2 (V2 x y) (V2 x' y')).
        { apply C2. unfold in_ellipse; cbn [x2 y2]. rewrite !Rminus_0_r. exact N. }
        rewrite <- !lift2_dist in M. unfold dist in M. 
        assert (Q : forall u w, norm u <= norm w -> dot u u <= dot w w).
        { intros u w Q. rewrite <- !norm_sqr. pose proof (norm_nonneg u). nra. }
        apply Q in M. clearbody x y. clear - M. unfold lift2 in M; cbn [x2 y2] in M. unfold dot, vsub in M; cbn [vx vy vz] in M. lra. }
      assert (K2 : (t - tc) * (t - tc) <= (t - t') * (t - t')) by (apply CB; exact T).
      assert (0 <= l * l) by nra. nra.
  - intros (t' & x' & y' & T & N & Ep). apply EC2. unfold in_ellipse; cbn [x2 y2]. rewrite !Rminus_0_r.
    assert (D0 : dist p p = 0) by apply dist_self. rewrite Ep in D0 at 2. fold ax in D0. rewrite DX in D0.
    assert (Q : l * l * ((t - t') * (t - t')) + ((x - x') * (x - x') + (y - y') * (y - y')) = 0).
    { apply sqrt_eq_0; [|exact D0]. pose proof (sqr_nonneg (t - t')). pose proof (sqr_nonneg (x - x')). pose proof (sqr_nonneg (y - y')). assert (0 <= l * l) by nra. nra. }
    pose proof (sqr_nonneg (t - t')). pose proof (sqr_nonneg (x - x')). pose proof (sqr_nonneg (y - y')).
    assert (0 <= l * l * ((t - t') * (t - t'))) by nra.
    assert (x = x') as -> by nra. assert (y = y') as -> by nra. exact N.
Qed.
Lemma ecyl_neg c0 c1 r0 r1 u0 u1 p : in_ecyl c0 c1 r0 r1 u0 (vscale (-1) u1) p <-> in_ecyl c0 c1 r0 r1 u0 u1 p.
Proof.
  split; intros (t & a & b & T & N & ->); exists t, a, (- b); (split; [exact T|]); (split; [|vring]);
    replace (- b / r1) with (- (b / r1)) by (unfold Rdiv; ring); lra.
Qed.
Lemma ecyl_xform c f : isometry (fatt f) -> forall p, let d := zECyl3DXform c f in let e := zECyl3DXformInv c f in
  (in_ecyl (ec0 d) (ec1 d) (er0 d) (er1 d) (ev0 d) (ev1 d) p <-> image f (in_ecyl (ec0 c) (ec1 c) (er0 c) (er1 c) (ev0 c) (ev1 c)) p) /\
  (in_ecyl (ec0 e) (ec1 e) (er0 e) (er1 e) (ev0 e) (ev1 e) p <-> in_ecyl (ec0 c) (ec1 c) (er0 c) (er1 c) (ev0 c) (ev1 c) (act f p)).
Proof.
  intros H p. unfold zECyl3DXform, zECyl3DXformInv; cbv zeta; cbn [ec0 ec1 er0 er1 ev0 ev1]. rewrite !xform_spec, !zmtv_spec.
  change (zMulMat3DVec3D (fatt f)) with (mvec (fatt f)).
  assert (I : forall q, zXform3DInv f (act f q) = q) by (intros; apply iso_inv_act, H).
  assert (J : forall q, act f (zXform3DInv f q) = q) by (intros; apply iso_act_inv, H).
  assert (I' : forall q, mvec (mtr (fatt f)) (mvec (fatt f) q) = q) by (intros; apply iso_inv_l, H).
  assert (J' : forall q, mvec (fatt f) (mvec (mtr (fatt f)) q) = q) by (intros; apply iso_inv_r, H).
  split; [apply image_iff; [exact H| |]|split].
  - intros q K. apply (rigid_ecyl _ _ _ _ _ _ _ _ _ (rigid_act f H)), K.
  - intros q K. apply (rigid_ecyl _ _ _ _ _ _ _ _ _ (rigid_inv f H)) in K. rewrite !I, !I' in K. exact K.
  - intros K. apply (rigid_ecyl _ _ _ _ _ _ _ _ _ (rigid_act f H)) in K. rewrite !J, !J' in K. exact K.
  - intros K. apply (rigid_ecyl _ _ _ _ _ _ _ _ _ (rigid_inv f H)) in K. rewrite !I in K. exact K.
Qed.
Lemma ecyl_mirror c a : (a < 3)%nat -> forall p, let d := zECyl3DMirror c a in
  (in_ecyl (ec0 d) (ec1 d) (er0 d) (er1 d) (ev0 d) (ev1 d) p <-> in_ecyl (ec0 c) (ec1 c) (er0 c) (er1 c) (ev0 c) (ev1 c) (reflect3 a p)).
Proof.
  intros L p. cbv zeta. unfold zECyl3DMirror; cbn [ec0 ec1 er0 er1 ev0 ev1].
  replace (zVec3DRev (flip_e a (ev1 c))) with (vscale (-1) (flip_e a (ev1 c))) by (zvg; vring). rewrite ecyl_neg.
  revert p. apply mirror_iff; try exact L; intros q K.
  - apply (rigid_ecyl _ _ _ _ _ _ _ _ _ (rigid_flip a)), K.
  - apply (rigid_ecyl _ _ _ _ _ _ _ _ _ (rigid_flip a)) in K. rewrite !flip_flip in K. exact K.
Qed.

(** ** examples used beside the properties *)
Lemma unit_axis_ok : ~ negligible (vsub (V3 0 0 1) (V3 0 0 0)).
Proof. unfold negligible, vsub; cbn [vx vy vz]. intros (_ & _ & H). pose proof zTOL_small. rewrite Rabs_pos_eq in H; lra. Qed.
Lemma unit_axis_norm : norm (vsub (V3 0 0 1) (V3 0 0 0)) = 1.
Proof. apply norm_unit. spec_unfold. ring. Qed.
Lemma cyl_sign_example : zCyl3DDistFromPoint (CY (V3 0 0 0) (V3 0 0 1) 1 0) (V3 0 0 2) < 0.
Proof.
  destruct (cyl_closest (CY (V3 0 0 0) (V3 0 0 1) 1 0) (V3 0 0 2) unit_axis_ok ltac:(cbn; lra)) as (dv & cp & h & w & A & _ & E & [N1 N2] & S & _).
  cbn [cc0 cc1 crad] in *. rewrite E. rewrite unit_axis_norm in S.
  assert (A' : axial (V3 0 0 0) (V3 0 0 1) (V3 0 0 2) 2 v3zero).
  { unfold axial. rewrite unit_axis_norm. split; [spec_unfold; ring|]. apply vec3_ext; spec_unfold; ring. }
  destruct (axial_fun _ _ _ _ _ _ _ ltac:(rewrite unit_axis_norm; lra) A A') as [-> ->].
  rewrite S. 2: { split; [lra|]. assert (norm v3zero = 0) as -> by (apply norm_zero_iff; reflexivity). lra. }
  destruct N1 as (t & w & T & O & Nw & ->).
  enough (0 < dist (V3 0 0 2) (vadd (vadd (V3 0 0 0) (vscale t (vsub (V3 0 0 1) (V3 0 0 0)))) w)) by lra.
  apply nonneg_norm_pos. unfold negligible. intros (_ & _ & Z). revert Z.
  unfold vsub, vadd, vscale, dot in *; cbn [vx vy vz] in *.
  pose proof zTOL_small. replace (vz w) with 0 by lra. rewrite Rabs_pos_eq; lra.
Qed.
Lemma cone_hyp_example : 2 * zTOL <= norm (vsub (V3 0 0 1) (V3 0 0 0)) /\
  forall h w, axial (V3 0 0 0) (V3 0 0 1) (V3 3 4 2) h w -> w = v3zero \/ ~ negligible w.
Proof.
  rewrite unit_axis_norm. pose proof zTOL_small. split; [lra|]. intros h w H1. right.
  assert (A' : axial (V3 0 0 0) (V3 0 0 1) (V3 3 4 2) 2 (V3 3 4 0)).
  { unfold axial. rewrite unit_axis_norm. split; [spec_unfold; ring|]. apply vec3_ext; spec_unfold; ring. }
  destruct (axial_fun _ _ _ _ _ _ _ ltac:(rewrite unit_axis_norm; lra) H1 A') as [-> ->].
  unfold negligible; cbn [vx vy vz]. intros (K & _). rewrite Rabs_pos_eq in K; lra.
Qed.
(** a solver that knows the answer of one equation *)
Lemma solver_example : exists ans, exact_solver ans /\ zEllips2DClosest ans (E2 (V2 0 0) 1 1) (V2 2 0) = Some (V2 1 0).
Proof.
  exists (fun cs => if Reqb (horner cs 1) 0 then [(1, 0)] else []). split.
  - intros cs re im. destruct (Reqb_reflect (horner cs 1) 0) as [E|E]; [|intros []]. intros [K|[]] _. injection K as <- <-. exact E.
  - unfold zEllips2DClosest, zEllips2DClosest0. cbn [ecen erad0 erad1]. unfold zVec2DSub, zVec2DAdd; cbn [x2 y2].
    rewrite (proj2 (Rltb_true _ _)) by (unfold zSqr; lra).
    match goal with |- context [Reqb ?x 0] => assert (E : x = 0) by (unfold horner, ellips2_poly, zSqr; cbn [fold_left]; ring); rewrite E end.
    rewrite (proj2 (Reqb_true 0 0) eq_refl). cbn [pick_root]. rewrite (proj2 (Rleb_true 0 1) ltac:(lra)).
    assert (T : zIsTiny 0 = true) by (apply zIsTol_true; rewrite Rabs_R0; apply zTOL_pos). rewrite T.
    f_equal. apply vec2_ext; cbn [x2 y2]; unfold zSqr; field.
Qed.
