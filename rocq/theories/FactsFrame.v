(** Proofs about frames, 6D vectors and 6x6 matrices. *)
From Verif Require Export ModelFrame FactsMat2.
From Coq Require Import ZArith.
Open Scope R_scope.

Ltac fdes := repeat match goal with
  | f : frame3 |- _ => destruct f as [?p ?m]
  | v : vec6 |- _ => destruct v as [?vl ?va]
  end.

(** ** frame algebra *)
Lemma xform_spec f p : zXform3D f p = act f p.
Proof. unfold zXform3D, act. zvec. zmat. apply vec3_ext; spec_unfold; ring. Qed.
Lemma xforminv_spec f p : zXform3DInv f p = mvec (mtr (fatt f)) (vsub p (fpos f)).
Proof. reflexivity. Qed.

Lemma act_mmul f g p : act f (act g p) = act (F3 (act f (fpos g)) (mmul (fatt f) (fatt g))) p.
Proof.
  unfold act; cbn [fpos fatt]. rewrite mvec_add, mvec_mmul.
  apply vec3_ext; cbn [vadd vx vy vz]; ring.
Qed.
Lemma cascade3_spec f g : zFrame3DCascade f g = F3 (act f (fpos g)) (mmul (fatt f) (fatt g)).
Proof. unfold zFrame3DCascade. rewrite xform_spec. reflexivity. Qed.
Lemma cascade_act f g p : act (zFrame3DCascade f g) p = act f (act g p).
Proof. rewrite cascade3_spec. symmetry. apply act_mmul. Qed.
Lemma frame_inv_act f p : rigid f -> act f (zXform3DInv f p) = p /\ zXform3DInv f (act f p) = p.
Proof.
  intros H. rewrite !xforminv_spec. unfold act. split.
  - rewrite (rotation_inv_r _ _ H). apply vec3_ext; spec_unfold; ring.
  - replace (vsub (vadd (fpos f) (mvec (fatt f) p)) (fpos f)) with (mvec (fatt f) p)
      by (apply vec3_ext; spec_unfold; ring).
    apply rotation_inv_l, H.
Qed.
Lemma act_inj f g : (forall p, act f p = act g p) -> f = g.
Proof.
  intros H. destruct f as [p m], g as [q n].
  assert (E : p = q).
  { specialize (H v3zero). unfold act in H; cbn in H. rewrite !mvec_zero in H.
    apply vec3_ext; [apply (f_equal vx) in H|apply (f_equal vy) in H|apply (f_equal vz) in H]; spec_unfold; lra. }
  subst q. f_equal. apply mvec_ext. intros v. specialize (H v). unfold act in H; cbn in H.
  apply vec3_ext; [apply (f_equal vx) in H|apply (f_equal vy) in H|apply (f_equal vz) in H];
  cbn [vadd vx vy vz] in H; lra.
Qed.
Lemma rigid_inv f : rigid f -> rigid (zFrame3DInv f).
Proof. intros H. unfold rigid, zFrame3DInv. cbn [fatt]. rewrite zt_spec. apply rotation_mtr, H. Qed.
Lemma rigid_cascade f g : rigid f -> rigid g -> rigid (zFrame3DCascade f g).
Proof. intros H K. unfold rigid. rewrite cascade3_spec. cbn. apply rotation_mmul; auto. Qed.
Lemma inv_act f p : act (zFrame3DInv f) p = zXform3DInv f p.
Proof.
  unfold zFrame3DInv, zXform3DInv, act. cbn [fpos fatt]. zvec. zmat. rewrite mvec_sub.
  apply vec3_ext; cbn [vadd vsub vneg vx vy vz]; ring.
Qed.
Lemma xformrel_spec f g : zFrame3DXform f g = zFrame3DCascade (zFrame3DInv f) g.
Proof.
  apply act_inj. intros p. rewrite cascade_act, inv_act. unfold zFrame3DXform, act at 1. cbn [fpos fatt].
  rewrite !xforminv_spec. unfold act. zmat. rewrite mvec_mmul, <- mvec_add. f_equal.
  apply vec3_ext; cbn [vadd vsub vx vy vz]; ring.
Qed.

Lemma fid_act p : act fid p = p.
Proof. unfold act, fid; cbn. rewrite mvec_id. apply vec3_ext; spec_unfold; ring. Qed.
Lemma frame_full f g h :
  ZFRAME3DIDENT = fid /\
  zFrame3DCascade fid f = f /\ zFrame3DCascade f fid = f /\
  zFrame3DCascade (zFrame3DCascade f g) h = zFrame3DCascade f (zFrame3DCascade g h) /\
  (rigid f -> zFrame3DCascade f (zFrame3DInv f) = fid /\ zFrame3DCascade (zFrame3DInv f) f = fid /\
    zFrame3DInv (zFrame3DInv f) = f /\ rigid (zFrame3DInv f) /\ (rigid g -> rigid (zFrame3DCascade f g))).
Proof.
  split; [reflexivity|].
  split. { apply act_inj. intros p. rewrite cascade_act. apply fid_act. }
  split. { apply act_inj. intros p. rewrite cascade_act, fid_act. reflexivity. }
  split. { apply act_inj. intros p. rewrite !cascade_act. reflexivity. }
  intros H. pose proof (rigid_inv f H) as H'.
  assert (A : zFrame3DCascade f (zFrame3DInv f) = fid).
  { apply act_inj. intros p. rewrite cascade_act, inv_act, fid_act. apply frame_inv_act, H. }
  assert (B : zFrame3DCascade (zFrame3DInv f) f = fid).
  { apply act_inj. intros p. rewrite cascade_act, inv_act, fid_act. apply frame_inv_act, H. }
  repeat split; auto using rigid_cascade; try apply H'.
  - apply act_inj. intros p. rewrite inv_act.
    destruct (frame_inv_act f p H) as [E1 E2].
    transitivity (zXform3DInv (zFrame3DInv f) (act (zFrame3DInv f) (act f p))).
    + f_equal. rewrite inv_act. symmetry. exact E2.
    + apply (frame_inv_act (zFrame3DInv f) _ H').
  - apply rigid_cascade; auto.
  - apply rigid_cascade; auto.
Qed.
Lemma frame_points f g p q :
  zXform3D f p = act f p /\ zXform3D (zFrame3DCascade f g) p = zXform3D f (zXform3D g p) /\
  zXform3D (zFrame3DInv f) p = zXform3DInv f p /\
  (rigid f -> zXform3D f (zXform3DInv f p) = p /\ zXform3DInv f (zXform3D f p) = p /\
     dist (zXform3D f p) (zXform3D f q) = dist p q /\
     dist (zXform3DInv f p) (zXform3DInv f q) = dist p q).
Proof.
  rewrite !xform_spec. split; [reflexivity|]. split; [apply cascade_act|]. split; [apply inv_act|].
  intros H. split; [apply frame_inv_act, H|]. split; [apply frame_inv_act, H|].
  split.
  - unfold act, dist.
    replace (vsub (vadd (fpos f) (mvec (fatt f) p)) (vadd (fpos f) (mvec (fatt f) q)))
      with (mvec (fatt f) (vsub p q)) by (rewrite mvec_sub; apply vec3_ext; cbn [vsub vadd vx vy vz]; ring).
    apply rotation_norm, H.
  - rewrite !xforminv_spec. unfold dist. rewrite <- mvec_sub.
    rewrite rotation_norm by (apply rotation_mtr, H). f_equal. apply vec3_ext; cbn [vsub vx vy vz]; ring.
Qed.
Lemma frame_relative f g : rigid f ->
  zFrame3DCascade f (zFrame3DXform f g) = g /\
  (forall h, zFrame3DCascade f h = g -> h = zFrame3DXform f g) /\
  zFrame3DXform f f = fid.
Proof.
  intros H. rewrite xformrel_spec.
  destruct (frame_full f (zFrame3DInv f) g) as (_ & _ & _ & A & B). destruct (B H) as (B1 & B2 & _).
  split; [|split].
  - rewrite <- A, B1. destruct (frame_full g g g) as (_ & C & _). exact C.
  - intros h <-. destruct (frame_full (zFrame3DInv f) f h) as (_ & _ & _ & D & _). rewrite <- D, B2.
    destruct (frame_full h h h) as (_ & C & _). symmetry. exact C.
  - rewrite xformrel_spec. exact B2.
Qed.

(** error and twist *)
Lemma twist_error f1 f2 : rotation (fatt f1) -> rotation (fatt f2) ->
  let r := mmul (fatt f1) (mtr (fatt f2)) in
  norm (skewv r) = 0 \/ 4 * zTOL <= norm (skewv r) ->
  zFrame3DTwist f2 (zFrame3DError f1 f2) = f1.
Proof.
  intros H1 H2 r L. unfold zFrame3DTwist, zFrame3DError. cbn [lin ang].
  unfold zMat3DRot, zMat3DError. zmat. fold r. rewrite aa_roundtrip; auto.
  - destruct f1 as [p1 m1], f2 as [p2 m2]; cbn [fpos fatt] in *. f_equal.
    + zvec. apply vec3_ext; spec_unfold; ring.
    + unfold r. rewrite <- mmul_assoc. destruct H2 as [H2 _]. rewrite H2. apply mmul_id_r.
  - apply rotation_mmul; auto. apply rotation_mtr, H2.
Qed.

(** ** parameterised frames *)
Lemma dh_spec a alpha d theta :
  zFrame3DFromDH a alpha d theta =
  zFrame3DCascade (ftrans (V3 a 0 0)) (zFrame3DCascade (frot (rotx alpha))
    (zFrame3DCascade (ftrans (V3 0 0 d)) (frot (rotz theta)))) /\
  rigid (zFrame3DFromDH a alpha d theta).
Proof.
  assert (E : zFrame3DFromDH a alpha d theta =
    zFrame3DCascade (ftrans (V3 a 0 0)) (zFrame3DCascade (frot (rotx alpha))
      (zFrame3DCascade (ftrans (V3 0 0 d)) (frot (rotz theta))))).
  { rewrite !cascade3_spec. unfold zFrame3DFromDH, ftrans, frot, act. cbn [fpos fatt].
    f_equal; [apply vec3_ext|apply mat3_ext]; mod_unfold; ring. }
  split; [exact E|]. rewrite E.
  assert (T : forall v, rigid (ftrans v)) by (intros; unfold rigid; apply rotation_mid).
  repeat apply rigid_cascade; auto; unfold rigid, frot; cbn; [apply rotation_rotx|apply rotation_rotz].
Qed.
Lemma posangle_roundtrip f : rigid f ->
  zVec6DToFrame3DZYX (zFrame3DToVec6DZYX f) = f /\ zVec6DToFrame3DZYZ (zFrame3DToVec6DZYZ f) = f /\
  (norm (skewv (fatt f)) = 0 \/ 4 * zTOL <= norm (skewv (fatt f)) -> zVec6DToFrame3DAA (zFrame3DToVec6DAA f) = f).
Proof.
  intros H. destruct f as [[x y z] m]. unfold rigid in H. cbn [fatt] in *.
  unfold zVec6DToFrame3DZYX, zFrame3DToVec6DZYX, zVec6DToFrame3DZYZ, zFrame3DToVec6DZYZ, zVec6DToFrame3DAA,
    zFrame3DToVec6DAA, zFrame3DFromPosZYX, zFrame3DFromPosZYZ, zFrame3DFromPosAA. cbn [lin ang fpos fatt vx vy vz].
  repeat split; [f_equal; apply zyx_roundtrip, H|f_equal; apply zyz_roundtrip, H|].
  intros L. f_equal. rewrite <- (aa_roundtrip m H L) at 4. destruct (zMat3DToAA m); reflexivity.
Qed.
Lemma posangle_rigid v :
  rigid (zVec6DToFrame3DZYX v) /\ rigid (zVec6DToFrame3DZYZ v) /\ rigid (zVec6DToFrame3DAA v) /\
  fpos (zVec6DToFrame3DZYX v) = lin v /\ fpos (zVec6DToFrame3DZYZ v) = lin v /\ fpos (zVec6DToFrame3DAA v) = lin v.
Proof.
  destruct v as [[x y z] [a b c]]. cbn. unfold rigid; cbn.
  repeat split; try apply zyx_rotation; try apply zyz_rotation; try apply fromaa_rotation.
Qed.

(** ** spatial vectors *)
Lemma shift_spec t p : zVec6DLinShift t p = twist_at t p /\ zVec6DLinShiftDRC t p = twist_at t p /\
  zVec6DAngShift t p = wrench_from t p /\ zVec6DAngShiftDRC t p = wrench_from t p.
Proof. repeat split. Qed.
Lemma inner6_spec a b : zVec6DInnerProd a b = power a b.
Proof. reflexivity. Qed.
Lemma turn6_spec m v : zMulMat3DVec6D m v = turn6 m v /\ zMulMat3DTVec6D m v = turn6 (mtr m) v.
Proof. split; reflexivity. Qed.
Lemma vec6_ext a b : lin a = lin b -> ang a = ang b -> a = b.
Proof. destruct a, b; cbn; intros; subst; reflexivity. Qed.
Ltac sixr := fdes; unfold twist_at, wrench_from, power, turn6 in *; cbn [lin ang fpos fatt] in *; spec_unfold; ring.
Ltac six := apply vec6_ext; apply vec3_ext; sixr.
Lemma power_shift w t p : power (wrench_from w p) t = power w (twist_at t p).
Proof. sixr. Qed.
Lemma twist_at_add t p q : twist_at (twist_at t p) q = twist_at t (vadd p q).
Proof. six. Qed.
Lemma twist_at_0 t : twist_at t v3zero = t.
Proof. six. Qed.
Lemma wrench_from_add t p q : wrench_from (wrench_from t p) q = wrench_from t (vadd p q).
Proof. six. Qed.
Lemma wrench_from_0 t : wrench_from t v3zero = t.
Proof. six. Qed.
Lemma vadd_neg p : vadd p (vneg p) = v3zero.
Proof. apply vec3_ext; spec_unfold; ring. Qed.

Lemma shift_full w t p q :
  zVec6DLinShift t p = twist_at t p /\ zVec6DAngShift w p = wrench_from w p /\
  zVec6DLinShiftDRC t p = twist_at t p /\ zVec6DAngShiftDRC w p = wrench_from w p /\
  zVec6DInnerProd (zVec6DAngShift w p) t = zVec6DInnerProd w (zVec6DLinShift t p) /\
  zVec6DInnerProd (zVec6DAngShift w (vneg p)) (zVec6DLinShift t p) = zVec6DInnerProd w t /\
  zVec6DLinShift (zVec6DLinShift t p) q = zVec6DLinShift t (vadd p q) /\
  zVec6DAngShift (zVec6DAngShift w p) q = zVec6DAngShift w (vadd p q) /\
  zVec6DLinShift (zVec6DLinShift t p) (vneg p) = t /\
  zVec6DAngShift (zVec6DAngShift w p) (vneg p) = w.
Proof.
  rewrite !inner6_spec.
  repeat match goal with |- context [zVec6DLinShift ?a ?b] => change (zVec6DLinShift a b) with (twist_at a b) end.
  repeat match goal with |- context [zVec6DAngShift ?a ?b] => change (zVec6DAngShift a b) with (wrench_from a b) end.
  rewrite !twist_at_add, !wrench_from_add, !vadd_neg, twist_at_0, wrench_from_0.
  repeat split. - apply power_shift.
  - rewrite <- power_shift, wrench_from_add.
    replace (vadd (vneg p) p) with v3zero by (apply vec3_ext; spec_unfold; ring).
    rewrite wrench_from_0. reflexivity.
Qed.

Lemma turn6_mmul a b v : turn6 a (turn6 b v) = turn6 (mmul a b) v.
Proof. unfold turn6; cbn. rewrite !mvec_mmul. reflexivity. Qed.
Lemma turn6_id v : turn6 mid v = v.
Proof. unfold turn6. rewrite !mvec_id. destruct v; reflexivity. Qed.
Lemma power_turn m w t : power (turn6 m w) t = power w (turn6 (mtr m) t).
Proof. unfold power, turn6; cbn. rewrite !dot_mvec. reflexivity. Qed.

Lemma turn_twist_at r t p : rotation r -> turn6 r (twist_at t p) = twist_at (turn6 r t) (mvec r p).
Proof.
  intros H. unfold turn6, twist_at; cbn [lin ang]. f_equal.
  rewrite mvec_add, <- rotation_cross_mvec by exact H. reflexivity.
Qed.
Lemma turn_wrench_from r t p : rotation r -> turn6 r (wrench_from t p) = wrench_from (turn6 r t) (mvec r p).
Proof.
  intros H. unfold turn6, wrench_from; cbn [lin ang]. f_equal.
  rewrite mvec_add, <- rotation_cross_mvec by exact H. reflexivity.
Qed.
Lemma turn6_inv_l r v : rotation r -> turn6 (mtr r) (turn6 r v) = v.
Proof. intros [H _]. rewrite turn6_mmul, H. apply turn6_id. Qed.
Lemma turn6_inv_r r v : rotation r -> turn6 r (turn6 (mtr r) v) = v.
Proof. intros H. rewrite turn6_mmul, (rotation_tr_r _ H). apply turn6_id. Qed.

Lemma xform6_spec f v : zXform6DLin f v = turn6 (mtr (fatt f)) (twist_at v (fpos f)) /\
  zXform6DAng f v = wrench_from (turn6 (fatt f) v) (fpos f).
Proof. split; reflexivity. Qed.
Lemma neg_cancel p : vadd p (vneg p) = v3zero /\ vadd (vneg p) p = v3zero.
Proof. split; apply vec3_ext; spec_unfold; ring. Qed.

Lemma xform6_dual f w t :
  zXform6DLin f t = turn6 (mtr (fatt f)) (twist_at t (fpos f)) /\
  zXform6DAng f w = wrench_from (turn6 (fatt f) w) (fpos f) /\
  zVec6DInnerProd (zXform6DAng f w) t = zVec6DInnerProd w (zXform6DLin f t).
Proof.
  rewrite !inner6_spec. destruct (xform6_spec f t) as [-> _]. rewrite !(proj2 (xform6_spec _ _)).
  repeat split. rewrite power_shift, power_turn. reflexivity.
Qed.
Lemma xform6_group f g w t : rigid f -> rigid g ->
  zXform6DAng (zFrame3DCascade f g) w = zXform6DAng f (zXform6DAng g w) /\
  zXform6DLin (zFrame3DCascade f g) t = zXform6DLin g (zXform6DLin f t) /\
  zXform6DAng (zFrame3DInv f) (zXform6DAng f w) = w /\ zXform6DAng f (zXform6DAng (zFrame3DInv f) w) = w /\
  zXform6DLin (zFrame3DInv f) (zXform6DLin f t) = t /\ zXform6DLin f (zXform6DLin (zFrame3DInv f) t) = t.
Proof.
  intros H K.
  assert (CA : forall f g w, rigid f -> zXform6DAng (zFrame3DCascade f g) w = zXform6DAng f (zXform6DAng g w)).
  { clear. intros f g w H. rewrite !(proj2 (xform6_spec _ _)), cascade3_spec; cbn [fpos fatt].
    rewrite turn_wrench_from by exact H. rewrite turn6_mmul, wrench_from_add. f_equal.
    unfold act. apply vec3_ext; cbn [vadd vx vy vz]; ring. }
  assert (CL : forall f g t, rigid f -> zXform6DLin (zFrame3DCascade f g) t = zXform6DLin g (zXform6DLin f t)).
  { clear. intros f g w H. rewrite !(proj1 (xform6_spec _ _)), cascade3_spec; cbn [fpos fatt].
    rewrite mtr_mmul, <- turn6_mmul. f_equal.
    rewrite <- (turn6_inv_l (fatt f) (twist_at (turn6 _ _) _)) by exact H. f_equal.
    rewrite turn_twist_at by exact H. rewrite turn6_inv_r by exact H. rewrite twist_at_add. reflexivity. }
  destruct (frame_full f g g) as (_ & _ & _ & _ & F). destruct (F H) as (F1 & F2 & _ & HI & _).
  assert (IA : forall w, zXform6DAng fid w = w).
  { intros v. rewrite (proj2 (xform6_spec _ _)). cbn. rewrite turn6_id. apply wrench_from_0. }
  assert (IL : forall w, zXform6DLin fid w = w).
  { intros v. rewrite (proj1 (xform6_spec _ _)). cbn. rewrite mtr_mid, turn6_id. apply twist_at_0. }
  repeat split; auto; rewrite <- ?CA, <- ?CL by auto; rewrite ?F1, ?F2; auto.
Qed.

(** ** views *)
Lemma translate_view f x y z : zFrame3DTranslateView f x y z = zFrame3DCascade f (ftrans (V3 x y z)).
Proof.
  rewrite cascade3_spec. unfold zFrame3DTranslateView, act, ftrans. cbn [fpos fatt]. rewrite mmul_id_r. reflexivity.
Qed.
Lemma rotate_view f t x y z : 2 * zTOL <= norm (V3 x y z) -> 2 * zTOL <= t ->
  exists n, norm n = 1 /\ vscale (norm (V3 x y z)) n = V3 x y z /\
    zFrame3DRotateView f t x y z = zFrame3DCascade f (frot (rodm n t)).
Proof.
  intros H T. pose proof zTOL_pos.
  assert (NN : ~ negligible (V3 x y z)) by (apply long_not_negligible; lra).
  destruct (normalize3_ok (V3 x y z) (V3 x y z) NN) as (n & E & U & S).
  exists n. repeat split; auto. unfold zFrame3DRotateView, zVec3DNormalizeDRC. rewrite E.
  replace (zIsTiny (norm (V3 x y z))) with false.
  - rewrite cascade3_spec. unfold act, frot; cbn [fpos fatt]. f_equal.
    + rewrite mvec_zero. apply vec3_ext; spec_unfold; ring.
    + zvec. rewrite fromaa_axis; auto.
  - symmetry. apply zIsTiny_false. rewrite Rabs_right; [lra|]. apply Rle_ge, norm_nonneg.
Qed.
Lemma rotate_view_neg f t x y z : negligible (V3 x y z) -> zFrame3DRotateView f t x y z = f.
Proof.
  intros H. unfold zFrame3DRotateView, zVec3DNormalizeDRC. rewrite normalize3_tiny by exact H.
  rewrite zIsTiny_0. reflexivity.
Qed.
Lemma lookat_view f ex ey ez cx cy cz ux uy uz :
  let g := V3 (ex - cx) (ey - cy) (ez - cz) in
  let u := V3 ux uy uz in
  let o := vsub u (vscale (dot u g / dot g g) g) in
  ~ negligible g -> ~ negligible o ->
  let f' := zFrame3DLookAtView f ex ey ez cx cy cz ux uy uz in
  fpos f' = V3 ex ey ez /\ rotation (fatt f') /\
  vscale (norm g) (col0 (fatt f')) = g /\
  vscale (norm o) (col2 (fatt f')) = o.
Proof.
  intros g u o Hg Ho f'.
  assert (O : zVec3DOrthogonalize u g = Some o).
  { unfold zVec3DOrthogonalize. rewrite (proj2 (zVec3DIsTiny_false g) Hg). f_equal. zvec. unfold o.
    pose proof (dot_pos_not_negl g Hg). rewrite (dot_comm g u).
    apply vec3_ext; cbn [vadd vsub vscale vx vy vz]; field; lra. }
  destruct (normalize3_ok g (bx (fatt f)) Hg) as (x & Ex & Ux & Sx).
  destruct (normalize3_ok o (bz (fatt f)) Ho) as (z & Ez & Uz & Sz).
  assert (P : dot z x = 0).
  { assert (dot o g = 0).
    { unfold o. pose proof (dot_pos_not_negl g Hg).
      replace (dot (vsub u (vscale (dot u g / dot g g) g)) g) with (dot u g - dot u g / dot g g * dot g g)
        by (spec_unfold; ring). field. lra. }
    rewrite <- Sx, <- Sz in H. pose proof (nonneg_norm_pos g Hg). pose proof (nonneg_norm_pos o Ho).
    replace (dot (vscale (norm o) z) (vscale (norm g) x)) with (norm o * norm g * dot z x) in H by (spec_unfold; ring).
    apply Rmult_integral in H. destruct H as [H|H]; [|exact H]. nra. }
  assert (F : f' = F3 (V3 ex ey ez) (cols3 x (cross z x) z)).
  { unfold f', zFrame3DLookAtView. fold g u. rewrite O, Ex, Ez. cbn [snd]. zvec. reflexivity. }
  rewrite F. cbn [fpos fatt]. split; [reflexivity|].
  split; [|split].
  - apply norm_unit in Ux, Uz. clear - Ux Uz P. split.
    + assert (A : dot (cross z x) (cross z x) = 1).
      { replace (dot (cross z x) (cross z x)) with (dot x x * dot z z - dot z x * dot z x) by (spec_unfold; ring).
        rewrite Ux, Uz, P. ring. }
      assert (B : dot x (cross z x) = 0) by (spec_unfold; ring).
      assert (C : dot z (cross z x) = 0) by (spec_unfold; ring).
      apply mat3_ext; spec_unfold; lra.
    + rewrite mdet_cols. replace (det3v x (cross z x) z) with (dot x x * dot z z - dot z x * dot z x) by (spec_unfold; ring).
      rewrite Ux, Uz, P. ring.
  - rewrite <- Sx at 2. f_equal. destruct x; reflexivity.
  - rewrite <- Sz at 2. f_equal. destruct z; reflexivity.
Qed.
Lemma gaze_view f cx cy cz d pan tilt roll :
  let f' := zFrame3DGazeAndRotateView f cx cy cz d pan tilt roll in
  fatt f' = mmul (fatt f) (mmul (rotz pan) (mmul (roty tilt) (rotx roll))) /\
  fpos f' = vadd (V3 cx cy cz) (vscale d (col0 (fatt f'))) /\
  (rigid f -> rigid f' /\ dist (fpos f') (V3 cx cy cz) = Rabs d).
Proof.
  intros f'. assert (A : fatt f' = mmul (fatt f) (mmul (rotz pan) (mmul (roty tilt) (rotx roll)))).
  { unfold f', zFrame3DGazeAndRotateView. cbn [fatt]. zmat. rewrite zyx_spec. reflexivity. }
  assert (B : fpos f' = vadd (V3 cx cy cz) (vscale d (col0 (fatt f')))) by reflexivity.
  split; [exact A|]. split; [exact B|]. intros H.
  assert (C : rigid f').
  { unfold rigid. rewrite A. repeat apply rotation_mmul; auto using rotation_rotz, rotation_roty, rotation_rotx. }
  split; [exact C|]. rewrite B. unfold dist.
  replace (vsub (vadd (V3 cx cy cz) (vscale d (col0 (fatt f')))) (V3 cx cy cz)) with (vscale d (col0 (fatt f')))
    by (apply vec3_ext; cbn [vsub vadd vscale vx vy vz]; ring).
  rewrite norm_scale. replace (norm (col0 (fatt f'))) with 1; [ring|].
  symmetry. apply norm_unit. destruct C as [C _]. apply (f_equal cxx) in C. spec_unfold. lra.
Qed.
Lemma lookat_refuted :
  let f' := zFrame3DLookAtView fid 0 0 0 1 0 0 0 0 1 in
  vscale (norm (V3 1 0 0)) (col0 (fatt f')) = vneg (V3 1 0 0).
Proof.
  destruct (lookat_view fid 0 0 0 1 0 0 0 0 1) as (_ & _ & A & _).
  - pose proof zTOL_small. intros (K & _). cbn in K. replace (0 - 1) with (- (1)) in K by ring.
    rewrite Rabs_Ropp, Rabs_R1 in K. lra.
  - pose proof zTOL_small. intros (_ & _ & K).
    match type of K with Rabs ?e < _ => replace e with 1 in K end. { rewrite Rabs_R1 in K. lra. }
    spec_unfold. field.
  - cbn zeta. replace (norm (V3 1 0 0)) with (norm (V3 (0 - 1) (0 - 0) (0 - 0))).
    + rewrite A. apply vec3_ext; spec_unfold; ring.
    + unfold norm. f_equal. spec_unfold. ring.
Qed.

(** ** 6x6 matrices *)
Definition idx6 (i : nat) := (i < 6)%nat.
Lemma idx6_cases i : (i < 6)%nat -> i = 0%nat \/ i = 1%nat \/ i = 2%nat \/ i = 3%nat \/ i = 4%nat \/ i = 5%nat.
Proof. lia. Qed.
Ltac six_cases H := destruct (idx6_cases _ H) as [-> | [-> | [-> | [-> | [-> | ->]]]]].
Ltac m6red := lazy beta iota zeta delta [mnth6 vnth6 Nat.ltb Nat.leb Nat.sub mnth vnth col0 col1 col2 sum6
  zMulMat6DVec6D zMulMat6DTVec6D zMulMat6DMat6D zMulMat6DTMat6D zMulMat6DMat6DT zMat6DDyad zMat6DT zMat6DAdd zMat6DSub zMat6DMul
  zVec3DAdd zMulMat3DVec3D zMulMat3DTVec3D zMat3DAdd zMat3DSub zMat3DMul zMulMat3DMat3D zMulMat3DTMat3D zMulMat3DMat3DT zMulMat3DMat3DTElem zMat3DT zMat3DDyad
  zVec3DSub zVec3DMul zVec3DInnerProd bx by_ bz of_b ll la al aa lin ang vx vy vz cxx cxy cxz cyx cyy cyz czx czy czz zMat3DCreate zMat3DRow zMat3DVec me ve].

Lemma mat6_mulvec m v i : (i < 6)%nat ->
  vnth6 (zMulMat6DVec6D m v) i = sum6 (fun j => mnth6 m i j * vnth6 v j) /\
  vnth6 (zMulMat6DTVec6D m v) i = sum6 (fun j => mnth6 m j i * vnth6 v j).
Proof.
  intros H. destruct m as [a b c d], v as [p q]. destruct a, b, c, d, p, q. six_cases H; split; m6red; ring.
Qed.
Lemma mat6_mul m n i j : (i < 6)%nat -> (j < 6)%nat ->
  mnth6 (zMulMat6DMat6D m n) i j = sum6 (fun k => mnth6 m i k * mnth6 n k j) /\
  mnth6 (zMulMat6DTMat6D m n) i j = sum6 (fun k => mnth6 m k i * mnth6 n k j) /\
  mnth6 (zMulMat6DMat6DT m n) i j = sum6 (fun k => mnth6 m i k * mnth6 n j k).
Proof.
  intros H K. destruct m as [a b c d], n as [e f g h]. destruct a, b, c, d, e, f, g, h.
  six_cases H; six_cases K; repeat split; m6red; ring.
Qed.
Lemma mat6_entries m n v w k i j : (i < 6)%nat -> (j < 6)%nat ->
  mnth6 (zMat6DT m) i j = mnth6 m j i /\ mnth6 (zMat6DDyad v w) i j = vnth6 v i * vnth6 w j /\
  mnth6 (zMat6DAdd m n) i j = mnth6 m i j + mnth6 n i j /\
  mnth6 (zMat6DSub m n) i j = mnth6 m i j - mnth6 n i j /\
  mnth6 (zMat6DMul m k) i j = k * mnth6 m i j.
Proof.
  intros H K. destruct m as [a b c d], n as [e f g h], v as [p q], w as [r s]. destruct a, b, c, d, e, f, g, h, p, q, r, s.
  six_cases H; six_cases K; repeat split; m6red; ring.
Qed.
Lemma mat6_div m k i j : (i < 6)%nat -> (j < 6)%nat ->
  (k = 0 -> zMat6DDiv m k = None) /\
  (k <> 0 -> exists d, zMat6DDiv m k = Some d /\ k * mnth6 d i j = mnth6 m i j).
Proof.
  intros H K. unfold zMat6DDiv. split; intros E.
  - rewrite (proj2 (Reqb_true k 0) E). reflexivity.
  - rewrite (proj2 (Reqb_false k 0) E). eexists. split; [reflexivity|].
    destruct (mat6_entries m m (V6 v3zero v3zero) (V6 v3zero v3zero) (1 / k) i j H K) as (_ & _ & _ & _ & ->). field. exact E.
Qed.
Lemma mat6_rowcol m i : (i < 6)%nat ->
  (exists r, zMat6DRow m (Z.of_nat i) = Some r /\ forall j, (j < 6)%nat -> vnth6 r j = mnth6 m i j) /\
  (exists c, zMat6DCol m (Z.of_nat i) = Some c /\ forall j, (j < 6)%nat -> vnth6 c j = mnth6 m j i).
Proof.
  intros H. destruct m as [a b c d].
  six_cases H; split; eexists; (split; [reflexivity|]); intros j Hj; six_cases Hj; reflexivity.
Qed.
Lemma mat6_badindex m i : (i < 0 \/ 5 < i)%Z -> zMat6DRow m i = None /\ zMat6DCol m i = None.
Proof.
  intros H. unfold zMat6DRow, zMat6DCol.
  replace ((i <? 0)%Z || (i >? 5)%Z) with true; [auto|]. symmetry. apply orb_true_iff.
  destruct H; [left; apply Z.ltb_lt; lia|right; rewrite Z.gtb_ltb; apply Z.ltb_lt; lia].
Qed.
Lemma mat6_create a b c d i j : (i < 3)%nat -> (j < 3)%nat ->
  let m := zMat6DCreate a b c d in
  mnth6 m i j = mnth a i j /\ mnth6 m i (j + 3) = mnth b i j /\
  mnth6 m (i + 3) j = mnth c i j /\ mnth6 m (i + 3) (j + 3) = mnth d i j.
Proof.
  intros H K. assert (C : (i = 0 \/ i = 1 \/ i = 2)%nat) by lia. assert (D : (j = 0 \/ j = 1 \/ j = 2)%nat) by lia.
  destruct C as [-> | [-> | ->]]; destruct D as [-> | [-> | ->]]; repeat split.
Qed.
Lemma mat6_put m r c x i j : (i < 6)%nat -> (j < 6)%nat ->
  mnth6 (zMat6DPutMat3D m r c x) i j =
  if eqb r (Nat.leb 3 i) && eqb c (Nat.leb 3 j) then mnth x (i mod 3) (j mod 3) else mnth6 m i j.
Proof. intros H K. six_cases H; six_cases K; destruct r, c; reflexivity. Qed.
Lemma mat6_ext m n : (forall i j, (i < 6)%nat -> (j < 6)%nat -> mnth6 m i j = mnth6 n i j) -> m = n.
Proof.
  intros H. destruct m as [a b c d], n as [e f g h].
  assert (E : forall i j, (i < 3)%nat -> (j < 3)%nat -> mnth a i j = mnth e i j /\ mnth b i j = mnth f i j /\
    mnth c i j = mnth g i j /\ mnth d i j = mnth h i j).
  { intros i j Hi Hj. assert (C : (i = 0 \/ i = 1 \/ i = 2)%nat) by lia. assert (D : (j = 0 \/ j = 1 \/ j = 2)%nat) by lia.
    pose proof (H i j) as H1. pose proof (H (i + 3) j)%nat as H2. pose proof (H i (j + 3))%nat as H3.
    pose proof (H (i + 3) (j + 3))%nat as H4.
    destruct C as [-> | [-> | ->]]; destruct D as [-> | [-> | ->]]; cbn in H1, H2, H3, H4 |- *;
    (repeat split; [apply H1|apply H2|apply H3|apply H4]; lia). }
  assert (X : forall a e, (forall i j, (i < 3)%nat -> (j < 3)%nat -> mnth a i j = mnth e i j) -> a = e).
  { clear. intros a e H. apply mat3_ext;
    [apply (H 0 0)%nat|apply (H 1 0)%nat|apply (H 2 0)%nat|apply (H 0 1)%nat|apply (H 1 1)%nat|apply (H 2 1)%nat
    |apply (H 0 2)%nat|apply (H 1 2)%nat|apply (H 2 2)%nat]; lia. }
  f_equal; apply X; intros i j Hi Hj; apply E; auto.
Qed.
Lemma mat6_print m : (forall i j, (i < 6)%nat -> (j < 6)%nat ->
    nth j (nth i (zMat6DFPrint m) []) 0 = mnth6 m i j) <-> la m = al m.
Proof.
  destruct m as [a b c d]. cbn [la al]. split.
  - intros H. apply mat3_ext;
    [apply (H 0 3)%nat|apply (H 1 3)%nat|apply (H 2 3)%nat|apply (H 0 4)%nat|apply (H 1 4)%nat|apply (H 2 4)%nat
    |apply (H 0 5)%nat|apply (H 1 5)%nat|apply (H 2 5)%nat]; lia.
  - intros <- i j H K. six_cases H; six_cases K; reflexivity.
Qed.
Lemma mat6_ctor a b c d : zMat6D_constructor a b c d = zMat6DCreate a b c d <-> b = c.
Proof.
  unfold zMat6D_constructor, zMat6DCreate. split; [|intros ->; reflexivity].
  intros H. inversion H. reflexivity.
Qed.
