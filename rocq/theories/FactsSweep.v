(** Geometry of the generated meshes. *)
From Verif Require Import Base Spec SpecGeom SpecFrame SpecBox SpecShape SpecMesh SpecSweep ModelMesh FactsVec FactsAlg FactsElem FactsPH FactsPH4 FactsMesh FactsMesh2 FactsMesh3 FactsMesh4 FactsMesh5 FactsMesh6.
From Coq Require Import Lia Lra.
Open Scope R_scope.

(** ** orientation of three points of the unit circle *)
Definition orient (a b c : R) : R := (cos b - cos a) * (sin c - sin a) - (sin b - sin a) * (cos c - cos a).
Lemma orient_prod a b c : orient a b c = 4 * sin ((b - a) / 2) * sin ((c - b) / 2) * sin ((c - a) / 2).
Proof.
  unfold orient.
  replace (cos b - cos a) with (-2 * sin ((b - a) / 2) * sin ((b + a) / 2)) by (rewrite form2; ring).
  replace (sin c - sin a) with (2 * cos ((c + a) / 2) * sin ((c - a) / 2)) by (rewrite form4; ring).
  replace (sin b - sin a) with (2 * cos ((b + a) / 2) * sin ((b - a) / 2)) by (rewrite form4; ring).
  replace (cos c - cos a) with (-2 * sin ((c - a) / 2) * sin ((c + a) / 2)) by (rewrite form2; ring).
  replace ((c - b) / 2) with ((c + a) / 2 - (b + a) / 2) by field.
  rewrite sin_minus. ring.
Qed.
Lemma orient_cyc a b c : orient a b c = orient b c a.
Proof. unfold orient. ring. Qed.
Lemma orient_swap a b c : orient a c b = - orient a b c.
Proof. unfold orient. ring. Qed.
Lemma half_sin_nonneg x : 0 <= x <= 2 * PI -> 0 <= sin (x / 2).
Proof. intros H. apply sin_ge_0; lra. Qed.
Lemma half_sin_pos x : 0 < x < 2 * PI -> 0 < sin (x / 2).
Proof. intros H. apply sin_gt_0; lra. Qed.
Lemma orient_nonneg a b c : a <= b <= c -> c <= a + 2 * PI -> 0 <= orient a b c.
Proof.
  intros H K. rewrite orient_prod. pose proof (half_sin_nonneg (b - a) ltac:(lra)). pose proof (half_sin_nonneg (c - b) ltac:(lra)). pose proof (half_sin_nonneg (c - a) ltac:(lra)).
  repeat apply Rmult_le_pos; lra.
Qed.
Lemma orient_pos a b c : a < b < c -> c < a + 2 * PI -> 0 < orient a b c.
Proof.
  intros H K. rewrite orient_prod. pose proof (half_sin_pos (b - a) ltac:(lra)). pose proof (half_sin_pos (c - b) ltac:(lra)). pose proof (half_sin_pos (c - a) ltac:(lra)).
  repeat apply Rmult_lt_0_compat; lra.
Qed.
Lemma part_mono n i j : (i <= j)%nat -> (0 < n)%nat -> part_of_turn n i <= part_of_turn n j.
Proof.
  intros H Hn. unfold part_of_turn. apply lt_0_INR in Hn. apply le_INR in H. pose proof PI_RGT_0.
  apply Rmult_le_compat_r; [left; apply Rinv_0_lt_compat; exact Hn|]. nra.
Qed.
Lemma part_strict n i j : (i < j)%nat -> (0 < n)%nat -> part_of_turn n i < part_of_turn n j.
Proof.
  intros H Hn. unfold part_of_turn. apply lt_0_INR in Hn. apply lt_INR in H. pose proof PI_RGT_0.
  apply Rmult_lt_compat_r; [apply Rinv_0_lt_compat; exact Hn|]. nra.
Qed.
Lemma part_range n i : (i < n)%nat -> 0 <= part_of_turn n i < 2 * PI.
Proof.
  intros H. split.
  - replace 0 with (part_of_turn n 0); [apply part_mono; lia|]. unfold part_of_turn. simpl. field. apply not_0_INR. lia.
  - replace (2 * PI) with (part_of_turn n n); [apply part_strict; lia|]. unfold part_of_turn. field. apply not_0_INR. lia.
Qed.
(** the n-gon is convex and run through counter-clockwise *)
Lemma ngon_convex n j i k : nxt n j i -> (k < n)%nat -> 0 <= orient (part_of_turn n j) (part_of_turn n i) (part_of_turn n k).
Proof.
  intros [[E L]|(E & E' & L)] Hk.
  - destruct (le_lt_dec k j).
    + rewrite <- orient_cyc. rewrite orient_cyc, orient_cyc. 
      pose proof (part_range n k Hk). pose proof (part_range n i ltac:(lia)). rewrite orient_cyc. apply orient_nonneg; [|lra].
      split; apply part_mono; lia.
    + pose proof (part_range n k Hk). pose proof (part_range n j ltac:(lia)). apply orient_nonneg; [|lra]. split; apply part_mono; lia.
  - rewrite orient_cyc. pose proof (part_range n j ltac:(lia)). pose proof (part_range n i ltac:(lia)). apply orient_nonneg; [|lra]. split; apply part_mono; lia.
Qed.
Lemma ngon_strict n i j k : (i < j < k)%nat -> (k < n)%nat -> 0 < orient (part_of_turn n i) (part_of_turn n j) (part_of_turn n k).
Proof.
  intros H Hk. pose proof (part_range n k Hk). pose proof (part_range n i ltac:(lia)). apply orient_pos; [|lra]. split; apply part_strict; lia.
Qed.
(** seen from the centre the sides turn counter-clockwise *)
Definition turnc (a b : R) : R := cos a * sin b - sin a * cos b.
Lemma turnc_sin a b : turnc a b = sin (b - a).
Proof. unfold turnc. rewrite sin_minus. ring. Qed.
Lemma ngon_centre n j i : (3 <= n)%nat -> nxt n j i -> 0 < turnc (part_of_turn n j) (part_of_turn n i).
Proof.
  intros Hn H. rewrite turnc_sin.
  assert (Hp : 3 <= INR n) by (replace 3 with (INR 3) by (simpl; lra); apply le_INR; exact Hn). pose proof PI_RGT_0.
  assert (Sp : 0 < sin (2 * PI / INR n)).
  { apply sin_gt_0; [apply Rmult_lt_0_compat; [lra|apply Rinv_0_lt_compat; lra]|]. apply (Rmult_lt_reg_r (INR n)); [lra|]. unfold Rdiv. rewrite Rmult_assoc, Rinv_l by lra. nra. }
  destruct H as [[E L]|(E & E' & L)].
  - subst i. replace (part_of_turn n (S j) - part_of_turn n j) with (2 * PI / INR n); [exact Sp|]. unfold part_of_turn. rewrite S_INR. field. lra.
  - subst i j. replace (part_of_turn n 0 - part_of_turn n (n - 1)) with (2 * PI / INR n - 2 * PI).
    2: { unfold part_of_turn. rewrite minus_INR by lia. simpl. field. lra. }
    rewrite sin_minus, cos_2PI, sin_2PI. lra.
Qed.

(** ** the points of circle_points *)
Lemma rod_perp u s a : dot u s = 0 -> rodrigues u a s = on_ellipse s (cross u s) a.
Proof. intros H. unfold rodrigues, on_ellipse. rewrite H. apply vec3_ext; spec_unfold; ring. Qed.
Lemma zTOL_nano : 2 * zTOL <= / 1000000000.
Proof.
  Transparent zTOL. unfold zTOL. apply (Rmult_le_reg_r (10 ^ 12)); [apply pow_lt; lra|].
  rewrite Rmult_assoc, Rinv_l by (apply pow_nonzero; lra). simpl. lra.
Qed.
Opaque zTOL.
Lemma rot_small_turn u s n i : dot u u = 1 -> dot u s = 0 -> (i < n)%nat -> INR n <= 2147483648 ->
  zVec3DRot s (zVec3DMul u (turn n i)) = Some (on_ellipse s (cross u s) (part_of_turn n i)).
Proof.
  intros Hu Hs Hi Hn. change (turn n i) with (part_of_turn n i). 
  assert (E : zVec3DMul u (part_of_turn n i) = vscale (part_of_turn n i) u) by reflexivity.
  rewrite E. destruct i as [|i].
  - assert (T0 : part_of_turn n 0 = 0) by (unfold part_of_turn; simpl; field; apply not_0_INR; lia). rewrite T0.
    unfold zVec3DRot. rewrite (proj2 (zVec3DIsTiny_true _)).
    + f_equal. unfold on_ellipse. rewrite cos_0, sin_0. apply vec3_ext; spec_unfold; ring.
    + unfold negligible; spec_unfold. rewrite !Rmult_0_l, Rabs_R0. pose proof zTOL_pos. lra.
  - pose proof (part_range n (S i) Hi) as R0. assert (Hn0 : 0 < INR n) by (apply lt_0_INR; lia).
    assert (Hb : / 1000000000 <= part_of_turn n (S i)).
    { unfold part_of_turn. pose proof PI_RGT_0. assert (3 <= PI) by (pose proof PI2_3_2; unfold PI2 in *; lra). assert (1 <= INR (S i)) by (change 1 with (INR 1); apply le_INR; lia).
      apply (Rmult_le_reg_r (INR n)); [exact Hn0|]. unfold Rdiv. rewrite (Rmult_assoc _ (/ INR n)), Rinv_l by lra. apply Rle_trans with (2 * PI * 1 * 1); [lra|]. rewrite !Rmult_1_r. nra. }
    assert (Nn : norm (vscale (part_of_turn n (S i)) u) = part_of_turn n (S i)).
    { unfold norm. replace (dot (vscale (part_of_turn n (S i)) u) (vscale (part_of_turn n (S i)) u)) with (Rsqr (part_of_turn n (S i)) * dot u u) by (unfold Rsqr; clear; spec_unfold; ring).
      rewrite Hu, Rmult_1_r. apply sqrt_Rsqr. lra. }
    destruct (rot3_spec s (vscale (part_of_turn n (S i)) u)) as (w & Uw & Ew & ->).
    { apply long_not_negligible. rewrite Nn. pose proof zTOL_nano. lra. }
    rewrite Nn in *. assert (w = u).
    { assert (P : part_of_turn n (S i) <> 0) by lra. clear - Ew P. set (x := part_of_turn n (S i)) in *. clearbody x.
      destruct w as [w1 w2 w3], u as [u1 u2 u3]. spec_unfold. injection Ew as E1 E2 E3. f_equal; eapply Rmult_eq_reg_l; eauto. }
    subst w. f_equal. apply rod_perp. exact Hs.
Qed.
Lemma mapM_some {A B} (f : A -> option B) (g : A -> B) l : (forall x, List.In x l -> f x = Some (g x)) -> mapM f l = Some (map g l).
Proof.
  induction l as [|a l IH]; intros H; [reflexivity|]. simpl. rewrite (H a) by (left; reflexivity). rewrite IH by (intros; apply H; right; auto). reflexivity.
Qed.
Lemma circle_ok axis rad n : 3 * zTOL <= norm axis -> (1 <= n)%nat -> INR n <= 2147483648 ->
  exists u s t, right_triple u s t /\ axis = vscale (norm axis) u /\
    circle_points axis rad n = Some (map (fun i => on_ellipse (vscale rad s) (vscale rad t) (part_of_turn n i)) (seq 0 n)).
Proof.
  intros Ha H1 H2. pose proof zTOL_pos as Z. assert (Hn : ~ negligible axis) by (apply long_not_negligible; lra).
  pose proof (nonneg_norm_pos axis Hn) as Hp.
  set (u := vscale (/ norm axis) axis).
  assert (Uu : dot u u = 1).
  { unfold u. replace (dot (vscale (/ norm axis) axis) (vscale (/ norm axis) axis)) with (/ norm axis * / norm axis * dot axis axis) by (clear; spec_unfold; ring).
    rewrite <- norm_sqr. field. lra. }
  assert (Eu : axis = vscale (norm axis) u). { unfold u. apply vec3_ext; spec_unfold; field; unfold norm in Hp; spec_unfold; lra. }
  destruct (orthonormal_some u) as [s Hs]. { replace (norm u) with 1 by (symmetry; apply norm_unit; exact Uu). pose proof zTOL_small. lra. }
  destruct (orthonormal_spec u s Hs) as [Us Os].
  assert (Ds : dot s s = 1) by (apply norm_unit; exact Us).
  assert (Ou : dot u s = 0) by (rewrite dot_comm; exact Os).
  exists u, s, (cross u s). split; [|split; [exact Eu|]].
  - unfold right_triple. repeat match goal with |- _ /\ _ => split end; auto.
    + assert (dot (cross u s) (cross u s) = dot u u * dot s s - dot u s * dot u s) as -> by (clear; spec_unfold; ring). rewrite Uu, Ds, Ou. ring.
    + clear; spec_unfold; ring.
    + clear; spec_unfold; ring.
  - unfold circle_points. rewrite (proj2 (zVec3DIsTiny_false axis) Hn). rewrite normalizeDRC_ok by exact Hn. cbn [snd].
    match goal with |- context [zVec3DOrthonormal ?x] => replace x with u end.
    2: { unfold u. apply vec3_ext; spec_unfold; unfold Rdiv; ring. }
    rewrite Hs. cbv zeta.
    apply mapM_some. intros i Li. apply in_seq in Li.
    assert (E : zVec3DMul s rad = vscale rad s) by reflexivity. rewrite E.
    rewrite rot_small_turn; [|exact Uu| |lia|exact H2].
    + f_equal. f_equal. clear; apply vec3_ext; spec_unfold; ring.
    + replace (dot u (vscale rad s)) with (rad * dot u s) by (clear; spec_unfold; ring). rewrite Ou. ring.
Qed.
