(** Sphere, ellipsoid, capsule, torus and lathe meshes. *)
From Verif Require Import Base Spec SpecGeom SpecFrame SpecBox SpecShape SpecMesh SpecSweep ModelMesh FactsVec FactsAlg FactsElem FactsPH FactsPH4 FactsMesh FactsMesh2 FactsMesh3 FactsMesh4 FactsMesh5 FactsMesh6 FactsSweep FactsSweep2 FactsSweep3.
From Coq Require Import Lia Lra.
Open Scope R_scope.

Lemma rot_turn u v n i : dot u u = 1 -> (i < n)%nat -> INR n <= 2147483648 ->
  zVec3DRot v (zVec3DMul u (turn n i)) = Some (rodrigues u (part_of_turn n i) v).
Proof.
  intros Hu Hi Hn. change (turn n i) with (part_of_turn n i). 
  assert (E : zVec3DMul u (part_of_turn n i) = vscale (part_of_turn n i) u) by reflexivity.
  rewrite E. destruct i as [|i].
  - assert (T0 : part_of_turn n 0 = 0) by (unfold part_of_turn; simpl; field; apply not_0_INR; lia). rewrite T0.
    unfold zVec3DRot. rewrite (proj2 (zVec3DIsTiny_true _)).
    + f_equal. unfold rodrigues. rewrite cos_0, sin_0. apply vec3_ext; spec_unfold; ring.
    + unfold negligible; spec_unfold. rewrite !Rmult_0_l, Rabs_R0. pose proof zTOL_pos. lra.
  - pose proof (part_range n (S i) Hi) as R0. assert (Hn0 : 0 < INR n) by (apply lt_0_INR; lia).
    assert (Hb : / 1000000000 <= part_of_turn n (S i)).
    { unfold part_of_turn. pose proof PI_RGT_0. assert (3 <= PI) by (pose proof PI2_3_2; unfold PI2 in *; lra). assert (1 <= INR (S i)) by (change 1 with (INR 1); apply le_INR; lia).
      apply (Rmult_le_reg_r (INR n)); [exact Hn0|]. unfold Rdiv. rewrite (Rmult_assoc _ (/ INR n)), Rinv_l by lra. apply Rle_trans with (2 * PI * 1 * 1); [lra|]. rewrite !Rmult_1_r. nra. }
    assert (Nn : norm (vscale (part_of_turn n (S i)) u) = part_of_turn n (S i)).
    { unfold norm. replace (dot (vscale (part_of_turn n (S i)) u) (vscale (part_of_turn n (S i)) u)) with (Rsqr (part_of_turn n (S i)) * dot u u) by (unfold Rsqr; clear; spec_unfold; ring).
      rewrite Hu, Rmult_1_r. apply sqrt_Rsqr. lra. }
    destruct (rot3_spec v (vscale (part_of_turn n (S i)) u)) as (w & Uw & Ew & ->).
    { apply long_not_negligible. rewrite Nn. pose proof zTOL_nano. lra. }
    rewrite Nn in *. assert (w = u).
    { assert (P : part_of_turn n (S i) <> 0) by lra. clear - Ew P. set (x := part_of_turn n (S i)) in *. clearbody x.
      destruct w as [w1 w2 w3], u as [u1 u2 u3]. spec_unfold. injection Ew as E1 E2 E3. f_equal; eapply Rmult_eq_reg_l; eauto. }
    subst w. reflexivity.
Qed.

(** ** vertex lists: a pole, rings, a pole *)
Definition tube_list (F : nat * nat -> vec3) (m n : nat) : list vec3 :=
  F (0, 0)%nat :: flat_map (fun i => map (fun j => F (i, j)) (seq 0 n)) (seq 1 m) ++ [F (m + 1, 0)%nat].
Lemma nth_grid {A} (F : nat * nat -> A) d n m : forall s i j, (i < m)%nat -> (j < n)%nat ->
  nth (i * n + j) (flat_map (fun i => map (fun j => F (i, j)) (seq 0 n)) (seq s m)) d = F (s + i, j)%nat.
Proof.
  induction m as [|m IH]; intros s i j Hi Hj; [lia|]. cbn [seq flat_map]. destruct i as [|i].
  - rewrite app_nth1 by (rewrite map_length, seq_length; lia). rewrite Nat.mul_0_l, Nat.add_0_l, Nat.add_0_r. apply (nth_seq (fun j => F (s, j))). exact Hj.
  - rewrite app_nth2 by (rewrite map_length, seq_length; nia). rewrite map_length, seq_length. replace (S i * n + j - n)%nat with (i * n + j)%nat by nia.
    rewrite IH by lia. f_equal. f_equal. lia.
Qed.
Lemma grid_len {A} (F : nat * nat -> A) n m s : length (flat_map (fun i => map (fun j => F (i, j)) (seq 0 n)) (seq s m)) = (m * n)%nat.
Proof. rewrite (flat_len _ n), seq_length; [reflexivity|]. intros. rewrite map_length, seq_length. reflexivity. Qed.
Lemma tube_list_len F m n : length (tube_list F m n) = (m * n + 2)%nat.
Proof. unfold tube_list. cbn [length]. rewrite app_length, grid_len. cbn [length]. lia. Qed.
Lemma tube_pos F m n v : tube_dom m n v -> vpos (tube_list F m n) (tube_enc n v) = F v.
Proof.
  destruct v as [i j]. intros (D1 & D2 & D3). cbn [fst snd] in *. unfold vpos, tube_list, tube_enc. cbn [fst snd]. destruct i as [|i].
  - cbn [nth]. rewrite D3 by lia. reflexivity.
  - replace (i * n + 1 + j)%nat with (S (i * n + j)) by lia. cbn [nth]. destruct (Nat.eq_dec (S i) (m + 1)) as [E|E].
    + rewrite D3 by lia. rewrite app_nth2 by (rewrite grid_len; nia). rewrite grid_len. replace (i * n + 0 - m * n)%nat with 0%nat by nia. cbn [nth]. rewrite E. reflexivity.
    + rewrite app_nth1 by (rewrite grid_len; nia). rewrite nth_grid by lia. reflexivity.
Qed.
Lemma tube_list_in F m n v : (1 <= n)%nat -> List.In v (tube_list F m n) -> exists i j, (i <= m + 1)%nat /\ (j < n)%nat /\ v = F (i, j).
Proof.
  intros Hn [H|H]; [exists 0%nat, 0%nat; repeat split; auto; lia|]. apply in_app_or in H. destruct H as [H|[H|[]]].
  - apply in_flat_map in H. destruct H as (i & Li & H). apply in_map_iff in H. destruct H as (j & <- & Lj). apply in_seq in Li. apply in_seq in Lj. exists i, j. repeat split; lia.
  - exists (m + 1)%nat, 0%nat. repeat split; auto; lia.
Qed.
(** heights of the faces of a tube, given that heights scale by D>0 under g *)
Definition scales (g : vec3 -> vec3) (D : R) : Prop := forall a b c x, height (g a) (g b) (g c) (g x) = D * height a b c x.
Section tube.
Variables (g : vec3 -> vec3) (D : R) (m n : nat) (z rho : nat -> R).
Hypotheses (HG : scales g D) (HD : 0 < D) (Hm : (1 <= m)%nat) (Hn : (3 <= n)%nat) (HM : meridian_ok m z rho).
Let vs := tube_list (fun v => g (rev_pt z rho n v)) m n.
Lemma face_height a b c x : tube_dom m n a -> tube_dom m n b -> tube_dom m n c ->
  dot (face_normal vs (fmap (tube_enc n) (a, b, c))) (vsub x (face_base vs (fmap (tube_enc n) (a, b, c)))) = height (g (rev_pt z rho n a)) (g (rev_pt z rho n b)) (g (rev_pt z rho n c)) x.
Proof. intros A B C. unfold face_normal, face_base, corners, fmap, vs. rewrite !tube_pos by assumption. reflexivity. Qed.
Lemma tube_behind f : List.In f (tube_p m n) -> behind_face vs (fmap (tube_enc n) f) (g v3zero).
Proof.
  intros F. destruct f as [[a b] c]. pose proof (tube_used m n Hm ltac:(lia)) as U.
  assert (UU : tube_dom m n a /\ tube_dom m n b /\ tube_dom m n c) by exact (proj1 (Forall_forall _ _) U _ F).
  destruct UU as (A & B & C). unfold behind_face. rewrite face_height by assumption. rewrite HG. pose proof (tube_star m n z rho Hm Hn HM a b c F). nra.
Qed.
Lemma tube_before_turn f : List.In f (tube_p m n) -> before_face vs (turned (fmap (tube_enc n) f)) (g v3zero).
Proof.
  intros F. destruct f as [[a b] c]. pose proof (tube_used m n Hm ltac:(lia)) as U.
  assert (UU : tube_dom m n a /\ tube_dom m n b /\ tube_dom m n c) by exact (proj1 (Forall_forall _ _) U _ F).
  destruct UU as (A & B & C). change (turned (fmap (tube_enc n) (a, b, c))) with (fmap (tube_enc n) (a, c, b)).
  unfold before_face. rewrite face_height by assumption. rewrite HG, height_turn. pose proof (tube_star m n z rho Hm Hn HM a b c F). nra.
Qed.
End tube.
Lemma scales_affine o e1 e2 e3 : scales (affine o e1 e2 e3) (spread e1 e2 e3).
Proof. intros a b c x. apply height_affine. Qed.

(** ** sphere and ellipsoid *)
Lemma sphere_meridian n : (3 <= n)%nat -> meridian_ok (n - 1) (fun k => cos (PI * INR k / INR n)) (fun k => sin (PI * INR k / INR n)).
Proof.
  intros Hn. assert (N : 0 < INR n) by (apply lt_0_INR; lia). pose proof PI_RGT_0 as P.
  unfold meridian_ok. replace (n - 1 + 1)%nat with n by lia. replace (PI * INR n / INR n) with PI by (field; lra).
  replace (PI * INR 0 / INR n) with 0 by (simpl; field; lra). rewrite sin_0, cos_0, sin_PI, cos_PI.
  repeat match goal with |- _ /\ _ => split end; try lra.
  - intros k Lk. apply sin_gt_0.
    + apply Rdiv_lt_0_compat; [apply Rmult_lt_0_compat; [exact P|apply lt_0_INR; lia]|exact N].
    + apply (Rmult_lt_reg_r (INR n)); [exact N|]. unfold Rdiv. rewrite Rmult_assoc, Rinv_l by lra. rewrite Rmult_1_r. apply Rmult_lt_compat_l; [exact P|apply lt_INR; lia].
  - intros k Lk. replace (PI * INR (k + 1) / INR n) with (PI * INR k / INR n + PI / INR n) by (rewrite plus_INR; simpl; field; lra).
    set (a := PI * INR k / INR n). set (d := PI / INR n).
    replace (cos a * sin (a + d) - cos (a + d) * sin a) with (sin d). 2: { replace d with (a + d - a) at 1 by ring. rewrite sin_minus. ring. }
    apply sin_gt_0; unfold d; [apply Rdiv_lt_0_compat; auto|]. apply (Rmult_lt_reg_r (INR n)); [exact N|]. unfold Rdiv. rewrite Rmult_assoc, Rinv_l by lra.
    assert (3 <= INR n) by (replace 3 with (INR 3) by (simpl; lra); apply le_INR; exact Hn). nra.
Qed.
Definition ball_list (g : vec3 -> vec3) (n : nat) : list vec3 := tube_list (fun v => g (rev_pt (fun k => cos (PI * INR k / INR n)) (fun k => sin (PI * INR k / INR n)) n v)) (n - 1) n.
Lemma ball_mesh g D n : (3 <= n)%nat -> scales g D -> 0 < D ->
  exists cap0 body cap1, sphere_faces n = cap0 ++ body ++ cap1 /\ length cap0 = n /\ length cap1 = n /\ oriented (map turned cap0 ++ body ++ map turned cap1) /\
   (forall f, List.In f body -> behind_face (ball_list g n) f (g v3zero)) /\
   (forall f, List.In f (cap0 ++ cap1) -> before_face (ball_list g n) f (g v3zero)).
Proof.
  intros Hn HG HD. exists (map (fmap (tube_enc n)) (scap0 (n - 1) n)), (map (fmap (tube_enc n)) (sbody (n - 1) n)), (map (fmap (tube_enc n)) (scap1 (n - 1) n)).
  repeat match goal with |- _ /\ _ => split end.
  - apply sphere_enc. lia.
  - unfold scap0, tube_cap0. rewrite !map_length, seq_length. reflexivity.
  - unfold scap1. rewrite !map_length, seq_length. reflexivity.
  - apply sphere_oriented. exact Hn.
  - intros f F. apply in_map_iff in F. destruct F as (f0 & <- & F). apply (tube_behind g D (n - 1) n _ _ HG HD ltac:(lia) Hn (sphere_meridian n Hn)).
    unfold tube_p. apply in_or_app. right. apply in_or_app. left. unfold sbody in F. unfold tube_body. apply in_flat_map in F. destruct F as (i & Li & F). apply in_flat_map in F. destruct F as (j & Lj & F).
    apply in_flat_map. exists i. split; [exact Li|]. apply in_flat_map. exists j. split; [exact Lj|]. destruct F as [F|[F|[]]]; [right; left|left]; exact F.
  - intros f F. apply in_app_or in F. destruct F as [F|F]; apply in_map_iff in F; destruct F as (f0 & <- & F).
    + unfold scap0 in F. apply in_map_iff in F. destruct F as (f1 & <- & F). replace (fmap (tube_enc n) (pturn f1)) with (turned (fmap (tube_enc n) f1)) by (destruct f1 as [[a b] c]; reflexivity).
      apply (tube_before_turn g D (n - 1) n _ _ HG HD ltac:(lia) Hn (sphere_meridian n Hn)). unfold tube_p. apply in_or_app. left. exact F.
    + unfold scap1 in F. apply in_map_iff in F. destruct F as (j & <- & Lj).
      assert (K : before_face (ball_list g n) (turned (fmap (tube_enc n) ((n - 1 + 1, 0)%nat, (n - 1, j)%nat, ((n - 1)%nat, prev0 n j)))) (g v3zero)).
      { apply (tube_before_turn g D (n - 1) n _ _ HG HD ltac:(lia) Hn (sphere_meridian n Hn)). unfold tube_p. apply in_or_app. right. apply in_or_app. right. unfold tube_cap1. apply in_map_iff. exists j. auto. }
      revert K. unfold before_face, face_normal, face_base, fmap, turned, corners.
      set (a := vpos _ (tube_enc n (n - 1 + 1, 0)%nat)). set (b := vpos _ (tube_enc n (n - 1, j)%nat)). set (c := vpos _ (tube_enc n ((n - 1)%nat, prev0 n j))).
      change (0 < height a c b (g v3zero) -> 0 < height b a c (g v3zero)). rewrite <- (height_cyc a c b), <- (height_cyc c b a). auto.
Qed.
Lemma rev_unit n v : norm (rev_pt (fun k => cos (PI * INR k / INR n)) (fun k => sin (PI * INR k / INR n)) n v) = 1.
Proof.
  apply norm_unit. unfold rev_pt. set (a := PI * INR (fst v) / INR n). set (b := part_of_turn n (snd v)). pose proof (sin2_cos2 a) as A. pose proof (sin2_cos2 b) as B. unfold Rsqr in *. clearbody a b.
  spec_unfold. transitivity (sin a * sin a * (sin b * sin b + cos b * cos b) + cos a * cos a); [ring|]. rewrite B. lra.
Qed.
Lemma grid_flat {A} n (f : R -> R -> A) : sphere_grid n f = flat_map (fun i => map (fun j => f (PI * INR i / INR n) (part_of_turn n j)) (seq 0 n)) (seq 1 (n - 1)).
Proof. reflexivity. Qed.
Lemma polar_pt r a b : zVec3DCreatePolar r a b = V3 (r * sin a * cos b) (r * sin a * sin b) (r * cos a).
Proof. unfold zVec3DCreatePolar. cbv zeta. f_equal; ring. Qed.
Lemma ball_list_spec g n (north south : vec3) (f : R -> R -> vec3) : (3 <= n)%nat ->
  north = g (V3 0 0 1) -> south = g (V3 0 0 (- 1)) -> (forall a b, f a b = g (V3 (sin a * cos b) (sin a * sin b) (cos a))) ->
  north :: sphere_grid n f ++ [south] = ball_list g n.
Proof.
  intros Hn HN HS HF. unfold ball_list, tube_list, rev_pt. cbn [fst snd]. replace (n - 1 + 1)%nat with n by lia.
  assert (N : 0 < INR n) by (apply lt_0_INR; lia).
  replace (PI * INR 0 / INR n) with 0 by (simpl; field; lra). replace (PI * INR n / INR n) with PI by (field; lra).
  assert (P0 : part_of_turn n 0 = 0) by (unfold part_of_turn; simpl; field; lra). rewrite P0, !sin_0, !cos_0, sin_PI, cos_PI, HN, HS.
  f_equal; [f_equal; f_equal; ring|]. f_equal.
  - rewrite grid_flat. apply flat_ext. intros i _. apply map_ext. intros j. apply HF.
  - f_equal. f_equal. f_equal; ring.
Qed.
Lemma sphere_mesh s n : sdiv s = Z.of_nat n -> (3 <= n)%nat -> 0 < srad s ->
  let m := zSphere3DToPH s in
  m_nv m = (n * (n - 1) + 2)%nat /\ m_nf m = (n * (n - 1) * 2)%nat /\ length (m_verts m) = m_nv m /\ length (m_faces m) = m_nf m /\ indices_below (m_nv m) (m_faces m) /\ ~ closed (m_faces m) /\
  (forall v, List.In v (m_verts m) -> dist v (scen s) = srad s) /\
  exists cap0 body cap1, m_faces m = cap0 ++ body ++ cap1 /\ length cap0 = n /\ length cap1 = n /\ oriented (map turned cap0 ++ body ++ map turned cap1) /\
   (forall f, List.In f body -> behind_face (m_verts m) f (scen s)) /\ (forall f, List.In f (cap0 ++ cap1) -> before_face (m_verts m) f (scen s)).
Proof.
  intros En Hn Hr m. destruct (sphere_faces_ok n Hn) as (L & I & NC & _).
  set (r := srad s) in *. set (g := affine (scen s) (V3 r 0 0) (V3 0 r 0) (V3 0 0 r)).
  assert (G0 : g v3zero = scen s) by (unfold g, affine; clear; apply vec3_ext; spec_unfold; ring).
  assert (V : m_verts m = ball_list g n).
  { unfold m, zSphere3DToPH. rewrite En, Nat2Z.id. cbn [m_verts]. apply ball_list_spec; [exact Hn| | |]; fold r; unfold g, affine.
    - clear; apply vec3_ext; spec_unfold; ring.
    - clear; apply vec3_ext; spec_unfold; ring.
    - intros a b. rewrite zadd_spec, polar_pt. clear; apply vec3_ext; spec_unfold; ring. }
  assert (F : m_faces m = sphere_faces n) by (unfold m, zSphere3DToPH; rewrite En, Nat2Z.id; reflexivity).
  assert (NV : m_nv m = sphere_nv n) by (unfold m, zSphere3DToPH; rewrite En, Nat2Z.id; reflexivity).
  assert (NF : m_nf m = sphere_nf n) by (unfold m, zSphere3DToPH; rewrite En, Nat2Z.id; reflexivity).
  rewrite V, F, NV, NF. repeat match goal with |- _ /\ _ => split end; try reflexivity; auto.
  - unfold ball_list. rewrite tube_list_len. unfold sphere_nv. nia.
  - intros v Hv. apply tube_list_in in Hv; [|lia]. destruct Hv as (i & j & _ & _ & ->). set (p := rev_pt _ _ _ _). assert (U : norm p = 1) by apply rev_unit. apply norm_unit in U. clearbody p.
    unfold dist, norm. replace (dot _ _) with (Rsqr r * dot p p). 2: { unfold g, affine, Rsqr. clear. spec_unfold. ring. } rewrite U, Rmult_1_r. apply sqrt_Rsqr. lra.
  - destruct (ball_mesh g (spread (V3 r 0 0) (V3 0 r 0) (V3 0 0 r)) n Hn (scales_affine _ _ _ _)) as (c0 & b & c1 & H).
    { replace (spread _ _ _) with (r * (r * r)) by (unfold spread; clear; spec_unfold; ring). apply Rmult_lt_0_compat; [auto|apply Rmult_lt_0_compat; auto]. }
    rewrite G0 in H. exists c0, b, c1. exact H.
Qed.
Lemma ellips_mesh e n : eldiv e = Z.of_nat n -> (3 <= n)%nat -> 0 < mdet (fatt (elf e)) -> 0 < vx (elrad e) -> 0 < vy (elrad e) -> 0 < vz (elrad e) ->
  let m := zEllips3DToPH e in
  m_nv m = (n * (n - 1) + 2)%nat /\ m_nf m = (n * (n - 1) * 2)%nat /\ length (m_verts m) = m_nv m /\ length (m_faces m) = m_nf m /\ indices_below (m_nv m) (m_faces m) /\ ~ closed (m_faces m) /\
  (forall v, List.In v (m_verts m) -> exists q, v = vadd (mvec (fatt (elf e)) q) (fpos (elf e)) /\
      (vx q / vx (elrad e))² + (vy q / vy (elrad e))² + (vz q / vz (elrad e))² = 1) /\
  exists cap0 body cap1, m_faces m = cap0 ++ body ++ cap1 /\ length cap0 = n /\ length cap1 = n /\ oriented (map turned cap0 ++ body ++ map turned cap1) /\
   (forall f, List.In f body -> behind_face (m_verts m) f (fpos (elf e))) /\ (forall f, List.In f (cap0 ++ cap1) -> before_face (m_verts m) f (fpos (elf e))).
Proof.
  intros En Hn Hd Hx Hy Hz m. destruct (sphere_faces_ok n Hn) as (L & I & NC & _).
  set (R := fatt (elf e)) in *. set (a := elrad e) in *.
  set (g := affine (fpos (elf e)) (vscale (vx a) (col0 R)) (vscale (vy a) (col1 R)) (vscale (vz a) (col2 R))).
  assert (G0 : g v3zero = fpos (elf e)) by (unfold g, affine; clear; apply vec3_ext; spec_unfold; ring).
  assert (V : m_verts m = ball_list g n).
  { unfold m, zEllips3DToPH. rewrite En, Nat2Z.id. cbn [m_verts]. apply ball_list_spec; [exact Hn| | |]; fold a; unfold g.
    - rewrite xform_affine. fold R. unfold affine. rewrite zmul_spec. clear; apply vec3_ext; spec_unfold; ring.
    - rewrite xform_affine. fold R. unfold affine. rewrite zmul_spec. clear; apply vec3_ext; spec_unfold; ring.
    - intros x y. cbv zeta. rewrite polar_pt, xform_affine. fold R. unfold affine. clear; apply vec3_ext; spec_unfold; ring. }
  assert (F : m_faces m = sphere_faces n) by (unfold m, zEllips3DToPH; rewrite En, Nat2Z.id; reflexivity).
  assert (NV : m_nv m = sphere_nv n) by (unfold m, zEllips3DToPH; rewrite En, Nat2Z.id; reflexivity).
  assert (NF : m_nf m = sphere_nf n) by (unfold m, zEllips3DToPH; rewrite En, Nat2Z.id; reflexivity).
  rewrite V, F, NV, NF. repeat match goal with |- _ /\ _ => split end; try reflexivity; auto.
  - unfold ball_list. rewrite tube_list_len. unfold sphere_nv. nia.
  - intros v Hv. apply tube_list_in in Hv; [|lia]. destruct Hv as (i & j & _ & _ & ->). set (p := rev_pt _ _ _ _). assert (U : norm p = 1) by apply rev_unit. apply norm_unit in U. clearbody p.
    exists (V3 (vx a * vx p) (vy a * vy p) (vz a * vz p)). split.
    + unfold g, affine. clear; apply vec3_ext; spec_unfold; ring.
    + cbn [vx vy vz]. transitivity (dot p p); [|exact U]. unfold Rsqr. unfold dot. field. lra.
  - destruct (ball_mesh g (spread (vscale (vx a) (col0 R)) (vscale (vy a) (col1 R)) (vscale (vz a) (col2 R))) n Hn (scales_affine _ _ _ _)) as (c0 & b & c1 & H).
    { replace (spread _ _ _) with (vx a * vy a * vz a * mdet R) by (unfold spread; clear; spec_unfold; ring). repeat apply Rmult_lt_0_compat; auto. }
    rewrite G0 in H. exists c0, b, c1. exact H.
Qed.
