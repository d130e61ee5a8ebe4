(** Capsule, torus and lathe meshes. *)
From Verif Require Import Base Spec SpecGeom SpecFrame SpecBox SpecShape SpecMesh SpecSweep ModelMesh FactsVec FactsAlg FactsElem FactsPH FactsPH4 FactsMesh FactsMesh2 FactsMesh3 FactsMesh4 FactsMesh5 FactsMesh6 FactsSweep FactsSweep2 FactsSweep3 FactsSweep4.
From Coq Require Import Lia Lra Permutation.
Open Scope R_scope.

Lemma rev_seq h : rev (seq 1 h) = map (fun k => (2 * h + 1 - k)%nat) (seq (h + 1) h).
Proof.
  induction h as [|h IH]; [reflexivity|]. rewrite (seq_S h 1), rev_app_distr, IH. cbn [rev app]. replace (S h + 1)%nat with (S (h + 1)) by lia.
  cbn [seq map]. f_equal; [lia|]. rewrite <- (seq_shift h (S (h + 1))), <- (seq_shift h (h + 1)), !map_map.
  replace (seq (h + 1) h) with (map (fun x => x) (seq (h + 1) h)) at 1 by apply map_id. rewrite ?map_map. apply map_ext. intros. lia.
Qed.
Section capsule.
Variables (u s t : vec3) (r H : R) (c0 c1 : vec3) (n h : nat).
Hypotheses (RT : right_triple u s t) (Hr : 0 < r) (HH : 0 < H) (AX : vsub c1 c0 = vscale (2 * H) u).
Definition lat (k : nat) : R := PI / 2 * INR k / INR h.
Definition cz (k : nat) : R := if Nat.leb k h then H + r * cos (lat k) else - (H + r * cos (lat (2 * h + 1 - k))).
Definition crho (k : nat) : R := if Nat.leb k h then r * sin (lat k) else r * sin (lat (2 * h + 1 - k)).
Lemma lat_range k : (1 <= h)%nat -> (k <= h)%nat -> 0 <= lat k <= PI / 2.
Proof.
  intros Hh Hk. assert (N : 0 < INR h) by (apply lt_0_INR; lia). pose proof PI_RGT_0. pose proof (pos_INR k). assert (INR k <= INR h) by (apply le_INR; exact Hk).
  unfold lat. split.
  - apply Rmult_le_pos; [apply Rmult_le_pos; lra|]. left. apply Rinv_0_lt_compat. exact N.
  - apply (Rmult_le_reg_r (INR h)); [exact N|]. unfold Rdiv at 1. rewrite Rmult_assoc, Rinv_l by lra. nra.
Qed.
Lemma lat_lt j k : (1 <= h)%nat -> (j < k)%nat -> lat j < lat k.
Proof.
  intros Hh L. assert (N : 0 < INR h) by (apply lt_0_INR; lia). pose proof PI_RGT_0. apply lt_INR in L. unfold lat, Rdiv.
  apply Rmult_lt_compat_r; [apply Rinv_0_lt_compat; exact N|]. apply Rmult_lt_compat_l; lra.
Qed.
Lemma lat_h : (1 <= h)%nat -> lat h = PI / 2.
Proof. intros Hh. unfold lat. field. apply not_0_INR. lia. Qed.
Lemma lat_0 : lat 0 = 0.
Proof. unfold lat. simpl. unfold Rdiv. ring. Qed.
Lemma turn_pos j k : (1 <= h)%nat -> (1 <= j)%nat -> (j < k <= h)%nat -> 0 < (H + r * cos (lat j)) * (r * sin (lat k)) - (H + r * cos (lat k)) * (r * sin (lat j)).
Proof.
  intros Hh Hj Hk. pose proof (lat_range j Hh ltac:(lia)). pose proof (lat_range k Hh ltac:(lia)). pose proof (lat_lt j k Hh ltac:(lia)). pose proof PI_RGT_0.
  set (a := lat j) in *. set (b := lat k) in *.
  assert (A : 0 < sin (b - a)) by (apply sin_gt_0; lra). assert (B : sin a < sin b) by (apply sin_increasing_1; lra).
  replace ((H + r * cos a) * (r * sin b) - (H + r * cos b) * (r * sin a)) with (r * r * sin (b - a) + H * r * (sin b - sin a)) by (rewrite sin_minus; ring).
  apply Rplus_lt_0_compat; repeat apply Rmult_lt_0_compat; lra.
Qed.
Lemma capsule_meridian : (1 <= h)%nat -> meridian_ok (2 * h) cz crho.
Proof.
  intros Hh. unfold meridian_ok, cz, crho. 
  assert (E1 : Nat.leb (2 * h + 1) h = false) by (apply Nat.leb_gt; lia). rewrite E1. cbn [Nat.leb]. replace (2 * h + 1 - (2 * h + 1))%nat with 0%nat by lia. rewrite lat_0, sin_0, cos_0.
  repeat match goal with |- _ /\ _ => split end; try lra.
  - intros k Lk. assert (P : forall j, (1 <= j <= h)%nat -> 0 < r * sin (lat j)).
    { intros j Lj. apply Rmult_lt_0_compat; [exact Hr|]. pose proof (lat_range j Hh ltac:(lia)). pose proof (lat_lt 0 j Hh ltac:(lia)) as L0. rewrite lat_0 in L0. pose proof PI_RGT_0. apply sin_gt_0; lra. }
    destruct (Nat.leb k h) eqn:E; [apply Nat.leb_le in E|apply Nat.leb_gt in E]; apply P; lia.
  - intros k Lk. destruct (Nat.leb k h) eqn:E; [apply Nat.leb_le in E|apply Nat.leb_gt in E]; destruct (Nat.leb (k + 1) h) eqn:E'; [apply Nat.leb_le in E'|apply Nat.leb_gt in E'|apply Nat.leb_le in E'; lia|apply Nat.leb_gt in E'].
    + apply turn_pos; lia.
    + assert (k = h) by lia. subst k. replace (2 * h + 1 - (h + 1))%nat with h by lia. rewrite lat_h by exact Hh. rewrite cos_PI2, sin_PI2. nra.
    + pose proof (turn_pos (2 * h + 1 - (k + 1)) (2 * h + 1 - k) Hh ltac:(lia) ltac:(lia)). nra.
Qed.
Definition cmid : vec3 := vadd c0 (vscale H u).
Definition cmap : vec3 -> vec3 := affine cmid s t u.
Lemma cap_rot a b th : rodrigues u th (vadd (vscale a u) (vscale b s)) = vadd (vscale a u) (vscale b (on_ellipse s t th)).
Proof.
  destruct RT as (A & B & C & D & E & F & G). unfold rodrigues, on_ellipse. 
  replace (dot u (vadd (vscale a u) (vscale b s))) with (a * dot u u + b * dot u s) by (clear; spec_unfold; ring). rewrite A, D.
  replace (cross u (vadd (vscale a u) (vscale b s))) with (vscale b (cross u s)) by (clear; apply vec3_ext; spec_unfold; ring). rewrite G. clear; apply vec3_ext; spec_unfold; ring.
Qed.
Lemma upper_point k j : (k <= h)%nat -> vadd (vadd (vscale (r * cos (lat k)) u) (vscale (r * sin (lat k)) (on_ellipse s t (part_of_turn n j)))) c1 = cmap (rev_pt cz crho n (k, j)).
Proof.
  intros L. apply Nat.leb_le in L. unfold rev_pt, cz, crho, fst, snd. rewrite L.
  assert (E : c1 = vadd c0 (vscale (2 * H) u)) by (rewrite <- AX; clear; apply vec3_ext; spec_unfold; ring).
  rewrite E. unfold cmap, affine, cmid, on_ellipse. clear; apply vec3_ext; spec_unfold; ring.
Qed.
Lemma lower_point k j : (h < k)%nat -> vadd (vadd (vscale (- (r * cos (lat (2 * h + 1 - k)))) u) (vscale (r * sin (lat (2 * h + 1 - k))) (on_ellipse s t (part_of_turn n j)))) c0 = cmap (rev_pt cz crho n (k, j)).
Proof.
  intros L. apply Nat.leb_gt in L. unfold rev_pt, cz, crho, fst, snd. rewrite L. unfold cmap, affine, cmid, on_ellipse. clear; apply vec3_ext; spec_unfold; ring.
Qed.
Lemma ring_points e c i : INR n <= 2147483648 -> e = 1 \/ e = - 1 ->
  capsule_ring n h u (vscale (e * r) u) (vscale r s) c i = 
  Some (map (fun j => vadd (vadd (vscale (e * (r * cos (lat i))) u) (vscale (r * sin (lat i)) (on_ellipse s t (part_of_turn n j)))) c) (seq 0 n)).
Proof.
  intros Hn He. unfold capsule_ring. cbv zeta. fold (lat i).
  assert (V : zVec3DCat (zVec3DMul (vscale (e * r) u) (cos (lat i))) (sin (lat i)) (vscale r s) = vadd (vscale (e * (r * cos (lat i))) u) (vscale (r * sin (lat i)) s)).
  { rewrite zcat_spec, zmul_spec. clear; apply vec3_ext; spec_unfold; ring. }
  rewrite V. rewrite (mapM_some _ (fun j => vadd (vscale (e * (r * cos (lat i))) u) (vscale (r * sin (lat i)) (on_ellipse s t (part_of_turn n j))))).
  - f_equal. rewrite map_map. apply map_ext. intros j. apply zadd_spec.
  - intros j Lj. apply in_seq in Lj. rewrite rot_turn; [|exact (proj1 RT)|lia|exact Hn]. f_equal. apply cap_rot.
Qed.
Lemma concat_map_flat {A B} (f : A -> list B) l : concat (map f l) = flat_map f l.
Proof. symmetry. apply flat_map_concat_map. Qed.
Lemma flat_map_map {A B C} (f : A -> B) (g : B -> list C) l : flat_map g (map f l) = flat_map (fun x => g (f x)) l.
Proof. induction l; simpl; congruence. Qed.
Lemma capsule_list : INR n <= 2147483648 ->
  exists up dn, mapM (capsule_ring n h u (vscale (1 * r) u) (vscale r s) c1) (seq 1 h) = Some up /\
    mapM (capsule_ring n h u (vscale (- (1) * r) u) (vscale r s) c0) (rev (seq 1 h)) = Some dn /\
    vadd c1 (vscale (1 * r) u) :: concat up ++ concat dn ++ [vadd c0 (vscale (- (1) * r) u)] = tube_list (fun v => cmap (rev_pt cz crho n v)) (2 * h) n.
Proof.
  intros Hn. eexists. eexists. split; [apply mapM_some; intros i Li; apply ring_points; [exact Hn|left; reflexivity]|].
  split; [apply mapM_some; intros i Li; apply ring_points; [exact Hn|right; reflexivity]|].
  rewrite !concat_map_flat. unfold tube_list. f_equal; [|rewrite app_assoc; f_equal].
  - rewrite <- upper_point by lia. rewrite lat_0, sin_0, cos_0. unfold on_ellipse. clear; apply vec3_ext; spec_unfold; ring.
  - replace (2 * h)%nat with (h + h)%nat by lia. rewrite seq_app, flat_map_app. f_equal.
    + apply flat_ext. intros i Li. apply in_seq in Li. apply map_ext. intros j. rewrite <- upper_point by lia. rewrite Rmult_1_l. reflexivity.
    + rewrite rev_seq, flat_map_map. replace (1 + h)%nat with (h + 1)%nat by lia. apply flat_ext. intros i Li. apply in_seq in Li. apply map_ext. intros j. rewrite <- lower_point by lia. f_equal. f_equal. f_equal. ring.
  - f_equal. rewrite <- lower_point by lia. replace (2 * h + 1 - (2 * h + 1))%nat with 0%nat by lia. rewrite lat_0, sin_0, cos_0. unfold on_ellipse. clear; apply vec3_ext; spec_unfold; ring.
Qed.
Lemma capsule_surface k j : (1 <= h)%nat -> (k <= 2 * h + 1)%nat -> let v := cmap (rev_pt cz crho n (k, j)) in
  dist v c1 = r /\ 0 <= dot (vsub v c1) u \/ dist v c0 = r /\ dot (vsub v c0) u <= 0.
Proof.
  intros Hh Lk v. destruct RT as (A & B & C & D & E & F & G).
  assert (SC : forall a b th, dot (vadd (vscale a u) (vscale b (on_ellipse s t th))) (vadd (vscale a u) (vscale b (on_ellipse s t th))) = a * a + b * b).
  { intros a b th. replace (dot _ _) with (a * a * dot u u + b * b * (cos th * cos th * dot s s + sin th * sin th * dot t t) + 2 * a * b * (cos th * dot u s + sin th * dot u t) + 2 * b * b * cos th * sin th * dot s t) by (unfold on_ellipse; clear; spec_unfold; ring).
    rewrite A, B, C, D, E, F. pose proof (sin2_cos2 th) as S2. unfold Rsqr in S2. transitivity (a * a + b * b * (sin th * sin th + cos th * cos th)); [ring|]. rewrite S2. ring. }
  assert (SD : forall a b th, dot (vadd (vscale a u) (vscale b (on_ellipse s t th))) u = a).
  { intros a b th. replace (dot _ _) with (a * dot u u + b * (cos th * dot u s + sin th * dot u t)) by (unfold on_ellipse; clear; spec_unfold; ring). rewrite A, D, E. ring. }
  assert (RR : forall x, sqrt (r * cos x * (r * cos x) + r * sin x * (r * sin x)) = r).
  { intros x. pose proof (sin2_cos2 x) as S2. replace (r * cos x * (r * cos x) + r * sin x * (r * sin x)) with (r * r * ((sin x)² + (cos x)²)) by (unfold Rsqr; ring). rewrite S2, Rmult_1_r. apply sqrt_square. lra. }
  assert (VS : forall w c, vsub (vadd w c) c = w) by (intros; clear; apply vec3_ext; spec_unfold; ring).
  unfold v. destruct (Nat.le_gt_cases k h) as [L|L]; [left; rewrite <- upper_point by exact L|right; rewrite <- lower_point by exact L]; unfold dist, norm; rewrite VS, SC, SD.
  - split; [apply RR|]. apply Rmult_le_pos; [lra|]. pose proof (lat_range k Hh ltac:(lia)). pose proof PI_RGT_0. apply cos_ge_0; lra.
  - set (x := lat (2 * h + 1 - k)). replace (- (r * cos x) * - (r * cos x)) with (r * cos x * (r * cos x)) by ring. split; [apply RR|].
    assert (0 <= r * cos x); [|lra]. apply Rmult_le_pos; [lra|]. pose proof (lat_range (2 * h + 1 - k) Hh ltac:(lia)). fold x in H0. pose proof PI_RGT_0. apply cos_ge_0; lra.
Qed.
Lemma spread_triple : spread s t u = 1.
Proof. destruct RT as (A & B & C & D & E & F & G). unfold spread. replace (dot (cross s t) u) with (dot (cross u s) t) by (clear; spec_unfold; ring). rewrite G. exact C. Qed.
End capsule.
Lemma capsule_common c n : cdiv c = Z.of_nat n -> INR n <= 2147483648 -> 3 * zTOL <= norm (vsub (cc1 c) (cc0 c)) -> 0 < crad c ->
  exists u s t, right_triple u s t /\ vsub (cc1 c) (cc0 c) = vscale (norm (vsub (cc1 c) (cc0 c))) u /\
   let H := norm (vsub (cc1 c) (cc0 c)) / 2 in 0 < H /\
   zCapsule3DToPH c = Some (MS (capsule_nv n) (tube_list (fun v => cmap u s t H (cc0 c) (rev_pt (cz (crad c) H (n / 4)) (crho (crad c) (n / 4)) n v)) (2 * (n / 4)) n) (capsule_nf n) (capsule_faces n)).
Proof.
  intros En H2 Ha Hr. set (axis := vsub (cc1 c) (cc0 c)) in *.
  pose proof zTOL_pos as Z. assert (Hn : ~ negligible axis) by (apply long_not_negligible; lra).
  pose proof (nonneg_norm_pos axis Hn) as Hp.
  set (u := vscale (/ norm axis) axis).
  assert (Uu : dot u u = 1).
  { unfold u. replace (dot (vscale (/ norm axis) axis) (vscale (/ norm axis) axis)) with (/ norm axis * / norm axis * dot axis axis) by (clear; spec_unfold; ring).
    rewrite <- norm_sqr. field. lra. }
  assert (Eu : axis = vscale (norm axis) u). { unfold u. clearbody axis. apply vec3_ext; spec_unfold; field; unfold norm in Hp; spec_unfold; lra. }
  destruct (orthonormal_some u) as [s Hs]. { replace (norm u) with 1 by (symmetry; apply norm_unit; exact Uu). pose proof zTOL_small. lra. }
  destruct (orthonormal_spec u s Hs) as [Us Os].
  assert (Ds : dot s s = 1) by (apply norm_unit; exact Us).
  assert (Ou : dot u s = 0) by (rewrite dot_comm; exact Os).
  assert (RT : right_triple u s (cross u s)).
  { unfold right_triple. repeat match goal with |- _ /\ _ => split end; auto.
    + assert (dot (cross u s) (cross u s) = dot u u * dot s s - dot u s * dot u s) as -> by (clear; spec_unfold; ring). rewrite Uu, Ds, Ou. ring.
    + clear; spec_unfold; ring.
    + clear; spec_unfold; ring. }
  exists u, s, (cross u s). split; [exact RT|split; [exact Eu|]]. cbv zeta. split; [lra|].
  assert (AX : vsub (cc1 c) (cc0 c) = vscale (2 * (norm axis / 2)) u) by (fold axis; rewrite Eu at 1; f_equal; field).
  destruct (capsule_list u s (cross u s) (crad c) (norm axis / 2) (cc0 c) (cc1 c) n (n / 4) RT AX H2) as (up & dn & E1 & E2 & E3).
  unfold zCapsule3DToPH. rewrite En, Nat2Z.id. cbv zeta.
  assert (EA : zCyl3DAxis c = axis) by (unfold zCyl3DAxis; rewrite zsub_spec; reflexivity). rewrite EA.
  rewrite (proj2 (zVec3DIsTiny_false axis) Hn). rewrite normalizeDRC_ok by exact Hn.
  replace (vscale (1 / norm axis) axis) with u. 2: { unfold u. f_equal. unfold Rdiv. ring. }
  rewrite Hs. 
  replace (zVec3DMul s (crad c)) with (vscale (crad c) s) by (symmetry; apply zmul_spec).
  replace (zVec3DMul u (crad c)) with (vscale (1 * crad c) u) by (rewrite zmul_spec; f_equal; ring).
  replace (zVec3DRev (vscale (1 * crad c) u)) with (vscale (- (1) * crad c) u) by (rewrite zrev_spec; clear; apply vec3_ext; spec_unfold; ring).
  rewrite E1, E2, <- E3. rewrite !zadd_spec. reflexivity.
Qed.
Lemma capsule_mesh c h : cdiv c = Z.of_nat (4 * h) -> (1 <= h)%nat -> INR (4 * h) <= 2147483648 -> 3 * zTOL <= norm (vsub (cc1 c) (cc0 c)) -> 0 < crad c ->
  exists m, zCapsule3DToPH c = Some m /\ closed_mesh (m_nv m) (m_nf m) (m_verts m) (m_faces m) /\ m_nv m = (8 * h * h + 2)%nat /\ m_nf m = (16 * h * h)%nat /\
    (forall v, List.In v (m_verts m) -> dist v (cc1 c) = crad c /\ 0 <= dot (vsub v (cc1 c)) (vsub (cc1 c) (cc0 c)) \/ dist v (cc0 c) = crad c /\ dot (vsub v (cc0 c)) (vsub (cc1 c) (cc0 c)) <= 0) /\
    (forall f, List.In f (m_faces m) -> behind_face (m_verts m) f (vscale (1 / 2) (vadd (cc0 c) (cc1 c)))).
Proof.
  intros En Hh Hb Ha Hr. destruct (capsule_common c _ En Hb Ha Hr) as (u & s & t & RT & AX & HP & E). cbv zeta in *.
  assert (Q : (4 * h / 4 = h)%nat) by (rewrite Nat.mul_comm; apply Nat.div_mul; lia).
  assert (Q2 : (4 * h * (4 * h) / 2 = 8 * h * h)%nat) by (replace (4 * h * (4 * h))%nat with (8 * h * h * 2)%nat by nia; apply Nat.div_mul; lia).
  rewrite Q in E. set (ax := vsub (cc1 c) (cc0 c)) in *. set (H := norm ax / 2) in *. 
  destruct (capsule_faces_ok h Hh) as (L & I & O).
  eexists. split; [exact E|]. cbn [m_nv m_nf m_verts m_faces].
  assert (AX2 : vsub (cc1 c) (cc0 c) = vscale (2 * H) u) by (fold ax; rewrite AX; f_equal; unfold H; field).
  repeat match goal with |- _ /\ _ => split end.
  - unfold closed_mesh. rewrite tube_list_len. unfold capsule_nv at 1. rewrite Q2. split; [nia|auto].
  - unfold capsule_nv. rewrite Q2. reflexivity.
  - unfold capsule_nf. nia.
  - intros v Hv. apply tube_list_in in Hv; [|lia]. destruct Hv as (i & j & Li & Lj & ->).
    destruct (capsule_surface u s t (crad c) H (cc0 c) (cc1 c) (4 * h) h RT Hr AX2 i j Hh Li) as [[A B]|[A B]]; [left|right]; (split; [exact A|]); rewrite AX.
    + replace (dot _ (vscale (norm ax) u)) with (norm ax * dot (vsub (cmap u s t H (cc0 c) (rev_pt (cz (crad c) H h) (crho (crad c) h) (4 * h) (i, j))) (cc1 c)) u) by (clear; spec_unfold; ring). apply Rmult_le_pos; [apply norm_nonneg|exact B].
    + replace (dot _ (vscale (norm ax) u)) with (norm ax * dot (vsub (cmap u s t H (cc0 c) (rev_pt (cz (crad c) H h) (crho (crad c) h) (4 * h) (i, j))) (cc0 c)) u) by (clear; spec_unfold; ring). pose proof (norm_nonneg ax). nra.
  - intros f F. rewrite capsule_enc in F by exact Hh. apply in_map_iff in F. destruct F as (f0 & <- & F).
    assert (M0 : vscale (1 / 2) (vadd (cc0 c) (cc1 c)) = cmap u s t H (cc0 c) v3zero).
    { assert (E1 : cc1 c = vadd (cc0 c) (vscale (2 * H) u)) by (rewrite <- AX2; clear; apply vec3_ext; spec_unfold; ring). rewrite E1. unfold cmap, cmid, affine. clear; apply vec3_ext; spec_unfold; field. }
    rewrite M0. refine (tube_behind (cmap u s t H (cc0 c)) 1 (2 * h) (4 * h) _ _ _ _ _ _ (capsule_meridian (crad c) H h Hr HP Hh) f0 F); try lia; try lra.
    intros a b c' x. unfold cmap. rewrite height_affine. rewrite spread_triple by exact RT. reflexivity.
Qed.
Lemma capsule_mesh_bad c n : cdiv c = Z.of_nat n -> (3 <= n)%nat -> (n mod 4 <> 0)%nat -> INR n <= 2147483648 -> 3 * zTOL <= norm (vsub (cc1 c) (cc0 c)) -> 0 < crad c ->
  exists m, zCapsule3DToPH c = Some m /\ (length (m_verts m) < m_nv m)%nat /\ (length (m_faces m) < m_nf m)%nat /\
    exists a b, List.In (m_nv m - 1, a, b)%nat (m_faces m) /\ (length (m_verts m) <= m_nv m - 1)%nat.
Proof.
  intros En Hn Hm Hb Ha Hr. destruct (capsule_common c _ En Hb Ha Hr) as (u & s & t & RT & AX & HP & E). cbv zeta in *.
  destruct (capsule_bad n Hn Hm) as (A & B & a & b & C & D). eexists. split; [exact E|]. cbn [m_nv m_nf m_verts m_faces].
  assert (L : forall F, length (tube_list F (2 * (n / 4)) n) = (2 + 2 * (n / 4) * n)%nat) by (intros; rewrite tube_list_len; lia).
  rewrite L. split; [exact B|split; [exact A|]]. exists a, b. split; [exact C|exact D].
Qed.

(** ** torus and lathe *)
Lemma sweep_ok loop d o a : dot a a = 1 -> (1 <= d)%nat -> INR d <= 2147483648 ->
  sweep_verts loop d o a = Some (flat_map (fun p => map (fun j => vadd o (rodrigues a (part_of_turn d j) (vsub p o))) (seq 0 d)) loop).
Proof.
  intros Ha H1 Hd. unfold sweep_verts.
  rewrite (mapM_some _ (fun p => map (fun j => vadd o (rodrigues a (part_of_turn d j) (vsub p o))) (seq 0 d))).
  - rewrite concat_map_flat. reflexivity.
  - intros p _. cbv zeta. rewrite zsub_spec. rewrite (mapM_some _ (fun j => rodrigues a (part_of_turn d j) (vsub p o))).
    + rewrite map_map. f_equal. apply map_ext. intros j. rewrite zadd_spec. clear; apply vec3_ext; spec_unfold; ring.
    + intros j Lj. apply in_seq in Lj. apply rot_turn; [exact Ha|lia|exact Hd].
Qed.
Lemma nth_flat_const {A B} (f : A -> list B) d da n : forall l i j, (forall x, length (f x) = n) -> (i < length l)%nat -> (j < n)%nat ->
  nth (i * n + j) (flat_map f l) d = nth j (f (nth i l da)) d.
Proof.
  induction l as [|x l IH]; intros i j Hf Hi Hj; cbn [length] in Hi; [lia|]. cbn [flat_map]. destruct i as [|i].
  - cbn [nth]. rewrite Nat.mul_0_l, Nat.add_0_l. apply app_nth1. rewrite Hf. exact Hj.
  - rewrite app_nth2 by (rewrite Hf; nia). rewrite Hf. replace (S i * n + j - n)%nat with (i * n + j)%nat by nia. cbn [nth]. apply IH; auto; lia.
Qed.
Lemma fix_volume_sign vs fs : exists b : bool, fix_volume vs fs = (if b then map turned fs else fs).
Proof. unfold fix_volume. destruct (Rltb _ _); [exists true|exists false]; reflexivity. Qed.
Lemma sweep_vpos loop d o a i j : (i < length loop)%nat -> (j < d)%nat ->
  vpos (flat_map (fun p => map (fun j => vadd o (rodrigues a (part_of_turn d j) (vsub p o))) (seq 0 d)) loop) (i * d + j) = vadd o (rodrigues a (part_of_turn d j) (vsub (nth i loop v3zero) o)).
Proof.
  intros Hi Hj. unfold vpos. rewrite (nth_flat_const _ _ v3zero) by (auto; intros; rewrite map_length, seq_length; reflexivity).
  apply (nth_seq (fun j => vadd o (rodrigues a (part_of_turn d j) (vsub (nth i loop v3zero) o)))). exact Hj.
Qed.
Lemma torus_mesh loop d o a : (3 <= length loop)%nat -> (3 <= d)%nat -> INR d <= 2147483648 -> dot a a = 1 ->
  exists m, zPH3DCreateTorus loop d o a = Some m /\ closed_mesh (m_nv m) (m_nf m) (m_verts m) (m_faces m) /\ m_nv m = (length loop * d)%nat /\ m_nf m = (2 * length loop * d)%nat /\
    forall i j, (i < length loop)%nat -> (j < d)%nat -> vpos (m_verts m) (i * d + j) = vadd o (rodrigues a (part_of_turn d j) (vsub (nth i loop v3zero) o)).
Proof.
  intros Hl Hd Hb Ha. unfold zPH3DCreateTorus. rewrite sweep_ok by (auto; lia). eexists. split; [reflexivity|]. cbn [m_nv m_nf m_verts m_faces].
  destruct (torus_faces_ok (length loop) d Hl Hd) as (L & I & O). split; [|split; [reflexivity|split; [reflexivity|intros; apply sweep_vpos; auto]]].
  unfold closed_mesh. split; [apply flat_len; intros; rewrite map_length, seq_length; reflexivity|].
  destruct (fix_cases (flat_map (fun p => map (fun j => vadd o (rodrigues a (part_of_turn d j) (vsub p o))) (seq 0 d)) loop) (torus_faces (length loop) d)) as [E|E]; rewrite E; [auto|].
  rewrite map_length. split; [exact L|split; [apply turned_below; exact I|apply turned_oriented; exact O]].
Qed.
Lemma turned_turned fs : map turned (map turned fs) = fs.
Proof. induction fs as [|[[a b] c] fs IH]; [reflexivity|]. cbn [map]. rewrite IH. reflexivity. Qed.
Lemma closed_turned fs : closed (map turned fs) -> closed fs.
Proof.
  unfold closed. intros C. pose proof (turned_sides fs) as T. pose proof (Permutation_map opp T) as T2.
  assert (I : map opp (map opp (all_sides fs)) = all_sides fs) by (rewrite map_map; rewrite <- map_id; apply map_ext; intros [a b]; reflexivity).
  rewrite I in T2. eapply Permutation_trans; [apply Permutation_sym; exact T2|]. eapply Permutation_trans; [apply Permutation_sym; exact C|exact T].
Qed.
Lemma lathe_mesh rim d o a : (2 <= length rim)%nat -> (3 <= d)%nat -> INR d <= 2147483648 -> dot a a = 1 ->
  exists m rest top, zPH3DCreateLathe rim d o a = Some m /\ m_nv m = (length rim * d)%nat /\ m_nf m = (2 * (length rim - 1) * d + 2 * (d - 2))%nat /\
    length (m_verts m) = m_nv m /\ length (m_faces m) = m_nf m /\ indices_below (m_nv m) (m_faces m) /\
    m_faces m = rest ++ top /\ length top = (d - 2)%nat /\ oriented (rest ++ map turned top) /\ ~ closed (m_faces m) /\
    forall i j, (i < length rim)%nat -> (j < d)%nat -> vpos (m_verts m) (i * d + j) = vadd o (rodrigues a (part_of_turn d j) (vsub (nth i rim v3zero) o)).
Proof.
  intros Hl Hd Hb Ha. unfold zPH3DCreateLathe. rewrite sweep_ok by (auto; lia).
  destruct (lathe_faces_ok (length rim) d Hl Hd) as (L & I & rest & top & E & LT & O & NC).
  set (vs := flat_map _ rim). destruct (fix_cases vs (lathe_faces (length rim) d)) as [F|F]; rewrite F.
  - exists (MS (length rim * d) vs (2 * (length rim - 1) * d + 2 * (d - 2)) (lathe_faces (length rim) d)), rest, top. cbn [m_nv m_nf m_verts m_faces].
    repeat match goal with |- _ /\ _ => split end; auto.
    + apply flat_len. intros; rewrite map_length, seq_length; reflexivity.
    + rewrite E. exact NC.
    + intros. apply sweep_vpos; auto.
  - exists (MS (length rim * d) vs (2 * (length rim - 1) * d + 2 * (d - 2)) (map turned (lathe_faces (length rim) d))), (map turned rest), (map turned top). cbn [m_nv m_nf m_verts m_faces].
    repeat match goal with |- _ /\ _ => split end; auto.
    + apply flat_len. intros; rewrite map_length, seq_length; reflexivity.
    + rewrite map_length. exact L.
    + apply turned_below. exact I.
    + rewrite E, map_app. reflexivity.
    + rewrite map_length. exact LT.
    + apply turned_oriented in O. rewrite map_app in O. exact O.
    + intros C. apply NC. rewrite <- E. apply closed_turned. exact C.
    + intros. apply sweep_vpos; auto.
Qed.
