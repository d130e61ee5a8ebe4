(** Proofs about the vector model. *)
From Coq Require Import String.
From Verif Require Export ModelVec.
Open Scope R_scope.

(** ** names *)
Lemma zNameSearch_some s names i j :
  zNameSearch s names i = Some j ->
  (i <= j)%Z /\ nth_error names (Z.to_nat (j - i)) = Some s.
Proof.
  revert i. induction names as [|n rest IH]; cbn [zNameSearch]; intros i H; [discriminate|].
  destruct (String.eqb_spec s n) as [E|E].
  - inversion H; subst. split; [lia|]. replace (j - j)%Z with 0%Z by lia. reflexivity.
  - apply IH in H. destruct H as [H1 H2]. split; [lia|].
    replace (Z.to_nat (j - i)) with (S (Z.to_nat (j - (i + 1)))) by lia. exact H2.
Qed.
Lemma zNameSearch_none s names i : zNameSearch s names i = None <-> ~ In s names.
Proof.
  revert i. induction names as [|n rest IH]; cbn [zNameSearch]; intros i.
  - split; auto.
  - destruct (String.eqb_spec s n) as [E|E].
    + split; [discriminate|]. intros H; exfalso; apply H; left; auto.
    + rewrite IH. simpl. split; intros H; [intros [K|K]; auto|tauto].
Qed.


Lemma dir_cases d : (0 <= d <= 8)%Z ->
  d = 0%Z \/ d = 1%Z \/ d = 2%Z \/ d = 3%Z \/ d = 4%Z \/ d = 5%Z \/ d = 6%Z \/ d = 7%Z \/ d = 8%Z.
Proof. lia. Qed.

Lemma dir_rev_correct d : (0 <= d <= 8)%Z ->
  (0 <= zDirRev d <= 8)%Z /\ zDirRev (zDirRev d) = d /\
  (zDirRev d = d <-> d = 0%Z) /\
  (d <> 0%Z -> exists a b, zDirStr d = Some a /\ zDirStr (zDirRev d) = Some b /\ opposite a b).
Proof.
  intros H. destruct (dir_cases d H) as [E|[E|[E|[E|[E|[E|[E|[E|E]]]]]]]]; subst d;
  (split; [vm_compute; split; discriminate|];
   split; [reflexivity|];
   split; [split; intros K; vm_compute in K |- *; congruence |];
   intros K; first [congruence |
   eexists; eexists; split; [reflexivity|]; split; [reflexivity|];
   unfold opposite, opposite_names; simpl; tauto]).
Qed.

Lemma axis_str_valid a : (exists s, zAxisStr a = Some s) <-> (0 <= a <= 5)%Z.
Proof.
  unfold zAxisStr. destruct (Z.ltb_spec a 0); [split; [intros (s & K); discriminate|lia]|].
  rewrite Z.gtb_ltb. destruct (Z.ltb_spec 5 a); [split; [intros (s & K); discriminate|lia]|].
  split; [lia|]. intros _. simpl orb. cbv iota.
  assert (a = 0 \/ a = 1 \/ a = 2 \/ a = 3 \/ a = 4 \/ a = 5)%Z as K by lia.
  destruct K as [K|[K|[K|[K|[K|K]]]]]; subst; eexists; reflexivity.
Qed.
Lemma dir_str_valid a : (exists s, zDirStr a = Some s) <-> (0 <= a <= 8)%Z.
Proof.
  unfold zDirStr. destruct (Z.ltb_spec a 0); [split; [intros (s & K); discriminate|lia]|].
  rewrite Z.gtb_ltb. destruct (Z.ltb_spec 8 a); [split; [intros (s & K); discriminate|lia]|].
  split; [lia|]. intros _. simpl orb. cbv iota.
  assert (0 <= a <= 8)%Z as K by lia. apply dir_cases in K.
  destruct K as [K|[K|[K|[K|[K|[K|[K|[K|K]]]]]]]]; subst; eexists; reflexivity.
Qed.

Lemma axis_str_from a s : zAxisStr a = Some s <-> (zAxisFromStr (Some s) = a /\ a <> (-1)%Z).
Proof.
  split.
  - intros H. assert (R : (0 <= a <= 5)%Z) by (apply axis_str_valid; eauto).
    assert (a = 0 \/ a = 1 \/ a = 2 \/ a = 3 \/ a = 4 \/ a = 5)%Z as K by lia.
    destruct K as [K|[K|[K|[K|[K|K]]]]]; subst; inversion H; subst; split; try reflexivity; lia.
  - intros [H N]. unfold zAxisFromStr in H.
    destruct (zNameSearch s zaxisname 0) as [j|] eqn:E; [|congruence]. subst j.
    apply zNameSearch_some in E. destruct E as [E1 E2]. rewrite Z.sub_0_r in E2.
    assert (L : (Z.to_nat a < 6)%nat).
    { apply (proj1 (nth_error_Some zaxisname (Z.to_nat a))). congruence. }
    unfold zAxisStr. destruct (Z.ltb_spec a 0); [lia|].
    rewrite Z.gtb_ltb. destruct (Z.ltb_spec 5 a); [lia|]. exact E2.
Qed.
Lemma axis_from_invalid s : zAxisFromStr (Some s) = (-1)%Z <-> ~ In s zaxisname.
Proof.
  unfold zAxisFromStr. rewrite <- (zNameSearch_none s zaxisname 0).
  destruct (zNameSearch s zaxisname 0) as [j|] eqn:E; split; intros H; try congruence.
  apply zNameSearch_some in E. lia.
Qed.
Lemma dir_str_from a s : zDirStr a = Some s <->
  (zDirFromStr (Some s) = a /\ In s zdirname).
Proof.
  split.
  - intros H. assert (R : (0 <= a <= 8)%Z) by (apply dir_str_valid; eauto).
    apply dir_cases in R.
    destruct R as [K|[K|[K|[K|[K|[K|[K|[K|K]]]]]]]]; subst; inversion H; subst; split; try reflexivity; simpl; tauto.
  - intros [H N]. unfold zDirFromStr in H.
    destruct (zNameSearch s zdirname 0) as [j|] eqn:E; [|].
    + subst j. apply zNameSearch_some in E. destruct E as [E1 E2]. rewrite Z.sub_0_r in E2.
      assert (L : (Z.to_nat a < 9)%nat).
      { apply (proj1 (nth_error_Some zdirname (Z.to_nat a))). congruence. }
      unfold zDirStr. destruct (Z.ltb_spec a 0); [lia|].
      rewrite Z.gtb_ltb. destruct (Z.ltb_spec 8 a); [lia|]. exact E2.
    + apply zNameSearch_none in E. contradiction.
Qed.
Lemma dir_from_invalid s : ~ In s zdirname -> zDirFromStr (Some s) = 0%Z.
Proof.
  intros H. unfold zDirFromStr. rewrite (proj2 (zNameSearch_none s zdirname 0) H). reflexivity.
Qed.

(** ** 2D/3D model functions agree with the vocabulary *)
Lemma zadd_spec a b : zVec3DAdd a b = vadd a b. Proof. reflexivity. Qed.
Lemma zsub_spec a b : zVec3DSub a b = vsub a b. Proof. reflexivity. Qed.
Lemma zmul_spec a k : zVec3DMul a k = vscale k a. Proof. reflexivity. Qed.
Lemma zrev_spec a : zVec3DRev a = vneg a. Proof. reflexivity. Qed.
Lemma zcat_spec a k b : zVec3DCat a k b = vadd a (vscale k b). Proof. reflexivity. Qed.
Lemma zdot_spec a b : zVec3DInnerProd a b = dot a b. Proof. reflexivity. Qed.
Lemma zcross_spec a b : zVec3DOuterProd a b = cross a b. Proof. reflexivity. Qed.
Lemma zsqrnorm_spec a : zVec3DSqrNorm a = dot a a. Proof. reflexivity. Qed.
Lemma znorm_spec a : zVec3DNorm a = norm a. Proof. reflexivity. Qed.
Lemma zsqrdist_spec a b : zVec3DSqrDist a b = dot (vsub a b) (vsub a b). Proof. reflexivity. Qed.
Lemma zdist_spec a b : zVec3DDist a b = dist a b. Proof. reflexivity. Qed.
Lemma zgrass_spec a b c : zVec3DGrassmannProd a b c = det3v a b c. Proof. reflexivity. Qed.

Ltac zvec := rewrite ?zadd_spec, ?zsub_spec, ?zmul_spec, ?zrev_spec, ?zcat_spec, ?zdot_spec,
  ?zcross_spec, ?zsqrnorm_spec, ?znorm_spec, ?zsqrdist_spec, ?zdist_spec, ?zgrass_spec in *.


Lemma zVec3DIsTiny_true v : zVec3DIsTiny v = true <-> negligible v.
Proof.
  unfold zVec3DIsTiny, zVec3DIsTol, negligible. rewrite !andb_true_iff, !zIsTol_true. tauto.
Qed.
Lemma zVec3DIsTiny_false v : zVec3DIsTiny v = false <-> ~ negligible v.
Proof. rewrite <- zVec3DIsTiny_true. destruct (zVec3DIsTiny v); split; congruence. Qed.
Lemma zVec2DIsTiny_true v : zVec2DIsTiny v = true <-> negligible2 v.
Proof.
  unfold zVec2DIsTiny, zVec2DIsTol, negligible2. rewrite !andb_true_iff, !zIsTol_true. tauto.
Qed.
Lemma zVec2DIsTiny_false v : zVec2DIsTiny v = false <-> ~ negligible2 v.
Proof. rewrite <- zVec2DIsTiny_true. destruct (zVec2DIsTiny v); split; congruence. Qed.

Lemma zero_negligible : negligible v3zero.
Proof. unfold negligible; simpl. rewrite Rabs_R0. pose proof zTOL_pos. auto. Qed.
Lemma zero_negligible2 : negligible2 v2zero.
Proof. unfold negligible2; simpl. rewrite Rabs_R0. pose proof zTOL_pos. auto. Qed.
Lemma nonneg_norm_pos v : ~ negligible v -> 0 < norm v.
Proof. intros H. apply norm_pos. intros ->. apply H, zero_negligible. Qed.
Lemma nonneg_norm2_pos v : ~ negligible2 v -> 0 < norm_2 v.
Proof.
  intros H. destruct (norm_2_nonneg v) as [K|K]; auto. exfalso; apply H.
  assert (E : dot2 v v = 0) by (rewrite <- norm_2_sqr, <- K; ring).
  destruct v as [x y]. spec_unfold2. destruct (sum2_sqr_zero x y E) as [-> ->]. apply zero_negligible2.
Qed.
(** a vector longer than 2 tolerances is not negligible *)
Lemma long_not_negligible v : 2 * zTOL <= norm v -> ~ negligible v.
Proof.
  intros H (Hx & Hy & Hz). pose proof zTOL_pos as Ht.
  pose proof (norm_sqr v) as Hs. pose proof (Rabs_sqr (vx v)). pose proof (Rabs_sqr (vy v)).
  pose proof (Rabs_sqr (vz v)). pose proof (Rabs_pos (vx v)). pose proof (Rabs_pos (vy v)).
  pose proof (Rabs_pos (vz v)). unfold dot in Hs. nra.
Qed.

(** ** normalisation *)
Lemma unit_scale v : 0 < norm v -> norm (vscale (1 / norm v) v) = 1 /\ vscale (norm v) (vscale (1 / norm v) v) = v.
Proof.
  intros H. split.
  - rewrite norm_scale. rewrite Rabs_right.
    + field; lra.
    + apply Rle_ge. apply Rlt_le. apply Rdiv_lt_0_compat; lra.
  - destruct v as [x y z]. unfold vscale; pcbn. set (n := norm _) in *. f_equal; field; lra.
Qed.

Lemma normalize3_ok v old : ~ negligible v ->
  exists u, zVec3DNormalize v old = (norm v, u) /\ norm u = 1 /\ vscale (norm v) u = v.
Proof.
  intros H. exists (vscale (1 / norm v) v). unfold zVec3DNormalize.
  rewrite (proj2 (zVec3DIsTiny_false v) H). zvec. split; [reflexivity|].
  apply unit_scale. apply nonneg_norm_pos, H.
Qed.
Lemma normalize3_tiny v old : negligible v -> zVec3DNormalize v old = (0, old).
Proof. intros H. unfold zVec3DNormalize. rewrite (proj2 (zVec3DIsTiny_true v) H). reflexivity. Qed.

Lemma normalize2_ok v old : ~ negligible2 v ->
  exists u, zVec2DNormalize v old = (norm_2 v, u) /\ norm_2 u = 1 /\ vscale2 (norm_2 v) u = v.
Proof.
  intros H. pose proof (nonneg_norm2_pos v H) as Hp.
  exists (vscale2 (1 / norm_2 v) v). unfold zVec2DNormalize.
  rewrite (proj2 (zVec2DIsTiny_false v) H).
  change (zVec2DNorm v) with (norm_2 v). split; [reflexivity|]. split.
  - unfold norm_2 at 1. apply sqrt_unique; [lra|].
    transitivity ((1 / norm_2 v) * (1 / norm_2 v) * dot2 v v); [rewrite <- norm_2_sqr; field; lra|].
    spec_unfold2; ring.
  - destruct v as [x y]. unfold vscale2; pcbn. set (n := norm_2 _) in *. f_equal; field; lra.
Qed.
Lemma normalize2_tiny v old : negligible2 v -> zVec2DNormalize v old = (-1, old).
Proof. intros H. unfold zVec2DNormalize. rewrite (proj2 (zVec2DIsTiny_true v) H). reflexivity. Qed.

Lemma normalizeDRC_ok v : ~ negligible v -> snd (zVec3DNormalizeDRC v) = vscale (1 / norm v) v.
Proof.
  intros H. unfold zVec3DNormalizeDRC, zVec3DNormalize.
  rewrite (proj2 (zVec3DIsTiny_false v) H). reflexivity.
Qed.

Lemma div3_spec v k :
  (k = 0 /\ zVec3DDiv v k = None) \/ (k <> 0 /\ exists u, zVec3DDiv v k = Some u /\ vscale k u = v).
Proof.
  unfold zVec3DDiv. destruct (Reqb_reflect k 0) as [E|E]; [left; auto|right; split; auto].
  eexists; split; [reflexivity|]. destruct v; unfold vscale, zVec3DMul; pcbn. f_equal; field; auto.
Qed.
Lemma div2_spec v k :
  (k = 0 /\ zVec2DDiv v k = None) \/ (k <> 0 /\ exists u, zVec2DDiv v k = Some u /\ vscale2 k u = v).
Proof.
  unfold zVec2DDiv. destruct (Reqb_reflect k 0) as [E|E]; [left; auto|right; split; auto].
  eexists; split; [reflexivity|]. destruct v; unfold vscale2, zVec2DMul; pcbn. f_equal; field; auto.
Qed.

(** ** projection *)
Lemma dot_pos_not_negl n : ~ negligible n -> 0 < dot n n.
Proof. intros H. pose proof (nonneg_norm_pos n H). rewrite <- norm_sqr. nra. Qed.

Lemma proj3_spec v n : ~ negligible n ->
  exists p, zVec3DProj v n = Some p /\ (exists k, p = vscale k n) /\ dot (vsub v p) n = 0.
Proof.
  intros H. pose proof (dot_pos_not_negl n H) as Hp.
  unfold zVec3DProj. rewrite (proj2 (zVec3DIsTiny_false n) H). zvec.
  eexists; split; [reflexivity|]. split; [eexists; reflexivity|].
  set (k := dot n v / dot n n).
  assert (dot (vsub v (vscale k n)) n = dot n v - k * dot n n) by (spec_unfold; ring).
  rewrite H0. unfold k. field. lra.
Qed.
Lemma proj3_unique v n k k' : 0 < dot n n ->
  dot (vsub v (vscale k n)) n = 0 -> dot (vsub v (vscale k' n)) n = 0 -> vscale k n = vscale k' n.
Proof.
  intros Hp H1 H2.
  assert (E1 : dot n v - k * dot n n = 0) by (rewrite <- H1; spec_unfold; ring).
  assert (E2 : dot n v - k' * dot n n = 0) by (rewrite <- H2; spec_unfold; ring).
  assert (k = k') by nra. subst; reflexivity.
Qed.
Lemma orth3_spec v n : ~ negligible n ->
  exists p o, zVec3DProj v n = Some p /\ zVec3DOrthogonalize v n = Some o /\ o = vsub v p /\ dot o n = 0.
Proof.
  intros H. destruct (proj3_spec v n H) as (p & Hp & _ & Ho).
  exists p, (vsub v p). split; [exact Hp|].
  unfold zVec3DOrthogonalize, zVec3DProj in *. rewrite (proj2 (zVec3DIsTiny_false n) H) in *.
  inversion Hp; subst p. split; [|split; [reflexivity|exact Ho]].
  f_equal. zvec. pose proof (dot_pos_not_negl n H).
  destruct v, n. spec_unfold. f_equal; field; spec_unfold; lra.
Qed.
Lemma proj3_tiny v n : negligible n -> zVec3DProj v n = None /\ zVec3DOrthogonalize v n = None.
Proof.
  intros H. unfold zVec3DProj, zVec3DOrthogonalize. rewrite (proj2 (zVec3DIsTiny_true n) H). auto.
Qed.
Lemma proj2_spec v n : ~ negligible2 n ->
  exists p, zVec2DProj v n = Some p /\ (exists k, p = vscale2 k n) /\ dot2 (vsub2 v p) n = 0.
Proof.
  intros H. pose proof (nonneg_norm2_pos n H) as Hp. unfold zVec2DProj, zVec2DNormalize.
  rewrite (proj2 (zVec2DIsTiny_false n) H). change (zVec2DNorm n) with (norm_2 n).
  destruct (Rltb_reflect (norm_2 n) 0); [lra|]. pose proof (norm_2_sqr n) as Hs.
  eexists; split; [reflexivity|]. split.
  - exists (dot2 n v / (norm_2 n * norm_2 n)). destruct n as [a b], v as [c d].
    unfold zVec2DMul, zVec2DInnerProd. spec_unfold2. set (l := norm_2 _) in *. f_equal; field; lra.
  - destruct n as [a b], v as [c d].
    unfold zVec2DMul, zVec2DInnerProd. spec_unfold2. set (l := norm_2 _) in *.
    transitivity ((a * c + b * d) * (1 - (a*a+b*b) / (l * l))); [field; lra|].
    rewrite <- Hs. field. lra.
Qed.

(** ** orthonormal vector and space *)
Lemma orthonormal_spec v o : zVec3DOrthonormal v = Some o -> norm o = 1 /\ dot o v = 0.
Proof.
  unfold zVec3DOrthonormal.
  match goal with |- context [zVec3DIsTiny ?o] => set (ov := o) end.
  assert (Hov : dot ov v = 0).
  { unfold ov. destruct (_ || _)%bool; destruct v; spec_unfold; ring. }
  destruct (zVec3DIsTiny ov) eqn:E; [discriminate|]. intros H; inversion H; subst o.
  apply zVec3DIsTiny_false in E. rewrite normalizeDRC_ok by exact E.
  pose proof (nonneg_norm_pos _ E) as Hp. split; [apply unit_scale; exact Hp|].
  transitivity (1 / norm ov * dot ov v); [spec_unfold; ring|]. rewrite Hov; ring.
Qed.

Lemma orthonormal_some v : 3 * zTOL <= norm v -> exists o, zVec3DOrthonormal v = Some o.
Proof.
  intros H. unfold zVec3DOrthonormal.
  destruct (negb (zIsTiny (vx v)) || negb (zIsTiny (vy v)))%bool eqn:E.
  - destruct (zVec3DIsTiny (V3 (vy v) (- vx v) 0)) eqn:T; [|eauto].
    apply zVec3DIsTiny_true in T. destruct T as (T1 & T2 & _). pcbn.
    rewrite Rabs_Ropp in T2.
    apply orb_true_iff in E. rewrite !negb_true_iff in E.
    rewrite <- zIsTiny_true in T1, T2. destruct E; congruence.
  - destruct (zVec3DIsTiny _) eqn:T; [|eauto].
    apply orb_false_iff in E. rewrite !negb_false_iff, !zIsTiny_true in E.
    destruct E as [Ex Ey].
    assert (Hz : 2 * zTOL <= Rabs (vz v)).
    { pose proof zTOL_pos as Ht. pose proof (norm_sqr v) as Hs. unfold dot in Hs.
      pose proof (Rabs_sqr (vx v)). pose proof (Rabs_sqr (vy v)). pose proof (Rabs_sqr (vz v)).
      pose proof (Rabs_pos (vx v)). pose proof (Rabs_pos (vy v)). pose proof (Rabs_pos (vz v)).
      assert (9 * (zTOL * zTOL) <= norm v * norm v) by nra. nra. }
    apply zVec3DIsTiny_true in T. destruct T as (T1 & T2 & T3). pcbn.
    pose proof zTOL_pos. exfalso. clear H. unfold Rabs in *; repeat destruct Rcase_abs; lra.
Qed.

Lemma orthonormal_space_spec v : 3 * zTOL <= norm v ->
  exists u s1 s2, zVec3DOrthonormalSpace v = Some (u, s1, s2) /\
    vscale (norm v) u = v /\
    norm u = 1 /\ norm s1 = 1 /\ norm s2 = 1 /\
    dot u s1 = 0 /\ dot u s2 = 0 /\ dot s1 s2 = 0 /\ cross u s1 = s2.
Proof.
  intros H. assert (Hn : ~ negligible v) by (apply long_not_negligible; pose proof zTOL_pos; lra).
  destruct (orthonormal_some v H) as [s1 Hs1].
  destruct (orthonormal_spec v s1 Hs1) as [U1 O1].
  unfold zVec3DOrthonormalSpace, zVec3DOrthoSpace. rewrite Hs1. zvec.
  pose proof zTOL_pos as Ht. pose proof zTOL_small as Hts.
  pose proof (nonneg_norm_pos v Hn) as Hp.
  assert (D1 : dot s1 s1 = 1) by (apply norm_unit; auto).
  assert (N2 : norm (cross v s1) = norm v).
  { unfold norm. f_equal.
    assert (dot (cross v s1) (cross v s1) = dot v v * dot s1 s1 - dot s1 v * dot s1 v) by (spec_unfold; ring).
    rewrite H0, D1, O1; ring. }
  assert (Hn1 : ~ negligible s1) by (apply long_not_negligible; lra).
  assert (Hn2 : ~ negligible (cross v s1)) by (apply long_not_negligible; lra).
  rewrite !normalizeDRC_ok by assumption. rewrite U1, N2.
  set (u := vscale (1 / norm v) v). exists u, (vscale (1/1) s1), (vscale (1 / norm v) (cross v s1)).
  replace (vscale (1/1) s1) with s1 by (destruct s1; unfold vscale; pcbn; f_equal; field).
  assert (E2 : cross u s1 = vscale (1 / norm v) (cross v s1)).
  { unfold u. destruct v, s1. unfold cross, vscale; pcbn. f_equal; ring. }
  assert (Eu : dot u s1 = 0).
  { transitivity (1 / norm v * dot s1 v); [unfold u; spec_unfold; ring|rewrite O1; ring]. }
  split; [reflexivity|]. split; [apply unit_scale; exact Hp|]. split; [apply unit_scale; exact Hp|].
  split; [exact U1|]. rewrite <- E2.
  split.
  { apply norm_unit. assert (Du : dot u u = 1) by (apply norm_unit, unit_scale, Hp).
    transitivity (dot u u * dot s1 s1 - dot u s1 * dot u s1); [spec_unfold; ring|].
    rewrite Du, D1, Eu; ring. }
  split; [exact Eu|]. split; [spec_unfold; ring|]. split; [spec_unfold; ring|reflexivity].
Qed.

(** the plain orthogonal space: second vector keeps the length of the input *)
Lemma orthospace_spec v : 3 * zTOL <= norm v ->
  exists s1 s2, zVec3DOrthoSpace v = Some (s1, s2) /\
    norm s1 = 1 /\ norm s2 = norm v /\ dot v s1 = 0 /\ dot v s2 = 0 /\ dot s1 s2 = 0 /\ cross v s1 = s2.
Proof.
  intros Hn. destruct (orthonormal_some v Hn) as [s1 Hs1].
  destruct (orthonormal_spec v s1 Hs1) as [U1 O1].
  exists s1, (cross v s1). unfold zVec3DOrthoSpace. rewrite Hs1. zvec.
  assert (D1 : dot s1 s1 = 1) by (apply norm_unit; auto).
  repeat split; auto.
  - unfold norm. f_equal.
    assert (dot (cross v s1) (cross v s1) = dot v v * dot s1 s1 - dot s1 v * dot s1 v) by (spec_unfold; ring).
    rewrite H, D1, O1; ring.
  - rewrite dot_comm; auto.
  - spec_unfold; ring.
  - spec_unfold; ring.
Qed.

(** ** rotation of a vector: Rodrigues form *)

Lemma rot3_spec v aa : ~ negligible aa ->
  exists n, norm n = 1 /\ vscale (norm aa) n = aa /\ zVec3DRot v aa = Some (rodrigues n (norm aa) v).
Proof.
  intros H. destruct (normalize3_ok aa v3zero H) as (n & Hn & Hu & Hd).
  exists n. split; [exact Hu|]. split; [exact Hd|].
  unfold zVec3DRot. rewrite (proj2 (zVec3DIsTiny_false aa) H). rewrite Hn.
  assert (Hl : ~ negligible n) by (apply long_not_negligible; pose proof zTOL_small; pose proof zTOL_pos; lra).
  unfold zVec3DProj. rewrite (proj2 (zVec3DIsTiny_false n) Hl). f_equal. zvec.
  assert (Du : dot n n = 1) by (apply norm_unit; auto). rewrite Du.
  unfold rodrigues. destruct n, v. unfold vadd, vscale, vsub, cross; pcbn.
  set (d := dot _ _). f_equal; field.
Qed.
Lemma rot3_tiny v aa : negligible aa -> zVec3DRot v aa = Some v.
Proof. intros H. unfold zVec3DRot. rewrite (proj2 (zVec3DIsTiny_true aa) H). reflexivity. Qed.

Lemma rodrigues_dot n t v w : norm n = 1 -> dot (rodrigues n t v) (rodrigues n t w) = dot v w.
Proof.
  intros H. apply norm_unit in H. pose proof (cos2_sin2 t) as Ht.
  set (c := cos t) in *. set (s := sin t) in *. unfold rodrigues; fold c s.
  set (a := dot n v). set (b := dot n w).
  assert (E : dot (vadd (vadd (vscale c v) (vscale ((1 - c) * a) n)) (vscale s (cross n v)))
                  (vadd (vadd (vscale c w) (vscale ((1 - c) * b) n)) (vscale s (cross n w)))
            = c * c * dot v w + c * (1 - c) * b * a + (1 - c) * a * c * b
              + (1 - c) * (1 - c) * a * b * dot n n + s * s * (dot n n * dot v w - a * b)).
  { unfold a, b. spec_unfold; ring. }
  rewrite E, H.
  replace (s * s) with (1 - c * c) by lra. ring.
Qed.
Lemma rodrigues_axis n t k : norm n = 1 -> rodrigues n t (vscale k n) = vscale k n.
Proof.
  intros H. apply norm_unit in H. unfold rodrigues. 
  assert (E : dot n (vscale k n) = k * dot n n) by (spec_unfold; ring). rewrite E, H.
  destruct n. spec_unfold. f_equal; ring.
Qed.
(** sum of angles *)
Lemma rodrigues_add n s t v : norm n = 1 -> rodrigues n s (rodrigues n t v) = rodrigues n (s + t) v.
Proof.
  intros H. apply norm_unit in H.
  assert (Dn : dot n (rodrigues n t v) = dot n v).
  { transitivity (cos t * dot n v + (1 - cos t) * dot n v * dot n n); [unfold rodrigues; spec_unfold; ring|].
    rewrite H; ring. }
  assert (Cn : cross n (rodrigues n t v) =
               vadd (vscale (cos t) (cross n v)) (vscale (sin t) (vsub (vscale (dot n v) n) (vscale (dot n n) v)))).
  { unfold rodrigues. destruct n, v. spec_unfold. f_equal; ring. }
  unfold rodrigues at 1. rewrite Dn, Cn, H.
  unfold rodrigues. rewrite cos_plus, sin_plus. set (d := dot n v).
  destruct n as [a b e], v as [x y z]. unfold vadd, vsub, vscale, cross; pcbn.
  f_equal; ring.
Qed.

Lemma proj3_full v n : ~ negligible n ->
  exists p, zVec3DProj v n = Some p /\ (exists k, p = vscale k n) /\ dot (vsub v p) n = 0 /\
    (forall k, dot (vsub v (vscale k n)) n = 0 -> vscale k n = p).
Proof.
  intros H. destruct (proj3_spec v n H) as (p & Hp & (k & ->) & Ho).
  exists (vscale k n). split; [exact Hp|]. split; [eauto|]. split; [exact Ho|].
  intros k' Hk'. eapply proj3_unique; eauto. apply dot_pos_not_negl, H.
Qed.
Lemma orthonormal_full v : 3 * zTOL <= norm v ->
  exists o, zVec3DOrthonormal v = Some o /\ norm o = 1 /\ dot o v = 0.
Proof.
  intros H. destruct (orthonormal_some v H) as (o & Ho). exists o. split; [exact Ho|].
  apply orthonormal_spec, Ho.
Qed.
Lemma orthonormal_gap : exists v, ~ negligible v /\ zVec3DOrthonormal v = None.
Proof.
  pose proof zTOL_pos as Ht. exists (V3 (zTOL / 2) (zTOL / 2) (6/5 * zTOL)). split.
  - intros (_ & _ & H). cbn in H. unfold Rabs in H; destruct Rcase_abs; lra.
  - unfold zVec3DOrthonormal. pcbn.
    assert (T : zIsTiny (zTOL / 2) = true) by (apply zIsTiny_true; unfold Rabs; destruct Rcase_abs; lra).
    rewrite T. cbn [negb orb].
    match goal with |- context [zVec3DIsTiny ?w] => assert (E : zVec3DIsTiny w = true) end.
    { apply zVec3DIsTiny_true. repeat split; cbn; unfold Rabs; destruct Rcase_abs; lra. }
    rewrite E. reflexivity.
Qed.
