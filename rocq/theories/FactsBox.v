(** Proofs about axis-aligned boxes and bounding boxes of point data. *)
From Verif Require Import Base Spec SpecBox ModelBox FactsVec FactsElem FactsCentre.
Open Scope R_scope.

Ltac bcbn := cbn [bmin bmax bmin2 bmax2 vx vy vz x2 y2 fst snd] in *.
Ltac boxcases := unfold zMin, zMax in *; repeat rcase1; try lra.

(** ** one coordinate *)
Lemma clamp_spec v mn mx : mn <= mx ->
  mn <= zLimit v mn mx <= mx /\ forall x, mn <= x <= mx -> (v - zLimit v mn mx) * (v - zLimit v mn mx) <= (v - x) * (v - x).
Proof.
  intros H. unfold zLimit, zMin, zMax. split; [repeat rcase1; lra|]. intros x Hx. apply Rsqr_le_abs_1.
  repeat rcase1; unfold Rabs; repeat (destruct (Rcase_abs _)); lra.
Qed.
Lemma sqr_excess_spec v mn mx d : mn <= mx -> sqr_excess v mn mx d = d + (v - zLimit v mn mx) * (v - zLimit v mn mx).
Proof.
  intros H. unfold sqr_excess, zSqr, zLimit, zMin, zMax. repeat rcase1; try (exfalso; lra); try ring;
  try (assert (v = mn) by lra; subst; ring); try (assert (v = mx) by lra; subst; ring);
  try (assert (mn = mx) by lra; subst; ring);
  assert (v = mn /\ mn = mx) as [-> ->] by lra; ring.
Qed.
Lemma abs_le_iff x d : Rabs x <= d <-> - d <= x <= d.
Proof. unfold Rabs; destruct (Rcase_abs x); lra. Qed.
Lemma abs_lt_iff x d : Rabs x < d <-> - d < x < d.
Proof. unfold Rabs; destruct (Rcase_abs x); lra. Qed.

(** ** creation *)
Lemma aab_create x1 y1 z1 x2 y2 z2 :
  proper (zAABox3DCreate x1 y1 z1 x2 y2 z2) /\
  forall p, in_box (zAABox3DCreate x1 y1 z1 x2 y2 z2) p <->
    betw x1 x2 (vx p) /\ betw y1 y2 (vy p) /\ betw z1 z2 (vz p).
Proof.
  unfold zAABox3DCreate, proper, in_box, betw; bcbn. split; [repeat split; boxcases|].
  intros [x y z]; bcbn. assert (K : forall a b c, zMin a b <= c <= zMax a b <-> a <= c <= b \/ b <= c <= a).
  { intros a b c. boxcases. }
  rewrite !K. tauto.
Qed.
Lemma aab_create2 x1 y1 x2 y2 :
  proper2 (zAABox2DCreate x1 y1 x2 y2) /\
  forall p, in_box2 (zAABox2DCreate x1 y1 x2 y2) p <-> betw x1 x2 (Spec.x2 p) /\ betw y1 y2 (Spec.y2 p).
Proof.
  unfold zAABox2DCreate, proper2, in_box2, betw; bcbn. split; [repeat split; boxcases|].
  intros [x y]; bcbn. assert (K : forall a b c, zMin a b <= c <= zMax a b <-> a <= c <= b \/ b <= c <= a).
  { intros a b c. boxcases. }
  rewrite !K. tauto.
Qed.
Lemma half_abs c d x : c - 1/2 * Rabs d <= x <= c + 1/2 * Rabs d <-> Rabs (x - c) <= Rabs d / 2.
Proof. rewrite abs_le_iff. split; lra. Qed.
Lemma aab_size c d w h : proper (zAABox3DCreateFromSize c d w h) /\
  forall p, in_box (zAABox3DCreateFromSize c d w h) p <->
    Rabs (vx p - vx c) <= Rabs d / 2 /\ Rabs (vy p - vy c) <= Rabs w / 2 /\ Rabs (vz p - vz c) <= Rabs h / 2.
Proof.
  pose proof (Rabs_pos d); pose proof (Rabs_pos w); pose proof (Rabs_pos h).
  unfold zAABox3DCreateFromSize, proper, in_box; bcbn. split; [repeat split; lra|].
  intros p. rewrite !half_abs. tauto.
Qed.
Lemma aab_size2 c d w : proper2 (zAABox2DCreateFromSize c d w) /\
  forall p, in_box2 (zAABox2DCreateFromSize c d w) p <->
    Rabs (x2 p - x2 c) <= Rabs d / 2 /\ Rabs (y2 p - y2 c) <= Rabs w / 2.
Proof.
  pose proof (Rabs_pos d); pose proof (Rabs_pos w).
  unfold zAABox2DCreateFromSize, proper2, in_box2; bcbn. split; [repeat split; lra|].
  intros p. rewrite !half_abs. tauto.
Qed.
(** ** merge, enlarge *)
Lemma min_in b : proper b -> in_box b (bmin b).
Proof. unfold in_box, proper. lra. Qed.
Lemma max_in b : proper b -> in_box b (bmax b).
Proof. unfold in_box, proper. lra. Qed.
Lemma min_in2 b : proper2 b -> in_box2 b (bmin2 b).
Proof. unfold in_box2, proper2. lra. Qed.
Lemma max_in2 b : proper2 b -> in_box2 b (bmax2 b).
Proof. unfold in_box2, proper2. lra. Qed.
Lemma aab_merge b1 b2 : proper b1 -> proper b2 ->
  proper (zAABox3DMerge b1 b2) /\
  (forall p, in_box b1 p \/ in_box b2 p -> in_box (zAABox3DMerge b1 b2) p) /\
  (forall b, (forall p, in_box b1 p \/ in_box b2 p -> in_box b p) -> forall p, in_box (zAABox3DMerge b1 b2) p -> in_box b p).
Proof.
  intros H1 H2. split; [|split].
  - unfold zAABox3DMerge. apply aab_create.
  - intros p. unfold zAABox3DMerge, zAABox3DCreate, proper, in_box in *; bcbn. intros [H|H]; repeat split; boxcases.
  - intros b H p Hp.
    pose proof (H (bmin b1) (or_introl (min_in _ H1))) as A1.
    pose proof (H (bmax b1) (or_introl (max_in _ H1))) as A2.
    pose proof (H (bmin b2) (or_intror (min_in _ H2))) as A3.
    pose proof (H (bmax b2) (or_intror (max_in _ H2))) as A4.
    clear H. unfold zAABox3DMerge, zAABox3DCreate, proper, in_box in *; bcbn.
    destruct Hp as (Px & Py & Pz). split; [clear Py Pz|split; [clear Px Pz|clear Px Py]]; boxcases.
Qed.
Lemma aab_merge2 b1 b2 : proper2 b1 -> proper2 b2 ->
  proper2 (zAABox2DMerge b1 b2) /\
  (forall p, in_box2 b1 p \/ in_box2 b2 p -> in_box2 (zAABox2DMerge b1 b2) p) /\
  (forall b, (forall p, in_box2 b1 p \/ in_box2 b2 p -> in_box2 b p) -> forall p, in_box2 (zAABox2DMerge b1 b2) p -> in_box2 b p).
Proof.
  intros H1 H2. split; [|split].
  - unfold zAABox2DMerge. apply aab_create2.
  - intros p. unfold zAABox2DMerge, zAABox2DCreate, proper2, in_box2 in *; bcbn. intros [H|H]; repeat split; boxcases.
  - intros b H p Hp.
    pose proof (H (bmin2 b1) (or_introl (min_in2 _ H1))) as A1.
    pose proof (H (bmax2 b1) (or_introl (max_in2 _ H1))) as A2.
    pose proof (H (bmin2 b2) (or_intror (min_in2 _ H2))) as A3.
    pose proof (H (bmax2 b2) (or_intror (max_in2 _ H2))) as A4.
    clear H. unfold zAABox2DMerge, zAABox2DCreate, proper2, in_box2 in *; bcbn.
    destruct Hp as (Px & Py). split; [clear Py|clear Px]; boxcases.
Qed.
Lemma aab_enlarge b v : proper b ->
  proper (zAABox3DEnlarge b v) /\ in_box (zAABox3DEnlarge b v) v /\
  (forall p, in_box b p -> in_box (zAABox3DEnlarge b v) p) /\
  (forall b', in_box b' v -> (forall p, in_box b p -> in_box b' p) -> forall p, in_box (zAABox3DEnlarge b v) p -> in_box b' p).
Proof.
  intros H1. split; [|split; [|split]].
  - unfold zAABox3DEnlarge, proper in *; bcbn. repeat split; boxcases.
  - unfold zAABox3DEnlarge, proper, in_box in *; bcbn. repeat split; boxcases.
  - intros p. unfold zAABox3DEnlarge, proper, in_box in *; bcbn. intros H; repeat split; boxcases.
  - intros b' Hv H p Hp.
    pose proof (H (bmin b) (min_in _ H1)) as A1.
    pose proof (H (bmax b) (max_in _ H1)) as A2.
    clear H. unfold zAABox3DEnlarge, proper, in_box in *; bcbn.
    destruct Hp as (Px & Py & Pz). split; [clear Py Pz|split; [clear Px Pz|clear Px Py]]; boxcases.
Qed.
Lemma aab_enlarge2 b v : proper2 b ->
  proper2 (zAABox2DEnlarge b v) /\ in_box2 (zAABox2DEnlarge b v) v /\
  (forall p, in_box2 b p -> in_box2 (zAABox2DEnlarge b v) p) /\
  (forall b', in_box2 b' v -> (forall p, in_box2 b p -> in_box2 b' p) -> forall p, in_box2 (zAABox2DEnlarge b v) p -> in_box2 b' p).
Proof.
  intros H1. split; [|split; [|split]].
  - unfold zAABox2DEnlarge, proper2 in *; bcbn. repeat split; boxcases.
  - unfold zAABox2DEnlarge, proper2, in_box2 in *; bcbn. repeat split; boxcases.
  - intros p. unfold zAABox2DEnlarge, proper2, in_box2 in *; bcbn. intros H; repeat split; boxcases.
  - intros b' Hv H p Hp.
    pose proof (H (bmin2 b) (min_in2 _ H1)) as A1.
    pose proof (H (bmax2 b) (max_in2 _ H1)) as A2.
    clear H. unfold zAABox2DEnlarge, proper2, in_box2 in *; bcbn.
    destruct Hp as (Px & Py). split; [clear Py|clear Px]; boxcases.
Qed.
(** ** expansion *)
Lemma expand1 mn mx k v : mn <= mx -> 0 <= k ->
  1/2 * (mn + mx) - 1/2 * Rabs ((mx - mn) * k) <= v <= 1/2 * (mn + mx) + 1/2 * Rabs ((mx - mn) * k) <->
  exists q, mn <= q <= mx /\ v = 1/2 * (mn + mx) + k * (q - 1/2 * (mn + mx)).
Proof.
  intros H K. assert (0 <= (mx - mn) * k) by (apply Rmult_le_pos; lra). rewrite Rabs_right by lra. split.
  - intros Hv. destruct (Req_EM_T k 0) as [->|Hk].
    + exists mn. split; [lra|]. lra.
    + exists (1/2 * (mn + mx) + (v - 1/2 * (mn + mx)) / k). split; [|field; exact Hk].
      assert (Ek : v - 1/2 * (mn+mx) = k * ((v - 1/2 * (mn + mx)) / k)) by (field; exact Hk).
      set (q := (v - 1/2 * (mn+mx)) / k) in *. clearbody q. split; nra.
  - intros (q & Hq & ->). split; nra.
Qed.
Lemma magn m : (if Rltb m 0 then m * -1 else m) = Rabs m.
Proof. unfold Rabs. destruct (Rcase_abs m), (Rltb_reflect m 0); lra. Qed.
Lemma aab_expand b m : proper b -> forall p,
  in_box (zAABox3DExpand b m) p <->
  exists q, in_box b q /\ p = vadd (midpoint (bmin b) (bmax b)) (vscale (Rabs m) (vsub q (midpoint (bmin b) (bmax b)))).
Proof.
  intros (Hx & Hy & Hz) p. unfold zAABox3DExpand. rewrite magn. pose proof (Rabs_pos m) as Hm. set (k := Rabs m) in *; clearbody k.
  unfold zAABox3DCreateFromSize, zAABox3DCenter, zVec3DMid, zAABox3DDepth, zAABox3DWidth, zAABox3DHeight, in_box; bcbn.
  replace 0.5 with (1/2) by lra. rewrite !expand1 by assumption. split.
  - intros ((a & Ha & Ea) & (c & Hc & Ec) & (d & Hd & Ed)). exists (V3 a c d). bcbn. split; [tauto|].
    unfold midpoint, vadd, vscale, vsub. apply vec3_ext; pcbn; assumption.
  - intros (q & (Qx & Qy & Qz) & ->). unfold midpoint, vadd, vscale, vsub; pcbn. repeat split; [exists (vx q)|exists (vy q)|exists (vz q)]; split; auto.
Qed.
Lemma aab_expand2 b m : proper2 b -> forall p,
  in_box2 (zAABox2DExpand b m) p <->
  exists q, in_box2 b q /\ p = vadd2 (midpoint2 (bmin2 b) (bmax2 b)) (vscale2 (Rabs m) (vsub2 q (midpoint2 (bmin2 b) (bmax2 b)))).
Proof.
  intros (Hx & Hy) p. unfold zAABox2DExpand. rewrite magn. pose proof (Rabs_pos m) as Hm. set (k := Rabs m) in *; clearbody k.
  assert (E : zAABox2DCenter b = midpoint2 (bmin2 b) (bmax2 b)).
  { unfold zAABox2DCenter, zVec2DMid, zVec2DInterDiv, midpoint2, vadd2, vscale2, zVec2DCat, zVec2DSub. apply vec2_ext; pcbn; lra. }
  rewrite E. unfold midpoint2, vadd2, vscale2, vsub2.
  unfold zAABox2DCreateFromSize, in_box2; bcbn.
  rewrite !expand1 by assumption. split.
  - intros ((a & Ha & Ea) & (c & Hc & Ec)). exists (V2 a c). bcbn. split; [tauto|]. apply vec2_ext; pcbn; assumption.
  - intros (q & (Qx & Qy) & ->). pcbn. repeat split; [exists (x2 q)|exists (y2 q)]; split; auto.
Qed.
(** ** closest point, distance, inside *)
Lemma aab_closest b p : proper b ->
  nearest (in_box b) p (snd (zAABox3DClosest b p)) /\ fst (zAABox3DClosest b p) = dist p (snd (zAABox3DClosest b p)) /\
  zAABox3DDistFromPoint b p = fst (zAABox3DClosest b p) /\
  zAABox3DSqrDistFromPoint b p = fst (zAABox3DClosest b p) * fst (zAABox3DClosest b p).
Proof.
  intros (Hx & Hy & Hz).
  destruct (clamp_spec (vx p) _ _ Hx) as [Ax Bx], (clamp_spec (vy p) _ _ Hy) as [Ay By], (clamp_spec (vz p) _ _ Hz) as [Az Bz].
  unfold zAABox3DDistFromPoint, zAABox3DSqrDistFromPoint. rewrite !sqr_excess_spec by assumption.
  unfold zAABox3DClosest. cbn [fst snd].
  set (cx := zLimit _ _ _) in *. set (cy := zLimit (vy p) _ _) in *. set (cz := zLimit (vz p) _ _) in *. clearbody cx cy cz.
  repeat split; bcbn; try tauto.
  - intros x (Qx & Qy & Qz). unfold dist. apply norm_le_of_sqr. unfold dot, vsub; pcbn.
    specialize (Bx _ Qx). specialize (By _ Qy). specialize (Bz _ Qz). lra.
  - unfold zVec3DDist, zVec3DSqrDist, zVec3DSqrNorm, zVec3DInnerProd, zVec3DSub; pcbn. f_equal. ring.
  - unfold zVec3DDist, zVec3DSqrDist, zVec3DSqrNorm, zVec3DInnerProd, zVec3DSub; pcbn. rewrite sqrt_sqrt; [ring|].
    pose proof (sqr_nonneg (vx p - cx)); pose proof (sqr_nonneg (vy p - cy)); pose proof (sqr_nonneg (vz p - cz)); lra.
Qed.
Lemma aab_closest2 b p : proper2 b ->
  nearest2 (in_box2 b) p (snd (zAABox2DClosest b p)) /\ fst (zAABox2DClosest b p) = dist2 p (snd (zAABox2DClosest b p)) /\
  zAABox2DDistFromPoint b p = fst (zAABox2DClosest b p) /\
  zAABox2DSqrDistFromPoint b p = fst (zAABox2DClosest b p) * fst (zAABox2DClosest b p).
Proof.
  intros (Hx & Hy).
  destruct (clamp_spec (x2 p) _ _ Hx) as [Ax Bx], (clamp_spec (y2 p) _ _ Hy) as [Ay By].
  unfold zAABox2DDistFromPoint, zAABox2DSqrDistFromPoint. rewrite !sqr_excess_spec by assumption.
  unfold zAABox2DClosest. cbn [fst snd].
  set (cx := zLimit _ _ _) in *. set (cy := zLimit (y2 p) _ _) in *. clearbody cx cy.
  repeat split; bcbn; try tauto.
  - intros x (Qx & Qy). unfold dist2, norm_2. apply sqrt_le_1_alt. unfold dot2, vsub2; pcbn.
    specialize (Bx _ Qx). specialize (By _ Qy). lra.
  - unfold zVec2DDist, zVec2DSqrDist, zVec2DSqrNorm, zVec2DInnerProd, zVec2DSub; pcbn. f_equal. ring.
  - unfold zVec2DDist, zVec2DSqrDist, zVec2DSqrNorm, zVec2DInnerProd, zVec2DSub; pcbn. rewrite sqrt_sqrt; [ring|].
    pose proof (sqr_nonneg (x2 p - cx)); pose proof (sqr_nonneg (y2 p - cy)); lra.
Qed.
Lemma aab_inside b p m : zAABox3DPointIsInside b p m = true <->
  (vx (bmin b) - m < vx p <= vx (bmax b) + m) /\ (vy (bmin b) - m < vy p <= vy (bmax b) + m) /\
  (vz (bmin b) - m < vz p <= vz (bmax b) + m).
Proof. unfold zAABox3DPointIsInside. rewrite !andb_true_iff, !Rltb_true, !Rleb_true. tauto. Qed.
Lemma aab_inside2 b p m : zAABox2DPointIsInside b p m = true <->
  (x2 (bmin2 b) - m < x2 p < x2 (bmax2 b) + m) /\ (y2 (bmin2 b) - m < y2 p < y2 (bmax2 b) + m).
Proof. unfold zAABox2DPointIsInside. rewrite !andb_true_iff, !Rltb_true. tauto. Qed.
(** ** vertices *)
Lemma aab_vert b : (forall i, corner b (zAABox3DVert b i)) /\
  (forall p, corner b p -> exists i, (i < 8)%nat /\ zAABox3DVert b i = p).
Proof.
  split.
  - intros i. unfold corner, zAABox3DVert; bcbn. destruct (xorb _ _), (Nat.testbit i 1), (Nat.testbit i 2); tauto.
  - intros p (X & Y & Z). unfold zAABox3DVert.
    assert (K : forall i x y z, vx p = x -> vy p = y -> vz p = z -> (i < 8)%nat ->
      V3 (if xorb (Nat.testbit i 0) (Nat.testbit i 1) then vx (bmin b) else vx (bmax b))
         (if Nat.testbit i 1 then vy (bmin b) else vy (bmax b)) (if Nat.testbit i 2 then vz (bmin b) else vz (bmax b)) = V3 x y z ->
      exists i, (i < 8)%nat /\ V3 (if xorb (Nat.testbit i 0) (Nat.testbit i 1) then vx (bmin b) else vx (bmax b))
         (if Nat.testbit i 1 then vy (bmin b) else vy (bmax b)) (if Nat.testbit i 2 then vz (bmin b) else vz (bmax b)) = p).
    { intros i x y z Ex Ey Ez Hi E. exists i. split; auto. rewrite E. apply vec3_ext; cbn; auto. }
    destruct X as [X|X], Y as [Y|Y], Z as [Z|Z].
    + apply (K 6%nat _ _ _ X Y Z); [lia|reflexivity].
    + apply (K 2%nat _ _ _ X Y Z); [lia|reflexivity].
    + apply (K 5%nat _ _ _ X Y Z); [lia|reflexivity].
    + apply (K 1%nat _ _ _ X Y Z); [lia|reflexivity].
    + apply (K 7%nat _ _ _ X Y Z); [lia|reflexivity].
    + apply (K 3%nat _ _ _ X Y Z); [lia|reflexivity].
    + apply (K 4%nat _ _ _ X Y Z); [lia|reflexivity].
    + apply (K 0%nat _ _ _ X Y Z); [lia|reflexivity].
Qed.
Lemma aab_vert2 b : (forall i, corner2 b (zAABox2DVert b i)) /\
  (forall p, corner2 b p -> exists i, (i < 4)%nat /\ zAABox2DVert b i = p).
Proof.
  split.
  - intros i. unfold corner2, zAABox2DVert; bcbn. destruct (xorb _ _), (Nat.testbit i 1); tauto.
  - intros p (X & Y). unfold zAABox2DVert.
    destruct X as [X|X], Y as [Y|Y]; [exists 2%nat|exists 1%nat|exists 3%nat|exists 0%nat]; (split; [lia|]); apply vec2_ext; cbn; auto.
Qed.
Lemma aab_volume b : proper b -> zAABox3DVolume b = zAABox3DDepth b * zAABox3DWidth b * zAABox3DHeight b.
Proof.
  intros (Hx & Hy & Hz). unfold zAABox3DVolume, zAABox3DDepth, zAABox3DWidth, zAABox3DHeight. apply Rabs_right.
  apply Rle_ge. repeat apply Rmult_le_pos; lra.
Qed.
Lemma aab_area b : proper2 b -> zAABox2DArea b = (x2 (bmax2 b) - x2 (bmin2 b)) * (y2 (bmax2 b) - y2 (bmin2 b)).
Proof. intros (Hx & Hy). unfold zAABox2DArea. apply Rabs_right. apply Rle_ge. repeat apply Rmult_le_pos; lra. Qed.
(** ** overlap *)
Lemma colchk_iff b1 b2 : zColChkAABox3D b1 b2 = true <->
  (vx (bmin b1) < vx (bmax b2) /\ vx (bmin b2) < vx (bmax b1)) /\
  (vy (bmin b1) < vy (bmax b2) /\ vy (bmin b2) < vy (bmax b1)) /\
  (vz (bmin b1) < vz (bmax b2) /\ vz (bmin b2) < vz (bmax b1)).
Proof. unfold zColChkAABox3D. rewrite !andb_true_iff, !Rltb_true. tauto. Qed.
Lemma overlap1 a1 c1 a2 c2 : a1 <= c1 -> a2 <= c2 -> a1 < c2 -> a2 < c1 ->
  exists e, 0 < e /\ forall d, Rabs d <= e -> exists x, a1 <= x - d <= c1 /\ a2 <= x <= c2.
Proof.
  intros H1 H2 H3 H4. exists (Rmin (c2 - a1) (c1 - a2)). split; [apply Rmin_glb_lt; lra|].
  intros d Hd. apply abs_le_iff in Hd. pose proof (Rmin_l (c2 - a1) (c1 - a2)). pose proof (Rmin_r (c2 - a1) (c1 - a2)).
  exists (Rmax (a1 + d) a2). pose proof (Rmax_l (a1 + d) a2). pose proof (Rmax_r (a1+d) a2).
  assert (Rmax (a1 + d) a2 <= c1 + d) by (apply Rmax_lub; lra).
  assert (Rmax (a1 + d) a2 <= c2) by (apply Rmax_lub; lra). lra.
Qed.
Lemma aab_overlap b1 b2 : proper b1 -> proper b2 ->
  zColChkAABox3D b1 b2 = true <-> meet_robustly (in_box b1) (in_box b2).
Proof.
  intros (A1 & A2 & A3) (B1 & B2 & B3'). rewrite colchk_iff. split.
  - intros ((X1 & X2) & (Y1 & Y2) & (Z1 & Z2)).
    destruct (overlap1 _ _ _ _ A1 B1 X1 X2) as (ex & Ex & Hx).
    destruct (overlap1 _ _ _ _ A2 B2 Y1 Y2) as (ey & Ey & Hy).
    destruct (overlap1 _ _ _ _ A3 B3' Z1 Z2) as (ez & Ez & Hz).
    exists (Rmin ex (Rmin ey ez)). split; [repeat apply Rmin_glb_lt; auto|].
    pose proof (Rmin_l ex (Rmin ey ez)). pose proof (Rmin_r ex (Rmin ey ez)). pose proof (Rmin_l ey ez). pose proof (Rmin_r ey ez).
    intros d D1 D2 D3. destruct (Hx (vx d)) as (x & ? & ?); [lra|]. destruct (Hy (vy d)) as (y & ? & ?); [lra|]. destruct (Hz (vz d)) as (z & ? & ?); [lra|].
    exists (V3 x y z). unfold in_box, vsub; bcbn. tauto.
  - intros (e & He & H).
    assert (Ae : Rabs e <= e) by (rewrite Rabs_right; lra). assert (Ae' : Rabs (-e) <= e) by (rewrite Rabs_Ropp; auto).
    destruct (H (V3 e e e)) as (p & P1 & P2); auto. destruct (H (V3 (-e) (-e) (-e))) as (q & Q1 & Q2); auto.
    unfold in_box, vsub in *; bcbn. repeat split; lra.
Qed.
Lemma aab_overlap_solid b1 b2 :
  (forall b, b = b1 \/ b = b2 -> vx (bmin b) < vx (bmax b) /\ vy (bmin b) < vy (bmax b) /\ vz (bmin b) < vz (bmax b)) ->
  zColChkAABox3D b1 b2 = true <->
  exists p, (forall b, b = b1 \/ b = b2 ->
    vx (bmin b) < vx p < vx (bmax b) /\ vy (bmin b) < vy p < vy (bmax b) /\ vz (bmin b) < vz p < vz (bmax b)).
Proof.
  intros H. pose proof (H b1 (or_introl eq_refl)) as H1. pose proof (H b2 (or_intror eq_refl)) as H2. clear H. rewrite colchk_iff. split.
  - intros K.
    assert (M : forall a1 c1 a2 c2, a1 < c1 -> a2 < c2 -> a1 < c2 -> a2 < c1 -> exists x, (a1 < x < c1) /\ (a2 < x < c2)).
    { intros a1 c1 a2 c2 ? ? ? ?. exists ((Rmax a1 a2 + Rmin c1 c2) / 2).
      assert (Rmax a1 a2 < Rmin c1 c2) by (apply Rmax_lub_lt; apply Rmin_glb_lt; auto).
      pose proof (Rmax_l a1 a2). pose proof (Rmax_r a1 a2). pose proof (Rmin_l c1 c2). pose proof (Rmin_r c1 c2). lra. }
    destruct (M (vx (bmin b1)) (vx (bmax b1)) (vx (bmin b2)) (vx (bmax b2))) as (x & ?); try tauto.
    destruct (M (vy (bmin b1)) (vy (bmax b1)) (vy (bmin b2)) (vy (bmax b2))) as (y & ?); try tauto.
    destruct (M (vz (bmin b1)) (vz (bmax b1)) (vz (bmin b2)) (vz (bmax b2))) as (z & ?); try tauto.
    exists (V3 x y z). bcbn. intros b [-> | ->]; tauto.
  - intros (p & H). pose proof (H b1 (or_introl eq_refl)). pose proof (H b2 (or_intror eq_refl)). lra.
Qed.
Lemma aab_intersect b1 b2 : proper b1 -> proper b2 ->
  match zIntersectAABox3D b1 b2 with
  | Some b => zColChkAABox3D b1 b2 = true /\ proper b /\ forall p, in_box b p <-> in_box b1 p /\ in_box b2 p
  | None => zColChkAABox3D b1 b2 = false
  end.
Proof.
  intros P1 P2. unfold zIntersectAABox3D. destruct (zColChkAABox3D b1 b2) eqn:E; cbn [negb]; [|reflexivity].
  split; [reflexivity|]. split; [apply aab_create|]. intros p.
  apply colchk_iff in E. unfold proper, in_box, zAABox3DCreate in *; bcbn.
  assert (K : forall a1 c1 a2 c2 x, a1 <= c1 -> a2 <= c2 -> a1 < c2 -> a2 < c1 ->
    (zMin (zMax a1 a2) (zMin c1 c2) <= x <= zMax (zMax a1 a2) (zMin c1 c2) <-> a1 <= x <= c1 /\ a2 <= x <= c2)).
  { intros. boxcases. }
  rewrite !K by tauto. tauto.
Qed.
(** ** sphere against box *)
Lemma sphere_aab c r b : proper b -> zColChkSphereAABox3D c r b = true <-> exists x, in_box b x /\ dist c x < r.
Proof.
  intros H. destruct (aab_closest b c H) as (N & D & E & _). unfold zColChkSphereAABox3D. rewrite E, D. apply margin_test, N.
Qed.

(** ** bounding box of point data *)
Definition attains (l : list vec3) (f : vec3 -> R) (v : R) (p : vec3) : Prop := In p l /\ f p = v.
Definition aabb_inv (l : list vec3) (st : aabox3 * extreme3) : Prop :=
  let '(bb, vp) := st in
  proper bb /\ (forall p, In p l -> in_box bb p) /\
  attains l vx (vx (bmax bb)) (xp0 vp) /\ attains l vy (vy (bmax bb)) (xp1 vp) /\ attains l vz (vz (bmax bb)) (xp2 vp) /\
  attains l vx (vx (bmin bb)) (xp3 vp) /\ attains l vy (vy (bmin bb)) (xp4 vp) /\ attains l vz (vz (bmin bb)) (xp5 vp).
Lemma aabb_inc_inv l st p : aabb_inv l st -> aabb_inv (l ++ [p]) (_zAABB3DInc st p).
Proof.
  destruct st as [bb vp]. intros ((Px & Py & Pz) & HI & A0 & A1 & A2 & A3 & A4 & A5).
  assert (App : forall f v q, attains l f v q -> attains (l ++ [p]) f v q).
  { intros f v q [Q1 Q2]. split; auto. apply in_or_app; auto. }
  assert (New : forall f, attains (l ++ [p]) f (f p) p).
  { intros f. split; auto. apply in_or_app; right; left; auto. }
  apply App in A0, A1, A2, A3, A4, A5.
  unfold _zAABB3DInc, _zAABBTest.
  destruct vp as [v0 v1 v2 v3 v4 v5]. cbn [xp0 xp1 xp2 xp3 xp4 xp5] in *.
  assert (HI' : forall q, In q (l ++ [p]) -> in_box bb q \/ q = p).
  { intros q Hq. apply in_app_or in Hq. destruct Hq as [Hq|[Hq|[]]]; auto. }
  repeat rcase1; cbn [Z.eqb Z.add Pos.add Pos.succ setvp]; unfold aabb_inv; cbn [xp0 xp1 xp2 xp3 xp4 xp5]; bcbn;
  (split; [unfold proper; bcbn; repeat split; lra|split; [
      intros q Hq; destruct (HI' q Hq) as [Iq| ->]; unfold in_box in *; bcbn; repeat split; lra |
      repeat (split; [solve [auto]|]); auto]]).
Qed.
Lemma aabb_fold_inv l pre st : aabb_inv pre st -> aabb_inv (pre ++ l) (fold_left _zAABB3DInc l st).
Proof.
  revert pre st. induction l as [|p l IH]; intros pre st H; cbn [fold_left].
  - rewrite app_nil_r. exact H.
  - replace (pre ++ p :: l) with ((pre ++ [p]) ++ l) by (rewrite <- app_assoc; reflexivity). apply IH, aabb_inc_inv, H.
Qed.
Lemma aabb_data data : match zVec3DDataAABB data with
  | None => data = []
  | Some st => data <> [] /\ aabb_inv data st
  end.
Proof.
  destruct data as [|v rest]; cbn [zVec3DDataAABB]; [reflexivity|]. split; [discriminate|].
  apply (aabb_fold_inv rest [v]). unfold aabb_inv, proper, attains; cbn [xp0 xp1 xp2 xp3 xp4 xp5]; bcbn.
  repeat split; try lra; cbn [In]; auto; destruct H as [<-|[]]; unfold in_box; bcbn; lra.
Qed.
Lemma aabb_least data bb vp : zVec3DDataAABB data = Some (bb, vp) ->
  forall b, (forall p, In p data -> in_box b p) -> forall p, in_box bb p -> in_box b p.
Proof.
  intros E b Hb p Hp. pose proof (aabb_data data) as H. rewrite E in H. destruct H as (_ & _ & _ & A0 & A1 & A2 & A3 & A4 & A5).
  unfold attains in *.
  pose proof (Hb _ (proj1 A0)). pose proof (Hb _ (proj1 A1)). pose proof (Hb _ (proj1 A2)). pose proof (Hb _ (proj1 A3)). pose proof (Hb _ (proj1 A4)). pose proof (Hb _ (proj1 A5)).
  unfold in_box in *. lra.
Qed.
Lemma aabb_xform data f : zVec3DDataAABBXform data f = option_map fst (zVec3DDataAABB (map (act f) data)).
Proof.
  destruct data as [|v rest]; [reflexivity|]. cbn [zVec3DDataAABBXform zVec3DDataAABB map option_map].
  assert (E : forall v, zXform3D f v = act f v).
  { intros. unfold zXform3D, act. zvg. unfold zMulMat3DVec3D. apply vec3_ext; spec_unfold; ring. }
  rewrite <- (E v). f_equal. f_equal. generalize (B3 (zXform3D f v) (zXform3D f v), X3 (zXform3D f v) (zXform3D f v) (zXform3D f v) (zXform3D f v) (zXform3D f v) (zXform3D f v)).
  induction rest as [|q rest IH]; intros st; [reflexivity|]. cbn [map fold_left]. rewrite <- E. apply IH.
Qed.
(** 2D *)
Definition attains2 (l : list vec2) (f : vec2 -> R) (v : R) (p : vec2) : Prop := In p l /\ f p = v.
Definition aabb_inv2 (l : list vec2) (st : aabox2 * extreme2) : Prop :=
  let '(bb, vp) := st in
  proper2 bb /\ (forall p, In p l -> in_box2 bb p) /\
  attains2 l x2 (x2 (bmax2 bb)) (xq0 vp) /\ attains2 l y2 (y2 (bmax2 bb)) (xq1 vp) /\
  attains2 l x2 (x2 (bmin2 bb)) (xq2 vp) /\ attains2 l y2 (y2 (bmin2 bb)) (xq3 vp).
Lemma aabb_inc_inv2 l st p : aabb_inv2 l st -> aabb_inv2 (l ++ [p]) (_zAABB2DInc st p).
Proof.
  destruct st as [bb vp]. intros ((Px & Py) & HI & A0 & A1 & A2 & A3).
  assert (App : forall f v q, attains2 l f v q -> attains2 (l ++ [p]) f v q).
  { intros f v q [Q1 Q2]. split; auto. apply in_or_app; auto. }
  assert (New : forall f, attains2 (l ++ [p]) f (f p) p).
  { intros f. split; auto. apply in_or_app; right; left; auto. }
  apply App in A0, A1, A2, A3.
  unfold _zAABB2DInc, _zAABBTest2.
  destruct vp as [v0 v1 v2 v3]. cbn [xq0 xq1 xq2 xq3] in *.
  assert (HI' : forall q, In q (l ++ [p]) -> in_box2 bb q \/ q = p).
  { intros q Hq. apply in_app_or in Hq. destruct Hq as [Hq|[Hq|[]]]; auto. }
  repeat rcase1; cbn [Z.eqb Z.add Pos.add Pos.succ setvp2]; unfold aabb_inv2; cbn [xq0 xq1 xq2 xq3]; bcbn;
  (split; [unfold proper2; bcbn; repeat split; lra|split; [
      intros q Hq; destruct (HI' q Hq) as [Iq| ->]; unfold in_box2 in *; bcbn; repeat split; lra |
      repeat (split; [solve [auto]|]); auto]]).
Qed.
Lemma aabb_data2 data : match zVec2DDataAABB data with
  | None => data = []
  | Some st => data <> [] /\ aabb_inv2 data st
  end.
Proof.
  destruct data as [|v rest]; cbn [zVec2DDataAABB]; [reflexivity|]. split; [discriminate|].
  assert (G : forall l pre st, aabb_inv2 pre st -> aabb_inv2 (pre ++ l) (fold_left _zAABB2DInc l st)).
  { induction l as [|p l IH]; intros pre st H; cbn [fold_left].
    - rewrite app_nil_r. exact H.
    - replace (pre ++ p :: l) with ((pre ++ [p]) ++ l) by (rewrite <- app_assoc; reflexivity). apply IH, aabb_inc_inv2, H. }
  apply (G rest [v]). unfold aabb_inv2, proper2, attains2; cbn [xq0 xq1 xq2 xq3]; bcbn.
  repeat split; try lra; cbn [In]; auto; destruct H as [<-|[]]; unfold in_box2; bcbn; lra.
Qed.
Lemma aabb_least2 data bb vp : zVec2DDataAABB data = Some (bb, vp) ->
  forall b, (forall p, In p data -> in_box2 b p) -> forall p, in_box2 bb p -> in_box2 b p.
Proof.
  intros E b Hb p Hp. pose proof (aabb_data2 data) as H. rewrite E in H. destruct H as (_ & _ & _ & A0 & A1 & A2 & A3).
  unfold attains2 in *. pose proof (Hb _ (proj1 A0)). pose proof (Hb _ (proj1 A1)). pose proof (Hb _ (proj1 A2)). pose proof (Hb _ (proj1 A3)).
  unfold in_box2 in *. lra.
Qed.
Lemma aabb_bounds data bb vp : zVec3DDataAABB data = Some (bb, vp) ->
  proper bb /\ (forall p, In p data -> in_box bb p) /\
  (forall b, (forall p, In p data -> in_box b p) -> forall p, in_box bb p -> in_box b p).
Proof.
  intros E. pose proof (aabb_data data) as H. rewrite E in H. destruct H as (_ & P & I & _). split; [exact P|]. split; [exact I|].
  apply (aabb_least data bb vp E).
Qed.
Lemma aabb_extremes data bb vp : zVec3DDataAABB data = Some (bb, vp) ->
  (forall v, In v [xp0 vp; xp1 vp; xp2 vp; xp3 vp; xp4 vp; xp5 vp] -> In v data) /\
  bmax bb = V3 (vx (xp0 vp)) (vy (xp1 vp)) (vz (xp2 vp)) /\ bmin bb = V3 (vx (xp3 vp)) (vy (xp4 vp)) (vz (xp5 vp)).
Proof.
  intros E. pose proof (aabb_data data) as H. rewrite E in H. destruct H as (_ & _ & _ & A0 & A1 & A2 & A3 & A4 & A5). unfold attains in *.
  split; [|split; apply vec3_ext; cbn [vx vy vz]; symmetry; tauto].
  intros v [<-|[<-|[<-|[<-|[<-|[<-|[]]]]]]]; tauto.
Qed.
Lemma aabb_empty data : zVec3DDataAABB data = None <-> data = [].
Proof. destruct data; cbn [zVec3DDataAABB]; split; congruence. Qed.
Lemma aabb_bounds2 data bb vp : zVec2DDataAABB data = Some (bb, vp) ->
  proper2 bb /\ (forall p, In p data -> in_box2 bb p) /\
  (forall b, (forall p, In p data -> in_box2 b p) -> forall p, in_box2 bb p -> in_box2 b p).
Proof.
  intros E. pose proof (aabb_data2 data) as H. rewrite E in H. destruct H as (_ & P & I & _). split; [exact P|]. split; [exact I|].
  apply (aabb_least2 data bb vp E).
Qed.
Lemma aabb_extremes2 data bb vp : zVec2DDataAABB data = Some (bb, vp) ->
  (forall v, In v [xq0 vp; xq1 vp; xq2 vp; xq3 vp] -> In v data) /\
  bmax2 bb = V2 (x2 (xq0 vp)) (y2 (xq1 vp)) /\ bmin2 bb = V2 (x2 (xq2 vp)) (y2 (xq3 vp)).
Proof.
  intros E. pose proof (aabb_data2 data) as H. rewrite E in H. destruct H as (_ & _ & _ & A0 & A1 & A2 & A3). unfold attains2 in *.
  split; [|split; apply vec2_ext; cbn [x2 y2]; symmetry; tauto].
  intros v [<-|[<-|[<-|[<-|[]]]]]; tauto.
Qed.
Lemma aabb_empty2 data : zVec2DDataAABB data = None <-> data = [].
Proof. destruct data; cbn [zVec2DDataAABB]; split; congruence. Qed.
Lemma aabb_xform_bounds data f : match zVec3DDataAABBXform data f with
  | None => data = []
  | Some bb => proper bb /\ (forall p, In p data -> in_box bb (act f p)) /\
      (forall b, (forall p, In p data -> in_box b (act f p)) -> forall p, in_box bb p -> in_box b p)
  end.
Proof.
  rewrite aabb_xform. destruct (zVec3DDataAABB (map (act f) data)) as [[bb vp]|] eqn:E; cbn [option_map fst].
  - destruct (aabb_bounds _ _ _ E) as (P & I & L). split; [exact P|]. split.
    + intros p Hp. apply I, in_map, Hp.
    + intros b Hb. apply L. intros q Hq. apply in_map_iff in Hq. destruct Hq as (p & <- & Hp). auto.
  - apply aabb_empty in E. destruct data; [reflexivity|discriminate].
Qed.
(** the two polyhedra's common box *)
Lemma ph_box l1 l2 : l1 <> [] -> l2 <> [] ->
  match zIntersectPH3DBox l1 l2 with
  | Some b => forall p, (forall b', (forall q, In q l1 -> in_box b' q) -> in_box b' p) -> (forall b', (forall q, In q l2 -> in_box b' q) -> in_box b' p) -> in_box b p
  | None => True
  end.
Proof.
  intros N1 N2. unfold zIntersectPH3DBox. destruct (zVec3DDataAABB l1) as [[b1 v1]|] eqn:E1; [|exact I].
  destruct (zVec3DDataAABB l2) as [[b2 v2]|] eqn:E2; [|exact I].
  destruct (aabb_bounds _ _ _ E1) as (P1 & I1 & L1). destruct (aabb_bounds _ _ _ E2) as (P2 & I2 & L2).
  pose proof (aab_intersect b1 b2 P1 P2) as H. destruct (zIntersectAABox3D b1 b2) as [b|]; [|exact I].
  destruct H as (_ & _ & H). intros p H1 H2. apply H. split; [apply H1; auto|apply H2; auto].
Qed.
