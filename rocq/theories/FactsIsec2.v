(** Intersection of convex polyhedra: consequences and examples. *)
From Verif Require Export FactsIsec.
From Verif Require FactsSvd FactsQH FactsQH2.
From Coq Require Import Lra Lia List Bool.
Import ListNotations.
Open Scope R_scope.

Lemma common_app hs1 hs2 x : common (hs1 ++ hs2) x <-> common hs1 x /\ common hs2 x.
Proof. split; [intros H; split; intros n a I; apply H, in_or_app; auto|]. intros (A & B) n a I. apply in_app_or in I. destruct I; auto. Qed.
Lemma widened_common p e hs x : common hs x -> widened p e hs x.
Proof. intros H n a I. specialize (H n a I). eapply Rle_trans; [|apply Rmax_l]. replace (dot n (vsub x p)) with (dot n (vsub x a) + dot n (vsub a p)) by (spec_unfold; ring). lra. Qed.
Lemma widened_exact p e hs x : (forall n a, List.In (n, a) hs -> e <= dot n (vsub a p)) -> widened p e hs x -> common hs x.
Proof. intros C H n a I. specialize (H n a I). specialize (C n a I). rewrite Rmax_left in H by exact C. replace (dot n (vsub x a)) with (dot n (vsub x p) - dot n (vsub a p)) by (spec_unfold; ring). lra. Qed.
Lemma widened_near p e hs x : 0 < e -> (forall n a, List.In (n, a) hs -> dot n (vsub p a) < 0) -> widened p e hs x -> forall n a, List.In (n, a) hs -> dot n (vsub x a) < e.
Proof.
  intros E C H n a I. specialize (H n a I). specialize (C n a I). assert (G : dot n (vsub p a) = - dot n (vsub a p)) by (spec_unfold; ring). replace (dot n (vsub x a)) with (dot n (vsub x p) - dot n (vsub a p)) by (spec_unfold; ring).
  destruct (Rle_or_lt e (dot n (vsub a p))); [rewrite Rmax_left in H by assumption|rewrite Rmax_right in H by lra]; lra.
Qed.
Lemma isec_intersection hull iter depth ph1 ph2 ph : ph_hull (pverts ph1) ph1 -> ph_hull (pverts ph2) ph2 -> zIntersectPH3D hull iter depth ph1 ph2 = Some (Some ph) ->
  let hs := ph_planes ph1 ++ ph_planes ph2 in let e := / 100000 in
  exists p ch, (forall n a, List.In (n, a) hs -> dot n (vsub p a) < - zTOL) /\ hull (duals p e hs) = Some ch /\
    (ph_hull (duals p e hs) ch -> (forall x, widened p e hs x -> dist x p <= 100000) ->
     hull (backs p (ph_planes ch)) = Some ph /\
     (ph_hull (backs p (ph_planes ch)) ph ->
      (forall x, convex_hull (pverts ph1) x -> convex_hull (pverts ph2) x -> convex_hull (pverts ph) x) /\
      (forall x n a, convex_hull (pverts ph) x -> List.In (n, a) hs -> dot n (vsub x a) < e) /\
      ((forall n a, List.In (n, a) hs -> e <= dot n (vsub a p)) -> forall x, convex_hull (pverts ph) x <-> convex_hull (pverts ph1) x /\ convex_hull (pverts ph2) x))).
Proof.
  intros (F1 & _ & H1) (F2 & _ & H2) R0. cbv zeta. destruct (isec_region hull iter depth ph1 ph2 ph F1 F2 R0) as (p & ch & A & B & C). exists p, ch. split; [exact A|]. split; [exact B|]. intros K BD. destruct (C K BD) as (D & G). split; [exact D|]. intros Q. specialize (G Q).
  split; [|split].
  - intros x X1 X2. apply G, widened_common, common_app. split; [apply H1, X1|apply H2, X2].
  - intros x n a X I. apply (widened_near p (/ 100000) (ph_planes ph1 ++ ph_planes ph2)); [lra| |apply G, X|exact I]. intros m b J. pose proof zTOL_pos. specialize (A m b J). lra.
  - intros E x. rewrite G. split.
    + intros W. apply (widened_exact _ _ _ _ E), common_app in W. destruct W. split; [apply H1; assumption|apply H2; assumption].
    + intros (X1 & X2). apply widened_common, common_app. split; [apply H1, X1|apply H2, X2].
Qed.
Lemma isec_defined hull iter depth ph1 ph2 : FactsPH2.valid_ph ph1 -> FactsPH2.valid_ph ph2 -> (forall l ch, hull l = Some ch -> FactsPH2.valid_ph ch) -> zIntersectPH3D hull iter depth ph1 ph2 <> None.
Proof.
  intros V1 V2 VH. unfold zIntersectPH3D. destruct (depth _ _) as [(p1, p2)|]; [|discriminate]. destruct (Rltb _ _); [discriminate|]. rewrite (FactsPH2.tris_ok ph1 V1), (FactsPH2.tris_ok ph2 V2).
  destruct (isec_base _ _ _ _) as [p|]; [|discriminate]. unfold isec_dual. destruct (mapM_total (zTri3DDualXform_a p) (map (FactsPH2.tri_at (pverts ph1)) (pfaces ph1) ++ map (FactsPH2.tri_at (pverts ph2)) (pfaces ph2))) as (ys & ->); [intros t; apply dual_some|].
  destruct (hull ys) as [ch|] eqn:E; [|discriminate]. rewrite (FactsPH2.tris_ok ch (VH _ _ E)). destruct (isec_back _ _); discriminate.
Qed.
Lemma isec_shallow hull iter depth ph1 ph2 : (forall p1 p2, depth (pverts ph1) (pverts ph2) = Some (p1, p2) -> dist p1 p2 < / 10000) -> zIntersectPH3D hull iter depth ph1 ph2 = Some None.
Proof.
  intros H. unfold zIntersectPH3D. destruct (depth _ _) as [(p1, p2)|]; [|reflexivity]. specialize (H p1 p2 eq_refl). destruct (Rltb_reflect (zVec3DDist p1 p2) zeoIntersectThreshold) as [L|L]; [reflexivity|].
  exfalso. apply L. unfold zeoIntersectThreshold. exact H.
Qed.

(** ** tetrahedra *)
Definition unitv (w : vec3) : vec3 := vscale (/ norm w) w.
Definition outv (a b c : vec3) : vec3 := unitv (cross (vsub b a) (vsub c a)).
Definition tetp (a b c d : vec3) : ph3 := PH [a; b; c; d] [FC 0 1 2 (outv a b c); FC 0 3 1 (outv a d b); FC 1 3 2 (outv b d c); FC 2 3 0 (outv c d a)].
Lemma norm_pos_of v d : dot v d <> 0 -> 0 < norm v.
Proof. intros H. destruct (Req_dec (norm v) 0) as [E|E]; [|pose proof (norm_nonneg v); lra]. exfalso. apply H. assert (v = v3zero) as -> by (apply norm_zero_iff, E). spec_unfold. ring. Qed.
Lemma outv_unit a b c d : vol6 a b c d <> 0 -> norm (outv a b c) = 1.
Proof.
  intros H. rewrite FactsQH2.vol6_dot in H. apply norm_pos_of in H. unfold outv, unitv. set (w := cross _ _) in *. rewrite FactsSvd.norm_scale, Rabs_pos_eq by (left; apply Rinv_0_lt_compat, H). field. lra.
Qed.
Lemma outv_perp a b c : dot (outv a b c) (vsub b a) = 0 /\ dot (outv a b c) (vsub c a) = 0.
Proof. unfold outv, unitv. generalize (/ norm (cross (vsub b a) (vsub c a))). intros k. split; spec_unfold; ring. Qed.
Lemma outv_side a b c d x : vol6 a b c d <> 0 -> dot (outv a b c) (vsub x a) <= 0 <-> vol6 a b c x <= 0.
Proof.
  intros H. rewrite FactsQH2.vol6_dot in H. apply norm_pos_of in H. rewrite FactsQH2.vol6_dot. unfold outv, unitv. set (w := cross _ _) in *. set (k := norm w) in *.
  replace (dot (vscale (/ k) w) (vsub x a)) with (/ k * dot w (vsub x a)) by (clearbody k w; spec_unfold; ring). assert (Ik : 0 < / k) by (apply Rinv_0_lt_compat, H). generalize dependent (dot w (vsub x a)). intros r. split; intros L.
  - apply Rnot_lt_le. intros G. pose proof (Rmult_lt_0_compat _ _ Ik G). lra.
  - assert (/ k * r <= / k * 0) by (apply Rmult_le_compat_l; lra). lra.
Qed.
Lemma tetp_hull L a b c d : vol6 a b c d < 0 -> List.In a L -> List.In b L -> List.In c L -> List.In d L -> (forall y, List.In y L -> vol6 a b c y <= 0 /\ vol6 a d b y <= 0 /\ vol6 b d c y <= 0 /\ vol6 c d a y <= 0) -> ph_hull L (tetp a b c d).
Proof.
  intros V Ia Ib Ic Id LI.
  assert (V1 : vol6 a b c d <> 0) by lra. assert (V2 : vol6 a d b c <> 0). { replace (vol6 a d b c) with (vol6 a b c d); [exact V1|]. unfold vol6. spec_unfold. ring. }
  assert (V3 : vol6 b d c a <> 0). { replace (vol6 b d c a) with (vol6 a b c d); [exact V1|]. unfold vol6. spec_unfold. ring. }
  assert (V4 : vol6 c d a b <> 0). { replace (vol6 c d a b) with (vol6 a b c d); [exact V1|]. unfold vol6. spec_unfold. ring. }
  assert (CM : forall x, common (ph_planes (tetp a b c d)) x <-> vol6 a b c x <= 0 /\ vol6 a d b x <= 0 /\ vol6 b d c x <= 0 /\ vol6 c d a x <= 0).
  { intros x. rewrite <- (outv_side a b c d x V1), <- (outv_side a d b c x V2), <- (outv_side b d c a x V3), <- (outv_side c d a b x V4). unfold ph_planes, planes, ph_nfaces, tetp, common. cbn. split.
    - intros H. repeat split; apply H; auto 6.
    - intros (H1 & H2 & H3 & H4) n q [E|[E|[E|[E|[]]]]]; injection E as <- <-; assumption. }
  assert (HU : forall M, List.In a M -> List.In b M -> List.In c M -> List.In d M -> (forall y, List.In y M -> vol6 a b c y <= 0 /\ vol6 a d b y <= 0 /\ vol6 b d c y <= 0 /\ vol6 c d a y <= 0) -> forall x, convex_hull M x <-> common (ph_planes (tetp a b c d)) x).
  { intros M Ja Jb Jc Jd LM x. rewrite CM. split.
    - intros H. rewrite !FactsQH2.vol6_dot. repeat split; apply (hull_le _ _ 0 M); try exact H; intros v J; rewrite <- FactsQH2.vol6_dot; apply (LM v J).
    - intros (A & B & C & D). apply (FactsQH.tetra_hull M a b c d); auto. apply FactsQH.tetra_inside; assumption. }
  split; [|split].
  - intros i j k n I. unfold ph_nfaces, tetp in I. cbn in I. destruct I as [I|[I|[I|[I|[]]]]]; injection I as <- <- <- <-; cbn [pverts tetp length]; repeat (split; [lia|]).
    + split; [apply (outv_unit a b c d V1)|]. apply (outv_perp a b c).
    + split; [apply (outv_unit a d b c V2)|]. apply (outv_perp a d b).
    + split; [apply (outv_unit b d c a V3)|]. apply (outv_perp b d c).
    + split; [apply (outv_unit c d a b V4)|]. apply (outv_perp c d a).
  - apply HU; assumption.
  - apply HU; cbn; auto. intros y I.
    assert (Z : forall u v w, vol6 u v w u = 0 /\ vol6 u v w v = 0 /\ vol6 u v w w = 0) by (intros; unfold vol6; repeat split; spec_unfold; ring).
    assert (G2 : vol6 a d b c = vol6 a b c d) by (unfold vol6; spec_unfold; ring). assert (G3 : vol6 b d c a = vol6 a b c d) by (unfold vol6; spec_unfold; ring). assert (G4 : vol6 c d a b = vol6 a b c d) by (unfold vol6; spec_unfold; ring).
    pose proof (Z a b c) as (? & ? & ?). pose proof (Z a d b) as (? & ? & ?). pose proof (Z b d c) as (? & ? & ?). pose proof (Z c d a) as (? & ? & ?).
    destruct I as [<-|[<-|[<-|[<-|[]]]]]; repeat split; lra.
Qed.

(** ** the example: a corner {x >= -a, y >= -b, z >= -b, x + y + z <= b} *)
Definition wedge (a b : R) : ph3 := let k := 3 * b + a in tetp (V3 (- a) (- b) (- b)) (V3 (- a) (k - b) (- b)) (V3 (k - a) (- b) (- b)) (V3 (- a) (- b) (k - b)).
Definition third : R := / sqrt 3.
Lemma third_facts : third * third = 1 / 3 /\ 1 / 2 < third.
Proof.
  assert (Q : sqrt 3 * sqrt 3 = 3) by (apply sqrt_sqrt; lra). assert (P : 0 < sqrt 3) by (apply sqrt_lt_R0; lra). unfold third. split.
  - apply (Rmult_eq_reg_l (sqrt 3 * sqrt 3)); [|rewrite Q; lra]. replace (sqrt 3 * sqrt 3 * (/ sqrt 3 * / sqrt 3)) with 1 by (field; lra). rewrite Q. lra.
  - replace (1 / 2) with (/ 2) by lra. apply Rinv_lt_contravar; [lra|]. assert (S4 : sqrt 4 = 2) by (replace 4 with (2 * 2) by ring; apply sqrt_square; lra). rewrite <- S4. apply sqrt_lt_1; lra.
Qed.
Lemma unitv_scale k u : 0 < k -> norm u = 1 -> unitv (vscale k u) = u.
Proof. intros K U. unfold unitv. rewrite FactsSvd.norm_scale, U, Rabs_pos_eq by lra. apply vec3_ext; spec_unfold; field; lra. Qed.
Lemma norm_one u : dot u u = 1 -> norm u = 1.
Proof. intros H. unfold norm. rewrite H. apply sqrt_1. Qed.
Lemma wedge_planes a b : 0 < 3 * b + a -> ph_planes (wedge a b) =
  [(V3 0 0 (-1), V3 (- a) (- b) (- b)); (V3 (-1) 0 0, V3 (- a) (- b) (- b)); (V3 third third third, V3 (- a) (3 * b + a - b) (- b)); (V3 0 (-1) 0, V3 (3 * b + a - a) (- b) (- b))].
Proof.
  intros K. destruct third_facts as (T1 & T2). unfold ph_planes, planes, ph_nfaces, wedge, tetp. cbn [pverts pfaces map fi0 fi1 fi2 fnrm vpos nth]. unfold outv. set (k := 3 * b + a) in *.
  assert (KK : 0 < k * k) by (apply Rmult_lt_0_compat; lra).
  replace (cross (vsub (V3 (- a) (k - b) (- b)) (V3 (- a) (- b) (- b))) (vsub (V3 (k - a) (- b) (- b)) (V3 (- a) (- b) (- b)))) with (vscale (k * k) (V3 0 0 (-1))) by vring.
  replace (cross (vsub (V3 (- a) (- b) (k - b)) (V3 (- a) (- b) (- b))) (vsub (V3 (- a) (k - b) (- b)) (V3 (- a) (- b) (- b)))) with (vscale (k * k) (V3 (-1) 0 0)) by vring.
  replace (cross (vsub (V3 (- a) (- b) (k - b)) (V3 (- a) (k - b) (- b))) (vsub (V3 (k - a) (- b) (- b)) (V3 (- a) (k - b) (- b)))) with (vscale (k * k / third) (V3 third third third)) by (apply vec3_ext; spec_unfold; field; lra).
  replace (cross (vsub (V3 (- a) (- b) (k - b)) (V3 (k - a) (- b) (- b))) (vsub (V3 (- a) (- b) (- b)) (V3 (k - a) (- b) (- b)))) with (vscale (k * k) (V3 0 (-1) 0)) by vring.
  rewrite !unitv_scale; try reflexivity; try (apply norm_one; spec_unfold; cbn; lra); try lra. apply Rdiv_lt_0_compat; lra.
Qed.
Lemma wedge_hull a b : 0 < 3 * b + a -> ph_hull (pverts (wedge a b)) (wedge a b).
Proof.
  intros K. unfold wedge. set (k := 3 * b + a) in *. clearbody k. assert (KKK : 0 < k * k * k) by (apply Rmult_lt_0_compat; [apply Rmult_lt_0_compat|]; lra). apply tetp_hull; cbn [pverts tetp]; cbn [List.In]; auto 6.
  - unfold vol6. spec_unfold. cbn. lra.
  - intros y [<-|[<-|[<-|[<-|[]]]]]; unfold vol6; repeat split; spec_unfold; cbn; lra.
Qed.
Lemma wedge_in a b x : 0 < 3 * b + a -> convex_hull (pverts (wedge a b)) x <-> - a <= vx x /\ - b <= vy x /\ - b <= vz x /\ vx x + vy x + vz x <= b.
Proof.
  intros K. destruct (wedge_hull a b K) as (_ & _ & H). rewrite H. fold (ph_planes (wedge a b)). rewrite (wedge_planes a b K). destruct third_facts as (T1 & T2). destruct x as [x y z]. unfold common. split.
  - intros C. pose proof (C _ _ (or_introl eq_refl)) as C1. pose proof (C _ _ (or_intror (or_introl eq_refl))) as C2. pose proof (C _ _ (or_intror (or_intror (or_introl eq_refl)))) as C3. pose proof (C _ _ (or_intror (or_intror (or_intror (or_introl eq_refl))))) as C4.
    revert C1 C2 C3 C4. spec_unfold. cbn [vx vy vz]. intros C1 C2 C3 C4. repeat split; try lra. assert (third * (x + y + z - b) <= 0) by lra. apply Rnot_lt_le. intros L. assert (0 < third * (x + y + z - b)) by (apply Rmult_lt_0_compat; lra). lra.
  - cbn [vx vy vz]. intros (A & B & C & D) n q I. cbn [List.In] in I. destruct I as [I|[I|[I|[I|[]]]]]; injection I as <- <-; spec_unfold; cbn [vx vy vz]; try lra.
    assert (third * (x + y + z - b) <= third * 0) by (apply Rmult_le_compat_l; lra). lra.
Qed.
(** the program on two such corners, seen from (s, 0, 0) *)
Definition dual8 (al be ga de : R) : list vec3 := [V3 0 0 (-1); V3 (- al) 0 0; V3 be be be; V3 0 (-1) 0; V3 0 0 (- (1 / 2)); V3 (- ga) 0 0; V3 de de de; V3 0 (- (1 / 2)) 0].
Definition dual_ph (al be : R) : ph3 := tetp (V3 0 0 (-1)) (V3 (- al) 0 0) (V3 be be be) (V3 0 (-1) 0).
Definition far (al be : R) : R := / be + 1 + / al.
Definition back4 (s al be : R) : list vec3 := [V3 (s - / al) (far al be) (-1); V3 (s - / al) (-1) (-1); V3 (s - / al) (-1) (far al be); V3 (s + / be + 2) (-1) (-1)].
Definition back_ph (s al be : R) : ph3 := tetp (V3 (s - / al) (far al be) (-1)) (V3 (s - / al) (-1) (-1)) (V3 (s - / al) (-1) (far al be)) (V3 (s + / be + 2) (-1) (-1)).
Lemma duals_ex a s : - s <= a -> 0 <= s -> s <= / 10 -> duals (V3 s 0 0) (/ 100000) (ph_planes (wedge a 1) ++ ph_planes (wedge 2 2)) = dual8 (/ Rmax (a + s) (/ 100000)) (/ (1 - s)) (/ (2 + s)) (/ (2 - s)).
Proof.
  intros A S1 S2. destruct third_facts as (T1 & T2). rewrite !wedge_planes by lra. unfold duals, dual8. cbn [app map fst snd].
  assert (T3 : 0 < third * (9 / 10)) by lra.
  assert (T4 : / 2 * (9 / 10) <= third * (1 - s)) by (apply Rmult_le_compat; lra). assert (T5 : / 2 * (9 / 10) <= third * (2 - s)) by (apply Rmult_le_compat; lra).
  replace (dot (V3 0 0 (-1)) (vsub (V3 (- a) (- (1)) (- (1))) (V3 s 0 0))) with 1 by (spec_unfold; cbn; ring).
  replace (dot (V3 (-1) 0 0) (vsub (V3 (- a) (- (1)) (- (1))) (V3 s 0 0))) with (a + s) by (spec_unfold; cbn; ring).
  replace (dot (V3 third third third) (vsub (V3 (- a) (3 * 1 + a - 1) (- (1))) (V3 s 0 0))) with (third * (1 - s)) by (spec_unfold; cbn; ring).
  replace (dot (V3 0 (-1) 0) (vsub (V3 (3 * 1 + a - a) (- (1)) (- (1))) (V3 s 0 0))) with 1 by (spec_unfold; cbn; ring).
  replace (dot (V3 0 0 (-1)) (vsub (V3 (- (2)) (- (2)) (- (2))) (V3 s 0 0))) with 2 by (spec_unfold; cbn; ring).
  replace (dot (V3 (-1) 0 0) (vsub (V3 (- (2)) (- (2)) (- (2))) (V3 s 0 0))) with (2 + s) by (spec_unfold; cbn; ring).
  replace (dot (V3 third third third) (vsub (V3 (- (2)) (3 * 2 + 2 - 2) (- (2))) (V3 s 0 0))) with (third * (2 - s)) by (spec_unfold; cbn; ring).
  replace (dot (V3 0 (-1) 0) (vsub (V3 (3 * 2 + 2 - 2) (- (2)) (- (2))) (V3 s 0 0))) with 2 by (spec_unfold; cbn; ring).
  rewrite (Rmax_left 1), (Rmax_left (third * (1 - s))), (Rmax_left 2), (Rmax_left (2 + s)), (Rmax_left (third * (2 - s))) by lra. pose proof (Rmax_r (a + s) (/ 100000)) as M. set (r := Rmax _ _) in *. clearbody r.
  repeat f_equal; apply vec3_ext; spec_unfold; cbn; field; lra.
Qed.
Lemma dual_hull al be ga de : 0 < be -> 0 < ga <= al -> 0 < de <= be -> ph_hull (dual8 al be ga de) (dual_ph al be).
Proof.
  intros B (G0 & G1) (D0 & D1). assert (P1 : 0 < al * be) by (apply Rmult_lt_0_compat; lra). assert (P2 : 0 < be * ga) by (apply Rmult_lt_0_compat; lra). assert (P3 : 0 < al * de) by (apply Rmult_lt_0_compat; lra).
  assert (P4 : be * ga <= al * be) by (rewrite (Rmult_comm al); apply Rmult_le_compat_l; lra). assert (P5 : al * de <= al * be) by (apply Rmult_le_compat_l; lra).
  apply tetp_hull; unfold dual8; cbn [List.In]; auto 10.
  - unfold vol6. spec_unfold. cbn. lra.
  - intros y [<-|[<-|[<-|[<-|[<-|[<-|[<-|[<-|[]]]]]]]]]; unfold vol6; repeat split; spec_unfold; cbn; lra.
Qed.
Lemma back_scale w a p : dot w a <> 0 -> 0 < norm w -> vadd p (vscale (/ dot (unitv w) a) (unitv w)) = vadd p (vscale (/ dot w a) w).
Proof.
  intros H N. f_equal. unfold unitv. set (k := norm w) in *. clearbody k. replace (dot (vscale (/ k) w) a) with (/ k * dot w a) by (spec_unfold; ring). generalize dependent (dot w a). intros d H. apply vec3_ext; spec_unfold; field; lra.
Qed.
Lemma backs_ex s al be : 0 < al -> 0 < be -> backs (V3 s 0 0) (ph_planes (dual_ph al be)) = back4 s al be.
Proof.
  intros A B. assert (P1 : 0 < al * be) by (apply Rmult_lt_0_compat; lra).
  unfold backs, ph_planes, planes, ph_nfaces, dual_ph, tetp. cbn [pverts pfaces map fi0 fi1 fi2 fnrm vpos nth fst snd]. unfold outv, back4, far.
  rewrite !back_scale.
  2,4,6,8: spec_unfold; cbn; lra.
  2-5: match goal with |- 0 < norm ?w => apply (norm_pos_of w (V3 (-1) (-1) (-1))) end; spec_unfold; cbn; lra.
  repeat f_equal; apply vec3_ext; spec_unfold; cbn; field; repeat split; lra.
Qed.
Lemma back_hull s al be : 0 < al -> 0 < be -> ph_hull (back4 s al be) (back_ph s al be).
Proof.
  intros A B. assert (Ia : 0 < / al) by (apply Rinv_0_lt_compat, A). assert (Ib : 0 < / be) by (apply Rinv_0_lt_compat, B). unfold back4, back_ph, far. set (u := / al) in *. set (v := / be) in *. clearbody u v. set (k := v + 2 + u). assert (KP : 0 < k) by (unfold k; lra).
  replace (v + 1 + u) with (k - 1) by (unfold k; ring). replace (s + v + 2) with (s - u + k) by (unfold k; ring). clearbody k. assert (KKK : 0 < k * k * k) by (apply Rmult_lt_0_compat; [apply Rmult_lt_0_compat|]; lra). apply tetp_hull; cbn [List.In]; auto 6.
  - unfold vol6. spec_unfold. cbn. lra.
  - intros y [<-|[<-|[<-|[<-|[]]]]]; unfold vol6; repeat split; spec_unfold; cbn; lra.
Qed.
(** ** a run *)
Definition vec3_eq_dec (u v : vec3) : {u = v} + {u <> v}.
Proof. destruct u as [a b c], v as [d e f]. destruct (Req_EM_T a d) as [->|N]; [|right; congruence]. destruct (Req_EM_T b e) as [->|N]; [|right; congruence]. destruct (Req_EM_T c f) as [->|N]; [left; reflexivity|right; congruence]. Defined.
Definition ex_hull (s al be ga de : R) (l : list vec3) : option ph3 :=
  if list_eq_dec vec3_eq_dec l (dual8 al be ga de) then Some (dual_ph al be) else if list_eq_dec vec3_eq_dec l (back4 s al be) then Some (back_ph s al be) else None.
Lemma ex_hull_ok s al be ga de : 0 < be -> 0 < ga <= al -> 0 < de <= be -> forall l c, ex_hull s al be ga de l = Some c -> ph_hull l c.
Proof.
  intros B G D l c H. unfold ex_hull in H. destruct (list_eq_dec vec3_eq_dec l (dual8 al be ga de)) as [->|_]; [injection H as <-; apply dual_hull; assumption|].
  destruct (list_eq_dec vec3_eq_dec l (back4 s al be)) as [->|_]; [injection H as <-; apply back_hull; lra|discriminate].
Qed.
Lemma ex_hull_8 s al be ga de : ex_hull s al be ga de (dual8 al be ga de) = Some (dual_ph al be).
Proof. unfold ex_hull. destruct (list_eq_dec vec3_eq_dec (dual8 al be ga de) (dual8 al be ga de)); [reflexivity|contradiction]. Qed.
Lemma ex_hull_4 s al be ga de : ex_hull s al be ga de (back4 s al be) = Some (back_ph s al be).
Proof.
  unfold ex_hull. destruct (list_eq_dec vec3_eq_dec (back4 s al be) (dual8 al be ga de)) as [E|_]; [apply (f_equal (@length vec3)) in E; discriminate|].
  destruct (list_eq_dec vec3_eq_dec (back4 s al be) (back4 s al be)); [reflexivity|contradiction].
Qed.
Lemma norm_box x y z r : 0 <= r -> - r <= x <= r -> - r <= y <= r -> - r <= z <= r -> norm (V3 x y z) <= 2 * r.
Proof.
  intros P X Y Z. unfold norm. apply Rsqr_incr_0_var; [|lra]. rewrite Rsqr_sqrt by (spec_unfold; cbn; nra). unfold Rsqr. spec_unfold. cbn.
  assert (x * x <= r * r) by nra. assert (y * y <= r * r) by nra. assert (z * z <= r * r) by nra. nra.
Qed.
Lemma widened_ex a s x : - s <= a -> a <= 1 -> 0 <= s -> s <= / 10 -> widened (V3 s 0 0) (/ 100000) (ph_planes (wedge a 1) ++ ph_planes (wedge 2 2)) x -> dist x (V3 s 0 0) <= 100000.
Proof.
  intros A A1 S1 S2 W. destruct third_facts as (T1 & T2). rewrite !wedge_planes in W by lra. cbn [app] in W.
  pose proof (W _ _ (or_introl eq_refl)) as C1. pose proof (W _ _ (or_intror (or_introl eq_refl))) as C2. pose proof (W _ _ (or_intror (or_intror (or_introl eq_refl)))) as C3. pose proof (W _ _ (or_intror (or_intror (or_intror (or_introl eq_refl))))) as C4. clear W.
  destruct x as [x y z]. assert (M : forall r d, dot r d <= 2 -> Rmax (dot r d) (/ 100000) <= 2) by (intros; apply Rmax_lub; lra).
  assert (T4 : third * (1 - s) <= third * 1) by (apply Rmult_le_compat_l; lra). assert (T6 : third <= 1) by (apply Rnot_lt_le; intros L; assert (third * 1 < third * third) by (apply Rmult_lt_compat_l; lra); lra).
  pose proof (M (V3 0 0 (-1)) (vsub (V3 (- a) (- (1)) (- (1))) (V3 s 0 0)) ltac:(spec_unfold; cbn; lra)) as M1. pose proof (M (V3 (-1) 0 0) (vsub (V3 (- a) (- (1)) (- (1))) (V3 s 0 0)) ltac:(spec_unfold; cbn; lra)) as M2.
  pose proof (M (V3 third third third) (vsub (V3 (- a) (3 * 1 + a - 1) (- (1))) (V3 s 0 0)) ltac:(spec_unfold; cbn; lra)) as M3. pose proof (M (V3 0 (-1) 0) (vsub (V3 (3 * 1 + a - a) (- (1)) (- (1))) (V3 s 0 0)) ltac:(spec_unfold; cbn; lra)) as M4.
  pose proof (Rle_trans _ _ _ C1 M1) as D1. pose proof (Rle_trans _ _ _ C2 M2) as D2. pose proof (Rle_trans _ _ _ C3 M3) as D3. pose proof (Rle_trans _ _ _ C4 M4) as D4. clear - D1 D2 D3 D4 T1 T2. revert D1 D2 D3 D4. unfold dist. spec_unfold. cbn [vx vy vz]. intros D1 D2 D3 D4.
  assert (Sum : x - s + y + z <= 4). { apply Rnot_lt_le. intros L. assert (1 / 2 * 4 < third * (x - s + y + z)) by (apply Rmult_le_0_lt_compat; lra). lra. }
  change (norm (V3 (x - s) (y - 0) (z - 0)) <= 100000). eapply Rle_trans; [apply (norm_box _ _ _ 8)|]; lra.
Qed.
Definition ex_tris (a b : R) : list tri3 := map (FactsPH2.tri_at (pverts (wedge a b))) (pfaces (wedge a b)).
Lemma wedge_run a s iter p1 p2 : - s <= a -> a <= 1 -> 0 <= s -> s <= / 10 -> / 10000 <= dist p1 p2 -> isec_base iter (ex_tris a 1) (ex_tris 2 2) (zVec3DMid p1 p2) = Some (V3 s 0 0) ->
  let al := / Rmax (a + s) (/ 100000) in let be := / (1 - s) in
  zIntersectPH3D (ex_hull s al be (/ (2 + s)) (/ (2 - s))) iter (fun _ _ => Some (p1, p2)) (wedge a 1) (wedge 2 2) = Some (Some (back_ph s al be)).
Proof.
  intros A A1 S1 S2 D B. cbv zeta. set (al := / Rmax (a + s) (/ 100000)). set (be := / (1 - s)).
  assert (KA : 0 < 3 * 1 + a) by lra. assert (K2 : 0 < 3 * 2 + 2) by lra. pose proof (wedge_hull a 1 KA) as (F1 & _ & _). pose proof (wedge_hull 2 2 K2) as (F2 & _ & _).
  assert (MR : / 100000 <= Rmax (a + s) (/ 100000) <= 2) by (split; [apply Rmax_r|apply Rmax_lub; lra]).
  assert (Al : 0 < al) by (apply Rinv_0_lt_compat; lra). assert (Be : 0 < be) by (apply Rinv_0_lt_compat; lra).
  assert (Ga : 0 < / (2 + s) <= al) by (split; [apply Rinv_0_lt_compat; lra|apply Rinv_le_contravar; lra]). assert (De : 0 < / (2 - s) <= be) by (split; [apply Rinv_0_lt_compat; lra|apply Rinv_le_contravar; lra]).
  unfold zIntersectPH3D. destruct (Rltb_reflect (zVec3DDist p1 p2) zeoIntersectThreshold) as [L|_]; [exfalso; unfold zeoIntersectThreshold in L; change (zVec3DDist p1 p2) with (dist p1 p2) in L; lra|].
  pose proof (flat_tris _ F1) as T1. pose proof (flat_tris _ F2) as T2. rewrite T1, T2. fold (ex_tris a 1) in *. fold (ex_tris 2 2) in *. rewrite B.
  pose proof (base_ok _ _ (fun t => flat_tris_in _ _ t F1 T1) (fun t => flat_tris_in _ _ t F2 T2) _ _ _ B) as BP.
  rewrite (dual_list _ _ BP), map_app, (tris_planes _ _ F1 T1), (tris_planes _ _ F2 T2). change zeoDualMinOffset with (/ 100000). rewrite (duals_ex a s A S1 S2). fold al be. rewrite ex_hull_8.
  pose proof (dual_hull al be (/ (2 + s)) (/ (2 - s)) Be Ga De) as (FC & HC & _). pose proof (flat_tris _ FC) as TC. rewrite TC. pose proof (back_hull s al be Al Be) as (FP & HP & _).
  destruct (dual_core (V3 s 0 0) (/ 100000) (ph_planes (wedge a 1) ++ ph_planes (wedge 2 2)) (ph_planes (dual_ph al be)) (ph_planes (back_ph s al be))) as (DE & _).
  - lra.
  - intros n q I. apply in_app_or in I. destruct I as [I|I]; [exact (planes_unit _ n q F1 I)|exact (planes_unit _ n q F2 I)].
  - intros n q. apply planes_unit, FC.
  - intros n q. apply planes_unit, FP.
  - rewrite (duals_ex a s A S1 S2). fold al be. exact HC.
  - rewrite backs_ex by assumption. exact HP.
  - intros x W. rewrite Rinv_inv. apply (widened_ex a s x); assumption.
  - rewrite (back_list (V3 s 0 0)). 2: { intros t I. apply (DE (tnorm t) (tv0 t)). rewrite <- (tris_planes _ _ FC TC). apply in_map_iff. exists t. auto. }
    rewrite (tris_planes _ _ FC TC), backs_ex by assumption. rewrite ex_hull_4. reflexivity.
Qed.
(** base points *)
Lemma base_here iter ts1 ts2 p : zIntersectPH3DPointIsInside ts1 p = None -> zIntersectPH3DPointIsInside ts2 p = None -> isec_base iter ts1 ts2 p = Some p.
Proof. intros A B. destruct iter; cbn [isec_base]; rewrite A, B; reflexivity. Qed.
Lemma beneath_ex a b x y z : 0 < 3 * b + a -> - x < a - zTOL -> - y < b - zTOL -> - z < b - zTOL -> x + y + z < b - 2 * zTOL -> zIntersectPH3DPointIsInside (ex_tris a b) (V3 x y z) = None.
Proof.
  intros K X Y Z S. destruct third_facts as (T1 & T2). pose proof zTOL_pos as TP. pose proof (wedge_hull a b K) as (F & _ & _). pose proof (flat_tris _ F) as T. fold (ex_tris a b) in T. apply inside_some; [intros t; apply (flat_tris_in _ _ t F T)|].
  intros t I. assert (I' : List.In (tnorm t, tv0 t) (ph_planes (wedge a b))) by (rewrite <- (tris_planes _ _ F T); apply in_map_iff; exists t; auto). rewrite (wedge_planes a b K) in I'. cbn [List.In] in I'. destruct I' as [E|[E|[E|[E|[]]]]]; injection E as <- <-; spec_unfold; cbn [vx vy vz]; try lra.
  assert (1 / 2 * (2 * zTOL) < third * (b - (x + y + z))) by (apply Rmult_le_0_lt_compat; lra). lra.
Qed.
Lemma pushed_ex : isec_base 1 (ex_tris 0 1) (ex_tris 2 2) (V3 (-1) 0 0) = Some (V3 (2 * zTOL) 0 0).
Proof.
  pose proof zTOL_pos as TP. pose proof zTOL_small as TS. assert (K : 0 < 3 * 1 + 0) by lra. pose proof (wedge_hull 0 1 K) as (F & _ & _). pose proof (flat_tris _ F) as T. fold (ex_tris 0 1) in T. pose proof (tris_planes _ _ F T) as P. pose proof (fun t => flat_tris_in _ _ t F T) as FT. rewrite (wedge_planes 0 1 K) in P. cbn [isec_base].
  rewrite (beneath_ex 2 2 (-1) 0 0) by lra.
  assert (E : exists t, zIntersectPH3DPointIsInside (ex_tris 0 1) (V3 (-1) 0 0) = Some (t, 1 + zTOL) /\ tnorm t = V3 (-1) 0 0).
  { destruct (ex_tris 0 1) as [|t0 [|t1 ts]]; [discriminate|discriminate|]. injection P as N0 A0 N1 A1 _. exists t1. split; [|exact N1]. cbn [zIntersectPH3DPointIsInside].
    rewrite (flat_dist t0) by (apply FT; cbn; auto). rewrite (flat_dist t1) by (apply FT; cbn; auto). rewrite N0, A0, N1, A1.
    replace (dot (V3 0 0 (-1)) (vsub (V3 (-1) 0 0) (V3 (- 0) (- (1)) (- (1))))) with (-1) by (spec_unfold; cbn; ring). replace (dot (V3 (-1) 0 0) (vsub (V3 (-1) 0 0) (V3 (- 0) (- (1)) (- (1))))) with 1 by (spec_unfold; cbn; ring).
    destruct (Rleb_reflect (- zTOL) (-1)) as [L|_]; [lra|]. destruct (Rleb_reflect (- zTOL) 1) as [_|L]; [reflexivity|lra]. }
  destruct E as (t & -> & N). cbn [push]. rewrite N. replace (zVec3DCat (V3 (-1) 0 0) (- zTOL - (1 + zTOL)) (V3 (-1) 0 0)) with (V3 (2 * zTOL) 0 0) by (apply vec3_ext; unfold zVec3DCat; cbn; ring).
  rewrite (beneath_ex 0 1 (2 * zTOL) 0 0), (beneath_ex 2 2 (2 * zTOL) 0 0) by lra. reflexivity.
Qed.
Lemma isec_ex : exists hull ch ph, let ph1 := wedge 1 1 in let ph2 := wedge 2 2 in let hs := ph_planes ph1 ++ ph_planes ph2 in let p := V3 0 0 0 in let e := / 100000 in
  ph_hull (pverts ph1) ph1 /\ ph_hull (pverts ph2) ph2 /\ zIntersectPH3D hull 20 (fun _ _ => Some (V3 0 1 0, V3 0 (-1) 0)) ph1 ph2 = Some (Some ph) /\
  hull (duals p e hs) = Some ch /\ ph_hull (duals p e hs) ch /\ (forall x, widened p e hs x -> dist x p <= 100000) /\ hull (backs p (ph_planes ch)) = Some ph /\ ph_hull (backs p (ph_planes ch)) ph /\
  (forall n a, List.In (n, a) hs -> e <= dot n (vsub a p)).
Proof.
  pose proof zTOL_pos as TP. pose proof zTOL_small as TS. destruct third_facts as (T1 & T2).
  set (al := / Rmax (1 + 0) (/ 100000)). set (be := / (1 - 0)). assert (E1 : al = 1) by (unfold al; rewrite Rmax_left by lra; lra). assert (E2 : be = 1) by (unfold be; lra). exists (ex_hull 0 al be (/ (2 + 0)) (/ (2 - 0))), (dual_ph al be), (back_ph 0 al be). cbv zeta.
  split; [apply wedge_hull; lra|]. split; [apply wedge_hull; lra|].
  split. { apply (wedge_run 1 0 20); try lra.
    - unfold dist, norm. replace (dot (vsub (V3 0 1 0) (V3 0 (-1) 0)) (vsub (V3 0 1 0) (V3 0 (-1) 0))) with (2 * 2) by (spec_unfold; cbn; ring). rewrite sqrt_square by lra. lra.
    - replace (zVec3DMid (V3 0 1 0) (V3 0 (-1) 0)) with (V3 0 0 0) by (apply vec3_ext; unfold zVec3DMid; cbn; lra). apply base_here; apply beneath_ex; lra. }
  rewrite (duals_ex 1 0) by lra. fold al be. split; [apply ex_hull_8|]. split; [apply dual_hull; lra|]. split; [intros x; apply widened_ex; lra|]. rewrite backs_ex by lra. split; [apply ex_hull_4|]. split; [apply back_hull; lra|].
  intros n a I. rewrite !wedge_planes in I by lra. cbn [app List.In] in I. destruct I as [E|[E|[E|[E|[E|[E|[E|[E|[]]]]]]]]]; injection E as <- <-; spec_unfold; cbn [vx vy vz]; lra.
Qed.
Lemma isec_sticks_out : exists hull p1 p2 ph1 ph2 ph x, ph_hull (pverts ph1) ph1 /\ ph_hull (pverts ph2) ph2 /\ (forall l c, hull l = Some c -> ph_hull l c) /\
  zIntersectPH3D hull 1 (fun _ _ => Some (p1, p2)) ph1 ph2 = Some (Some ph) /\ convex_hull (pverts ph1) p2 /\ convex_hull (pverts ph2) p1 /\ convex_hull (pverts ph) x /\ ~ convex_hull (pverts ph1) x.
Proof.
  pose proof zTOL_pos as TP. pose proof zTOL_small as TS. set (s := 2 * zTOL). assert (Sp : 0 < s) by (unfold s; lra). assert (Ss : s < 1 / 500000) by (unfold s; lra).
  set (al := / Rmax (0 + s) (/ 100000)). set (be := / (1 - s)). assert (MR : Rmax (0 + s) (/ 100000) = / 100000) by (apply Rmax_right; lra). assert (E1 : al = 100000) by (unfold al; rewrite MR, Rinv_inv; reflexivity). assert (Be : 0 < be) by (apply Rinv_0_lt_compat; lra).
  assert (De : 0 < / (2 - s) <= be) by (split; [apply Rinv_0_lt_compat; lra|apply Rinv_le_contravar; lra]).
  assert (Ga : 0 < / (2 + s) <= al). { split; [apply Rinv_0_lt_compat; lra|]. apply Rle_trans with (/ 2); [apply Rinv_le_contravar; lra|lra]. }
  exists (ex_hull s al be (/ (2 + s)) (/ (2 - s))), (V3 (-2) 0 0), (V3 0 0 0), (wedge 0 1), (wedge 2 2), (back_ph s al be), (V3 (s - / al) (-1) (-1)).
  split; [apply wedge_hull; lra|]. split; [apply wedge_hull; lra|]. split; [apply ex_hull_ok; assumption|].
  split. { apply (wedge_run 0 s 1); try lra.
    - unfold dist, norm. replace (dot (vsub (V3 (-2) 0 0) (V3 0 0 0)) (vsub (V3 (-2) 0 0) (V3 0 0 0))) with (2 * 2) by (spec_unfold; cbn; ring). rewrite sqrt_square by lra. lra.
    - replace (zVec3DMid (V3 (-2) 0 0) (V3 0 0 0)) with (V3 (-1) 0 0) by (apply vec3_ext; unfold zVec3DMid; cbn; lra). apply pushed_ex. }
  split; [apply wedge_in; cbn; lra|]. split; [apply wedge_in; cbn; lra|].
  split; [apply hull_point; unfold back_ph, tetp; cbn [pverts List.In]; auto|]. intros H. apply wedge_in in H; [|lra]. cbn [vx] in H. rewrite E1 in H. lra.
Qed.
