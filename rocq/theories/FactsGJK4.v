(** The GJK algorithm ends *)
From Verif Require Export FactsGJK3.
From Coq Require Import List Lia.
Import ListNotations.
Open Scope R_scope.

Lemma norm_wsum b : forall ss ps, Forall2 (fun s p => 0 <= s /\ (s = 0 \/ norm p <= b)) ss ps -> norm (wsum ss ps) <= total ss * b.
Proof.
  induction 1 as [|s p ss ps [H1 H2] F IH]; cbn [wsum total].
  - replace v3zero with (vscale 0 v3zero) by (apply vec3_ext; spec_unfold; ring). rewrite norm_scale, Rabs_R0. lra.
  - eapply Rle_trans; [apply norm_triangle|]. rewrite norm_scale, (Rabs_right s) by lra. destruct H2 as [->|H2]; nra.
Qed.
Lemma wsum_shift u : forall ss (ps : list vec3), length ss = length ps -> wsum ss (map (fun p => vsub p u) ps) = vsub (wsum ss ps) (vscale (total ss) u).
Proof.
  induction ss as [|s ss IH]; intros [|p ps] L; try discriminate; cbn [wsum map total].
  - apply vec3_ext; spec_unfold; ring.
  - rewrite IH by (cbn in L; congruence). apply vec3_ext; spec_unfold; ring.
Qed.
Lemma INR_unbounded x : exists n, x < INR n.
Proof.
  exists (Z.to_nat (up x)). destruct (archimed x) as [A _]. destruct (Z.le_gt_cases 0 (up x)) as [P|P].
  - rewrite INR_IZR_INZ, Z2Nat.id by lia. lra.
  - assert (IZR (up x) < 0) by (apply IZR_lt; lia). pose proof (pos_INR (Z.to_nat (up x))). lra.
Qed.
Lemma bounded l : exists b, within b l.
Proof.
  induction l as [|a l (b & H)]; [exists 0; intros p []|]. exists (Rmax (norm a) b). intros p [<-|Hp]; [apply Rmax_l|]. eapply Rle_trans; [apply H; exact Hp|apply Rmax_r].
Qed.
Lemma spread_exists l1 l2 : exists D, 0 <= D /\ forall x y, difference l1 l2 x -> difference l1 l2 y -> dist x y <= D.
Proof.
  destruct (bounded l1) as (b1 & B1). destruct (bounded l2) as (b2 & B2). exists (2 * (Rabs b1 + Rabs b2)). split; [pose proof (Rabs_pos b1); pose proof (Rabs_pos b2); lra|].
  intros x y (a & b & Ha & Hb & ->) (c & d & Hc & Hd & ->). unfold dist.
  replace (vsub (vsub a b) (vsub c d)) with (vadd (vadd a (vneg c)) (vadd (vneg b) d)) by (apply vec3_ext; spec_unfold; ring).
  pose proof (norm_triangle (vadd a (vneg c)) (vadd (vneg b) d)). pose proof (norm_triangle a (vneg c)). pose proof (norm_triangle (vneg b) d).
  assert (NN : forall z, norm (vneg z) = norm z). { intros z. replace (vneg z) with (vscale (-1) z) by (apply vec3_ext; spec_unfold; ring). rewrite norm_scale. replace (Rabs (-1)) with 1 by (rewrite Rabs_left; lra). ring. }
  rewrite !NN in *. pose proof (B1 a Ha). pose proof (B1 c Hc). pose proof (B2 b Hb). pose proof (B2 d Hd). pose proof (Rle_abs b1). pose proof (Rle_abs b2). lra.
Qed.
Section descent.
Context (l1 l2 : list vec3) (D : R).
Context (HD : forall x y, difference l1 l2 x -> difference l1 l2 y -> dist x y <= D).
Lemma act_pairs (P : vec3 -> Prop) l g : Forall2 slot_g l g -> (forall y, List.In y (ws_of l) -> P y) -> Forall2 (fun s y => 0 <= s /\ (s = 0 \/ P y)) (map act l) (map sl_w l).
Proof.
  intros G H. unfold ws_of in H. induction G as [|sl h l g (G1 & G2 & G3) G IH]; [constructor|]. cbn [map filter] in *. unfold act at 1. destruct (sw_w sl) eqn:W.
  - constructor; [|apply IH; intros y Hy; apply H; right; exact Hy]. split; [lra|right]. apply H. left. reflexivity.
  - constructor; [|apply IH; exact H]. split; [lra|left; reflexivity].
Qed.
Lemma ws_diff s v g : inv l1 l2 s v g -> forall y, List.In y (ws_of (sx_slot s)) -> difference l1 l2 y.
Proof.
  intros I y Hy. apply in_map_iff in Hy as (sl & <- & Hs). apply filter_In in Hs as [Hs W]. pose proof (inv_ok _ _ _ _ _ I) as O. pose proof (inv_wy _ _ _ _ _ I) as Y. unfold ok_slots in O. rewrite Forall_forall in *.
  destruct (O sl Hs (Y sl Hs W)) as (p1 & p2 & _ & J1 & J2 & ->). exists p1, p2. auto.
Qed.
(** the reduced point *)
Lemma reduced s v g : inv l1 l2 s v g -> exists u, (forall x k, (forall y, List.In y (ws_of (sx_slot s)) -> k <= dot y x) -> k <= dot u x) /\ dot u v = dot v v /\
  (forall y, difference l1 l2 y -> dist y u <= D) /\ dist v u <= lost (sx_slot s) g * D.
Proof.
  intros I. pose proof (lost_3 _ _ _ _ _ I) as L. pose proof tol_small as TS. set (l := sx_slot s) in *. set (T := total (map act l)).
  assert (ET : lost l g = 1 - T) by (unfold lost, T; rewrite (inv_tot _ _ _ _ _ I); reflexivity).
  assert (TP : 0 < T) by lra. pose proof (inv_g _ _ _ _ _ I) as G. fold l in G.
  assert (LEN : length (map act l) = length (map sl_w l)) by (rewrite !map_length; reflexivity).
  set (u := vscale (/ T) (wsum (map act l) (map sl_w l))).
  assert (EU : wsum (map act l) (map sl_w l) = vscale T u) by (unfold u; apply vec3_ext; spec_unfold; field; lra).
  exists u. split; [|split; [|split]].
  - intros x k H. pose proof (slack' x (map act l) (map sl_w l) k (act_pairs _ l g G H)) as S1. rewrite EU in S1. fold T in S1.
    replace (dot (vscale T u) x) with (T * dot u x) in S1 by (clear; spec_unfold; ring). nra.
  - assert (S1 : T * dot v v <= dot (wsum (map act l) (map sl_w l)) v) by (apply slack', act_pairs with g; [exact G|]; intros y Hy; right; symmetry; apply (inv_active _ _ _ _ _ I); exact Hy).
    assert (S2 : T * - dot v v <= dot (wsum (map act l) (map sl_w l)) (vneg v)).
    { apply slack', act_pairs with g; [exact G|]. intros y Hy. right. pose proof (inv_active _ _ _ _ _ I y Hy) as A. replace (dot y (vneg v)) with (- dot y v) by (clear; spec_unfold; ring). rewrite A. reflexivity. }
    rewrite EU in S1, S2. replace (dot (vscale T u) v) with (T * dot u v) in S1 by (clear; spec_unfold; ring). replace (dot (vscale T u) (vneg v)) with (- (T * dot u v)) in S2 by (clear; spec_unfold; ring).
    apply Rmult_eq_reg_l with T; lra.
  - intros y Hy. assert (N : norm (wsum (map act l) (map (fun p => vsub p y) (map sl_w l))) <= T * D).
    { apply norm_wsum. pose proof (act_pairs (fun p => norm (vsub p y) <= D) l g G) as A. specialize (A ltac:(intros p Hp; apply HD; [eapply ws_diff; eauto|exact Hy])).
      clear - A. revert A. generalize (map act l), (map sl_w l). intros r ps A. induction A; cbn [map]; constructor; auto. }
    rewrite wsum_shift, EU in N by exact LEN. fold T in N. replace (vsub (vscale T u) (vscale T y)) with (vscale (- T) (vsub y u)) in N by (clear; apply vec3_ext; spec_unfold; ring).
    rewrite norm_scale, Rabs_Ropp, (Rabs_right T) in N by lra. unfold dist. apply Rmult_le_reg_l with T; lra.
  - assert (N : norm (vsub (wsum (map act l) (map (fun sl => vsub (sl_w sl) u) l)) (wsum g (map (fun sl => vsub (sl_w sl) u) l))) <= lost l g * D).
    { apply lost_sum; [exact G|]. intros sl Hs Y. pose proof (inv_ok _ _ _ _ _ I) as O. unfold ok_slots in O. rewrite Forall_forall in O. destruct (O sl Hs Y) as (p1 & p2 & _ & J1 & J2 & E).
      assert (DY : difference l1 l2 (sl_w sl)) by (exists p1, p2; auto).
      assert (N : norm (wsum (map act l) (map (fun p => vsub p (sl_w sl)) (map sl_w l))) <= T * D).
      { apply norm_wsum. pose proof (act_pairs (fun p => norm (vsub p (sl_w sl)) <= D) l g G) as A. specialize (A ltac:(intros p Hp; apply HD; [eapply ws_diff; eauto|exact DY])).
        clear - A. revert A. generalize (map act l), (map sl_w l). intros r ps A. induction A; cbn [map]; constructor; auto. }
      rewrite wsum_shift, EU in N by exact LEN. fold T in N. replace (vsub (vscale T u) (vscale T (sl_w sl))) with (vscale (- T) (vsub (sl_w sl) u)) in N by (clear; apply vec3_ext; spec_unfold; ring).
      rewrite norm_scale, Rabs_Ropp, (Rabs_right T) in N by lra. apply Rmult_le_reg_l with T; lra. }
    rewrite <- !(map_map sl_w (fun p => vsub p u)) in N. rewrite !wsum_shift in N; [|rewrite map_length; clear - G; induction G; cbn; congruence|exact LEN].
    pose proof (inv_v _ _ _ _ _ I) as V. fold l in V. rewrite EU, <- V, (inv_tot _ _ _ _ _ I) in N. fold T in N. unfold dist.
    replace (vsub (vsub (vscale T u) (vscale T u)) (vsub v (vscale 1 u))) with (vscale (-1) (vsub v u)) in N by (clear; apply vec3_ext; spec_unfold; ring).
    rewrite norm_scale in N. replace (Rabs (-1)) with 1 in N by (rewrite Rabs_left; lra). lra.
Qed.
(** one round: the squared distance shrinks *)
Lemma round s v g w s' v' g' a b t : inv l1 l2 s v g -> inv l1 l2 s' v' g' -> difference l1 l2 w -> dot w v < dot v v - zTOL -> ys (sx_slot s') = a ++ w :: b -> ws_of (sx_slot s) = a ++ b -> 0 <= t <= 1 ->
  let e := lost (sx_slot s) g * D in dot v' v' <= dot v v + e * e + 2 * t * (- zTOL + D * e) + t * t * (D * D).
Proof.
  intros I I' DW NW EY EW T e. destruct (reduced s v g I) as (u & U1 & U2 & U3 & U4). fold e in U4.
  assert (K1 : dot v' v' <= dot u v'). { apply U1. intros y Hy. apply (inv_min _ _ _ _ _ I'). rewrite EY. rewrite EW in Hy. apply in_app_or in Hy. apply in_or_app. cbn. tauto. }
  assert (K2 : dot v' v' <= dot w v'). { apply (inv_min _ _ _ _ _ I'). rewrite EY. apply in_or_app. cbn. auto. }
  set (d := vsub w u). set (z := vadd u (vscale t d)).
  assert (K3 : dot v' v' <= dot z v'). { replace (dot z v') with ((1 - t) * dot u v' + t * dot w v') by (unfold z, d; clear; spec_unfold; ring). nra. }
  assert (K4 : dot v' v' <= dot z z). { pose proof (dot_self_nonneg (vsub z v')) as P. replace (dot (vsub z v') (vsub z v')) with (dot z z - 2 * dot z v' + dot v' v') in P by (clear; spec_unfold; ring). lra. }
  replace (dot z z) with (dot u u + 2 * t * dot d u + t * t * dot d d) in K4 by (unfold z; clear; spec_unfold; ring).
  specialize (U3 w DW). unfold dist in U3, U4. fold d in U3.
  assert (ND : dot d d <= D * D). { rewrite <- norm_sqr. pose proof (norm_nonneg d). nra. }
  assert (NU : dot u u <= dot v v + e * e).
  { assert (E1 : dot u u = dot v v + dot (vsub v u) (vsub v u)). { replace (dot (vsub v u) (vsub v u)) with (dot v v - 2 * dot u v + dot u u) by (clear; spec_unfold; ring). rewrite U2. ring. }
    rewrite E1, <- (norm_sqr (vsub v u)). pose proof (norm_nonneg (vsub v u)). nra. }
  assert (NDU : dot d u <= - zTOL + D * e).
  { assert (E1 : dot d u = (dot w v - dot v v) - dot d (vsub v u)). { unfold d. replace (dot (vsub w u) (vsub v u)) with (dot w v - dot u v - dot (vsub w u) u) by (clear; spec_unfold; ring). rewrite U2. ring. }
    rewrite E1. pose proof (cauchy_norm d (vsub v u)) as C. pose proof (Rle_abs (- dot d (vsub v u))) as C1. rewrite Rabs_Ropp in C1. pose proof (norm_nonneg d). pose proof (norm_nonneg (vsub v u)).
    assert (norm d * norm (vsub v u) <= D * e) by (apply Rmult_le_compat; assumption). lra. }
  assert (t * dot d u <= t * (- zTOL + D * e)) by (apply Rmult_le_compat_l; lra). assert (t * t * dot d d <= t * t * (D * D)) by (apply Rmult_le_compat_l; [nra|exact ND]). lra.
Qed.
End descent.
Definition shrinks (l1 l2 : list vec3) (eps : R) : Prop := forall s v g w s' v' g' a b, inv l1 l2 s v g -> inv l1 l2 s' v' g' -> difference l1 l2 w -> dot w v < dot v v - zTOL ->
  ys (sx_slot s') = a ++ w :: b -> ws_of (sx_slot s) = a ++ b -> dot v' v' <= dot v v - eps.
Lemma shrink_clear l1 l2 : clear_weights l1 l2 -> exists eps, 0 < eps /\ shrinks l1 l2 eps.
Proof.
  intros CW. destruct (spread_exists l1 l2) as (D & D0 & HD). set (K := D * D + 1). assert (KP : 1 <= K) by (unfold K; nra). pose proof tol_small as TS.
  exists (zTOL * zTOL / K). split; [apply Rdiv_lt_0_compat; nra|].
  intros s v g w s' v' g' a b I I' DW NW EY EW. pose proof (clear_act _ _ _ _ _ I CW) as A.
  assert (L0 : lost (sx_slot s) g = 0) by (unfold lost; rewrite A; lra).
  assert (T1 : 0 <= zTOL / K <= 1). { split; [apply Rmult_le_pos; [lra|left; apply Rinv_0_lt_compat; lra]|]. apply Rmult_le_reg_r with K; [lra|]. unfold Rdiv. rewrite Rmult_assoc, Rinv_l by lra. lra. }
  pose proof (round l1 l2 D HD s v g w s' v' g' a b (zTOL / K) I I' DW NW EY EW T1) as R1. cbv zeta in R1. rewrite L0 in R1. set (t := zTOL / K) in *.
  assert (TK : t * K = zTOL) by (unfold t; field; lra). replace (zTOL * zTOL / K) with (t * zTOL) by (unfold t; field; lra).
  assert (t * t * (D * D) <= t * zTOL). { replace (t * zTOL) with (t * (t * K)) by (rewrite TK; ring). unfold K. clear. nra. } lra.
Qed.
Lemma shrink_compact l1 l2 : compact_pair l1 l2 -> exists eps, 0 < eps /\ shrinks l1 l2 eps.
Proof.
  intros HD. pose proof tol_small as TS. exists (zTOL * zTOL / 5). split; [nra|].
  intros s v g w s' v' g' a b I I' DW NW EY EW. pose proof (lost_3 _ _ _ _ _ I) as L.
  assert (T1 : 0 <= zTOL * (25 / 8) <= 1) by lra.
  pose proof (round l1 l2 (2 / 5) HD s v g w s' v' g' a b (zTOL * (25 / 8)) I I' DW NW EY EW T1) as R1. cbv zeta in R1. set (m := lost (sx_slot s) g) in *.
  assert (M1 : m * m <= 3 * zTOL * (3 * zTOL)) by (apply Rmult_le_compat; lra). assert (M2 : zTOL * m <= zTOL * (3 * zTOL)) by (apply Rmult_le_compat_l; lra).
  clearbody m. revert R1 M1 M2. generalize zTOL, (dot v v), (dot v' v'). clear. intros z x y R1 M1 M2. nra.
Qed.
Lemma loop_ends l1 l2 eps : l1 <> [] -> l2 <> [] -> sturdy l1 l2 -> 0 < eps -> shrinks l1 l2 eps -> forall m s v g, inv l1 l2 s v g -> (sx_n s < 4)%nat -> dot v v <= INR m * eps ->
  exists fuel s' v', gjkLoop fuel l1 l2 s v (Some (dot v v)) = Done s' v'.
Proof.
  intros N1 N2 ST EP SH. induction m as [|m IH]; intros s v g I N B; destruct (gjk_support l1 l2 v N1 N2) as (p1 & p2 & E & I1 & I2 & M).
  - destruct (checkDupSlot s (vsub p1 p2)) eqn:DUP; [exists 1%nat, s, v; cbn [gjkLoop]; rewrite E, DUP; reflexivity|].
    exists 1%nat, s, v. cbn [gjkLoop]. rewrite E, DUP. zvg. cbn [orb]. destruct (Rleb_reflect (dot v v - dot (vsub p1 p2) v) zTOL) as [L|L]; [reflexivity|exfalso].
    destruct (inv_step l1 l2 s v g p1 p2 ST I N I1 I2) as (s' & v' & g' & EC & I' & a & b & EY & EW); [pose proof zTOL_pos; lra|].
    assert (Q : dot v' v' <= dot v v - eps) by (eapply (SH s v g (vsub p1 p2)); eauto; [exists p1, p2; auto|lra]). cbn in B. pose proof (dot_self_nonneg v'). lra.
  - destruct (checkDupSlot s (vsub p1 p2)) eqn:DUP; [exists 1%nat, s, v; cbn [gjkLoop]; rewrite E, DUP; reflexivity|].
    destruct (Rleb_reflect (dot v v - dot (vsub p1 p2) v) zTOL) as [L|L].
    { exists 1%nat, s, v. cbn [gjkLoop]. rewrite E, DUP. zvg. cbn [orb]. destruct (Rleb_reflect (dot v v - dot (vsub p1 p2) v) zTOL); [reflexivity|lra]. }
    destruct (inv_step l1 l2 s v g p1 p2 ST I N I1 I2) as (s' & v' & g' & EC & I' & a & b & EY & EW); [pose proof zTOL_pos; lra|].
    assert (Q : dot v' v' <= dot v v - eps) by (eapply (SH s v g (vsub p1 p2)); eauto; [exists p1, p2; auto|lra]).
    destruct (Nat.ltb_spec (sx_n s') 4) as [LT|GE].
    + rewrite S_INR in B. destruct (IH s' v' g' I' LT ltac:(lra)) as (fuel & s'' & v'' & F). exists (S fuel), s'', v''. cbn [gjkLoop]. rewrite E, DUP. zvg. cbn [orb].
      destruct (Rleb_reflect (dot v v - dot (vsub p1 p2) v) zTOL); [lra|]. rewrite EC. zvg. destruct (Nat.ltb_spec (sx_n s') 4); [exact F|lia].
    + exists 1%nat, s', v'. cbn [gjkLoop]. rewrite E, DUP. zvg. cbn [orb]. destruct (Rleb_reflect (dot v v - dot (vsub p1 p2) v) zTOL); [lra|]. rewrite EC. destruct (Nat.ltb_spec (sx_n s') 4); [lia|reflexivity].
Qed.
Lemma gjk_ends old l1 l2 : l1 <> [] -> l2 <> [] -> sturdy l1 l2 -> clear_weights l1 l2 \/ compact_pair l1 l2 -> exists n c1 c2 hit, forall fuel, (n <= fuel)%nat -> zGJK fuel old l1 l2 = Some (c1, c2, hit).
Proof.
  intros N1 N2 ST H. assert (SH : exists eps, 0 < eps /\ shrinks l1 l2 eps) by (destruct H; [apply shrink_clear|apply shrink_compact]; assumption). destruct SH as (eps & EP & SH).
  destruct l1 as [|a l1]; [congruence|]. destruct l2 as [|b l2]; [congruence|]. set (L1 := a :: l1) in *. set (L2 := b :: l2) in *.
  assert (Q : exists fuel s v, gjkLoop fuel L1 L2 simplexInit (vsub a b) None = Done s v).
  { destruct (gjk_support L1 L2 (vsub a b) N1 N2) as (p1 & p2 & E & I1 & I2 & M). destruct (init_step L1 L2 p1 p2 ST I1 I2) as (s' & v' & g' & EC & I' & _).
    destruct (Nat.ltb_spec (sx_n s') 4) as [LT|GE].
    - destruct (INR_unbounded (dot v' v' / eps)) as (m & Hm). assert (B : dot v' v' <= INR m * eps). { replace (dot v' v') with (dot v' v' / eps * eps) by (field; lra). nra. }
      destruct (loop_ends L1 L2 eps N1 N2 ST EP SH m s' v' g' I' LT B) as (fuel & s'' & v'' & F). exists (S fuel), s'', v''. cbn [gjkLoop]. rewrite E. replace (checkDupSlot simplexInit (vsub p1 p2)) with false by reflexivity. cbn [orb]. rewrite EC. zvg.
      destruct (Nat.ltb_spec (sx_n s') 4); [exact F|lia].
    - exists 1%nat, s', v'. cbn [gjkLoop]. rewrite E. replace (checkDupSlot simplexInit (vsub p1 p2)) with false by reflexivity. cbn [orb]. rewrite EC. destruct (Nat.ltb_spec (sx_n s') 4); [lia|reflexivity]. }
  destruct Q as (n & s & v & Q). pose proof (loop_ok L1 L2 N1 N2 ST n simplexInit (vsub a b) None (or_introl (conj eq_refl eq_refl))) as F. rewrite Q in F.
  destruct (finished_pair _ _ _ _ F) as (c1 & c2 & _ & _ & P & _). exists n, c1, c2, (gjkCheck old s). intros fuel L. unfold zGJK, L1, L2. zvg. fold L1 L2. rewrite (fuel_more _ _ _ _ _ _ _ _ Q fuel L), P. reflexivity.
Qed.
