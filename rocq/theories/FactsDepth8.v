(** How deep a point is within a convex set: the search for proximity ends with a tetrahedron. *)
From Verif Require Import FactsVec FactsElem FactsGJK2 FactsGJK3 FactsGJK4 FactsGJK5 SpecMesh SpecQH FactsPH2 FactsQH7.
From Verif Require Export FactsDepth7.
From Coq Require Import List Lra Lia Bool Arith.
Import ListNotations.
Open Scope R_scope.

Lemma mix_triangle a b c u v q : in_triangle a b c u -> in_triangle a b c v -> segment u v q -> in_triangle a b c q.
Proof.
  intros (x0 & x1 & x2 & (X0 & X1 & X2 & XS) & ->) (y0 & y1 & y2 & (Y0 & Y1 & Y2 & YS) & ->) (s0 & s1 & (W0 & W1 & W2) & ->).
  exists (s0 * x0 + s1 * y0), (s0 * x1 + s1 * y1), (s0 * x2 + s1 * y2). split; [|clear; vv].
  repeat split; [apply Rplus_le_le_0_compat; apply Rmult_le_pos; assumption|apply Rplus_le_le_0_compat; apply Rmult_le_pos; assumption|apply Rplus_le_le_0_compat; apply Rmult_le_pos; assumption|].
  transitivity (s0 * (x0 + x1 + x2) + s1 * (y0 + y1 + y2)); [ring|]. rewrite XS, YS. lra.
Qed.
Lemma corner_in a b c x : x = a \/ x = b \/ x = c -> in_triangle a b c x.
Proof.
  intros [->|[->| ->]]; [exists 1, 0, 0|exists 0, 1, 0|exists 0, 0, 1]; (split; [repeat split; lra|vv]).
Qed.
(** the hull of up to three points is in a triangle of them *)
Lemma small_hull L q : (length L < 4)%nat -> convex_hull L q -> exists a b c, List.In a L /\ List.In b L /\ List.In c L /\ in_triangle a b c q.
Proof.
  intros N Q. assert (K : exists a b c, List.In a L /\ List.In b L /\ List.In c L /\ forall x, List.In x L -> x = a \/ x = b \/ x = c).
  { destruct L as [|a [|b [|c [|d L]]]]; [|exists a, a, a|exists a, b, b|exists a, b, c|cbn in N; lia]; [|cbn; intuition..].
    exfalso. clear N. remember [] as L. induction Q as [p P|]; subst; [destruct P|auto]. }
  destruct K as (a & b & c & A & B & C & K). exists a, b, c. split; [exact A|]. split; [exact B|]. split; [exact C|].
  induction Q as [p P|u v p _ IHu _ IHv S]; [apply corner_in, K, P|]. apply (mix_triangle a b c u v); assumption.
Qed.
Lemma hull_bound L M q : (forall x, List.In x L -> norm x <= M) -> convex_hull L q -> norm q <= M.
Proof.
  intros B Q. induction Q as [p P|u v p _ IHu _ IHv (s0 & s1 & (W0 & W1 & W2) & ->)]; [auto|]. unfold comb2. eapply Rle_trans; [apply norm_triangle|]. rewrite !norm_scale, !Rabs_pos_eq by assumption.
  assert (s0 * norm u <= s0 * M) by (apply Rmult_le_compat_l; assumption). assert (s1 * norm v <= s1 * M) by (apply Rmult_le_compat_l; assumption). replace M with (s0 * M + s1 * M) by (rewrite <- Rmult_plus_distr_r, W2; ring). lra.
Qed.
(** few active slots: a triangle of differences passes near the origin *)
Lemma near_triangle l1 l2 s v M : finished l1 l2 s v -> (sx_n s < 4)%nat -> (forall x, difference l1 l2 x -> norm x <= M) -> (exists x, convex_hull l1 x /\ convex_hull l2 x) ->
  exists a b c q, difference l1 l2 a /\ difference l1 l2 b /\ difference l1 l2 c /\ in_triangle a b c q /\ norm q <= sqrt zTOL + 6 * zTOL * M.
Proof.
  intros (g & I & MN) N B (x & X1 & X2). pose proof zTOL_pos as TP. pose proof zTOL_small as TS.
  pose proof (inv_g _ _ _ _ _ I) as G. pose proof (inv_ok _ _ _ _ _ I) as O. unfold ok_slots in O. rewrite Forall_forall in O.
  assert (NV : norm v <= sqrt zTOL).
  { pose proof (hull_difference l1 l2 v _ MN x x X1 X2) as K. replace (dot (vsub x x) v) with 0 in K by (clear; spec_unfold_g; ring). rewrite <- (sqrt_Rsqr (norm v)) by apply norm_nonneg. apply sqrt_le_1_alt. unfold Rsqr. rewrite norm_sqr. lra. }
  assert (OS : forall sl, List.In sl (sx_slot s) -> sw_y sl = true -> difference l1 l2 (sl_w sl)) by (intros sl Hs Y; destruct (O sl Hs Y) as (p1 & p2 & _ & J1 & J2 & ->); exists p1, p2; auto).
  destruct (lost_3 _ _ _ _ _ I) as [L0 L1]. pose proof (lost_sum sl_w M _ _ G (fun sl Hs Y => B _ (OS sl Hs Y))) as LS. rewrite <- (inv_v _ _ _ _ _ I) in LS.
  set (w := wsum (map FactsGJK3.act (sx_slot s)) (map sl_w (sx_slot s))) in *. set (k := lost (sx_slot s) g) in *.
  assert (T : total (map FactsGJK3.act (sx_slot s)) = 1 - k) by (unfold k, lost; rewrite (inv_tot _ _ _ _ _ I); ring).
  assert (DW : forall y, List.In y (ws_of (sx_slot s)) -> difference l1 l2 y).
  { intros y Y. unfold ws_of in Y. apply in_map_iff in Y. destruct Y as (sl & <- & Hs). apply filter_In in Hs. destruct Hs as (Hs & W). apply OS; [exact Hs|]. pose proof (inv_wy _ _ _ _ _ I) as WY. rewrite Forall_forall in WY. auto. }
  destruct (hull_scaled (ws_of (sx_slot s)) (map FactsGJK3.act (sx_slot s)) (map sl_w (sx_slot s))) as (q & Q & E).
  { clear - G TP. assert (K : forall l g, Forall2 slot_g l g -> forall L, incl (ws_of l) L -> Forall2 (fun s p => 0 <= s /\ (s = 0 \/ convex_hull L p)) (map FactsGJK3.act l) (map sl_w l)).
    { clear - TP. intros l g G. induction G as [|sl h l g (G1 & G2 & G3) G IH]; intros L IL; cbn [map]; constructor.
      - unfold FactsGJK3.act. unfold ws_of in IL. cbn [filter] in IL. destruct (sw_w sl); [destruct G3 as (-> & G3); split; [exact G1|right; constructor; apply IL; left; reflexivity]|split; [lra|left; reflexivity]].
      - apply IH. intros y Y. apply IL. unfold ws_of in *. cbn [filter]. destruct (sw_w sl); [right; exact Y|exact Y]. }
    exact (K _ _ G _ (incl_refl _)). }
  { rewrite T. lra. }
  rewrite T in E. fold w in E. assert (NQ : norm q <= M) by (apply (hull_bound (ws_of (sx_slot s))); [intros y Y; apply B, DW, Y|exact Q]).
  destruct (small_hull _ _ ltac:(unfold ws_of; rewrite map_length, <- (inv_n _ _ _ _ _ I); exact N) Q) as (a & b & c & A & B' & C & TR). exists a, b, c, q. split; [auto|]. split; [auto|]. split; [auto|]. split; [exact TR|].
  assert (M0 : 0 <= M) by (pose proof (norm_nonneg q); lra).
  replace q with (vadd v (vadd (vsub w v) (vscale k q))) by (rewrite E; clear; apply vec3_ext; spec_unfold_g; ring).
  eapply Rle_trans; [apply norm_triangle|]. assert (K2 : norm (vadd (vsub w v) (vscale k q)) <= k * M + k * M).
  { eapply Rle_trans; [apply norm_triangle|]. rewrite norm_scale, Rabs_pos_eq by lra. assert (k * norm q <= k * M) by (apply Rmult_le_compat_l; lra). lra. }
  assert (K3 : k * M <= 3 * zTOL * M) by (apply Rmult_le_compat_r; lra). lra.
Qed.
(** the point is in the hull and off every triangle of the set *)
Lemma inside_full l p M fuel a s v : scattered (fun x => List.In x l) -> (forall x, List.In x l -> dist x p <= M) -> nth_error l 0 = Some a -> deep_inside (sqrt zTOL + 6 * zTOL * M) l p ->
  gjkLoop fuel l [p] simplexInit (vsub a p) None = Done s v -> sx_n s = 4%nat.
Proof.
  intros SC BD A0 (HP & DP) E. assert (NL : l <> []) by (destruct l; [discriminate|discriminate]). pose proof (scattered_sturdy _ _ (scattered_point l p SC)) as ST.
  pose proof (loop_ok l [p] NL ltac:(discriminate) ST fuel simplexInit (vsub a p) None (or_introl (conj eq_refl eq_refl))) as L. rewrite E in L.
  assert (N4 : (sx_n s <= 4)%nat). { destruct L as (g & I & _). rewrite (inv_n _ _ _ _ _ I), <- (inv_len _ _ _ _ _ I). clear. induction (sx_slot s) as [|x r IH]; cbn; [lia|]. destruct (sw_w x); cbn; lia. }
  destruct (Nat.eq_dec (sx_n s) 4) as [K|K]; [exact K|exfalso].
  destruct (near_triangle l [p] s v M L ltac:(lia)) as (x & y & z & q & X & Y & Z & T & NQ).
  - intros x (y & z & Y & [<-|[]] & ->). exact (BD y Y).
  - exists p. split; [exact HP|constructor; left; reflexivity].
  - destruct X as (x' & ? & X & [<-|[]] & ->), Y as (y' & ? & Y & [<-|[]] & ->), Z as (z' & ? & Z & [<-|[]] & ->). destruct T as (s0 & s1 & s2 & (S0 & S1 & S2 & SS) & EQ).
    specialize (DP x' y' z' (vadd q p) X Y Z). unfold dist in DP. replace (vsub (vadd q p) p) with q in DP by (apply vec3_ext; spec_unfold_g; ring). apply (Rlt_not_le _ _ (DP ltac:(exists s0, s1, s2; split; [repeat split; assumption|]; rewrite EQ; replace s2 with (1 - s0 - s1) by lra; vv))). exact NQ.
Qed.
Lemma depth_inside : forall sort l p M fuel old a, scattered (fun x => List.In x l) -> (forall x, List.In x l -> dist x p <= M) -> nth_error l 0 = Some a -> deep_inside (sqrt zTOL + 6 * zTOL * M) l p ->
  gjkLoop fuel l [p] simplexInit (vsub a p) None <> OutOfFuel -> (length l < fuel)%nat ->
  exists c, zGJKDepth (depthHull sort) l [p] fuel old = Some (c, p, true) /\ convex_hull l c /\ depth_vector (4 * zTOL * M) l [p] (vsub c p).
Proof.
  intros sort l p M fuel old a SC BD A0 DP R F. assert (NL : l <> []) by (destruct l; [discriminate|discriminate]). pose proof (scattered_sturdy _ _ (scattered_point l p SC)) as ST.
  pose proof (loop_ok l [p] NL ltac:(discriminate) ST fuel simplexInit (vsub a p) None (or_introl (conj eq_refl eq_refl))) as L.
  destruct (gjkLoop fuel l [p] simplexInit (vsub a p) None) as [| |s v] eqn:E; [congruence|destruct L|]. exact (depth_point sort l p M fuel old a s v SC BD A0 E (inside_full l p M fuel a s v SC BD A0 DP E) F).
Qed.
Lemma depth_small : forall sort l p M old, scattered (fun x => List.In x l) -> (forall x, List.In x l -> dist x p <= M) -> (forall x y, List.In x l -> List.In y l -> dist x y <= 2 / 5) -> deep_inside (sqrt zTOL + 6 * zTOL * M) l p ->
  exists n, forall fuel, (n <= fuel)%nat -> exists c, zGJKDepth (depthHull sort) l [p] fuel old = Some (c, p, true) /\ convex_hull l c /\ depth_vector (4 * zTOL * M) l [p] (vsub c p).
Proof.
  intros sort l p M old SC BD CP DP. destruct l as [|a r]; [exfalso; destruct DP as (H & _); clear - H; remember [] as L; induction H as [q Q|]; subst; [destruct Q|auto]|].
  pose proof (scattered_sturdy _ _ (scattered_point (a :: r) p SC)) as ST.
  destruct (gjk_ends old (a :: r) [p] ltac:(discriminate) ltac:(discriminate) ST) as (n & c1 & c2 & hit & K).
  { right. intros x y (x' & ? & X & [<-|[]] & ->) (y' & ? & Y & [<-|[]] & ->). specialize (CP x' y' X Y). unfold dist in *. replace (vsub (vsub x' p) (vsub y' p)) with (vsub x' y') by (apply vec3_ext; spec_unfold_g; ring). exact CP. }
  exists (n + S (length (a :: r)))%nat. intros fuel F. apply (depth_inside sort (a :: r) p M fuel old a SC BD eq_refl DP); [|lia].
  intros Z. specialize (K fuel ltac:(lia)). unfold zGJK in K. change (zVec3DSub a p) with (vsub a p) in K. rewrite Z in K. discriminate.
Qed.
