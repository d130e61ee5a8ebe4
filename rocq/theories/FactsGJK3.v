(** The pair of points found by the GJK algorithm *)
From Verif Require Export FactsGJK2.
From Coq Require Import List Lia.
Import ListNotations.
Open Scope R_scope.

(** * Hulls *)
Lemma hull_scaled L : forall ss ps, Forall2 (fun s p => 0 <= s /\ (s = 0 \/ convex_hull L p)) ss ps -> 0 < total ss -> exists q, convex_hull L q /\ wsum ss ps = vscale (total ss) q.
Proof.
  induction ss as [|s ss IH]; intros ps F T; inversion F as [|? p ? ps' [F1 F2] F3]; subst; cbn [total wsum] in *; [lra|].
  assert (N : 0 <= total ss). { clear - F3. induction F3 as [|? ? ? ? [? _] ? IH]; cbn [total]; lra. }
  destruct (Req_dec (total ss) 0) as [Z|Z].
  - assert (W : wsum ss ps' = v3zero).
    { clear - F3 Z. revert Z. induction F3 as [|x y l l' [A B] F3 IH]; intros Z; [reflexivity|]. cbn [total wsum] in *.
      assert (N : 0 <= total l) by (clear - F3; induction F3 as [|? ? ? ? [? _] ? IH]; cbn [total]; lra).
      rewrite IH by lra. replace x with 0 by lra. apply vec3_ext; spec_unfold; ring. }
    destruct F2 as [F2|F2]; [lra|]. exists p. split; [exact F2|]. rewrite W, Z. apply vec3_ext; spec_unfold; ring.
  - destruct (IH _ F3 ltac:(lra)) as (q & Hq & E). rewrite E. destruct F2 as [->|F2].
    + exists q. split; [exact Hq|]. apply vec3_ext; spec_unfold; ring.
    + exists (comb2 (s / (s + total ss)) (total ss / (s + total ss)) p q). split.
      * apply hull_mix with p q; [exact F2|exact Hq|]. eexists _, _. split; [|reflexivity]. unfold weights2. repeat split.
        -- apply Rmult_le_pos; [lra|]. left. apply Rinv_0_lt_compat. lra.
        -- apply Rmult_le_pos; [lra|]. left. apply Rinv_0_lt_compat. lra.
        -- field. lra.
      * unfold comb2. apply vec3_ext; spec_unfold; field; lra.
Qed.
Lemma hull_wsum L ss ps : Forall2 (fun s p => 0 <= s /\ (s = 0 \/ convex_hull L p)) ss ps -> total ss = 1 -> convex_hull L (wsum ss ps).
Proof.
  intros F T. destruct (hull_scaled L ss ps F ltac:(lra)) as (q & Hq & E). rewrite E, T. replace (vscale 1 q) with q; [exact Hq|]. apply vec3_ext; spec_unfold; ring.
Qed.
Lemma hull_dot L v k : (forall p, List.In p L -> k <= dot p v) -> forall q, convex_hull L q -> k <= dot q v.
Proof.
  intros H q Q. induction Q as [p Hp|a b p A IA B IB (s0 & s1 & (W0 & W1 & WS) & ->)]; [auto|].
  replace (dot (comb2 s0 s1 a b) v) with (s0 * dot a v + s1 * dot b v) by (unfold comb2; clear; spec_unfold; ring). nra.
Qed.
Lemma hull_difference l1 l2 v k : (forall x, difference l1 l2 x -> k <= dot x v) -> forall x1 x2, convex_hull l1 x1 -> convex_hull l2 x2 -> k <= dot (vsub x1 x2) v.
Proof.
  intros H x1 x2 H1 H2. replace (dot (vsub x1 x2) v) with (dot x1 v + dot x2 (vneg v)) by (clear; spec_unfold; ring).
  assert (G : k - dot x1 v <= dot x2 (vneg v)); [|lra]. revert x2 H2. apply hull_dot. intros b Hb.
  assert (G : k - dot b (vneg v) <= dot x1 v); [|lra]. revert x1 H1. apply hull_dot. intros a Ha.
  specialize (H (vsub a b) ltac:(exists a, b; auto)). replace (dot (vsub a b) v) with (dot a v + dot b (vneg v)) in H by (clear; spec_unfold; ring). lra.
Qed.
(** * The pair *)
Definition pt1 (sl : slot) : vec3 := match sl_p sl with Some (p, _) => p | None => v3zero end.
Definition pt2 (sl : slot) : vec3 := match sl_p sl with Some (_, p) => p | None => v3zero end.
Definition act (sl : slot) : R := if sw_w sl then sl_s sl else 0.
Lemma pair_sum l1 l2 : forall l g, Forall2 slot_g l g -> ok_slots l1 l2 l -> forall a b, gjkPair l a b = Some (vadd a (wsum (map act l) (map pt1 l)), vadd b (wsum (map act l) (map pt2 l))).
Proof.
  intros l g G. induction G as [|sl h l g (G1 & G2 & G3) G IH]; intros O a b; cbn [gjkPair map wsum].
  - f_equal. f_equal; apply vec3_ext; spec_unfold; ring.
  - apply Forall_cons_iff in O as [O1 O2]. unfold act at 1 3. destruct (sw_w sl) eqn:W.
    + assert (Y : sw_y sl = true) by (destruct (sw_y sl); [reflexivity|pose proof zTOL_pos; lra]). destruct (O1 Y) as (p1 & p2 & E & _). rewrite E. rewrite (IH O2).
      unfold pt1 at 2, pt2 at 2. rewrite E. zvg. f_equal. f_equal; apply vec3_ext; spec_unfold; ring.
    + rewrite (IH O2). f_equal. f_equal; apply vec3_ext; spec_unfold; ring.
Qed.
(** what is lost by dropping small weights *)
Definition lost (l : list slot) (g : list R) : R := total g - total (map act l).
Lemma lost_sum f b : forall l g, Forall2 slot_g l g -> (forall sl, List.In sl l -> sw_y sl = true -> norm (f sl) <= b) -> norm (vsub (wsum (map act l) (map f l)) (wsum g (map f l))) <= lost l g * b.
Proof.
  intros l g G. unfold lost. induction G as [|sl h l g (G1 & G2 & G3) G IH]; intros B; cbn [map wsum total].
  - replace (vsub v3zero v3zero) with (vscale 0 v3zero) by (apply vec3_ext; spec_unfold; ring). rewrite norm_scale, Rabs_R0. lra.
  - specialize (IH (fun x Hx => B x (or_intror Hx))). pose proof (B sl (or_introl eq_refl)) as B1. unfold act at 1 3. destruct (sw_w sl) eqn:W.
    + destruct G3 as [E _]. rewrite E. match goal with |- norm ?x <= _ => match type of IH with norm ?y <= _ => replace x with y by (clear; apply vec3_ext; spec_unfold; ring) end end. lra.
    + match type of IH with norm ?y <= _ => match goal with |- norm ?x <= _ => replace x with (vadd (vscale (- h) (f sl)) y) by (clear; apply vec3_ext; spec_unfold; ring) end end.
      eapply Rle_trans; [apply norm_triangle|]. rewrite norm_scale, Rabs_Ropp, (Rabs_right h) by lra.
      destruct (sw_y sl); [specialize (B1 eq_refl)|rewrite G2 in * by reflexivity]; nra.
Qed.
Lemma lost_count : forall l g, Forall2 slot_g l g -> 0 <= lost l g <= INR (length l - length (filter sw_w l)) * zTOL.
Proof.
  assert (FL : forall l : list slot, (length (filter sw_w l) <= length l)%nat). { induction l as [|x l IH]; cbn; [lia|]. destruct (sw_w x); cbn; lia. }
  intros l g G. unfold lost. induction G as [|sl h l g (G1 & G2 & G3) G IH]; cbn [map total length filter]; [cbn; lra|].
  unfold act at 1 3. specialize (FL l). destruct (sw_w sl) eqn:W.
  - destruct G3 as [E _]. rewrite E. cbn [length]. replace (S (length l) - S (length (filter sw_w l)))%nat with (length l - length (filter sw_w l))%nat by lia. lra.
  - replace (S (length l) - length (filter sw_w l))%nat with (S (length l - length (filter sw_w l))) by lia. rewrite S_INR. lra.
Qed.
Lemma tol_small : 0 < zTOL < / 100.
Proof. pose proof zTOL_pos. pose proof zTOL_small. assert (/ 1000000 < / 100) by (apply Rinv_lt_contravar; lra). lra. Qed.
Lemma inv_some l1 l2 s v g : inv l1 l2 s v g -> (1 <= sx_n s)%nat.
Proof.
  intros I. rewrite (inv_n _ _ _ _ _ I). destruct (filter sw_w (sx_slot s)) as [|x l] eqn:F; [exfalso|cbn; lia].
  pose proof (lost_count _ _ (inv_g _ _ _ _ _ I)) as C. rewrite F, (inv_len _ _ _ _ _ I) in C. cbn [length] in C. replace (INR (4 - 0)) with 4 in C by (cbn; lra).
  unfold lost in C. rewrite (inv_tot _ _ _ _ _ I) in C. assert (T : total (map act (sx_slot s)) = 0).
  { clear - F. revert F. induction (sx_slot s) as [|sl l IH]; intros F; [reflexivity|]. cbn [filter map total] in *. unfold act at 1. destruct (sw_w sl); [discriminate|]. rewrite IH by exact F. ring. }
  rewrite T in C. pose proof tol_small. lra.
Qed.
Lemma lost_3 l1 l2 s v g : inv l1 l2 s v g -> 0 <= lost (sx_slot s) g <= 3 * zTOL.
Proof.
  intros I. pose proof (lost_count _ _ (inv_g _ _ _ _ _ I)) as C. pose proof (inv_some _ _ _ _ _ I) as S1. rewrite (inv_n _ _ _ _ _ I) in S1. rewrite (inv_len _ _ _ _ _ I) in C.
  assert (K : INR (4 - length (filter sw_w (sx_slot s))) <= 3). { replace 3 with (INR 3) by (cbn; lra). apply le_INR. lia. }
  pose proof zTOL_pos. nra.
Qed.
Lemma inv_points l1 l2 s v g : inv l1 l2 s v g -> convex_hull l1 (wsum g (map pt1 (sx_slot s))) /\ convex_hull l2 (wsum g (map pt2 (sx_slot s))) /\
  v = vsub (wsum g (map pt1 (sx_slot s))) (wsum g (map pt2 (sx_slot s))).
Proof.
  intros I. pose proof (inv_g _ _ _ _ _ I) as G. pose proof (inv_ok _ _ _ _ _ I) as O. pose proof (inv_tot _ _ _ _ _ I) as T. rewrite (inv_v _ _ _ _ _ I). clear I. revert T. intros T.
  split; [|split].
  - apply hull_wsum; [|exact T]. clear T. revert O. induction G as [|sl h l g' (G1 & G2 & G3) G IH]; intros O; cbn [map]; constructor.
    + apply Forall_cons_iff in O as [O1 O2]. split; [exact G1|]. destruct (sw_y sl) eqn:Y; [right|left; auto]. destruct (O1 eq_refl) as (p1 & p2 & E & J1 & J2 & _). unfold pt1. rewrite E. constructor. exact J1.
    + apply Forall_cons_iff in O as [O1 O2]. auto.
  - apply hull_wsum; [|exact T]. clear T. revert O. induction G as [|sl h l g' (G1 & G2 & G3) G IH]; intros O; cbn [map]; constructor.
    + apply Forall_cons_iff in O as [O1 O2]. split; [exact G1|]. destruct (sw_y sl) eqn:Y; [right|left; auto]. destruct (O1 eq_refl) as (p1 & p2 & E & J1 & J2 & _). unfold pt2. rewrite E. constructor. exact J2.
    + apply Forall_cons_iff in O as [O1 O2]. auto.
  - clear T. revert O. induction G as [|sl h l g' (G1 & G2 & G3) G IH]; intros O; cbn [map wsum].
    + apply vec3_ext; spec_unfold; ring.
    + apply Forall_cons_iff in O as [O1 O2]. rewrite (IH O2). destruct (sw_y sl) eqn:Y.
      * destruct (O1 eq_refl) as (p1 & p2 & E & J1 & J2 & EW). unfold pt1 at 2, pt2 at 2. rewrite E, EW. apply vec3_ext; spec_unfold; ring.
      * rewrite G2 by reflexivity. apply vec3_ext; spec_unfold; ring.
Qed.
Lemma inv_norm l1 l2 s v g b1 b2 : inv l1 l2 s v g -> within b1 l1 -> within b2 l2 ->
  (forall sl, List.In sl (sx_slot s) -> sw_y sl = true -> norm (pt1 sl) <= b1) /\ (forall sl, List.In sl (sx_slot s) -> sw_y sl = true -> norm (pt2 sl) <= b2).
Proof.
  intros I B1 B2. pose proof (inv_ok _ _ _ _ _ I) as O. unfold ok_slots in O. rewrite Forall_forall in O. split; intros sl Hs Y; destruct (O sl Hs Y) as (p1 & p2 & E & J1 & J2 & _); unfold pt1, pt2; rewrite E; auto.
Qed.
Lemma clear_act l1 l2 s v g : inv l1 l2 s v g -> clear_weights l1 l2 -> map act (sx_slot s) = g.
Proof.
  intros I CW. set (l := sx_slot s) in *.
  assert (FA : Forall (fun h => h = 0 \/ zTOL <= h) g).
      { assert (Z : Forall (fun h => h = 0 \/ zTOL <= h) (map snd (filter (fun p => sw_y (fst p)) (combine l g)))).
        { pose proof (inv_g _ _ _ _ _ I) as G. fold l in G.
          assert (K : forall l g, Forall2 slot_g l g -> map sl_w (filter sw_y l) = map sl_w (map fst (filter (fun p => sw_y (fst p)) (combine l g))) /\
             total g = total (map snd (filter (fun p => sw_y (fst p)) (combine l g))) /\ wsum g (map sl_w l) = wsum (map snd (filter (fun p => sw_y (fst p)) (combine l g))) (ys l) /\
             Forall (fun h => 0 <= h) (map snd (filter (fun p => sw_y (fst p)) (combine l g)))).
          { clear. intros l g G. induction G as [|sl h l g (G1 & G2 & G3) G (I1 & I2 & I3 & I4)]; [repeat split; constructor|]. unfold ys in *. cbn [combine filter fst map]. destruct (sw_y sl) eqn:Y; cbn [map fst snd total wsum].
            - repeat split; [congruence|lra|congruence|]. constructor; assumption.
            - rewrite G2 by reflexivity. repeat split; [congruence|lra| |assumption]. rewrite I3. apply vec3_ext; spec_unfold; ring. }
          destruct (K l g G) as (K1 & K2 & K3 & K4). apply (CW (ys l)).
          - unfold ys. rewrite map_length. rewrite <- (inv_len _ _ _ _ _ I). fold l. clear. induction l as [|x l IH]; cbn; [lia|]. destruct (sw_y x); cbn; lia.
          - apply Forall_forall. intros y Hy. apply in_map_iff in Hy as (sl & <- & Hs). apply filter_In in Hs as [Hs Y]. pose proof (inv_ok _ _ _ _ _ I) as O. unfold ok_slots in O. rewrite Forall_forall in O. destruct (O sl Hs Y) as (p1 & p2 & E & J1 & J2 & ->). exists p1, p2. auto.
          - exact (inv_ind _ _ _ _ _ I).
          - unfold ys. rewrite K1, !map_length. reflexivity.
          - exact K4.
          - rewrite <- K2. exact (inv_tot _ _ _ _ _ I).
          - rewrite <- K3. unfold l. rewrite <- (inv_v _ _ _ _ _ I). exact (inv_min _ _ _ _ _ I). }
        pose proof (inv_g _ _ _ _ _ I) as G. fold l in G. clear - G Z. induction G as [|sl h l g (G1 & G2 & G3) G IH]; [constructor|]. cbn [combine filter fst] in Z. destruct (sw_y sl) eqn:Y; cbn [map snd] in Z.
        - apply Forall_cons_iff in Z as [Z1 Z2]. constructor; auto.
        - constructor; auto. }
      pose proof (inv_g _ _ _ _ _ I) as G. fold l in G. clear - G FA. induction G as [|sl h l g (G1 & G2 & G3) G IH]; [reflexivity|]. apply Forall_cons_iff in FA as [F1 F2]. cbn [map]. rewrite (IH F2). f_equal.
      unfold act. destruct (sw_w sl); [tauto|]. destruct F1; lra.
Qed.
Lemma finished_pair l1 l2 s v : finished l1 l2 s v -> exists c1 c2 q1 q2, gjkPair (sx_slot s) v3zero v3zero = Some (c1, c2) /\ v = vsub q1 q2 /\ nearest_pair (2 * zTOL) l1 l2 q1 q2 /\
  (forall b, within b l1 -> dist c1 q1 <= 3 * zTOL * b) /\ (forall b, within b l2 -> dist c2 q2 <= 3 * zTOL * b) /\ (clear_weights l1 l2 -> c1 = q1 /\ c2 = q2).
Proof.
  intros (g & I & M). destruct (inv_points _ _ _ _ _ I) as (H1 & H2 & V). set (l := sx_slot s) in *. set (q1 := wsum g (map pt1 l)) in *. set (q2 := wsum g (map pt2 l)) in *.
  exists (wsum (map act l) (map pt1 l)), (wsum (map act l) (map pt2 l)), q1, q2.
  split; [|split; [exact V|split; [|split; [|split]]]].
  - rewrite (pair_sum l1 l2 l g (inv_g _ _ _ _ _ I) (inv_ok _ _ _ _ _ I)). f_equal. f_equal; apply vec3_ext; spec_unfold; ring.
  - split; [exact H1|]. split; [exact H2|]. intros x1 x2 X1 X2. pose proof (hull_difference l1 l2 v _ M x1 x2 X1 X2) as Q. unfold dist. rewrite !norm_sqr, <- V.
    pose proof (dot_self_nonneg (vsub (vsub x1 x2) v)) as P. replace (dot (vsub (vsub x1 x2) v) (vsub (vsub x1 x2) v)) with (dot (vsub x1 x2) (vsub x1 x2) - 2 * dot (vsub x1 x2) v + dot v v) in P by (clear; spec_unfold; ring). lra.
  - intros b B. destruct (lost_3 _ _ _ _ _ I) as [L0 L1]. unfold dist.
    assert (E : norm (vsub (wsum (map act l) (map pt1 l)) q1) <= lost l g * b).
    { apply lost_sum; [exact (inv_g _ _ _ _ _ I)|]. intros sl Hs Y. pose proof (inv_ok _ _ _ _ _ I) as O. unfold ok_slots in O. rewrite Forall_forall in O. destruct (O sl Hs Y) as (p1 & p2 & E & J1 & J2 & _). unfold pt1. rewrite E. auto. }
    assert (B0 : 0 <= b). { destruct l1 as [|a l1]; [|specialize (B a (or_introl eq_refl)); pose proof (norm_nonneg a); lra]. exfalso. clear - H1. remember [] as e. induction H1 as [p Hp|]; subst; [destruct Hp|auto]. }
    fold l in L0, L1. nra.
  - intros b B. destruct (lost_3 _ _ _ _ _ I) as [L0 L1]. unfold dist.
    assert (E : norm (vsub (wsum (map act l) (map pt2 l)) q2) <= lost l g * b).
    { apply lost_sum; [exact (inv_g _ _ _ _ _ I)|]. intros sl Hs Y. pose proof (inv_ok _ _ _ _ _ I) as O. unfold ok_slots in O. rewrite Forall_forall in O. destruct (O sl Hs Y) as (p1 & p2 & E & J1 & J2 & _). unfold pt2. rewrite E. auto. }
    assert (B0 : 0 <= b). { destruct l2 as [|a l2]; [|specialize (B a (or_introl eq_refl)); pose proof (norm_nonneg a); lra]. exfalso. clear - H2. remember [] as e. induction H2 as [p Hp|]; subst; [destruct Hp|auto]. }
    fold l in L0, L1. nra.
  - intros CW. pose proof (clear_act _ _ _ _ _ I CW) as A. fold l in A.
    unfold q1, q2. rewrite A. auto.
Qed.
(** * The result *)
Lemma fuel_more l1 l2 : forall fuel s v dv s' v', gjkLoop fuel l1 l2 s v dv = Done s' v' -> forall fuel', (fuel <= fuel')%nat -> gjkLoop fuel' l1 l2 s v dv = Done s' v'.
Proof.
  induction fuel as [|fuel IH]; intros s v dv s' v' E fuel' L; [discriminate|]. destruct fuel' as [|fuel']; [lia|]. cbn [gjkLoop] in *.
  destruct (gjkSupportMap l1 l2 v) as [[[p1 p2] w]|]; [|discriminate]. destruct (_ || _)%bool; [exact E|]. destruct (simplexClosest _) as [[s1 v1]|]; [|discriminate].
  destruct (Nat.ltb (sx_n s1) 4); [|exact E]. apply IH with (1 := E). lia.
Qed.
Lemma gjk_some fuel old l1 l2 : l1 <> [] -> l2 <> [] -> sturdy l1 l2 ->
  (exists a b s v, l1 <> [] /\ nth_error l1 0 = Some a /\ nth_error l2 0 = Some b /\ gjkLoop fuel l1 l2 simplexInit (vsub a b) None = Done s v /\ finished l1 l2 s v /\
     exists c1 c2, gjkPair (sx_slot s) v3zero v3zero = Some (c1, c2) /\ zGJK fuel old l1 l2 = Some (c1, c2, gjkCheck old s)) \/
  (exists a b, nth_error l1 0 = Some a /\ nth_error l2 0 = Some b /\ gjkLoop fuel l1 l2 simplexInit (vsub a b) None = OutOfFuel /\ zGJK fuel old l1 l2 = None).
Proof.
  intros N1 N2 ST. destruct l1 as [|a l1]; [congruence|]. destruct l2 as [|b l2]; [congruence|].
  pose proof (loop_ok (a :: l1) (b :: l2) N1 N2 ST fuel simplexInit (vsub a b) None (or_introl (conj eq_refl eq_refl))) as L. unfold zGJK. zvg.
  destruct (gjkLoop fuel (a :: l1) (b :: l2) simplexInit (vsub a b) None) as [| |s v] eqn:E; [right|destruct L|left].
  - exists a, b. auto.
  - exists a, b, s, v. repeat split; auto. destruct (finished_pair _ _ _ _ L) as (c1 & c2 & _ & _ & P & _). exists c1, c2. rewrite P. auto.
Qed.
Lemma gjk_pair fuel old l1 l2 c1 c2 hit : sturdy l1 l2 -> zGJK fuel old l1 l2 = Some (c1, c2, hit) -> exists q1 q2, nearest_pair (2 * zTOL) l1 l2 q1 q2 /\
  (forall b, within b l1 -> dist c1 q1 <= 3 * zTOL * b) /\ (forall b, within b l2 -> dist c2 q2 <= 3 * zTOL * b) /\ (clear_weights l1 l2 -> c1 = q1 /\ c2 = q2).
Proof.
  intros ST E. assert (N1 : l1 <> []) by (intros ->; discriminate). assert (N2 : l2 <> []) by (intros ->; destruct l1; discriminate).
  destruct (gjk_some fuel old l1 l2 N1 N2 ST) as [(a & b & s & v & _ & _ & _ & _ & F & d1 & d2 & P & Z)|(a & b & _ & _ & _ & Z)]; [|congruence].
  destruct (finished_pair _ _ _ _ F) as (c1' & c2' & q1 & q2 & P' & V & R). rewrite E in Z. injection Z as -> -> ->. rewrite P in P'. injection P' as <- <-. exists q1, q2. exact R.
Qed.
