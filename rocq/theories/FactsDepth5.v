(** How deep two convex sets overlap: a tetrahedron around a point. *)
From Verif Require Import FactsElem FactsGJK4 FactsGJK5.
From Verif Require Export FactsDepth4.
From Coq Require Import List Lra Lia Bool.
Import ListNotations.
Open Scope R_scope.

(** leaving the meeting of half-spaces passes the border of one of them *)
Definition below_all (hs : list (vec3 * R)) (x : vec3) : Prop := forall n k, List.In (n, k) hs -> dot n x <= k.
Lemma below_mix hs x y s0 s1 : weights2 s0 s1 -> below_all hs x -> below_all hs y -> below_all hs (comb2 s0 s1 x y).
Proof. intros (A & B & C) X Y n k I. specialize (X n k I). specialize (Y n k I). replace (dot n (comb2 s0 s1 x y)) with (s0 * dot n x + s1 * dot n y) by vring. nra. Qed.
Lemma cross_one hs n k x y : below_all ((n, k) :: hs) x -> below_all hs y -> k < dot n y -> exists q, segment x y q /\ below_all ((n, k) :: hs) q /\ dot n q = k.
Proof.
  intros X Y L. pose proof (X n k (or_introl eq_refl)) as XK. set (d := dot n y - dot n x). assert (D : 0 < d) by (unfold d; lra).
  set (t := (k - dot n x) / d). assert (T : t * d = k - dot n x) by (unfold t; field; lra). assert (T0 : 0 <= t) by (unfold t; apply Rle_mult_inv_pos; lra). assert (T1 : t <= 1) by (unfold d in *; nra).
  assert (W : weights2 (1 - t) t) by (repeat split; lra). assert (E : dot n (comb2 (1 - t) t x y) = k). { replace (dot n (comb2 (1 - t) t x y)) with (dot n x + t * (dot n y - dot n x)) by vring. fold d. lra. }
  exists (comb2 (1 - t) t x y). split; [exists (1 - t), t; auto|]. split; [|exact E]. intros m j [K|I]; [injection K as <- <-; lra|]. apply (below_mix hs); auto. intros m' j' I'. apply X. right. exact I'.
Qed.
Lemma segment_in x y q r : segment x y q -> segment x q r -> segment x y r.
Proof.
  intros (a & b & (A & B & C) & ->) (c & d & (A' & B' & C') & ->). exists (c + d * a), (d * b). split; [repeat split; nra|]. apply vec3_ext; unfold comb2; vring.
Qed.
Lemma cross_some : forall hs x y, below_all hs x -> below_all hs y \/ exists n k q, List.In (n, k) hs /\ segment x y q /\ below_all hs q /\ dot n q = k.
Proof.
  induction hs as [|[n k] hs IH]; intros x y X; [left; intros n k []|]. assert (X' : below_all hs x) by (intros m j I; apply X; right; exact I). destruct (IH x y X') as [Y|(m & j & q & I & S & Q & E)].
  - destruct (Rle_or_lt (dot n y) k) as [L|L]; [left; intros m j [K|I]; [injection K as <- <-; exact L|apply Y; exact I]|]. right. destruct (cross_one hs n k x y X Y L) as (q & S & Q & E). exists n, k, q. split; [left; reflexivity|]. auto.
  - right. destruct (Rle_or_lt (dot n q) k) as [L|L]; [exists m, j, q; split; [right; exact I|]; split; [exact S|]; split; [|exact E]; intros m' j' [K|I']; [injection K as <- <-; exact L|apply Q; exact I']|].
    destruct (cross_one hs n k x q X Q L) as (r & S' & Q' & E'). exists n, k, r. split; [left; reflexivity|]. split; [apply (segment_in x y q); assumption|]. auto.
Qed.
(** ** A tetrahedron around the origin *)
Definition kA := V3 1 1 1. Definition kB := V3 1 (-1) (-1). Definition kC := V3 (-1) 1 (-1). Definition kD := V3 (-1) (-1) 1.
Definition kset := [kA; kB; kC; kD].
Ltac kun := unfold kA, kB, kC, kD in *.
Definition kfaces := [snd (zTri3DCreate kB kC kD); snd (zTri3DCreate kA kC kD); snd (zTri3DCreate kA kB kD); snd (zTri3DCreate kA kB kC)].
Definition khull (l : list vec3) : option (list tri3) := if forallb (fun p => if in_dec vdec p l then true else false) kset then Some kfaces else None.
Lemma corners_create a b c : corners (snd (zTri3DCreate a b c)) = (a, b, c).
Proof. unfold zTri3DCreate. destruct (zVec3DIsTiny _); reflexivity. Qed.
Lemma khull_some l : khull l <> None <-> incl kset l.
Proof.
  unfold khull. destruct (forallb _ kset) eqn:E.
  - split; [|congruence]. intros _ p Hp. rewrite forallb_forall in E. specialize (E p Hp). destruct (in_dec vdec p l); [assumption|discriminate].
  - split; [congruence|]. intros I _. assert (K : forallb (fun p => if in_dec vdec p l then true else false) kset = true); [|rewrite K in E; discriminate]. apply forallb_forall. intros p Hp. destruct (in_dec vdec p l) as [|N]; [reflexivity|]. elim N. apply I. exact Hp.
Qed.
Lemma kdiff x : difference kset [v3zero] x <-> List.In x kset.
Proof.
  assert (Z : forall a, vsub a v3zero = a) by (intros a; apply vec3_ext; vring). split.
  - intros (a & b & I & [<-|[]] & ->). rewrite Z. exact I.
  - intros I. exists x, v3zero. rewrite Z. cbn. auto.
Qed.
Definition khalf := [(vneg kA, 1); (vneg kB, 1); (vneg kC, 1); (vneg kD, 1)].
Lemma khull_half l x : (forall p, List.In p l -> List.In p kset) -> convex_hull l x -> below_all khalf x.
Proof.
  intros S C n k I. apply (hull_half_dot l n k); [|exact C]. intros p Hp. apply S in Hp. cbn in I, Hp.
  destruct I as [I|[I|[I|[I|[]]]]]; injection I as <- <-; destruct Hp as [<-|[<-|[<-|[<-|[]]]]]; kun; nums; lra.
Qed.
Definition kw (a x : vec3) : R := (1 + dot a x) / 4.
Lemma kw_pos x : below_all khalf x -> 0 <= kw kA x /\ 0 <= kw kB x /\ 0 <= kw kC x /\ 0 <= kw kD x /\ x = comb4 (kw kA x) (kw kB x) (kw kC x) (kw kD x) kA kB kC kD /\ kw kA x + kw kB x + kw kC x + kw kD x = 1.
Proof.
  intros B. assert (K : forall a, List.In (vneg a, 1) khalf -> 0 <= kw a x). { intros a I. specialize (B _ _ I). unfold kw. replace (dot (vneg a) x) with (- dot a x) in B by vring. lra. }
  split; [apply K; cbn; auto|]. split; [apply K; cbn; auto|]. split; [apply K; cbn; auto|]. split; [apply K; cbn; auto|]. split; [apply vec3_ext|]; unfold kw, comb4, comb3, comb2; kun; nums; field.
Qed.
Lemma kface x (n : vec3) : below_all khalf x -> List.In (n, 1) khalf -> dot n x = 1 -> exists a b c, List.In (a, b, c) (map corners kfaces) /\ in_triangle a b c x.
Proof.
  intros B I E. destruct (kw_pos x B) as (A1 & A2 & A3 & A4 & X & W). unfold kfaces. cbn [map]. rewrite !corners_create.
  assert (Z : forall a, n = vneg a -> kw a x = 0). { intros a ->. unfold kw. replace (dot (vneg a) x) with (- dot a x) in E by vring. lra. }
  cbn in I. destruct I as [I|[I|[I|[I|[]]]]]; injection I as I; symmetry in I; apply Z in I; rewrite I in X, W.
  - exists kB, kC, kD. split; [cbn; auto|]. exists (kw kB x), (kw kC x), (kw kD x). split; [repeat split; lra|]. rewrite X at 1. apply vec3_ext; unfold comb4, comb3, comb2; vring.
  - exists kA, kC, kD. split; [cbn; auto|]. exists (kw kA x), (kw kC x), (kw kD x). split; [repeat split; lra|]. rewrite X at 1. apply vec3_ext; unfold comb4, comb3, comb2; vring.
  - exists kA, kB, kD. split; [cbn; auto|]. exists (kw kA x), (kw kB x), (kw kD x). split; [repeat split; lra|]. rewrite X at 1. apply vec3_ext; unfold comb4, comb3, comb2; vring.
  - exists kA, kB, kC. split; [cbn; auto|]. exists (kw kA x), (kw kB x), (kw kC x). split; [repeat split; lra|]. rewrite X at 1. apply vec3_ext; unfold comb4, comb3, comb2; vring.
Qed.
Lemma khull_of l x : incl kset l -> below_all khalf x -> convex_hull l x.
Proof.
  intros I B. destruct (kw_pos x B) as (A1 & A2 & A3 & A4 & X & W). rewrite X. apply (hull_more kset); [exact I|].
  replace (comb4 (kw kA x) (kw kB x) (kw kC x) (kw kD x) kA kB kC kD) with (wsum [kw kA x; kw kB x; kw kC x; kw kD x] kset) by (unfold kset; cbn [wsum]; apply vec3_ext; unfold comb4, comb3, comb2; vring).
  apply hull_wsum; [|cbn [total]; lra]. unfold kset. repeat (apply Forall2_cons; [split; [assumption|right; constructor; cbn; tauto]|]). constructor.
Qed.
Lemma kright : right_hull (fun l => option_map (map corners) (khull l)) kset [v3zero].
Proof.
  intros l fs _ _ D E. assert (I : incl kset l). { apply khull_some. intros K. rewrite K in E. discriminate. }
  assert (F : fs = map corners kfaces). { revert E. unfold khull. destruct (forallb _ kset); cbn [option_map]; [|discriminate]. intros K. injection K as <-. reflexivity. }
  assert (S : forall p, List.In p l -> List.In p kset) by (intros p Hp; apply kdiff, D, Hp). subst fs. split.
  - split; [discriminate|]. split.
    + intros a b c Q. unfold kfaces in Q. cbn [map] in Q. rewrite !corners_create in Q. cbn [List.In] in Q.
      assert (M : List.In a kset /\ List.In b kset /\ List.In c kset) by (destruct Q as [Q|[Q|[Q|[Q|[]]]]]; injection Q as <- <- <-; unfold kset; cbn [List.In]; tauto). destruct M as (Ma & Mb & Mc). repeat (split; [apply I; assumption|]). clear Ma Mb Mc.
      destruct Q as [Q|[Q|[Q|[Q|[]]]]]; injection Q as <- <- <-; [exists (vneg kA)|exists (vneg kB)|exists (vneg kC)|exists (vneg kD)];
        (split; [intros K; apply (f_equal vx) in K; kun; nums; lra|]; split; [kun; nums; lra|]; split; [kun; nums; lra|]; intros x Hx; apply S in Hx; cbn in Hx; destruct Hx as [<-|[<-|[<-|[<-|[]]]]]; kun; nums; lra).
    + intros x y X. destruct (cross_some khalf x y (khull_half l x S X)) as [Y|(n & k & q & Q1 & Q2 & Q3 & Q4)]; [left; apply khull_of; assumption|right].
      assert (K1 : k = 1) by (cbn in Q1; destruct Q1 as [K|[K|[K|[K|[]]]]]; injection K as _ <-; reflexivity). rewrite K1 in Q1, Q4. destruct (kface q n Q3 Q1 Q4) as (a & b & c & F & T). exists a, b, c, q. auto.
  - pose proof tol_small as TS. intros a b c Q. unfold kfaces in Q. cbn [map] in Q. rewrite !corners_create in Q. cbn [List.In] in Q.
    assert (NX : forall v t, (Rabs (vx v) = t \/ Rabs (vy v) = t \/ Rabs (vz v) = t) -> 1 <= t -> ~ negligible v). { intros v t H L (N1 & N2 & N3). destruct H as [H|[H|H]]; lra. }
    assert (R2 : Rabs 2 = 2) by (apply Rabs_right; lra). assert (R2' : Rabs (-2) = 2) by (rewrite Rabs_left; lra). assert (R4 : Rabs 4 = 4) by (apply Rabs_right; lra). assert (R4' : Rabs (-4) = 4) by (rewrite Rabs_left; lra).
    assert (NN : forall v, (vx v = 2 \/ vx v = -2 \/ vx v = 4 \/ vx v = -4) \/ (vy v = 2 \/ vy v = -2 \/ vy v = 4 \/ vy v = -4) -> ~ negligible v). { intros v H (N1 & N2 & N3). destruct H as [[H|[H|[H|H]]]|[H|[H|[H|H]]]]; rewrite H in *; lra. }
    destruct Q as [Q|[Q|[Q|[Q|[]]]]]; injection Q as <- <- <-; (split; [unfold well_shaped, spread_at; repeat split|]);
      first [apply NN; kun; nums; first [left; left; lra|left; right; left; lra|right; left; lra|right; right; left; lra|left; right; right; left; lra|left; right; right; right; lra|right; right; right; left; lra|right; right; right; right; lra]|kun; nums; lra].
Qed.
Lemma ksturdy : sturdy kset [v3zero].
Proof.
  pose proof tol_small as TS. intros a b c A B C. apply kdiff in A, B, C. cbn in A, B, C.
  assert (NN : forall v, vx v = 4 \/ vx v = -4 -> ~ negligible v). { intros v H (N1 & N2 & N3). destruct H as [H|H]; rewrite H in N1; [rewrite Rabs_right in N1 by lra|rewrite Rabs_left in N1 by lra]; lra. }
  destruct A as [<-|[<-|[<-|[<-|[]]]]]; destruct B as [<-|[<-|[<-|[<-|[]]]]]; destruct C as [<-|[<-|[<-|[<-|[]]]]];
    first [left; kun; veq|right; apply NN; kun; nums; first [left; lra|right; lra]].
Qed.
Lemma kgap : distinct_differences kset [v3zero].
Proof.
  pose proof tol_small as TS. intros x y X Y. apply kdiff in X, Y. cbn in X, Y. assert (R2 : Rabs 2 = 2) by (apply Rabs_right; lra). assert (R2' : Rabs (-2) = 2) by (rewrite Rabs_left; lra).
  destruct X as [<-|[<-|[<-|[<-|[]]]]]; destruct Y as [<-|[<-|[<-|[<-|[]]]]]; try (left; reflexivity); right; kun; cbn [vx vy vz];
    repeat match goal with |- context [Rabs (?a - ?b)] => first [replace (a - b) with 2 by lra|replace (a - b) with (-2) by lra|replace (a - b) with 0 by lra] end; rewrite ?R2, ?R2'; first [left; lra|right; left; lra].
Qed.
Lemma knorm x : difference kset [v3zero] x -> norm x <= 2.
Proof.
  intros D. apply kdiff in D. cbn in D. apply Rsqr_incr_0_var; [|lra]. unfold Rsqr. rewrite norm_sqr. destruct D as [<-|[<-|[<-|[<-|[]]]]]; kun; nums; lra.
Qed.
Lemma ksturdy_list ws : incl ws kset -> sturdy_list ws.
Proof. intros I a b c A B C. apply ksturdy; apply kdiff; auto. Qed.
Ltac runstep' ws ss un := unfold simplexClosest, addSlot; cbn [sx_slot map fillSlot sw_w sw_y sl_w sl_p sl_s msl slotInit filter];
    rewrite (closest_cert ws ss);
    [cbn [putWeights map sw_y msl slotInit sw_w sl_w sl_p]; unfold minimizeSlot; cbn [sl_s sw_y sl_w sl_p]; tiny; cbn [sw_y sl_w sl_p sl_s sw_w filter length]; f_equal; f_equal; cbn [wsum]; un; veq
    |cert| |apply ksturdy_list; intros y Hy; cbn in Hy |- *; tauto|cert|cert|cert|cbn [wsum List.In]; intros y Hy; repeat (destruct Hy as [<-|Hy]; [|]); try destruct Hy; un; nums; lra].
Lemma k_run fuel : gjkLoop (4 + fuel) kset [v3zero] simplexInit kA None = Done (SX 4 [msl kB true true (1/4); msl kA true true (1/4); msl kC true true (1/4); msl kD true true (1/4)]) v3zero.
Proof.
  pose proof tol_small as TS. cbn [Nat.add].
  rewrite (loop_next (S (S (S fuel))) kset [v3zero] simplexInit kA None kB v3zero kB (SX 1 [msl kB true true 1; slotInit; slotInit; slotInit]) kB).
  2: { unfold kset. supp kun. }
  2: reflexivity. 2: left; reflexivity.
  2: { unfold simplexClosest. cbn. unfold minimizeSlot. cbn [sl_s]. tiny. reflexivity. }
  2: reflexivity.
  rewrite (loop_next (S (S fuel)) kset [v3zero] _ kB _ kA v3zero kA (SX 2 [msl kB true true (1/2); msl kA true true (1/2); slotInit; slotInit]) (V3 1 0 0)).
  2: { unfold kset. supp kun. }
  2: { unfold checkDupSlot, zVec3DMatch. cbn. rq. reflexivity. }
  2: { right. eexists. split; [reflexivity|]. kun. nums. lra. }
  2: { runstep' [kB; kA] [1/2; 1/2] kun. apply indep_pair. kun. nums. lra. }
  2: reflexivity.
  rewrite (loop_next (S fuel) kset [v3zero] _ (V3 1 0 0) _ kC v3zero kC (SX 3 [msl kB true true (1/3); msl kA true true (1/3); msl kC true true (1/3); slotInit]) (V3 (1/3) (1/3) (-1/3))).
  2: { unfold kset. supp kun. }
  2: { unfold checkDupSlot, zVec3DMatch. cbn. rq. reflexivity. }
  2: { right. eexists. split; [reflexivity|]. kun. nums. lra. }
  2: { runstep' [kB; kA; kC] [1/3; 1/3; 1/3] kun. apply (indep_triple _ _ _ (V3 1 0 0)); kun; nums; lra. }
  2: reflexivity.
  cbn [gjkLoop Nat.add]. replace (gjkSupportMap kset [v3zero] (V3 (1/3) (1/3) (-1/3))) with (Some (kD, v3zero, kD)) by (symmetry; unfold kset; supp kun).
  match goal with |- context [checkDupSlot ?s ?w] => replace (checkDupSlot s w) with false by (symmetry; unfold checkDupSlot, zVec3DMatch; cbn; rq; reflexivity) end. cbn [orb]. zvg.
  match goal with |- context [Rleb ?a ?b] => replace (Rleb a b) with false by (symmetry; destruct (Rleb_reflect a b) as [K|]; [exfalso; kun; nums; lra|reflexivity]) end.
  match goal with |- context [simplexClosest ?s] => replace (simplexClosest s) with (Some (SX 4 [msl kB true true (1/4); msl kA true true (1/4); msl kC true true (1/4); msl kD true true (1/4)], v3zero)) end; [reflexivity|symmetry].
  runstep' [kB; kA; kC; kD] [1/4; 1/4; 1/4; 1/4] kun.
  apply (indep_insert [kB; kA; kC] kD [] (V3 1 1 (-1)) 1); [apply (indep_triple _ _ _ (V3 1 0 0)); kun; nums; lra|cbn; intros y [<-|[<-|[<-|[]]]]; kun; nums; lra|kun; nums; lra].
Qed.
Lemma k_depth old : exists c1 c2, zGJKDepth khull kset [v3zero] 5 old = Some (c1, c2, true) /\ convex_hull kset c1 /\ convex_hull [v3zero] c2 /\ depth_vector (4 * zTOL * 2) kset [v3zero] (vsub c1 c2).
Proof.
  eapply (depth_tetra khull kset [v3zero] 2 5 old kA v3zero); try reflexivity.
  - exact ksturdy.
  - exact knorm.
  - exact kright.
  - exact kgap.
  - replace (vsub kA v3zero) with kA by (kun; veq). exact (k_run 1).
  - reflexivity.
  - intros l _ _ _ I. apply khull_some. intros p Hp. apply I. cbn in Hp |- *. tauto.
  - cbn. lia.
Qed.
