(** How deep a point is within a convex set, with the modelled convex hull. *)
From Verif Require Import FactsVec FactsElem FactsGJK4 FactsGJK5 SpecMesh SpecQH FactsPH2 FactsQH7.
From Verif Require Export SpecScatter ModelDepthQH FactsDepth6.
From Coq Require Import List Lra Lia Bool Arith.
Import ListNotations.
Open Scope R_scope.

Ltac vv := apply vec3_ext; unfold tri_normal, cross, comb3, comb2; vring.
(** a point of the hull in the plane of a face is in the face *)
Lemma in_face L n a b c q : (forall x, List.In x L -> dot n (vsub x a) < 0 \/ x = a \/ x = b \/ x = c) -> dot n (vsub b a) = 0 -> dot n (vsub c a) = 0 ->
  convex_hull L q -> dot n (vsub q a) <= 0 /\ (dot n (vsub q a) = 0 -> in_triangle a b c q).
Proof.
  intros H B C Q. induction Q as [p P|u v p _ [U1 U2] _ [V1 V2] (s0 & s1 & (W0 & W1 & W2) & ->)].
  - assert (A : dot n (vsub a a) = 0) by (clear; spec_unfold; ring). destruct (H p P) as [K|[->|[->| ->]]].
    + split; [lra|]. intros Z. lra.
    + split; [lra|]. intros _. exists 1, 0, 0. split; [repeat split; lra|]. vv.
    + split; [lra|]. intros _. exists 0, 1, 0. split; [repeat split; lra|]. vv.
    + split; [lra|]. intros _. exists 0, 0, 1. split; [repeat split; lra|]. vv.
  - assert (E : dot n (vsub (comb2 s0 s1 u v) a) = s0 * dot n (vsub u a) + s1 * dot n (vsub v a)) by (replace s1 with (1 - s0) by lra; unfold comb2; clear; spec_unfold; ring).
    rewrite E. set (du := dot n (vsub u a)) in *. set (dv := dot n (vsub v a)) in *. split; [nra|]. intros Z.
    destruct (Req_dec s0 0) as [Z0|Z0].
    { assert (s1 = 1) by lra. subst s0 s1. replace (comb2 0 1 u v) with v by (vv). apply V2. lra. }
    destruct (Req_dec s1 0) as [Z1|Z1].
    { assert (s0 = 1) by lra. subst s0 s1. replace (comb2 1 0 u v) with u by (vv). apply U2. lra. }
    assert (DU : du = 0) by nra. assert (DV : dv = 0) by nra. destruct (U2 DU) as (x0 & x1 & x2 & (X0 & X1 & X2 & XS) & ->). destruct (V2 DV) as (y0 & y1 & y2 & (Y0 & Y1 & Y2 & YS) & ->).
    exists (s0 * x0 + s1 * y0), (s0 * x1 + s1 * y1), (s0 * x2 + s1 * y2). split; [|clear; vv].
    repeat split; [apply Rplus_le_le_0_compat; apply Rmult_le_pos; assumption|apply Rplus_le_le_0_compat; apply Rmult_le_pos; assumption|apply Rplus_le_le_0_compat; apply Rmult_le_pos; assumption|].
    transitivity (s0 * (x0 + x1 + x2) + s1 * (y0 + y1 + y2)); [ring|]. rewrite XS, YS. lra.
Qed.
Lemma hull_hull L L' x : (forall v, List.In v L -> convex_hull L' v) -> convex_hull L x -> convex_hull L' x.
Proof. intros H C. induction C as [p P|u v p _ IHu _ IHv S]; [auto|]. apply (hull_mix _ u v); assumption. Qed.
(** the outcome of the hull is a surface in the sense of C91 *)
Lemma hull_surface_of l vs fs : hull_surface l vs fs -> fs <> [] -> surface_of l (map (fun f => SpecMesh.corners vs (fst f)) fs).
Proof.
  intros (ND & IN & IB & PR & _ & _ & FO & CV & HS) NE.
  assert (FF : forall a b c n, List.In (a, b, c, n) fs -> (a < length vs)%nat /\ (b < length vs)%nat /\ (c < length vs)%nat).
  { intros a b c n F. unfold indices_below in IB. rewrite Forall_forall in IB. exact (IB (a, b, c) (in_map fst _ _ F)). }
  assert (VI : forall i, (i < length vs)%nat -> List.In (vpos vs i) l) by (intros i I; apply IN, nth_In; exact I).
  assert (ON : forall a b c n x, List.In (a, b, c, n) fs -> List.In x l -> dot n (vsub x (vpos vs a)) < 0 \/ x = vpos vs a \/ x = vpos vs b \/ x = vpos vs c).
  { intros a b c n x F X. destruct (FO _ _ _ _ F) as (_ & _ & _ & _ & K). destruct (vdec x (vpos vs a)) as [->|N1]; [auto|]. destruct (vdec x (vpos vs b)) as [->|N2]; [auto|]. destruct (vdec x (vpos vs c)) as [->|N3]; [auto|]. left. apply K; assumption. }
  split; [|split].
  - intros K. apply map_eq_nil in K. contradiction.
  - intros a b c T. apply in_map_iff in T. destruct T as ([[[i j] k] n] & E & F). cbn [fst SpecMesh.corners] in E. injection E as <- <- <-. destruct (FF _ _ _ _ F) as (I & J & K). split; [auto|]. split; [auto|]. split; [auto|].
    exists n. pose proof (FO _ _ _ _ F) as (U & D1 & D2 & _ & _). split; [intros Z; rewrite Z in U; assert (Z0 : norm v3zero = 0) by (apply norm_zero_iff; reflexivity); lra|]. split; [exact D1|]. split; [exact D2|].
    intros x X. apply (in_face l n _ _ _ x (fun x => ON _ _ _ _ x F) D1 D2 (hull_point _ x X)).
  - intros x y X. set (hs := map (fun f : nat * nat * nat * vec3 => (snd f, dot (snd f) (vpos vs (fst (fst (fst f)))))) fs).
    assert (BH : forall z, below_all hs z <-> convex_hull vs z).
    { intros z. rewrite HS. split.
      - intros K a b c n F. specialize (K n (dot n (vpos vs a))). assert (G : List.In (n, dot n (vpos vs a)) hs) by (apply in_map_iff; exists (a, b, c, n); auto). apply K in G. replace (dot n (vsub z (vpos vs a))) with (dot n z - dot n (vpos vs a)) by (clear; spec_unfold; ring). lra.
      - intros K n k G. apply in_map_iff in G. destruct G as ([[[a b] c] m] & E & F). cbn [fst snd] in E. injection E as <- <-. specialize (K _ _ _ _ F). replace (dot m (vsub z (vpos vs a))) with (dot m z - dot m (vpos vs a)) in K by (clear; spec_unfold; ring). lra. }
    destruct (cross_some hs x y) as [Y|(n & k & q & G & S & Q & E)].
    + apply BH. apply (hull_hull l); assumption.
    + left. apply (hull_more vs); [exact IN|]. apply BH, Y.
    + right. apply in_map_iff in G. destruct G as ([[[a b] c] m] & E' & F). cbn [fst snd] in E'. injection E' as <- <-.
      exists (vpos vs a), (vpos vs b), (vpos vs c), q. split; [apply in_map_iff; exists (a, b, c, m); auto|]. split; [|exact S].
      pose proof (FO _ _ _ _ F) as (_ & D1 & D2 & _ & _). apply (in_face l m _ _ _ q (fun x => ON _ _ _ _ x F) D1 D2); [apply (hull_more vs); [exact IN|]; apply BH, Q|]. replace (dot m (vsub q (vpos vs a))) with (dot m q - dot m (vpos vs a)) by (clear; spec_unfold; ring). lra.
Qed.
Lemma scattered_general S l : scattered S -> NoDup l -> (forall x, List.In x l -> S x) -> general_position l.
Proof.
  intros (G & _) ND I i j k m a b c d N A B C D.
  assert (NE : forall i j a b, i <> j -> nth_error l i = Some a -> nth_error l j = Some b -> a <> b).
  { intros i' j' a' b' H A' B' E. subst b'. apply H. apply (proj1 (NoDup_nth_error l) ND); [apply nth_error_Some; rewrite A'; discriminate|]. rewrite A', B'. reflexivity. }
  apply G; try (apply I; eapply nth_error_In; eassumption).
  repeat (apply NoDup_cons_iff in N; let H := fresh in destruct N as (H & N)). cbn in *.
  assert (M : i <> j /\ i <> k /\ i <> m /\ j <> k /\ j <> m /\ k <> m) by intuition. destruct M as (M1 & M2 & M3 & M4 & M5 & M6).
  pose proof (NE _ _ _ _ M1 A B). pose proof (NE _ _ _ _ M2 A C). pose proof (NE _ _ _ _ M3 A D). pose proof (NE _ _ _ _ M4 B C). pose proof (NE _ _ _ _ M5 B D). pose proof (NE _ _ _ _ M6 C D).
  repeat constructor; cbn; intuition.
Qed.
Lemma depth_hull S sort l : scattered S -> NoDup l -> (4 <= length l)%nat -> (forall x, List.In x l -> S x) ->
  exists fs, depthHull sort l = Some fs /\ surface_of l (map ModelDepth.corners fs) /\ forall a b c, List.In (a, b, c) (map ModelDepth.corners fs) -> well_shaped a b c /\ ~ negligible (tri_normal a b c).
Proof.
  intros SC ND L4 I. destruct (quickhull_correct sort (length l) l (scattered_general S l SC ND I) L4 (le_n _)) as (ch & E & H).
  assert (NF : norm_faces ch <> []).
  { intros Z. rewrite Z in H. destruct H as (_ & _ & _ & _ & _ & US & _ & CV & _). cbn in US. destruct l as [|x l]; [cbn in L4; lia|]. specialize (CV x (or_introl eq_refl)). destruct (pverts ch) as [|v vs]; [clear - CV; remember [] as L; induction CV; subst; [destruct H|auto]|].
    destruct (US 0%nat) as (a & b & c & [] & _). cbn. lia. }
  pose proof (hull_surface_of l _ _ H NF) as SO. destruct H as (NDV & IN & IB & PR & _).
  assert (TR : zPH3DTris ch = Some (map (fun f => T3 (vpos (pverts ch) (fi0 f)) (vpos (pverts ch) (fi1 f)) (vpos (pverts ch) (fi2 f)) (fnrm f)) (pfaces ch))).
  { unfold zPH3DTris. apply mapM_map. intros f F. unfold zPH3DFaceTri. unfold indices_below in IB. rewrite Forall_forall in IB. assert (T : List.In (fi0 f, fi1 f, fi2 f) (map fst (norm_faces ch))) by (unfold norm_faces; rewrite map_map; apply in_map_iff; exists f; auto). destruct (IB _ T) as (I0 & I1 & I2).
    unfold vpos. rewrite (nth_error_nth' (pverts ch) v3zero I0), (nth_error_nth' (pverts ch) v3zero I1), (nth_error_nth' (pverts ch) v3zero I2). reflexivity. }
  exists (map (fun f => T3 (vpos (pverts ch) (fi0 f)) (vpos (pverts ch) (fi1 f)) (vpos (pverts ch) (fi2 f)) (fnrm f)) (pfaces ch)). split; [unfold depthHull; rewrite E; exact TR|].
  assert (M : map ModelDepth.corners (map (fun f => T3 (vpos (pverts ch) (fi0 f)) (vpos (pverts ch) (fi1 f)) (vpos (pverts ch) (fi2 f)) (fnrm f)) (pfaces ch)) = map (fun f => SpecMesh.corners (pverts ch) (fst f)) (norm_faces ch)) by (unfold norm_faces; rewrite !map_map; reflexivity).
  rewrite M. split; [exact SO|]. intros a b c T. apply in_map_iff in T. destruct T as ([[[i j] k] n] & E' & F). cbn [fst SpecMesh.corners] in E'. injection E' as <- <- <-.
  unfold indices_below in IB. unfold proper_faces in PR. rewrite Forall_forall in IB, PR. pose proof (in_map fst _ _ F) as T. cbn [fst] in T. destruct (IB _ T) as (I0 & I1 & I2). destruct (PR _ T) as (P0 & P1 & P2).
  assert (VD : forall i j, (i < length (pverts ch))%nat -> (j < length (pverts ch))%nat -> i <> j -> vpos (pverts ch) i <> vpos (pverts ch) j) by (intros i' j' A B NE Q; apply NE; exact (proj1 (NoDup_nth (pverts ch) v3zero) NDV i' j' A B Q)).
  apply SC; try (apply I, IN, nth_In; assumption). pose proof (VD i j I0 I1 P0). pose proof (VD j k I1 I2 P1). assert (vpos (pverts ch) k <> vpos (pverts ch) i) by (apply VD; auto). repeat constructor; cbn; intuition.
Qed.
Lemma scattered_sturdy l1 l2 : scattered (difference l1 l2) -> sturdy l1 l2.
Proof.
  intros (_ & T & _) a b c A B C. destruct (vdec a b) as [->|N1]; [left; vv|]. destruct (vdec b c) as [->|N2]; [left; vv|]. destruct (vdec a c) as [->|N3]; [left; vv|].
  right. apply T; try assumption. repeat constructor; cbn; intuition.
Qed.
(** differences to a point keep the shape of the set *)
Lemma scattered_point l p : scattered (fun x => List.In x l) -> scattered (difference l [p]).
Proof.
  assert (ST : forall a b, vsub (vsub a p) (vsub b p) = vsub a b) by (intros a b; vv).
  assert (D1 : forall x, difference l [p] x -> exists a, List.In a l /\ x = vsub a p) by (intros x (a & b & A & [<-|[]] & ->); eauto).
  intros (G & T & V). split; [|split].
  - intros a b c d A B C D N. destruct (D1 _ A) as (a' & A' & ->), (D1 _ B) as (b' & B' & ->), (D1 _ C) as (c' & C' & ->), (D1 _ D) as (d' & D' & ->).
    specialize (G a' b' c' d' A' B' C' D' (NoDup_map_inv (fun x => vsub x p) [a'; b'; c'; d'] N)). unfold tri_normal, vol6, dist in *. rewrite !ST. exact G.
  - intros a b c A B C N. destruct (D1 _ A) as (a' & A' & ->), (D1 _ B) as (b' & B' & ->), (D1 _ C) as (c' & C' & ->).
    specialize (T a' b' c' A' B' C' (NoDup_map_inv (fun x => vsub x p) [a'; b'; c'] N)). unfold well_shaped, spread_at, tri_normal in *. rewrite !ST. exact T.
  - intros a b A B. destruct (D1 _ A) as (a' & A' & ->), (D1 _ B) as (b' & B' & ->). destruct (V a' b' A' B') as [->|K]; [left; reflexivity|right]. cbn [vsub vx vy vz] in *.
    replace (vx a' - vx p - (vx b' - vx p)) with (vx a' - vx b') by ring. replace (vy a' - vy p - (vy b' - vy p)) with (vy a' - vy b') by ring. replace (vz a' - vz p - (vz b' - vz p)) with (vz a' - vz b') by ring. exact K.
Qed.
Lemma hull_single p x : convex_hull [p] x -> x = p.
Proof. intros C. induction C as [q [<-|[]]|u v q _ -> _ -> (s0 & s1 & (W0 & W1 & W2) & ->)]; [reflexivity|]. replace s1 with (1 - s0) by lra. vv. Qed.

Lemma depth_point : forall sort l p M fuel old a s v, scattered (fun x => List.In x l) -> (forall x, List.In x l -> dist x p <= M) -> nth_error l 0 = Some a ->
  gjkLoop fuel l [p] simplexInit (vsub a p) None = Done s v -> sx_n s = 4%nat -> (length l < fuel)%nat ->
  exists c, zGJKDepth (depthHull sort) l [p] fuel old = Some (c, p, true) /\ convex_hull l c /\ depth_vector (4 * zTOL * M) l [p] (vsub c p).
Proof.
  intros sort l p M fuel old a s v SC BD A0 R N4 F. pose proof (scattered_point l p SC) as SD.
  destruct (depth_tetra (depthHull sort) l [p] M fuel old a p s v A0 eq_refl (scattered_sturdy _ _ SD)) as (c1 & c2 & E & C1 & C2 & DV).
  - intros x (y & z & Y & [<-|[]] & ->). exact (BD y Y).
  - intros k fs ND L I K. destruct (depth_hull _ sort k SD ND L I) as (fs' & E & SO). rewrite E in K. cbn [option_map] in K. injection K as <-. exact SO.
  - exact (proj2 (proj2 SD)).
  - exact R.
  - exact N4.
  - intros k ND L I _. destruct (depth_hull _ sort k SD ND L I) as (fs' & E & _). rewrite E. discriminate.
  - cbn. lia.
  - apply hull_single in C2. subst c2. exists c1. auto.
Qed.
(** the tetrahedron around the origin *)
Lemma k_len v : dot v v <= 100 -> norm v <= 10.
Proof. intros H. apply Rsqr_incr_0_var; [|lra]. unfold Rsqr. rewrite norm_sqr. lra. Qed.
Lemma k_scattered : scattered (fun x => List.In x kset).
Proof.
  pose proof tol_small as TS. pose proof zTOL_pos as TP. pose proof zTOL_small as TM. split; [|split].
  - intros a b c d A B C D N.
    assert (K : dot (tri_normal a b c) (tri_normal a b c) <= 100 /\ dot (vsub d a) (vsub d a) <= 100 /\ (vol6 a b c d <= -1 \/ 1 <= vol6 a b c d)).
    { assert (NE : a <> b /\ a <> c /\ a <> d /\ b <> c /\ b <> d /\ c <> d) by (repeat (apply NoDup_cons_iff in N; let H := fresh in destruct N as (H & N)); cbn in *; intuition congruence). clear N. destruct NE as (N1 & N2 & N3 & N4 & N5 & N6). cbn in A, B, C, D.
      destruct A as [<-|[<-|[<-|[<-|[]]]]]; destruct B as [<-|[<-|[<-|[<-|[]]]]]; try congruence; destruct C as [<-|[<-|[<-|[<-|[]]]]]; try congruence; destruct D as [<-|[<-|[<-|[<-|[]]]]]; try congruence; clear;
        unfold tri_normal, vol6, det3v, dot, cross, vsub, kA, kB, kC, kD; cbn [vx vy vz]; (split; [lra|split; [lra|first [left; lra|right; lra]]]). }
    destruct K as (K1 & K2 & K3). apply k_len in K1. apply k_len in K2. unfold dist. pose proof (norm_nonneg (tri_normal a b c)) as P1. pose proof (norm_nonneg (vsub d a)) as P2.
    assert (K4 : 1 <= Rabs (vol6 a b c d)) by (destruct K3 as [K3|K3]; [rewrite Rabs_left; lra|rewrite Rabs_right; lra]).
    assert (K5 : norm (tri_normal a b c) * (1 + norm (vsub d a)) <= 10 * 11) by (apply Rmult_le_compat; lra).
    assert (K6 : 2 * zTOL * norm (tri_normal a b c) * (1 + norm (vsub d a)) <= 2 * zTOL * 110) by (replace (2 * zTOL * norm (tri_normal a b c) * (1 + norm (vsub d a))) with (2 * zTOL * (norm (tri_normal a b c) * (1 + norm (vsub d a)))) by ring; apply Rmult_le_compat_l; lra). lra.
  - intros a b c A B C N.
    assert (NE : a <> b /\ a <> c /\ b <> c) by (repeat (apply NoDup_cons_iff in N; let H := fresh in destruct N as (H & N)); cbn in *; intuition congruence). clear N. destruct NE as (N1 & N2 & N3).
    assert (NN : forall v, 1 <= vx v * vx v + vy v * vy v -> ~ negligible v).
    { intros v H (M1 & M2 & M3). apply Rabs_def2 in M1, M2. destruct M1, M2. assert (vx v * vx v < 1/4) by nra. assert (vy v * vy v < 1/4) by nra. lra. }
    cbn in A, B, C.
    assert (K : forall x y, List.In x kset -> List.In y kset -> x <> y -> ~ negligible (vsub x y)).
    { intros x y X Y H. apply NN. cbn in X, Y. destruct X as [<-|[<-|[<-|[<-|[]]]]]; destruct Y as [<-|[<-|[<-|[<-|[]]]]]; try congruence; clear; unfold vsub, kA, kB, kC, kD; cbn [vx vy vz]; lra. }
    assert (Q : forall x y z, List.In x kset -> List.In y kset -> List.In z kset -> x <> y -> x <> z -> y <> z -> spread_at x y z /\ ~ negligible (tri_normal x y z)).
    { intros x y z X Y Z H1 H2 H3. clear A B C N1 N2 N3. cbn in X, Y, Z. split; [|apply NN]; destruct X as [<-|[<-|[<-|[<-|[]]]]]; destruct Y as [<-|[<-|[<-|[<-|[]]]]]; try congruence; destruct Z as [<-|[<-|[<-|[<-|[]]]]]; try congruence; clear - TS TP;
        unfold spread_at, tri_normal, dot, cross, vsub, kA, kB, kC, kD; cbn [vx vy vz]; lra. }
    split; [|apply Q; assumption]. unfold well_shaped. split; [apply K; auto|]. split; [apply K; auto|]. split; [apply K; auto|]. split; [apply Q; auto|]. split; apply Q; auto.
  - intros a b A B. apply kgap; apply kdiff; assumption.
Qed.
Lemma k_point sort old : exists c, zGJKDepth (depthHull sort) kset [v3zero] 5 old = Some (c, v3zero, true) /\ convex_hull kset c /\ depth_vector (4 * zTOL * 2) kset [v3zero] (vsub c v3zero).
Proof.
  eapply (depth_point sort kset v3zero 2 5 old kA).
  - exact k_scattered.
  - intros x X. apply knorm. exists x, v3zero. cbn. auto.
  - reflexivity.
  - replace (vsub kA v3zero) with kA by (kun; veq). exact (k_run 1).
  - reflexivity.
  - cbn. lia.
Qed.
