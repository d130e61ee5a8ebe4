(** How deep two convex sets overlap: a point collected twice. *)
From Verif Require Import FactsElem FactsGJK4 FactsGJK5 FactsLin FactsVec.
From Verif Require Export FactsDepth5.
From Coq Require Import List Lra Lia Bool.
Import ListNotations.
Open Scope R_scope.

Lemma foot t q : usable t -> in_tri t q -> dot q q <= dot q (tv0 t) -> dot q q <= dot q (tv1 t) -> dot q q <= dot q (tv2 t) -> zTri3DClosest t v3zero = Some (norm q, q).
Proof.
  intros U I A B C. destruct (one_near t U) as (v & E & (s0 & s1 & s2 & (W0 & W1 & W2 & WS) & V) & M). specialize (M q I).
  assert (K : dot q q <= dot q v). { rewrite V. replace (dot q (comb3 s0 s1 s2 (tv0 t) (tv1 t) (tv2 t))) with (s0 * dot q (tv0 t) + s1 * dot q (tv1 t) + s2 * dot q (tv2 t)) by vring. nra. }
  assert (N : dot v v <= dot q q). { pose proof (norm_nonneg v). rewrite <- !norm_sqr. apply Rmult_le_compat; assumption. }
  assert (Z : vsub v q = v3zero). { apply dot_self_zero. pose proof (dot_self_nonneg (vsub v q)) as P. replace (dot (vsub v q) (vsub v q)) with (dot v v - 2 * dot q v + dot q q) in * by vring. lra. }
  assert (V' : v = q). { apply vec3_ext; [apply (f_equal vx) in Z|apply (f_equal vy) in Z|apply (f_equal vz) in Z]; unfold vsub, v3zero in Z; cbn [vx vy vz] in Z; lra. }
  rewrite E, V'. reflexivity.
Qed.
Lemma norm_mono a b : dot a a <= dot b b -> norm a <= norm b.
Proof. intros H. apply Rsqr_incr_0_var; [|apply norm_nonneg]. unfold Rsqr. rewrite !norm_sqr. exact H. Qed.
(** ** Two pyramids on a triangle, and a point *)
Definition bT := V3 0 0 1. Definition bO := V3 0 0 (-1). Definition bA := V3 2 0 0. Definition bB := V3 (-1) 1 0. Definition bC := V3 (-1) (-1) 0. Definition bP := V3 7 0 0.
Definition bset := [bT; bO; bA; bB; bC].
Definition bset1 := [vadd bT bP; vadd bO bP; vadd bA bP; vadd bB bP; vadd bC bP].
Ltac bun := unfold bT, bO, bA, bB, bC, bP in *.
Definition bfaces := [snd (zTri3DCreate bA bB bT); snd (zTri3DCreate bC bA bT); snd (zTri3DCreate bB bC bT); snd (zTri3DCreate bB bA bO); snd (zTri3DCreate bA bC bO); snd (zTri3DCreate bC bB bO)].
Definition bhull (l : list vec3) : option (list tri3) := if forallb (fun p => if in_dec vdec p l then true else false) bset then Some bfaces else None.
Lemma bhull_some l : incl bset l -> bhull l = Some bfaces.
Proof. intros I. unfold bhull. replace (forallb _ bset) with true; [reflexivity|]. symmetry. apply forallb_forall. intros p Hp. destruct (in_dec vdec p l) as [|N]; [reflexivity|]. elim N. apply I. exact Hp. Qed.
Lemma bhull_incl l : bhull l <> None -> incl bset l.
Proof. unfold bhull. destruct (forallb _ bset) eqn:E; [|congruence]. intros _ p Hp. rewrite forallb_forall in E. specialize (E p Hp). destruct (in_dec vdec p l); [assumption|discriminate]. Qed.
Lemma bdiff x : difference bset1 [bP] x <-> List.In x bset.
Proof.
  assert (Z : forall a, vsub (vadd a bP) bP = a) by (intros a; apply vec3_ext; vring). split.
  - intros (a & b & I & [<-|[]] & ->). cbn in I. destruct I as [<-|[<-|[<-|[<-|[<-|[]]]]]]; rewrite Z; cbn; auto 6.
  - intros I. exists (vadd x bP), bP. rewrite Z. split; [|cbn; auto]. cbn in I |- *. destruct I as [<-|[<-|[<-|[<-|[<-|[]]]]]]; auto 6.
Qed.
Definition bhalf := [(V3 (1/2) (3/2) 1, 1); (V3 (1/2) (-3/2) 1, 1); (V3 (-1) 0 1, 1); (V3 (1/2) (3/2) (-1), 1); (V3 (1/2) (-3/2) (-1), 1); (V3 (-1) 0 (-1), 1)].
Lemma bhull_half l x : (forall p, List.In p l -> List.In p bset) -> convex_hull l x -> below_all bhalf x.
Proof.
  intros S C n k I. apply (hull_half_dot l n k); [|exact C]. intros p Hp. apply S in Hp. cbn in I, Hp.
  destruct I as [I|[I|[I|[I|[I|[I|[]]]]]]]; injection I as <- <-; destruct Hp as [<-|[<-|[<-|[<-|[<-|[]]]]]]; bun; nums; lra.
Qed.
Lemma b_ineqs x : below_all bhalf x -> vx x / 2 + 3 * vy x / 2 + vz x <= 1 /\ vx x / 2 - 3 * vy x / 2 + vz x <= 1 /\ - vx x + vz x <= 1 /\ vx x / 2 + 3 * vy x / 2 - vz x <= 1 /\ vx x / 2 - 3 * vy x / 2 - vz x <= 1 /\ - vx x - vz x <= 1.
Proof.
  intros B. pose proof (fun n k I => B n k I) as K. unfold bhalf in K.
  pose proof (K (V3 (1/2) (3/2) 1) 1 ltac:(cbn; auto 9)) as K1. pose proof (K (V3 (1/2) (-3/2) 1) 1 ltac:(cbn; auto 9)) as K2. pose proof (K (V3 (-1) 0 1) 1 ltac:(cbn; auto 9)) as K3.
  pose proof (K (V3 (1/2) (3/2) (-1)) 1 ltac:(cbn; auto 9)) as K4. pose proof (K (V3 (1/2) (-3/2) (-1)) 1 ltac:(cbn; auto 9)) as K5. pose proof (K (V3 (-1) 0 (-1)) 1 ltac:(cbn; auto 9)) as K6.
  clear K B. unfold dot in *. cbn [vx vy vz] in *. repeat split; lra.
Qed.
Ltac tri3w a b c s0 s1 s2 := exists a, b, c; split; [cbn; tauto|]; exists s0, s1, s2; split; [repeat split; lra|]; apply vec3_ext; unfold comb3, comb2; bun; nums; lra.
Lemma bface x n : below_all bhalf x -> List.In (n, 1) bhalf -> dot n x = 1 -> exists a b c, List.In (a, b, c) (map corners bfaces) /\ in_triangle a b c x.
Proof.
  intros B I E. apply b_ineqs in B. destruct B as (B1 & B2 & B3 & B4 & B5 & B6). unfold bfaces. cbn [map]. rewrite !corners_create.
  cbn in I. destruct I as [I|[I|[I|[I|[I|[I|[]]]]]]]; injection I as <-; unfold dot in E; cbn [vx vy vz] in E.
  - tri3w bA bB bT ((vx x + vy x) / 2) (vy x) (vz x).
  - tri3w bC bA bT (- vy x) ((vx x - vy x) / 2) (vz x).
  - tri3w bB bC bT ((vy x - vx x) / 2) ((- vy x - vx x) / 2) (vz x).
  - tri3w bB bA bO (vy x) ((vx x + vy x) / 2) (- vz x).
  - tri3w bA bC bO ((vx x - vy x) / 2) (- vy x) (- vz x).
  - tri3w bC bB bO ((- vy x - vx x) / 2) ((vy x - vx x) / 2) (- vz x).
Qed.
Lemma bhull_of l x : incl bset l -> below_all bhalf x -> convex_hull l x.
Proof.
  intros I B. apply b_ineqs in B. destruct B as (B1 & B2 & B3 & B4 & B5 & B6). apply (hull_more bset); [exact I|].
  assert (K : forall s t u, s + t + u = 1 -> 0 <= s -> 0 <= t -> vz x = s - t -> 0 <= (u + vx x) / 3 -> 0 <= (2 * u - vx x) / 6 + vy x / 2 -> 0 <= (2 * u - vx x) / 6 - vy x / 2 -> convex_hull bset x).
  { intros s t u S1 S2 S3 S4 S5 S6 S7. replace x with (wsum [s; t; (u + vx x) / 3; (2 * u - vx x) / 6 + vy x / 2; (2 * u - vx x) / 6 - vy x / 2] bset).
    - apply hull_wsum; [|cbn [total]; lra]. unfold bset. repeat (apply Forall2_cons; [split; [assumption|right; constructor; cbn; tauto]|]). constructor.
    - unfold bset. cbn [wsum]. apply vec3_ext; bun; nums; lra. }
  destruct (Rle_or_lt 0 (vz x)) as [Z|Z]; [apply (K (vz x) 0 (1 - vz x))|apply (K 0 (- vz x) (1 + vz x))]; lra.
Qed.
Lemma bright : right_hull (fun l => option_map (map corners) (bhull l)) bset1 [bP].
Proof.
  intros l fs _ _ D E. assert (I : incl bset l). { apply bhull_incl. intros K. rewrite K in E. discriminate. }
  rewrite (bhull_some l I) in E. cbn [option_map] in E. apply (f_equal (fun o => match o with Some z => z | None => [] end)) in E. cbv beta iota in E. subst fs.
  assert (S : forall p, List.In p l -> List.In p bset) by (intros p Hp; apply bdiff, D, Hp). split.
  - split; [discriminate|]. split.
    + intros a b c Q. unfold bfaces in Q. cbn [map] in Q. rewrite !corners_create in Q. cbn [List.In] in Q.
      assert (M : List.In a bset /\ List.In b bset /\ List.In c bset) by (destruct Q as [Q|[Q|[Q|[Q|[Q|[Q|[]]]]]]]; injection Q as <- <- <-; unfold bset; cbn [List.In]; tauto). destruct M as (Ma & Mb & Mc). repeat (split; [apply I; assumption|]). clear Ma Mb Mc.
      destruct Q as [Q|[Q|[Q|[Q|[Q|[Q|[]]]]]]]; injection Q as <- <- <-; [exists (V3 (1/2) (3/2) 1)|exists (V3 (1/2) (-3/2) 1)|exists (V3 (-1) 0 1)|exists (V3 (1/2) (3/2) (-1))|exists (V3 (1/2) (-3/2) (-1))|exists (V3 (-1) 0 (-1))];
        (split; [intros K; apply (f_equal vx) in K; unfold v3zero in K; cbn [vx] in K; lra|]; split; [bun; nums; lra|]; split; [bun; nums; lra|]; intros x Hx; apply S in Hx; cbn in Hx; destruct Hx as [<-|[<-|[<-|[<-|[<-|[]]]]]]; bun; nums; lra).
    + intros x y X. destruct (cross_some bhalf x y (bhull_half l x S X)) as [Y|(n & k & q & Q1 & Q2 & Q3 & Q4)]; [left; apply bhull_of; assumption|right].
      assert (K1 : k = 1) by (cbn in Q1; destruct Q1 as [K|[K|[K|[K|[K|[K|[]]]]]]]; injection K as _ <-; reflexivity). rewrite K1 in Q1, Q4. destruct (bface q n Q3 Q1 Q4) as (a & b & c & F & T). exists a, b, c, q. auto.
  - pose proof tol_small as TS. intros a b c Q. unfold bfaces in Q. cbn [map] in Q. rewrite !corners_create in Q. cbn [List.In] in Q.
    assert (NN : forall v, (1 <= vx v \/ vx v <= -1) \/ (1 <= vy v \/ vy v <= -1) -> ~ negligible v). { intros v H (N1 & N2 & N3). destruct H as [[H|H]|[H|H]]; [rewrite Rabs_right in N1 by lra|rewrite Rabs_left in N1 by lra|rewrite Rabs_right in N2 by lra|rewrite Rabs_left in N2 by lra]; lra. }
    destruct Q as [Q|[Q|[Q|[Q|[Q|[Q|[]]]]]]]; injection Q as <- <- <-; (split; [unfold well_shaped, spread_at; repeat split|]);
      first [apply NN; bun; nums; first [left; left; lra|left; right; lra|right; left; lra|right; right; lra]|bun; nums; lra].
Qed.
Lemma bgap : distinct_differences bset1 [bP].
Proof.
  pose proof tol_small as TS. assert (G : forall p q, p = q \/ (1 <= vx p - vx q \/ vx p - vx q <= -1) \/ (1 <= vy p - vy q \/ vy p - vy q <= -1) \/ (1 <= vz p - vz q \/ vz p - vz q <= -1) -> vgap p q).
  { intros p q [H|[[H|H]|[[H|H]|[H|H]]]]; [left; exact H|right; left|right; left|right; right; left|right; right; left|right; right; right|right; right; right]; first [rewrite Rabs_right by lra|rewrite Rabs_left by lra]; lra. }
  intros x y X Y. apply bdiff in X, Y. cbn in X, Y. apply G.
  destruct X as [<-|[<-|[<-|[<-|[<-|[]]]]]]; destruct Y as [<-|[<-|[<-|[<-|[<-|[]]]]]]; try (left; reflexivity); right; bun; cbn [vx vy vz];
    first [left; left; lra|left; right; lra|right; left; left; lra|right; left; right; lra|right; right; left; lra|right; right; right; lra].
Qed.
Definition bsl (w : vec3) (s : R) := SL true true w (Some (vadd w bP, bP)) s.
Lemma b_support v w : supportMap bset1 (vneg v) = Some (vadd w bP) -> gjkSupportMap bset1 [bP] v = Some (vadd w bP, bP, w).
Proof. intros E. unfold gjkSupportMap. zvg. rewrite E. cbn [supportMap fold_left fst]. zvg. replace (vsub (vadd w bP) bP) with w; [reflexivity|]. apply vec3_ext; vring. Qed.
Ltac bsupp := apply b_support; unfold bset1, supportMap; cbn [fold_left fst snd]; bun; rl; reflexivity.
Definition bsx := SX 2 [bsl bO (1/2); bsl bT (1/2); slotInit; slotInit].
Lemma b_run fuel : gjkLoop (3 + fuel) bset1 [bP] simplexInit bT None = Done bsx v3zero.
Proof.
  pose proof tol_small as TS. cbn [Nat.add].
  rewrite (loop_next (S (S fuel)) bset1 [bP] simplexInit bT None (vadd bO bP) bP bO (SX 1 [bsl bO 1; slotInit; slotInit; slotInit]) bO).
  2: { bsupp. }
  2: reflexivity. 2: left; reflexivity.
  2: { unfold simplexClosest. cbn. unfold minimizeSlot. cbn [sl_s]. tiny. reflexivity. }
  2: reflexivity.
  rewrite (loop_next (S fuel) bset1 [bP] _ bO _ (vadd bT bP) bP bT bsx v3zero).
  2: { bsupp. }
  2: { unfold checkDupSlot, zVec3DMatch. cbn. rq. reflexivity. }
  2: { right. eexists. split; [reflexivity|]. bun. nums. lra. }
  2: { unfold simplexClosest, addSlot; cbn [sx_slot map fillSlot sw_w sw_y sl_w sl_p sl_s bsl slotInit filter].
    rewrite (closest_cert [bO; bT] [1/2; 1/2]);
    [unfold bsx; cbn [putWeights map sw_y bsl slotInit sw_w sl_w sl_p]; unfold minimizeSlot; cbn [sl_s sw_y sl_w sl_p]; tiny; cbn [sw_y sl_w sl_p sl_s sw_w filter length]; f_equal; f_equal; cbn [wsum]; bun; veq
    |cert|apply indep_pair; bun; nums; lra| |cert|cert|cert|cbn [wsum List.In]; intros y Hy; repeat (destruct Hy as [<-|Hy]; [|]); try destruct Hy; bun; nums; lra].
    intros a b c A B C. left. cbn in A, B, C. destruct A as [<-|[<-|[]]]; destruct B as [<-|[<-|[]]]; destruct C as [<-|[<-|[]]]; bun; veq. }
  2: reflexivity.
  apply (loop_dup fuel bset1 [bP] _ v3zero _ (vadd bT bP) bP bT).
  - bsupp.
  - unfold checkDupSlot, zVec3DMatch, bsx. cbn. rq. reflexivity.
Qed.
Lemma b_check old : gjkCheck old bsx = true.
Proof.
  pose proof tol_small as TS. unfold gjkCheck, bsx. cbn [sx_n sx_slot nth sl_w bsl].
  destruct (edge_proj (E3 bO bT) v3zero old) as [_ K]; [cbn [ev0 ev1]; bun; nums; intros (_ & _ & X); cbn [vz] in X; rewrite Rabs_right in X by lra; lra|]. apply K; [lra|].
  right. exists v3zero. cbn [ev0 ev1]. split; [exists (1/2); bun; veq|]. unfold dist. replace (vsub v3zero v3zero) with (vscale 0 v3zero) by veq. rewrite norm_scale, Rabs_R0. lra.
Qed.
Lemma b_far w : 1 <= vx w * vx w + vy w * vy w -> exists d cp, zEdge3DClosest (E3 bO bT) w = Some (d, cp) /\ zIsTiny d = false.
Proof.
  pose proof tol_small as TS. intros H. destruct (edge3_closest (E3 bO bT) w) as (d & cp & E & (S & _) & D); [cbn [ev0 ev1]; bun; intros K; apply (f_equal vz) in K; cbn [vz] in K; lra|]. exists d, cp. split; [exact E|].
  destruct S as (s0 & s1 & _ & C). cbn [ev0 ev1] in C. assert (1 <= d). { rewrite D. unfold dist. apply Rsqr_incr_0_var; [|apply norm_nonneg]. unfold Rsqr. rewrite norm_sqr. rewrite C. destruct w as [a b c]. cbn [vx vy] in H. pose proof (Rle_0_sqr (c - (s1 - s0))) as Q. unfold Rsqr in Q. replace (dot (vsub (V3 a b c) (comb2 s0 s1 bO bT)) (vsub (V3 a b c) (comb2 s0 s1 bO bT))) with (a * a + b * b + (c - (s1 - s0)) * (c - (s1 - s0))) by (unfold bO, bT, dot, vsub, comb2, vadd, vscale; cbn [vx vy vz]; ring). lra. }
  unfold zIsTiny, zIsTol. destruct (Rltb_reflect (Rabs d) zTOL) as [X|]; [exfalso; rewrite Rabs_right in X by lra; lra|reflexivity].
Qed.
Definition bp (w : vec3) : pslot := (w, Some (vadd w bP, bP)).
Lemma b_add v w sl : gjkSupportMap bset1 [bP] v = Some (vadd w bP, bP, w) -> 1 <= vx w * vx w + vy w * vy w -> gjkPDAddPoint bset1 [bP] (zEdge3DClosest (E3 bO bT)) v sl = Some (Some (sl ++ [bp w])).
Proof. intros S H. unfold gjkPDAddPoint. rewrite S. destruct (b_far w H) as (d & cp & -> & ->). reflexivity. Qed.
Definition bsl6 := [bp bO; bp bT; bp bA; bp bA; bp bB; bp bC].
Lemma b_plane a b c : dot (tri_normal a b c) a >= 1 -> norm (tri_normal a b c) <= 10 -> ~ negligible (tri_normal a b c) -> Rleb (- zTOL) (zTri3DDistFromPointToPlane (snd (zTri3DCreate a b c)) v3zero) = false.
Proof.
  pose proof tol_small as TS. intros A N G. destruct (Rleb_reflect (- zTOL) (zTri3DDistFromPointToPlane (snd (zTri3DCreate a b c)) v3zero)) as [K|]; [exfalso|reflexivity]. revert K.
  unfold zTri3DCreate, triOuterProd. change (zVec3DOuterProd (zVec3DSub b a) (zVec3DSub c b)) with (cross (vsub b a) (vsub c b)). rewrite FactsTri2.tri_normal_alt, (proj2 (zVec3DIsTiny_false _) G). cbn [snd]. unfold zTri3DDistFromPointToPlane. cbn [tv0 tv1 tv2 tnorm]. rewrite (normalizeDRC_ok _ G). zvg.
  set (n := tri_normal a b c) in *. intros K. assert (NP : 0 < norm n). { pose proof (norm_nonneg n) as P. destruct (Req_dec (norm n) 0) as [Z|Z]; [|lra]. exfalso. assert (D : dot n n = 0) by (rewrite <- norm_sqr, Z; ring). apply dot_self_zero in D. rewrite D in A. unfold dot, v3zero in A. cbn [vx vy vz] in A. lra. }
  assert (PB : dot n b = dot n a) by (unfold n, tri_normal, dot, cross, vsub; cbn [vx vy vz]; ring). assert (PC : dot n c = dot n a) by (unfold n, tri_normal, dot, cross, vsub; cbn [vx vy vz]; ring).
  assert (R : forall k p, dot (vsub v3zero p) (vscale k n) = - k * dot n p) by (intros; vring). rewrite !R, PB, PC in K.
  assert (1 / 10 <= 1 / norm n). { unfold Rdiv. rewrite !Rmult_1_l. apply Rinv_le_contravar; lra. }
  assert ((- (1 / norm n) * dot n a + - (1 / norm n) * dot n a + - (1 / norm n) * dot n a) / 3 = - (1 / norm n) * dot n a) by (field; lra). nra.
Qed.
Lemma b_use a b c : List.In (a, b, c) (map corners bfaces) -> well_shaped a b c /\ ~ negligible (tri_normal a b c).
Proof.
  intros I. assert (K : right_hull (fun l => option_map (map corners) (bhull l)) bset1 [bP]) by exact bright. destruct (K bset (map corners bfaces)) as [_ X].
  - repeat constructor; cbn; intros X; decompose [or] X; try contradiction; match goal with H : _ = _ |- _ => bun; injection H; intros; lra end.
  - cbn. lia.
  - intros x. apply bdiff.
  - rewrite bhull_some by apply incl_refl. reflexivity.
  - apply X. exact I.
Qed.
Lemma b_init : gjkPDInit bhull bset1 [bP] bsx = Some (Some bsl6).
Proof.
  pose proof tol_small as TS. unfold gjkPDInit, bsx. cbn [sx_n sx_slot nth sl_w sl_p bsl firstn fold_left gjkSlotListInsert app].
  assert (V : exists k, 0 < k /\ zVec3DOrthoSpace (zEdge3DVec (E3 bO bT)) = Some (V3 (- k) k 0, V3 (- 2 * k) (- 2 * k) 0)).
  { replace (zEdge3DVec (E3 bO bT)) with (V3 0 0 2) by (unfold zEdge3DVec; cbn [ev0 ev1]; zvg; bun; veq). unfold zVec3DOrthoSpace, zVec3DOrthonormal. cbn [vx vy vz].
    replace (zIsTiny 0) with true by (symmetry; unfold zIsTiny, zIsTol; destruct (Rltb_reflect (Rabs 0) zTOL) as [|X]; [reflexivity|exfalso; apply X; rewrite Rabs_R0; lra]). cbn [negb orb].
    set (o := V3 (0 - 2) (2 - 0) (0 - 0)). assert (N : ~ negligible o) by (unfold o; intros (X & _); cbn [vx] in X; rewrite Rabs_left in X by lra; lra). rewrite (proj2 (zVec3DIsTiny_false _) N).
    assert (NP : 0 < norm o). { pose proof (norm_nonneg o). pose proof (norm_sqr o) as Q. assert (D : dot o o = 8) by (unfold o; nums; lra). rewrite D in Q. nra. }
    rewrite (normalizeDRC_ok _ N). exists (2 / norm o). split; [apply Rdiv_lt_0_compat; lra|]. zvg. f_equal. f_equal; unfold o at 2; apply vec3_ext; unfold vscale, cross; cbn [vx vy vz]; field; lra. }
  destruct V as (k & KP & ->).
  rewrite (b_add (V3 (- k) k 0) bA) by (first [bsupp|bun; cbn [vx vy]; lra]). cbn [andThen app].
  rewrite (b_add (V3 (- 2 * k) (- 2 * k) 0) bA) by (first [bsupp|bun; cbn [vx vy]; lra]). cbn [andThen app].
  rewrite (b_add (zVec3DRev (V3 (- k) k 0)) bB) by (first [bsupp|bun; cbn [vx vy]; lra]). cbn [andThen app].
  rewrite (b_add (zVec3DRev (V3 (- 2 * k) (- 2 * k) 0)) bC) by (first [bsupp|bun; cbn [vx vy]; lra]). cbn [andThen app map fst bp].
  rewrite bhull_some by (intros p Hp; cbn in Hp |- *; tauto).
  match goal with |- (if ?c then _ else _) = _ => replace c with true; [reflexivity|] end. symmetry. apply forallb_forall. intros t Ht. apply negb_true_iff.
  assert (NB : forall n, dot n n <= 100 -> norm n <= 10). { intros n H. apply Rsqr_incr_0_var; [|lra]. unfold Rsqr. rewrite norm_sqr. lra. }
  unfold bfaces in Ht. cbn [List.In] in Ht. destruct Ht as [<-|[<-|[<-|[<-|[<-|[<-|[]]]]]]]; (apply b_plane; [bun; nums; lra|apply NB; bun; nums; lra|eapply proj2; apply b_use; unfold bfaces; cbn [map]; rewrite !corners_create; cbn; tauto]).
Qed.
Lemma tvs a b c : tv0 (snd (zTri3DCreate a b c)) = a /\ tv1 (snd (zTri3DCreate a b c)) = b /\ tv2 (snd (zTri3DCreate a b c)) = c.
Proof. unfold zTri3DCreate. destruct (zVec3DIsTiny _); auto. Qed.
Lemma foot_create a b c q s0 s1 s2 : ~ negligible (tri_normal a b c) -> weights3 s0 s1 s2 -> q = comb3 s0 s1 s2 a b c -> dot q q <= dot q a -> dot q q <= dot q b -> dot q q <= dot q c -> zTri3DClosest (snd (zTri3DCreate a b c)) v3zero = Some (norm q, q).
Proof.
  intros N W E A B C. destruct (tvs a b c) as (T0 & T1 & T2). apply foot; rewrite ?T0, ?T1, ?T2; auto; [unfold usable; rewrite T0, T1, T2; exact N|]. unfold in_tri. rewrite T0, T1, T2. exists s0, s1, s2. auto.
Qed.
Definition bQ := V3 (1/7) (3/7) (2/7).
Ltac bfoot a b c q s0 s1 s2 := rewrite (foot_create a b c q s0 s1 s2); [|eapply proj2; apply b_use; unfold bfaces; cbn [map]; rewrite !corners_create; cbn; tauto|repeat split; lra|try unfold bQ; bun; apply vec3_ext; unfold comb3, comb2; nums; lra|try unfold bQ; bun; nums; lra|try unfold bQ; bun; nums; lra|try unfold bQ; bun; nums; lra].
Ltac bless := match goal with |- context [Rltb (norm ?a) (norm ?b)] => replace (Rltb (norm a) (norm b)) with false by (symmetry; destruct (Rltb_reflect (norm a) (norm b)) as [X|]; [exfalso; pose proof (norm_mono b a) as Y; assert (Z : dot b b <= dot a a) by (unfold bQ; nums; lra); specialize (Y Z); lra|reflexivity]) end.
Lemma b_near : gjkPH3DClosest bfaces = Some (norm bQ, bQ, snd (zTri3DCreate bA bB bT)).
Proof.
  unfold bfaces, gjkPH3DClosest. unfold pdNear. cbn [fst snd].
  bfoot bA bB bT bQ (2/7) (3/7) (2/7). bfoot bC bA bT (V3 (1/7) (-3/7) (2/7)) (3/7) (2/7) (2/7). cbn [fst snd]. bless. cbn [fst snd].
  bfoot bB bC bT (V3 (-1/2) 0 (1/2)) (1/4) (1/4) (1/2). bless. cbn [fst snd]. bfoot bB bA bO (V3 (1/7) (3/7) (-2/7)) (3/7) (2/7) (2/7). bless. cbn [fst snd].
  bfoot bA bC bO (V3 (1/7) (-3/7) (-2/7)) (2/7) (3/7) (2/7). bless. cbn [fst snd]. bfoot bC bB bO (V3 (-1/2) 0 (-1/2)) (1/4) (1/4) (1/2). bless. reflexivity.
Qed.
Lemma b_neq a b : 1/10 <= vx a - vx b \/ 1/10 <= vx b - vx a \/ 1/10 <= vy a - vy b \/ 1/10 <= vy b - vy a \/ 1/10 <= vz a - vz b \/ 1/10 <= vz b - vz a -> zVec3DEqual a b = false.
Proof.
  pose proof tol_small as TS. intros H. unfold zVec3DEqual, zIsTiny, zIsTol. rewrite !andb_false_iff.
  assert (K : forall x, 1/10 <= x \/ 1/10 <= - x -> Rltb (Rabs x) zTOL = false). { intros x X. destruct (Rltb_reflect (Rabs x) zTOL) as [Y|]; [exfalso|reflexivity]. destruct X; [rewrite Rabs_right in Y by lra|rewrite Rabs_left in Y by lra]; lra. }
  destruct H as [H|[H|[H|[H|[H|H]]]]]; [left; left|left; left|left; right|left; right|right|right]; apply K; lra.
Qed.
Lemma b_loop fuel : gjkPDLoop bhull bset1 [bP] (S fuel) bsl6 v3zero = PDone bsl6 (snd (zTri3DCreate bA bB bT)) (vneg bQ).
Proof.
  cbn [gjkPDLoop]. unfold bsl6 at 1. cbn [map fst bp]. rewrite bhull_some by (intros p Hp; cbn in Hp |- *; tauto). rewrite b_near.
  rewrite b_neq by (unfold bQ; cbn; lra). zvg. assert (SP : gjkSupportMap bset1 [bP] (vneg bQ) = Some (vadd bT bP, bP, bT)) by (unfold bQ; bsupp). rewrite SP.
  match goal with |- context [existsb ?g bsl6] => replace (existsb g bsl6) with true; [reflexivity|] end. symmetry. apply existsb_exists. exists (bp bT). split; [unfold bsl6; cbn; tauto|]. apply eq_self.
Qed.
Lemma b_pair : gjkPDPair bsl6 (snd (zTri3DCreate bA bB bT)) (vneg bQ) = Some (V3 (50/7) 0 (2/7), V3 6 0 0).
Proof.
  unfold gjkPDPair. destruct (tvs bA bB bT) as (T0 & T1 & T2).
  rewrite (lin_inside _ (vneg bQ) (2/7) (3/7) (2/7)); [| |split; [lra|]|lra|lra|lra].
  - rewrite T0, T1, T2. unfold bsl6. cbn [pdSum pdCorners bp fst snd].
    rewrite (b_neq bA bO), (b_neq bB bO), (b_neq bT bO), (b_neq bA bT), (b_neq bB bT), (eq_self bT), (eq_self bA), (b_neq bB bA), (b_neq bT bA) by (bun; cbn [vx vy vz]; lra). cbn [snd Nat.eqb fst]. zvg. f_equal. f_equal; bun; veq.
  - rewrite T0, T1, T2. apply b_use. unfold bfaces. cbn [map]. rewrite !corners_create. cbn. tauto.
  - rewrite T0, T1, T2. exists (vscale (-2) bQ). unfold bQ. repeat split; [bun; nums; lra|bun; nums; lra|]. bun. apply vec3_ext; unfold comb3, comb2; nums; lra.
Qed.
(** the points returned have a distance of more than twice the depth, and the second one is not that of the second set *)
Lemma depth_twice : forall old, exists hull l1 p c1 c2, right_hull (fun l => option_map (map corners) (hull l)) l1 [p] /\ distinct_differences l1 [p] /\ zGJKDepth hull l1 [p] 6 old = Some (c1, c2, true) /\ 1 <= dist c2 p /\
  ~ depth_vector (1/2) l1 [p] (vsub c1 c2).
Proof.
  intros old. exists bhull, bset1, bP, (V3 (50/7) 0 (2/7)), (V3 6 0 0). split; [exact bright|]. split; [exact bgap|]. split; [|split].
  - unfold zGJKDepth, bset1 at 1. zvg. replace (vsub (vadd bT bP) bP) with bT by (bun; veq). pose proof (b_run 3) as RN. cbn [Nat.add] in RN. rewrite RN. unfold bsx at 1. cbn [sx_slot gjkPair sw_w sl_p sl_s bsl slotInit]. rewrite b_check.
    unfold gjkPD. rewrite b_init, (b_loop 5), b_pair. reflexivity.
  - unfold dist. apply Rsqr_incr_0_var; [|apply norm_nonneg]. unfold Rsqr. rewrite norm_sqr. bun. nums. lra.
  - intros (K & _). specialize (K (vadd bA bP) bP). assert (X : dot (vsub (V3 (50/7) 0 (2/7)) (V3 6 0 0)) (vsub (vadd bA bP) (vadd bP (vsub (V3 (50/7) 0 (2/7)) (V3 6 0 0)))) <= 1/2) by (apply K; [apply hull_point; unfold bset1; cbn; tauto|apply hull_point; left; reflexivity]). clear K. bun. nums. lra.
Qed.
