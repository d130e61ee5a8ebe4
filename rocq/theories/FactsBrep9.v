(** Cutting, in terms of the points of the surface. *)
From Verif Require Import Base Spec SpecBrep ModelBrep FactsAlg FactsVec FactsBrep FactsBrep2 FactsBrep3 FactsBrep4 FactsBrep5 FactsBrep6 FactsBrep7 FactsBrep8 FactsLine FactsObb FactsCol3.
From Coq Require Import List Lia Lra Psatz.
Import ListNotations.
Open Scope R_scope.

Lemma vert_at_posn b v p : vert_at b v p -> posn b v = p.
Proof. intros (c & H & <-). unfold posn. rewrite H. reflexivity. Qed.
Lemma posn_vert_at b v : good_brep b -> List.In v (vlist b) -> vert_at b v (posn b v).
Proof. intros G I. destruct (gb_v _ G v I) as (_ & c & H). exists c. split; [assumption|]. unfold posn. rewrite H. reflexivity. Qed.
Lemma face_at_tri b f t : face_at b f t -> t = tri_of b f.
Proof. intros F. apply trip_ext. intros i Hi. rewrite get3_tri. symmetry. apply vert_at_posn. apply F. assumption. Qed.
Lemma tri_face_at b f : good_brep b -> List.In f (flist b) -> face_at b f (tri_of b f).
Proof. intros G I i Hi. rewrite get3_tri. apply posn_vert_at; [assumption|]. apply good_face_v; assumption. Qed.
Lemma on_brep_tri b p : good_brep b -> (on_brep b p <-> exists f, List.In f (flist b) /\ in_tri (tri_of b f) p).
Proof.
  intros G. split.
  - intros (f & t & I & F & H). apply face_at_tri in F. subst t. eauto.
  - intros (f & I & H). exists f, (tri_of b f). split; [assumption|]. split; [apply tri_face_at; assumption|assumption].
Qed.
Lemma kept_in t d p : kept t d p -> in_tri t p.
Proof. destruct t as [[x y] z]. destruct d as [[d0 d1] d2]. intros (s0 & s1 & s2 & W & E & _). exists s0, s1, s2. auto. Qed.
(** heights within the faces *)
Lemma kept_ht pl b f p : kept (tri_of b f) (snaps pl b f) p -> ht pl p < zTOL.
Proof.
  destruct f as [[[x y] z] [[p' q'] r'] n]. cbn. intros (s0 & s1 & s2 & (A & B & C & D) & -> & H). rewrite ht_comb by assumption.
  pose proof (Rabs_def2 _ _ (snap_near pl (posn b x))). pose proof (Rabs_def2 _ _ (snap_near pl (posn b y))). pose proof (Rabs_def2 _ _ (snap_near pl (posn b z))).
  assert (s0 * (ht pl (posn b x) - snap pl (posn b x)) <= s0 * zTOL) by nra. assert (s1 * (ht pl (posn b y) - snap pl (posn b y)) <= s1 * zTOL) by nra.
  assert (s2 * (ht pl (posn b z) - snap pl (posn b z)) <= s2 * zTOL) by nra.
  assert (0 < s0 \/ 0 < s1 \/ 0 < s2) as [P|[P|P]] by lra.
  - assert (s0 * (ht pl (posn b x) - snap pl (posn b x)) < s0 * zTOL) by nra. nra.
  - assert (s1 * (ht pl (posn b y) - snap pl (posn b y)) < s1 * zTOL) by nra. nra.
  - assert (s2 * (ht pl (posn b z) - snap pl (posn b z)) < s2 * zTOL) by nra. nra.
Qed.
Lemma ht_kept pl b f p : in_tri (tri_of b f) p -> ht pl p <= - zTOL ->
  kept (tri_of b f) (snaps pl b f) p /\ exists i, (i < 3)%nat /\ get3 (snaps pl b f) i < 0.
Proof.
  destruct f as [[[x y] z] [[p' q'] r'] n]. cbn -[get3]. intros (s0 & s1 & s2 & (A & B & C & D) & ->) H. rewrite ht_comb in H by assumption.
  pose proof (Rabs_def2 _ _ (snap_near pl (posn b x))). pose proof (Rabs_def2 _ _ (snap_near pl (posn b y))). pose proof (Rabs_def2 _ _ (snap_near pl (posn b z))).
  assert (- (s0 * zTOL) <= s0 * (ht pl (posn b x) - snap pl (posn b x))) by nra. assert (- (s1 * zTOL) <= s1 * (ht pl (posn b y) - snap pl (posn b y))) by nra.
  assert (- (s2 * zTOL) <= s2 * (ht pl (posn b z) - snap pl (posn b z))) by nra.
  assert (K : s0 * snap pl (posn b x) + s1 * snap pl (posn b y) + s2 * snap pl (posn b z) < 0).
  { assert (0 < s0 \/ 0 < s1 \/ 0 < s2) as [P|[P|P]] by lra.
    - assert (- (s0 * zTOL) < s0 * (ht pl (posn b x) - snap pl (posn b x))) by nra. nra.
    - assert (- (s1 * zTOL) < s1 * (ht pl (posn b y) - snap pl (posn b y))) by nra. nra.
    - assert (- (s2 * zTOL) < s2 * (ht pl (posn b z) - snap pl (posn b z))) by nra. nra. }
  split; [exists s0, s1, s2; repeat split; try assumption; lra|].
  destruct (Rlt_dec (snap pl (posn b x)) 0); [exists 0%nat; cbn; auto|]. destruct (Rlt_dec (snap pl (posn b y)) 0); [exists 1%nat; cbn; auto|].
  destruct (Rlt_dec (snap pl (posn b z)) 0); [exists 2%nat; cbn; auto|]. exfalso. nra.
Qed.
Lemma clear_snap b pl v : good_brep b -> clear_of b (porg pl) (pnorm pl) zTOL -> List.In v (vlist b) -> snap pl (posn b v) = ht pl (posn b v).
Proof.
  intros G C I. destruct (snap_cases pl (posn b v)) as [[S H]|[S _]]; [|assumption]. rewrite S.
  destruct (C v _ I (posn_vert_at _ _ G I)) as [E|E]; fold (ht pl (posn b v)) in E; lra.
Qed.
Lemma kept_clear pl b f p : good_brep b -> clear_of b (porg pl) (pnorm pl) zTOL -> List.In f (flist b) -> (kept (tri_of b f) (snaps pl b f) p <-> in_tri (tri_of b f) p /\ ht pl p <= 0).
Proof.
  intros G C I. pose proof (good_face_v b f 0 G I ltac:(lia)) as I0. pose proof (good_face_v b f 1 G I ltac:(lia)) as I1. pose proof (good_face_v b f 2 G I ltac:(lia)) as I2.
  destruct f as [[[x y] z] [[p' q'] r'] n]. cbn in *. rewrite !clear_snap by assumption. split.
  - intros (s0 & s1 & s2 & (A & B & D & E) & -> & H). split; [exists s0, s1, s2; repeat split; assumption|]. rewrite ht_comb by assumption. assumption.
  - intros ((s0 & s1 & s2 & (A & B & D & E) & ->) & H). exists s0, s1, s2. split; [repeat split; assumption|]. split; [reflexivity|]. rewrite ht_comb in H by assumption. assumption.
Qed.

Theorem brep_trunc_good b pl : good_brep b -> exists b', zBREPTrunc b pl = Some b' /\ good_brep b' /\ (no_garbage b -> no_garbage b').
Proof. intros G. destruct (brep_trunc b pl G) as (b' & E & T). exists b'. split; [assumption|]. split; [apply (tr_good _ _ _ T)|apply (tr_ng _ _ _ T)]. Qed.
Lemma trunc_res b pl b' : good_brep b -> zBREPTrunc b pl = Some b' -> truncres b pl b'.
Proof. intros G E. destruct (brep_trunc b pl G) as (b2 & E2 & T). rewrite E in E2. injection E2 as <-. assumption. Qed.
Theorem brep_trunc_pieces b pl b' : good_brep b -> zBREPTrunc b pl = Some b' ->
  forall g s, List.In g (flist b') -> face_at b' g s -> exists f t, List.In f (flist b) /\ face_at b f t /\ piece_of t s.
Proof.
  intros G E g s I F. pose proof (trunc_res _ _ _ G E) as T. apply face_at_tri in F. subst s. destruct (tr_from _ _ _ T g I) as (f & If & A & K).
  exists f, (tri_of b f). split; [assumption|]. split; [apply tri_face_at; assumption|]. split; [|assumption]. intros p Hp. apply (kept_in _ (snaps pl b f)). apply K. assumption.
Qed.
Theorem brep_trunc_sound b pl b' p : good_brep b -> zBREPTrunc b pl = Some b' -> on_brep b' p -> on_brep b p /\ height_over (porg pl) (pnorm pl) p < zTOL.
Proof.
  intros G E O. pose proof (trunc_res _ _ _ G E) as T. apply on_brep_tri in O; [|apply (tr_good _ _ _ T)]. destruct O as (g & I & H).
  destruct (tr_from _ _ _ T g I) as (f & If & _ & K). apply K in H. split; [apply on_brep_tri; [assumption|]; exists f; split; [assumption|]; eapply kept_in; eassumption|].
  apply (kept_ht pl b f). assumption.
Qed.
Theorem brep_trunc_complete b pl b' p : good_brep b -> zBREPTrunc b pl = Some b' -> on_brep b p -> height_over (porg pl) (pnorm pl) p <= - zTOL -> on_brep b' p.
Proof.
  intros G E O H. pose proof (trunc_res _ _ _ G E) as T. apply on_brep_tri; [apply (tr_good _ _ _ T)|]. apply on_brep_tri in O; [|assumption]. destruct O as (f & I & Hf).
  destruct (ht_kept pl b f p Hf H) as [K N]. apply (tr_sup _ _ _ T f p I K). left. assumption.
Qed.
Theorem brep_trunc_exact b pl b' p : good_brep b -> clear_of b (porg pl) (pnorm pl) zTOL -> zBREPTrunc b pl = Some b' ->
  (on_brep b' p -> height_over (porg pl) (pnorm pl) p <= 0) /\
  (on_brep b p -> height_over (porg pl) (pnorm pl) p < 0 -> on_brep b' p) /\
  (forall f t q, List.In f (flist b) -> face_at b f t -> in_tri t p -> in_tri t q -> height_over (porg pl) (pnorm pl) p <= 0 -> height_over (porg pl) (pnorm pl) q < 0 -> on_brep b' p).
Proof.
  intros G C E. pose proof (trunc_res _ _ _ G E) as T.
  assert (K3 : forall f t q, List.In f (flist b) -> face_at b f t -> in_tri t p -> in_tri t q -> height_over (porg pl) (pnorm pl) p <= 0 -> height_over (porg pl) (pnorm pl) q < 0 -> on_brep b' p).
  { intros f t q I F Hp Hq HP HQ. apply face_at_tri in F. subst t. apply on_brep_tri; [apply (tr_good _ _ _ T)|]. apply (tr_sup _ _ _ T f p I).
    - apply kept_clear; auto.
    - left. assert (Kq : kept (tri_of b f) (snaps pl b f) q) by (apply kept_clear; try assumption; split; [assumption|]; unfold ht; lra).
      assert (N : forall i, (i < 3)%nat -> get3 (snaps pl b f) i = ht pl (posn b (get3 (bf_v f) i))) by (intros i Hi; rewrite get3_snaps; apply clear_snap; try assumption; apply good_face_v; assumption).
      clear Kq. destruct f as [[[x y] z] [[p' q'] r'] n]. cbn -[get3] in *. destruct Hq as (s0 & s1 & s2 & (A & B & D & Z) & ->).
      fold (ht pl (comb3 s0 s1 s2 (posn b x) (posn b y) (posn b z))) in HQ. rewrite ht_comb in HQ by assumption.
      pose proof (N 0%nat ltac:(lia)) as N0. pose proof (N 1%nat ltac:(lia)) as N1. pose proof (N 2%nat ltac:(lia)) as N2. cbn in N0, N1, N2.
      destruct (Rlt_dec (snap pl (posn b x)) 0); [exists 0%nat; cbn; auto|]. destruct (Rlt_dec (snap pl (posn b y)) 0); [exists 1%nat; cbn; auto|].
      destruct (Rlt_dec (snap pl (posn b z)) 0); [exists 2%nat; cbn; auto|]. exfalso. nra. }
  split; [|split; [|exact K3]].
  - intros O. apply on_brep_tri in O; [|apply (tr_good _ _ _ T)]. destruct O as (g & I & H). destruct (tr_from _ _ _ T g I) as (f & If & _ & K). apply K in H. apply kept_clear in H; auto. apply H.
  - intros (f & t & I & F & H) HP. apply (K3 f t p); auto. lra.
Qed.
Theorem brep_trunc_tight b pl b' e : good_brep b -> watertight b -> zBREPTrunc b pl = Some b' -> List.In e (elist b') -> balanced b' e \/ edge_on b' e (porg pl) (pnorm pl) zTOL.
Proof.
  intros G W E I. pose proof (trunc_res _ _ _ G E) as T. destruct (tr_tight _ _ _ T e I) as [H|[H|(A & B & _)]]; [auto|auto|]. exfalso. apply B. apply W. assumption.
Qed.

(** ** all planes of a polyhedron *)
Lemma piece_refl t : piece_of t t.
Proof. split; [auto|]. exists 1. split; [lra|]. vxy; ring. Qed.
Lemma piece_trans r s t : piece_of r s -> piece_of s t -> piece_of r t.
Proof.
  intros (A & k & K & E) (B & m & M & F). split; [auto|]. exists (m * k). split; [nra|]. rewrite F, E. vxy; ring.
Qed.

Lemma seg_ht o n tol p q x : segment p q x -> Rabs (height_over o n p) < tol -> Rabs (height_over o n q) < tol -> Rabs (height_over o n x) < tol.
Proof.
  intros (s & t & (A & B & C) & ->) P Q. apply Rabs_def2 in P. apply Rabs_def2 in Q.
  replace (height_over o n (comb2 s t p q)) with (s * height_over o n p + t * height_over o n q) by (replace s with (1 - t) by lra; unfold height_over, comb2, dot; cbn; ring).
  set (u := height_over o n p) in *. set (v := height_over o n q) in *. assert (s = 1 - t) by lra. subst s.
  apply Rabs_def1.
  - assert ((1 - t) * u <= (1 - t) * Rmax u v) by (apply Rmult_le_compat_l; [lra|apply Rmax_l]). assert (t * v <= t * Rmax u v) by (apply Rmult_le_compat_l; [lra|apply Rmax_r]).
    assert (Rmax u v < tol) by (apply Rmax_lub_lt; lra). lra.
  - assert ((1 - t) * Rmin u v <= (1 - t) * u) by (apply Rmult_le_compat_l; [lra|apply Rmin_l]). assert (t * Rmin u v <= t * v) by (apply Rmult_le_compat_l; [lra|apply Rmin_r]).
    assert (- tol < Rmin u v) by (apply Rmin_glb_lt; lra). lra.
Qed.
Lemma seg_seg p q x y z : segment p q x -> segment p q y -> segment x y z -> segment p q z.
Proof.
  intros (s & t & (A & B & C) & ->) (s' & t' & (A' & B' & C') & ->) (u & v & (U & V & W) & ->).
  exists (u * s + v * s'), (u * t + v * t'). split; [unfold weights2; split; [nra|split; [nra|]]|unfold comb2; vxy; ring].
  replace (u * s + v * s' + (u * t + v * t')) with (u * (s + t) + v * (s' + t')) by ring. rewrite C, C'. lra.
Qed.
Lemma vert_at_fun b v p q : vert_at b v p -> vert_at b v q -> p = q.
Proof. intros H K. apply vert_at_posn in H. apply vert_at_posn in K. congruence. Qed.
Lemma edge_on_in b b' e o n tol : edge_on b e o n tol -> edge_in b b' e -> edge_on b' e o n tol.
Proof.
  intros (c & p & q & Hc & P & Q & HP & HQ) (c0 & c' & p0 & q0 & p' & q' & Hc0 & Hc' & P0 & Q0 & P' & Q' & S1 & S2).
  rewrite Hc in Hc0. injection Hc0 as <-. rewrite (vert_at_fun _ _ _ _ P0 P) in *. rewrite (vert_at_fun _ _ _ _ Q0 Q) in *.
  exists c', p', q'. split; [assumption|]. split; [assumption|]. split; [assumption|]. split; [apply (seg_ht o n tol p q)|apply (seg_ht o n tol p q)]; assumption.
Qed.
Lemma edge_in_trans b b2 b' e : edge_in b b2 e -> edge_in b2 b' e -> edge_in b b' e.
Proof.
  intros (c & c2 & p & q & p2 & q2 & Hc & Hc2 & P & Q & P2 & Q2 & S1 & S2) (c0 & c' & p0 & q0 & p' & q' & Hc0 & Hc' & P0 & Q0 & P' & Q' & S3 & S4).
  rewrite Hc2 in Hc0. injection Hc0 as <-. rewrite (vert_at_fun _ _ _ _ P0 P2) in *. rewrite (vert_at_fun _ _ _ _ Q0 Q2) in *.
  exists c, c', p, q, p', q'. do 6 (split; [assumption|]). split; [apply (seg_seg p q p2 q2)|apply (seg_seg p q p2 q2)]; assumption.
Qed.
Lemma unit_plane t : norm (tnorm t) = 1 -> zTri3DToPlane3D t = Some (P3 (tv0 t) (tnorm t)).
Proof.
  intros Nn. unfold zTri3DToPlane3D. destruct (plane_create (tv0 t) (tnorm t)) as (pl & P1 & P2 & P3 & P4).
  { apply zVec3DIsTiny_false, unit_not_tiny. rewrite <- norm_sqr, Nn. ring. }
  rewrite P1. rewrite Nn, vscale_one in P4. destruct pl as [po pn]. cbn in *. subst. reflexivity.
Qed.
Record cutall (b : brep) (ts : list tri3) (b' : brep) : Prop := CA {
  ca_good : good_brep b'; ca_ng : no_garbage b -> no_garbage b';
  ca_piece : forall g s, List.In g (flist b') -> face_at b' g s -> exists f t, List.In f (flist b) /\ face_at b f t /\ piece_of t s;
  ca_sub : forall p, on_brep b' p -> on_brep b p /\ forall t, List.In t ts -> height_over (tv0 t) (tnorm t) p < zTOL;
  ca_sup : forall p, on_brep b p -> (forall t, List.In t ts -> height_over (tv0 t) (tnorm t) p <= - zTOL) -> on_brep b' p;
  ca_tight : forall e, List.In e (elist b') -> balanced b' e \/ (exists t, List.In t ts /\ edge_on b' e (tv0 t) (tnorm t) zTOL) \/ (List.In e (elist b) /\ ~ balanced b e /\ edge_in b b' e) }.
Lemma trunc_tris ts : forall b last, good_brep b -> (forall t, List.In t ts -> norm (tnorm t) = 1) -> exists b', truncTris b ts last = Some b' /\ cutall b ts b'.
Proof.
  induction ts as [|t ts IH]; intros b last G U.
  - exists b. split; [reflexivity|]. constructor.
    + exact G.
    + auto.
    + intros g s I F. exists g, s. split; [assumption|]. split; [assumption|]. apply piece_refl.
    + intros p O. split; [assumption|]. intros t [].
    + auto.
    + intros e He. destruct (Req_dec (rsum (fun f => face_run b f e) (flist b)) 0) as [W|W]; [left; exact W|]. right. right. split; [assumption|]. split; [exact W|].
      destruct (gb_e _ G e He) as (_ & c & Hc & Ia & Ib & _). exists c, c, (posn b (ec_a c)), (posn b (ec_b c)), (posn b (ec_a c)), (posn b (ec_b c)).
      do 2 (split; [assumption|]). do 4 (split; [apply posn_vert_at; assumption|]). split; [apply seg_first|apply seg_last].
  - cbn [truncTris]. rewrite (unit_plane t) by (apply U; now left). cbv zeta. set (pl := P3 (tv0 t) (tnorm t)).
    destruct (brep_trunc b pl G) as (b2 & E2 & T). rewrite E2. pose proof (tr_good _ _ _ T) as G2.
    destruct (IH b2 (Some pl)) as (b' & E' & C); [assumption|intros u Hu; apply U; now right|]. exists b'. split; [exact E'|]. constructor.
    + apply (ca_good _ _ _ C).
    + intros N. apply (ca_ng _ _ _ C), (tr_ng _ _ _ T), N.
    + intros g s I F. destruct (ca_piece _ _ _ C g s I F) as (f & t' & If & Ft & P). destruct (brep_trunc_pieces b pl b2 G E2 f t' If Ft) as (f0 & t0 & I0 & F0 & P0).
      exists f0, t0. split; [assumption|]. split; [assumption|]. eapply piece_trans; eassumption.
    + intros p O. apply (ca_sub _ _ _ C) in O. destruct O as [O H]. apply (brep_trunc_sound b pl b2 p G E2) in O. destruct O as [O H0]. split; [assumption|].
      intros u [<-|Hu]; [exact H0|auto].
    + intros p O H. apply (ca_sup _ _ _ C); [|intros u Hu; apply H; now right]. apply (brep_trunc_complete b pl b2 p G E2 O). apply (H t). now left.
    + intros e He. destruct (ca_tight _ _ _ C e He) as [W|[(u & Iu & W)|(I2 & N2 & EI)]]; [auto|right; left; exists u; split; [now right|assumption]|].
      destruct (tr_tight _ _ _ T e I2) as [W|[W|(I & N & EJ)]]; [contradiction| |].
      * right. left. exists t. split; [now left|]. apply (edge_on_in b2); assumption.
      * right. right. split; [assumption|]. split; [assumption|]. eapply edge_in_trans; eassumption.
Qed.
Theorem brep_trunc_ph b ph ts : good_brep b -> zPH3DTris ph = Some ts -> (forall t, List.In t ts -> norm (tnorm t) = 1) ->
  exists b', zBREPTruncPH3D b ph = Some b' /\ good_brep b' /\
    (forall g s, List.In g (flist b') -> face_at b' g s -> exists f t, List.In f (flist b) /\ face_at b f t /\ piece_of t s) /\
    (forall p, on_brep b' p -> on_brep b p /\ forall t, List.In t ts -> height_over (tv0 t) (tnorm t) p < zTOL) /\
    (forall p, on_brep b p -> (forall t, List.In t ts -> height_over (tv0 t) (tnorm t) p <= - zTOL) -> on_brep b' p) /\
    (watertight b -> forall e, List.In e (elist b') -> balanced b' e \/ exists t, List.In t ts /\ edge_on b' e (tv0 t) (tnorm t) zTOL).
Proof.
  intros G E U. unfold zBREPTruncPH3D. rewrite E. destruct (trunc_tris ts b None G U) as (b' & E' & C). exists b'. split; [assumption|].
  split; [apply (ca_good _ _ _ C)|]. split; [apply (ca_piece _ _ _ C)|]. split; [apply (ca_sub _ _ _ C)|]. split; [apply (ca_sup _ _ _ C)|].
  intros W e He. destruct (ca_tight _ _ _ C e He) as [H|[H|(I & N & _)]]; [auto|auto|]. exfalso. apply N. apply W. assumption.
Qed.
(** a degenerate first face: the cutting plane is not set *)
Theorem brep_trunc_ph_undef b ph t ts : zPH3DTris ph = Some (t :: ts) -> negligible (tnorm t) -> zBREPTruncPH3D b ph = None.
Proof.
  intros E N. unfold zBREPTruncPH3D. rewrite E. cbn [truncTris]. unfold zTri3DToPlane3D, zPlane3DCreate. rewrite (proj2 (zVec3DIsTiny_true _) N). reflexivity.
Qed.
