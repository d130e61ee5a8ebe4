(** Geometry of the quickhull method: points in general position. *)
From Verif Require Export FactsAlg FactsVec FactsElem FactsMisc FactsClip4 SpecQH ModelQH.
From Coq Require Import Lra Lia List Permutation Arith.
Import ListNotations.
Open Scope R_scope.

Lemma vol6_cyc a b c d : vol6 b c a d = vol6 a b c d. Proof. unfold vol6. spec_unfold. ring. Qed.
Lemma vol6_rot a b c d : vol6 a c d b = vol6 a b c d. Proof. unfold vol6. spec_unfold. ring. Qed.
Lemma vol6_swap a b c d : vol6 b a c d = - vol6 a b c d. Proof. unfold vol6. spec_unfold. ring. Qed.
Lemma vol6_swap23 a b c d : vol6 a c b d = - vol6 a b c d. Proof. unfold vol6. spec_unfold. ring. Qed.
Lemma vol6_swap34 a b c d : vol6 a b d c = - vol6 a b c d. Proof. unfold vol6. spec_unfold. ring. Qed.
Lemma vol6_same a b c : vol6 a b c c = 0. Proof. unfold vol6. spec_unfold. ring. Qed.
Lemma vol6_first a b c : vol6 a b c a = 0. Proof. unfold vol6. spec_unfold. ring. Qed.
Lemma vol6_second a b c : vol6 a b c b = 0. Proof. unfold vol6. spec_unfold. ring. Qed.
(** relation of the volumes with a common edge a b *)
Lemma vol6_edge a b c d p x : vol6 a b c d * vol6 a b p x = vol6 a b c p * vol6 a b d x - vol6 a b c x * vol6 a b d p.
Proof. unfold vol6. spec_unfold. ring. Qed.
(** a new face over a ridge between a visible and a hidden face *)
Lemma new_face a b c d p x : vol6 a b c d < 0 -> 0 < vol6 a b c p -> vol6 b a d p < 0 -> vol6 a b c x <= 0 -> vol6 b a d x <= 0 -> vol6 a b c x < 0 \/ vol6 b a d x < 0 ->
  vol6 p a b x < 0.
Proof.
  intros Hcd Hcp Hdp Hcx Hdx S. pose proof (vol6_edge a b c d p x) as E. rewrite <- (vol6_cyc p a b x).
  rewrite (vol6_swap a b d p) in Hdp. rewrite (vol6_swap a b d x) in Hdx, S. nra.
Qed.
(** order of directions seen from p around the direction of a, within the half space beneath (p, a, b) *)
Lemma around p a b x y z : vol6 p a b x < 0 -> vol6 p a b y < 0 -> vol6 p a b z < 0 -> vol6 p a x y < 0 -> vol6 p a y z < 0 -> vol6 p a x z < 0.
Proof. intros Hx Hy Hz H1 H2. pose proof (vol6_edge p a b y x z) as E. rewrite (vol6_swap34 p a x y) in E. nra. Qed.
(** a point in the cone from p over the triangle (a, u, v) *)
Lemma in_cone p a u v x : vol6 p u v a < 0 -> vol6 p u v x <= 0 -> vol6 p a u x <= 0 -> 0 <= vol6 p a v x ->
  exists s t r, 0 <= s /\ 0 <= t /\ 0 <= r /\ vsub x p = vadd (vadd (vscale s (vsub a p)) (vscale t (vsub u p))) (vscale r (vsub v p)).
Proof.
  intros D H1 H2 H3. set (k := vol6 p u v a) in *. exists (vol6 p u v x / k), (- vol6 p a v x / k), (vol6 p a u x / k).
  assert (I : / k < 0) by (apply Rinv_lt_0_compat; exact D). unfold Rdiv.
  split; [nra|split; [nra|split; [nra|]]].
  assert (K : vscale k (vsub x p) = vadd (vadd (vscale (vol6 p u v x) (vsub a p)) (vscale (- vol6 p a v x) (vsub u p))) (vscale (vol6 p a u x) (vsub v p))).
  { unfold k, vol6. vring. }
  apply (f_equal (vscale (/ k))) in K. revert K. intros K.
  replace (vscale (/ k) (vscale k (vsub x p))) with (vsub x p) in K by (apply vec3_ext; unfold vscale; cbn [vx vy vz]; field; lra).
  rewrite K. generalize (vol6 p u v x) (vol6 p a v x) (vol6 p a u x) (/ k). intros r1 r2 r3 r4. vring.
Qed.
Lemma vol6_affine a b c p x q1 q2 q3 s t r : vsub x p = vadd (vadd (vscale s (vsub q1 p)) (vscale t (vsub q2 p))) (vscale r (vsub q3 p)) ->
  vol6 a b c x = vol6 a b c p + s * (vol6 a b c q1 - vol6 a b c p) + t * (vol6 a b c q2 - vol6 a b c p) + r * (vol6 a b c q3 - vol6 a b c p).
Proof.
  intros E. replace x with (vadd p (vsub x p)) by vring. rewrite E. unfold vol6. spec_unfold. ring.
Qed.
(** so it is in the tetrahedron unless it is beneath a face that p is beyond of *)
Lemma in_pyramid p a u v x c0 c1 c2 : (exists s t r, 0 <= s /\ 0 <= t /\ 0 <= r /\ vsub x p = vadd (vadd (vscale s (vsub a p)) (vscale t (vsub u p))) (vscale r (vsub v p))) ->
  0 < vol6 c0 c1 c2 p -> vol6 c0 c1 c2 a <= 0 -> vol6 c0 c1 c2 u <= 0 -> vol6 c0 c1 c2 v <= 0 -> 0 <= vol6 c0 c1 c2 x -> in_tetra p a u v x.
Proof.
  intros (s & t & r & Hs & Ht & Hr & E) Hp Ha Hu Hv Hx. pose proof (vol6_affine c0 c1 c2 p x a u v s t r E) as F.
  exists (1 - s - t - r), s, t, r. split; [|].
  - repeat split; try lra; try assumption. generalize dependent (vol6 c0 c1 c2 x). generalize dependent (vol6 c0 c1 c2 p). generalize dependent (vol6 c0 c1 c2 a). generalize dependent (vol6 c0 c1 c2 u). generalize dependent (vol6 c0 c1 c2 v).
    intros fv Hv fu Hu fa Ha fp Hp fx Hx F. clear E.
    assert (fx <= fp * (1 - s - t - r)) by nra. nra.
  - replace x with (vadd p (vsub x p)) by vring. rewrite E. unfold comb4, comb3, comb2. vring.
Qed.
(** the tetrahedron as an intersection of half spaces *)
Lemma tetra_inside a b c d x : vol6 a b c d < 0 -> vol6 a b c x <= 0 -> vol6 a d b x <= 0 -> vol6 b d c x <= 0 -> vol6 c d a x <= 0 -> in_tetra a b c d x.
Proof.
  intros D H1 H2 H3 H4. set (k := vol6 a b c d) in *. assert (I : / k < 0) by (apply Rinv_lt_0_compat; exact D).
  exists (vol6 b d c x / k), (vol6 c d a x / k), (vol6 a d b x / k), (vol6 a b c x / k).
  assert (S : vol6 b d c x + vol6 c d a x + vol6 a d b x + vol6 a b c x = k) by (unfold k, vol6; spec_unfold; ring).
  split.
  - unfold Rdiv. repeat split; try nra. rewrite <- !Rmult_plus_distr_r, S. field. lra.
  - assert (K : vscale k x = comb4 (vol6 b d c x) (vol6 c d a x) (vol6 a d b x) (vol6 a b c x) a b c d). { unfold k, vol6, comb4, comb3, comb2. vring. }
    apply (f_equal (vscale (/ k))) in K. replace (vscale (/ k) (vscale k x)) with x in K by (apply vec3_ext; unfold vscale; cbn [vx vy vz]; field; lra).
    etransitivity; [exact K|]. unfold Rdiv. generalize (vol6 b d c x) (vol6 c d a x) (vol6 a d b x) (vol6 a b c x) (/ k). intros r1 r2 r3 r4 r5. clear. unfold comb4, comb3, comb2. vring.
Qed.
Lemma tetra_hull (L : list vec3) a b c d x : List.In a L -> List.In b L -> List.In c L -> List.In d L -> in_tetra a b c d x -> convex_hull L x.
Proof.
  intros A B C D (s0 & s1 & s2 & s3 & (P0 & P1 & P2 & P3 & S) & ->).
  assert (two : forall p q u v, 0 <= u -> 0 <= v -> 0 < u + v -> convex_hull L p -> convex_hull L q -> convex_hull L (vscale (/ (u + v)) (vadd (vscale u p) (vscale v q)))).
  { intros p q u v U V UV Hp Hq. apply (hull_mix L p q); auto. exists (u / (u + v)), (v / (u + v)). assert (0 < / (u + v)) by (apply Rinv_0_lt_compat; lra). split; [repeat split; [apply Rmult_le_pos; lra|apply Rmult_le_pos; lra|field; lra]|]. unfold comb2. apply vec3_ext; spec_unfold; field; lra. }
  assert (step : forall w w1 q p, 0 <= w -> 0 <= w1 -> w + w1 <= 1 -> (w = 0 -> q = v3zero) -> (0 < w -> convex_hull L (vscale (/ w) q)) -> convex_hull L p ->
    (w + w1 = 0 -> vadd q (vscale w1 p) = v3zero) /\ (0 < w + w1 -> convex_hull L (vscale (/ (w + w1)) (vadd q (vscale w1 p))))).
  { intros w w1 q p W W1 _ Z Hq Hp. split.
    - intros E. assert (w = 0) by lra. assert (w1 = 0) by lra. rewrite (Z H), H0. vring.
    - intros E. destruct (Req_dec w 0) as [W0|W0].
      + rewrite (Z W0), W0. replace (vscale (/ (0 + w1)) (vadd v3zero (vscale w1 p))) with p by (apply vec3_ext; spec_unfold; field; lra). exact Hp.
      + replace q with (vscale w (vscale (/ w) q)) by (apply vec3_ext; spec_unfold; field; lra). apply two; auto; try lra. apply Hq. lra. }
  destruct (step 0 s0 v3zero a) as (Z1 & C1); try lra; [reflexivity|constructor; exact A|].
  destruct (step (0 + s0) s1 (vadd v3zero (vscale s0 a)) b) as (Z2 & C2); try lra; auto; [constructor; exact B|].
  destruct (step (0 + s0 + s1) s2 (vadd (vadd v3zero (vscale s0 a)) (vscale s1 b)) c) as (Z3 & C3); try lra; auto; [constructor; exact C|].
  destruct (step (0 + s0 + s1 + s2) s3 (vadd (vadd (vadd v3zero (vscale s0 a)) (vscale s1 b)) (vscale s2 c)) d) as (_ & C4); try lra; auto; [constructor; exact D|].
  replace (comb4 s0 s1 s2 s3 a b c d) with (vscale (/ (0 + s0 + s1 + s2 + s3)) (vadd (vadd (vadd (vadd v3zero (vscale s0 a)) (vscale s1 b)) (vscale s2 c)) (vscale s3 d))); [apply C4; lra|].
  replace (0 + s0 + s1 + s2 + s3) with 1 by lra. unfold comb4, comb3, comb2. apply vec3_ext; spec_unfold; field.
Qed.
Lemma hull_trans L L' x : convex_hull L x -> (forall p, List.In p L -> convex_hull L' p) -> convex_hull L' x.
Proof. intros H K. induction H; auto. exact (hull_mix L' a b p IHconvex_hull1 IHconvex_hull2 H1). Qed.
Lemma hull_beneath L a b c x : convex_hull L x -> (forall p, List.In p L -> vol6 a b c p <= 0) -> vol6 a b c x <= 0.
Proof.
  intros H K. induction H as [p P|u v p _ IU _ IV (s0 & s1 & (S0 & S1 & E) & ->)]; auto.
  replace (vol6 a b c (comb2 s0 s1 u v)) with (s0 * vol6 a b c u + s1 * vol6 a b c v); [nra|]. replace s0 with (1 - s1) by lra. unfold vol6, comb2. spec_unfold. ring.
Qed.
