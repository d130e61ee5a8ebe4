(** Quickhull: the tests on points in general position, and the horizon seen from a new vertex. *)
From Verif Require Export FactsQH.
From Coq Require Import Lra Lia List Permutation Arith.
Import ListNotations.
Open Scope R_scope.

Definition apart4 (N i j k m : nat) : Prop := (i < N)%nat /\ (j < N)%nat /\ (k < N)%nat /\ (m < N)%nat /\ i <> j /\ i <> k /\ i <> m /\ j <> k /\ j <> m /\ k <> m.
Definition generic (pt : nat -> vec3) (N : nat) : Prop := forall i j k m, apart4 N i j k m ->
  2 * zTOL * norm (cross (vsub (pt j) (pt i)) (vsub (pt k) (pt i))) * (1 + dist (pt m) (pt i)) < Rabs (vol6 (pt i) (pt j) (pt k) (pt m)).
Definition ori (pt : nat -> vec3) (a b c d : nat) : R := vol6 (pt a) (pt b) (pt c) (pt d).

Lemma general_generic l : general_position l -> generic (fun i => nth i l v3zero) (length l).
Proof.
  intros G i j k m (Hi & Hj & Hk & Hm & D). apply (G i j k m); try (apply nth_error_nth'; assumption).
  repeat constructor; cbn; intuition.
Qed.
Lemma vol6_dot a b c d : vol6 a b c d = dot (cross (vsub b a) (vsub c a)) (vsub d a).
Proof. unfold vol6. spec_unfold. ring. Qed.
Lemma norm_comp v : norm v <= 2 * zTOL -> norm v < 2 * zTOL \/ norm v = 2 * zTOL. Proof. lra. Qed.
Lemma not_tiny_norm v : 2 * zTOL <= norm v -> zVec3DIsTiny v = false.
Proof. intros H. apply zVec3DIsTiny_false. intros K. pose proof (below_norm v K). lra. Qed.
Lemma dot_norm_le a b : Rabs (dot a b) <= norm a * norm b.
Proof.
  apply Rsqr_incr_0_var; [|apply Rmult_le_pos; apply norm_nonneg]. unfold Rsqr. rewrite <- Rabs_mult, Rabs_pos_eq by nra.
  replace (norm a * norm b * (norm a * norm b)) with ((norm a * norm a) * (norm b * norm b)) by ring. rewrite !norm_sqr.
  pose proof (lagrange3 a b) as E. pose proof (dot_self_nonneg (cross a b)). lra.
Qed.

Section Generic.
Variables (pt : nat -> vec3) (N : nat).
Hypothesis gen : generic pt N.
Notation o := (ori pt).

Lemma o_cyc a b c d : o b c a d = o a b c d. Proof. apply vol6_cyc. Qed.
Lemma o_rot a b c d : o a c d b = o a b c d. Proof. apply vol6_rot. Qed.
Lemma o_swap a b c d : o b a c d = - o a b c d. Proof. apply vol6_swap. Qed.
Lemma o_swap23 a b c d : o a c b d = - o a b c d. Proof. apply vol6_swap23. Qed.
Lemma o_swap34 a b c d : o a b d c = - o a b c d. Proof. apply vol6_swap34. Qed.
Definition nrm (a b c : nat) : vec3 := cross (vsub (pt b) (pt a)) (vsub (pt c) (pt a)).
Lemma nrm_cyc a b c : nrm b c a = nrm a b c. Proof. unfold nrm. vring. Qed.

Lemma gen_dist a b : (4 <= N)%nat -> (a < N)%nat -> (b < N)%nat -> a <> b -> 2 * zTOL < dist (pt b) (pt a).
Proof.
  intros N4 A B AB. assert (X : exists c d, apart4 N a c d b).
  { assert (Y : forall l, (length l < N)%nat -> exists c, (c < N)%nat /\ ~ List.In c l).
    { intros l L. destruct (Exists_dec (fun c => ~ List.In c l) (seq 0 N)) as [E|E]. { intros c. destruct (in_dec Nat.eq_dec c l); [right; tauto|left; assumption]. }
      - apply Exists_exists in E. destruct E as (c & C & H). apply in_seq in C. exists c. split; [lia|exact H].
      - exfalso. assert (I : incl (seq 0 N) l). { intros c C. destruct (in_dec Nat.eq_dec c l); auto. exfalso. apply E, Exists_exists. exists c. auto. }
        pose proof (NoDup_incl_length (seq_NoDup N 0) I). rewrite seq_length in H. lia. }
    destruct (Y [a; b]) as (c & C & Hc); [cbn; lia|]. destruct (Y [a; b; c]) as (d & D & Hd); [cbn; lia|]. exists c, d. cbn in Hc, Hd. unfold apart4. intuition. }
  destruct X as (c & d & X). pose proof (gen _ _ _ _ X) as G. rewrite vol6_dot in G. pose proof (dot_norm_le (cross (vsub (pt c) (pt a)) (vsub (pt d) (pt a))) (vsub (pt b) (pt a))) as C.
  fold (dist (pt b) (pt a)) in C. pose proof (norm_nonneg (cross (vsub (pt c) (pt a)) (vsub (pt d) (pt a)))). pose proof (norm_nonneg (vsub (pt b) (pt a))) as D. fold (dist (pt b) (pt a)) in D. pose proof zTOL_pos.
  set (n := norm (cross _ _)) in *. set (t := dist (pt b) (pt a)) in *. assert (K : 2 * zTOL * n * (1 + t) < n * t) by lra. assert (0 < n). { destruct (Req_dec n 0) as [E|E]; [rewrite E in K; lra|lra]. }
  assert (Q : 0 < n * (t - 2 * zTOL * (1 + t))) by lra. assert (2 * zTOL * (1 + t) < t). { apply Rmult_lt_reg_l with n; lra. } assert (0 <= zTOL * t) by (apply Rmult_le_pos; lra). lra.
Qed.
Lemma gen_nrm a b c d : apart4 N a b c d -> 0 < norm (nrm a b c) /\ o a b c d <> 0 /\ 2 * zTOL < Rabs (o a b c d) / norm (nrm a b c).
Proof.
  intros X. pose proof (gen _ _ _ _ X) as G. fold (nrm a b c) in G. fold (o a b c d) in G. pose proof (norm_nonneg (vsub (pt d) (pt a))) as D. fold (dist (pt d) (pt a)) in D. pose proof zTOL_pos. pose proof (norm_nonneg (nrm a b c)).
  assert (P : 0 < norm (nrm a b c)). { destruct (Req_dec (norm (nrm a b c)) 0) as [E|E]; [|lra]. exfalso. unfold ori in G. rewrite vol6_dot in G. fold (nrm a b c) in G.
    pose proof (dot_norm_le (nrm a b c) (vsub (pt d) (pt a))) as C. rewrite E in C. rewrite E in G. rewrite Rmult_0_l in C. rewrite Rmult_0_r, Rmult_0_l in G. lra. }
  assert (Q : 0 <= zTOL * norm (nrm a b c) * dist (pt d) (pt a)) by (apply Rmult_le_pos; [apply Rmult_le_pos|]; lra). assert (Q' : 0 < zTOL * norm (nrm a b c)) by (apply Rmult_lt_0_compat; lra).
  split; [exact P|]. split. { intros E. rewrite E, Rabs_R0 in G. lra. }
  apply (Rmult_lt_reg_r (norm (nrm a b c))); [exact P|]. replace (Rabs (o a b c d) / norm (nrm a b c) * norm (nrm a b c)) with (Rabs (o a b c d)) by (field; lra). lra.
Qed.
(** a facet with its normal *)
Definition shaped (f : qfacet) (a b c : nat) : Prop := qp f 0 = a /\ qp f 1 = b /\ qp f 2 = c /\ qn f = vscale (1 / norm (nrm a b c)) (nrm a b c).
Lemma create_shaped a b c : shaped (zQHFacetCreate pt a b c) a b c.
Proof. repeat split. Qed.
Lemma height_eq f a b c d : shaped f a b c -> dot (qn f) (vsub (pt d) (pt a)) = o a b c d / norm (nrm a b c).
Proof. intros (_ & _ & _ & ->). unfold ori. rewrite vol6_dot. fold (nrm a b c). unfold Rdiv. generalize (/ norm (nrm a b c)). intros k. spec_unfold. ring. Qed.
Lemma test_place f a b c d : (4 <= N)%nat -> shaped f a b c -> apart4 N a b c d -> fst (zQHFacetTestBeneathBeyond pt f d) = if Rltb 0 (o a b c d) then Beyond else Beneath.
Proof.
  intros N4 F X. destruct (gen_nrm _ _ _ _ X) as (P & Z & H). unfold zQHFacetTestBeneathBeyond. zvec. pose proof (proj1 F) as F0. rewrite F0.
  rewrite not_tiny_norm. 2: { destruct X as (A & _ & _ & D & _ & _ & NE & _). pose proof (gen_dist a d N4 A D NE) as G. unfold dist in G. lra. }
  cbn [fst]. rewrite (height_eq f a b c d F). pose proof zTOL_pos. assert (I : 0 < / norm (nrm a b c)) by (apply Rinv_0_lt_compat; exact P).
  unfold Rdiv in *. destruct (Rltb_reflect 0 (o a b c d)) as [O|O].
  - rewrite Rabs_pos_eq in H by lra. destruct (Rltb_reflect (o a b c d * / norm (nrm a b c)) (- zTOL)); [nra|]. destruct (Rltb_reflect zTOL (o a b c d * / norm (nrm a b c))); [reflexivity|nra].
  - rewrite Rabs_left in H by lra. destruct (Rltb_reflect (o a b c d * / norm (nrm a b c)) (- zTOL)); [reflexivity|nra].
Qed.
Lemma test_edge f a b c d : shaped f a b c -> snd (zQHFacetTestBeneathBeyond pt f d) = vsub (pt d) (pt a).
Proof. intros (F0 & _). unfold zQHFacetTestBeneathBeyond. zvec. rewrite F0. reflexivity. Qed.
(** contiguous facets that bend outwards are not merged *)
Lemma normals_cross a b c d : cross (nrm a b c) (nrm b a d) = vscale (- o a b c d) (vsub (pt b) (pt a)).
Proof. unfold nrm, ori, vol6. vring. Qed.
Lemma no_merge f g s x y z w (Hn : qn f = vscale (1 / norm (nrm x y z)) (nrm x y z)) (Hm : qn g = vscale (1 / norm (nrm y x w)) (nrm y x w)) :
  apart4 N x y z w -> o x y z w < 0 -> qp f (nxt s) = x -> qp f (prv s) = y -> merge_flag pt f g s = false.
Proof.
  intros X O E1 E2. destruct (gen_nrm _ _ _ _ X) as (P & _ & _). assert (X' : apart4 N y x w z) by (unfold apart4 in *; intuition). destruct (gen_nrm _ _ _ _ X') as (P' & _ & _).
  pose proof (gen _ _ _ _ X) as G. fold (nrm x y z) in G. fold (o x y z w) in G. rewrite Rabs_left in G by exact O. pose proof zTOL_pos.
  assert (C : cross (qn f) (qn g) = vscale (- o x y z w / (norm (nrm x y z) * norm (nrm y x w))) (vsub (pt y) (pt x))).
  { rewrite Hn, Hm. pose proof (normals_cross x y z w) as K. transitivity (vscale (1 / norm (nrm x y z) * (1 / norm (nrm y x w))) (cross (nrm x y z) (nrm y x w))). { generalize (1 / norm (nrm x y z)) (1 / norm (nrm y x w)). intros. vring. }
    rewrite K. generalize (vsub (pt y) (pt x)) (o x y z w). intros v k. apply vec3_ext; unfold vscale; cbn [vx vy vz]; field; lra. }
  assert (K : 0 < - o x y z w / (norm (nrm x y z) * norm (nrm y x w))). { apply Rmult_lt_0_compat; [lra|]. apply Rinv_0_lt_compat. nra. }
  assert (B : norm (nrm y x w) <= dist (pt y) (pt x) * dist (pt w) (pt x)).
  { replace (nrm y x w) with (cross (vsub (pt w) (pt x)) (vsub (pt y) (pt x))) by (unfold nrm; vring). eapply Rle_trans; [apply cross_norm_le|]. unfold dist. lra. }
  assert (T : 2 * zTOL <= norm (cross (qn f) (qn g))).
  { rewrite C. replace (norm (vscale (- o x y z w / (norm (nrm x y z) * norm (nrm y x w))) (vsub (pt y) (pt x)))) with (- o x y z w / (norm (nrm x y z) * norm (nrm y x w)) * dist (pt y) (pt x)).
    2: { unfold dist. set (k := - o x y z w / _) in *. unfold norm. replace (dot (vscale k (vsub (pt y) (pt x))) (vscale k (vsub (pt y) (pt x)))) with ((k * k) * dot (vsub (pt y) (pt x)) (vsub (pt y) (pt x))) by (clear; spec_unfold; ring). rewrite sqrt_mult_alt by nra. rewrite sqrt_square by lra. reflexivity. }
    apply (Rmult_le_reg_r (norm (nrm x y z) * norm (nrm y x w))); [nra|].
    replace (- o x y z w / (norm (nrm x y z) * norm (nrm y x w)) * dist (pt y) (pt x) * (norm (nrm x y z) * norm (nrm y x w))) with (- o x y z w * dist (pt y) (pt x)) by (field; lra).
    set (n1 := norm (nrm x y z)) in *. set (n2 := norm (nrm y x w)) in *. set (dy := dist (pt y) (pt x)) in *. set (dw := dist (pt w) (pt x)) in *. assert (0 <= dy) by apply norm_nonneg. assert (0 <= dw) by apply norm_nonneg.
    assert (Q : 0 < zTOL * n1) by (apply Rmult_lt_0_compat; lra). assert (Q1 : zTOL * n1 * n2 <= zTOL * n1 * (dy * dw)) by (apply Rmult_le_compat_l; lra). assert (Q2 : 2 * zTOL * n1 * (1 + dw) * dy <= - o x y z w * dy) by (apply Rmult_le_compat_r; lra). assert (Q3 : 0 <= zTOL * n1 * dy) by (apply Rmult_le_pos; lra). clear - Q1 Q2 Q3. lra. }
  unfold merge_flag. zvec. rewrite E1, E2.
  assert (T1 : zVec3DIsTiny (cross (qn f) (qn g)) = false) by (apply not_tiny_norm; exact T).
  assert (T0 : zVec3DIsTiny (vsub (qn f) (qn g)) = false).
  { apply not_tiny_norm. eapply Rle_trans; [exact T|]. replace (cross (qn f) (qn g)) with (cross (vsub (qn f) (qn g)) (qn g)) by vring. eapply Rle_trans; [apply cross_norm_le|].
    assert (U : norm (qn g) = 1). { rewrite Hm. set (n := norm (nrm y x w)) in *. unfold norm. replace (dot (vscale (1 / n) (nrm y x w)) (vscale (1 / n) (nrm y x w))) with ((1 / n) * (1 / n) * (n * n)). 2: { unfold n at 3 4. rewrite norm_sqr. generalize (1 / n). intros. spec_unfold. ring. } replace (1 / n * (1 / n) * (n * n)) with 1 by (field; lra). apply sqrt_1. }
    rewrite U. lra. }
  rewrite T0, T1, C. match goal with |- Rltb ?v 0 = false => destruct (Rltb_reflect v 0) as [Q|Q]; [exfalso|reflexivity] end.
  revert Q. apply Rle_not_lt. rewrite ?zsub_spec. set (k := - o x y z w / _) in *. replace (dot (vsub (pt y) (pt x)) (vscale k (vsub (pt y) (pt x)))) with (k * dot (vsub (pt y) (pt x)) (vsub (pt y) (pt x))) by (clear; spec_unfold; ring).
  apply Rmult_le_pos; [lra|apply dot_self_nonneg].
Qed.

(** ** the horizon *)
Section Loop.
Variables (p : nat) (live : nat -> Prop) (Hz : nat -> nat -> Prop).
Hypothesis hz_live : forall a b, Hz a b -> live a /\ live b /\ a <> b.
Hypothesis hz_sup : forall a b x, Hz a b -> live x -> x <> a -> x <> b -> o p a b x < 0.
Lemma hz_start a b b' : Hz a b -> Hz a b' -> b = b'.
Proof.
  intros H H'. destruct (Nat.eq_dec b b') as [E|E]; [exact E|exfalso]. destruct (hz_live _ _ H) as (_ & LB & AB), (hz_live _ _ H') as (_ & LB' & AB').
  pose proof (hz_sup a b b' H LB' ltac:(congruence) ltac:(congruence)). pose proof (hz_sup a b' b H' LB ltac:(congruence) ltac:(congruence)) as K. rewrite o_swap34 in K. lra.
Qed.
Lemma hz_end a a' b : Hz a b -> Hz a' b -> a = a'.
Proof.
  intros H H'. destruct (Nat.eq_dec a a') as [E|E]; [exact E|exfalso]. destruct (hz_live _ _ H) as (LA & LB & AB), (hz_live _ _ H') as (LA' & LB' & AB').
  pose proof (hz_sup a b a' H LA' ltac:(congruence) ltac:(congruence)) as K. pose proof (hz_sup a' b a H' LA ltac:(congruence) ltac:(congruence)) as K'.
  assert (E' : o p a' b a = - o p a b a') by (unfold ori, vol6; spec_unfold; ring). lra.
Qed.
(** a path of horizon edges *)
Fixpoint path (x : nat) (l : list nat) : Prop := match l with [] => True | y :: r => Hz x y /\ path y r end.
Definition step_of (x : nat) (l : list nat) (a b : nat) : Prop := exists l1 l2, x :: l = l1 ++ a :: b :: l2.
Lemma path_app x l y r : path x (l ++ y :: r) <-> path x (l ++ [y]) /\ path y r.
Proof. revert x. induction l as [|z l IH]; intros x; cbn [app path]; [tauto|]. rewrite IH. tauto. Qed.
Lemma path_step x l a b : path x l -> step_of x l a b -> Hz a b.
Proof.
  revert x. induction l as [|y l IH]; intros x H (l1 & l2 & E); cbn [path] in H.
  - destruct l1 as [|? [|? ?]]; discriminate.
  - destruct l1 as [|z l1]; cbn [app] in E; [injection E as -> -> _; tauto|injection E as _ E]. apply (IH y); [tauto|]. exists l1, l2. exact E.
Qed.
Lemma step_cons x y l a b : step_of y l a b -> step_of x (y :: l) a b.
Proof. intros (l1 & l2 & E). exists (x :: l1), l2. rewrite E. reflexivity. Qed.
Lemma path_around a b x l : path x l -> (forall z, List.In z (x :: l) -> o p a b z < 0) -> (forall u v, Hz u v -> List.In u (x :: l) -> List.In v (x :: l) -> o p u v a < 0) -> l <> [] -> o p a x (last l 0%nat) < 0.
Proof.
  intros P B C NE. assert (S : forall u v, step_of x l u v -> o p a u v < 0).
  { intros u v ST. pose proof (path_step x l u v P ST) as H. destruct ST as (l1 & l2 & E). rewrite <- (o_rot p a u v). apply C; [exact H| |]; rewrite E; apply in_or_app; right; cbn; auto. }
  clear P C. revert x B S NE. induction l as [|y l IH]; intros x B S NE; [congruence|].
  assert (XY : o p a x y < 0). { apply S. exists [], l. reflexivity. }
  destruct l as [|z l]; [exact XY|]. assert (Y : o p a y (last (z :: l) 0%nat) < 0).
  { apply IH; [intros w W; apply B; right; exact W| |congruence]. intros u v ST. apply S, step_cons, ST. }
  change (last (y :: z :: l) 0%nat) with (last (z :: l) 0%nat). set (w := last (z :: l) 0%nat) in *.
  assert (W : List.In w (z :: l)). { unfold w. destruct (@exists_last _ (z :: l)) as (m & u & E); [congruence|]. rewrite E, last_last. apply in_or_app. right. cbn. auto. }
  unfold ori in *. apply (around (pt p) (pt a) (pt b) (pt x) (pt y) (pt w)); try assumption; [apply (B x)|apply (B y)|apply (B w)]; cbn; auto.
Qed.
(** a closed path takes in every edge of the horizon *)
Lemma hz_all x l a b : path x (l ++ [x]) -> Hz a b -> step_of x (l ++ [x]) a b.
Proof.
  intros P H. destruct (hz_live _ _ H) as (LA & LB & AB).
  assert (succ : forall u, List.In u (x :: l) -> exists v, step_of x (l ++ [x]) u v).
  { intros u U. destruct (in_split u (x :: l) U) as (l1 & l2 & E). destruct l2 as [|v l2].
    - exists x, l1, []. change (x :: l ++ [x]) with ((x :: l) ++ [x]). rewrite E, <- app_assoc. reflexivity.
    - exists v, l1, (l2 ++ [x]). change (x :: l ++ [x]) with ((x :: l) ++ [x]). rewrite E, <- app_assoc. reflexivity. }
  assert (pred : forall u, List.In u (x :: l) -> exists v, step_of x (l ++ [x]) v u /\ List.In v (x :: l)).
  { intros u U. assert (U' : List.In u (l ++ [x])). { destruct U as [->|U]; apply in_or_app; cbn; auto. } destruct (in_split u (l ++ [x]) U') as (l1 & l2 & E).
    destruct (@exists_last _ (x :: l1)) as (m & v & E'); [congruence|]. exists v. split. { exists m, l2. rewrite E. change (x :: l1 ++ u :: l2) with ((x :: l1) ++ u :: l2). rewrite E', <- app_assoc. reflexivity. }
    assert (V : List.In v (x :: l1)) by (rewrite E'; apply in_or_app; right; cbn; auto). destruct V as [->|V]; [left; reflexivity|].
    assert (V' : List.In v (l ++ [x])) by (rewrite E; apply in_or_app; auto). apply in_app_or in V'. destruct V' as [V'|[->|[]]]; cbn; auto. }
  destruct (in_dec Nat.eq_dec a (x :: l)) as [A|A].
  { destruct (succ a A) as (v & V). rewrite (hz_start a b v H (path_step _ _ _ _ P V)). exact V. }
  exfalso. destruct (in_dec Nat.eq_dec b (x :: l)) as [B|B].
  { destruct (pred b B) as (v & V & IV). rewrite <- (hz_end a v b H (path_step _ _ _ _ P V)) in IV. contradiction. }
  assert (LV : forall z, List.In z (x :: l) -> live z). { intros z Z. destruct (succ z Z) as (v & V). apply path_step in V; [|exact P]. apply hz_live in V. tauto. }
  assert (IN : forall z, List.In z (x :: l ++ [x]) -> List.In z (x :: l)). { intros z Z. change (x :: l ++ [x]) with ((x :: l) ++ [x]) in Z. apply in_app_or in Z. destruct Z as [Z|[->|[]]]; cbn; auto. }
  pose proof (path_around a b x (l ++ [x]) P) as K. rewrite last_last in K.
  assert (Z0 : o p a x x < 0); [apply K|].
  - intros z Z. apply IN in Z. apply hz_sup; auto; intros ->; contradiction.
  - intros u v UV U V. apply IN in U, V. apply hz_sup; auto; intros ->; contradiction.
  - destruct l; discriminate.
  - unfold ori in Z0. rewrite vol6_same in Z0. lra.
Qed.
(** a point beneath all faces of the cone but not beneath a visible face is in a pyramid with apex p *)
Lemma cone_cover x l c0 c1 c2 q : path x (l ++ [x]) -> ~ List.In x l -> (exists z, live z /\ ~ List.In z [x; hd x l]) ->
  (forall a b, Hz a b -> vol6 (pt p) (pt a) (pt b) q <= 0) ->
  0 < vol6 c0 c1 c2 (pt p) -> (forall a, live a -> vol6 c0 c1 c2 (pt a) <= 0) -> 0 <= vol6 c0 c1 c2 q ->
  exists u v, List.In u l /\ List.In v l /\ u <> v /\ in_tetra (pt p) (pt x) (pt u) (pt v) q.
Proof.
  intros P NX (z & LZ & NZ) B VP VL VQ. destruct l as [|y l]. { cbn in P. destruct (hz_live _ _ (proj1 P)) as (_ & _ & E). congruence. }
  cbn [app path] in P. destruct P as (XY & P). cbn in NX, NZ.
  assert (G : exists u v, List.In u (y :: l) /\ List.In v (y :: l) /\ Hz u v /\ vol6 (pt p) (pt x) (pt u) q <= 0 /\ 0 <= vol6 (pt p) (pt x) (pt v) q).
  { pose proof (B x y XY) as S. assert (NY : l <> []). { intros ->. cbn in P. pose proof (hz_sup _ _ z XY LZ ltac:(intuition) ltac:(intuition)) as K1. pose proof (hz_sup _ _ z (proj1 P) LZ ltac:(intuition) ltac:(intuition)) as K2. rewrite o_swap23 in K2. lra. }
    clear XY NX NZ. revert y P S NY. induction l as [|w l IH]; intros y P S NY; [congruence|]. cbn [app path] in P. destruct P as (YW & P).
    destruct (Rle_dec 0 (vol6 (pt p) (pt x) (pt w) q)) as [Q|Q].
    - exists y, w. cbn. repeat split; auto.
    - destruct l as [|w' l].
      + exfalso. cbn in P. pose proof (B w x (proj1 P)) as S'. rewrite vol6_swap23 in S'. lra.
      + destruct (IH w P ltac:(lra) ltac:(congruence)) as (u & v & U & V & R'). exists u, v. split; [right; exact U|split; [right; exact V|exact R']]. }
  destruct G as (u & v & U & V & UV & G1 & G2). exists u, v. split; [exact U|split; [exact V|]]. destruct (hz_live _ _ UV) as (LU & LV & NUV). split; [exact NUV|]. destruct (hz_live _ _ XY) as (LX & _ & _).
  apply (in_pyramid (pt p) (pt x) (pt u) (pt v) q c0 c1 c2); auto. apply in_cone; auto.
  apply hz_sup; auto; intros ->; cbn in U, V; intuition.
Qed.
End Loop.
End Generic.
