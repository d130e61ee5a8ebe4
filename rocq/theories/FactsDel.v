(** Circles and triangles in the plane. *)
From Verif Require Import ModelElem ModelBall SpecDel FactsVec FactsAlg Facts2D FactsElem FactsTri FactsTri2 FactsCentre.
From Coq Require Import List Lra Lia Psatz.
Import ListNotations.
Open Scope R_scope.

Definition sq (a b : vec2) : R := dot2 (vsub2 a b) (vsub2 a b).
Ltac plane := unfold area2, sq, dot2, cross2, comb3_2, comb2_2, vadd2, vsub2, vscale2; pcbn.
Lemma sq_pos a b : 0 <= sq a b. Proof. apply dot2_nonneg. Qed.
Lemma sq_zero a b : sq a b = 0 -> a = b.
Proof. intros H. apply dot2_self_zero in H. unfold vsub2, v2zero in H. injection H as X Y. apply vec2_ext; lra. Qed.
Lemma sq_sym a b : sq a b = sq b a. Proof. plane. ring. Qed.
Lemma sq_ne a b : a <> b -> 0 < sq a b.
Proof. intros N. destruct (sq_pos a b) as [L|E]; [exact L|]. exfalso. apply N, sq_zero. congruence. Qed.
Lemma sq_dist a b : sq a b = dist2 a b * dist2 a b.
Proof. unfold dist2. rewrite norm_2_sqr. reflexivity. Qed.
Lemma dist2_pos a b : 0 <= dist2 a b. Proof. unfold dist2. apply norm_2_nonneg. Qed.
Lemma dist2_le a b c d : dist2 a b <= dist2 c d <-> sq a b <= sq c d.
Proof. rewrite !sq_dist. pose proof (dist2_pos a b). pose proof (dist2_pos c d). split; intros; nra. Qed.
Lemma dist2_eq a b c d : dist2 a b = dist2 c d <-> sq a b = sq c d.
Proof. split; intros H; [rewrite !sq_dist; congruence|]. apply Rle_antisym; apply dist2_le; lra. Qed.
Lemma dist2_sym' a b : dist2 a b = dist2 b a. Proof. apply dist2_eq, sq_sym. Qed.

Lemma area_rot a b c : area2 a b c = area2 b c a. Proof. plane. ring. Qed.
Lemma area_swap a b c : area2 a b c = - area2 b a c. Proof. plane. ring. Qed.
Lemma area_sum a b c x : area2 b c x + area2 c a x + area2 a b x = area2 a b c. Proof. plane. ring. Qed.
Lemma area_ne a b c : area2 a b c <> 0 -> a <> b /\ b <> c /\ c <> a.
Proof. intros H. repeat split; intros ->; apply H; plane; ring. Qed.

(** the power of a point with respect to a circle of centre [o] *)
Definition pw (o : vec2) (k : R) (x : vec2) : R := sq x o - k.
Lemma pw_convex o k a b c x : let A := area2 a b c in let la := area2 b c x in let lb := area2 c a x in let lc := area2 a b x in
  A * A * pw o k x = A * (la * pw o k a + lb * pw o k b + lc * pw o k c) - (la * lb * sq a b + lb * lc * sq b c + la * lc * sq a c).
Proof. cbv zeta. unfold pw. plane. ring. Qed.
Lemma pw_pencil o k o' k' u v x y : pw o k u = 0 -> pw o k v = 0 -> pw o' k' u = 0 -> pw o' k' v = 0 ->
  (pw o k x - pw o' k' x) * area2 u v y = (pw o k y - pw o' k' y) * area2 u v x.
Proof.
  intros H1 H2 H3 H4.
  assert (E : (pw o k x - pw o' k' x) * area2 u v y - (pw o k y - pw o' k' y) * area2 u v x =
     (pw o k u - pw o' k' u) * (area2 u v y - area2 u v x - area2 u x y) + (pw o k v - pw o' k' v) * area2 u x y).
  { unfold pw. plane. ring. }
  rewrite H1, H2, H3, H4 in E. lra.
Qed.
Lemma pw_affine o k o' k' a b c x :
  area2 a b c * (pw o k x - pw o' k' x) = area2 b c x * (pw o k a - pw o' k' a) + area2 c a x * (pw o k b - pw o' k' b) + area2 a b x * (pw o k c - pw o' k' c).
Proof. unfold pw. plane. ring. Qed.

(** the circle through three points *)
Definition circ (a b c : vec2) (o : vec2) : Prop := sq b o = sq a o /\ sq c o = sq a o.
Definition cc (a b c : vec2) : vec2 :=
  let D := 2 * area2 a b c in let B := sq b a in let C := sq c a in
  V2 (x2 a + ((y2 c - y2 a) * B - (y2 b - y2 a) * C) / D) (y2 a + ((x2 b - x2 a) * C - (x2 c - x2 a) * B) / D).
Lemma cc_circ a b c : area2 a b c <> 0 -> circ a b c (cc a b c).
Proof. intros H. unfold circ, cc. cbv zeta. revert H. plane. intros H. split; field; lra. Qed.
Definition pow (a b c x : vec2) : R := pw (cc a b c) (sq a (cc a b c)) x.
Lemma pow_a a b c : pow a b c a = 0. Proof. unfold pow, pw. ring. Qed.
Lemma pow_b a b c : area2 a b c <> 0 -> pow a b c b = 0. Proof. intros H. destruct (cc_circ a b c H) as (E & _). unfold pow, pw. lra. Qed.
Lemma pow_c a b c : area2 a b c <> 0 -> pow a b c c = 0. Proof. intros H. destruct (cc_circ a b c H) as (_ & E). unfold pow, pw. lra. Qed.
Lemma pow_unique a b c o k x : area2 a b c <> 0 -> pw o k a = 0 -> pw o k b = 0 -> pw o k c = 0 -> pow a b c x = pw o k x.
Proof.
  intros H A B C. pose proof (pw_affine (cc a b c) (sq a (cc a b c)) o k a b c x) as E. fold (pow a b c x) (pow a b c a) (pow a b c b) (pow a b c c) in E.
  rewrite A, B, C, pow_a, (pow_b _ _ _ H), (pow_c _ _ _ H) in E. nra.
Qed.
Lemma pow_rot a b c x : area2 a b c <> 0 -> pow a b c x = pow b c a x.
Proof.
  intros H. apply pow_unique; [exact H|..]; fold (pow b c a a) (pow b c a b) (pow b c a c); [apply pow_c; rewrite <- area_rot; exact H|apply pow_a|apply pow_b; rewrite <- area_rot; exact H].
Qed.
Lemma pow_circ a b c o x : area2 a b c <> 0 -> circ a b c o -> pow a b c x = sq x o - sq a o.
Proof. intros H (B & C). apply (pow_unique a b c o (sq a o) x H); unfold pw; lra. Qed.
Lemma pow_circle a b c : exists o k, forall x, pow a b c x = pw o k x.
Proof. eexists _, _. reflexivity. Qed.

(** inside the triangle, inside the circle *)
Lemma pow_in a b c x : 0 < area2 a b c -> 0 <= area2 b c x -> 0 <= area2 c a x -> 0 <= area2 a b x -> pow a b c x <= 0.
Proof.
  intros A X Y Z. pose proof (pw_convex (cc a b c) (sq a (cc a b c)) a b c x) as E. cbv zeta in E. fold (pow a b c x) (pow a b c a) (pow a b c b) (pow a b c c) in E.
  rewrite pow_a, pow_b, pow_c in E by lra.
  assert (0 <= area2 b c x * area2 c a x * sq a b) by (apply Rmult_le_pos; [apply Rmult_le_pos; assumption|apply sq_pos]).
  assert (0 <= area2 c a x * area2 a b x * sq b c) by (apply Rmult_le_pos; [apply Rmult_le_pos; assumption|apply sq_pos]).
  assert (0 <= area2 b c x * area2 a b x * sq a c) by (apply Rmult_le_pos; [apply Rmult_le_pos; assumption|apply sq_pos]).
  destruct (Rle_lt_dec (pow a b c x) 0) as [L|L]; [exact L|exfalso]. assert (0 < area2 a b c * area2 a b c * pow a b c x) by (apply Rmult_lt_0_compat; [apply Rmult_lt_0_compat; assumption|exact L]). lra.
Qed.
Lemma pow_in_strict a b c x : inside_triangle a b c x -> pow a b c x < 0.
Proof.
  intros (X & Y & Z). pose proof (area_sum a b c x) as S. assert (A : 0 < area2 a b c) by lra.
  pose proof (pw_convex (cc a b c) (sq a (cc a b c)) a b c x) as E. cbv zeta in E. fold (pow a b c x) (pow a b c a) (pow a b c b) (pow a b c c) in E.
  rewrite pow_a, pow_b, pow_c in E by lra. destruct (area_ne a b c ltac:(lra)) as (N1 & N2 & N3).
  assert (0 < area2 b c x * area2 c a x * sq a b) by (apply Rmult_lt_0_compat; [apply Rmult_lt_0_compat; assumption|apply sq_ne; assumption]).
  assert (0 < area2 c a x * area2 a b x * sq b c) by (apply Rmult_lt_0_compat; [apply Rmult_lt_0_compat; assumption|apply sq_ne; assumption]).
  assert (0 < area2 b c x * area2 a b x * sq a c) by (apply Rmult_lt_0_compat; [apply Rmult_lt_0_compat; assumption|apply sq_ne; auto]).
  destruct (Rlt_le_dec (pow a b c x) 0) as [L|L]; [exact L|exfalso]. assert (0 <= area2 a b c * area2 a b c * pow a b c x) by (apply Rmult_le_pos; [apply Rmult_le_pos; lra|exact L]). lra.
Qed.
(** a point of the circle is not between other points of its disk: [u] in the triangle [n v w] with a positive weight on [n] and another one *)
Lemma on_rim o k u v w n : 0 < area2 v w u -> 0 <= area2 n v u -> 0 <= area2 w n u -> (0 < area2 n v u /\ n <> w \/ 0 < area2 w n u /\ n <> v) -> 0 < area2 n v w ->
  pw o k u = 0 -> pw o k v = 0 -> pw o k w = 0 -> pw o k n <= 0 -> False.
Proof.
  intros X Y Z D A U V W Nn. pose proof (pw_convex o k n v w u) as E. cbv zeta in E. rewrite U, V, W in E.
  assert (0 <= area2 v w u * area2 w n u * sq n v) by (apply Rmult_le_pos; [apply Rmult_le_pos; lra|apply sq_pos]).
  assert (0 <= area2 w n u * area2 n v u * sq v w) by (apply Rmult_le_pos; [apply Rmult_le_pos; lra|apply sq_pos]).
  assert (0 <= area2 v w u * area2 n v u * sq n w) by (apply Rmult_le_pos; [apply Rmult_le_pos; lra|apply sq_pos]).
  assert (area2 n v w * (area2 v w u * pw o k n) <= 0). { assert (0 <= area2 n v w * (area2 v w u * - pw o k n)) by (apply Rmult_le_pos; [lra|apply Rmult_le_pos; lra]). lra. }
  destruct D as [(D & N)|(D & N)].
  - assert (0 < area2 v w u * area2 n v u * sq n w) by (apply Rmult_lt_0_compat; [apply Rmult_lt_0_compat; lra|apply sq_ne; auto]). lra.
  - assert (0 < area2 v w u * area2 w n u * sq n v) by (apply Rmult_lt_0_compat; [apply Rmult_lt_0_compat; lra|apply sq_ne; auto]). lra.
Qed.
(** the quadrangle of two neighbours is convex when the second apex is in the circle of the first *)
Lemma flip_convex u v w n : 0 < area2 u v w -> area2 u v n < 0 -> pow u v w n <= 0 -> 0 < area2 u n w /\ 0 < area2 v w n.
Proof.
  intros A B P. pose proof (area_sum u v w n) as S. assert (NE : n <> w) by (intros ->; lra).
  assert (R1 : area2 w u n = area2 u n w) by (plane; ring).
  split; [destruct (Rlt_le_dec 0 (area2 u n w)) as [L|L]; [exact L|exfalso]|destruct (Rlt_le_dec 0 (area2 v w n)) as [L|L]; [exact L|exfalso]].
  - assert (E1 : area2 n v w = area2 v w n) by (plane; ring). assert (E2 : area2 n v u = - area2 u v n) by (plane; ring). assert (E3 : area2 w n u = - area2 u n w) by (plane; ring). assert (E4 : area2 v w u = area2 u v w) by (plane; ring).
    apply (on_rim (cc u v w) (sq u (cc u v w)) u v w n); try lra; [left; split; [lra|exact NE]|apply pow_a|apply pow_b; lra|apply pow_c; lra|exact P].
  - assert (E1 : area2 n w u = area2 u n w) by (plane; ring). assert (E2 : area2 n w v = - area2 v w n) by (plane; ring). assert (E3 : area2 u n v = - area2 u v n) by (plane; ring). assert (E4 : area2 w u v = area2 u v w) by (plane; ring).
    apply (on_rim (cc u v w) (sq u (cc u v w)) v w u n); try lra; [right; split; [lra|exact NE]|apply pow_b; lra|apply pow_c; lra|apply pow_a|exact P].
Qed.
(** neighbouring circles: whether the apex of each is in the other *)
Lemma pow_swap u v w n : 0 < area2 u v w -> 0 < area2 v u n -> pow u v w n * area2 u v w = pow v u n w * area2 v u n.
Proof.
  intros A B. assert (Z : area2 u v n = - area2 v u n) by apply area_swap.
  pose proof (pw_pencil (cc u v w) (sq u (cc u v w)) (cc v u n) (sq v (cc v u n)) u v n w) as E. fold (pow u v w u) (pow u v w v) (pow u v w n) (pow u v w w) (pow v u n u) (pow v u n v) (pow v u n n) (pow v u n w) in E.
  rewrite (pow_a u v w), (pow_b u v w), (pow_c u v w), (pow_a v u n), (pow_b v u n), (pow_c v u n) in E by lra. specialize (E eq_refl eq_refl eq_refl eq_refl). rewrite Z in E. lra.
Qed.
(** beyond the common edge the circle of the neighbour is the nearer one *)
Lemma pow_beyond u v w n q : 0 < area2 u v w -> 0 < area2 v u n -> 0 <= pow u v w n -> area2 u v q < 0 -> pow v u n q <= pow u v w q.
Proof.
  intros A B P Q. assert (Z : area2 u v n = - area2 v u n) by apply area_swap.
  pose proof (pw_pencil (cc u v w) (sq u (cc u v w)) (cc v u n) (sq v (cc v u n)) u v n q) as E. fold (pow u v w u) (pow u v w v) (pow u v w n) (pow u v w q) (pow v u n u) (pow v u n v) (pow v u n n) (pow v u n q) in E.
  rewrite (pow_a u v w), (pow_b u v w), (pow_a v u n), (pow_b v u n), (pow_c v u n) in E by lra. specialize (E eq_refl eq_refl eq_refl eq_refl).
  destruct (Rle_lt_dec (pow v u n q) (pow u v w q)) as [L|L]; [exact L|exfalso]. rewrite Z in E.
  assert (0 <= pow u v w n * - area2 u v q) by (apply Rmult_le_pos; lra). assert (0 < (pow v u n q - pow u v w q) * area2 v u n) by (apply Rmult_lt_0_compat; lra). lra.
Qed.
Lemma pow_beyond_strict u v w n q : 0 < area2 u v w -> 0 < area2 v u n -> 0 < pow u v w n -> area2 u v q < 0 -> pow v u n q < pow u v w q.
Proof.
  intros A B P Q. assert (Z : area2 u v n = - area2 v u n) by apply area_swap.
  pose proof (pw_pencil (cc u v w) (sq u (cc u v w)) (cc v u n) (sq v (cc v u n)) u v n q) as E. fold (pow u v w u) (pow u v w v) (pow u v w n) (pow u v w q) (pow v u n u) (pow v u n v) (pow v u n n) (pow v u n q) in E.
  rewrite (pow_a u v w), (pow_b u v w), (pow_a v u n), (pow_b v u n), (pow_c v u n) in E by lra. specialize (E eq_refl eq_refl eq_refl eq_refl).
  destruct (Rlt_le_dec (pow v u n q) (pow u v w q)) as [L|L]; [exact L|exfalso]. rewrite Z in E.
  assert (0 < pow u v w n * - area2 u v q) by (apply Rmult_lt_0_compat; lra). assert (0 <= (pow v u n q - pow u v w q) * area2 v u n) by (apply Rmult_le_pos; lra). lra.
Qed.
(** two circles with a common chord which agree at one more point are one circle *)
Lemma pow_same u v w n q x : 0 < area2 u v w -> 0 < area2 v u n -> area2 u v q <> 0 -> pow v u n q = pow u v w q -> pow v u n x = pow u v w x.
Proof.
  intros A B Q EQ.
  pose proof (pw_pencil (cc u v w) (sq u (cc u v w)) (cc v u n) (sq v (cc v u n)) u v x q) as E. fold (pow u v w u) (pow u v w v) (pow u v w x) (pow u v w q) (pow v u n u) (pow v u n v) (pow v u n x) (pow v u n q) in E.
  rewrite (pow_a u v w), (pow_b u v w), (pow_a v u n), (pow_b v u n) in E by lra. specialize (E eq_refl eq_refl eq_refl eq_refl). rewrite EQ in E.
  assert ((pow u v w x - pow v u n x) * area2 u v q = 0) by lra. apply Rmult_integral in H. destruct H; [lra|contradiction].
Qed.
(** a smaller circle touching from inside *)
Lemma shrink o k w p : pw o k w = 0 -> pw o k p <= 0 -> p <> w ->
  exists o' k', pw o' k' w = 0 /\ pw o' k' p = 0 /\ forall q, 0 <= pw o k q -> 0 <= pw o' k' q.
Proof.
  intros W P N. pose proof (sq_ne p w N) as S.
  assert (ID : forall q, pw o k q = sq q w - 2 * dot2 (vsub2 o w) (vsub2 q w) + pw o k w) by (intros q; unfold pw; plane; ring).
  set (D := 2 * dot2 (vsub2 o w) (vsub2 p w)). assert (DP : sq p w <= D) by (specialize (ID p); unfold D; lra).
  set (s := sq p w / D). assert (S0 : 0 < s) by (apply Rdiv_lt_0_compat; lra). assert (S1 : s <= 1). { unfold s. apply (Rmult_le_reg_r D); [lra|]. unfold Rdiv. rewrite Rmult_assoc, Rinv_l by lra. lra. }
  exists (vadd2 w (vscale2 s (vsub2 o w))), (s * s * sq o w).
  assert (ID' : forall q, pw (vadd2 w (vscale2 s (vsub2 o w))) (s * s * sq o w) q = sq q w - s * (2 * dot2 (vsub2 o w) (vsub2 q w))) by (intros q; unfold pw; plane; ring).
  split; [rewrite ID'; plane; ring|]. split.
  - rewrite ID'. fold D. unfold s. field. lra.
  - intros q Q. rewrite ID'. rewrite ID, W in Q. pose proof (sq_pos q w). nra.
Qed.
(** an edge with an empty circle through its ends is legal *)
Lemma spoke_legal o k p w x y : pw o k p = 0 -> pw o k w = 0 -> 0 < area2 p w x -> area2 p w y < 0 -> 0 <= pw o k x -> 0 <= pw o k y -> 0 <= pow p w x y.
Proof.
  intros P W X Y PX PY.
  pose proof (pw_pencil (cc p w x) (sq p (cc p w x)) o k p w y x) as E. fold (pow p w x p) (pow p w x w) (pow p w x y) (pow p w x x) in E.
  rewrite pow_a, pow_b, pow_c in E by lra. specialize (E eq_refl eq_refl P W).
  assert (0 <= (pow p w x y - pw o k y) * area2 p w x). { rewrite E. replace ((0 - pw o k x) * area2 p w y) with (pw o k x * - area2 p w y) by ring. apply Rmult_le_pos; lra. }
  assert (0 <= pow p w x y - pw o k y); [|lra]. destruct (Rle_lt_dec 0 (pow p w x y - pw o k y)) as [L|L]; [exact L|exfalso].
  assert (0 < - (pow p w x y - pw o k y) * area2 p w x) by (apply Rmult_lt_0_compat; lra). lra.
Qed.
(** on a circle, what lies beyond a side of an inscribed triangle lies on the far side of the others *)
Lemma cap_nested o k a b c u : 0 < area2 a b c -> pw o k a = 0 -> pw o k b = 0 -> pw o k c = 0 -> pw o k u = 0 ->
  area2 b c u < 0 -> 0 < area2 a b u /\ 0 < area2 c a u.
Proof.
  intros A PA PB PC PU L. pose proof (area_sum a b c u) as S.
  assert (NA : u <> a). { intros ->. rewrite <- area_rot in L. lra. }
  split; [destruct (Rlt_le_dec 0 (area2 a b u)) as [X|X]|destruct (Rlt_le_dec 0 (area2 c a u)) as [X|X]]; try assumption; exfalso.
  - destruct (Rlt_le_dec 0 (area2 c a u)) as [Y|Y]; [|lra].
    assert (E1 : area2 u c a = area2 c a u) by (plane; ring). assert (E2 : area2 u c b = - area2 b c u) by (plane; ring). assert (E3 : area2 a u b = - area2 a b u) by (plane; ring). assert (E4 : area2 c a b = area2 a b c) by (plane; ring).
    apply (on_rim o k b c a u); try assumption; try lra. left. split; [lra|exact NA].
  - assert (E1 : area2 u a b = area2 a b u) by (plane; ring). assert (E2 : area2 u a c = - area2 c a u) by (plane; ring). assert (E3 : area2 b u c = - area2 b c u) by (plane; ring).
    apply (on_rim o k c a b u); try assumption; try lra. right. split; [lra|exact NA].
Qed.
