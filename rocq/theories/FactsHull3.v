(** Planar hull: convex position, enclosure, convex combinations *)
From Verif Require Import Base Spec SpecGeom SpecHull ModelVec ModelElem ModelHull FactsVec FactsAlg FactsElem FactsHull FactsHull2.
From Coq Require Import List Lia Lra ZArith Sorting.Sorted Sorting.Permutation.
Import ListNotations.
Open Scope R_scope.

(** ** consecutive elements *)
Definition adj {A} (l : list A) (a b : A) : Prop := exists p s, l = p ++ a :: b :: s.
Definition adj3 {A} (l : list A) (a b c : A) : Prop := exists p s, l = p ++ a :: b :: c :: s.
Lemma adj_split {A} x (m : A) y a b : adj (x ++ m :: y) a b -> adj (x ++ [m]) a b \/ adj (m :: y) a b.
Proof.
  intros (p & s & E). revert p E. induction x as [|z x IH]; intros p E; [right; exists p, s; exact E|]. destruct p as [|w p]; cbn in E.
  - injection E as -> E. left. destruct x as [|z' x]; cbn in E; injection E as -> E; [exists [], []; reflexivity|]. exists [], (x ++ [m]). reflexivity.
  - injection E as -> E. destruct (IH p E) as [(p' & s' & E')|H]; [left; exists (w :: p'), s'; cbn; rewrite E'; reflexivity|right; exact H].
Qed.
Lemma adj3_split {A} x (m : A) y a b c : adj3 (x ++ m :: y) a b c -> adj3 (x ++ [m]) a b c \/ adj3 (m :: y) a b c \/ (b = m /\ (exists x', x = x' ++ [a]) /\ exists y', y = c :: y').
Proof.
  intros (p & s & E). revert p E. induction x as [|z x IH]; intros p E; [right; left; exists p, s; exact E|]. destruct p as [|w p]; cbn in E.
  - injection E as -> E. destruct x as [|z' x]; cbn in E.
    + injection E as -> E. right. right. split; [reflexivity|]. split; [exists []; reflexivity|]. exists s. exact E.
    + injection E as -> E. left. destruct x as [|z2 x]; cbn in E; injection E as -> E; [exists [], []; reflexivity|exists [], (x ++ [m]); reflexivity].
  - injection E as -> E. destruct (IH p E) as [(p' & s' & E')|[H|(-> & (x' & ->) & H)]]; [left; exists (w :: p'), s'; cbn; rewrite E'; reflexivity|right; left; exact H|].
    right. right. split; [reflexivity|]. split; [exists (w :: x'); reflexivity|exact H].
Qed.
Lemma adj_cons {A} (z : A) l a b : adj l a b -> adj (z :: l) a b.
Proof. intros (p & s & ->). exists (z :: p), s. reflexivity. Qed.
Lemma adj_in {A} (l : list A) a b : adj l a b -> List.In a l /\ List.In b l.
Proof. intros (p & s & ->). split; apply in_or_app; right; [left|right; left]; reflexivity. Qed.

Section Frame.
Variables s0 s1 : vec3.
Notation cx := (cx s0). Notation cy := (cy s1). Notation turn := (turn s0 s1). Notation before := (before s0 s1). Notation chain := (chain s0 s1).
Lemma chain_adj A P a b : chain A P -> adj P a b -> before a b /\ forall q, List.In q A -> turn a b q <= 0.
Proof.
  intros C (p & s & E). revert p E. induction C as [x|x y r B H N C IH]; intros p E.
  - destruct p as [|? [|? ?]]; discriminate.
  - destruct p as [|w p]; cbn in E; [injection E as -> -> ->; auto|]. injection E as -> E. apply (IH p). exact E.
Qed.
Lemma chain_adj3 A P a b c : chain A P -> adj3 P a b c -> turn a b c < 0.
Proof.
  intros C (p & s & E). revert p E. induction C as [x|x y r B H N C IH]; intros p E.
  - destruct p as [|? [|? ?]]; discriminate.
  - destruct p as [|w p]; cbn in E; [injection E as -> -> ->; exact N|]. injection E as -> E. apply (IH p). exact E.
Qed.
Definition lexle (a b : vec3) : Prop := before a b \/ (cx a = cx b /\ cy a = cy b).
Lemma lexle_total a b : lexle a b \/ before b a.
Proof. unfold lexle, before, FactsHull.before, lexpos. destruct (Rtotal_order (cx a) (cx b)) as [H|[H|H]]; [left; left; left; lra| |right; left; lra]. destruct (Rtotal_order (cy a) (cy b)) as [K|[K|K]]; [left; left; right; lra|left; right; lra|right; right; lra]. Qed.
(** a chain passes over every point between its ends *)
Lemma chain_cover A P : chain A P -> forall p0 d q, P = p0 :: d -> d <> [] -> lexle p0 q -> lexle q (last P p0) -> exists a b, adj P a b /\ lexle a q /\ lexle q b.
Proof.
  induction 1 as [x|x y r B H N C IH]; intros p0 d q E D L R; [injection E as -> <-; contradiction|]. injection E as -> <-.
  destruct (lexle_total q y) as [Q|Q].
  - exists p0, y. split; [exists [], r; reflexivity|]. split; assumption.
  - destruct r as [|z r].
    + exists p0, y. split; [exists [], []; reflexivity|]. split; [exact L|exact R].
    + destruct (IH y (z :: r) q eq_refl) as (a & b & J & K); [discriminate|left; exact Q| |exists a, b; split; [apply adj_cons, J|exact K]].
      replace (last (y :: z :: r) y) with (last (p0 :: y :: z :: r) p0); [exact R|]. cbn. clear. revert z. induction r; intros z; [reflexivity|]. apply IHr.
Qed.
(** the joint of two chains *)
Lemma joint A a m c : before a m -> before c m -> (forall q, List.In q A -> turn a m q <= 0) -> (forall q, List.In q A -> turn m c q <= 0) -> List.In c A ->
  (forall q, List.In q A -> turn a m q = 0) \/ turn a m c < 0.
Proof.
  intros B1 B2 H1 H2 I. destruct (H1 c I) as [L|E]; [right; exact L|left]. intros q J. specialize (H1 q J). specialize (H2 q J). unfold before, FactsHull.before, lexpos, turn, FactsHull.turn in *.
  set (e1 := cx m - cx a) in *. set (f1 := cy m - cy a) in *. set (g := cx m - cx c) in *. set (h := cy m - cy c) in *.
  replace (cx c - cx a) with (e1 - g) in E by (unfold e1, g; ring). replace (cy c - cy a) with (f1 - h) in E by (unfold f1, h; ring).
  replace (cx c - cx m) with (- g) in H2 by (unfold g; ring). replace (cy c - cy m) with (- h) in H2 by (unfold h; ring).
  set (x := cx q - cx m) in *. set (y := cy q - cy m) in *. replace (cx q - cx a) with (e1 + x) in * by (unfold e1, x; ring). replace (cy q - cy a) with (f1 + y) in * by (unfold f1, y; ring).
  clearbody e1 f1 g h x y. assert (E' : e1 * h = f1 * g) by lra. clear E. assert (K1 : e1 * y - f1 * x <= 0) by lra. assert (K2 : h * x - g * y <= 0) by lra. enough (0 <= e1 * y - f1 * x) by lra.
  destruct B1 as [P|[-> P]].
  - assert (F : e1 * (h * x - g * y) = - (g * (e1 * y - f1 * x))) by (replace (e1 * (h * x - g * y)) with ((e1 * h) * x - g * (e1 * y)) by ring; rewrite E'; ring).
    assert (G : 0 < g). { destruct B2 as [G|[-> G]]; [exact G|]. assert (0 < e1 * h) by (apply Rmult_lt_0_compat; assumption). lra. }
    assert (0 <= - (h * x - g * y) * e1) by (apply Rmult_le_pos; lra). nra.
  - assert (G : g = 0) by nra. subst g. assert (H : 0 < h) by (destruct B2; lra). assert (x <= 0) by nra. nra.
Qed.
Lemma collinear3 a m p q r : before a m -> turn a m p = 0 -> turn a m q = 0 -> turn a m r = 0 -> turn p q r = 0.
Proof.
  unfold before, FactsHull.before, lexpos, turn, FactsHull.turn. intros B P Q S.
  set (e1 := cx m - cx a) in *. set (f1 := cy m - cy a) in *. assert (D1 : e1 * (cy q - cy p) = f1 * (cx q - cx p)) by lra. assert (D2 : e1 * (cy r - cy p) = f1 * (cx r - cx p)) by lra.
  set (x := cx q - cx p) in *. set (y := cy q - cy p) in *. set (u := cx r - cx p) in *. set (v := cy r - cy p) in *. clearbody e1 f1 x y u v.
  destruct B as [B|[-> B]].
  - assert (E : e1 * (x * v - y * u) = 0) by (replace (e1 * (x * v - y * u)) with (x * (e1 * v) - (e1 * y) * u) by ring; rewrite D1, D2; ring). apply Rmult_integral in E. destruct E; [lra|assumption].
  - assert (x = 0) by nra. assert (u = 0) by nra. subst. ring.
Qed.
End Frame.
(** ** the reversed frame *)
Lemma cx_rev s p : cx (zVec3DRev s) p = - cx s p.
Proof. unfold cx. spec_unfold. unfold zVec3DRev. cbn [vx vy vz]. ring. Qed.
Lemma cy_rev s p : cy (zVec3DRev s) p = - cy s p.
Proof. unfold cy. spec_unfold. unfold zVec3DRev. cbn [vx vy vz]. ring. Qed.
Lemma turn_rev s0 s1 a b c : turn (zVec3DRev s0) (zVec3DRev s1) a b c = turn s0 s1 a b c.
Proof. unfold turn, cx, cy, zVec3DRev. spec_unfold. cbn [vx vy vz]. ring. Qed.
Lemma before_rev s0 s1 a b : before (zVec3DRev s0) (zVec3DRev s1) a b <-> before s0 s1 b a.
Proof.
  unfold before, lexpos. pose proof (cx_rev s0 a). pose proof (cx_rev s0 b). pose proof (cy_rev s1 a). pose proof (cy_rev s1 b). split; intros [U|[U K]]; [left|right|left|right]; lra. Qed.
Lemma tells_rev s0 s1 l : tells s0 s1 l -> tells (zVec3DRev s0) (zVec3DRev s1) l.
Proof. intros H p q I J. destruct (H p q I J) as (A & B). split; [exact A|]. pose proof (cx_rev s0 p). pose proof (cx_rev s0 q). pose proof (cy_rev s1 p). pose proof (cy_rev s1 q). intros. apply B; lra. Qed.
Lemma tells_incl s0 s1 l l' : incl l' l -> tells s0 s1 l -> tells s0 s1 l'.
Proof. intros C H p q I J. apply H; apply C; assumption. Qed.
(** ** orthogonal frame in a plane *)
Lemma frame_det w n u : dot n u = 0 -> dot w n = 0 -> dot w u = 0 -> dot w (cross n u) = 0 -> n <> v3zero -> u <> v3zero -> w = v3zero.
Proof.
  intros H1 H2 H3 H4 N U. assert (G : dot w (cross n u) * dot w (cross n u) = dot w w * (dot n n * dot u u - dot n u * dot n u) - dot w n * (dot w n * dot u u - dot n u * dot w u) + dot w u * (dot w n * dot n u - dot n n * dot w u)) by (spec_unfold; ring).
  rewrite H1, H2, H3, H4 in G. assert (P : forall v, v <> v3zero -> 0 < dot v v). { intros v V. destruct (dot_self_nonneg v) as [K|K]; [exact K|]. symmetry in K. apply dot_self_zero in K. contradiction. }
  pose proof (P n N). pose proof (P u U). assert (0 < dot n n * dot u u) by (apply Rmult_lt_0_compat; assumption). apply dot_self_zero.
  assert (E : dot w w * (dot n n * dot u u) = 0) by lra. apply Rmult_integral in E. destruct E; [assumption|lra].
Qed.
Lemma cross_plane n u v : dot n u = 0 -> dot n v = 0 -> n <> v3zero -> exists k, cross u v = vscale k n.
Proof.
  intros A B N. assert (P : 0 < dot n n). { destruct (dot_self_nonneg n) as [K|K]; [exact K|]. symmetry in K. apply dot_self_zero in K. contradiction. }
  exists (dot n (cross u v) / dot n n). assert (E : vscale (dot n n) (cross u v) = vscale (dot n (cross u v)) n).
  { assert (T : vsub (vscale (dot n n) (cross u v)) (vscale (dot n (cross u v)) n) = vsub (vscale (dot n u) (cross n v)) (vscale (dot n v) (cross n u))) by (apply vec3_ext; spec_unfold; ring).
    rewrite A, B in T. apply vec3_ext; [apply (f_equal vx) in T|apply (f_equal vy) in T|apply (f_equal vz) in T]; spec_unfold; lra. }
  apply vec3_ext; [apply (f_equal vx) in E|apply (f_equal vy) in E|apply (f_equal vz) in E]; spec_unfold; apply (Rmult_eq_reg_l (vx n * vx n + vy n * vy n + vz n * vz n)); try lra; rewrite E; field; lra.
Qed.
