(** Planar hull: the result *)
From Verif Require Import Base Spec SpecGeom SpecHull ModelVec ModelElem ModelHull FactsVec FactsAlg FactsElem FactsHull FactsHull2 FactsHull3.
From Coq Require Import List Lia Lra ZArith Sorting.Sorted Sorting.Permutation.
Import ListNotations.
Open Scope R_scope.

Lemma binet s0 s1 a b q : dot (cross s1 s0) (cross (vsub b a) (vsub q a)) = - turn s0 s1 a b q.
Proof. unfold turn, cx, cy. spec_unfold. ring. Qed.
(** ** comparison *)
Definition parted (s0 s1 : vec3) (l : list vec3) : Prop := forall p q, List.In p l -> List.In q l -> vgap p q /\ gap (dot p s0) (dot q s0) /\ (dot p s0 = dot q s0 -> gap (dot p s1) (dot q s1)).
Lemma gap_tiny x y : gap x y -> zIsTiny (x - y) = true -> x = y.
Proof. intros [E|G] T; [exact E|]. unfold zIsTiny in T. apply zIsTol_true in T. lra. Qed.
Lemma cmp_le s0 s1 p q : gap (dot p s0) (dot q s0) -> (dot p s0 = dot q s0 -> gap (dot p s1) (dot q s1)) -> ((z_ch2d_cmp s0 s1 p q <= 0)%Z <-> lexle s0 s1 p q).
Proof.
  intros G0 G1. unfold z_ch2d_cmp, lexle, before, lexpos, cx, cy. zvg. destruct (zIsTiny (dot p s0 - dot q s0)) eqn:T.
  - apply (gap_tiny _ _ G0) in T. specialize (G1 T). destruct (zIsTiny (dot p s1 - dot q s1)) eqn:T1.
    + apply (gap_tiny _ _ G1) in T1. split; [intros _; right; split; assumption|lia].
    + assert (N : dot p s1 <> dot q s1). { intros E. rewrite E, Rminus_eq_0 in T1. unfold zIsTiny in T1. apply zIsTol_false in T1. rewrite Rabs_R0 in T1. pose proof zTOL_pos. lra. }
      destruct (Rltb (dot q s1) (dot p s1)) eqn:C; [apply Rltb_true in C|apply Rltb_false in C]; (split; [intros K|intros [[K|[K K']]|[K K']]]); try lia; try lra.
  - assert (N : dot p s0 <> dot q s0). { intros E. rewrite E, Rminus_eq_0 in T. unfold zIsTiny in T. apply zIsTol_false in T. rewrite Rabs_R0 in T. pose proof zTOL_pos. lra. }
    destruct (Rltb (dot q s0) (dot p s0)) eqn:C; [apply Rltb_true in C|apply Rltb_false in C]; (split; [intros K|intros [[K|[K K']]|[K K']]]); try lia; try lra.
Qed.
Lemma lexle_trans s0 s1 a b c : lexle s0 s1 a b -> lexle s0 s1 b c -> lexle s0 s1 a c.
Proof.
  unfold lexle, before, lexpos. intros [[H|[H H1]]|[H H1]] [[K|[K K1]]|[K K1]]; try (left; left; lra); try (left; right; lra). right. lra.
Qed.
Lemma gap_sym x y : gap x y -> gap y x.
Proof. intros [E|G]; [left; auto|right]. rewrite Rabs_minus_sym. exact G. Qed.
Lemma sorted_frame sort s0 s1 l : sorts sort -> parted s0 s1 l -> tells s0 s1 l -> let A := sort (z_ch2d_cmp s0 s1) l in Permutation A l /\ StronglySorted (ordered s0 s1) A.
Proof.
  intros S P T A. destruct (S (z_ch2d_cmp s0 s1) l) as (Pm & So).
  - intros a b c Ia Ib Ic. destruct (P a b Ia Ib) as (_ & g1 & g2), (P b c Ib Ic) as (_ & g3 & g4), (P a c Ia Ic) as (_ & g5 & g6). rewrite !cmp_le by assumption. apply lexle_trans.
  - intros a b Ia Ib. destruct (P a b Ia Ib) as (_ & g1 & g2), (P b a Ib Ia) as (_ & g3 & g4). rewrite !cmp_le by assumption. destruct (lexle_total s0 s1 a b) as [H|H]; [left; exact H|right; left; exact H].
  - split; [exact Pm|]. apply (sorted_impl _ _ _) with (2 := So). intros a b Ia Ib C. apply (Permutation_in _ Pm) in Ia. apply (Permutation_in _ Pm) in Ib. destruct (P a b Ia Ib) as (_ & g1 & g2). apply cmp_le in C; [|assumption|assumption].
    destruct C as [C|(C1 & C2)]; [right; exact C|left]. apply (proj2 (T a b Ia Ib)); assumption.
Qed.
(** ** points told apart in the plane *)
Lemma vgap_tiny p q : vgap p q -> p <> q -> zVec3DIsTiny (zVec3DSub p q) = false.
Proof.
  intros [E|G] N; [contradiction|]. unfold zVec3DIsTiny, zVec3DIsTol, zVec3DSub. cbn [vx vy vz]. apply Bool.andb_false_iff. destruct G as [G|[G|G]]; [left; apply Bool.andb_false_iff; left|left; apply Bool.andb_false_iff; right|right]; apply zIsTol_false; exact G.
Qed.
Section Plane.
Variables (o nn : vec3) (l : list vec3) (t a b n : vec3) (k0 k1 : R).
Hypothesis Hp : planar o nn l.
Hypothesis It : List.In t l. Hypothesis Ia : List.In a l. Hypothesis Ib : List.In b l.
Hypothesis Hu : vsub a t <> v3zero. Hypothesis Hn : n = cross (vsub a t) (vsub b t). Hypothesis Hnz : n <> v3zero. Hypothesis K0 : 0 < k0. Hypothesis K1 : 0 < k1.
Let s0 := vscale k0 (vsub a t). Let s1 := vscale k1 (cross n (vsub a t)).
Lemma diff_plane p q : List.In p l -> List.In q l -> dot nn (vsub p q) = 0.
Proof. destruct Hp as (_ & H). intros I J. pose proof (H p I). pose proof (H q J). spec_unfold. lra. Qed.
Lemma n_plane : exists k, k <> 0 /\ n = vscale k nn.
Proof.
  destruct (cross_plane nn (vsub a t) (vsub b t)) as (k & E); [apply diff_plane; assumption|apply diff_plane; assumption|apply Hp|]. exists k. rewrite <- Hn in E. split; [|exact E].
  intros ->. apply Hnz. rewrite E. apply vec3_ext; spec_unfold; ring.
Qed.
Lemma n_diff p q : List.In p l -> List.In q l -> dot n (vsub p q) = 0.
Proof. intros I J. destruct n_plane as (k & _ & ->). pose proof (diff_plane p q I J). replace (dot (vscale k nn) (vsub p q)) with (k * dot nn (vsub p q)) by (spec_unfold; ring). rewrite H. ring. Qed.
(** a difference with no component along the frame vanishes *)
Lemma frame_zero w : dot n w = 0 -> dot w s0 = 0 -> dot w s1 = 0 -> w = v3zero.
Proof.
  intros N X Y. apply (frame_det w n (vsub a t)); try assumption.
  - apply n_diff; assumption.
  - rewrite dot_comm. exact N.
  - unfold s0 in X. replace (dot w (vscale k0 (vsub a t))) with (k0 * dot w (vsub a t)) in X by (spec_unfold; ring). apply Rmult_integral in X. destruct X; [lra|assumption].
  - unfold s1 in Y. replace (dot w (vscale k1 (cross n (vsub a t)))) with (k1 * dot w (cross n (vsub a t))) in Y by (spec_unfold; ring). apply Rmult_integral in Y. destruct Y; [lra|assumption].
Qed.
Lemma plane_tells : (forall p q, List.In p l -> List.In q l -> vgap p q) -> tells s0 s1 l.
Proof.
  intros G p q I J. split; [apply vgap_tiny, G; assumption|]. unfold cx, cy. intros X Y.
  assert (Z : vsub p q = v3zero) by (apply frame_zero; [apply n_diff; assumption|spec_unfold; lra|spec_unfold; lra]).
  apply vec3_ext; [apply (f_equal vx) in Z|apply (f_equal vy) in Z|apply (f_equal vz) in Z]; spec_unfold; lra.
Qed.
Lemma base_turn : 0 < turn s0 s1 t a b.
Proof.
  assert (E : turn s0 s1 t a b = k0 * k1 * (dot (vsub a t) (vsub a t) * dot n n - dot n (vsub a t) * dot n (vsub b t) * 0)).
  { unfold turn, cx, cy, s0, s1. rewrite Hn. spec_unfold. ring. }
  rewrite E. assert (P : forall v, v <> v3zero -> 0 < dot v v). { intros v V. destruct (dot_self_nonneg v) as [K|K]; [exact K|]. symmetry in K. apply dot_self_zero in K. contradiction. }
  pose proof (P _ Hu). pose proof (P _ Hnz). rewrite Rmult_0_r, Rminus_0_r. apply Rmult_lt_0_compat; apply Rmult_lt_0_compat; assumption.
Qed.
Lemma frame_normal : exists k, k <> 0 /\ cross s1 s0 = vscale k nn.
Proof.
  destruct n_plane as (k & Kz & E). pose proof (n_diff a t Ia It) as N. assert (D : 0 < dot (vsub a t) (vsub a t)) by (destruct (dot_self_nonneg (vsub a t)) as [K|K]; [exact K|]; symmetry in K; apply dot_self_zero in K; contradiction).
  assert (C : cross s1 s0 = vscale (- (k0 * k1 * dot (vsub a t) (vsub a t))) n).
  { unfold s0, s1. set (u := vsub a t) in *. clearbody u. assert (T : cross (vscale k1 (cross n u)) (vscale k0 u) = vsub (vscale (k0 * k1 * dot n u) u) (vscale (k0 * k1 * dot u u) n)) by (apply vec3_ext; spec_unfold; ring).
    rewrite T, N. apply vec3_ext; spec_unfold; ring. }
  exists (- (k0 * k1 * dot (vsub a t) (vsub a t)) * k). split.
  - apply Rmult_integral_contrapositive_currified; [|exact Kz]. assert (0 < k0 * k1 * dot (vsub a t) (vsub a t)) by (apply Rmult_lt_0_compat; [apply Rmult_lt_0_compat|]; assumption). lra.
  - rewrite C, E. apply vec3_ext; spec_unfold; ring.
Qed.
End Plane.
(** ** between an upper and a lower edge *)
Lemma mix_segment s a b : 0 <= s <= 1 -> segment a b (vadd (vscale (1 - s) a) (vscale s b)).
Proof. intros H. exists (1 - s), s. split; [unfold weights2; lra|reflexivity]. Qed.
Section Between.
Variables (s0 s1 n : vec3).
Hypothesis inj : forall w, dot n w = 0 -> dot w s0 = 0 -> dot w s1 = 0 -> w = v3zero.
Notation cx := (cx s0). Notation cy := (cy s1).
Lemma same_point p q : dot n (vsub p q) = 0 -> cx p = cx q -> cy p = cy q -> p = q.
Proof.
  unfold FactsHull.cx, FactsHull.cy. intros N X Y. assert (Z : vsub p q = v3zero) by (apply inj; [exact N|spec_unfold; lra|spec_unfold; lra]).
  apply vec3_ext; [apply (f_equal vx) in Z|apply (f_equal vy) in Z|apply (f_equal vz) in Z]; spec_unfold; lra.
Qed.
(** the point of an edge over a given abscissa *)
Lemma over_edge a b q : lexle s0 s1 a q -> lexle s0 s1 q b -> dot n (vsub a q) = 0 -> dot n (vsub b q) = 0 ->
  segment a b q \/ (cx a < cx b /\ exists x, segment a b x /\ dot n (vsub x q) = 0 /\ cx x = cx q /\ (cx b - cx a) * (cy q - cy x) = turn s0 s1 a b q).
Proof.
  intros L1 L2 Na Nb. assert (X1 : cx a <= cx q) by (unfold lexle, before, lexpos in L1; lra). assert (X2 : cx q <= cx b) by (unfold lexle, before, lexpos in L2; lra).
  destruct (Rlt_or_le (cx a) (cx b)) as [H|H].
  - right. split; [exact H|]. set (s := (cx q - cx a) / (cx b - cx a)).
    assert (S : 0 <= s <= 1). { unfold s. split; [apply Rmult_le_pos; [lra|left; apply Rinv_0_lt_compat; lra]|]. apply (Rmult_le_reg_r (cx b - cx a)); [lra|]. unfold Rdiv. rewrite Rmult_assoc, Rinv_l by lra. lra. }
    exists (vadd (vscale (1 - s) a) (vscale s b)). split; [apply mix_segment, S|]. assert (Sx : s * (cx b - cx a) = cx q - cx a) by (unfold s; field; lra).
    assert (Lx : forall v, dot (vadd (vscale (1 - s) a) (vscale s b)) v = dot a v + s * (dot b v - dot a v)) by (intros; spec_unfold; ring).
    unfold turn, FactsHull.cx, FactsHull.cy in *. rewrite !Lx. split; [|split].
    + replace (dot n (vsub (vadd (vscale (1 - s) a) (vscale s b)) q)) with ((1 - s) * dot n (vsub a q) + s * dot n (vsub b q)) by (spec_unfold; ring). rewrite Na, Nb. ring.
    + lra.
    + replace ((dot b s0 - dot a s0) * (dot q s1 - (dot a s1 + s * (dot b s1 - dot a s1)))) with ((dot b s0 - dot a s0) * (dot q s1 - dot a s1) - (s * (dot b s0 - dot a s0)) * (dot b s1 - dot a s1)) by ring. rewrite Sx. ring.
  - left. assert (E1 : cx q = cx a) by lra. assert (E2 : cx b = cx a) by lra. assert (Y1 : cy a <= cy q) by (unfold lexle, before, lexpos in L1; lra). assert (Y2 : cy q <= cy b) by (unfold lexle, before, lexpos in L2; lra).
    destruct (Req_dec (cy a) (cy b)) as [F|F].
    + assert (a = q) by (apply same_point; [exact Na|lra|lra]). subst q. exists 1, 0. split; [unfold weights2; lra|]. unfold comb2; apply vec3_ext; spec_unfold; ring.
    + set (s := (cy q - cy a) / (cy b - cy a)). assert (S : 0 <= s <= 1). { unfold s. split; [apply Rmult_le_pos; [lra|left; apply Rinv_0_lt_compat; lra]|]. apply (Rmult_le_reg_r (cy b - cy a)); [lra|]. unfold Rdiv. rewrite Rmult_assoc, Rinv_l by lra. lra. }
      assert (Sx : s * (cy b - cy a) = cy q - cy a) by (unfold s; field; lra).
      assert (Lx : forall v, dot (vadd (vscale (1 - s) a) (vscale s b)) v = dot a v + s * (dot b v - dot a v)) by (intros; spec_unfold; ring).
      replace q with (vadd (vscale (1 - s) a) (vscale s b)); [apply mix_segment, S|]. apply same_point.
      * replace (dot n (vsub (vadd (vscale (1 - s) a) (vscale s b)) q)) with ((1 - s) * dot n (vsub a q) + s * dot n (vsub b q)) by (spec_unfold; ring). rewrite Na, Nb. ring.
      * unfold FactsHull.cx in *. rewrite Lx. rewrite E2, E1. ring.
      * unfold FactsHull.cy in *. rewrite Lx, Sx. ring.
Qed.
Lemma between_edges L a b c d q : List.In a L -> List.In b L -> List.In c L -> List.In d L -> (forall p, List.In p L -> dot n (vsub p q) = 0) ->
  lexle s0 s1 a q -> lexle s0 s1 q b -> turn s0 s1 a b q <= 0 -> lexle s0 s1 d q -> lexle s0 s1 q c -> turn s0 s1 c d q <= 0 -> convex_hull L q.
Proof.
  intros Ia Ib Ic Id N La Lb T1 Ld Lc T2. destruct (over_edge a b q La Lb (N a Ia) (N b Ib)) as [S|(H & x & Sx & Nx & Xx & Yx)]; [apply (hull_mix L a b); [apply hull_point, Ia|apply hull_point, Ib|exact S]|].
  destruct (over_edge d c q Ld Lc (N d Id) (N c Ic)) as [S|(H' & y & Sy & Ny & Xy & Yy)]; [apply (hull_mix L d c); [apply hull_point, Id|apply hull_point, Ic|exact S]|].
  assert (Hx : convex_hull L x) by (apply (hull_mix L a b); [apply hull_point, Ia|apply hull_point, Ib|exact Sx]). assert (Hy : convex_hull L y) by (apply (hull_mix L d c); [apply hull_point, Id|apply hull_point, Ic|exact Sy]).
  assert (Q1 : cy q <= cy x) by nra. assert (Q2 : cy y <= cy q). { assert (T3 : turn s0 s1 d c q = - turn s0 s1 c d q) by (unfold turn; ring). rewrite T3 in Yy. nra. }
  destruct (Req_dec (cy x) (cy y)) as [E|E].
  - assert (x = q) by (apply same_point; [exact Nx|exact Xx|lra]). subst q. exact Hx.
  - set (s := (cy q - cy y) / (cy x - cy y)). assert (S : 0 <= s <= 1). { unfold s. split; [apply Rmult_le_pos; [lra|left; apply Rinv_0_lt_compat; lra]|]. apply (Rmult_le_reg_r (cy x - cy y)); [lra|]. unfold Rdiv. rewrite Rmult_assoc, Rinv_l by lra. lra. }
    apply (hull_mix L y x); [exact Hy|exact Hx|]. assert (Ss : s * (cy x - cy y) = cy q - cy y) by (unfold s; field; lra).
    assert (Lx : forall v, dot (vadd (vscale (1 - s) y) (vscale s x)) v = dot y v + s * (dot x v - dot y v)) by (intros; spec_unfold; ring).
    replace q with (vadd (vscale (1 - s) y) (vscale s x)); [apply mix_segment, S|]. apply same_point.
    + replace (dot n (vsub (vadd (vscale (1 - s) y) (vscale s x)) q)) with ((1 - s) * dot n (vsub y q) + s * dot n (vsub x q)) by (spec_unfold; ring). rewrite Nx, Ny. ring.
    + unfold FactsHull.cx in *. rewrite Lx, Xx, Xy. ring.
    + unfold FactsHull.cy in *. rewrite Lx, Ss. ring.
Qed.
End Between.
