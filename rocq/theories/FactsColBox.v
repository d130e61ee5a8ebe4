(** Proofs about intersections of planes and triangles with axis-aligned boxes. *)
From Coq Require Import List Bool Lia.
Import ListNotations.
From Verif Require Import Base ModelVec ModelBox ModelTree ModelElem ModelCol SpecCol FactsVec FactsAlg Facts2D FactsElem FactsTri FactsTri2 FactsLine FactsCentre FactsObb FactsBox FactsSweep FactsCol FactsCol2 FactsCol3 FactsCol4.
Open Scope R_scope.

(** ** a plane and a box *)
Lemma elem_along a w1 w2 w3 : elem a (alongAxis a w1 w2 w3) = w1 /\ elem (axis_next a) (alongAxis a w1 w2 w3) = w2 /\ elem (axis_next (axis_next a)) (alongAxis a w1 w2 w3) = w3.
Proof. destruct a; cbn; auto. Qed.
Lemma along_height p a w1 w2 w3 : height (porg p) (pnorm p) (alongAxis a w1 w2 w3) =
  elem a (pnorm p) * w1 + elem (axis_next a) (pnorm p) * w2 + elem (axis_next (axis_next a)) (pnorm p) * w3 - dot (pnorm p) (porg p).
Proof. unfold height. destruct a; cbn [elem axis_next alongAxis]; spec_unfold; ring. Qed.
Lemma box_edge p a w1min w1max w2 w3 q :
  zIntersectPlaneAABox3DEdge p a w1min w1max w2 w3 = Some q <->
  zTOL <= Rabs (elem a (pnorm p)) /\ on_plane (porg p) (pnorm p) q /\ exists w1, strictly w1min w1max w1 /\ q = alongAxis a w1 w2 w3.
Proof.
  unfold zIntersectPlaneAABox3DEdge. pose proof zTOL_pos as TP.
  destruct (zIsTiny (elem a (pnorm p))) eqn:T.
  { apply Rltb_true in T. split; [discriminate|]. intros (H & _). lra. }
  apply Rltb_false in T. cbv zeta. zvg.
  assert (N : elem a (pnorm p) <> 0) by (intros Z; rewrite Z, Rabs_R0 in T; lra).
  set (w := (dot (pnorm p) (porg p) - elem (axis_next a) (pnorm p) * w2 - elem (axis_next (axis_next a)) (pnorm p) * w3) / elem a (pnorm p)).
  assert (Ew : elem a (pnorm p) * w = dot (pnorm p) (porg p) - elem (axis_next a) (pnorm p) * w2 - elem (axis_next (axis_next a)) (pnorm p) * w3) by (unfold w; field; assumption).
  assert (On : forall v, on_plane (porg p) (pnorm p) (alongAxis a v w2 w3) <-> v = w).
  { intros v. unfold on_plane. fold (height (porg p) (pnorm p) (alongAxis a v w2 w3)). rewrite along_height. split; intros H.
    - apply (Rmult_eq_reg_l (elem a (pnorm p))); [lra|assumption].
    - subst v. lra. }
  destruct (Rltb w1min w && Rltb w w1max) eqn:B.
  - apply andb_true_iff in B. rewrite !Rltb_true in B. split.
    + intros H. inversion H. subst q. split; [assumption|]. split; [apply On; reflexivity|]. exists w. auto.
    + intros (_ & H & w1 & S1 & ->). apply On in H. subst w1. reflexivity.
  - split; [discriminate|]. intros (_ & H & w1 & S1 & ->). apply On in H. subst w1. destruct S1 as [A C].
    apply Rltb_true in A. apply Rltb_true in C. rewrite A, C in B. discriminate.
Qed.
Lemma v3_eta q : V3 (vx q) (vy q) (vz q) = q.
Proof. destruct q; reflexivity. Qed.
Lemma plane_box_in p b q : List.In q (zIntersectPlaneAABox3D p b) <-> on_plane (porg p) (pnorm p) q /\ edge_hit (pnorm p) b q.
Proof.
  unfold zIntersectPlaneAABox3D. rewrite in_flat_map.
  assert (H1 : (exists r, List.In r (boxEdgeCalls p b) /\ List.In q match r with Some ip => [ip] | None => [] end) <-> List.In (Some q) (boxEdgeCalls p b)).
  { split.
    - intros ([v|] & A & B); [destruct B as [<-|[]]; assumption|destruct B].
    - intros A. exists (Some q). split; [assumption|left; reflexivity]. }
  rewrite H1. clear H1. unfold boxEdgeCalls. cbn [List.In]. rewrite !box_edge. cbn [elem alongAxis].
  unfold edge_hit, on_x_edge, on_y_edge, on_z_edge, at_end.
  split.
  - intros H. repeat destruct H as [H|H]; try contradiction; destruct H as (T & P & w & W & ->); (split; [assumption|]); cbn [vx vy vz]; tauto.
  - intros (P & [(T & S1 & [A|A] & [B|B])|[(T & S1 & [A|A] & [B|B])|(T & S1 & [A|A] & [B|B])]]).
    all: destruct q as [qx qy qz]; cbn [vx vy vz] in *; subst.
    + left. eauto 6.
    + do 3 right. left. eauto 6.
    + do 1 right. left. eauto 6.
    + do 2 right. left. eauto 6.
    + do 4 right. left. eauto 6.
    + do 7 right. left. eauto 6.
    + do 5 right. left. eauto 6.
    + do 6 right. left. eauto 6.
    + do 8 right. left. eauto 6.
    + do 11 right. left. eauto 6.
    + do 9 right. left. eauto 6.
    + do 10 right. left. eauto 6.
Qed.
Lemma plane_box_check p b : zColChkPlaneAABox3D p b = true <-> exists q, on_plane (porg p) (pnorm p) q /\ edge_hit (pnorm p) b q.
Proof.
  unfold zColChkPlaneAABox3D. rewrite existsb_exists. split.
  - intros ([q|] & A & B); [|discriminate]. exists q. apply plane_box_in. unfold zIntersectPlaneAABox3D. apply in_flat_map. exists (Some q). split; [assumption|left; reflexivity].
  - intros (q & H). apply plane_box_in in H. unfold zIntersectPlaneAABox3D in H. apply in_flat_map in H. destruct H as (r & A & B). exists r. split; [assumption|]. destruct r; [reflexivity|destruct B].
Qed.
(** *** a plane crosses at most six edges of a box *)
Lemma one_step f0 f1 f2 f3 (e1 e2 e3 : nat) : f0 <= f1 -> f1 <= f2 -> f2 <= f3 ->
  (e1 <= 1)%nat -> (e2 <= 1)%nat -> (e3 <= 1)%nat ->
  ((0 < e1)%nat -> f0 * f1 < 0) -> ((0 < e2)%nat -> f1 * f2 < 0) -> ((0 < e3)%nat -> f2 * f3 < 0) -> (e1 + e2 + e3 <= 1)%nat.
Proof.
  intros A B C L1 L2 L3 H1 H2 H3.
  assert (~ ((0 < e1)%nat /\ (0 < e2)%nat)) by (intros [P Q]; specialize (H1 P); specialize (H2 Q); assert (0 < f1) by nra; nra).
  assert (~ ((0 < e2)%nat /\ (0 < e3)%nat)) by (intros [P Q]; specialize (H2 P); specialize (H3 Q); assert (0 < f2) by nra; nra).
  assert (~ ((0 < e1)%nat /\ (0 < e3)%nat)) by (intros [P Q]; specialize (H1 P); specialize (H3 Q); assert (0 < f1) by nra; assert (0 < f2) by lra; nra).
  lia.
Qed.
Definition sum4 (e : bool -> bool -> nat) : nat := (e false false + e false true + e true false + e true true)%nat.
Lemma six_edges_mono (A B C : bool -> R) (ex ey ez : bool -> bool -> nat) :
  A false <= A true -> B false <= B true -> C false <= C true ->
  (forall i j, ex i j <= 1)%nat -> (forall i j, ey i j <= 1)%nat -> (forall i j, ez i j <= 1)%nat ->
  (forall j k, (0 < ex j k)%nat -> (A false + B j + C k) * (A true + B j + C k) < 0) ->
  (forall k i, (0 < ey k i)%nat -> (A i + B false + C k) * (A i + B true + C k) < 0) ->
  (forall i j, (0 < ez i j)%nat -> (A i + B j + C false) * (A i + B j + C true) < 0) ->
  (sum4 ex + sum4 ey + sum4 ez <= 6)%nat.
Proof.
  intros HA HB HC Lx Ly Lz Hx Hy Hz. set (f i j k := A i + B j + C k).
  assert (P1 : (ex false false + ey false true + ez true true <= 1)%nat) by (apply (one_step (f false false false) (f true false false) (f true true false) (f true true true)); unfold f; auto; lra).
  assert (P2 : (ex false false + ez true false + ey true true <= 1)%nat) by (apply (one_step (f false false false) (f true false false) (f true false true) (f true true true)); unfold f; auto; lra).
  assert (P3 : (ey false false + ex true false + ez true true <= 1)%nat) by (apply (one_step (f false false false) (f false true false) (f true true false) (f true true true)); unfold f; auto; lra).
  assert (P4 : (ey false false + ez false true + ex true true <= 1)%nat) by (apply (one_step (f false false false) (f false true false) (f false true true) (f true true true)); unfold f; auto; lra).
  assert (P5 : (ez false false + ex false true + ey true true <= 1)%nat) by (apply (one_step (f false false false) (f false false true) (f true false true) (f true true true)); unfold f; auto; lra).
  assert (P6 : (ez false false + ey true false + ex true true <= 1)%nat) by (apply (one_step (f false false false) (f false false true) (f false true true) (f true true true)); unfold f; auto; lra).
  unfold sum4. lia.
Qed.
Lemma sum4_flip e s t : sum4 (fun i j => e (xorb i s) (xorb j t)) = sum4 e.
Proof. unfold sum4. destruct s, t; cbn [xorb]; lia. Qed.
Lemma orient (A : bool -> R) : exists s, A (xorb false s) <= A (xorb true s).
Proof. destruct (Rle_dec (A false) (A true)); [exists false|exists true]; cbn; lra. Qed.
Lemma six_edges (A B C : bool -> R) (ex ey ez : bool -> bool -> nat) :
  (forall i j, ex i j <= 1)%nat -> (forall i j, ey i j <= 1)%nat -> (forall i j, ez i j <= 1)%nat ->
  (forall j k, (0 < ex j k)%nat -> (A false + B j + C k) * (A true + B j + C k) < 0) ->
  (forall k i, (0 < ey k i)%nat -> (A i + B false + C k) * (A i + B true + C k) < 0) ->
  (forall i j, (0 < ez i j)%nat -> (A i + B j + C false) * (A i + B j + C true) < 0) ->
  (sum4 ex + sum4 ey + sum4 ez <= 6)%nat.
Proof.
  intros Lx Ly Lz Hx Hy Hz. destruct (orient A) as (sa & HA). destruct (orient B) as (sb & HB). destruct (orient C) as (sc & HC).
  rewrite <- (sum4_flip ex sb sc), <- (sum4_flip ey sc sa), <- (sum4_flip ez sa sb).
  apply (six_edges_mono (fun i => A (xorb i sa)) (fun j => B (xorb j sb)) (fun k => C (xorb k sc))); auto.
  - intros j k H. specialize (Hx _ _ H). destruct sa; cbn [xorb]; lra.
  - intros k i H. specialize (Hy _ _ H). destruct sb; cbn [xorb]; lra.
  - intros i j H. specialize (Hz _ _ H). destruct sc; cbn [xorb]; lra.
Qed.
Definition ind (r : option vec3) : nat := match r with Some _ => 1 | None => 0 end.
Lemma flat_len l : length (flat_map (fun r : option vec3 => match r with Some ip => [ip] | None => [] end) l) = list_sum (map ind l).
Proof. induction l as [|[v|] l IH]; cbn; rewrite ?IH; reflexivity. Qed.
Lemma edge_signs p a w1min w1max w2 w3 : (0 < ind (zIntersectPlaneAABox3DEdge p a w1min w1max w2 w3))%nat ->
  height (porg p) (pnorm p) (alongAxis a w1min w2 w3) * height (porg p) (pnorm p) (alongAxis a w1max w2 w3) < 0.
Proof.
  destruct (zIntersectPlaneAABox3DEdge p a w1min w1max w2 w3) as [q|] eqn:E; cbn; [intros _|lia].
  apply box_edge in E. destruct E as (T & P & w & [W1 W2] & ->). unfold on_plane in P. fold (height (porg p) (pnorm p) (alongAxis a w w2 w3)) in P.
  rewrite !along_height in *. set (na := elem a (pnorm p)) in *. pose proof zTOL_pos as TP.
  assert (N : na <> 0) by (intros Z; rewrite Z, Rabs_R0 in T; lra). set (r := elem (axis_next a) (pnorm p) * w2) in *. set (r' := elem (axis_next (axis_next a)) (pnorm p) * w3) in *. set (d := dot (pnorm p) (porg p)) in *.
  replace ((na * w1min + r + r' - d) * (na * w1max + r + r' - d)) with (- ((na * na) * ((w - w1min) * (w1max - w)))).
  - assert (0 < na * na) by (apply Rsqr_pos_lt; assumption). assert (0 < (w - w1min) * (w1max - w)) by (apply Rmult_lt_0_compat; lra). assert (0 < na * na * ((w - w1min) * (w1max - w))) by (apply Rmult_lt_0_compat; assumption). rewrite <- Ropp_0. apply Ropp_lt_contravar. assumption.
  - replace d with (na * w + r + r') by lra. ring.
Qed.
Lemma plane_box_count p b : (length (zIntersectPlaneAABox3D p b) <= 6)%nat.
Proof.
  unfold zIntersectPlaneAABox3D. rewrite flat_len. unfold boxEdgeCalls. cbn [map list_sum fold_right].
  set (X (i : bool) := if i then vx (bmax b) else vx (bmin b)). set (Y (i : bool) := if i then vy (bmax b) else vy (bmin b)). set (Z (i : bool) := if i then vz (bmax b) else vz (bmin b)).
  pose proof (six_edges (fun i => vx (pnorm p) * X i - dot (pnorm p) (porg p)) (fun j => vy (pnorm p) * Y j) (fun k => vz (pnorm p) * Z k)
    (fun j k => ind (zIntersectPlaneAABox3DEdge p AX (X false) (X true) (Y j) (Z k)))
    (fun k i => ind (zIntersectPlaneAABox3DEdge p AY (Y false) (Y true) (Z k) (X i)))
    (fun i j => ind (zIntersectPlaneAABox3DEdge p AZ (Z false) (Z true) (X i) (Y j)))) as K.
  assert (L : forall r, (ind r <= 1)%nat) by (intros [?|]; cbn; lia).
  assert (Kf : (sum4 (fun j k => ind (zIntersectPlaneAABox3DEdge p AX (X false) (X true) (Y j) (Z k))) +
    sum4 (fun k i => ind (zIntersectPlaneAABox3DEdge p AY (Y false) (Y true) (Z k) (X i))) +
    sum4 (fun i j => ind (zIntersectPlaneAABox3DEdge p AZ (Z false) (Z true) (X i) (Y j))) <= 6)%nat).
  { apply K; auto; clear K; intros i j H; apply edge_signs in H; rewrite !along_height in H; cbn [elem axis_next] in H;
      (eapply Rle_lt_trans; [|exact H]); apply Req_le; ring. }
  clear K. unfold sum4, X, Y, Z in Kf. cbn [list_sum fold_right]. lia.
Qed.
(** *** in general position the check decides whether the plane meets the box *)
Lemma edge_sound p b q : proper b -> on_plane (porg p) (pnorm p) q -> edge_hit (pnorm p) b q -> in_box b q.
Proof.
  unfold proper, edge_hit, on_x_edge, on_y_edge, on_z_edge, at_end, strictly, in_box.
  intros H _ [(_ & S1 & A & B)|[(_ & S1 & A & B)|(_ & S1 & A & B)]]; destruct A as [A|A], B as [B|B]; rewrite ?A, ?B; lra.
Qed.
Lemma root_between n f g lo hi : n <> 0 -> lo <= hi -> f = n * lo + g -> f * (n * hi + g) < 0 -> exists w, strictly lo hi w /\ n * w + g = 0.
Proof.
  intros N L -> H. exists (- g / n). assert (E : n * (- g / n) + g = 0) by (field; assumption). split; [|assumption].
  set (w := - g / n) in *. replace g with (- (n * w)) in H by lra.
  replace ((n * lo + - (n * w)) * (n * hi + - (n * w))) with ((n * n) * ((lo - w) * (hi - w))) in H by ring.
  assert (0 < n * n) by (apply Rsqr_pos_lt; assumption). assert ((lo - w) * (hi - w) < 0) by nra. unfold strictly. split; nra.
Qed.
Lemma plane_box_complete p b : proper b ->
  (forall c, List.In c [vx (pnorm p); vy (pnorm p); vz (pnorm p)] -> c = 0 \/ zTOL <= Rabs c) ->
  (forall i j k, height (porg p) (pnorm p) (corner_of b i j k) <> 0) ->
  (zColChkPlaneAABox3D p b = true <-> meets (on_plane (porg p) (pnorm p)) (in_box b)).
Proof.
  intros Pb Nc Hc. rewrite plane_box_check. split.
  { intros (q & A & B). exists q. split; [assumption|]. eapply edge_sound; eassumption. }
  intros (x & Px & (Bx & By & Bz)). set (n := pnorm p) in *. set (o := porg p) in *. destruct Pb as (Lx & Ly & Lz).
  set (H i j k := height o n (corner_of b i j k)).
  assert (EH : forall i j k, H i j k = vx n * (if i then vx (bmax b) else vx (bmin b)) + vy n * (if j then vy (bmax b) else vy (bmin b)) + vz n * (if k then vz (bmax b) else vz (bmin b)) - dot n o).
  { intros i j k. unfold H, height, corner_of. destruct i, j, k; clear; spec_unfold; ring. }
  assert (Ex : dot n o = vx n * vx x + vy n * vy x + vz n * vz x). { unfold on_plane in Px. clear - Px. unfold dot, vsub in *. cbn [vx vy vz] in *. lra. }
  (* a corner not above and a corner not below *)
  assert (Mono : forall m lo hi w, lo <= w <= hi -> exists s, m * (if s : bool then hi else lo) <= m * w /\ m * w <= m * (if negb s then hi else lo)).
  { intros m lo hi w Hw. destruct (Rle_dec 0 m); [exists false|exists true]; cbn; split; nra. }
  destruct (Mono (vx n) _ _ _ Bx) as (i & I1 & I2). destruct (Mono (vy n) _ _ _ By) as (j & J1 & J2). destruct (Mono (vz n) _ _ _ Bz) as (k & K1 & K2).
  assert (H0 : H i j k < 0). { pose proof (Hc i j k). pose proof (EH i j k). fold (H i j k) in *. destruct i, j, k; cbn [negb] in *; lra. }
  assert (H3 : 0 < H (negb i) (negb j) (negb k)). { pose proof (Hc (negb i) (negb j) (negb k)). pose proof (EH (negb i) (negb j) (negb k)). fold (H (negb i) (negb j) (negb k)) in *. destruct i, j, k; cbn [negb] in *; lra. }
  assert (Big : forall c, List.In c [vx n; vy n; vz n] -> c <> 0 -> zTOL <= Rabs c) by (intros c A B; destruct (Nc c A); [contradiction|assumption]).
  (* the first edge of the path on which the sign changes *)
  assert (Sx : forall j k, H false j k * H true j k < 0 -> exists q, on_plane o n q /\ edge_hit n b q).
  { intros j' k' K. pose proof (EH false j' k') as E0. pose proof (EH true j' k') as E1.
    assert (N : vx n <> 0) by (intros Z; rewrite Z in *; assert (H false j' k' = H true j' k') by lra; nra).
    destruct (root_between (vx n) (H false j' k') (vy n * (if j' then vy (bmax b) else vy (bmin b)) + vz n * (if k' then vz (bmax b) else vz (bmin b)) - dot n o) _ _ N Lx) as (w & W & Z); [lra| |].
    { replace (vx n * vx (bmax b) + (vy n * (if j' then vy (bmax b) else vy (bmin b)) + vz n * (if k' then vz (bmax b) else vz (bmin b)) - dot n o)) with (H true j' k') by lra. assumption. }
    exists (V3 w (if j' then vy (bmax b) else vy (bmin b)) (if k' then vz (bmax b) else vz (bmin b))). split.
    - unfold on_plane. transitivity (vx n * w + (vy n * (if j' then vy (bmax b) else vy (bmin b)) + vz n * (if k' then vz (bmax b) else vz (bmin b)) - dot n o)); [clear; destruct j', k'; spec_unfold; ring|assumption].
    - left. split; [apply Big; cbn; auto|]. unfold on_x_edge, at_end. cbn [vx vy vz]. split; [assumption|]. destruct j', k'; auto. }
  assert (Sy : forall i k, H i false k * H i true k < 0 -> exists q, on_plane o n q /\ edge_hit n b q).
  { intros i' k' K. pose proof (EH i' false k') as E0. pose proof (EH i' true k') as E1.
    assert (N : vy n <> 0) by (intros Z; rewrite Z in *; assert (H i' false k' = H i' true k') by lra; nra).
    destruct (root_between (vy n) (H i' false k') (vx n * (if i' then vx (bmax b) else vx (bmin b)) + vz n * (if k' then vz (bmax b) else vz (bmin b)) - dot n o) _ _ N Ly) as (w & W & Z); [lra| |].
    { replace (vy n * vy (bmax b) + (vx n * (if i' then vx (bmax b) else vx (bmin b)) + vz n * (if k' then vz (bmax b) else vz (bmin b)) - dot n o)) with (H i' true k') by lra. assumption. }
    exists (V3 (if i' then vx (bmax b) else vx (bmin b)) w (if k' then vz (bmax b) else vz (bmin b))). split.
    - unfold on_plane. transitivity (vy n * w + (vx n * (if i' then vx (bmax b) else vx (bmin b)) + vz n * (if k' then vz (bmax b) else vz (bmin b)) - dot n o)); [clear; destruct i', k'; spec_unfold; ring|assumption].
    - right; left. split; [apply Big; cbn; auto|]. unfold on_y_edge, at_end. cbn [vx vy vz]. split; [assumption|]. destruct i', k'; auto. }
  assert (Sz : forall i j, H i j false * H i j true < 0 -> exists q, on_plane o n q /\ edge_hit n b q).
  { intros i' j' K. pose proof (EH i' j' false) as E0. pose proof (EH i' j' true) as E1.
    assert (N : vz n <> 0) by (intros Z; rewrite Z in *; assert (H i' j' false = H i' j' true) by lra; nra).
    destruct (root_between (vz n) (H i' j' false) (vx n * (if i' then vx (bmax b) else vx (bmin b)) + vy n * (if j' then vy (bmax b) else vy (bmin b)) - dot n o) _ _ N Lz) as (w & W & Z); [lra| |].
    { replace (vz n * vz (bmax b) + (vx n * (if i' then vx (bmax b) else vx (bmin b)) + vy n * (if j' then vy (bmax b) else vy (bmin b)) - dot n o)) with (H i' j' true) by lra. assumption. }
    exists (V3 (if i' then vx (bmax b) else vx (bmin b)) (if j' then vy (bmax b) else vy (bmin b)) w). split.
    - unfold on_plane. transitivity (vz n * w + (vx n * (if i' then vx (bmax b) else vx (bmin b)) + vy n * (if j' then vy (bmax b) else vy (bmin b)) - dot n o)); [clear; destruct i', j'; spec_unfold; ring|assumption].
    - right; right. split; [apply Big; cbn; auto|]. unfold on_z_edge, at_end. cbn [vx vy vz]. split; [assumption|]. destruct i', j'; auto. }
  assert (Nz : forall i j k, H i j k <> 0) by (intros; apply Hc).
  destruct (Rlt_dec (H (negb i) j k) 0) as [P1|P1].
  - destruct (Rlt_dec (H (negb i) (negb j) k) 0) as [P2|P2].
    + apply (Sz (negb i) (negb j)). clear - P2 H3. destruct k; cbn [negb] in *; nra.
    + apply (Sy (negb i) k). pose proof (Nz (negb i) (negb j) k). assert (0 < H (negb i) (negb j) k) by lra. clear - P1 H2. destruct j; cbn [negb] in *; nra.
  - apply (Sx j k). pose proof (Nz (negb i) j k). assert (0 < H (negb i) j k) by lra. clear - H0 H2. destruct i; cbn [negb] in *; nra.
Qed.
(** a plane through two opposite edges of a box, halving it, is not noticed *)
Lemma plane_box_missed : exists p b x, norm (pnorm p) = 1 /\ on_plane (porg p) (pnorm p) x /\
  strictly (vx (bmin b)) (vx (bmax b)) (vx x) /\ strictly (vy (bmin b)) (vy (bmax b)) (vy x) /\ strictly (vz (bmin b)) (vz (bmax b)) (vz x) /\
  zColChkPlaneAABox3D p b = false /\ zIntersectPlaneAABox3D p b = [].
Proof.
  exists (P3 (V3 0 0 0) (V3 (3 / 5) 0 (- (4 / 5)))), (B3 (V3 0 0 0) (V3 4 1 3)), (V3 2 (1 / 2) (3 / 2)).
  assert (No : forall q, ~ (on_plane (V3 0 0 0) (V3 (3 / 5) 0 (- (4 / 5))) q /\ edge_hit (V3 (3 / 5) 0 (- (4 / 5))) (B3 (V3 0 0 0) (V3 4 1 3)) q)).
  { intros q (P & K). unfold edge_hit, on_x_edge, on_y_edge, on_z_edge, at_end, strictly, on_plane, dot, vsub in *. cbn [vx vy vz bmin bmax] in *. pose proof zTOL_pos. rewrite Rabs_R0 in K.
    destruct K as [(_ & A & B & [C|C])|[(T & _)|(_ & A & [B|B] & C)]]; lra. }
  split. { unfold norm, dot. cbn [pnorm vx vy vz]. replace (3 / 5 * (3 / 5) + 0 * 0 + - (4 / 5) * - (4 / 5)) with 1 by field. apply sqrt_1. }
  split. { unfold on_plane. cbn [porg pnorm]. spec_unfold. field. }
  unfold strictly. cbn [bmin bmax vx vy vz]. split; [lra|]. split; [lra|]. split; [lra|].
  split.
  - destruct (zColChkPlaneAABox3D _ _) eqn:E; [|reflexivity]. apply plane_box_check in E. destruct E as (q & H). exfalso. apply (No q), H.
  - destruct (zIntersectPlaneAABox3D _ _) as [|q l] eqn:E; [reflexivity|]. exfalso. apply (No q). apply (plane_box_in (P3 (V3 0 0 0) (V3 (3 / 5) 0 (- (4 / 5)))) (B3 (V3 0 0 0) (V3 4 1 3)) q). rewrite E. left; reflexivity.
Qed.
