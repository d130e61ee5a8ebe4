(** zVec2DDataDelaunayTriangulate as a whole. *)
From Verif Require Import ModelDel SpecDel FactsElem FactsTri2 FactsCentre FactsBallQ3 FactsDel FactsDel2 FactsDel3 FactsDel4 FactsDel5 FactsDel6 FactsDel7 FactsDel8 FactsDel9.
From Coq Require Import List Lra Lia Bool.
Import ListNotations.
Open Scope R_scope.

(** the corners of the triangles of the list *)
Definition triangles (pts : list vec2) (m : mem) : list triple := map (fun c => (dpt pts (dv (snd c) 0), dpt pts (dv (snd c) 1), dpt pts (dv (snd c) 2))) m.
Definition bounding_disk (data : list vec2) (d : disk2) : Prop := exists b, zVec2DDataBoundingBallRecursive data = Some b /\ fball b = Some d.
Definition surrounded (d : disk2) (p : vec2) : Prop := within (outer_corners d) p.

Lemma outer_area d : 0 < drad d -> 0 < area2 (nth 0 (outer_corners d) v2zero) (nth 1 (outer_corners d) v2zero) (nth 2 (outer_corners d) v2zero).
Proof.
  intros P. cbn [nth outer_corners]. assert (S : 0 < sqrt 3) by (apply sqrt_lt_R0; lra).
  replace (area2 _ _ _) with (27 / 2 * (sqrt 3 * (drad d * drad d))) by (plane; field). apply Rmult_lt_0_compat; [lra|]. apply Rmult_lt_0_compat; [exact S|]. apply Rmult_lt_0_compat; exact P.
Qed.
(** the outer triangle holds every point within one and a half radii of the centre *)
Lemma disk_surrounded d p : dist2 (dcen d) p < 3 / 2 * drad d -> surrounded d p.
Proof.
  intros D. pose proof (dist2_pos (dcen d) p) as Z. set (c := dcen d) in *. set (r := drad d) in *. assert (P : 0 < r) by lra.
  set (dx := x2 p - x2 c). set (dy := y2 p - y2 c). assert (Q : dx * dx + dy * dy < 9 / 4 * (r * r)).
  { assert (K : dist2 c p * dist2 c p < (3 / 2 * r) * (3 / 2 * r)) by (apply Rmult_le_0_lt_compat; lra). rewrite <- sq_dist in K. unfold dx, dy. revert K. plane. intros K. lra. }
  assert (S0 : 0 < sqrt 3) by (apply sqrt_lt_R0; lra). assert (S3 : sqrt 3 * sqrt 3 = 3) by (apply sqrt_sqrt; lra).
  assert (B : forall ux uy, ux * ux + uy * uy = 1 -> - (3 / 2 * r) < ux * dx + uy * dy).
  { intros ux uy U. set (k := ux * dx + uy * dy). assert (K : k * k <= dx * dx + dy * dy). { assert (E : dx * dx + dy * dy = k * k + (ux * dy - uy * dx) * (ux * dy - uy * dx)) by (unfold k; replace (dx * dx + dy * dy) with ((ux * ux + uy * uy) * (dx * dx + dy * dy)) by (rewrite U; ring); ring). pose proof (Rle_0_sqr (ux * dy - uy * dx)) as R0. unfold Rsqr in R0. lra. }
    destruct (Rlt_le_dec (- (3 / 2 * r)) k) as [L|L]; [exact L|exfalso]. assert (3 / 2 * r * (3 / 2 * r) <= - k * - k) by (apply Rmult_le_compat; lra). lra. }
  unfold surrounded, within. cbn [outer_corners]. unfold inside_triangle. fold c r.
  assert (F : 0 < 3 * sqrt 3 * r) by (apply Rmult_lt_0_compat; lra).
  split; [|split].
  - replace (area2 _ _ _) with (3 * sqrt 3 * r * (0 * dx + 1 * dy + 3 / 2 * r)) by (unfold dx, dy; plane; field). apply Rmult_lt_0_compat; [exact F|]. specialize (B 0 1 ltac:(lra)). lra.
  - replace (area2 _ _ _) with (3 * sqrt 3 * r * (- (sqrt 3 / 2) * dx + - (1 / 2) * dy + 3 / 2 * r) + 3 / 2 * r * dx * (sqrt 3 * sqrt 3 - 3)) by (unfold dx, dy; plane; field). rewrite S3. specialize (B (- (sqrt 3 / 2)) (- (1 / 2)) ltac:(lra)). assert (0 < 3 * sqrt 3 * r * (- (sqrt 3 / 2) * dx + - (1 / 2) * dy + 3 / 2 * r)) by (apply Rmult_lt_0_compat; lra). lra.
  - replace (area2 _ _ _) with (3 * sqrt 3 * r * (sqrt 3 / 2 * dx + - (1 / 2) * dy + 3 / 2 * r) - 3 / 2 * r * dx * (sqrt 3 * sqrt 3 - 3)) by (unfold dx, dy; plane; field). rewrite S3. specialize (B (sqrt 3 / 2) (- (1 / 2)) ltac:(lra)). assert (0 < 3 * sqrt 3 * r * (sqrt 3 / 2 * dx + - (1 / 2) * dy + 3 / 2 * r)) by (apply Rmult_lt_0_compat; lra). lra.
Qed.

Lemma NoDup_app_ok n : NoDup (seq 3 n ++ [0%nat; 1%nat; 2%nat]).
Proof.
  assert (K : forall l : list nat, NoDup l -> (forall x, List.In x l -> (3 <= x)%nat) -> NoDup (l ++ [0%nat; 1%nat; 2%nat])).
  { induction l as [|y r IH]; intros N H; cbn [app]; [repeat constructor; cbn [List.In]; lia|]. inversion N as [|? ? N1 N2]; subst. constructor; [|apply IH; [exact N2|intros x X; apply H; right; exact X]].
    intros I. apply in_app_iff in I. destruct I as [I|I]; [contradiction|]. specialize (H y (or_introl eq_refl)). cbn [List.In] in I. lia. }
  apply K; [apply seq_NoDup|]. intros x X. apply in_seq in X. lia.
Qed.
Lemma some_in {A} (l : list A) : l <> [] -> exists p, List.In p l.
Proof. destruct l as [|p r]; [congruence|]. exists p. left. reflexivity. Qed.
Section Top.
Variables (data : list vec2) (d : disk2).
Hypothesis NE : data <> [].
Hypothesis BD : bounding_disk data d.
Hypothesis GP : no_three_in_line (outer_corners d ++ data).
Hypothesis SU : forall p, List.In p data -> surrounded d p.
Let pts := outer_corners d ++ data.
Notation pt := (dpt pts).

Lemma top_nth k : (k < length data + 3)%nat -> nth_error pts k = Some (pt k).
Proof. intros K. apply nth_error_nth'. unfold pts. rewrite app_length. cbn [length outer_corners]. lia. Qed.
Lemma top_in k : (3 <= k < length data + 3)%nat -> List.In (pt k) data.
Proof. intros K. unfold dpt, pts. rewrite app_nth2 by (cbn [length outer_corners]; lia). apply nth_In. cbn [length outer_corners]. lia. Qed.
Lemma top_of p : List.In p data -> exists k, (3 <= k < length data + 3)%nat /\ p = pt k.
Proof. intros I. apply (In_nth _ _ v2zero) in I. destruct I as (i & L & E). exists (i + 3)%nat. split; [lia|]. unfold dpt, pts. rewrite app_nth2 by (cbn [length outer_corners]; lia). cbn [length outer_corners]. replace (i + 3 - 3)%nat with i by lia. auto. Qed.
Lemma top_all p : List.In p pts -> exists k, (k < length data + 3)%nat /\ p = pt k.
Proof. intros I. apply (In_nth _ _ v2zero) in I. destruct I as (i & L & E). exists i. unfold pts in L. rewrite app_length in L. cbn [length outer_corners] in L. split; [lia|auto]. Qed.
Lemma top_corner k : (k < 3)%nat -> pt k = nth k (outer_corners d) v2zero.
Proof. intros K. unfold dpt, pts. apply app_nth1. cbn [length outer_corners]. lia. Qed.
Let W := seq 3 (length data) ++ [0%nat; 1%nat; 2%nat].
Lemma top_W k : List.In k W <-> (k < length data + 3)%nat.
Proof. unfold W. rewrite in_app_iff, in_seq. cbn [List.In]. lia. Qed.
Lemma top_spread : spread pts W.
Proof. intros i j k I J K N1 N2 N3. apply top_W in I, J, K. apply (GP i j k); try (apply top_nth; assumption). repeat constructor; cbn [List.In]; intuition congruence. Qed.
Lemma top_distinct : distinct pts W.
Proof.
  intros i j I J N E. assert (K : exists k, List.In k W /\ i <> k /\ j <> k).
  { destruct (Nat.eq_dec i 0) as [->|], (Nat.eq_dec j 0) as [->|].
    - congruence.
    - destruct (Nat.eq_dec j 1); [exists 2%nat|exists 1%nat]; rewrite top_W; lia.
    - destruct (Nat.eq_dec i 1); [exists 2%nat|exists 1%nat]; rewrite top_W; lia.
    - exists 0%nat. rewrite top_W. lia. }
  destruct K as (k & K & N1 & N2). pose proof (top_spread i j k I J K N N1 N2) as S. unfold ar in S. rewrite E, area_self3, Rabs_R0 in S. pose proof (dist2_pos (pt j) (pt j)) as D0. pose proof zTOL_pos. assert (0 <= zTOL * dist2 (pt j) (pt j)) by (apply Rmult_le_pos; lra). lra.
Qed.
Lemma top_rim : forall p, List.In p data -> ins pts 0 1 2 p.
Proof. intros p I. unfold ins. rewrite !top_corner by lia. exact (SU p I). Qed.
Lemma top_ar : 0 < ar pts 0 1 2.
Proof. destruct (some_in data NE) as (p & I). apply top_rim in I. destruct I as (A & B & C). pose proof (area_sum (pt 0) (pt 1) (pt 2) p) as S. unfold ar. lra. Qed.
Lemma top_run : exists m V new, (forall fuel, (4 * length data + 5 <= fuel)%nat -> zVec2DDataDelaunayTriangulate fuel data = DDone (pts, zDelaunay2DPurgeOuter m)) /\ triangulating pts (m, new) V /\ (forall q, List.In q V <-> List.In q W) /\ length m = (2 * length data + 1)%nat.
Proof.
  destruct (all_ok pts (seq 3 (length data)) _ _ (outer_ok pts top_ar)) as ((m, new) & V & F & T & E & L).
  - apply NoDup_app_ok.
  - exact top_spread.
  - intros p I. apply in_seq in I. apply top_rim, top_in. lia.
  - cbn [fst length] in F, L. rewrite seq_length in F, L. exists m, V, new. split; [|split; [exact T|split; [exact E|lia]]]. intros fuel HF. unfold zVec2DDataDelaunayTriangulate, zDelaunay2DCreateOuter.
    destruct BD as (b & B1 & B2). destruct (plane_recursive data NE) as (b' & d' & B1' & B2' & _ & BL & _). rewrite B1 in B1'. injection B1' as <-. rewrite B1, B2. destruct (fpoints b) as [|q r]; [cbn [length] in BL; lia|]. fold pts. rewrite F by lia. reflexivity.
Qed.
Lemma purge_in m t T : List.In (t, T) (zDelaunay2DPurgeOuter m) <-> List.In (t, T) m /\ (3 <= dv T 0)%nat /\ (3 <= dv T 1)%nat /\ (3 <= dv T 2)%nat.
Proof.
  unfold zDelaunay2DPurgeOuter. rewrite filter_In. cbn [snd existsb]. destruct (Nat.ltb_spec (dv T 0) 3), (Nat.ltb_spec (dv T 1) 3), (Nat.ltb_spec (dv T 2) 3); cbn [orb negb]; split; intros (X & Y); split; auto; try discriminate; try reflexivity; try lia.
Qed.
Section Result.
Variables (m : mem) (V : list nat) (new : nat).
Hypothesis T : triangulating pts (m, new) V.
Hypothesis VW : forall q, List.In q V <-> List.In q W.
Let M : mesh pts m V := T_mesh _ _ _ T.
Let EC : empty_circles pts m V := T_empty _ _ _ T.
Let RM : forall q, List.In q V -> in_rim pts q := T_rim _ _ _ T.
Lemma res_V k : List.In k V <-> (k < length data + 3)%nat. Proof. rewrite VW. apply top_W. Qed.
Lemma res_distinct : distinct pts V.
Proof. intros i j I J. apply top_distinct; apply VW; assumption. Qed.
Lemma res_get t X : List.In (t, X) m -> dget m t = Some X. Proof. apply in_dget. exact (M_ids _ _ _ M). Qed.
Lemma res_dart t X : List.In (t, X) m -> exists n, dart m t (dv X 0) (dv X 1) (dv X 2) n.
Proof. intros I. exists (dadj X 0). exact (get_dart m t X 0 (res_get _ _ I) ltac:(lia)). Qed.
Lemma res_vertex t X i : List.In (t, X) m -> (i < 3)%nat -> (dv X i < length data + 3)%nat.
Proof. intros I L. apply res_V. exact (M_in _ _ _ M _ _ _ _ _ (get_dart m t X i (res_get _ _ I) L)). Qed.
Lemma circle_dist a b c q : area2 a b c <> 0 -> (0 <= pow a b c q <-> dist2 (cc a b c) a <= dist2 (cc a b c) q).
Proof. intros N. destruct (cc_circ a b c N) as (E1 & E2). rewrite (pow_circ a b c (cc a b c) q N (cc_circ a b c N)). rewrite dist2_le, (sq_sym (cc a b c) a), (sq_sym (cc a b c) q). split; lra. Qed.
Lemma circle_unique a b c o q : area2 a b c <> 0 -> dist2 o a = dist2 o b -> dist2 o a = dist2 o c -> pow a b c q = sq q o - sq a o.
Proof. intros N E1 E2. apply pow_circ; [exact N|]. unfold circ. apply dist2_eq in E1, E2. rewrite (sq_sym b o), (sq_sym c o), (sq_sym a o). split; lra. Qed.
Lemma res_sound a b c : List.In (a, b, c) (triangles pts (zDelaunay2DPurgeOuter m)) -> List.In a data /\ List.In b data /\ List.In c data /\ delaunay_triangle pts a b c.
Proof.
  intros I. apply in_map_iff in I. destruct I as ((t, X) & E & I). cbn [snd] in E. apply purge_in in I. destruct I as (I & L0 & L1 & L2). injection E as <- <- <-.
  split; [apply top_in; split; [exact L0|apply (res_vertex t); [exact I|lia]]|]. split; [apply top_in; split; [exact L1|apply (res_vertex t); [exact I|lia]]|]. split; [apply top_in; split; [exact L2|apply (res_vertex t); [exact I|lia]]|].
  destruct (res_dart t X I) as (n & D). pose proof (M_pos _ _ _ M _ _ _ _ _ D) as P. unfold ar in P. split; [exact P|].
  assert (N : area2 (pt (dv X 0)) (pt (dv X 1)) (pt (dv X 2)) <> 0) by lra. destruct (cc_circ _ _ _ N) as (C1 & C2). exists (cc (pt (dv X 0)) (pt (dv X 1)) (pt (dv X 2))). rewrite !dist2_eq.
  split; [rewrite (sq_sym _ (pt (dv X 0))), (sq_sym _ (pt (dv X 1))); lra|]. split; [rewrite (sq_sym _ (pt (dv X 0))), (sq_sym _ (pt (dv X 2))); lra|]. intros q Q. apply top_all in Q. destruct Q as (k & K & ->). apply circle_dist; [exact N|]. apply (EC _ _ _ _ _ k D). apply res_V, K.
Qed.
Lemma res_apart i j s t x : nth_error (triangles pts (zDelaunay2DPurgeOuter m)) i = Some s -> nth_error (triangles pts (zDelaunay2DPurgeOuter m)) j = Some t -> inside_triple s x -> inside_triple t x -> i = j.
Proof.
  unfold triangles. rewrite !nth_error_map. destruct (nth_error (zDelaunay2DPurgeOuter m) i) as [(t1, X1)|] eqn:E1; [|discriminate]. destruct (nth_error (zDelaunay2DPurgeOuter m) j) as [(t2, X2)|] eqn:E2; [|discriminate]. cbn [option_map snd].
  intros F1 F2. injection F1 as <-. injection F2 as <-. intros I1 I2. pose proof (nth_error_In _ _ E1) as N1. pose proof (nth_error_In _ _ E2) as N2. apply purge_in in N1, N2. destruct (res_dart t1 X1 (proj1 N1)) as (n1 & D1). destruct (res_dart t2 X2 (proj1 N2)) as (n2 & D2).
  assert (E : t1 = t2) by exact (mesh_disjoint _ _ _ x _ _ _ _ _ _ _ _ _ _ M res_distinct D1 I1 D2 I2). subst t2.
  assert (ND : NoDup (ids (zDelaunay2DPurgeOuter m))). { pose proof (M_ids _ _ _ M) as ND. unfold zDelaunay2DPurgeOuter. generalize (fun c : nat * dtri => negb (existsb (fun i => Nat.ltb (dv (snd c) i) 3) [0%nat; 1%nat; 2%nat])). intros f. clear - ND. induction m as [|(s, X) r IH]; cbn [filter ids map fst] in *; [constructor|]. inversion ND as [|? ? N1 N2]; subst. specialize (IH N2).
    destruct (f (s, X)); [|exact IH]. cbn [map fst]. constructor; [|exact IH]. intros H. apply N1. apply in_map_iff in H. destruct H as (y & E & Y). apply filter_In in Y. apply in_map_iff. exists y. tauto. }
  apply (proj1 (NoDup_nth_error (ids (zDelaunay2DPurgeOuter m)))).
  - exact ND.
  - unfold ids. rewrite map_length. apply nth_error_Some. rewrite E1. discriminate.
  - unfold ids. rewrite !nth_error_map, E1, E2. reflexivity.
Qed.
Lemma res_find a b c o x : List.In a data -> List.In b data -> List.In c data -> 0 < area2 a b c -> dist2 o a = dist2 o b -> dist2 o a = dist2 o c ->
  (forall q, List.In q pts -> dist2 o a <= dist2 o q) -> inside_triangle a b c x ->
  exists t X, List.In (t, X) m /\ 0 < area2 (pt (dv X 0)) (pt (dv X 1)) (pt (dv X 2)) /\ closed_in pts (dv X 0) (dv X 1) (dv X 2) x /\ dist2 o (pt (dv X 0)) = dist2 o a /\ dist2 o (pt (dv X 1)) = dist2 o a /\ dist2 o (pt (dv X 2)) = dist2 o a.
Proof.
  intros Ia Ib Ic P E1 E2 EM IX. pose proof (top_rim _ Ia) as (Ra1 & Ra2 & Ra3). pose proof (top_rim _ Ib) as (Rb1 & Rb2 & Rb3). pose proof (top_rim _ Ic) as (Rc1 & Rc2 & Rc3).
  destruct (mesh_cover pts m V x [(b, c); (c, a); (a, b)] M res_distinct) as (y & t & u & v & w & n & D & CI & OY & IY & YC).
  - split; [|split]; (apply (area_pos_in a b c); [exact IX|lra|lra|lra|left; assumption]).
  - destruct IX as (X1 & X2 & X3). intros f g I. cbn [List.In] in I. destruct I as [H|[H|[H|[]]]]; injection H as <- <-; assumption.
  - assert (YIN : inside_triangle a b c y) by (split; [|split]; apply YC; cbn [List.In]; tauto).
    destruct (top_of _ Ia) as (i & Li & Ei). destruct (top_of _ Ib) as (j & Lj & Ej). destruct (top_of _ Ic) as (k & Lk & Ek).
    assert (CU : forall q, powi pts i j k q = sq (pt q) o - sq a o). { intros q. unfold powi. rewrite <- Ei, <- Ej, <- Ek. apply circle_unique; [lra|exact E1|exact E2]. }
    assert (NTH : forall q, (q < length data + 3)%nat -> List.In (pt q) pts) by (intros q Q; exact (nth_error_In _ _ (top_nth q Q))).
    destruct (same_circle pts m V i j k y t u v w n M EC) as (Zu & Zv & Zw).
    + unfold ar. rewrite <- Ei, <- Ej, <- Ek. exact P.
    + apply res_V. lia.
    + apply res_V. lia.
    + apply res_V. lia.
    + intros q Q. apply res_V in Q. rewrite CU. specialize (EM _ (NTH q Q)). apply dist2_le in EM. rewrite (sq_sym (pt q)), (sq_sym a). lra.
    + exact D.
    + unfold ins. rewrite <- Ei, <- Ej, <- Ek. exact YIN.
    + exact IY.
    + rewrite CU in Zu, Zv, Zw. assert (F : forall q, sq (pt q) o - sq a o = 0 -> dist2 o (pt q) = dist2 o a) by (intros q Q; apply dist2_eq; rewrite (sq_sym o (pt q)), (sq_sym o a); lra).
      pose proof (M_pos _ _ _ M _ _ _ _ _ D) as PD. unfold ar in PD. pose proof (area_rot (pt u) (pt v) (pt w)) as RO1. pose proof (area_rot (pt v) (pt w) (pt u)) as RO2. destruct CI as (C1 & C2 & C3).
      destruct D as (X & h & G & H & Eu & Ev & Ew & _). exists t, X. split; [exact (dget_in _ _ _ G)|].
      unfold closed_in. three h H; cbv [nx nxx Nat.modulo Nat.divmod Nat.add snd fst Nat.sub] in Ev, Ew; rewrite Eu, Ev, Ew; repeat split; try apply F; lra.
Qed.
Lemma closed_triangle a b c x : 0 < area2 a b c -> 0 <= area2 b c x -> 0 <= area2 c a x -> 0 <= area2 a b x -> in_triangle2 a b c x.
Proof.
  intros P A B C. pose proof (area_sum a b c x) as S. assert (N : area2 a b c <> 0) by lra. assert (I : 0 < / area2 a b c) by (apply Rinv_0_lt_compat; lra).
  exists (area2 b c x * / area2 a b c), (area2 c a x * / area2 a b c), (area2 a b x * / area2 a b c). split.
  - repeat split; try (apply Rmult_le_pos; lra). rewrite <- !Rmult_plus_distr_r, S. apply Rinv_r, N.
  - apply vec2_ext; revert N; plane; intros N; field; exact N.
Qed.
Lemma corner_or k : (k < length data + 3)%nat -> (k < 3)%nat /\ List.In (pt k) (outer_corners d) \/ (3 <= k)%nat.
Proof. intros K. destruct (le_lt_dec 3 k) as [L|L]; [right; exact L|left]. split; [exact L|]. rewrite top_corner by exact L. apply nth_In. cbn [length outer_corners]. exact L. Qed.
Lemma res_cover a b c o x : List.In a data -> List.In b data -> List.In c data -> 0 < area2 a b c -> dist2 o a = dist2 o b -> dist2 o a = dist2 o c ->
  (forall q, List.In q data -> dist2 o a <= dist2 o q) -> (forall q, List.In q (outer_corners d) -> dist2 o a < dist2 o q) -> inside_triangle a b c x -> exists t, List.In t (triangles pts (zDelaunay2DPurgeOuter m)) /\ in_triple t x.
Proof.
  intros Ia Ib Ic P E1 E2 EM EO IX. destruct (res_find a b c o x Ia Ib Ic P E1 E2) as (t & X & I & PX & (C1 & C2 & C3) & D0 & D1 & D2).
  - intros q Q. unfold pts in Q. apply in_app_iff in Q. destruct Q as [Q|Q]; [apply Rlt_le, EO, Q|apply EM, Q].
  - exact IX.
  - assert (BIG : forall k, (k < length data + 3)%nat -> dist2 o (pt k) = dist2 o a -> (3 <= k)%nat). { intros k K E. destruct (corner_or k K) as [(_ & H)|H]; [|exact H]. apply EO in H. lra. }
    exists (pt (dv X 0), pt (dv X 1), pt (dv X 2)). split; [|apply closed_triangle; assumption]. apply in_map_iff. exists (t, X). split; [reflexivity|]. apply purge_in. split; [exact I|].
    split; [apply BIG; [apply (res_vertex t); [exact I|lia]|exact D0]|]. split; [apply BIG; [apply (res_vertex t); [exact I|lia]|exact D1]|apply BIG; [apply (res_vertex t); [exact I|lia]|exact D2]].
Qed.
Lemma res_full a b c o : List.In a data -> List.In b data -> List.In c data -> 0 < area2 a b c -> dist2 o a = dist2 o b -> dist2 o a = dist2 o c ->
  (forall q, List.In q pts -> q = a \/ q = b \/ q = c \/ dist2 o a < dist2 o q) -> List.In (a, b, c) (triangles pts (zDelaunay2DPurgeOuter m)) \/ List.In (b, c, a) (triangles pts (zDelaunay2DPurgeOuter m)) \/ List.In (c, a, b) (triangles pts (zDelaunay2DPurgeOuter m)).
Proof.
  intros Ia Ib Ic P E1 E2 EM. set (g := vscale2 (/ 3) (vadd2 (vadd2 a b) c)).
  assert (G : inside_triangle a b c g). { assert (area2 b c g = area2 a b c / 3 /\ area2 c a g = area2 a b c / 3 /\ area2 a b g = area2 a b c / 3) as (G1 & G2 & G3) by (unfold g; plane; repeat split; field). unfold inside_triangle. lra. }
  destruct (res_find a b c o g Ia Ib Ic P E1 E2) as (t & X & I & PX & _ & D0 & D1 & D2).
  - intros q Q. destruct (EM q Q) as [->|[->|[->|L]]]; lra.
  - exact G.
  - assert (NTH : forall q, (q < length data + 3)%nat -> List.In (pt q) pts) by (intros q Q; exact (nth_error_In _ _ (top_nth q Q))).
    assert (ONE : forall k, (k < 3)%nat -> dist2 o (pt (dv X k)) = dist2 o a -> (pt (dv X k) = a \/ pt (dv X k) = b \/ pt (dv X k) = c) /\ (3 <= dv X k)%nat).
    { intros k K E. pose proof (res_vertex t X k I K) as L. assert (H : pt (dv X k) = a \/ pt (dv X k) = b \/ pt (dv X k) = c) by (destruct (EM _ (NTH _ L)) as [H|[H|[H|H]]]; [auto|auto|auto|lra]). split; [exact H|].
      assert (Q : exists j, (3 <= j < length data + 3)%nat /\ pt (dv X k) = pt j) by (destruct H as [H|[H|H]]; [destruct (top_of _ Ia) as (j & J & E')|destruct (top_of _ Ib) as (j & J & E')|destruct (top_of _ Ic) as (j & J & E')]; exists j; (split; [exact J|congruence])).
      destruct Q as (j & J & Q). destruct (Nat.eq_dec (dv X k) j) as [->|N]; [lia|]. exfalso. apply (res_distinct (dv X k) j); [apply res_V, L|apply res_V; lia|exact N|exact Q]. }
    destruct (ONE 0%nat ltac:(lia) D0) as (H0 & L0). destruct (ONE 1%nat ltac:(lia) D1) as (H1 & L1). destruct (ONE 2%nat ltac:(lia) D2) as (H2 & L2).
    assert (IN : List.In (pt (dv X 0), pt (dv X 1), pt (dv X 2)) (triangles pts (zDelaunay2DPurgeOuter m))). { apply in_map_iff. exists (t, X). split; [reflexivity|]. apply purge_in. auto. }
    pose proof (area_swap a b c). pose proof (area_rot a b c). pose proof (area_rot b c a). pose proof (area_swap b c a). pose proof (area_swap c a b). pose proof (area_self1 a b). 
    destruct H0 as [H0|[H0|H0]], H1 as [H1|[H1|H1]], H2 as [H2|[H2|H2]]; rewrite H0, H1, H2 in PX, IN; rewrite ?area_self1, ?area_self2, ?area_self3 in PX; try (exfalso; lra); auto.
Qed.
(** neighbours *)
Lemma res_null t X i : List.In (t, X) (zDelaunay2DPurgeOuter m) -> (i < 3)%nat -> dadj X i <> None.
Proof.
  intros I K E. apply purge_in in I. destruct I as (I & L0 & L1 & L2). pose proof (get_dart m t X i (res_get _ _ I) K) as D. rewrite E in D. apply (M_rim _ _ _ M) in D. three i K; cbv [nx Nat.modulo Nat.divmod Nat.add snd fst Nat.sub] in D; unfold rim in D; lia.
Qed.
Lemma res_neighbour t X i s Y j : List.In (t, X) (zDelaunay2DPurgeOuter m) -> List.In (s, Y) (zDelaunay2DPurgeOuter m) -> (i < 3)%nat -> (j < 3)%nat ->
  (dadj X i = Some s /\ dadj Y j = Some t <-> dv Y j = dv X (nx i) /\ dv Y (nx j) = dv X i).
Proof.
  intros I J Li Lj. apply purge_in in I. destruct I as (I & I0 & I1 & I2). apply purge_in in J. destruct J as (J & J0 & J1 & J2). pose proof (get_dart m t X i (res_get _ _ I) Li) as D1. pose proof (get_dart m s Y j (res_get _ _ J) Lj) as D2. split.
  - intros (A1 & A2). rewrite A1 in D1. rewrite A2 in D2. destruct (M_adj _ _ _ M _ _ _ _ _ D1) as (w & K). destruct (adj_unique _ _ _ _ _ _ _ _ _ _ _ M K D2) as (U1 & U2 & _). auto.
  - intros (A1 & A2). rewrite A1, A2 in D2. split.
    + destruct (dadj X i) as [a|] eqn:E.
      * destruct (M_adj _ _ _ M _ _ _ _ _ D1) as (w & K). f_equal. exact (edge_one _ _ _ _ _ _ _ _ _ _ _ M res_distinct K D2).
      * exfalso. apply (M_rim _ _ _ M) in D1. three i Li; cbv [nx Nat.modulo Nat.divmod Nat.add snd fst Nat.sub] in D1; unfold rim in D1; lia.
    + destruct (dadj Y j) as [a|] eqn:E.
      * destruct (M_adj _ _ _ M _ _ _ _ _ D2) as (w & K). f_equal. exact (edge_one _ _ _ _ _ _ _ _ _ _ _ M res_distinct K D1).
      * exfalso. apply (M_rim _ _ _ M) in D2. rewrite <- A1, <- A2 in D2. three j Lj; cbv [nx Nat.modulo Nat.divmod Nat.add snd fst Nat.sub] in D2; unfold rim in D2; lia.
Qed.
End Result.
End Top.
