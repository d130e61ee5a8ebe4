(** zVec2DDataDelaunayTriangulate: success and failure, and examples. *)
From Verif Require Import ModelDel SpecDel FactsElem FactsTri2 FactsCentre FactsBallQ FactsBallQ3 FactsDel FactsDel2 FactsDel3 FactsDel4 FactsDel5 FactsDel6 FactsDel7 FactsDel8 FactsDel9 FactsDel10.
From Coq Require Import List Lra Lia Bool.
Import ListNotations.
Open Scope R_scope.

(** the neighbours recorded in the list of triangles *)
Record linked (m : mem) : Prop := {
  (** cells are distinct *)
  N_cells : NoDup (map fst m);
  (** no neighbour is a null pointer *)
  N_null : forall t X i, List.In (t, X) m -> (i < 3)%nat -> dadj X i <> None;
  (** two triangles of the list are recorded as each other's neighbour along an edge exactly when they share it *)
  N_edge : forall t X i s Y j, List.In (t, X) m -> List.In (s, Y) m -> (i < 3)%nat -> (j < 3)%nat ->
    (dadj X i = Some s /\ dadj Y j = Some t <-> dv Y j = dv X (Nat.modulo (i + 1) 3) /\ dv Y (Nat.modulo (j + 1) 3) = dv X i);
  (** a neighbour that is in the list knows its neighbour *)
  N_back : forall t X i s Y, List.In (t, X) m -> List.In (s, Y) m -> (i < 3)%nat -> dadj X i = Some s -> exists j, (j < 3)%nat /\ dadj Y j = Some t }.

Lemma delaunay_ok data d : data <> [] -> bounding_disk data d -> no_three_in_line (outer_corners d ++ data) -> (forall p, List.In p data -> within (outer_corners d) p) ->
  exists m, (forall fuel, (4 * length data + 5 <= fuel)%nat -> zVec2DDataDelaunayTriangulate fuel data = DDone (outer_corners d ++ data, m)) /\
    delaunay_list (outer_corners d) data (triangles (outer_corners d ++ data) m) /\ linked m.
Proof.
  intros NE BD GP SU. destruct (top_run data d NE BD GP SU) as (m & V & new & F & T & E & _). exists (zDelaunay2DPurgeOuter m). split; [exact F|]. split; constructor.
  - intros a b c. apply (res_sound data d m V new T E).
  - intros i j s t x. apply (res_apart data d GP m V new T E).
  - intros a b c o. apply (res_full data d GP SU m V new T E).
  - intros a b c o x. apply (res_cover data d GP SU m V new T E).
  - pose proof (M_ids _ _ _ (T_mesh _ _ _ T)) as ND. unfold zDelaunay2DPurgeOuter. cbn [fst] in ND. generalize (fun c : nat * dtri => negb (existsb (fun i => Nat.ltb (dv (snd c) i) 3) [0%nat; 1%nat; 2%nat])). intros f. clear - ND. induction m as [|(s, X) r IH]; cbn [filter ids map fst] in *; [constructor|]. inversion ND as [|? ? N1 N2]; subst. specialize (IH N2).
    destruct (f (s, X)); [|exact IH]. cbn [map fst]. constructor; [|exact IH]. intros H. apply N1. apply in_map_iff in H. destruct H as (y & E' & Y). apply filter_In in Y. apply in_map_iff. exists y. tauto.
  - intros t X i. exact (res_null data d m V new T t X i).
  - intros t X i s Y j. exact (res_neighbour data d GP m V new T E t X i s Y j).
  - intros t X i s Y I J Li A. pose proof (T_mesh _ _ _ T) as M. cbn [fst] in M. apply purge_in in I, J. destruct I as (I & _), J as (J & _). pose proof (get_dart m t X i (res_get data d m V new T _ _ I) Li) as D. rewrite A in D.
    destruct (M_adj _ _ _ M _ _ _ _ _ D) as (w & Y' & j & G & Lj & _ & _ & _ & B). rewrite (res_get data d m V new T _ _ J) in G. injection G as <-. exists j. auto.
Qed.

Lemma all_app pts fuel ps qs : forall st, zDelaunay2DAll pts fuel st (ps ++ qs) = match zDelaunay2DAll pts fuel st ps with DDone st => zDelaunay2DAll pts fuel st qs | e => e end.
Proof. induction ps as [|p ps IH]; intros st; cbn [app zDelaunay2DAll]; [reflexivity|]. destruct (zDelaunay2DUpdate pts fuel st p); [reflexivity|reflexivity|reflexivity|apply IH]. Qed.
Lemma within_dec l p : {within l p} + {~ within l p}.
Proof.
  destruct l as [|a [|b [|c [|]]]]; try (right; intros []; fail). cbn [within]. unfold inside_triangle.
  destruct (Rlt_dec 0 (area2 b c p)), (Rlt_dec 0 (area2 c a p)), (Rlt_dec 0 (area2 a b p)); [left; auto|right; tauto..].
Qed.
Lemma first_out (P : vec2 -> Prop) (dec : forall p, {P p} + {~ P p}) l p : List.In p l -> ~ P p -> exists l1 q l2, l = l1 ++ q :: l2 /\ (forall x, List.In x l1 -> P x) /\ ~ P q.
Proof.
  induction l as [|y r IH]; intros I N; [destruct I|]. destruct (dec y) as [Y|Y]; [|exists [], y, r; repeat split; auto; intros x []].
  destruct I as [<-|I]; [contradiction|]. destruct (IH I N) as (l1 & q & l2 & E & A & B). exists (y :: l1), q, l2. split; [rewrite E; reflexivity|]. split; [|exact B]. intros x [<-|X]; auto.
Qed.
Lemma delaunay_fails data d p : bounding_disk data d -> no_three_in_line (outer_corners d ++ data) -> List.In p data -> ~ within (outer_corners d) p ->
  forall fuel, (4 * length data + 5 <= fuel)%nat -> zVec2DDataDelaunayTriangulate fuel data = DFail.
Proof.
  intros BD GP IP NP fuel HF. assert (NE : data <> []) by (intros ->; destruct IP).
  destruct (first_out _ (within_dec (outer_corners d)) data p IP NP) as (l1 & q & l2 & E & L1 & NQ).
  set (pts := outer_corners d ++ data). set (n := length l1). assert (LEN : length data = (n + 1 + length l2)%nat) by (rewrite E, app_length; cbn [length]; unfold n; lia).
  assert (TN : forall k, (k < length data + 3)%nat -> nth_error pts k = Some (dpt pts k)) by (intros k K; exact (top_nth data d k K)).
  assert (ROL : forall i j k, (i < length data + 3)%nat -> (j < length data + 3)%nat -> (k < length data + 3)%nat -> i <> j -> i <> k -> j <> k -> zTOL * dist2 (dpt pts i) (dpt pts j) < Rabs (ar pts i j k)).
  { intros i j k I J K N1 N2 N3. apply (GP i j k); try (apply TN; assumption). repeat constructor; cbn [List.In]; intuition congruence. }
  assert (COR : forall k, (k < 3)%nat -> dpt pts k = nth k (outer_corners d) v2zero) by (intros k K; exact (top_corner data d k K)).
  assert (PL1 : forall k, (3 <= k < 3 + n)%nat -> List.In (dpt pts k) l1). { intros k K. unfold dpt, pts. rewrite E, app_nth2 by (cbn [length outer_corners]; lia). cbn [length outer_corners]. rewrite app_nth1 by (fold n; lia). apply nth_In. fold n. lia. }
  assert (PQ : dpt pts (3 + n) = q). { unfold dpt, pts. rewrite E, app_nth2 by (cbn [length outer_corners]; lia). cbn [length outer_corners]. rewrite app_nth2 by (fold n; lia). fold n. replace (3 + n - 3 - n)%nat with 0%nat by lia. reflexivity. }
  assert (AR : 0 < ar pts 0 1 2).
  { unfold ar. rewrite !COR by lia. apply outer_area. destruct BD as (b & B1 & B2). destruct (plane_recursive data NE) as (b' & d' & B1' & B2' & _ & _ & _ & DP & _). rewrite B1 in B1'. injection B1' as <-. rewrite B2 in B2'. injection B2' as <-.
    destruct (Rle_lt_or_eq_dec _ _ DP) as [H|H]; [exact H|exfalso]. pose proof (ROL 0%nat 1%nat 2%nat ltac:(lia) ltac:(lia) ltac:(lia) ltac:(lia) ltac:(lia) ltac:(lia)) as Z. unfold ar in Z. rewrite !COR in Z by lia. cbn [nth outer_corners] in Z. rewrite <- H in Z.
    match type of Z with _ < Rabs ?a => replace a with 0 in Z by (plane; ring) end. rewrite Rabs_R0 in Z. pose proof zTOL_pos. match type of Z with zTOL * ?x < 0 => assert (0 <= x) by apply dist2_pos; assert (0 <= zTOL * x) by (apply Rmult_le_pos; lra) end. lra. }
  destruct (all_ok pts (seq 3 n) _ _ (outer_ok pts AR)) as ((m, new) & V & F & T & EV & L).
  - apply NoDup_app_ok.
  - intros i j k I J K. rewrite !in_app_iff, !in_seq in I, J, K. cbn [List.In] in I, J, K. apply ROL; lia.
  - intros k K. apply in_seq in K. unfold ins. rewrite !COR by lia. apply (L1 (dpt pts k)). apply PL1. lia.
  - cbn [fst length] in F, L. rewrite seq_length in F, L. unfold zVec2DDataDelaunayTriangulate, zDelaunay2DCreateOuter.
    destruct BD as (b & B1 & B2). destruct (plane_recursive data NE) as (b' & d' & B1' & B2' & _ & BL & _). rewrite B1 in B1'. injection B1' as <-. rewrite B1, B2. destruct (fpoints b) as [|q0 r0]; [cbn [length] in BL; lia|]. fold pts.
    replace (length data) with (n + S (length l2))%nat by lia. rewrite seq_app. cbn [seq]. rewrite all_app, F by lia. cbn [zDelaunay2DAll]. unfold zDelaunay2DUpdate.
    assert (FN : zDelaunayTri2DListFind pts m (3 + n) = None); [|rewrite FN; reflexivity].
    pose proof (T_mesh _ _ _ T) as M. pose proof (T_rim _ _ _ T) as RM. cbn [fst] in M. assert (VI : forall k, List.In k V <-> (k < 3 + n)%nat) by (intros k; rewrite EV, in_app_iff, in_seq; cbn [List.In]; lia).
    assert (AP : apart pts V (3 + n)) by (intros i j I J N; apply VI in I, J; apply ROL; lia).
    assert (NO : forall t X, List.In (t, X) m -> zTri2DPointIsInside (dtri2 pts X) (dpt pts (3 + n)) zTOL = false).
    { intros t X I. assert (G : dget m t = Some X) by (apply in_dget; [exact (M_ids _ _ _ M)|exact I]). pose proof (get_dart m t X 0 G ltac:(lia)) as E0. pose proof (get_dart m t X 1 G ltac:(lia)) as E1. pose proof (get_dart m t X 2 G ltac:(lia)) as E2.
      pose proof (M_pos _ _ _ M _ _ _ _ _ E0) as P. apply (M_in _ _ _ M) in E0, E1, E2. change (nx 0) with 1%nat in P. change (nxx 0) with 2%nat in P.
      apply (find_outside pts X (3 + n) V AP E0 E1 E2 P). intros IN. apply NQ. rewrite <- PQ.
      assert (K : forall f g, List.In f V -> List.In g V -> f <> g -> 0 <= ar pts f g (dv X 0) -> 0 <= ar pts f g (dv X 1) -> 0 <= ar pts f g (dv X 2) -> 0 < ar pts f g (3 + n)).
      { intros f g IF IG N A0 A1 A2. pose proof (AP f g IF IG N) as Q. pose proof (area_affine (dpt pts (dv X 0)) (dpt pts (dv X 1)) (dpt pts (dv X 2)) (dpt pts f) (dpt pts g) (dpt pts (3 + n))) as AF. destruct IN as (I1 & I2 & I3).
        unfold ar in *. set (x := area2 (dpt pts f) (dpt pts g) (dpt pts (3 + n))) in *. set (A := area2 (dpt pts (dv X 0)) (dpt pts (dv X 1)) (dpt pts (dv X 2))) in *.
        match type of AF with _ = ?a * ?a' + ?b * ?b' + ?c * ?c' => assert (0 <= a * a') by (apply Rmult_le_pos; lra); assert (0 <= b * b') by (apply Rmult_le_pos; lra); assert (0 <= c * c') by (apply Rmult_le_pos; lra) end.
        destruct (Rlt_le_dec 0 x) as [XP|XP]; [exact XP|exfalso]. assert (XN : x <> 0). { intros Z. rewrite Z, Rabs_R0 in Q. pose proof zTOL_pos. pose proof (dist2_pos (dpt pts f) (dpt pts g)). assert (0 <= zTOL * dist2 (dpt pts f) (dpt pts g)) by (apply Rmult_le_pos; lra). lra. }
        assert (0 < A * - x) by (apply Rmult_lt_0_compat; lra). lra. }
      destruct (RM _ E0) as (R1 & R2 & R3). destruct (RM _ E1) as (R4 & R5 & R6). destruct (RM _ E2) as (R7 & R8 & R9).
      change (within (outer_corners d) (dpt pts (3 + n))) with (inside_triangle (nth 0 (outer_corners d) v2zero) (nth 1 (outer_corners d) v2zero) (nth 2 (outer_corners d) v2zero) (dpt pts (3 + n))). rewrite <- !COR by lia.
      split; [|split]; apply K; try assumption; try (apply VI; lia); lia. }
    clear - NO. induction m as [|(t, X) r IH]; cbn [zDelaunayTri2DListFind]; [reflexivity|]. rewrite (NO t X) by (left; reflexivity). apply IH. intros t' X' I. apply (NO t'). right. exact I.
Qed.
Lemma delaunay_none fuel : zVec2DDataDelaunayTriangulate fuel [] = DUndef.
Proof. reflexivity. Qed.

(** ** examples *)
Fixpoint pairs_ok (a : vec2) (l : list vec2) : Prop := match l with [] => True | b :: r => (forall c, List.In c r -> 1 / 1000 < Rabs (area2 a b c)) /\ pairs_ok a r end.
Fixpoint triples_ok (l : list vec2) : Prop := match l with [] => True | a :: r => pairs_ok a r /\ triples_ok r end.
Lemma pairs_nth a l : pairs_ok a l -> forall i j b c, (i < j)%nat -> nth_error l i = Some b -> nth_error l j = Some c -> 1 / 1000 < Rabs (area2 a b c).
Proof.
  induction l as [|x r IH]; intros P i j b c L I J; [destruct i; discriminate|]. destruct P as (P & Q). destruct j as [|j]; [lia|]. cbn in J. destruct i as [|i]; cbn in I.
  - injection I as <-. apply P. exact (nth_error_In _ _ J).
  - apply (IH Q i j); [lia|exact I|exact J].
Qed.
Lemma triples_nth l : triples_ok l -> forall i j k a b c, (i < j)%nat -> (j < k)%nat -> nth_error l i = Some a -> nth_error l j = Some b -> nth_error l k = Some c -> 1 / 1000 < Rabs (area2 a b c).
Proof.
  induction l as [|x r IH]; intros P i j k a b c L L' I J K; [destruct i; discriminate|]. destruct P as (P & Q). destruct j as [|j]; [lia|]. destruct k as [|k]; [lia|]. cbn in J, K. destruct i as [|i]; cbn in I.
  - injection I as <-. apply (pairs_nth x r P j k); [lia|exact J|exact K].
  - apply (IH Q i j k); [lia|lia|exact I|exact J|exact K].
Qed.
Lemma dist2_rough a b : Rabs (x2 a) < 100 -> Rabs (y2 a) < 100 -> Rabs (x2 b) < 100 -> Rabs (y2 b) < 100 -> dist2 a b < 400.
Proof.
  intros A B C D. apply Rabs_def2 in A, B, C, D. destruct (Rlt_le_dec (dist2 a b) 400) as [H|H]; [exact H|exfalso]. assert (K : 400 * 400 <= dist2 a b * dist2 a b) by (apply Rmult_le_compat; lra). rewrite <- sq_dist in K. revert K. plane. intros K.
  assert (Q : forall x y, -100 < x < 100 -> -100 < y < 100 -> (x - y) * (x - y) <= 200 * 200). { intros x y X Y. assert (0 <= (200 - (x - y)) * (200 + (x - y))) by (apply Rmult_le_pos; lra). lra. }
  pose proof (Q (x2 b) (x2 a)) as Q1. pose proof (Q (y2 b) (y2 a)) as Q2. pose proof (Q (x2 a) (x2 b)) as Q3. pose proof (Q (y2 a) (y2 b)) as Q4. lra.
Qed.
Lemma check_line l : (forall a, List.In a l -> Rabs (x2 a) < 100 /\ Rabs (y2 a) < 100) -> triples_ok l -> no_three_in_line l.
Proof.
  intros B T i j k a b c ND I J K. destruct (B a (nth_error_In _ _ I)) as (A1 & A2). destruct (B b (nth_error_In _ _ J)) as (B1 & B2). pose proof (dist2_rough a b A1 A2 B1 B2) as D. pose proof (dist2_pos a b) as P. pose proof zTOL_pos as Z. pose proof zTOL_small as Z'.
  assert (S : zTOL * dist2 a b <= / 1000000 * 400) by (apply Rmult_le_compat; lra). apply Rle_lt_trans with (1 / 1000); [lra|].
  assert (N1 : i <> j /\ i <> k /\ j <> k). { rewrite !NoDup_cons_iff in ND. cbn [List.In] in ND. intuition congruence. } destruct N1 as (N1 & N2 & N3).
  pose proof (area_swap a b c) as S1. pose proof (area_rot a b c) as S2. pose proof (area_rot b c a) as S3. pose proof (area_swap b c a) as S4. pose proof (area_swap c a b) as S5.
  assert (AB : forall x, area2 a b c = x \/ area2 a b c = - x -> 1 / 1000 < Rabs x -> 1 / 1000 < Rabs (area2 a b c)) by (intros x [->| ->] H; [exact H|rewrite Rabs_Ropp; exact H]).
  destruct (Nat.lt_trichotomy i j) as [H|[H|H]], (Nat.lt_trichotomy i k) as [H'|[H'|H']], (Nat.lt_trichotomy j k) as [H''|[H''|H'']]; try lia.
  - apply (triples_nth l T i j k); assumption.
  - apply (AB (area2 a c b)); [right; rewrite S2, S3; rewrite (area_swap c a b); ring|]. apply (triples_nth l T i k j); assumption.
  - apply (AB (area2 c a b)); [left; lra|]. apply (triples_nth l T k i j); assumption.
  - apply (AB (area2 b a c)); [right; lra|]. apply (triples_nth l T j i k); assumption.
  - apply (AB (area2 b c a)); [left; lra|]. apply (triples_nth l T j k i); assumption.
  - apply (AB (area2 c b a)); [right; rewrite S2; apply area_swap|]. apply (triples_nth l T k j i); assumption.
Qed.
(** three points, the first in the disk on the other two *)
Lemma recursive_three p b c o r : o = midpoint2 b c -> dist2 o b = r -> dist2 o p <= r -> zTOL <= dist2 b c -> bounding_disk [p; b; c] (DK o r).
Proof.
  intros EO ER DP BC. pose proof zTOL_pos as Z. assert (D : zDisk2DFrom2 b c = DK o r).
  { unfold zDisk2DFrom2. zvg. replace (zVec2DMid b c) with o; [rewrite ER; reflexivity|]. rewrite EO. unfold zVec2DMid, zVec2DInterDiv, midpoint2, vadd2, vscale2, zVec2DCat, zVec2DSub. apply vec2_ext; pcbn; lra. }
  exists (FD [b; c] (Some (DK o r))). split; [|reflexivity]. unfold zVec2DDataBoundingBallRecursive.
  assert (F0 : forall q, contains inside2 (FD [] (Some (DK v2zero (-1)))) q = false). { intros q. cbn [contains fball]. unfold inside2, zDisk2DPointIsInside, zDisk2DDistFromPoint. zvg. cbn [dcen drad]. pose proof (dist2_pos v2zero q). destruct (Rltb_reflect (dist2 v2zero q - -1) zTOL) as [HL|HL]; [pose proof zTOL_small; lra|reflexivity]. }
  assert (F1 : forall q q', zTOL <= dist2 q q' -> contains inside2 (FD [q] (Some (DK q 0))) q' = false). { intros q q' H. cbn [contains fball]. unfold inside2, zDisk2DPointIsInside, zDisk2DDistFromPoint. zvg. cbn [dcen drad]. destruct (Rltb_reflect (dist2 q q' - 0) zTOL) as [H'|H']; [lra|reflexivity]. }
  cbn [recursive length Nat.eqb zBoundingBall2DDirect]. rewrite !F0, !F1 by (rewrite ?(dist2_sym' c b); exact BC). rewrite D.
  cbn [contains fball]. unfold inside2, zDisk2DPointIsInside, zDisk2DDistFromPoint. zvg. cbn [dcen drad]. destruct (Rltb_reflect (dist2 o p - r) zTOL) as [HL|HL]; [reflexivity|lra].
Qed.

Lemma dist2_val a b r : 0 <= r -> sq a b = r * r -> dist2 a b = r.
Proof. intros P E. rewrite sq_dist in E. pose proof (dist2_pos a b) as Q. destruct (Rtotal_order (dist2 a b) r) as [H|[H|H]]; [exfalso|exact H|exfalso]. - assert (dist2 a b * dist2 a b < r * r) by (apply Rmult_le_0_lt_compat; lra). lra. - assert (r * r < dist2 a b * dist2 a b) by (apply Rmult_le_0_lt_compat; lra). lra. Qed.
Lemma dist2_most a b r : 0 <= r -> sq a b <= r * r -> dist2 a b <= r.
Proof. intros P E. rewrite sq_dist in E. destruct (Rle_lt_dec (dist2 a b) r) as [H|H]; [exact H|exfalso]. assert (r * r < dist2 a b * dist2 a b) by (apply Rmult_le_0_lt_compat; lra). lra. Qed.
Lemma dist2_least a b r : 0 <= r -> r * r <= sq a b -> r <= dist2 a b.
Proof. intros P E. rewrite sq_dist in E. destruct (Rle_lt_dec r (dist2 a b)) as [H|H]; [exact H|exfalso]. pose proof (dist2_pos a b). assert (dist2 a b * dist2 a b < r * r) by (apply Rmult_le_0_lt_compat; lra). lra. Qed.
Lemma sqrt3 : 1.732 < sqrt 3 < 1.7321 /\ sqrt 3 * sqrt 3 = 3.
Proof. split; [split|apply sqrt_sqrt; lra]. - rewrite <- (sqrt_square 1.732) by lra. apply sqrt_lt_1; lra. - rewrite <- (sqrt_square 1.7321) by lra. apply sqrt_lt_1; lra. Qed.
Lemma away x : 1 / 1000 < x \/ x < - (1 / 1000) -> 1 / 1000 < Rabs x.
Proof. intros [H|H]; [rewrite Rabs_right by lra|rewrite Rabs_left by lra]; lra. Qed.
(** a right-angled triangle and its outer triangle *)
Definition three : list vec2 := [V2 0 0; V2 6 0; V2 0 8].
Definition skinny : list vec2 := [V2 0 (1 / 2); V2 (-5) 0; V2 5 0].
Ltac checks := apply check_line; [intros a I; cbn [List.In app outer_corners dcen drad x2 y2] in I; repeat (destruct I as [<-|I]; [cbn [x2 y2]; split; apply Rabs_def1; lra|]); destruct I
  |cbn [app outer_corners dcen drad x2 y2 triples_ok pairs_ok]; repeat split; intros c I; cbn [List.In] in I; repeat (destruct I as [<-|I]; [apply away; plane; first [left; lra|right; lra]|]); destruct I].
Lemma three_disk : bounding_disk three (DK (V2 3 4) 5).
Proof.
  apply recursive_three.
  - unfold midpoint2. apply vec2_ext; plane; lra.
  - apply dist2_val; [lra|]. plane. lra.
  - apply dist2_most; [lra|]. plane. lra.
  - pose proof zTOL_small. apply Rle_trans with 1; [lra|]. apply dist2_least; [lra|]. plane. lra.
Qed.
Lemma skinny_disk : bounding_disk skinny (DK (V2 0 0) 5).
Proof.
  apply recursive_three.
  - unfold midpoint2. apply vec2_ext; plane; lra.
  - apply dist2_val; [lra|]. plane. lra.
  - apply dist2_most; [lra|]. plane. lra.
  - pose proof zTOL_small. apply Rle_trans with 1; [lra|]. apply dist2_least; [lra|]. plane. lra.
Qed.
Lemma three_line : no_three_in_line (outer_corners (DK (V2 3 4) 5) ++ three).
Proof. destruct sqrt3 as (S & S3). unfold three. cbn [outer_corners app]. revert S S3. generalize (sqrt 3). intros w S S3. checks. Qed.
Lemma skinny_line : no_three_in_line (outer_corners (DK (V2 0 0) 5) ++ skinny).
Proof. destruct sqrt3 as (S & S3). unfold skinny. cbn [outer_corners app]. revert S S3. generalize (sqrt 3). intros w S S3. checks. Qed.
Lemma three_within p : List.In p three -> within (outer_corners (DK (V2 3 4) 5)) p.
Proof. intros I. apply disk_surrounded. cbn [dcen drad]. apply Rle_lt_trans with 5; [|lra]. apply dist2_most; [lra|]. cbn [three List.In] in I. destruct I as [<-|[<-|[<-|[]]]]; plane; lra. Qed.
Lemma skinny_within p : List.In p skinny -> within (outer_corners (DK (V2 0 0) 5)) p.
Proof. intros I. apply disk_surrounded. cbn [dcen drad]. apply Rle_lt_trans with 5; [|lra]. apply dist2_most; [lra|]. cbn [skinny List.In] in I. destruct I as [<-|[<-|[<-|[]]]]; plane; lra. Qed.
(** three points that make a flat triangle are not joined *)
Lemma skinny_lost : exists data a b c pts, List.In a data /\ List.In b data /\ List.In c data /\ delaunay_triangle data a b c /\
  forall fuel, (17 <= fuel)%nat -> zVec2DDataDelaunayTriangulate fuel data = DDone (pts, []).
Proof.
  destruct (delaunay_ok skinny (DK (V2 0 0) 5)) as (m & F & [DS _ _ _] & _); [discriminate|apply skinny_disk|apply skinny_line|apply skinny_within|].
  assert (E : m = []).
  { destruct m as [|(t, X) r]; [reflexivity|exfalso]. destruct (DS _ _ _ (or_introl eq_refl)) as (Ia & Ib & Ic & P & o & E1 & E2 & EM). clear DS F. set (pts := outer_corners (DK (V2 0 0) 5) ++ skinny) in *. cbn [snd] in Ia, Ib, Ic, P, E1, E2, EM. revert Ia Ib Ic P E1 E2 EM.
    generalize (dpt pts (dv X 0)) (dpt pts (dv X 1)) (dpt pts (dv X 2)). intros a b c Ia Ib Ic P E1 E2 EM. apply dist2_eq in E1, E2.
    assert (Q : x2 o = 0 /\ y2 o = - (99 / 4) /\ sq o a = 637 + 9 / 16).
    { cbn [skinny List.In] in Ia, Ib, Ic. destruct Ia as [<-|[<-|[<-|[]]]], Ib as [<-|[<-|[<-|[]]]], Ic as [<-|[<-|[<-|[]]]]; revert P E1 E2; plane; intros P E1 E2; try (exfalso; lra);
      (assert (X0 : x2 o = 0) by lra; assert (Y0 : y2 o = - (99 / 4)) by (rewrite X0 in *; lra); rewrite X0, Y0; split; [reflexivity|]; split; [reflexivity|lra]). }
    destruct Q as (X0 & Y0 & R0). assert (I2 : List.In (V2 (0 + 3 / 2 * sqrt 3 * 5) (0 - 3 / 2 * 5)) pts) by (cbn [pts outer_corners app List.In dcen drad x2 y2]; auto).
    specialize (EM _ I2). apply dist2_le in EM. rewrite R0 in EM. revert EM. plane. rewrite X0, Y0. destruct sqrt3 as (S & S3). intros EM.
    replace (637 + 9 / 16) with (637 + 9 / 16 + 0 * (sqrt 3 * sqrt 3 - 3)) in EM by ring. lra. }
  subst m. exists skinny, (V2 0 (1 / 2)), (V2 (-5) 0), (V2 5 0), (outer_corners (DK (V2 0 0) 5) ++ skinny). split; [cbn [skinny List.In]; auto|]. split; [cbn [skinny List.In]; auto|]. split; [cbn [skinny List.In]; auto|]. split; [|exact F].
  split; [plane; lra|]. exists (V2 0 (- (99 / 4))). split; [apply dist2_eq; plane; lra|]. split; [apply dist2_eq; plane; lra|]. intros q I. apply dist2_le. cbn [skinny List.In] in I. destruct I as [<-|[<-|[<-|[]]]]; plane; lra.
Qed.
(** the neighbours of the only triangle have been freed *)
Lemma dangling : exists data pts m t X, (forall fuel, (17 <= fuel)%nat -> zVec2DDataDelaunayTriangulate fuel data = DDone (pts, m)) /\ List.In (t, X) m /\
  forall i, (i < 3)%nat -> exists s, dadj X i = Some s /\ dget m s = None.
Proof.
  destruct (delaunay_ok three (DK (V2 3 4) 5)) as (m & F & [DS DA DF _] & [NC NN NE NB]); [discriminate|apply three_disk|apply three_line|apply three_within|].
  set (pts := outer_corners (DK (V2 3 4) 5) ++ three) in *.
  assert (EX : exists t X, List.In (t, X) m).
  { assert (K : List.In (V2 0 0, V2 6 0, V2 0 8) (triangles pts m) \/ List.In (V2 6 0, V2 0 8, V2 0 0) (triangles pts m) \/ List.In (V2 0 8, V2 0 0, V2 6 0) (triangles pts m)).
    { apply (DF _ _ _ (V2 3 4)); try (cbn [three List.In]; auto; fail); [plane; lra|apply dist2_eq; plane; lra|apply dist2_eq; plane; lra|].
      intros q Q. apply in_app_iff in Q. destruct Q as [Q|Q]; [|cbn [three List.In] in Q; intuition].
      right. right. right. replace (dist2 (V2 3 4) (V2 0 0)) with 5 by (symmetry; apply dist2_val; [lra|plane; lra]). apply Rlt_le_trans with 15; [lra|]. apply dist2_least; [lra|]. destruct sqrt3 as (_ & S3).
      cbn [outer_corners List.In dcen drad x2 y2] in Q. destruct Q as [<-|[<-|[<-|[]]]]; plane; lra. }
    destruct m as [|(t, X) r]; [cbn in K; tauto|]. exists t, X. left. reflexivity. }
  destruct EX as (t & X & I). exists three, pts, m, t, X. split; [exact F|]. split; [exact I|]. intros i Li. destruct (dadj X i) as [s|] eqn:A; [|exfalso; exact (NN t X i I Li A)]. exists s. split; [reflexivity|].
  destruct (dget m s) as [Y|] eqn:G; [exfalso|reflexivity]. pose proof (dget_in _ _ _ G) as J. destruct (NB _ _ _ _ _ I J Li A) as (j & Lj & B). destruct (proj1 (NE _ _ _ _ _ _ I J Li Lj) (conj A B)) as (V1 & V2).
  assert (IX : List.In (dpt pts (dv X 0), dpt pts (dv X 1), dpt pts (dv X 2)) (triangles pts m)) by (apply in_map_iff; exists (t, X); auto). assert (IY : List.In (dpt pts (dv Y 0), dpt pts (dv Y 1), dpt pts (dv Y 2)) (triangles pts m)) by (apply in_map_iff; exists (s, Y); auto).
  destruct (DS _ _ _ IX) as (Xa & Xb & Xc & PX & _). destruct (DS _ _ _ IY) as (Ya & Yb & Yc & PY & _). clear - V1 V2 Xa Xb Xc PX Ya Yb Yc PY Li Lj.
  assert (CY : exists w, List.In w three /\ 0 < area2 (dpt pts (dv X (Nat.modulo (i + 1) 3))) (dpt pts (dv X i)) w).
  { rewrite <- V1, <- V2. destruct j as [|[|[|j]]]; [| | |lia]; cbv [Nat.modulo Nat.divmod Nat.add snd fst Nat.sub]; [exists (dpt pts (dv Y 2))|exists (dpt pts (dv Y 0))|exists (dpt pts (dv Y 1))]; (split; [assumption|]); pose proof (area_rot (dpt pts (dv Y 0)) (dpt pts (dv Y 1)) (dpt pts (dv Y 2))); pose proof (area_rot (dpt pts (dv Y 1)) (dpt pts (dv Y 2)) (dpt pts (dv Y 0))); lra. }
  destruct CY as (w & Iw & PW). clear V1 V2 Ya Yb Yc PY. revert Xa Xb Xc PX PW. destruct i as [|[|[|i]]]; [| | |lia]; cbv [Nat.modulo Nat.divmod Nat.add snd fst Nat.sub];
  generalize (dpt pts (dv X 0)) (dpt pts (dv X 1)) (dpt pts (dv X 2)); intros a b c Xa Xb Xc; cbn [three List.In] in Xa, Xb, Xc, Iw;
  destruct Xa as [<-|[<-|[<-|[]]]], Xb as [<-|[<-|[<-|[]]]], Xc as [<-|[<-|[<-|[]]]], Iw as [<-|[<-|[<-|[]]]]; plane; lra.
Qed.
(** a point left out of the outer triangle makes the method fail *)
Definition five_points : list vec2 := [V2 4 5; V2 5 (-4); V2 6 (-1); V2 2 (-5); V2 (-5) 3].
Lemma five_inj : map inj2 five = five_points.
Proof. unfold five, five_points, inj2. cbn [map fst snd]. unfold Q2R. cbn [QArith_base.Qnum QArith_base.Qden]. repeat (f_equal; try lra). Qed.
Lemma five_disk : bounding_disk five_points (DK (V2 3 0) (sqrt 26)).
Proof.
  destruct (qrec 3 qin2 qdirect2 five []) as [[ps q]|] eqn:E; [|vm_compute in E; discriminate].
  destruct (qrec_ok inj2 rel2 inside2 zBoundingBall2DDirect 3 qin2 qdirect2 (fun qb b q r => qin2_ok qb b q r) qdirect2_ok five [] ps q E) as (b & R & L).
  rewrite <- five_inj. exists (FD (map inj2 ps) (Some b)). split; [exact R|]. cbn [fball]. f_equal. vm_compute in E. injection E as <- <-. destruct L as (C & D & _). destruct b as [bc br]. cbn [dcen drad] in C, D. rewrite C, D. f_equal.
  - unfold inj2. cbn [fst snd]. unfold Q2R. cbn. f_equal; lra.
  - f_equal. unfold Q2R. cbn. lra.
Qed.
Lemma five_line : no_three_in_line (outer_corners (DK (V2 3 0) (sqrt 26)) ++ five_points).
Proof.
  destruct sqrt3 as (S & S3). assert (U : 5.099 < sqrt 26 < 5.0991 /\ sqrt 26 * sqrt 26 = 26). { split; [split|apply sqrt_sqrt; lra]. - rewrite <- (sqrt_square 5.099) by lra. apply sqrt_lt_1; lra. - rewrite <- (sqrt_square 5.0991) by lra. apply sqrt_lt_1; lra. }
  unfold five_points. cbn [outer_corners app drad dcen]. revert S S3 U. generalize (sqrt 3) (sqrt 26). intros w u S S3 (U & U2).
  assert (UW : 5.099 * 1.732 < u * w < 5.0991 * 1.7321) by (split; apply Rmult_le_0_lt_compat; lra). assert (E1 : u * u * w = 26 * w) by (rewrite U2; reflexivity). assert (E2 : w * w * u = 3 * u) by (rewrite S3; reflexivity). assert (E3 : u * u * (w * w) = 78) by (rewrite U2, S3; lra).
  checks.
Qed.
Lemma five_out : List.In (V2 (-5) 3) five_points /\ ~ within (outer_corners (DK (V2 3 0) (sqrt 26))) (V2 (-5) 3).
Proof.
  split; [cbn [five_points List.In]; auto 8|intros (A & B & C)]. assert (U : 5.099 < sqrt 26 < 5.0991 /\ sqrt 26 * sqrt 26 = 26). { split; [split|apply sqrt_sqrt; lra]. - rewrite <- (sqrt_square 5.099) by lra. apply sqrt_lt_1; lra. - rewrite <- (sqrt_square 5.0991) by lra. apply sqrt_lt_1; lra. }
  destruct sqrt3 as (S & S3). revert C A B U S S3. cbn [dcen drad]. generalize (sqrt 3) (sqrt 26). intros w u C A B (U & U2) S S3. assert (UW : 5.099 * 1.732 < u * w < 5.0991 * 1.7321) by (split; apply Rmult_le_0_lt_compat; lra). assert (E1 : u * u * w = 26 * w) by (rewrite U2; reflexivity). assert (E2 : w * w * u = 3 * u) by (rewrite S3; reflexivity).
  revert A B C. plane. intros A B C. lra.
Qed.
Lemma five_fails : exists data, no_three_in_line data /\ (forall fuel, (25 <= fuel)%nat -> zVec2DDataDelaunayTriangulate fuel data = DFail).
Proof.
  exists five_points. split.
  - intros i j k a b c ND I J K. assert (NX : forall i x, nth_error five_points i = Some x -> nth_error (outer_corners (DK (V2 3 0) (sqrt 26)) ++ five_points) (3 + i) = Some x) by (intros n x H; cbn [outer_corners app Nat.add nth_error]; exact H).
    apply (five_line (3 + i)%nat (3 + j)%nat (3 + k)%nat); [|apply NX; assumption..]. rewrite !NoDup_cons_iff in ND |- *. cbn [List.In] in ND |- *. repeat split; try (intros []; fail); try constructor; intros H; lia.
  - intros fuel HF. exact (delaunay_fails five_points _ _ five_disk five_line (Logic.proj1 five_out) (Logic.proj2 five_out) fuel HF).
Qed.
