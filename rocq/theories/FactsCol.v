(** Proofs about intersections of edges, planes and triangles. *)
From Coq Require Import List Bool Lia.
Import ListNotations.
From Verif Require Import Base ModelVec ModelBox ModelTree ModelElem ModelCol SpecCol FactsVec FactsAlg Facts2D FactsElem FactsTri FactsTri2 FactsLine FactsCentre FactsObb.
Open Scope R_scope.

Lemma height_comb2 o n s0 s1 a b : s0 + s1 = 1 -> height o n (comb2 s0 s1 a b) = s0 * height o n a + s1 * height o n b.
Proof. intros H. replace s0 with (1 - s1) by lra. unfold height, comb2. spec_unfold. ring. Qed.
Lemma height_comb3 o n s0 s1 s2 a b c : s0 + s1 + s2 = 1 ->
  height o n (comb3 s0 s1 s2 a b c) = s0 * height o n a + s1 * height o n b + s2 * height o n c.
Proof. intros H. replace s0 with (1 - s1 - s2) by lra. unfold height, comb3, comb2. spec_unfold. ring. Qed.
Lemma seg_l a b : segment a b a.
Proof. exists 1, 0. split; [unfold weights2; lra|]. unfold comb2. vring. Qed.
Lemma seg_r a b : segment a b b.
Proof. exists 0, 1. split; [unfold weights2; lra|]. unfold comb2. vring. Qed.
Lemma outline_tri a b c p : outline a b c p -> in_triangle a b c p.
Proof.
  intros [(s & t & (W1 & W2 & W3) & ->)|[(s & t & (W1 & W2 & W3) & ->)|(s & t & (W1 & W2 & W3) & ->)]].
  - exists s, t, 0. split; [unfold weights3; lra|]. unfold comb3, comb2. vring.
  - exists 0, s, t. split; [unfold weights3; lra|]. unfold comb3, comb2. vring.
  - exists t, 0, s. split; [unfold weights3; lra|]. unfold comb3, comb2. vring.
Qed.

(** ** an edge and a plane *)
Lemma crossing h0 h1 : h0 * h1 <= 0 <-> exists s t, weights2 s t /\ s * h0 + t * h1 = 0.
Proof.
  split.
  - intros H. destruct (Req_dec h0 h1) as [->|N].
    + assert (h1 = 0) by nra. subst. exists 1, 0. unfold weights2. split; lra.
    + exists (h1 / (h1 - h0)), (- h0 / (h1 - h0)). unfold weights2.
      assert (D : h1 - h0 <> 0) by lra.
      destruct (Rlt_dec h0 h1).
      * assert (h0 <= 0 /\ 0 <= h1) by nra. assert (P : 0 < / (h1 - h0)) by (apply Rinv_0_lt_compat; lra).
        unfold Rdiv. split; [split; [nra|split; [nra|field; lra]]|field; lra].
      * assert (0 <= h0 /\ h1 <= 0) by nra. assert (P : / (h1 - h0) < 0) by (apply Rinv_lt_0_compat; lra).
        unfold Rdiv. split; [split; [nra|split; [nra|field; lra]]|field; lra].
  - intros (s & t & (A & B & C) & E). destruct (Rle_dec (h0 * h1) 0); [assumption|exfalso].
    assert (0 < h0 * h1) by lra. destruct (Rlt_dec 0 h0).
    + assert (0 < h1) by nra. nra.
    + assert (h0 <> 0) by (intros ->; lra). assert (h1 < 0) by nra. nra.
Qed.
Lemma edge_plane_check e pl :
  zColChkEdgePlane3D e pl = true <-> meets (segment (ev0 e) (ev1 e)) (on_plane (porg pl) (pnorm pl)).
Proof.
  unfold zColChkEdgePlane3D. cbv zeta. zvg. rewrite Rleb_true.
  fold (height (porg pl) (pnorm pl) (ev0 e)). fold (height (porg pl) (pnorm pl) (ev1 e)).
  rewrite crossing. split.
  - intros (s & t & W & E). exists (comb2 s t (ev0 e) (ev1 e)). split; [exists s, t; auto|].
    change (height (porg pl) (pnorm pl) (comb2 s t (ev0 e) (ev1 e)) = 0). rewrite height_comb2; [assumption|apply W].
  - intros (x & (s & t & W & ->) & E). exists s, t. split; [assumption|].
    change (height (porg pl) (pnorm pl) (comb2 s t (ev0 e) (ev1 e)) = 0) in E. rewrite height_comb2 in E; [assumption|apply W].
Qed.
Lemma edge_plane e pl : let o := porg pl in let n := pnorm pl in let l := zIntersectEdgePlane3D e pl in
  (l = [] /\ ~ meets (segment (ev0 e) (ev1 e)) (on_plane o n)) \/
  (exists q, l = [q] /\ segment (ev0 e) (ev1 e) q /\ on_plane o n q /\
     (forall x, segment (ev0 e) (ev1 e) x -> on_plane o n x -> x = q) /\ zTOL <= Rabs (height o n (ev1 e) - height o n (ev0 e))) \/
  (l = [ev0 e; ev1 e] /\ meets (segment (ev0 e) (ev1 e)) (on_plane o n) /\
     Rabs (height o n (ev1 e) - height o n (ev0 e)) < zTOL).
Proof.
  cbv zeta. unfold zIntersectEdgePlane3D. destruct (zColChkEdgePlane3D e pl) eqn:K.
  2: { left. split; [reflexivity|]. intros M. apply edge_plane_check in M. congruence. }
  right. cbn [negb]. pose proof (proj1 (edge_plane_check e pl) K) as M. cbv zeta. unfold zEdge3DVec. zvg.
  set (o := porg pl) in *. set (n := pnorm pl) in *.
  assert (E : dot (vsub (ev1 e) (ev0 e)) n = height o n (ev1 e) - height o n (ev0 e)) by (unfold height; clear; spec_unfold; ring).
  assert (E0 : dot (vsub o (ev0 e)) n = - height o n (ev0 e)) by (unfold height; clear; spec_unfold; ring).
  rewrite E, E0.
  destruct (zIsTiny (height o n (ev1 e) - height o n (ev0 e))) eqn:T.
  - right. apply Rltb_true in T. auto.
  - left. apply Rltb_false in T. set (h0 := height o n (ev0 e)) in *. set (h1 := height o n (ev1 e)) in *.
    assert (D : h1 - h0 <> 0) by (intros Z; rewrite Z, Rabs_R0 in T; pose proof zTOL_pos; lra).
    eexists. split; [reflexivity|].
    destruct M as (x & (s & t & W & ->) & P). change (height o n (comb2 s t (ev0 e) (ev1 e)) = 0) in P. rewrite height_comb2 in P by apply W. fold h0 h1 in P.
    assert (Et : - h0 / (h1 - h0) = t). { destruct W as (_ & _ & W). replace s with (1 - t) in P by lra. apply (Rmult_eq_reg_r (h1 - h0)); [|assumption]. field_simplify; [lra|assumption]. }
    rewrite Et. assert (Ex : vadd (ev0 e) (vscale t (vsub (ev1 e) (ev0 e))) = comb2 s t (ev0 e) (ev1 e)).
    { destruct W as (_ & _ & W). replace s with (1 - t) by lra. unfold comb2. clear. vring. }
    rewrite Ex. split; [exists s, t; auto|]. split.
    { change (height o n (comb2 s t (ev0 e) (ev1 e)) = 0). rewrite height_comb2 by apply W. assumption. }
    split; [|assumption].
    intros x (s' & t' & W' & ->) P'. change (height o n (comb2 s' t' (ev0 e) (ev1 e)) = 0) in P'. rewrite height_comb2 in P' by apply W'. fold h0 h1 in P'.
    destruct W as (_ & _ & W). destruct W' as (_ & _ & W'). assert (t' = t).
    { apply (Rmult_eq_reg_r (h1 - h0)); [|assumption]. replace s with (1 - t) in P by lra. replace s' with (1 - t') in P' by lra. lra. }
    subst t'. replace s' with s by lra. reflexivity.
Qed.
(** the second outcome leaves both ends within the tolerance of the plane *)
Lemma flat_edge h0 h1 m : h0 * h1 <= 0 -> Rabs (h1 - h0) < m -> Rabs h0 < m /\ Rabs h1 < m.
Proof.
  intros H T. apply Rabs_def2 in T. split; apply Rabs_def1; destruct (Rle_dec 0 h0), (Rle_dec 0 h1); try nra.
Qed.
Lemma meets_product o n a b : meets (segment a b) (on_plane o n) <-> height o n a * height o n b <= 0.
Proof.
  rewrite crossing. split.
  - intros (x & (s & t & W & ->) & E). exists s, t. split; [assumption|].
    change (height o n (comb2 s t a b) = 0) in E. rewrite height_comb2 in E; [assumption|apply W].
  - intros (s & t & W & E). exists (comb2 s t a b). split; [exists s, t; auto|].
    change (height o n (comb2 s t a b) = 0). rewrite height_comb2; [assumption|apply W].
Qed.
Lemma edge_plane_points e pl q : List.In q (zIntersectEdgePlane3D e pl) ->
  segment (ev0 e) (ev1 e) q /\ Rabs (height (porg pl) (pnorm pl) q) < zTOL.
Proof.
  intros Hq. pose proof zTOL_pos as TP.
  destruct (edge_plane e pl) as [(E & _)|[(q' & E & Sg & P & _)|(E & M & T)]]; rewrite E in Hq.
  - destruct Hq.
  - destruct Hq as [<-|[]]. split; [assumption|]. change (Rabs (dot (vsub q' (porg pl)) (pnorm pl)) < zTOL). rewrite P, Rabs_R0. assumption.
  - apply meets_product in M. destruct (flat_edge _ _ _ M T) as [A B].
    destruct Hq as [<-|[<-|[]]]; split; auto using seg_l, seg_r.
Qed.

(** ** a triangle and a plane *)
Lemma tri_plane_check t pl :
  zColChkTriPlane3D t pl = true <-> meets (in_triangle (tv0 t) (tv1 t) (tv2 t)) (on_plane (porg pl) (pnorm pl)).
Proof.
  unfold zColChkTriPlane3D, triEdges. cbn [existsb]. rewrite !orb_true_iff, !edge_plane_check. cbn [ev0 ev1]. split.
  - intros [(x & A & B)|[(x & A & B)|[(x & A & B)|H]]]; try discriminate; exists x; (split; [|assumption]); apply outline_tri; unfold outline; auto.
  - intros (x & (s0 & s1 & s2 & (A & B & C & D) & ->) & P).
    change (height (porg pl) (pnorm pl) (comb3 s0 s1 s2 (tv0 t) (tv1 t) (tv2 t)) = 0) in P. rewrite height_comb3 in P by assumption.
    rewrite !meets_product.
    set (h0 := height (porg pl) (pnorm pl) (tv0 t)) in *. set (h1 := height (porg pl) (pnorm pl) (tv1 t)) in *. set (h2 := height (porg pl) (pnorm pl) (tv2 t)) in *. clearbody h0 h1 h2.
    destruct (Rle_dec (h0 * h1) 0); [auto|]. destruct (Rle_dec (h1 * h2) 0); [auto|]. exfalso.
    destruct (Rlt_dec 0 h1).
    + assert (0 < h0) by nra. assert (0 < h2) by nra. assert (s0 = 0 /\ s1 = 0 /\ s2 = 0) by (repeat split; nra). lra.
    + assert (h1 <> 0) by (intros ->; lra). assert (h0 < 0) by nra. assert (h2 < 0) by nra. assert (s0 = 0 /\ s1 = 0 /\ s2 = 0) by (repeat split; nra). lra.
Qed.

(** ** collecting points *)
Lemma equal_alike p q : zVec3DEqual p q = true <-> alike p q.
Proof. unfold zVec3DEqual, alike, negligible, zIsTiny, zIsTol. rewrite !andb_true_iff, !Rltb_true. cbn [vsub vx vy vz]. tauto. Qed.
Lemma alike_refl p : alike p p.
Proof. unfold alike, negligible. cbn [vsub vx vy vz]. rewrite !Rminus_diag_eq by reflexivity. rewrite Rabs_R0. pose proof zTOL_pos. auto. Qed.
Lemma alike_sym p q : alike p q -> alike q p.
Proof. unfold alike, negligible. cbn [vsub vx vy vz]. intros (A & B & C). rewrite (Rabs_minus_sym (vx q)), (Rabs_minus_sym (vy q)), (Rabs_minus_sym (vz q)). auto. Qed.
Lemma addNew_cases ip v : (addNew ip v = ip /\ exists q, List.In q ip /\ alike v q) \/
  (addNew ip v = ip ++ [v] /\ forall q, List.In q ip -> ~ alike v q).
Proof.
  unfold addNew. destruct (existsb (fun q => zVec3DEqual v q) ip) eqn:E.
  - left. split; [reflexivity|]. apply existsb_exists in E. destruct E as (q & A & B). exists q. split; [assumption|]. apply equal_alike. assumption.
  - right. split; [reflexivity|]. intros q A B. apply equal_alike in B. assert (existsb (fun q => zVec3DEqual v q) ip = true) by (apply existsb_exists; eauto). congruence.
Qed.
Lemma addNew_in ip v q : List.In q (addNew ip v) -> List.In q ip \/ q = v.
Proof. destruct (addNew_cases ip v) as [[-> _]|[-> _]]; [auto|]. rewrite in_app_iff. cbn. intuition. Qed.
Lemma addNew_keeps ip v q : List.In q ip -> List.In q (addNew ip v).
Proof. destruct (addNew_cases ip v) as [[-> _]|[-> _]]; [auto|]. rewrite in_app_iff. auto. Qed.
Lemma addNew_has ip v : exists q, List.In q (addNew ip v) /\ alike v q.
Proof.
  destruct (addNew_cases ip v) as [[-> (q & A & B)]|[-> _]]; [eauto|]. exists v. split; [apply in_app_iff; right; left; reflexivity|apply alike_refl].
Qed.
Lemma addNew_len ip v : (length (addNew ip v) <= S (length ip))%nat.
Proof. destruct (addNew_cases ip v) as [[-> _]|[-> _]]; rewrite ?app_length; cbn; lia. Qed.
Lemma addNew_distinct ip v : distinct ip -> distinct (addNew ip v).
Proof.
  intros D. destruct (addNew_cases ip v) as [[-> _]|[-> N]]; [assumption|].
  intros i j p q Hi Hj A.
  assert (C : forall k w, nth_error (ip ++ [v]) k = Some w -> (nth_error ip k = Some w /\ (k < length ip)%nat) \/ (k = length ip /\ w = v)).
  { intros k w H. destruct (Nat.lt_ge_cases k (length ip)).
    - left. rewrite nth_error_app1 in H by assumption. auto.
    - right. rewrite nth_error_app2 in H by assumption. destruct (k - length ip)%nat eqn:E; cbn in H; [inversion H; split; [lia|reflexivity]|]. destruct n; discriminate. }
  destruct (C _ _ Hi) as [[Hi' _]|[-> ->]], (C _ _ Hj) as [[Hj' _]|[-> ->]].
  - eapply D; eassumption.
  - exfalso. apply (N p); [eapply nth_error_In; eassumption|apply alike_sym; assumption].
  - exfalso. apply (N q); [eapply nth_error_In; eassumption|assumption].
  - reflexivity.
Qed.
Lemma addAll_in l : forall ip q, List.In q (fold_left addNew l ip) -> List.In q ip \/ List.In q l.
Proof. induction l as [|v l IH]; cbn [fold_left]; intros ip q H; [auto|]. apply IH in H. destruct H as [H|H]; [|cbn; auto]. apply addNew_in in H. cbn; intuition. Qed.
Lemma addAll_keeps l : forall ip q, List.In q ip -> List.In q (fold_left addNew l ip).
Proof. induction l as [|v l IH]; cbn [fold_left]; intros ip q H; [auto|]. apply IH, addNew_keeps, H. Qed.
Lemma addAll_has l : forall ip v, List.In v l -> exists q, List.In q (fold_left addNew l ip) /\ alike v q.
Proof.
  induction l as [|w l IH]; cbn [fold_left]; intros ip v H; [destruct H|]. destruct H as [->|H]; [|eauto].
  destruct (addNew_has ip v) as (q & A & B). exists q. split; [apply addAll_keeps, A|assumption].
Qed.
Lemma addAll_distinct l : forall ip, distinct ip -> distinct (fold_left addNew l ip).
Proof. induction l as [|v l IH]; cbn [fold_left]; intros ip D; [auto|]. apply IH, addNew_distinct, D. Qed.
Lemma distinct_nil : distinct [].
Proof. intros i j p q H. destruct i; discriminate. Qed.
Lemma tri_plane_fold t pl : zIntersectTriPlane3D t pl =
  fold_left addNew (zIntersectEdgePlane3D (E3 (tv0 t) (tv1 t)) pl ++ zIntersectEdgePlane3D (E3 (tv1 t) (tv2 t)) pl ++ zIntersectEdgePlane3D (E3 (tv2 t) (tv0 t)) pl) [].
Proof. unfold zIntersectTriPlane3D, triEdges. cbn [fold_left]. rewrite !fold_left_app. reflexivity. Qed.
Lemma tri_plane_raw t pl v :
  List.In v (zIntersectEdgePlane3D (E3 (tv0 t) (tv1 t)) pl ++ zIntersectEdgePlane3D (E3 (tv1 t) (tv2 t)) pl ++ zIntersectEdgePlane3D (E3 (tv2 t) (tv0 t)) pl) ->
  outline (tv0 t) (tv1 t) (tv2 t) v /\ Rabs (height (porg pl) (pnorm pl) v) < zTOL.
Proof.
  rewrite !in_app_iff. unfold outline. intros [H|[H|H]]; apply edge_plane_points in H; cbn [ev0 ev1] in H; tauto.
Qed.
Lemma tri_plane_points t pl : let l := zIntersectTriPlane3D t pl in
  (forall q, List.In q l -> outline (tv0 t) (tv1 t) (tv2 t) q /\ Rabs (height (porg pl) (pnorm pl) q) < zTOL) /\
  distinct l /\
  (l = [] <-> ~ meets (in_triangle (tv0 t) (tv1 t) (tv2 t)) (on_plane (porg pl) (pnorm pl))).
Proof.
  cbv zeta. rewrite tri_plane_fold. split; [|split].
  - intros q H. apply addAll_in in H. destruct H as [[]|H]. apply tri_plane_raw, H.
  - apply addAll_distinct, distinct_nil.
  - rewrite <- tri_plane_check. unfold zColChkTriPlane3D, triEdges. cbn [existsb].
    assert (K : forall e, zIntersectEdgePlane3D e pl = [] <-> zColChkEdgePlane3D e pl = false).
    { intros e. unfold zIntersectEdgePlane3D. destruct (zColChkEdgePlane3D e pl); cbn [negb]; [|tauto]. cbv zeta. destruct (zIsTiny _); split; discriminate. }
    split.
    + intros E H. rewrite !orb_true_iff in H.
      assert (G : forall v, List.In v (zIntersectEdgePlane3D (E3 (tv0 t) (tv1 t)) pl ++ zIntersectEdgePlane3D (E3 (tv1 t) (tv2 t)) pl ++ zIntersectEdgePlane3D (E3 (tv2 t) (tv0 t)) pl) -> False).
      { intros v Hv. destruct (addAll_has _ [] v Hv) as (q & A & _). rewrite E in A. destruct A. }
      destruct H as [H|[H|[H|H]]]; [| | |discriminate]; match type of H with zColChkEdgePlane3D ?e _ = true => destruct (zIntersectEdgePlane3D e pl) as [|v r] eqn:Q; [apply K in Q; congruence|] end;
        apply (G v); rewrite ?in_app_iff; cbn; auto.
    + intros H. assert (A : forall e, zColChkEdgePlane3D e pl <> true -> zIntersectEdgePlane3D e pl = []) by (intros e N; apply K; destruct (zColChkEdgePlane3D e pl); congruence).
      rewrite !orb_true_iff in H. rewrite !A by tauto. reflexivity.
Qed.
