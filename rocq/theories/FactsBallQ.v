(** Enclosing balls: an evaluator on rational points, proved to follow the model *)
From Verif Require Import Base Spec SpecGeom SpecBall ModelVec ModelElem ModelShape ModelBall FactsVec FactsAlg FactsElem FactsCentre FactsRound FactsBall FactsBall2 FactsBall3.
From Coq Require Import List Lia Lra QArith Qreals.
Import ListNotations.
Open Scope R_scope.

Section Eval.
Context {QP P QB B : Type} (inj : QP -> P) (rel : QB -> B -> Prop) (inside : B -> P -> bool) (direct : list P -> option (found P B)) (DIM : nat)
  (qinside : QB -> QP -> option bool) (qdirect : list QP -> option (list QP * QB)).
Context (qinside_ok : forall qb b q r, rel qb b -> qinside qb q = Some r -> inside b (inj q) = r)
  (qdirect_ok : forall s pts qb, qdirect s = Some (pts, qb) -> exists b, direct (map inj s) = Some (FD (map inj pts) (Some b)) /\ rel qb b).
Fixpoint qrec (pl shell : list QP) : option (list QP * QB) :=
  match pl with
  | [] => qdirect shell
  | p :: rest =>
      if Nat.eqb (length shell) DIM then qdirect shell
      else match qrec rest shell with
           | None => None
           | Some (pts, b) => match qinside b p with
                              | None => None
                              | Some true => Some (pts, b)
                              | Some false => qrec rest (p :: shell)
                              end
           end
  end.
Lemma qrec_ok : forall pl sh pts qb, qrec pl sh = Some (pts, qb) ->
  exists b, recursive inside direct DIM (map inj pl) (map inj sh) = Some (FD (map inj pts) (Some b)) /\ rel qb b.
Proof.
  induction pl as [|p pl IH]; intros sh pts qb H; [apply qdirect_ok, H|]. cbn in H |- *. rewrite map_length. destruct (Nat.eqb (length sh) DIM); [apply qdirect_ok, H|].
  destruct (qrec pl sh) as [[pts0 qb0]|] eqn:R; [|discriminate]. destruct (IH _ _ _ R) as (b0 & E & L). rewrite E. unfold contains. cbn [fball].
  destruct (qinside qb0 p) as [[|]|] eqn:I; [| |discriminate]; rewrite (qinside_ok _ _ _ _ L I).
  - injection H as <- <-. exists b0. auto.
  - apply (IH (p :: sh)), H.
Qed.
Fixpoint qall (b : QB) (l : list QP) : bool := match l with [] => true | p :: r => match qinside b p with Some true => qall b r | _ => false end end.
Lemma qall_ok qb b : rel qb b -> forall l, qall qb l = true -> forall p, List.In p (map inj l) -> inside b p = true.
Proof.
  intros L. induction l as [|q l IH]; intros H p; [intros []|]. cbn in H. destruct (qinside qb q) as [[|]|] eqn:I; try discriminate.
  intros [<-|K]; [apply (qinside_ok _ _ _ _ L I)|apply IH; assumption].
Qed.
End Eval.

(** the stack machine stops at the first try when the recursion leaves no outlier *)
Lemma first_try {P B} (inside : B -> P -> bool) direct DIM l pts b : recursive inside (fun s => direct (rev s)) DIM (rev l) [] = Some (FD pts (Some b)) ->
  (forall p, List.In p l -> inside b p = true) ->
  exists N, forall fuel, (N <= fuel)%nat -> boundingBall inside direct DIM fuel l = Found (Some (FD pts (Some b))) false.
Proof.
  intros R C. destruct (ball_machine inside direct DIM l) as (N & H). exists N. intros fuel L. rewrite (H fuel L). unfold ZEO_BOUNDINGBALL_MAX_RETRY_NUM. cbn [attempts]. rewrite R.
  assert (K : forall l', (forall p, List.In p l' -> inside b p = true) -> pickOut inside (Some (FD pts (Some b))) l' = None).
  { induction l' as [|q l' IH]; intros A; [reflexivity|]. cbn. unfold contains. cbn [fball]. rewrite (A q (or_introl eq_refl)). rewrite IH; [reflexivity|]. intros p I. apply A. right. exact I. }
  rewrite K; [reflexivity|]. intros p I. apply C. rewrite rev_involutive in I. exact I.
Qed.

Lemma q2r_red q : Q2R (Qred q) = Q2R q.
Proof. apply Qeq_eqR, Qred_correct. Qed.
Definition small : Q := 1 # 1000.
Definition large : Q := 10000 # 1.
(** comparison of distances by their squares *)
Definition qcmp (d2 r2 : Q) : option bool :=
  if Qle_bool d2 r2 then Some true else if (Qle_bool (r2 + small) d2 && Qle_bool d2 large)%bool then Some false else None.
Lemma q2r_le a b : Qle_bool a b = true -> Q2R a <= Q2R b.
Proof. intros H. apply Qle_Rle, Qle_bool_iff, H. Qed.
Lemma zTOL_micro : zTOL <= 1 / 1000000.
Proof. pose proof zTOL_small. lra. Qed.
Lemma qcmp_ok d2 r2 r : 0 <= Q2R d2 -> 0 <= Q2R r2 -> qcmp d2 r2 = Some r -> Rltb (sqrt (Q2R d2) - sqrt (Q2R r2)) zTOL = r.
Proof.
  intros D R0. unfold qcmp. pose proof zTOL_pos. destruct (Qle_bool d2 r2) eqn:A.
  - intros E. injection E as <-. apply q2r_le in A. apply sqrt_le_1 in A; [|assumption|assumption]. destruct (Rltb_reflect (sqrt (Q2R d2) - sqrt (Q2R r2)) zTOL); [reflexivity|lra].
  - destruct (Qle_bool (r2 + small) d2) eqn:B; [|discriminate]. destruct (Qle_bool d2 large) eqn:C; [|discriminate]. intros E. injection E as <-.
    apply q2r_le in B, C. rewrite Q2R_plus in B. unfold small, large, Q2R at 2 in B. unfold large, Q2R at 2 in C. cbn in B, C.
    destruct (Rltb_reflect (sqrt (Q2R d2) - sqrt (Q2R r2)) zTOL) as [L|L]; [|reflexivity]. exfalso.
    pose proof (sqrt_pos (Q2R d2)) as S1. pose proof (sqrt_pos (Q2R r2)) as S2.
    pose proof (sqrt_sqrt _ D) as Q1. pose proof (sqrt_sqrt _ R0) as Q2. pose proof zTOL_micro as T.
    assert (U1 : sqrt (Q2R d2) <= 100) by nra. assert (U2 : sqrt (Q2R r2) <= 100) by nra.
    assert (sqrt (Q2R d2) * sqrt (Q2R d2) - sqrt (Q2R r2) * sqrt (Q2R r2) = (sqrt (Q2R d2) - sqrt (Q2R r2)) * (sqrt (Q2R d2) + sqrt (Q2R r2))) as F by ring.
    assert (X : (sqrt (Q2R d2) - sqrt (Q2R r2)) * (sqrt (Q2R d2) + sqrt (Q2R r2)) <= zTOL * 200) by nra. lra.
Qed.
Global Hint Rewrite Q2R_plus Q2R_mult Q2R_minus Q2R_opp q2r_red : q2r.

(** ** in the plane *)
Open Scope Q_scope.
Definition qp2 := (Q * Q)%type.
Inductive qball2 := QE2 | QB2 (c : qp2) (r2 : Q).
Definition qd2 (a b : qp2) : Q := (fst a - fst b) * (fst a - fst b) + (snd a - snd b) * (snd a - snd b).
Definition qred2 (a : qp2) : qp2 := (Qred (fst a), Qred (snd a)).
Definition qfrom2_2 (a b : qp2) : qball2 := let c := qred2 ((fst a + fst b) * (1 # 2), (snd a + snd b) * (1 # 2)) in QB2 c (Qred (qd2 c a)).
Definition qfrom3_2 (a b c : qp2) : option qball2 :=
  let r0 := qd2 c b in let r1 := qd2 a c in let r2 := qd2 b a in
  let w0 := r0 * (r1 + r2 - r0) in let w1 := r1 * (r2 + r0 - r1) in let w2 := r2 * (r0 + r1 - r2) in
  let d := w0 + w1 + w2 in
  if Qeq_bool d 0 then None
  else let k := / d in let x := qred2 ((w0 * fst a + w1 * fst b + w2 * fst c) * k, (w0 * snd a + w1 * snd b + w2 * snd c) * k) in Some (QB2 x (Qred (qd2 x c))).
Definition qin2 (b : qball2) (p : qp2) : option bool := match b with QE2 => Some false | QB2 c r2 => qcmp (qd2 c p) r2 end.
Definition qpair2 (a b c : qp2) (k : option (list qp2 * qball2)) : option (list qp2 * qball2) :=
  let x := qfrom2_2 a b in match qin2 x c with None => None | Some true => Some ([a; b], x) | Some false => k end.
Definition qdirect2 (pl : list qp2) : option (list qp2 * qball2) :=
  match pl with
  | [] => Some ([], QE2)
  | [v] => Some ([v], QB2 v 0)
  | [t; h] => Some ([h; t], qfrom2_2 h t)
  | [a; b; c] => qpair2 a b c (qpair2 b c a (qpair2 c a b (match qfrom3_2 a b c with None => None | Some x => Some ([a; b; c], x) end)))
  | _ => None
  end.
Open Scope R_scope.
Definition inj2 (a : qp2) : vec2 := V2 (Q2R (fst a)) (Q2R (snd a)).
Definition rel2 (q : qball2) (d : disk2) : Prop :=
  match q with QE2 => dcen d = v2zero /\ drad d = -1 | QB2 c r2 => dcen d = inj2 c /\ drad d = sqrt (Q2R r2) /\ 0 <= Q2R r2 end.
Lemma inj2_red a : inj2 (qred2 a) = inj2 a.
Proof. unfold inj2, qred2. cbn [fst snd]. rewrite !q2r_red. reflexivity. Qed.
Lemma qd2_ok a b : Q2R (qd2 a b) = zVec2DSqrDist (inj2 a) (inj2 b).
Proof. zvg. unfold qd2. autorewrite with q2r. unfold inj2, vsub2, dot2. pcbn. ring. Qed.
Lemma qd2_dist a b : dist2 (inj2 a) (inj2 b) = sqrt (Q2R (qd2 a b)).
Proof. rewrite qd2_ok. zvg. reflexivity. Qed.
Lemma qd2_pos a b : 0 <= Q2R (qd2 a b).
Proof. rewrite qd2_ok. zvg. apply dot2_nonneg. Qed.
Lemma qin2_ok q d p r : rel2 q d -> qin2 q p = Some r -> inside2 d (inj2 p) = r.
Proof.
  destruct q as [|c r2]; cbn.
  - intros (C & R) E. injection E as <-. destruct (inside2 d (inj2 p)) eqn:K; [|reflexivity]. unfold inside2 in K. apply disk_inside in K. rewrite R in K. pose proof zTOL_small.
    assert (0 <= dist2 (dcen d) (inj2 p)) by (rewrite <- emb_dist; apply norm_nonneg). lra.
  - intros (C & R & P) E. unfold inside2, zDisk2DPointIsInside, zDisk2DDistFromPoint. zvg. rewrite C, R, qd2_dist. apply qcmp_ok; [apply qd2_pos|exact P|exact E].
Qed.
Lemma qfrom2_2_ok a b : rel2 (qfrom2_2 a b) (zDisk2DFrom2 (inj2 a) (inj2 b)).
Proof.
  unfold qfrom2_2, rel2. cbv zeta. rewrite !q2r_red. split; [|split; [|apply qd2_pos]].
  - unfold zDisk2DFrom2. cbn [dcen]. rewrite inj2_red. unfold zVec2DMid. replace 0.5 with (1 / 2) by lra. unfold inj2. cbn [fst snd]. autorewrite with q2r.
    replace (Q2R (1 # 2)) with (1 / 2) by (unfold Q2R; cbn; lra). apply vec2_ext; unfold zVec2DInterDiv, zVec2DCat, zVec2DSub; pcbn; lra.
  - unfold zDisk2DFrom2. cbn [drad]. zvg. rewrite <- qd2_dist. f_equal. rewrite inj2_red. unfold zVec2DMid. replace 0.5 with (1 / 2) by lra. unfold inj2. cbn [fst snd]. autorewrite with q2r.
    replace (Q2R (1 # 2)) with (1 / 2) by (unfold Q2R; cbn; lra). apply vec2_ext; unfold zVec2DInterDiv, zVec2DCat, zVec2DSub; pcbn; lra.
Qed.
Local Opaque Qplus Qmult Qminus Qinv Qred.
Lemma qfrom3_2_ok a b c q : qfrom3_2 a b c = Some q -> exists d, zDisk2DFrom3 (inj2 a) (inj2 b) (inj2 c) = Some d /\ rel2 q d.
Proof.
  unfold qfrom3_2. cbv zeta. set (r0 := qd2 c b). set (r1 := qd2 a c). set (r2 := qd2 b a).
  set (w0 := (r0 * (r1 + r2 - r0))%Q). set (w1 := (r1 * (r2 + r0 - r1))%Q). set (w2 := (r2 * (r0 + r1 - r2))%Q).
  destruct (Qeq_bool (w0 + w1 + w2) 0) eqn:Z; [discriminate|]. intros E. injection E as <-. apply Qeq_bool_neq in Z.
  assert (N : Q2R (w0 + w1 + w2) <> 0) by (intros K; apply Z, eqR_Qeq; rewrite K; unfold Q2R; cbn; lra).
  assert (S0 : Q2R w0 = Q2R r0 * (Q2R r1 + Q2R r2 - Q2R r0)) by (unfold w0; autorewrite with q2r; reflexivity).
  assert (S1 : Q2R w1 = Q2R r1 * (Q2R r2 + Q2R r0 - Q2R r1)) by (unfold w1; autorewrite with q2r; reflexivity).
  assert (S2 : Q2R w2 = Q2R r2 * (Q2R r0 + Q2R r1 - Q2R r2)) by (unfold w2; autorewrite with q2r; reflexivity).
  unfold r0, r1, r2 in S0, S1, S2. rewrite !qd2_ok in S0, S1, S2.
  set (x := qred2 _). assert (C : triCircumcenter2 (inj2 a) (inj2 b) (inj2 c) = Some (inj2 x)).
  { unfold triCircumcenter2. cbv zeta. rewrite <- S0, <- S1, <- S2. unfold triWeightedCenter2. rewrite !Q2R_plus in N. destruct (Reqb_reflect (Q2R w0 + Q2R w1 + Q2R w2) 0) as [K|K]; [contradiction|].
    f_equal. unfold x. rewrite inj2_red. unfold inj2. cbn [fst snd]. rewrite !Q2R_mult, !Q2R_inv by exact Z. rewrite !Q2R_plus, !Q2R_mult. reflexivity. }
  unfold zDisk2DFrom3. rewrite C. eexists. split; [reflexivity|]. cbn [rel2 dcen drad]. rewrite q2r_red. split; [reflexivity|]. split; [|apply qd2_pos]. zvg. apply qd2_dist.
Qed.
Lemma qdirect2_ok s pts q : qdirect2 s = Some (pts, q) -> exists b, zBoundingBall2DDirect (map inj2 s) = Some (FD (map inj2 pts) (Some b)) /\ rel2 q b.
Proof.
  destruct s as [|a [|b [|c [|e s]]]]; cbn [qdirect2 map zBoundingBall2DDirect]; intros H; [| | | |discriminate].
  - injection H as <- <-. eexists. split; [reflexivity|]. cbn. auto.
  - injection H as <- <-. eexists. split; [reflexivity|]. cbn. replace (Q2R 0) with 0 by (unfold Q2R; cbn; lra). rewrite sqrt_0. repeat split; lra.
  - injection H as <- <-. eexists. split; [reflexivity|]. apply qfrom2_2_ok.
  - unfold zBoundingBall2D3, zBoundingBall2DTest2. fold (inside2 (zDisk2DFrom2 (inj2 a) (inj2 b)) (inj2 c)). fold (inside2 (zDisk2DFrom2 (inj2 b) (inj2 c)) (inj2 a)). fold (inside2 (zDisk2DFrom2 (inj2 c) (inj2 a)) (inj2 b)).
    unfold qpair2 in H. cbv zeta in H.
    destruct (qin2 (qfrom2_2 a b) c) as [[|]|] eqn:K1; [| |discriminate]; rewrite (qin2_ok _ _ _ _ (qfrom2_2_ok a b) K1); cbn [firstOf].
    { injection H as <- <-. eexists. split; [reflexivity|]. apply qfrom2_2_ok. }
    destruct (qin2 (qfrom2_2 b c) a) as [[|]|] eqn:K2; [| |discriminate]; rewrite (qin2_ok _ _ _ _ (qfrom2_2_ok b c) K2); cbn [firstOf].
    { injection H as <- <-. eexists. split; [reflexivity|]. apply qfrom2_2_ok. }
    destruct (qin2 (qfrom2_2 c a) b) as [[|]|] eqn:K3; [| |discriminate]; rewrite (qin2_ok _ _ _ _ (qfrom2_2_ok c a) K3); cbn [firstOf].
    { injection H as <- <-. eexists. split; [reflexivity|]. apply qfrom2_2_ok. }
    destruct (qfrom3_2 a b c) as [x|] eqn:F; [|discriminate]. injection H as <- <-. destruct (qfrom3_2_ok _ _ _ _ F) as (d & D & L). exists d. split; [|exact L].
    unfold zBoundingBall2DTest3. rewrite D. reflexivity.
Qed.
(** five points of which the recursive version forgets one *)
Definition five : list qp2 := [(4 # 1, 5 # 1); (5 # 1, -4 # 1); (6 # 1, -1 # 1); (2 # 1, -5 # 1); (-5 # 1, 3 # 1)]%Q.
Lemma recursive_forgets : exists l b d p, zVec2DDataBoundingBallRecursive l = Some b /\ fball b = Some d /\ List.In p l /\ drad d + 3 < dist2 (dcen d) p.
Proof.
  destruct (qrec 3 qin2 qdirect2 five []) as [[pts q]|] eqn:E; [|vm_compute in E; discriminate].
  destruct (qrec_ok inj2 rel2 inside2 zBoundingBall2DDirect 3 qin2 qdirect2 (fun qb b q r => qin2_ok qb b q r) qdirect2_ok five [] pts q E) as (b & R & L).
  exists (map inj2 five), (FD (map inj2 pts) (Some b)), b, (inj2 (-5 # 1, 3 # 1)). split; [exact R|]. split; [reflexivity|]. split; [apply in_map; cbn; tauto|].
  vm_compute in E. injection E as <- <-. destruct L as (C & D & _). rewrite C, D, qd2_dist.
  match goal with |- sqrt (Q2R ?x) + 3 < sqrt (Q2R ?y) => replace x with (26 # 1) by (vm_compute; reflexivity); replace y with (73 # 1) by (vm_compute; reflexivity) end.
  replace (Q2R (26 # 1)) with 26 by (unfold Q2R; cbn; lra). replace (Q2R (73 # 1)) with 73 by (unfold Q2R; cbn; lra).
  assert (sqrt 26 < 5.2) by (rewrite <- (sqrt_square 5.2) by lra; apply sqrt_lt_1; lra). assert (8.5 < sqrt 73) by (rewrite <- (sqrt_square 8.5) by lra; apply sqrt_lt_1; lra). lra.
Qed.
