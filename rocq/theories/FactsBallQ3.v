(** Enclosing balls: the evaluator in space, and a ball far from least *)
From Verif Require Import Base Spec SpecGeom SpecBall ModelVec ModelElem ModelShape ModelBall FactsVec FactsAlg FactsElem FactsCentre FactsRound FactsBall FactsBall2 FactsBall3 FactsBallQ.
From Coq Require Import List Lia Lra QArith Qreals.
Import ListNotations.
Open Scope Q_scope.

Record qp3 := QP3 { qx : Q; qy : Q; qz : Q }.
Inductive qball3 := QE3 | QB3 (c : qp3) (r2 : Q).
Definition qsub (a b : qp3) : qp3 := QP3 (qx a - qx b) (qy a - qy b) (qz a - qz b).
Definition qdot (a b : qp3) : Q := qx a * qx b + qy a * qy b + qz a * qz b.
Definition qcross (a b : qp3) : qp3 := QP3 (qy a * qz b - qz a * qy b) (qz a * qx b - qx a * qz b) (qx a * qy b - qy a * qx b).
Definition qd3 (a b : qp3) : Q := qdot (qsub a b) (qsub a b).
Definition qred3 (a : qp3) : qp3 := QP3 (Qred (qx a)) (Qred (qy a)) (Qred (qz a)).
Definition qfrom2_3 (a b : qp3) : qball3 := let c := qred3 (QP3 ((qx a + qx b) * (1 # 2)) ((qy a + qy b) * (1 # 2)) ((qz a + qz b) * (1 # 2))) in QB3 c (Qred (qd3 c a)).
Definition qlin (w0 w1 w2 k x y z : Q) : Q := (w0 * x + w1 * y + w2 * z) * k.
Definition qfrom3_3 (a b c : qp3) : option qball3 :=
  let r0 := Qred (qd3 c b) in let r1 := Qred (qd3 a c) in let r2 := Qred (qd3 b a) in
  let w0 := r0 * (r1 + r2 - r0) in let w1 := r1 * (r2 + r0 - r1) in let w2 := r2 * (r0 + r1 - r2) in
  let d := w0 + w1 + w2 in
  if Qeq_bool d 0 then None
  else let k := / d in
       let x := qred3 (QP3 (qlin w0 w1 w2 k (qx a) (qx b) (qx c)) (qlin w0 w1 w2 k (qy a) (qy b) (qy c)) (qlin w0 w1 w2 k (qz a) (qz b) (qz c))) in Some (QB3 x (Qred (qd3 x c))).
Definition qfrom4_3 (a b c d : qp3) : option qball3 :=
  let e0 := qsub b a in let e1 := qsub c a in let e2 := qsub d a in
  let v := 2 * qdot e0 (qcross e1 e2) in
  if Qeq_bool v 0 then None
  else let k := / v in let c0 := qcross e1 e2 in let c1 := qcross e2 e0 in let c2 := qcross e0 e1 in
       let n0 := qdot e0 e0 in let n1 := qdot e1 e1 in let n2 := qdot e2 e2 in
       let x := qred3 (QP3 (qlin n0 n1 n2 k (qx c0) (qx c1) (qx c2)) (qlin n0 n1 n2 k (qy c0) (qy c1) (qy c2)) (qlin n0 n1 n2 k (qz c0) (qz c1) (qz c2))) in
       Some (QB3 (qred3 (QP3 (qx x + qx a) (qy x + qy a) (qz x + qz a))) (Qred (qdot x x))).
Definition qin3 (b : qball3) (p : qp3) : option bool := match b with QE3 => Some false | QB3 c r2 => qcmp (qd3 c p) r2 end.
Definition qpair3 (a b c d : qp3) (k : option (list qp3 * qball3)) : option (list qp3 * qball3) :=
  let x := qfrom2_3 a b in
  match qin3 x c with None => None | Some false => k | Some true => match qin3 x d with None => None | Some true => Some ([a; b], x) | Some false => k end end.
Definition qtriple3 (a b c d : qp3) (k : option (list qp3 * qball3)) : option (list qp3 * qball3) :=
  match qfrom3_3 a b c with None => k | Some x => match qin3 x d with None => None | Some true => Some ([a; b; c], x) | Some false => k end end.
Definition qfour (a b c d : qp3) : option (list qp3 * qball3) :=
  qpair3 a b c d (qpair3 a c b d (qpair3 a d b c (qpair3 b c a d (qpair3 b d a c (qpair3 c d a b
  (qtriple3 a b c d (qtriple3 a b d c (qtriple3 b c d a (match qfrom4_3 a b c d with None => None | Some x => Some ([a; b; c; d], x) end))))))))).
Definition qdirect3 (pl : list qp3) : option (list qp3 * qball3) :=
  match pl with
  | [] => Some ([], QE3)
  | [v] => Some ([v], QB3 v 0)
  | [t; h] => Some ([h; t], qfrom2_3 h t)
  | [t; n; h] => qfour t n h h
  | [t; n; m; h] => qfour t n m h
  | _ => None
  end.
Open Scope R_scope.
Local Opaque Qplus Qmult Qminus Qinv Qred.
Definition inj3 (a : qp3) : vec3 := V3 (Q2R (qx a)) (Q2R (qy a)) (Q2R (qz a)).
Definition rel3 (q : qball3) (d : sphere3) : Prop :=
  match q with QE3 => scen d = v3zero /\ srad d = -1 | QB3 c r2 => scen d = inj3 c /\ srad d = sqrt (Q2R r2) /\ 0 <= Q2R r2 end.
Lemma inj3_red a : inj3 (qred3 a) = inj3 a.
Proof. unfold inj3, qred3. cbn [qx qy qz]. rewrite !q2r_red. reflexivity. Qed.
Lemma qsub_ok a b : inj3 (qsub a b) = vsub (inj3 a) (inj3 b).
Proof. unfold inj3, qsub. cbn [qx qy qz]. autorewrite with q2r. reflexivity. Qed.
Lemma qcross_ok a b : inj3 (qcross a b) = cross (inj3 a) (inj3 b).
Proof. unfold inj3, qcross. cbn [qx qy qz]. autorewrite with q2r. reflexivity. Qed.
Lemma qdot_ok a b : Q2R (qdot a b) = dot (inj3 a) (inj3 b).
Proof. unfold inj3, qdot. autorewrite with q2r. reflexivity. Qed.
Lemma qd3_ok a b : Q2R (qd3 a b) = dot (vsub (inj3 a) (inj3 b)) (vsub (inj3 a) (inj3 b)).
Proof. unfold qd3. rewrite qdot_ok, qsub_ok. reflexivity. Qed.
Lemma qd3_dist a b : dist (inj3 a) (inj3 b) = sqrt (Q2R (qd3 a b)).
Proof. rewrite qd3_ok. reflexivity. Qed.
Lemma qd3_pos a b : 0 <= Q2R (qd3 a b).
Proof. rewrite qd3_ok. apply dot_self_nonneg. Qed.
Lemma qin3_ok q d p r : rel3 q d -> qin3 q p = Some r -> inside3 d (inj3 p) = r.
Proof.
  destruct q as [|c r2]; cbn [rel3 qin3].
  - intros (C & R) E. injection E as <-. destruct (inside3 d (inj3 p)) eqn:K; [|reflexivity]. unfold inside3 in K. apply sphere_inside in K. rewrite R in K. pose proof zTOL_small.
    pose proof (norm_nonneg (vsub (scen d) (inj3 p))) as T. fold (dist (scen d) (inj3 p)) in T. lra.
  - intros (C & R & P) E. unfold inside3, zSphere3DPointIsInside, zSphere3DDistFromPoint. zvg. fold (dist (inj3 p) (scen d)). rewrite dist_sym, C, R, qd3_dist. apply qcmp_ok; [apply qd3_pos|exact P|exact E].
Qed.
Lemma qmid a b : inj3 (QP3 ((qx a + qx b) * (1 # 2)) ((qy a + qy b) * (1 # 2)) ((qz a + qz b) * (1 # 2))) = zVec3DMid (inj3 a) (inj3 b).
Proof.
  rewrite mid_vec. unfold inj3. cbn [qx qy qz]. autorewrite with q2r. replace (Q2R (1 # 2)) with (1 / 2) by (unfold Q2R; cbn; lra). apply vec3_ext; spec_unfold; ring.
Qed.
Lemma qfrom2_3_ok a b : rel3 (qfrom2_3 a b) (zSphere3DFrom2 (inj3 a) (inj3 b)).
Proof.
  unfold qfrom2_3, rel3. cbv zeta. rewrite !q2r_red. unfold zSphere3DFrom2, zSphere3DCreate. cbn [scen srad]. split; [|split; [|apply qd3_pos]].
  - rewrite inj3_red, qmid. reflexivity.
  - zvg. rewrite <- qd3_dist, inj3_red, qmid. reflexivity.
Qed.
Lemma qzero q : Qeq_bool q 0 = true -> Q2R q = 0.
Proof. intros H. apply Qeq_bool_eq, Qeq_eqR in H. rewrite H. unfold Q2R. cbn. lra. Qed.
Lemma qnonzero q : Qeq_bool q 0 = false -> Q2R q <> 0.
Proof. intros H. apply Qeq_bool_neq in H. intros K. apply H, eqR_Qeq. rewrite K. unfold Q2R. cbn. lra. Qed.
Lemma qlin_ok w0 w1 w2 d x y z : Qeq_bool d 0 = false -> Q2R (qlin w0 w1 w2 (/ d) x y z) = (Q2R w0 * Q2R x + Q2R w1 * Q2R y + Q2R w2 * Q2R z) / Q2R d.
Proof. intros H. apply Qeq_bool_neq in H. unfold qlin. rewrite Q2R_mult, Q2R_inv by exact H. autorewrite with q2r. reflexivity. Qed.
Lemma qfrom3_3_ok a b c : match qfrom3_3 a b c with
  | None => zSphere3DFrom3 (inj3 a) (inj3 b) (inj3 c) = None
  | Some q => exists d, zSphere3DFrom3 (inj3 a) (inj3 b) (inj3 c) = Some d /\ rel3 q d
  end.
Proof.
  unfold qfrom3_3. cbv zeta. set (r0 := Qred (qd3 c b)). set (r1 := Qred (qd3 a c)). set (r2 := Qred (qd3 b a)).
  set (w0 := (r0 * (r1 + r2 - r0))%Q). set (w1 := (r1 * (r2 + r0 - r1))%Q). set (w2 := (r2 * (r0 + r1 - r2))%Q).
  assert (S0 : Q2R w0 = Q2R r0 * (Q2R r1 + Q2R r2 - Q2R r0)) by (unfold w0; autorewrite with q2r; reflexivity).
  assert (S1 : Q2R w1 = Q2R r1 * (Q2R r2 + Q2R r0 - Q2R r1)) by (unfold w1; autorewrite with q2r; reflexivity).
  assert (S2 : Q2R w2 = Q2R r2 * (Q2R r0 + Q2R r1 - Q2R r2)) by (unfold w2; autorewrite with q2r; reflexivity).
  unfold r0, r1, r2 in S0, S1, S2. rewrite !q2r_red, !qd3_ok in S0, S1, S2.
  unfold zSphere3DFrom3, triCircumcenter. cbv zeta. zvg. rewrite <- S0, <- S1, <- S2. unfold triWeightedCenter. cbv zeta. rewrite <- !Q2R_plus.
  destruct (Qeq_bool (w0 + w1 + w2) 0) eqn:Z.
  - apply qzero in Z. rewrite Z. destruct (Reqb_reflect 0 0); [reflexivity|contradiction].
  - pose proof (qnonzero _ Z) as N. destruct (Reqb_reflect (Q2R (w0 + w1 + w2)) 0) as [K|K]; [contradiction|].
    eexists. split; [reflexivity|]. unfold zSphere3DCreate. cbn [rel3 scen srad]. zvg. rewrite q2r_red.
    assert (C : forall s0 s1 s2 : qp3 -> Q, inj3 (qred3 (QP3 (qlin w0 w1 w2 (/ (w0 + w1 + w2)) (s0 a) (s0 b) (s0 c)) (qlin w0 w1 w2 (/ (w0 + w1 + w2)) (s1 a) (s1 b) (s1 c)) (qlin w0 w1 w2 (/ (w0 + w1 + w2)) (s2 a) (s2 b) (s2 c)))) =
      V3 ((Q2R w0 * Q2R (s0 a) + Q2R w1 * Q2R (s0 b) + Q2R w2 * Q2R (s0 c)) / Q2R (w0 + w1 + w2)) ((Q2R w0 * Q2R (s1 a) + Q2R w1 * Q2R (s1 b) + Q2R w2 * Q2R (s1 c)) / Q2R (w0 + w1 + w2))
         ((Q2R w0 * Q2R (s2 a) + Q2R w1 * Q2R (s2 b) + Q2R w2 * Q2R (s2 c)) / Q2R (w0 + w1 + w2))).
    { intros s0 s1 s2. rewrite inj3_red. unfold inj3 at 1. cbn [qx qy qz]. rewrite !qlin_ok by exact Z. reflexivity. }
    pose proof (C qx qy qz) as C'. split; [symmetry; exact C'|]. split; [|apply qd3_pos]. rewrite <- qd3_dist, C'. reflexivity.
Qed.
Lemma cone_some t : zVec3DGrassmannProd (tv0 t) (tv1 t) (tv2 t) <> 0 -> zTri3DConeCircumcenter t =
  let v := 2 * zVec3DGrassmannProd (tv0 t) (tv1 t) (tv2 t) in
  Some (vscale (/ v) (vadd (vadd (vscale (dot (tv0 t) (tv0 t)) (cross (tv1 t) (tv2 t))) (vscale (dot (tv1 t) (tv1 t)) (cross (tv2 t) (tv0 t)))) (vscale (dot (tv2 t) (tv2 t)) (cross (tv0 t) (tv1 t))))).
Proof.
  intros H. unfold zTri3DConeCircumcenter. cbv zeta. unfold zVec3DDiv. destruct (Reqb_reflect (2 * zVec3DGrassmannProd (tv0 t) (tv1 t) (tv2 t)) 0); [lra|]. f_equal. zvg. rewrite ?zcat_spec. zvg.
  apply vec3_ext; spec_unfold; field; assumption.
Qed.
Lemma qfrom4_3_ok a b c d q : qfrom4_3 a b c d = Some q -> exists s, zSphere3DFrom4 (inj3 a) (inj3 b) (inj3 c) (inj3 d) = Some s /\ rel3 q s.
Proof.
  unfold qfrom4_3. cbv zeta. set (e0 := qsub b a). set (e1 := qsub c a). set (e2 := qsub d a). set (v := (2 * qdot e0 (qcross e1 e2))%Q).
  destruct (Qeq_bool v 0) eqn:Z; [discriminate|]. intros E. apply (f_equal (fun o => match o with Some y => y | None => q end)) in E. cbv beta iota in E. subst q. pose proof (qnonzero _ Z) as N.
  assert (T : forall x y z, tv0 (snd (zTri3DCreate x y z)) = x /\ tv1 (snd (zTri3DCreate x y z)) = y /\ tv2 (snd (zTri3DCreate x y z)) = z).
  { intros x y z. unfold zTri3DCreate. destruct (zVec3DIsTiny _); auto. }
  unfold zSphere3DFrom4. zvg. rewrite <- !qsub_ok. fold e0 e1 e2. destruct (T (inj3 e0) (inj3 e1) (inj3 e2)) as (T0 & T1 & T2). set (t := snd (zTri3DCreate (inj3 e0) (inj3 e1) (inj3 e2))) in *.
  assert (V : Q2R v = 2 * zVec3DGrassmannProd (tv0 t) (tv1 t) (tv2 t)).
  { rewrite T0, T1, T2. zvg. unfold v. rewrite Q2R_mult, qdot_ok, qcross_ok. replace (Q2R 2) with 2 by (unfold Q2R; cbn; lra). reflexivity. }
  rewrite cone_some by lra. cbv zeta. rewrite <- V, T0, T1, T2. eexists. split; [reflexivity|]. unfold zSphere3DCreate. cbn [scen srad rel3].
  set (x := qred3 (QP3 (qlin _ _ _ _ _ _ _) _ _)).
  assert (X : inj3 x = vscale (/ Q2R v) (vadd (vadd (vscale (dot (inj3 e0) (inj3 e0)) (cross (inj3 e1) (inj3 e2))) (vscale (dot (inj3 e1) (inj3 e1)) (cross (inj3 e2) (inj3 e0)))) (vscale (dot (inj3 e2) (inj3 e2)) (cross (inj3 e0) (inj3 e1))))).
  { unfold x. rewrite inj3_red. rewrite <- !qcross_ok, <- !qdot_ok. lazymatch goal with |- inj3 (QP3 ?x ?y ?z) = _ => change (inj3 (QP3 x y z)) with (V3 (Q2R x) (Q2R y) (Q2R z)) end. rewrite !qlin_ok by exact Z. unfold inj3. clearbody v. apply vec3_ext; spec_unfold; unfold e0, e1, e2, qcross, qsub; cbn [qx qy qz]; field; assumption. }
  rewrite <- X. clearbody x. rewrite inj3_red, q2r_red. zvg. split; [|split].
  - unfold inj3. cbn [qx qy qz]. autorewrite with q2r. apply vec3_ext; unfold vadd; pcbn; reflexivity.
  - unfold norm. rewrite qdot_ok. reflexivity.
  - rewrite qdot_ok. apply dot_self_nonneg.
Qed.
(** the chain of alternatives *)
Definition follows (r : option (found vec3 sphere3)) (q : option (list qp3 * qball3)) : Prop :=
  match q with None => True | Some (pts, x) => exists b, r = Some (FD (map inj3 pts) (Some b)) /\ rel3 x b end.
Definition orelse {A} (x y : option A) : option A := match x with Some _ => x | None => y end.
Lemma first_orelse {A} (x : option A) l : firstOf (x :: l) = orelse x (firstOf l).
Proof. destruct x; reflexivity. Qed.
Lemma follow_pair a b c d k r : follows r k -> follows (orelse (zBoundingBall3DTest2 (inj3 a) (inj3 b) (inj3 c) (inj3 d)) r) (qpair3 a b c d k).
Proof.
  intros F. unfold qpair3, zBoundingBall3DTest2. cbv zeta. destruct (qin3 (qfrom2_3 a b) c) as [[|]|] eqn:K1; [| |exact I]; rewrite (qin3_ok _ _ _ _ (qfrom2_3_ok a b) K1); cbn [negb orb].
  - destruct (qin3 (qfrom2_3 a b) d) as [[|]|] eqn:K2; [| |exact I]; rewrite (qin3_ok _ _ _ _ (qfrom2_3_ok a b) K2); cbn [negb orelse].
    + eexists. split; [reflexivity|]. apply qfrom2_3_ok.
    + exact F.
  - exact F.
Qed.
Lemma follow_triple a b c d k r : follows r k -> follows (orelse (zBoundingBall3DTest3 (inj3 a) (inj3 b) (inj3 c) (inj3 d)) r) (qtriple3 a b c d k).
Proof.
  intros F. unfold qtriple3, zBoundingBall3DTest3. pose proof (qfrom3_3_ok a b c) as K. destruct (qfrom3_3 a b c) as [x|].
  - destruct K as (s & -> & L). destruct (qin3 x d) as [[|]|] eqn:K2; [| |exact I]; rewrite (qin3_ok _ _ _ _ L K2); cbn [orelse]; [|exact F]. eexists. split; [reflexivity|exact L].
  - rewrite K. exact F.
Qed.
Lemma qfour_ok a b c d : follows (zBoundingBall3D4 (inj3 a) (inj3 b) (inj3 c) (inj3 d)) (qfour a b c d).
Proof.
  unfold zBoundingBall3D4, qfour. rewrite !first_orelse. cbn [firstOf].
  set (T2 := fun a b c d => zBoundingBall3DTest2 (inj3 a) (inj3 b) (inj3 c) (inj3 d)). set (T3 := fun a b c d => zBoundingBall3DTest3 (inj3 a) (inj3 b) (inj3 c) (inj3 d)).
  replace (match _ with Some b0 => Some b0 | None => _ end) with
    (orelse (T2 a b c d) (orelse (T2 a c b d) (orelse (T2 a d b c) (orelse (T2 b c a d) (orelse (T2 b d a c) (orelse (T2 c d a b)
     (orelse (T3 a b c d) (orelse (T3 a b d c) (orelse (T3 b c d a) (zBoundingBall3DTest4 (inj3 a) (inj3 b) (inj3 c) (inj3 d))))))))))).
  - unfold T2, T3. do 6 apply follow_pair. do 3 apply follow_triple. unfold follows. destruct (qfrom4_3 a b c d) as [x|] eqn:E; [|exact I].
    destruct (qfrom4_3_ok _ _ _ _ _ E) as (s & K & L). exists s. split; [|exact L]. unfold zBoundingBall3DTest4. rewrite K. reflexivity.
  - unfold T2, T3. destruct (zBoundingBall3DTest2 (inj3 a) (inj3 b) (inj3 c) (inj3 d)); [reflexivity|]. destruct (zBoundingBall3DTest2 (inj3 a) (inj3 c) (inj3 b) (inj3 d)); [reflexivity|].
    destruct (zBoundingBall3DTest2 (inj3 a) (inj3 d) (inj3 b) (inj3 c)); [reflexivity|]. destruct (zBoundingBall3DTest2 (inj3 b) (inj3 c) (inj3 a) (inj3 d)); [reflexivity|].
    destruct (zBoundingBall3DTest2 (inj3 b) (inj3 d) (inj3 a) (inj3 c)); [reflexivity|]. destruct (zBoundingBall3DTest2 (inj3 c) (inj3 d) (inj3 a) (inj3 b)); [reflexivity|]. cbn [orelse].
    destruct (zBoundingBall3DTest3 (inj3 a) (inj3 b) (inj3 c) (inj3 d)); [reflexivity|]. destruct (zBoundingBall3DTest3 (inj3 a) (inj3 b) (inj3 d) (inj3 c)); [reflexivity|].
    destruct (zBoundingBall3DTest3 (inj3 b) (inj3 c) (inj3 d) (inj3 a)); reflexivity.
Qed.
Lemma qdirect3_ok s pts q : qdirect3 s = Some (pts, q) -> exists b, zBoundingBall3DDirect (map inj3 s) = Some (FD (map inj3 pts) (Some b)) /\ rel3 q b.
Proof.
  destruct s as [|a [|b [|c [|e [|f s]]]]]; cbn [qdirect3 map zBoundingBall3DDirect]; intros H; [| | | | |discriminate].
  - injection H as <- <-. eexists. split; [reflexivity|]. cbn. auto.
  - injection H as <- <-. eexists. split; [reflexivity|]. unfold zSphere3DCreate. cbn [rel3 scen srad]. replace (Q2R 0) with 0 by (unfold Q2R; cbn; lra). rewrite sqrt_0. repeat split; lra.
  - injection H as <- <-. eexists. split; [reflexivity|]. apply qfrom2_3_ok.
  - pose proof (qfour_ok a b c c) as F. unfold follows in F. rewrite H in F. exact F.
  - pose proof (qfour_ok a b c e) as F. unfold follows in F. rewrite H in F. exact F.
Qed.
Lemma qdirect3_rev_ok s pts q : qdirect3 (rev s) = Some (pts, q) -> exists b, zBoundingBall3DDirect (rev (map inj3 s)) = Some (FD (map inj3 pts) (Some b)) /\ rel3 q b.
Proof. rewrite <- map_rev. apply qdirect3_ok. Qed.

(** eight points in the cube of side 4 *)
Definition p3 (x y z : Z) : qp3 := QP3 (x # 1) (y # 1) (z # 1).
Definition eight : list qp3 := [p3 2 2 0; p3 (-2) (-2) 2; p3 1 2 1; p3 (-2) 1 (-1); p3 1 (-1) 0; p3 2 (-1) (-1); p3 2 0 (-2); p3 1 2 2].
Lemma qle a b : (a <= b)%Q -> Q2R a <= Q2R b.
Proof. apply Qle_Rle. Qed.
Lemma space_not_least : exists N l b d, (forall fuel, (N <= fuel)%nat -> zVec3DDataBoundingBall fuel l = Found (Some b) false) /\ fball b = Some d /\
  ball_holds v3zero (7 / 2) l /\ 12 < srad d.
Proof.
  destruct (qrec 4 qin3 (fun s => qdirect3 (rev s)) eight []) as [[pts q]|] eqn:E; [|vm_compute in E; discriminate].
  destruct (qrec_ok inj3 rel3 inside3 (fun s => zBoundingBall3DDirect (rev s)) 4 qin3 (fun s => qdirect3 (rev s)) (fun qb b q r => qin3_ok qb b q r) qdirect3_rev_ok eight [] pts q E) as (b & R & L).
  assert (A : qall qin3 q eight = true). { vm_compute in E. injection E as <- <-. vm_compute. reflexivity. }
  pose proof (qall_ok inj3 rel3 inside3 qin3 (fun qb b q r => qin3_ok qb b q r) q b L eight A) as C.
  destruct (first_try inside3 zBoundingBall3DDirect 4 (rev (map inj3 eight)) (map inj3 pts) b) as (N & H).
  { rewrite rev_involutive. exact R. }
  { intros p I. apply C, in_rev, I. }
  exists N, (rev (map inj3 eight)), (FD (map inj3 pts) (Some b)), b. split; [exact H|]. split; [reflexivity|]. split.
  - intros p I. apply in_rev, in_map_iff in I. destruct I as (u & <- & I). replace v3zero with (inj3 (p3 0 0 0)) by (unfold inj3, p3, Q2R, v3zero; cbn; f_equal; lra).
    unfold ball. rewrite ?(dist_sym _ (inj3 (p3 0 0 0))), qd3_dist. replace (7 / 2) with (sqrt (Q2R (49 # 4))).
    + apply sqrt_le_1; [apply qd3_pos|unfold Q2R; cbn; lra|apply qle]. cbn [eight List.In] in I. repeat (destruct I as [<-|I]; [vm_compute; discriminate|]). destruct I.
    + replace (Q2R (49 # 4)) with ((7 / 2) * (7 / 2)) by (unfold Q2R; cbn; lra). apply sqrt_square. lra.
  - vm_compute in E. injection E as <- <-. destruct L as (_ & D & _). rewrite D. rewrite <- (sqrt_square 12) by lra. apply sqrt_lt_1; [lra| |]; unfold Q2R; cbn; lra.
Qed.
(** the recursive version in space may forget points too *)
Definition seven : list qp3 := [p3 (-2) 3 3; p3 (-2) 4 (-3); p3 2 3 3; p3 (-2) 0 (-3); p3 (-3) 1 (-3); p3 (-4) 2 1; p3 2 (-3) (-1)].
Lemma recursive_forgets3 : exists l b d p, zVec3DDataBoundingBallRecursive l = Some b /\ fball b = Some d /\ List.In p l /\ srad d + 3 / 2 < dist (scen d) p.
Proof.
  destruct (qrec 4 qin3 qdirect3 seven []) as [[pts q]|] eqn:E; [|vm_compute in E; discriminate].
  destruct (qrec_ok inj3 rel3 inside3 zBoundingBall3DDirect 4 qin3 qdirect3 (fun qb b q r => qin3_ok qb b q r) qdirect3_ok seven [] pts q E) as (b & R & L).
  exists (map inj3 seven), (FD (map inj3 pts) (Some b)), b, (inj3 (p3 2 (-3) (-1))). split; [exact R|]. split; [reflexivity|]. split; [apply in_map; cbn; tauto|].
  vm_compute in E. injection E as <- <-. destruct L as (C & D & _). rewrite C, D, qd3_dist.
  match goal with |- sqrt (Q2R ?x) + _ < sqrt (Q2R ?y) => replace y with (Qred y) by (vm_compute; reflexivity) end.
  match goal with |- sqrt (Q2R ?x) + _ < sqrt (Q2R ?y) => replace x with (65 # 4) by (vm_compute; reflexivity); replace y with (129 # 4) by (vm_compute; reflexivity) end.
  replace (Q2R (65 # 4)) with (65 / 4) by (unfold Q2R; cbn; lra). replace (Q2R (129 # 4)) with (129 / 4) by (unfold Q2R; cbn; lra).
  assert (sqrt (65 / 4) < 4.1) by (rewrite <- (sqrt_square 4.1) by lra; apply sqrt_lt_1; lra). assert (5.65 < sqrt (129 / 4)) by (rewrite <- (sqrt_square 5.65) by lra; apply sqrt_lt_1; lra). lra.
Qed.
(** no data: the ball at the origin with radius -1, which holds nothing *)
Lemma empty2 : exists N d, (forall fuel, (N <= fuel)%nat -> zVec2DDataBoundingBall fuel [] = Found (Some (FD [] (Some d))) false) /\ zVec2DDataBoundingBallRecursive [] = Some (FD [] (Some d)) /\ drad d = -1.
Proof.
  destruct (first_try inside2 zBoundingBall2DDirect 3 [] [] (DK v2zero (-1))) as (N & H); [reflexivity|intros p []|]. exists N, (DK v2zero (-1)). split; [exact H|]. split; reflexivity.
Qed.
Lemma empty3 : exists N d, (forall fuel, (N <= fuel)%nat -> zVec3DDataBoundingBall fuel [] = Found (Some (FD [] (Some d))) false) /\ zVec3DDataBoundingBallRecursive [] = Some (FD [] (Some d)) /\ srad d = -1.
Proof.
  destruct (first_try inside3 zBoundingBall3DDirect 4 [] [] (zSphere3DCreate v3zero (-1) 0)) as (N & H); [reflexivity|intros p []|]. exists N, (zSphere3DCreate v3zero (-1) 0). split; [exact H|]. split; reflexivity.
Qed.
(** the statements, spelt out *)
Lemma plane_ball l : l <> [] -> exists N b d warned, (forall fuel, (N <= fuel)%nat -> zVec2DDataBoundingBall fuel l = Found (Some b) warned) /\
  fball b = Some d /\ incl (fpoints b) l /\ (1 <= length (fpoints b) <= 3)%nat /\ on_circle (dcen d) (drad d) (fpoints b) /\ 0 <= drad d /\ least_disk (drad d) l /\
  (warned = false -> forall p, List.In p l -> dist2 (dcen d) p < drad d + zTOL).
Proof.
  intros H. destruct (iterative2 l H) as (N & b & w & R & (d & E & I & NE & L3 & O & M & P) & C). exists N, b, d, w. split; [exact R|]. split; [exact E|]. split; [exact I|].
  split; [split; [destruct (fpoints b); [contradiction|cbn; lia]|exact L3]|]. split; [exact O|]. split; [exact P|]. split; [exact M|]. intros W p J. exact (contains2 _ _ _ E (C W p J)).
Qed.
Lemma plane_recursive l : l <> [] -> exists b d, zVec2DDataBoundingBallRecursive l = Some b /\
  fball b = Some d /\ incl (fpoints b) l /\ (1 <= length (fpoints b) <= 3)%nat /\ on_circle (dcen d) (drad d) (fpoints b) /\ 0 <= drad d /\ least_disk (drad d) l.
Proof.
  intros H. destruct (recursive2 l H) as (b & R & (d & E & I & NE & L3 & O & M & P)). exists b, d. split; [exact R|]. split; [exact E|]. split; [exact I|].
  split; [split; [destruct (fpoints b); [contradiction|cbn; lia]|exact L3]|]. split; [exact O|]. split; [exact P|exact M].
Qed.
Lemma space_ball l : l <> [] -> exists N r, (forall fuel, (N <= fuel)%nat -> zVec3DDataBoundingBall fuel l = r) /\
  ((r = Crashed /\ (3 < length l)%nat) \/
   exists b d warned, r = Found (Some b) warned /\ fball b = Some d /\ incl (fpoints b) l /\ (1 <= length (fpoints b) <= 4)%nat /\ on_sphere (scen d) (srad d) (fpoints b) /\ 0 <= srad d /\
     ((length (fpoints b) <= 2)%nat \/ (length l <= 3)%nat -> least_ball (srad d) l) /\
     (warned = false -> forall p, List.In p l -> dist (scen d) p < srad d + zTOL)).
Proof.
  intros H. destruct (iterative3 l H) as (N & r & R & C). exists N, r. split; [exact R|]. destruct C as [C|(b & w & E & (d & F & I & NE & L & O & P & M) & C)]; [left; exact C|right].
  exists b, d, w. split; [exact E|]. split; [exact F|]. split; [exact I|]. split; [split; [destruct (fpoints b); [contradiction|cbn; lia]|exact L]|]. split; [exact O|]. split; [exact P|]. split; [exact M|].
  intros W p J. exact (contains3 _ _ _ F (C W p J)).
Qed.
Lemma space_recursive l b : l <> [] -> zVec3DDataBoundingBallRecursive l = Some b -> exists d, fball b = Some d /\ incl (fpoints b) l /\ (1 <= length (fpoints b) <= 4)%nat /\
  on_sphere (scen d) (srad d) (fpoints b) /\ 0 <= srad d /\ ((length (fpoints b) <= 2)%nat \/ (length l <= 3)%nat -> least_ball (srad d) l).
Proof.
  intros H E. destruct (recursive3 l b H E) as (d & F & I & NE & L & O & P & M). exists d. split; [exact F|]. split; [exact I|]. split; [split; [destruct (fpoints b); [contradiction|cbn; lia]|exact L]|]. auto.
Qed.
