(** Property C59: proximity and collision of convex hulls. *)
From Verif Require Import Base Spec SpecGeom SpecHull SpecData SpecGJK ModelData ModelGJK FactsVec FactsAlg FactsElem FactsData2 FactsGJK FactsGJK2 FactsGJK3 FactsGJK4 FactsGJK5 FactsGJK6.
From Coq Require Import List Lra Lia.
Import ListNotations.
Open Scope R_scope.

(** * C59 the GJK algorithm and the Minkowski portal *)(** the support point of a container is the one the algorithms use on the list of its points *)
Theorem C59_support : forall d l dir, user_data d -> (exists d', zVecXDDataToAddrList d = Some (d', l)) -> l <> [] -> exists d', zVec3DDataSupportMap d dir = Some (d', supportMap l dir).
Proof. exact container_support. Qed.
Print Assumptions C59_support.
Theorem C59_support_max : forall l dir, l <> [] -> exists p, supportMap l dir = Some p /\ List.In p l /\ forall q, List.In q l -> dot q dir <= dot p dir.
Proof. exact support_ok. Qed.
Print Assumptions C59_support_max.
(** the two points are, up to dropped weights below the tolerance, a nearest pair of the hulls *)
Theorem C59_pair : forall fuel old l1 l2 c1 c2 hit, sturdy l1 l2 -> zGJK fuel old l1 l2 = Some (c1, c2, hit) -> exists q1 q2, nearest_pair (2 * zTOL) l1 l2 q1 q2 /\
  (forall b, within b l1 -> dist c1 q1 <= 3 * zTOL * b) /\ (forall b, within b l2 -> dist c2 q2 <= 3 * zTOL * b) /\ (clear_weights l1 l2 -> c1 = q1 /\ c2 = q2).
Proof. exact gjk_pair. Qed.
Print Assumptions C59_pair.
(** the loop ends *)
Theorem C59_ends : forall old l1 l2, l1 <> [] -> l2 <> [] -> sturdy l1 l2 -> clear_weights l1 l2 \/ compact_pair l1 l2 -> exists n c1 c2 hit, forall fuel, (n <= fuel)%nat -> zGJK fuel old l1 l2 = Some (c1, c2, hit).
Proof. exact gjk_ends. Qed.
Print Assumptions C59_ends.
Theorem C59_single : forall old a b fuel, (2 <= fuel)%nat -> zGJK fuel old [a] [b] = Some (a, b, zVec3DEqual (vsub a b) v3zero).
Proof. exact gjk_single. Qed.
Print Assumptions C59_single.
Theorem C59_point : forall fuel old l p c hit, sturdy l [p] -> zGJKPoint fuel old l p = Some (c, hit) -> exists q, convex_hull l q /\ (forall x, convex_hull l x -> dist q p * dist q p <= dist x p * dist x p + 2 * zTOL) /\
  (forall b, within b l -> dist c q <= 3 * zTOL * b) /\ (clear_weights l [p] -> c = q).
Proof. exact gjk_point_pair. Qed.
Print Assumptions C59_point.
Theorem C59_point_ends : forall old l p, l <> [] -> sturdy l [p] -> clear_weights l [p] \/ compact_pair l [p] -> exists n c hit, forall fuel, (n <= fuel)%nat -> zGJKPoint fuel old l p = Some (c, hit).
Proof. exact gjk_point_ends. Qed.
Print Assumptions C59_point_ends.
(** the answer can be no although one set is a point deep inside the hull of the other *)
Theorem C59_missed_refuted : forall old, exists l1 l2 c, zGJK 4 old l1 l2 = Some (c, c, false) /\ convex_hull l2 c /\ forall x, dist c x <= 1 / 20 -> convex_hull l1 x.
Proof. exact gjk_misses. Qed.
Print Assumptions C59_missed_refuted.
(** the answer can be yes although the hulls are half a unit apart *)
Theorem C59_false_alarm_refuted : forall old, exists l1 l2 c1 c2, zGJK 5 old l1 l2 = Some (c1, c2, true) /\ forall x1 x2, convex_hull l1 x1 -> convex_hull l2 x2 -> 1 / 2 <= dist x1 x2.
Proof. exact gjk_false_alarm. Qed.
Print Assumptions C59_false_alarm_refuted.
(** a negative answer of the Minkowski portal method: some direction in which the sets overlap by no more than the tolerance *)
Theorem C59_mpr_no : forall fuel l1 l2, zMPR fuel l1 l2 = Some false -> exists n, norm n = 1 /\ forall x1 x2, convex_hull l1 x1 -> convex_hull l2 x2 -> dot (vsub x1 x2) n <= zTOL.
Proof. exact mpr_false. Qed.
Print Assumptions C59_mpr_no.
(** the Minkowski difference is built from the differences with the first point only *)
Theorem C59_minkowski_refuted : forall d1 d2 a t l2, user_data d1 -> user_data d2 -> (exists d', zVecXDDataToAddrList d1 = Some (d', a :: t)) -> (exists d', zVecXDDataToAddrList d2 = Some (d', l2)) ->
  exists d, minkowskiCollect d1 d2 = Some d /\ exists d', zVecXDDataToAddrList d = Some (d', map (fun b => vsub a b) l2).
Proof. exact minkowski_collect. Qed.
Print Assumptions C59_minkowski_refuted.
(** three points of a small triangle and the origin *)
Example C59_ex : sturdy [V3 (1/10) 0 0; V3 (1/10) (1/10) 0; V3 (1/10) 0 (1/10)] [v3zero] /\ compact_pair [V3 (1/10) 0 0; V3 (1/10) (1/10) 0; V3 (1/10) 0 (1/10)] [v3zero].
Proof.
  pose proof tol_small as TS.
  assert (D : forall x, difference [V3 (1/10) 0 0; V3 (1/10) (1/10) 0; V3 (1/10) 0 (1/10)] [v3zero] x -> x = V3 (1/10) 0 0 \/ x = V3 (1/10) (1/10) 0 \/ x = V3 (1/10) 0 (1/10)).
  { intros x (a & b & Ha & [ <- |[]] & -> ). cbn in Ha. destruct Ha as [ <- |[ <- |[ <- |[]]]]; [left|right; left|right; right]; apply vec3_ext; nums; Lra.lra. }
  split.
  - intros a b c A B C. assert (K : vy (tri_normal a b c) = 0 /\ vz (tri_normal a b c) = 0 /\ (vx (tri_normal a b c) = 0 \/ zTOL <= Rabs (vx (tri_normal a b c)))).
    { destruct (D a A) as [ -> |[ -> | -> ]]; destruct (D b B) as [ -> |[ -> | -> ]]; destruct (D c C) as [ -> |[ -> | -> ]]; (split; [nums; Lra.lra|split; [nums; Lra.lra|]]);
      first [left; nums; Lra.lra|right; nums; rewrite Rabs_right by Lra.lra; assert (zTOL < / 1000000) by exact zTOL_small; Lra.lra|right; nums; rewrite Rabs_left by Lra.lra; assert (zTOL < / 1000000) by exact zTOL_small; Lra.lra]. }
    destruct K as (Y & Z & [X|X]); [left; apply vec3_ext; cbn; assumption|right; intros (N & _); Lra.lra].
  - intros x y X Y. unfold dist. apply Rsqr_incr_0_var; [|Lra.lra]. unfold Rsqr. rewrite norm_sqr. destruct (D x X) as [ -> |[ -> | -> ]]; destruct (D y Y) as [ -> |[ -> | -> ]]; nums; Lra.lra.
Qed.
(** weights of single points are clear *)
Example C59_ex_clear : clear_weights [V3 1 2 3] [v3zero].
Proof.
  intros ws ss L D I LS P T M. pose proof tol_small as TS.
  assert (E : forall y, List.In y ws -> y = V3 1 2 3). { intros y Hy. rewrite Forall_forall in D. destruct (D y Hy) as (a & b & [ <- |[]] & [ <- |[]] & -> ). apply vec3_ext; nums; Lra.lra. }
  destruct ws as [|a [|b ws]].
  - destruct ss; [constructor|discriminate].
  - destruct ss as [|s [|? ?]]; try discriminate. cbn in T. constructor; [right; Lra.lra|constructor].
  - exfalso. specialize (I (1 :: -1 :: map (fun _ => 0) ws)). cbn [length total wsum] in I. rewrite map_length in I. specialize (I eq_refl).
    assert (Z : forall (l : list vec3), total (map (fun _ => 0) l) = 0 /\ wsum (map (fun _ => 0) l) l = v3zero).
    { induction l as [|x l [I1 I2]]; [auto|]. cbn [map total wsum]. rewrite I1, I2. split; [Lra.lra|]. apply vec3_ext; spec_unfold; ring. }
    destruct (Z ws) as [Z1 Z2]. rewrite Z1, Z2 in I. specialize (I ltac:(Lra.lra)). rewrite (E a ltac:(cbn; auto)), (E b ltac:(cbn; auto)) in I.
    specialize (I ltac:(apply vec3_ext; nums; Lra.lra)). apply Forall_cons_iff in I as [I _]. Lra.lra.
Qed.
(** a negative answer of the portal method *)
Example C59_ex_mpr : zMPR 1 [V3 2 1 0; V3 4 (-1) 0] [v3zero] = Some false.
Proof.
  pose proof tol_small as TS. unfold zMPR, mprFindPortal, mprOrigin, barycenterOf. cbn [length fold_left].
  assert (B1 : zVec3DDiv (zVec3DAdd (zVec3DAdd v3zero (V3 2 1 0)) (V3 4 (-1) 0)) (INR 2) = Some (V3 3 0 0)).
  { unfold zVec3DDiv. replace (INR 2) with 2 by (cbn; Lra.lra). destruct (Reqb_reflect 2 0); [exfalso; Lra.lra|]. f_equal. unfold zVec3DMul, zVec3DAdd, v3zero. apply vec3_ext; cbn; Lra.lra. }
  assert (B2 : zVec3DDiv (zVec3DAdd v3zero v3zero) (INR 1) = Some v3zero).
  { unfold zVec3DDiv. replace (INR 1) with 1 by (cbn; Lra.lra). destruct (Reqb_reflect 1 0); [exfalso; Lra.lra|]. f_equal. unfold zVec3DMul, zVec3DAdd, v3zero. apply vec3_ext; cbn; Lra.lra. }
  rewrite B1, B2. cbn [ms_v].
  replace (zVec3DIsTiny (zVec3DSub (V3 3 0 0) v3zero)) with false.
  2: { unfold zVec3DIsTiny, zVec3DIsTol, zIsTol. nums. rewrite (Rabs_right (3 - 0)) by Lra.lra. destruct (Rltb_reflect (3 - 0) zTOL); [Lra.lra|reflexivity]. }
  cbn [ms_v]. assert (N : norm (zVec3DRev (zVec3DSub (V3 3 0 0) v3zero)) = 3).
  { unfold norm. nums. replace (_ + _ + _) with (3 * 3) by ring. apply sqrt_square. Lra.lra. }
  unfold normalizeNC. zvg. change (vneg (vsub (V3 3 0 0) v3zero)) with (zVec3DRev (zVec3DSub (V3 3 0 0) v3zero)). rewrite N. destruct (Reqb_reflect 3 0); [Lra.lra|].
  unfold zVec3DNormalizeNC. zvg. change (vneg (vsub (V3 3 0 0) v3zero)) with (zVec3DRev (zVec3DSub (V3 3 0 0) v3zero)). rewrite N. cbn [snd].
  replace (vscale (1 / 3) (zVec3DRev (zVec3DSub (V3 3 0 0) v3zero))) with (V3 (-1) 0 0) by (apply vec3_ext; nums; Lra.lra).
  unfold mprSupportMap, supportMap. cbn [fold_left fst snd]. rl. cbn [ms_v]. zvg. destruct (Rltb_reflect (dot (vsub (V3 2 1 0) v3zero) (V3 (-1) 0 0)) zTOL) as [|X]; [reflexivity|exfalso; apply X; nums; Lra.lra].
Qed.
(** containers holding points *)
Example C59_ex_container : user_data (zVecXDDataAssignArray [V3 1 2 3; V3 4 5 6]) /\ exists d', zVecXDDataToAddrList (zVecXDDataAssignArray [V3 1 2 3; V3 4 5 6]) = Some (d', [V3 1 2 3; V3 4 5 6]).
Proof. split; [apply U_arrayptr|]. eexists. reflexivity. Qed.
