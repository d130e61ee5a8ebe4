(** Linear scale factors of a point with respect to a triangle. *)
From Coq Require Import Reals Lra Lia Psatz Bool.
From Verif Require Import Base SpecLin ModelVec Model2D ModelElem ModelLin FactsAlg FactsVec FactsElem.
Open Scope R_scope.

Lemma norm_sqr v : norm v * norm v = dot v v.
Proof. unfold norm. apply sqrt_sqrt. unfold dot. nra. Qed.
Lemma norm_pos_negl v : ~ negligible v -> 0 < norm v.
Proof. intros H. apply sqrt_lt_R0, dot_pos_not_negl, H. Qed.
Lemma dot_add3 a b c : dot (vadd a b) c = dot a c + dot b c. Proof. spec_unfold. ring. Qed.
Lemma dot_scl k a b : dot (vscale k a) b = k * dot a b. Proof. spec_unfold. ring. Qed.
Lemma dot_swap a b : dot a b = dot b a. Proof. spec_unfold. ring. Qed.

(** the system of equations, with its corner first *)
Definition solve3 (a b c p : vec3) : option (R * R * R) :=
  let e1 := zVec3DSub b a in let e2 := zVec3DSub c a in
  if (zVec3DIsTiny e1 || zVec3DIsTiny e2)%bool then None
  else
    let '(d1, e1) := zVec3DNormalizeDRC e1 in
    let '(d2, e2) := zVec3DNormalizeDRC e2 in
    let dp := zVec3DSub p a in
    let v := V2 (zVec3DInnerProd e1 dp) (zVec3DInnerProd e2 dp) in
    let mc := zVec3DInnerProd e1 e2 in
    match zMulInvMat2DVec2D (zMat2DCreate 1 mc mc 1) v with
    | None => None
    | Some l => Some (zTri3DLinScaleVal l d1 d2)
    end.
Lemma solve3_ok a b c p s0 s1 s2 : ~ negligible (vsub b a) -> ~ negligible (vsub c a) -> spread_at a b c -> over a b c s0 s1 s2 p -> solve3 a b c p = Some (s0, s1, s2).
Proof.
  intros N1 N2 SP (S1 & w & W1 & W2 & E). unfold solve3. change (zVec3DSub b a) with (vsub b a). change (zVec3DSub c a) with (vsub c a).
  rewrite (proj2 (zVec3DIsTiny_false _) N1), (proj2 (zVec3DIsTiny_false _) N2). cbn [orb].
  unfold zVec3DNormalizeDRC, zVec3DNormalize. rewrite (proj2 (zVec3DIsTiny_false _) N1), (proj2 (zVec3DIsTiny_false _) N2). cbn [snd fst]. cbv iota.
  assert (P1 := norm_pos_negl _ N1). assert (P2 := norm_pos_negl _ N2). assert (Q1 := norm_sqr (vsub b a)). assert (Q2 := norm_sqr (vsub c a)).
  unfold spread_at in SP. set (u := vsub b a) in *. set (v := vsub c a) in *.
  change (zVec3DNorm u) with (norm u). change (zVec3DNorm v) with (norm v).
  change (zVec3DMul u (1 / norm u)) with (vscale (1 / norm u) u). change (zVec3DMul v (1 / norm v)) with (vscale (1 / norm v) v).
  change (zVec3DSub p a) with (vsub p a).
  set (d1 := norm u) in *. set (d2 := norm v) in *. change zVec3DInnerProd with dot.
  assert (D : vsub p a = vadd (vadd (vscale s1 u) (vscale s2 v)) w).
  { rewrite E. unfold u, v. apply vec3_ext; unfold comb3, comb2; spec_unfold; replace s0 with (1 - s1 - s2) by lra; ring. }
  set (g := dot u v) in *.
  assert (A1 : dot (vscale (1 / d1) u) (vsub p a) = s1 * d1 + s2 * g / d1).
  { rewrite D, dot_scl, dot_swap, !dot_add3, !dot_scl, W1. fold g. rewrite (dot_swap v u). fold g. rewrite <- Q1. field. lra. }
  assert (A2 : dot (vscale (1 / d2) v) (vsub p a) = s1 * g / d2 + s2 * d2).
  { rewrite D, dot_scl, dot_swap, !dot_add3, !dot_scl, W2. fold g. rewrite <- Q2. field. lra. }
  assert (A3 : dot (vscale (1 / d1) u) (vscale (1 / d2) v) = g / (d1 * d2)).
  { rewrite dot_scl, dot_swap, dot_scl, dot_swap. fold g. field. split; lra. }
  rewrite A1, A2, A3. set (mc := g / (d1 * d2)).
  assert (M : g = mc * (d1 * d2)) by (unfold mc; field; split; lra).
  assert (MC : mc * mc <= 1 - zTOL).
  { apply (Rmult_le_reg_r ((d1 * d2) * (d1 * d2))); [apply Rmult_lt_0_compat; apply Rmult_lt_0_compat; assumption|].
    replace (mc * mc * (d1 * d2 * (d1 * d2))) with (g * g) by (rewrite M; ring). replace ((1 - zTOL) * (d1 * d2 * (d1 * d2))) with ((1 - zTOL) * ((d1 * d1) * (d2 * d2))) by ring. rewrite Q1, Q2. exact SP. }
  assert (Z := zTOL_pos).
  unfold zMulInvMat2DVec2D, zMat2DDet, zMat2DCreate. cbn [dxx dxy dyx dyy].
  assert (T : zIsTiny (1 * 1 - mc * mc) = false).
  { unfold zIsTiny, zIsTol. destruct (Rltb_reflect (Rabs (1 * 1 - mc * mc)) zTOL) as [L|]; [|reflexivity]. exfalso. rewrite Rabs_right in L by lra. lra. }
  rewrite T. unfold zTri3DLinScaleVal, zMulAdjMat2DVec2D, zVec2DMul. cbn [x2 y2 dxx dxy dyx dyy].
  assert (X1 : 1 / (1 * 1 - mc * mc) * (1 * (s1 * d1 + s2 * g / d1) - mc * (s1 * g / d2 + s2 * d2)) / d1 = s1) by (rewrite M; field; repeat split; lra).
  assert (X2 : 1 / (1 * 1 - mc * mc) * (1 * (s1 * g / d2 + s2 * d2) - mc * (s1 * d1 + s2 * g / d1)) / d2 = s2) by (rewrite M; field; repeat split; lra).
  match goal with |- Some (1 - (?A + ?B), _, _) = _ => assert (Y1 : A = s1) by (etransitivity; [|exact X1]; field; repeat split; lra); assert (Y2 : B = s2) by (etransitivity; [|exact X2]; field; repeat split; lra); rewrite Y1, Y2 end.
  do 3 f_equal. lra.
Qed.

Lemma over_rot a b c s0 s1 s2 p : over a b c s0 s1 s2 p -> over b c a s1 s2 s0 p.
Proof.
  intros (S & w & W1 & W2 & ->). split; [lra|]. exists w. split; [|split].
  - transitivity (dot w (vsub c a) - dot w (vsub b a)); [spec_unfold; ring|lra].
  - transitivity (- dot w (vsub b a)); [spec_unfold; ring|lra].
  - apply vec3_ext; unfold comb3, comb2; spec_unfold; ring.
Qed.
Lemma spread_swap a b c : spread_at a b c -> spread_at a c b.
Proof. unfold spread_at. rewrite (dot_swap (vsub c a) (vsub b a)). intros H. rewrite (Rmult_comm (dot (vsub c a) (vsub c a))). exact H. Qed.
Lemma negl_opp a b : ~ negligible (vsub a b) -> ~ negligible (vsub b a).
Proof.
  intros H N. apply H. unfold negligible in *. cbn [vsub vx vy vz] in *. destruct N as (A & B & C).
  rewrite <- (Rabs_Ropp (vx a - vx b)), <- (Rabs_Ropp (vy a - vy b)), <- (Rabs_Ropp (vz a - vz b)). repeat split; [eapply Rle_lt_trans; [|exact A]|eapply Rle_lt_trans; [|exact B]|eapply Rle_lt_trans; [|exact C]]; right; f_equal; ring.
Qed.
(** the factors are the coordinates, whichever corner is the nearest *)
Lemma factors_ok t p s0 s1 s2 : well_shaped (tv0 t) (tv1 t) (tv2 t) -> over (tv0 t) (tv1 t) (tv2 t) s0 s1 s2 p -> linFactors t p = Some (s0, s1, s2).
Proof.
  intros (N1 & N2 & N3 & P0 & P1 & P2) O. assert (O1 := over_rot _ _ _ _ _ _ _ O). assert (O2 := over_rot _ _ _ _ _ _ _ O1).
  assert (K0 := solve3_ok _ _ _ _ _ _ _ N1 (negl_opp _ _ N3) P0 O). assert (K1 := solve3_ok _ _ _ _ _ _ _ N2 (negl_opp _ _ N1) P1 O1). assert (K2 := solve3_ok _ _ _ _ _ _ _ N3 (negl_opp _ _ N2) P2 O2).
  unfold linFactors. set (i0 := if Rleb _ _ then _ else _).
  assert (I : (i0 = 0 \/ i0 = 1 \/ i0 = 2)%nat) by (unfold i0; destruct (Rleb _ _); destruct (Rleb _ _); auto).
  clearbody i0. clear P0 P1 P2 N1 N2 N3 O O1 O2.
  destruct I as [->|[->| ->]]; [clear K1 K2; rename K0 into K|clear K0 K2; rename K1 into K|clear K0 K1; rename K2 into K]; cbn [Nat.add Nat.modulo Nat.divmod fst snd Nat.sub triVert]; unfold solve3 in K;
    (destruct (orb _ _); [discriminate K|]); destruct (zVec3DNormalizeDRC _) as [d1 e1]; destruct (zVec3DNormalizeDRC _) as [d2 e2]; (destruct (zMulInvMat2DVec2D _ _) as [l|]; [|discriminate K]);
    unfold zTri3DLinScaleVal in *; injection K as <- <- <-; reflexivity.
Qed.
Lemma lin_inside : forall t p s0 s1 s2, well_shaped (tv0 t) (tv1 t) (tv2 t) -> over (tv0 t) (tv1 t) (tv2 t) s0 s1 s2 p -> 0 <= s0 -> 0 <= s1 -> 0 <= s2 ->
  zTri3DLinScale t p = Some (0, (s0, s1, s2), p).
Proof.
  intros t p s0 s1 s2 W O A B C. unfold zTri3DLinScale. rewrite (factors_ok t p s0 s1 s2 W O).
  destruct (Rltb_reflect s0 0); [lra|]. destruct (Rltb_reflect s1 0); [lra|]. destruct (Rltb_reflect s2 0); [lra|]. reflexivity.
Qed.

(** a point of a triangle is the nearest if it sees no corner on the side of [p] *)
Lemma nearest_corners a b c p q : in_triangle a b c q -> dot (vsub p q) (vsub a q) <= 0 -> dot (vsub p q) (vsub b q) <= 0 -> dot (vsub p q) (vsub c q) <= 0 -> nearest (in_triangle a b c) p q.
Proof.
  intros I A B C. split; [exact I|]. intros x (r0 & r1 & r2 & (R0 & R1 & R2 & RS) & ->). unfold dist, norm. apply sqrt_le_1_alt.
  assert (X : dot (vsub p q) (vsub (comb3 r0 r1 r2 a b c) q) = r0 * dot (vsub p q) (vsub a q) + r1 * dot (vsub p q) (vsub b q) + r2 * dot (vsub p q) (vsub c q)).
  { unfold comb3, comb2. spec_unfold. replace r0 with (1 - r1 - r2) by lra. ring. }
  assert (Y : dot (vsub p q) (vsub (comb3 r0 r1 r2 a b c) q) <= 0) by (rewrite X; nra).
  set (x := comb3 r0 r1 r2 a b c) in *. assert (0 <= dot (vsub x q) (vsub x q)) by (unfold dot; nra).
  assert (E : dot (vsub p x) (vsub p x) = dot (vsub p q) (vsub p q) - 2 * dot (vsub p q) (vsub x q) + dot (vsub x q) (vsub x q)) by (spec_unfold; ring). lra.
Qed.
(** the foot of a point on an edge *)
Lemma deg2_ok v1 v2 p : ~ negligible (vsub v2 v1) -> exists l1 l2, let cp := comb2 l1 l2 v1 v2 in
  zTri3DLinScaleDeg2 v1 v2 p = Some (l1, l2, cp) /\ weights2 l1 l2 /\
  (dot (vsub p cp) (vsub v2 v1) = 0 \/ l1 = 1 /\ dot (vsub p cp) (vsub v2 v1) <= 0 \/ l1 = 0 /\ 0 <= dot (vsub p cp) (vsub v2 v1)).
Proof.
  intros N. assert (P := norm_pos_negl _ N). assert (Q := norm_sqr (vsub v2 v1)). set (e := vsub v2 v1) in *. set (d := norm e) in *.
  set (tau := dot (vsub p v1) e / (d * d)). assert (T : dot (vsub p v1) e = tau * dot e e) by (unfold tau; rewrite Q; field; rewrite <- Q; nra).
  assert (QP : 0 < dot e e) by (rewrite <- Q; nra).
  assert (PP : zEdge3DProjPoint (E3 v1 v2) p v3zero = vadd v1 (vscale tau e)).
  { unfold zEdge3DProjPoint, zEdge3DVec. cbn [ev0 ev1]. change (zVec3DSub v2 v1) with e. unfold zVec3DNormalize. rewrite (proj2 (zVec3DIsTiny_false _) N). cbn [snd].
    change (zVec3DMul e (1 / zVec3DNorm e)) with (vscale (1 / d) e). change (zVec3DSub p v1) with (vsub p v1). change zVec3DInnerProd with dot.
    assert (X : dot (vsub p v1) (vscale (1 / d) e) = tau * d). { rewrite dot_swap, dot_scl, dot_swap, T, <- Q. field. lra. }
    rewrite X. apply vec3_ext; unfold zVec3DCat; spec_unfold; field; lra. }
  unfold zTri3DLinScaleDeg2. rewrite PP. unfold zEdge3DLinScale, zEdge3DVec. cbn [ev0 ev1]. change (zVec3DSub v2 v1) with e. rewrite (proj2 (zVec3DIsTiny_false _) N).
  unfold zVec3DNormalize. rewrite (proj2 (zVec3DIsTiny_false _) N). change (zVec3DNorm e) with d. change (zVec3DMul e (1 / d)) with (vscale (1 / d) e). change zVec3DInnerProd with dot.
  change (zVec3DSub (vadd v1 (vscale tau e)) v1) with (vsub (vadd v1 (vscale tau e)) v1). change (zVec3DSub (vadd v1 (vscale tau e)) v2) with (vsub (vadd v1 (vscale tau e)) v2).
  assert (X0 : dot (vsub (vadd v1 (vscale tau e)) v1) (vscale (1 / d) e) / d = tau).
  { replace (vsub (vadd v1 (vscale tau e)) v1) with (vscale tau e) by vring. rewrite dot_scl, dot_swap, dot_scl, <- Q. field. lra. }
  assert (X1 : - dot (vsub (vadd v1 (vscale tau e)) v2) (vscale (1 / d) e) / d = 1 - tau).
  { replace (vsub (vadd v1 (vscale tau e)) v2) with (vscale (tau - 1) e) by (unfold e; vring). rewrite dot_scl, dot_swap, dot_scl, <- Q. field. lra. }
  assert (L : forall (b : bool), (if b then let l1 := dot (vsub (vadd v1 (vscale tau e)) v1) (vscale (1 / d) e) / d in (1 - l1, l1) else let l0 := - dot (vsub (vadd v1 (vscale tau e)) v2) (vscale (1 / d) e) / d in (l0, 1 - l0)) = (1 - tau, tau)).
  { intros []; cbv zeta; [rewrite X0; reflexivity|rewrite X1; f_equal; ring]. }
  rewrite L. clear L X0 X1.
  destruct (Rltb_reflect tau 0) as [T0|T0]; [|destruct (Rltb_reflect (1 - tau) 0) as [T1|T1]].
  - exists 1, 0. cbv zeta. assert (C : comb2 1 0 v1 v2 = v1) by (unfold comb2; vring). rewrite C. split; [reflexivity|]. split; [unfold weights2; lra|]. right. left. split; [reflexivity|]. rewrite T. nra.
  - exists 0, 1. cbv zeta. assert (C : comb2 0 1 v1 v2 = v2) by (unfold comb2; vring). rewrite C. split; [reflexivity|]. split; [unfold weights2; lra|]. right. right. split; [reflexivity|].
    assert (Y : dot (vsub p v2) e = dot (vsub p v1) e - dot e e) by (unfold e; spec_unfold; ring). rewrite Y, T. nra.
  - exists (1 - tau), tau. cbv zeta. assert (C : comb2 (1 - tau) tau v1 v2 = vadd v1 (vscale tau e)) by (unfold comb2, e; vring). rewrite C. split; [reflexivity|]. split; [unfold weights2; lra|]. left.
    assert (Y : dot (vsub p (vadd v1 (vscale tau e))) e = dot (vsub p v1) e - tau * dot e e) by (spec_unfold; ring). rewrite Y, T. ring.
Qed.
(** over the side opposite to the corner [a] the foot is the nearest point of the triangle *)
Lemma deg2_nearest a b c p s0 s1 s2 l1 l2 : over a b c s0 s1 s2 p -> s0 < 0 -> 0 <= s1 -> 0 <= s2 -> weights2 l1 l2 -> let cp := comb2 l1 l2 b c in
  (dot (vsub p cp) (vsub c b) = 0 \/ l1 = 1 /\ dot (vsub p cp) (vsub c b) <= 0 \/ l1 = 0 /\ 0 <= dot (vsub p cp) (vsub c b)) ->
  nearest (in_triangle a b c) p cp.
Proof.
  intros (SS & w & W1 & W2 & E) A B C (L1 & L2 & LS) cp H.
  assert (I : in_triangle a b c cp). { exists 0, l1, l2. split; [unfold weights3; lra|]. unfold cp, comb3, comb2. vring. }
  set (n := vsub p cp) in *. set (g := dot n (vsub c b)) in *.
  assert (Kb : dot n (vsub b cp) = - l2 * g). { unfold cp, g, comb2. replace l1 with (1 - l2) by lra. spec_unfold. ring. }
  assert (Kc : dot n (vsub c cp) = l1 * g). { unfold cp, g, comb2. replace l2 with (1 - l1) by lra. spec_unfold. ring. }
  assert (D : vsub n w = vadd (vadd (vscale s0 (vsub a cp)) (vscale s1 (vsub b cp))) (vscale s2 (vsub c cp))).
  { unfold n. rewrite E. apply vec3_ext; unfold comb3; unfold comb2 at 1; spec_unfold; replace s0 with (1 - s1 - s2) by lra; ring. }
  assert (Wa : dot w (vsub a cp) = 0). { transitivity (- l1 * dot w (vsub b a) - l2 * dot w (vsub c a)); [|rewrite W1, W2; ring]. unfold cp, comb2. replace l1 with (1 - l2) by lra. spec_unfold. ring. }
  assert (Wb : dot w (vsub b cp) = 0). { transitivity (dot w (vsub a cp) + dot w (vsub b a)); [spec_unfold; ring|lra]. }
  assert (Wc : dot w (vsub c cp) = 0). { transitivity (dot w (vsub a cp) + dot w (vsub c a)); [spec_unfold; ring|lra]. }
  assert (M : dot (vsub n w) (vsub n w) = s0 * dot n (vsub a cp) + s1 * dot n (vsub b cp) + s2 * dot n (vsub c cp)).
  { transitivity (s0 * dot (vsub n w) (vsub a cp) + s1 * dot (vsub n w) (vsub b cp) + s2 * dot (vsub n w) (vsub c cp)); [rewrite D at 2; spec_unfold; ring|].
    assert (F : forall x, dot (vsub n w) x = dot n x - dot w x) by (intros x; spec_unfold; ring). rewrite !F, Wa, Wb, Wc. ring. }
  assert (M0 : 0 <= dot (vsub n w) (vsub n w)) by (unfold dot; nra).
  assert (Nb : dot n (vsub b cp) <= 0 /\ dot n (vsub c cp) <= 0).
  { rewrite Kb, Kc. destruct H as [H|[[-> H]|[-> H]]]; [rewrite H; lra| |]; [replace l2 with 0 by lra|replace l2 with 1 by lra]; lra. }
  apply nearest_corners; [exact I| |tauto|tauto]. fold n.
  assert (s1 * dot n (vsub b cp) <= 0) by nra. assert (s2 * dot n (vsub c cp) <= 0) by nra. nra.
Qed.
Lemma tri_rot a b c p : in_triangle a b c p -> in_triangle b c a p.
Proof. intros (r0 & r1 & r2 & (R0 & R1 & R2 & RS) & ->). exists r1, r2, r0. split; [unfold weights3; lra|]. unfold comb3, comb2. vring. Qed.
Lemma nearest_rot a b c p q : nearest (in_triangle a b c) p q -> nearest (in_triangle b c a) p q.
Proof. intros [I N]. split; [apply tri_rot, I|]. intros x X. apply N. do 2 apply tri_rot. exact X. Qed.
Lemma lin_edge : forall t p s0 s1 s2, well_shaped (tv0 t) (tv1 t) (tv2 t) -> over (tv0 t) (tv1 t) (tv2 t) s0 s1 s2 p ->
  (s0 < 0 /\ 0 <= s1 /\ 0 <= s2) \/ (0 <= s0 /\ s1 < 0 /\ 0 <= s2) \/ (0 <= s0 /\ 0 <= s1 /\ s2 < 0) ->
  exists l0 l1 l2, let cp := comb3 l0 l1 l2 (tv0 t) (tv1 t) (tv2 t) in
  zTri3DLinScale t p = Some (dist p cp, (l0, l1, l2), cp) /\ weights3 l0 l1 l2 /\ nearest (in_triangle (tv0 t) (tv1 t) (tv2 t)) p cp.
Proof.
  intros t p s0 s1 s2 W O H. unfold zTri3DLinScale. rewrite (factors_ok t p s0 s1 s2 W O). destruct W as (N1 & N2 & N3 & _).
  assert (O1 := over_rot _ _ _ _ _ _ _ O). assert (O2 := over_rot _ _ _ _ _ _ _ O1).
  destruct (Rltb_reflect s0 0) as [A|A]; destruct (Rltb_reflect s1 0) as [B|B]; destruct (Rltb_reflect s2 0) as [C|C]; try (exfalso; lra).
  - destruct (deg2_ok (tv1 t) (tv2 t) p N2) as (l1 & l2 & E & W & K). rewrite E. exists 0, l1, l2. cbv zeta.
    assert (X : comb3 0 l1 l2 (tv0 t) (tv1 t) (tv2 t) = comb2 l1 l2 (tv1 t) (tv2 t)) by (unfold comb3, comb2; vring). rewrite X.
    split; [reflexivity|]. split; [destruct W as (? & ? & ?); unfold weights3; lra|]. apply (deg2_nearest _ _ _ _ s0 s1 s2); [exact O|lra|lra|lra|exact W|exact K].
  - destruct (deg2_ok (tv2 t) (tv0 t) p N3) as (l1 & l2 & E & W & K). rewrite E. exists l2, 0, l1. cbv zeta.
    assert (X : comb3 l2 0 l1 (tv0 t) (tv1 t) (tv2 t) = comb2 l1 l2 (tv2 t) (tv0 t)) by (unfold comb3, comb2; vring). rewrite X.
    split; [reflexivity|]. split; [destruct W as (? & ? & ?); unfold weights3; lra|]. do 2 apply nearest_rot. apply (deg2_nearest _ _ _ _ s1 s2 s0); [exact O1|lra|lra|lra|exact W|exact K].
  - destruct (deg2_ok (tv0 t) (tv1 t) p N1) as (l1 & l2 & E & W & K). rewrite E. exists l1, l2, 0. cbv zeta.
    assert (X : comb3 l1 l2 0 (tv0 t) (tv1 t) (tv2 t) = comb2 l1 l2 (tv0 t) (tv1 t)) by (unfold comb3, comb2; vring). rewrite X.
    split; [reflexivity|]. split; [destruct W as (? & ? & ?); unfold weights3; lra|]. apply nearest_rot. apply (deg2_nearest _ _ _ _ s2 s0 s1); [exact O2|lra|lra|lra|exact W|exact K].
Qed.
(** beyond a corner *)
Lemma lin_corner : forall t p s0 s1 s2, well_shaped (tv0 t) (tv1 t) (tv2 t) -> over (tv0 t) (tv1 t) (tv2 t) s0 s1 s2 p ->
  (s1 < 0 -> s2 < 0 -> zTri3DLinScale t p = Some (dist p (tv0 t), (1, 0, 0), tv0 t)) /\
  (s2 < 0 -> s0 < 0 -> zTri3DLinScale t p = Some (dist p (tv1 t), (0, 1, 0), tv1 t)) /\
  (s0 < 0 -> s1 < 0 -> zTri3DLinScale t p = Some (dist p (tv2 t), (0, 0, 1), tv2 t)).
Proof.
  intros t p s0 s1 s2 W O. unfold zTri3DLinScale. rewrite (factors_ok t p s0 s1 s2 W O). destruct O as [SS _].
  destruct (Rltb_reflect s0 0) as [A|A]; destruct (Rltb_reflect s1 0) as [B|B]; destruct (Rltb_reflect s2 0) as [C|C]; repeat split; intros; try (exfalso; lra); reflexivity.
Qed.
(** a corner with an angle that is not obtuse is the nearest point of the opposite cone *)
Lemma corner_nearest a b c p s0 s1 s2 : over a b c s0 s1 s2 p -> s1 < 0 -> s2 < 0 -> ~ obtuse a b c -> nearest (in_triangle a b c) p a.
Proof.
  intros (SS & w & W1 & W2 & ->) A B N. unfold obtuse in N. apply nearest_corners.
  - exists 1, 0, 0. split; [unfold weights3; lra|]. unfold comb3, comb2. vring.
  - replace (vsub a a) with v3zero by vring. unfold v3zero. spec_unfold. lra.
  - assert (X : dot (vsub (vadd (comb3 s0 s1 s2 a b c) w) a) (vsub b a) = s1 * dot (vsub b a) (vsub b a) + s2 * dot (vsub b a) (vsub c a) + dot w (vsub b a)) by (unfold comb3, comb2; spec_unfold; replace s0 with (1 - s1 - s2) by lra; ring).
    rewrite X, W1. assert (0 <= dot (vsub b a) (vsub b a)) by (unfold dot; nra). nra.
  - assert (X : dot (vsub (vadd (comb3 s0 s1 s2 a b c) w) a) (vsub c a) = s1 * dot (vsub b a) (vsub c a) + s2 * dot (vsub c a) (vsub c a) + dot w (vsub c a)) by (unfold comb3, comb2; spec_unfold; replace s0 with (1 - s1 - s2) by lra; ring).
    rewrite X, W2. assert (0 <= dot (vsub c a) (vsub c a)) by (unfold dot; nra). nra.
Qed.
Lemma lin_acute : forall t p s0 s1 s2, well_shaped (tv0 t) (tv1 t) (tv2 t) -> over (tv0 t) (tv1 t) (tv2 t) s0 s1 s2 p ->
  ~ obtuse (tv0 t) (tv1 t) (tv2 t) -> ~ obtuse (tv1 t) (tv2 t) (tv0 t) -> ~ obtuse (tv2 t) (tv0 t) (tv1 t) -> s0 < 0 \/ s1 < 0 \/ s2 < 0 ->
  exists l0 l1 l2, let cp := comb3 l0 l1 l2 (tv0 t) (tv1 t) (tv2 t) in
  zTri3DLinScale t p = Some (dist p cp, (l0, l1, l2), cp) /\ weights3 l0 l1 l2 /\ nearest (in_triangle (tv0 t) (tv1 t) (tv2 t)) p cp.
Proof.
  intros t p s0 s1 s2 W O N0 N1 N2 H. assert (O1 := over_rot _ _ _ _ _ _ _ O). assert (O2 := over_rot _ _ _ _ _ _ _ O1).
  destruct (lin_corner t p s0 s1 s2 W O) as (C0 & C1 & C2).
  assert (X0 : comb3 1 0 0 (tv0 t) (tv1 t) (tv2 t) = tv0 t) by (unfold comb3, comb2; vring).
  assert (X1 : comb3 0 1 0 (tv0 t) (tv1 t) (tv2 t) = tv1 t) by (unfold comb3, comb2; vring).
  assert (X2 : comb3 0 0 1 (tv0 t) (tv1 t) (tv2 t) = tv2 t) by (unfold comb3, comb2; vring).
  destruct (Rlt_le_dec s0 0) as [A|A]; destruct (Rlt_le_dec s1 0) as [B|B]; destruct (Rlt_le_dec s2 0) as [C|C]; try (apply (lin_edge t p s0 s1 s2 W O); lra); try (exfalso; lra).
  - exfalso. destruct O as [SS _]. lra.
  - exists 0, 0, 1. cbv zeta. rewrite X2. split; [apply C2; assumption|]. split; [unfold weights3; lra|]. apply nearest_rot. apply (corner_nearest _ _ _ p s2 s0 s1); assumption.
  - exists 0, 1, 0. cbv zeta. rewrite X1. split; [apply C1; assumption|]. split; [unfold weights3; lra|]. do 2 apply nearest_rot. apply (corner_nearest _ _ _ p s1 s2 s0); assumption.
  - exists 1, 0, 0. cbv zeta. rewrite X0. split; [apply C0; assumption|]. split; [unfold weights3; lra|]. apply (corner_nearest _ _ _ p s0 s1 s2); assumption.
Qed.
(** with an obtuse angle there are points of the plane for which the corner is returned though another point is nearer *)
Lemma obtuse_far a b c : obtuse a b c -> exists s0 s1 s2 x, s1 < 0 /\ s2 < 0 /\ s0 + s1 + s2 = 1 /\ in_triangle a b c x /\
  dist (comb3 s0 s1 s2 a b c) x < dist (comb3 s0 s1 s2 a b c) a.
Proof.
  unfold obtuse. intros G. set (u := vsub b a) in *. set (v := vsub c a) in *. set (g := dot u v) in *.
  assert (U : 0 < dot u u). { destruct (Rle_lt_or_eq_dec 0 (dot u u)) as [|Z]; [unfold dot; nra|assumption|]. exfalso. symmetry in Z.
    assert (Y : vx u = 0 /\ vy u = 0 /\ vz u = 0) by (unfold dot in Z; repeat split; nra). destruct Y as (Y1 & Y2 & Y3). unfold g, dot in G. rewrite Y1, Y2, Y3 in G. lra. }
  set (s1 := g / (2 * dot u u)). assert (S1 : s1 * dot u u = g / 2) by (unfold s1; field; lra). assert (S1n : s1 < 0) by nra.
  set (k := Rmin 1 (- s1)). assert (K : 0 < k <= 1 /\ k <= - s1). { unfold k. split; [split; [apply Rmin_glb_lt; lra|apply Rmin_l]|apply Rmin_r]. }
  exists (1 - s1 - (-1)), s1, (-1), (vadd a (vscale k u)). split; [exact S1n|]. split; [lra|]. split; [lra|]. split.
  - exists (1 - k), k, 0. split; [unfold weights3; lra|]. unfold u, comb3, comb2. vring.
  - set (m := vadd (vscale s1 u) (vscale (-1) v)).
    assert (M : comb3 (1 - s1 - -1) s1 (-1) a b c = vadd a m) by (unfold m, u, v, comb3, comb2; vring). rewrite M.
    assert (MU : dot m u = - g / 2). { unfold m. rewrite dot_add3, !dot_scl, S1, (dot_swap v u). fold g. lra. }
    unfold dist, norm. apply sqrt_lt_1; [unfold dot; nra|unfold dot; nra|].
    replace (vsub (vadd a m) a) with m by vring. replace (vsub (vadd a m) (vadd a (vscale k u))) with (vsub m (vscale k u)) by vring.
    assert (E : dot (vsub m (vscale k u)) (vsub m (vscale k u)) = dot m m - 2 * k * dot m u + k * k * dot u u) by (spec_unfold; ring). rewrite E, MU.
    assert (k * dot u u <= - s1 * dot u u) by nra. nra.
Qed.
Lemma lin_obtuse_refuted : forall t, well_shaped (tv0 t) (tv1 t) (tv2 t) ->
  (obtuse (tv0 t) (tv1 t) (tv2 t) -> exists p d l x, zTri3DLinScale t p = Some (d, l, tv0 t) /\ on_plane (tv0 t) (tri_normal (tv0 t) (tv1 t) (tv2 t)) p /\ in_triangle (tv0 t) (tv1 t) (tv2 t) x /\ dist p x < d) /\
  (obtuse (tv1 t) (tv2 t) (tv0 t) -> exists p d l x, zTri3DLinScale t p = Some (d, l, tv1 t) /\ on_plane (tv0 t) (tri_normal (tv0 t) (tv1 t) (tv2 t)) p /\ in_triangle (tv0 t) (tv1 t) (tv2 t) x /\ dist p x < d) /\
  (obtuse (tv2 t) (tv0 t) (tv1 t) -> exists p d l x, zTri3DLinScale t p = Some (d, l, tv2 t) /\ on_plane (tv0 t) (tri_normal (tv0 t) (tv1 t) (tv2 t)) p /\ in_triangle (tv0 t) (tv1 t) (tv2 t) x /\ dist p x < d).
Proof.
  intros t W. assert (Z : forall a b c, dot v3zero (vsub b a) = 0 /\ dot v3zero (vsub c a) = 0) by (intros; unfold v3zero; spec_unfold; lra).
  assert (P : forall a b c s0 s1 s2, s0 + s1 + s2 = 1 -> on_plane a (tri_normal a b c) (comb3 s0 s1 s2 a b c)).
  { intros a b c r0 r1 r2 H. unfold on_plane, tri_normal, comb3, comb2. spec_unfold. replace r0 with (1 - r1 - r2) by lra. ring. }
  assert (R : forall a b c s0 s1 s2, s0 + s1 + s2 = 1 -> over a b c s0 s1 s2 (comb3 s0 s1 s2 a b c)).
  { intros a b c r0 r1 r2 H. split; [exact H|]. exists v3zero. split; [apply (Z a b c)|]. split; [apply (Z a b c)|]. unfold v3zero. vring. }
  repeat split; intros H; destruct (obtuse_far _ _ _ H) as (s0 & s1 & s2 & x & A & B & SS & I & D).
  - assert (O := R (tv0 t) (tv1 t) (tv2 t) s0 s1 s2 SS). destruct (lin_corner t _ s0 s1 s2 W O) as (C0 & _ & _). do 3 eexists. exists x. split; [apply C0; assumption|]. split; [apply P, SS|]. split; [exact I|exact D].
  - assert (E : comb3 s0 s1 s2 (tv1 t) (tv2 t) (tv0 t) = comb3 s2 s0 s1 (tv0 t) (tv1 t) (tv2 t)) by (unfold comb3, comb2; vring). rewrite E in D. assert (SS' : s2 + s0 + s1 = 1) by lra.
    assert (O := R (tv0 t) (tv1 t) (tv2 t) s2 s0 s1 SS'). destruct (lin_corner t _ s2 s0 s1 W O) as (_ & C1 & _). do 3 eexists. exists x. split; [apply C1; assumption|]. split; [apply P, SS'|]. split; [do 2 apply tri_rot; exact I|exact D].
  - assert (E : comb3 s0 s1 s2 (tv2 t) (tv0 t) (tv1 t) = comb3 s1 s2 s0 (tv0 t) (tv1 t) (tv2 t)) by (unfold comb3, comb2; vring). rewrite E in D. assert (SS' : s1 + s2 + s0 = 1) by lra.
    assert (O := R (tv0 t) (tv1 t) (tv2 t) s1 s2 s0 SS'). destruct (lin_corner t _ s1 s2 s0 W O) as (_ & _ & C2). do 3 eexists. exists x. split; [apply C2; assumption|]. split; [apply P, SS'|]. split; [apply tri_rot; exact I|exact D].
Qed.
