(** Proofs about closest points of triangles and tetrahedra. *)
From Verif Require Import ModelElem FactsVec FactsAlg Facts2D FactsElem.
Open Scope R_scope.

Ltac cvring := apply vec3_ext; unfold comb4, comb3, comb2; spec_unfold; ring.

Lemma dot_scale_r a k b : dot a (vscale k b) = k * dot a b. Proof. spec_unfold; ring. Qed.
Lemma dot_scale_l a k b : dot (vscale k a) b = k * dot a b. Proof. spec_unfold; ring. Qed.
Lemma dot_sub_l a b c : dot (vsub a b) c = dot a c - dot b c. Proof. spec_unfold; ring. Qed.
Lemma dot_sub_r a b c : dot c (vsub a b) = dot c a - dot c b. Proof. spec_unfold; ring. Qed.
Lemma dot_add_l a b c : dot (vadd a b) c = dot a c + dot b c. Proof. spec_unfold; ring. Qed.
Lemma dot_add_r a b c : dot c (vadd a b) = dot c a + dot c b. Proof. spec_unfold; ring. Qed.

(** ** the boundary of a triangle *)
Definition tri_res v0 v1 v2 (r : R * (R * R * R * vec3)) : Prop :=
  let '(d, (a, b, c, cp)) := r in weights3 a b c /\ cp = comb3 a b c v0 v1 v2 /\ d = norm cp.

Lemma edgeW3_res i v0 v1 v2 r :
  edgeW3 i (match i with 0%nat => v0 | 1%nat => v1 | _ => v2 end) (match i with 0%nat => v1 | 1%nat => v2 | _ => v0 end) = Some r ->
  tri_res v0 v1 v2 r /\ boundary v0 v1 v2 (snd (snd r)).
Proof.
  unfold edgeW3. set (va := match i with 0%nat => v0 | 1%nat => v1 | _ => v2 end). set (vb := match i with 0%nat => v1 | 1%nat => v2 | _ => v0 end).
  destruct (vec3_dec va vb) as [E|NE].
  { rewrite E, edge3_degenerate. discriminate. }
  destruct (edge3_ok va vb NE) as ([[[d s0] s1] cp] & E & (Hw0 & Hw1 & Hs) & Hc & Hd & Hm). rewrite E.
  intros Hr; injection Hr as <-.
  assert (Hseg : segment va vb cp) by (exists s0, s1; split; [unfold weights2; auto|assumption]).
  destruct i as [|[|i]]; cbv [tri_res]; cbn [snd]; subst va vb; cbv beta iota in *.
  - split; [|left; assumption]. split; [unfold weights3; repeat split; lra|]. split; [rewrite Hc; cvring|assumption].
  - split; [|right; left; assumption]. split; [unfold weights3; repeat split; lra|]. split; [rewrite Hc; cvring|assumption].
  - split; [|right; right; assumption]. split; [unfold weights3; repeat split; lra|]. split; [rewrite Hc; cvring|assumption].
Qed.
Lemma edgeW3_min i va vb x : va <> vb -> segment va vb x -> exists r, edgeW3 i va vb = Some r /\ fst r <= norm x.
Proof.
  intros NE Hx. unfold edgeW3. destruct (edge3_ok va vb NE) as ([[[d s0] s1] cp] & E & _ & _ & Hd & Hm). rewrite E.
  eexists; split; [reflexivity|]. cbn [fst]. rewrite Hd. apply Hm; assumption.
Qed.
Definition bestEdge v0 v1 v2 := keep3 (keep3 (keep3 None (edgeW3 0 v0 v1)) (edgeW3 1 v1 v2)) (edgeW3 2 v2 v0).
Lemma segment_left a b : segment a b a.
Proof. exists 1, 0. split; [unfold weights2; lra|cvring]. Qed.
Lemma segment_right a b : segment a b b.
Proof. exists 0, 1. split; [unfold weights2; lra|cvring]. Qed.
Lemma segment_same a x : segment a a x -> x = a.
Proof. intros (s0 & s1 & (_ & _ & H) & ->). replace s0 with (1 - s1) by lra. cvring. Qed.
Lemma bestEdge_ok v0 v1 v2 : ~ (v0 = v1 /\ v1 = v2) ->
  exists d a b c cp, bestEdge v0 v1 v2 = Some (d, (a, b, c, cp)) /\ tri_res v0 v1 v2 (d, (a, b, c, cp)) /\
    boundary v0 v1 v2 cp /\ forall x, boundary v0 v1 v2 x -> d <= norm x.
Proof.
  intros Hne. unfold bestEdge.
  set (A := keep3 None (edgeW3 0 v0 v1)). set (B := keep3 A (edgeW3 1 v1 v2)).
  assert (HA : A = edgeW3 0 v0 v1). { unfold A, keep3. destruct (edgeW3 0 v0 v1) as [[? ?]|]; reflexivity. }
  assert (Hmin : forall r, keep3 B (edgeW3 2 v2 v0) = Some r ->
     (forall r', edgeW3 0 v0 v1 = Some r' -> fst r <= fst r') /\ (forall r', edgeW3 1 v1 v2 = Some r' -> fst r <= fst r') /\
     (forall r', edgeW3 2 v2 v0 = Some r' -> fst r <= fst r') /\
     (edgeW3 0 v0 v1 = Some r \/ edgeW3 1 v1 v2 = Some r \/ edgeW3 2 v2 v0 = Some r)).
  { intros r Hr. destruct (keep3_some _ _ _ Hr) as (H1 & H2 & H3). unfold B in *.
    split; [|split; [|split; [assumption|]]].
    - intros r' E. destruct (keep3 A (edgeW3 1 v1 v2)) as [s|] eqn:EB.
      + destruct (keep3_some _ _ _ EB) as (_ & G & _). specialize (G r'). rewrite HA in G. specialize (G E). specialize (H2 s eq_refl). lra.
      + apply keep3_none in EB. destruct EB as [EB _]. rewrite HA in EB. congruence.
    - intros r' E. destruct (keep3 A (edgeW3 1 v1 v2)) as [s|] eqn:EB.
      + destruct (keep3_some _ _ _ EB) as (_ & _ & G). specialize (G r' E). specialize (H2 s eq_refl). lra.
      + apply keep3_none in EB. destruct EB as [_ EB]. congruence.
    - destruct H1 as [H1|H1]; [|auto]. destruct (keep3_some _ _ _ H1) as (G & _ & _). rewrite HA in G. tauto. }
  destruct (keep3 B (edgeW3 2 v2 v0)) as [[d [[[a b] c] cp]]|] eqn:E.
  2:{ exfalso. apply keep3_none in E. destruct E as [E1 E2]. unfold B in E1. apply keep3_none in E1. destruct E1 as [E0 E1]. rewrite HA in E0.
      apply Hne. destruct (vec3_dec v0 v1) as [Z|NZ].
      - split; [assumption|]. destruct (vec3_dec v1 v2) as [Z'|NZ']; [assumption|].
        destruct (edgeW3_min 1 v1 v2 v1 NZ' (segment_left _ _)) as (r & Er & _). congruence.
      - destruct (edgeW3_min 0 v0 v1 v0 NZ (segment_left _ _)) as (r & Er & _). congruence. }
  destruct (Hmin _ eq_refl) as (M0 & M1 & M2 & Hin). clear Hmin. cbn [fst] in *.
  exists d, a, b, c, cp. split; [reflexivity|].
  assert (Hres : tri_res v0 v1 v2 (d, (a, b, c, cp)) /\ boundary v0 v1 v2 cp).
  { destruct Hin as [H|[H|H]]; [exact (edgeW3_res 0 v0 v1 v2 _ H)|exact (edgeW3_res 1 v0 v1 v2 _ H)|exact (edgeW3_res 2 v0 v1 v2 _ H)]. }
  destruct Hres as [Hres Hb]. split; [assumption|]. split; [assumption|].
  assert (G0 : v0 <> v1 -> forall x, segment v0 v1 x -> d <= norm x).
  { intros NE x Hx. destruct (edgeW3_min 0 _ _ _ NE Hx) as (r & Er & Hr). specialize (M0 r Er). lra. }
  assert (G1 : v1 <> v2 -> forall x, segment v1 v2 x -> d <= norm x).
  { intros NE x Hx. destruct (edgeW3_min 1 _ _ _ NE Hx) as (r & Er & Hr). specialize (M1 r Er). lra. }
  assert (G2 : v2 <> v0 -> forall x, segment v2 v0 x -> d <= norm x).
  { intros NE x Hx. destruct (edgeW3_min 2 _ _ _ NE Hx) as (r & Er & Hr). specialize (M2 r Er). lra. }
  intros x [H|[H|H]].
  - destruct (vec3_dec v0 v1) as [Z|NZ]; [|auto]. subst v1. apply segment_same in H. subst x.
    destruct (vec3_dec v0 v2) as [Z|NZ]; [exfalso; auto|]. apply G1; [assumption|apply segment_left].
  - destruct (vec3_dec v1 v2) as [Z|NZ]; [|auto]. subst v2. apply segment_same in H. subst x.
    destruct (vec3_dec v0 v1) as [Z|NZ]; [exfalso; auto|]. apply G0; [assumption|apply segment_right].
  - destruct (vec3_dec v2 v0) as [Z|NZ]; [|auto]. subst v2. apply segment_same in H. subst x.
    destruct (vec3_dec v0 v1) as [Z|NZ]; [exfalso; auto|]. apply G0; [assumption|apply segment_left].
Qed.
Lemma bestEdge_none v : bestEdge v v v = None.
Proof. unfold bestEdge, edgeW3. rewrite edge3_degenerate. reflexivity. Qed.

Lemma boundary_of_zero v0 v1 v2 c0 c1 c2 : weights3 c0 c1 c2 -> (c0 = 0 \/ c1 = 0 \/ c2 = 0) ->
  boundary v0 v1 v2 (comb3 c0 c1 c2 v0 v1 v2).
Proof.
  intros (H0 & H1 & H2 & HS) [Z|[Z|Z]]; subst.
  - right; left. exists c1, c2. split; [unfold weights2; repeat split; lra|cvring].
  - right; right. exists c2, c0. split; [unfold weights2; repeat split; lra|cvring].
  - left. exists c0, c1. split; [unfold weights2; repeat split; lra|cvring].
Qed.
Lemma boundary_in_triangle v0 v1 v2 x : boundary v0 v1 v2 x -> in_triangle v0 v1 v2 x.
Proof.
  intros [(a & b & (H0 & H1 & HS) & ->)|[(a & b & (H0 & H1 & HS) & ->)|(a & b & (H0 & H1 & HS) & ->)]].
  - exists a, b, 0. split; [unfold weights3; repeat split; lra|cvring].
  - exists 0, a, b. split; [unfold weights3; repeat split; lra|cvring].
  - exists b, 0, a. split; [unfold weights3; repeat split; lra|cvring].
Qed.

(** ** the projection of the origin on the plane of the triangle *)
Section Tri.
  Variables v0 v1 v2 : vec3.
  Let N := cross (vsub v1 v0) (vsub v2 v1).
  Let n := vscale (1 / norm N) N.
  Hypothesis HN : ~ negligible N.
  Let g := norm N.
  Lemma tri_gpos : 0 < g. Proof. apply nonneg_norm_pos; assumption. Qed.
  Lemma tri_nunit : dot n n = 1.
  Proof. apply norm_unit. apply (unit_scale N tri_gpos). Qed.
  Lemma tri_gn : N = vscale g n.
  Proof. symmetry. apply (unit_scale N tri_gpos). Qed.
  Lemma tri_orth1 : dot (vsub v1 v0) n = 0.
  Proof. unfold n, N; spec_unfold; ring. Qed.
  Lemma tri_orth2 : dot (vsub v2 v0) n = 0.
  Proof. unfold n, N; spec_unfold; ring. Qed.
  Let h := dot v0 n.
  Lemma tri_h1 : dot v1 n = h.
  Proof. pose proof tri_orth1 as H. unfold h. clearbody n. spec_unfold. lra. Qed.
  Lemma tri_h2 : dot v2 n = h.
  Proof. pose proof tri_orth2 as H. unfold h. clearbody n. spec_unfold. lra. Qed.
  Let q := vscale h n.
  (** barycentric coordinates of [q] *)
  Let W0 := dot n (cross (vsub v1 q) (vsub v2 q)) / g.
  Let W1 := dot n (cross (vsub v2 q) (vsub v0 q)) / g.
  Let W2 := dot n (cross (vsub v0 q) (vsub v1 q)) / g.
  Lemma tri_area : dot n (cross (vsub v1 q) (vsub v2 q)) + dot n (cross (vsub v2 q) (vsub v0 q)) + dot n (cross (vsub v0 q) (vsub v1 q)) = g.
  Proof.
    assert (E : dot n (cross (vsub v1 q) (vsub v2 q)) + dot n (cross (vsub v2 q) (vsub v0 q)) + dot n (cross (vsub v0 q) (vsub v1 q)) = dot n N).
    { unfold N. clearbody q n. clear. spec_unfold; ring. }
    rewrite E. rewrite tri_gn, dot_scale_r, tri_nunit. ring.
  Qed.
  Lemma tri_Wsum : W0 + W1 + W2 = 1.
  Proof.
    pose proof tri_gpos as Hg. pose proof tri_area as E. unfold W0, W1, W2.
    rewrite <- (Rinv_r g) by lra. rewrite <- E at 4. unfold Rdiv. ring.
  Qed.
  Lemma triple_id (m a b d : vec3) :
    vscale (dot m (cross a b)) d =
    vadd (vadd (vscale (dot m (cross d b)) a) (vscale (dot m (cross a d)) b)) (vscale (dot d (cross a b)) m).
  Proof. apply vec3_ext; spec_unfold; ring. Qed.
  Lemma tri_q_comb : comb3 W0 W1 W2 v0 v1 v2 = q.
  Proof.
    pose proof tri_gpos as Hg. pose proof tri_nunit as U. pose proof tri_h1 as H1. pose proof tri_h2 as H2.
    assert (Hd : dot (vsub q v0) N = 0).
    { rewrite tri_gn. rewrite dot_scale_r, dot_sub_l. unfold q. rewrite dot_scale_l, U. unfold h. ring. }
    pose proof (triple_id n (vsub v1 v0) (vsub v2 v0) (vsub q v0)) as T.
    assert (EN : cross (vsub v1 v0) (vsub v2 v0) = N) by (unfold N; vring).
    rewrite EN, Hd in T.
    assert (Eg : dot n N = g). { rewrite tri_gn, dot_scale_r, U. ring. }
    rewrite Eg in T.
    assert (E1 : dot n (cross (vsub q v0) (vsub v2 v0)) = W1 * g).
    { unfold W1. replace (dot n (cross (vsub v2 q) (vsub v0 q)) / g * g) with (dot n (cross (vsub v2 q) (vsub v0 q))) by (field; lra).
      clearbody q n. clear. spec_unfold; ring. }
    assert (E2 : dot n (cross (vsub v1 v0) (vsub q v0)) = W2 * g).
    { unfold W2. replace (dot n (cross (vsub v0 q) (vsub v1 q)) / g * g) with (dot n (cross (vsub v0 q) (vsub v1 q))) by (field; lra).
      clearbody q n. clear. spec_unfold; ring. }
    rewrite E1, E2 in T.
    pose proof tri_Wsum as HS. clearbody W0 W1 W2 q g n. clear - T HS Hg.
    assert (E0 : W0 = 1 - W1 - W2) by lra. subst W0.
    destruct q as [qx' qy' qz'], v0 as [a0 b0 c0], v1 as [a1 b1 c1], v2 as [a2 b2 c2], n as [n0 n1 n2].
    unfold comb3, comb2. spec_unfold. injection T; intros Tz Ty Tx.
    apply vec3_ext; pcbn; apply (Rmult_eq_reg_l g); try lra.
  Qed.
  Lemma tri_plane s0 s1 s2 : s0 + s1 + s2 = 1 -> dot (comb3 s0 s1 s2 v0 v1 v2) n = h.
  Proof.
    intros HS. unfold comb3, comb2. rewrite !dot_add_l, !dot_scale_l, tri_h1, tri_h2. fold h. replace s0 with (1 - s1 - s2) by lra. ring.
  Qed.
  Lemma tri_q_norm : dot q q = h * h.
  Proof. unfold q. rewrite dot_scale_r, dot_scale_l, tri_nunit. ring. Qed.
  Lemma tri_q_dot s0 s1 s2 : s0 + s1 + s2 = 1 -> dot q (comb3 s0 s1 s2 v0 v1 v2) = h * h.
  Proof. intros HS. unfold q. rewrite dot_scale_l, dot_comm, (tri_plane s0 s1 s2 HS). ring. Qed.
  Lemma tri_proj_d : (dot (vsub v3zero v0) n + dot (vsub v3zero v1) n + dot (vsub v3zero v2) n) / 3 = - h.
  Proof.
    pose proof tri_h1 as H1. pose proof tri_h2 as H2. unfold h in *. clearbody n. clear - H1 H2. spec_unfold. lra.
  Qed.
  (** one edge test *)
  Lemma projEdgeOut_sign m p va vb : projEdgeOut m p va vb = true <-> dot m (cross (vsub p va) (vsub vb va)) > 0.
  Proof.
    unfold projEdgeOut. zvg. change (zVec3DSub p va) with (vsub p va). rewrite Rltb_true. set (w := cross (vsub vb va) m).
    assert (E : dot w (vsub p va) = dot m (cross (vsub p va) (vsub vb va))) by (unfold w; clear; spec_unfold; ring).
    rewrite <- E. destruct (zVec3DIsTiny w) eqn:T.
    - unfold zVec3DNormalizeDRC, zVec3DNormalize. rewrite T. cbn [snd]. split; intros; lra.
    - apply zVec3DIsTiny_false in T. rewrite (normalizeDRC_ok w T). pose proof (nonneg_norm_pos w T) as Pw.
      assert (E2 : dot (vscale (1 / norm w) w) (vsub p va) = 1 / norm w * dot w (vsub p va)) by (clearbody w; clear; spec_unfold; ring).
      rewrite E2. assert (0 < 1 / norm w) by (apply Rdiv_lt_0_compat; lra).
      split; intros H'; [|apply Rmult_lt_0_compat; lra].
      set (k := 1 / norm w) in *. set (z := dot w (vsub p va)) in *. clearbody k z. destruct (Rle_dec z 0); [|lra]. nra.
  Qed.
  Lemma tri_create : zTri3DCreate v0 v1 v2 = (true, T3 v0 v1 v2 n).
  Proof.
    unfold zTri3DCreate, triOuterProd. zvg. fold N.
    rewrite (proj2 (zVec3DIsTiny_false N) HN). rewrite (normalizeDRC_ok N HN). reflexivity.
  Qed.
  Lemma tri_proj : snd (zTri3DProjPoint (T3 v0 v1 v2 n) v3zero) = q.
  Proof.
    unfold zTri3DProjPoint, zTri3DDistFromPointToPlane. cbn [snd tv0 tv1 tv2 tnorm]. zvg. rewrite tri_proj_d. unfold q. vring.
  Qed.
  Lemma tri_inside_w : fst (triProjIsInside (T3 v0 v1 v2 n) v3zero) = true <-> 0 <= W0 /\ 0 <= W1 /\ 0 <= W2.
  Proof.
    unfold triProjIsInside. rewrite tri_proj. cbn [fst tv0 tv1 tv2 tnorm].
    pose proof tri_gpos as Hg.
    assert (D : forall a va vb, a = dot n (cross (vsub va q) (vsub vb q)) / g -> (projEdgeOut n q va vb = true <-> a < 0)).
    { intros a va vb ->. rewrite projEdgeOut_sign.
      assert (E : dot n (cross (vsub q va) (vsub vb va)) = - (dot n (cross (vsub va q) (vsub vb q)) / g) * g).
      { replace (- (dot n (cross (vsub va q) (vsub vb q)) / g) * g) with (- dot n (cross (vsub va q) (vsub vb q))) by (field; lra).
        clearbody q n. clear. spec_unfold; ring. }
      rewrite E. set (u := dot n (cross (vsub va q) (vsub vb q)) / g). clearbody u g. clear - Hg. split; intros; nra. }
    pose proof (D W2 v0 v1 eq_refl) as D2. pose proof (D W0 v1 v2 eq_refl) as D0. pose proof (D W1 v2 v0 eq_refl) as D1.
    clearbody W0 W1 W2.
    destruct (projEdgeOut n q v0 v1); [split; [discriminate|]; intros; exfalso; assert (W2 < 0) by (apply D2; reflexivity); lra|].
    destruct (projEdgeOut n q v1 v2); [split; [discriminate|]; intros; exfalso; assert (W0 < 0) by (apply D0; reflexivity); lra|].
    destruct (projEdgeOut n q v2 v0); [split; [discriminate|]; intros; exfalso; assert (W1 < 0) by (apply D1; reflexivity); lra|].
    split; [intros _|reflexivity].
    assert (~ W0 < 0) by (intros HH; apply D0 in HH; discriminate). assert (~ W1 < 0) by (intros HH; apply D1 in HH; discriminate).
    assert (~ W2 < 0) by (intros HH; apply D2 in HH; discriminate). lra.
  Qed.
  Lemma tri_notall : ~ (v0 = v1 /\ v1 = v2).
  Proof. intros [E1 E2]. apply HN. unfold N. rewrite E1. replace (cross (vsub v1 v1) (vsub v2 v1)) with v3zero by vring. apply zero_negligible. Qed.

  Lemma tri3_ok : exists r, zTri3DClosestFromOrigin v0 v1 v2 = Some r /\ tri_res v0 v1 v2 r /\
     forall x, in_triangle v0 v1 v2 x -> fst r <= norm x.
  Proof.
    unfold zTri3DClosestFromOrigin. rewrite tri_create. cbv beta iota zeta.
    destruct (triProjIsInside (T3 v0 v1 v2 n) v3zero) as [ins cp] eqn:EI.
    assert (Ecp : cp = q). { change cp with (snd (ins, cp)). rewrite <- EI. unfold triProjIsInside. cbn [snd]. apply tri_proj. }
    subst cp. pose proof tri_inside_w as HI. rewrite EI in HI. cbn [fst] in HI.
    pose proof tri_gpos as Hg. pose proof tri_nunit as U.
    destruct ins; cbn [andb tnorm].
    - destruct (proj1 HI eq_refl) as (P0 & P1 & P2).
      assert (Hn1 : norm n = 1) by (apply norm_unit; assumption).
      destruct (orthospace_spec n) as (t1 & t2 & Ets & Ht1 & Ht2 & Ho1 & Ho2 & Ho12 & Hc12).
      { rewrite Hn1. pose proof zTOL_small. lra. }
      rewrite Ets.
      assert (Ec : forall a b, zVec2DOuterProd (V2 (zVec3DInnerProd t1 (zVec3DSub a q)) (zVec3DInnerProd t2 (zVec3DSub a q)))
                       (V2 (zVec3DInnerProd t1 (zVec3DSub b q)) (zVec3DInnerProd t2 (zVec3DSub b q))) = dot n (cross (vsub a q) (vsub b q))).
      { intros a b. assert (E12 : cross t1 t2 = n).
        { rewrite <- Hc12. assert (EE : cross t1 (cross n t1) = vsub (vscale (dot t1 t1) n) (vscale (dot n t1) t1)) by (clearbody n; clear; vring).
          rewrite EE. rewrite Ho1. apply norm_unit in Ht1. rewrite Ht1. clearbody n; clear; vring. }
        rewrite <- E12. zvg. unfold cross2. pcbn. clearbody q. clear. spec_unfold; ring. }
      rewrite !Ec.
      assert (Ei : 1 / (dot n (cross (vsub v1 q) (vsub v2 q)) + dot n (cross (vsub v2 q) (vsub v0 q)) + dot n (cross (vsub v0 q) (vsub v1 q))) = 1 / g)
        by (rewrite tri_area; reflexivity).
      rewrite Ei. eexists; split; [reflexivity|].
      assert (EW0 : dot n (cross (vsub v1 q) (vsub v2 q)) * (1 / g) = W0) by (unfold W0; field; lra).
      assert (EW1 : dot n (cross (vsub v2 q) (vsub v0 q)) * (1 / g) = W1) by (unfold W1; field; lra).
      assert (EW2 : dot n (cross (vsub v0 q) (vsub v1 q)) * (1 / g) = W2) by (unfold W2; field; lra).
      rewrite EW0, EW1, EW2. split.
      + split; [unfold weights3; repeat split; auto; apply tri_Wsum|]. split; [symmetry; apply tri_q_comb|reflexivity].
      + intros x (s0 & s1 & s2 & (_ & _ & _ & HS) & ->). cbn [fst]. zvg. apply norm_le_of_sqr. rewrite tri_q_norm.
        pose proof (cauchy n (comb3 s0 s1 s2 v0 v1 v2)) as C. rewrite U in C. rewrite dot_comm, (tri_plane s0 s1 s2 HS) in C. lra.
    - fold (bestEdge v0 v1 v2).
      destruct (bestEdge_ok v0 v1 v2 tri_notall) as (d & a & b & c & cp & E & Hr & Hb & Hm).
      exists (d, (a, b, c, cp)). split; [exact E|]. split; [exact Hr|]. cbn [fst].
      intros x (s0 & s1 & s2 & Hw & ->).
      assert (Hneg : W0 < 0 \/ W1 < 0 \/ W2 < 0).
      { destruct (Rlt_dec W0 0); [auto|]. destruct (Rlt_dec W1 0); [auto|]. destruct (Rlt_dec W2 0); [auto|].
        exfalso. assert (false = true) by (apply HI; lra). discriminate. }
      destruct (shrink3 s0 s1 s2 W0 W1 W2 Hw tri_Wsum Hneg) as (k & c0 & c1 & c2 & Hk & Hcw & E0 & E1 & E2 & Hz).
      assert (By : boundary v0 v1 v2 (comb3 c0 c1 c2 v0 v1 v2)) by (apply boundary_of_zero; [assumption|tauto]).
      eapply Rle_trans; [apply Hm; exact By|]. apply norm_le_of_sqr.
      destruct Hw as (_ & _ & _ & HS). set (x := comb3 s0 s1 s2 v0 v1 v2).
      assert (Ey : comb3 c0 c1 c2 v0 v1 v2 = vadd (vscale (1 - k) x) (vscale k q)).
      { rewrite <- tri_q_comb. unfold x. rewrite E0, E1, E2. clearbody W0 W1 W2. clear. cvring. }
      rewrite Ey. pose proof (tri_q_dot s0 s1 s2 HS) as Q1. fold x in Q1. pose proof tri_q_norm as Q2.
      assert (Q3 : h * h <= dot x x).
      { pose proof (cauchy n x) as C. rewrite U in C. rewrite dot_comm in C. unfold x in C. rewrite (tri_plane s0 s1 s2 HS) in C. fold x in C. lra. }
      assert (Ed : dot (vadd (vscale (1 - k) x) (vscale k q)) (vadd (vscale (1 - k) x) (vscale k q)) =
         (1 - k) * (1 - k) * dot x x + 2 * k * (1 - k) * dot q x + k * k * dot q q) by (clearbody x q; clear; spec_unfold; ring).
      rewrite Ed, Q1, Q2. clearbody h. set (X := dot x x) in *. clearbody X. clear - Q3 Hk.
      assert (E : X - ((1 - k) * (1 - k) * X + 2 * k * (1 - k) * (h * h) + k * k * (h * h)) = k * (2 - k) * (X - h * h)) by ring.
      assert (0 <= k * (2 - k) * (X - h * h)) by (apply Rmult_le_pos; [apply Rmult_le_pos; lra|lra]). lra.
  Qed.
End Tri.

(** ** exactly collinear triangles, slivers *)
Lemma tri3_boundary v0 v1 v2 : negligible (cross (vsub v1 v0) (vsub v2 v1)) ->
  zTri3DClosestFromOrigin v0 v1 v2 = bestEdge v0 v1 v2.
Proof.
  intros H. unfold zTri3DClosestFromOrigin, zTri3DCreate, triOuterProd. zvg.
  rewrite (proj2 (zVec3DIsTiny_true _) H). destruct (triProjIsInside _ _) as [i cp]. reflexivity.
Qed.
Lemma collinear_dep v0 v1 v2 : collinear v0 v1 v2 -> v0 <> v1 -> exists k, v2 = vadd (vscale (1 - k) v0) (vscale k v1).
Proof.
  intros H NE. unfold collinear in H. pose proof (gram3 _ _ NE) as G.
  set (e := vsub v1 v0) in *. set (w := vsub v2 v1) in *.
  assert (Ge : 0 < dot e e). { unfold e. replace (dot (vsub v1 v0) (vsub v1 v0)) with (dot v0 v0 - 2 * dot v0 v1 + dot v1 v1) by (spec_unfold; ring). assumption. }
  exists (1 + dot e w / dot e e).
  assert (Ew : w = vscale (dot e w / dot e e) e).
  { assert (T : vscale (dot e e) w = vscale (dot e w) e).
    { assert (T : vsub (vscale (dot e e) w) (vscale (dot e w) e) = cross (cross e w) e) by vring.
      rewrite H in T. assert (T2 : cross v3zero e = v3zero) by vring. rewrite T2 in T.
      replace (vscale (dot e e) w) with (vadd (vsub (vscale (dot e e) w) (vscale (dot e w) e)) (vscale (dot e w) e)) by vring.
      rewrite T. vring. }
    set (a := dot e e) in *. set (b := dot e w) in *. clearbody a b.
    assert (T' : vscale (1 / a) (vscale a w) = vscale (1 / a) (vscale b e)) by (rewrite T; reflexivity).
    assert (L : vscale (1 / a) (vscale a w) = w) by (apply vec3_ext; spec_unfold; field; lra).
    rewrite L in T'. rewrite T' at 1. apply vec3_ext; spec_unfold; field; lra. }
  set (k := dot e w / dot e e) in *. clearbody k.
  assert (E2 : v2 = vadd v1 w) by (unfold w; vring). rewrite E2, Ew. unfold e. vring.
Qed.
Lemma collinear_boundary v0 v1 v2 x : collinear v0 v1 v2 -> in_triangle v0 v1 v2 x -> boundary v0 v1 v2 x.
Proof.
  intros HC (t0 & t1 & t2 & Hw & ->). destruct (vec3_dec v0 v1) as [E|NE].
  { subst v1. right; right. destruct Hw as (H0 & H1 & H2 & HS). exists t2, (t0 + t1). split; [unfold weights2; repeat split; lra|cvring]. }
  destruct (collinear_dep _ _ _ HC NE) as [k Ek].
  (* v2 - (1-k) v0 - k v1 = 0: move along this relation until a weight vanishes *)
  assert (HW : exists w0 w1 w2, w0 + w1 + w2 = 1 /\ (w0 < 0 \/ w1 < 0 \/ w2 < 0) /\ comb3 w0 w1 w2 v0 v1 v2 = comb3 t0 t1 t2 v0 v1 v2).
  { destruct Hw as (H0 & H1 & H2 & HS). exists (t0 + (1 - k) * (t2 + 1)), (t1 + k * (t2 + 1)), (- 1).
    split; [lra|]. split; [right; right; lra|]. rewrite Ek. cvring. }
  destruct HW as (w0 & w1 & w2 & HS & Hneg & Heq).
  destruct (shrink3 t0 t1 t2 w0 w1 w2 Hw HS Hneg) as (l & c0 & c1 & c2 & Hl & Hcw & E0 & E1 & E2 & Hz).
  assert (Ex : comb3 t0 t1 t2 v0 v1 v2 = comb3 c0 c1 c2 v0 v1 v2).
  { replace (comb3 c0 c1 c2 v0 v1 v2) with (vadd (vscale (1 - l) (comb3 t0 t1 t2 v0 v1 v2)) (vscale l (comb3 w0 w1 w2 v0 v1 v2)))
      by (rewrite E0, E1, E2; cvring).
    rewrite Heq. vring. }
  rewrite Ex. apply boundary_of_zero; [assumption|tauto].
Qed.
Lemma tri3_flat v0 v1 v2 : collinear v0 v1 v2 -> ~ (v0 = v1 /\ v1 = v2) ->
  exists r, zTri3DClosestFromOrigin v0 v1 v2 = Some r /\ tri_res v0 v1 v2 r /\
     forall x, in_triangle v0 v1 v2 x -> fst r <= norm x.
Proof.
  intros HC NE. rewrite tri3_boundary by (unfold collinear in HC; rewrite HC; apply zero_negligible).
  destruct (bestEdge_ok v0 v1 v2 NE) as (d & a & b & c & cp & E & Hr & Hb & Hm).
  eexists; split; [exact E|]. split; [exact Hr|]. intros x Hx. cbn [fst]. apply Hm. apply collinear_boundary; assumption.
Qed.
