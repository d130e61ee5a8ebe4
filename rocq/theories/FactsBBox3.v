(** The oriented bounding box: the whole function *)
From Verif Require Import Base Spec SpecGeom SpecHull SpecMesh SpecBBox ModelVec ModelElem ModelFrame ModelBox ModelPH ModelHull ModelBBox FactsVec FactsAlg FactsElem FactsSat FactsHull FactsHull2 FactsHull3 FactsHull4 FactsHull5 FactsHull6 FactsHull7 FactsHull8 FactsLine FactsCentre FactsPH2 FactsPH4 FactsObb FactsBBox FactsBBox2.
From Coq Require Import List Lia Lra ZArith.
Import ListNotations.
Open Scope R_scope.

Lemma abs_le_inv x r : Rabs x <= r -> - r <= x <= r.
Proof. unfold Rabs. destruct (Rcase_abs x); lra. Qed.
Lemma hull_band d k r L q : convex_hull L q -> (forall x, List.In x L -> Rabs (dot d x - k) <= r) -> Rabs (dot d q - k) <= r.
Proof.
  intros H B. induction H as [p I|a b p _ IA _ IB (s & t & (W & W1 & W2) & ->)]; [apply B, I|]. unfold comb2.
  replace (dot d (vadd (vscale s a) (vscale t b)) - k) with (s * (dot d a - k) + t * (dot d b - k) + (s + t - 1) * k) by (spec_unfold; ring).
  apply Rabs_le. apply abs_le_inv in IA, IB. replace (s + t - 1) with 0 by lra. nra.
Qed.
Lemma hull_dot d L q r : convex_hull L q -> (forall x, List.In x L -> dot d x <= r) -> dot d q <= r.
Proof.
  intros H B. induction H as [p I|a b p _ IA _ IB (s & t & (W & W1 & W2) & ->)]; [apply B, I|]. unfold comb2.
  replace (dot d (vadd (vscale s a) (vscale t b))) with (s * dot d a + t * dot d b) by (spec_unfold; ring). nra.
Qed.
Lemma extent_hull d L l w : incl L l -> (forall q, List.In q l -> convex_hull L q) -> extent d L w -> extent d l w.
Proof.
  intros I H (p & q & Ip & Iq & E & M). exists p, q. split; [apply I, Ip|]. split; [apply I, Iq|]. split; [exact E|]. intros x y X Y.
  assert (A : dot d x <= dot d p). { apply (hull_dot d L x); [apply H, X|]. intros z Z. specialize (M z q Z Iq). rewrite E, !dsub in M. lra. }
  assert (B : dot (vneg d) y <= dot (vneg d) q). { apply (hull_dot (vneg d) L y); [apply H, Y|]. intros z Z. specialize (M p z Ip Z). rewrite E, !dsub in M. unfold vneg. spec_unfold. lra. }
  rewrite E, !dsub. unfold vneg in B. spec_unfold. lra.
Qed.
Lemma extent_hull_back d L l w : L <> [] -> incl L l -> (forall q, List.In q l -> convex_hull L q) -> extent d l w -> extent d L w.
Proof. intros N I H X. destruct (extent_ex d L N) as (w' & X'). rewrite (extent_unique d l w w'); [exact X'|exact X|]. apply (extent_hull d L l w' I H X'). Qed.
Lemma dot_across n d v : dot n d = 0 -> dot d (across n v) = dot d v.
Proof. intros H. unfold across. rewrite dsub. replace (dot d (vscale (dot n v) n)) with (dot n v * dot n d) by (generalize (dot n v); intros; spec_unfold; ring). rewrite H. ring. Qed.
Lemma extent_shadows o n d l w : dot n d = 0 -> extent d (shadows o n l) w <-> extent d l w.
Proof.
  intros H. assert (X : forall x y, dot d (vsub (across n (vsub x o)) (across n (vsub y o))) = dot d (vsub x y)) by (intros; rewrite dsub, !(dot_across n d) by exact H; spec_unfold; ring). split.
  - intros (p & q & I & J & E & M). unfold shadows in *. apply in_map_iff in I, J. destruct I as (p' & <- & I). destruct J as (q' & <- & J). exists p', q'. split; [exact I|]. split; [exact J|]. split; [rewrite E; apply X|].
    intros x y Ix Iy. rewrite <- X. apply M; apply in_map_iff; [exists x|exists y]; auto.
  - intros (p & q & I & J & E & M). exists (across n (vsub p o)), (across n (vsub q o)). split; [apply in_map_iff; exists p; auto|]. split; [apply in_map_iff; exists q; auto|]. split; [rewrite X; exact E|].
    intros x y Ix Iy. unfold shadows in *. apply in_map_iff in Ix, Iy. destruct Ix as (x' & <- & Ix). destruct Iy as (y' & <- & Iy). rewrite X. apply M; assumption.
Qed.
Lemma across_flat n v : dot n n = 1 -> dot n (across n v) = 0.
Proof. intros H. unfold across. rewrite dsub. replace (dot n (vscale (dot n v) n)) with (dot n v * dot n n) by (generalize (dot n v); intros; spec_unfold; ring). rewrite H. ring. Qed.
Definition beneath (ch : ph3) : Prop := forall v t, List.In v (pverts ch) -> List.In t (solid_tris ch) -> height t v <= 0.
Definition normals (ch : ph3) : list vec3 := map tnorm (solid_tris ch).
(** hull loops of the shadows can be told apart by the tolerance *)
Definition clear_shadows (o n : vec3) (l : list vec3) : Prop := forall s0 s1, zConvexHull2DBase (shadows o n l) = Some (s0, s1) -> parted s0 s1 (shadows o n l) /\ spaced (shadows o n l).

(** the rectangle *)
Lemma max_dir sort ch h n v0 c pl : sorts sort -> dot n n = 1 -> c = vadd v0 (vscale (- (1 / 2) * h) n) -> pl = P3 c n -> 0 <= h ->
  (forall v, List.In v (pverts ch) -> - h <= dot n (vsub v v0) <= 0) -> clear_shadows v0 n (pverts ch) ->
  (zConvexHull2DBase (shadows v0 n (pverts ch)) = None /\ zOBB3DMaxDir sort ch h n c pl = Some None) \/
  exists b, zOBB3DMaxDir sort ch h n c pl = Some (Some b) /\ good_box b /\ zBox3DAxis b 2 = n /\ vz (bspan b) = h /\ cross (zBox3DAxis b 0) (zBox3DAxis b 1) = n /\
    (forall v, List.In v (pverts ch) -> in_obb b v) /\ extent (zBox3DAxis b 0) (pverts ch) (vx (bspan b)) /\ extent (zBox3DAxis b 1) (pverts ch) (vy (bspan b)) /\
    (forall e we wf, dot e e = 1 -> dot n e = 0 -> extent e (pverts ch) we -> extent (cross n e) (pverts ch) wf -> vx (bspan b) * vy (bspan b) <= we * wf) /\
    (exists p q k, List.In p (pverts ch) /\ List.In q (pverts ch) /\ 0 < k /\ across n (vsub q p) = vscale k (zBox3DAxis b 0) /\
       ((forall x, List.In x (pverts ch) -> 0 <= dot (zBox3DAxis b 1) (vsub x p)) \/ (forall x, List.In x (pverts ch) -> dot (zBox3DAxis b 1) (vsub x p) <= 0))).
Proof.
  intros ST Un EC -> Ph Bh CS. unfold zOBB3DMaxDir.
  assert (EM : map (fun v => zVec3DSub (snd (zPlane3DProjPoint (P3 c n) v)) c) (pverts ch) = shadows v0 n (pverts ch)).
  { apply map_ext. intros v. unfold zPlane3DProjPoint, zPlane3DDistFromPoint. cbn [snd porg pnorm]. zvg.
    assert (X : dot (vsub v c) n = dot n (vsub v v0) + 1 / 2 * h) by (rewrite EC; replace (dot (vsub v (vadd v0 (vscale (- (1 / 2) * h) n))) n) with (dot n (vsub v v0) + 1 / 2 * h * dot n n) by (spec_unfold; ring); rewrite Un; ring).
    rewrite X, EC. unfold across. generalize (dot n (vsub v v0)). intros r. vring. }
  rewrite EM. set (l := shadows v0 n (pverts ch)) in *. destruct (zConvexHull2DBase l) as [[s0 s1]|] eqn:EB.
  2: { left. split; [reflexivity|]. destruct (hull_none sort l EB) as (-> & _). reflexivity. }
  right. destruct (CS s0 s1 EB) as (PT & SP). fold l in PT, SP.
  assert (Fl : forall p, List.In p l -> dot n p = 0) by (intros p I; unfold l, shadows in I; apply in_map_iff in I; destruct I as (v & <- & _); apply across_flat, Un).
  destruct (hull_right sort l v3zero n s0 s1 ST) as (L & m & EL & IL & CL & _ & HL); [|exact EB|exact PT|].
  { split; [apply (unit_nz n Un)|]. intros p I. specialize (Fl p I). rewrite dsub, Fl. unfold v3zero. spec_unfold. cbn. ring. }
  rewrite EL. assert (NL : L <> []) by (intros ->; destruct CL as (H3 & _); cbn in H3; lia).
  assert (FL : forall p q, List.In p L -> List.In q L -> dot n (vsub p q) = 0) by (intros p q P Q; rewrite dsub, (Fl p (IL p P)), (Fl q (IL q Q)); ring).
  assert (US : Forall (usable n) (obb_pairs (last L v3zero) L)).
  { apply Forall_forall. intros [v w] I. apply (pairs_edges L NL) in I. destruct (loop_edge_in _ _ _ I) as (Iw & Iv). split; cbn [fst snd]; [apply FL; assumption|].
    destruct (SP w v (IL w Iw) (IL v Iv)) as [E|E]; [|exact E]. exfalso. apply (edge_distinct v3zero m L CL w v I E). }
  pose proof (turn_fold n L Un NL (obb_pairs (last L v3zero) L) [] None eq_refl US) as CH. cbn [app] in CH.
  destruct (fold_left (obb_turn n L) (obb_pairs (last L v3zero) L) None) as [[[[[[area e1] e2] dc] w1] w2]|].
  2: { exfalso. cbn in CH. destruct L as [|x L']; [contradiction|]. discriminate CH. }
  destruct CH as (v & w & k1 & k2 & IP & E1 & E2 & _ & X1 & X2 & Edc & BD & MIN). apply (pairs_edges L NL) in IP. destruct (loop_edge_in _ _ _ IP) as (Iw & Iv).
  assert (USE : dot n (vsub w v) = 0 /\ 2 * zTOL <= norm (vsub w v)).
  { rewrite Forall_forall in US. apply (US (v, w)). apply (pairs_edges L NL), IP. }
  destruct USE as (O & G). pose proof zTOL_pos as ZP. destruct (unit_frame n Un (vsub w v) O ltac:(lra)) as (A1 & A2 & A3 & A4 & A5 & A6). cbv zeta in *. rewrite <- E1 in *. rewrite <- E2 in *.
  set (b := BX (F3 (zVec3DAdd c dc) (cols3 e1 e2 n)) (V3 w1 w2 h)). exists b. split; [reflexivity|].
  assert (ISO : isometry (cols3 e1 e2 n)) by (apply iso_cols; try assumption; rewrite dot_comm; assumption).
  assert (AX0 : zBox3DAxis b 0 = e1) by (destruct e1; reflexivity). assert (AX1 : zBox3DAxis b 1 = e2) by (destruct e2; reflexivity). assert (AX2 : zBox3DAxis b 2 = n) by (destruct n; reflexivity).
  assert (GB : good_box b). { split; [exact ISO|]. cbn [bspan b vx vy vz]. split; [apply (extent_nonneg _ _ _ X1)|]. split; [apply (extent_nonneg _ _ _ X2)|exact Ph]. }
  split; [exact GB|]. split; [exact AX2|]. split; [reflexivity|]. split; [rewrite AX0, AX1, E2; transitivity (vsub (vscale (dot e1 e1) n) (vscale (dot n e1) e1)); [vring|rewrite A1, A2; vring]|].
  assert (XL1 : extent e1 (pverts ch) w1) by (apply (extent_shadows v0 n e1 _ _ A2); apply (extent_hull e1 L l w1 IL HL X1)).
  assert (XL2 : extent e2 (pverts ch) w2) by (apply (extent_shadows v0 n e2 _ _ A5); apply (extent_hull e2 L l w2 IL HL X2)).
  split; [|split; [rewrite AX0; exact XL1|split; [rewrite AX1; exact XL2|split]]].
  - intros x Ix. apply (obb_local b x ISO). cbv zeta. assert (HS : convex_hull L (across n (vsub x v0))) by (apply HL; unfold l, shadows; apply in_map_iff; exists x; auto).
    pose proof (hull_band e1 k1 (w1 / 2) L _ HS (fun z Z => proj1 (BD z Z))) as B1. pose proof (hull_band e2 k2 (w2 / 2) L _ HS (fun z Z => proj2 (BD z Z))) as B2.
    rewrite (dot_across n e1 _ A2) in B1. rewrite (dot_across n e2 _ A5) in B2. specialize (Bh x Ix).
    assert (U : zXform3DInv (bframe b) x = V3 (dot e1 (vsub x v0) - k1) (dot e2 (vsub x v0) - k2) (dot n (vsub x v0) + 1 / 2 * h)).
    { assert (U0 : zXform3DInv (bframe b) x = V3 (dot e1 (vsub x (vadd c dc))) (dot e2 (vsub x (vadd c dc))) (dot n (vsub x (vadd c dc)))) by (unfold b; cbn [bframe]; clear; unfold zXform3DInv, cols3; cbn; unfold zMulMat3DTVec3D; zvg; apply vec3_ext; spec_unfold; cbn; ring).
      rewrite U0, EC, Edc. assert (DX : forall d, dot d (vsub x (vadd (vadd v0 (vscale (- (1 / 2) * h) n)) (vadd (vscale k1 e1) (vscale k2 e2)))) = dot d (vsub x v0) + 1 / 2 * h * dot d n - k1 * dot d e1 - k2 * dot d e2) by (intros d; spec_unfold; ring).
      rewrite !DX, A1, A3, A4, (dot_comm e2 e1), A4, (dot_comm e1 n), A2, (dot_comm e2 n), A5, Un. f_equal; ring. }
    rewrite U. cbn [bspan b vx vy vz]. split; [exact B1|]. split; [exact B2|]. apply Rabs_le. lra.
  - intros e we wf Ue Ne Xe Xf. cbn [bspan b vx vy]. assert (Nf : dot n (cross n e) = 0) by (spec_unfold; ring).
    apply (extent_shadows v0 n e _ _ Ne) in Xe. apply (extent_shadows v0 n _ _ _ Nf) in Xf. fold l in Xe, Xf. apply (extent_hull_back e L l we NL IL HL) in Xe. apply (extent_hull_back _ L l wf NL IL HL) in Xf.
    destruct (calipers n v3zero m L Un FL CL e Ue Ne we wf Xe Xf) as (a' & b' & J & CAL). destruct (loop_edge_in _ _ _ J) as (Ia & Ib).
    assert (IJ : List.In (b', a') (obb_pairs (last L v3zero) L)) by (apply (pairs_edges L NL), J).
    destruct (extent_ex (unit_of (vsub a' b')) L NL) as (wa & Xa). destruct (extent_ex (cross n (unit_of (vsub a' b'))) L NL) as (wb & Xb).
    pose proof (MIN b' a' wa wb IJ Xa Xb) as MM. rewrite Forall_forall in US. destruct (US _ IJ) as (O' & G'). cbn [fst snd] in *. set (u := vsub a' b') in *.
    destruct (unit_frame n Un u O' ltac:(lra)) as (_ & _ & _ & _ & _ & C6). cbv zeta in C6.
    assert (UB : vsub b' a' = vscale (- norm u) (unit_of u)) by (transitivity (vscale (-1) (vscale (norm u) (unit_of u))); [rewrite C6; unfold u; vring|vring]).
    assert (Y1 : extent (vsub b' a') L (norm u * wa)) by (rewrite UB; replace (norm u) with (Rabs (- norm u)) at 2 by (rewrite Rabs_Ropp; apply Rabs_pos_eq; lra); apply extent_scale, Xa).
    assert (Y2 : extent (cross n (vsub b' a')) L (norm u * wb)).
    { replace (cross n (vsub b' a')) with (vscale (- norm u) (cross n (unit_of u))) by (rewrite UB; vring). replace (norm u) with (Rabs (- norm u)) at 2 by (rewrite Rabs_Ropp; apply Rabs_pos_eq; lra). apply extent_scale, Xb. }
    specialize (CAL _ _ Y1 Y2). replace (dot (vsub b' a') (vsub b' a')) with (dot u u) in CAL by (unfold u; spec_unfold; ring). rewrite <- norm_sqr in CAL.
    assert (P2 : 0 < norm u * norm u) by nra. apply Rle_trans with (1 := MM). apply (Rmult_le_reg_l (norm u * norm u)); [exact P2|]. nra.
  - assert (Qv : exists v', List.In v' (pverts ch) /\ across n (vsub v' v0) = v) by (pose proof (IL v Iv) as I; unfold l, shadows in I; apply in_map_iff in I; destruct I as (v' & E & I); exists v'; auto).
    assert (Qw : exists w', List.In w' (pverts ch) /\ across n (vsub w' v0) = w) by (pose proof (IL w Iw) as I; unfold l, shadows in I; apply in_map_iff in I; destruct I as (v' & E & I); exists v'; auto).
    destruct Qv as (p & Ip & Ep). destruct Qw as (q & Iq & Eq). exists p, q, (norm (vsub w v)). split; [exact Ip|]. split; [exact Iq|]. split; [lra|]. split.
    + rewrite AX0, A6, <- Ep, <- Eq. unfold across. replace (dot n (vsub q p)) with (dot n (vsub q v0) - dot n (vsub p v0)) by (spec_unfold; ring). generalize (dot n (vsub q v0)), (dot n (vsub p v0)). intros. vring.
    + destruct (normal_along n v3zero m L Un FL CL) as (k & Kz & Em). destruct CL as (_ & _ & ED & _). rewrite AX1.
      assert (SD : forall x, List.In x L -> k * dot e2 (vsub x v) <= 0).
      { intros x Ix. pose proof (ED w v x IP Ix) as Q. rewrite Em in Q.
        assert (T : dot (vscale k n) (cross (vsub v w) (vsub x w)) = - (norm (vsub w v) * (k * dot e2 (vsub x v)))).
        { transitivity (- (k * dot (cross n (vsub w v)) (vsub x v))); [spec_unfold; ring|]. rewrite <- A6 at 1. rewrite E2. generalize (norm (vsub w v)). intros. spec_unfold. ring. }
        rewrite T in Q. nra. }
      assert (LL : forall x, List.In x (pverts ch) -> k * dot e2 (vsub x p) <= 0).
      { intros x Ix. assert (HS : convex_hull L (across n (vsub x v0))) by (apply HL; unfold l, shadows; apply in_map_iff; exists x; auto).
        pose proof (hull_dot (vscale k e2) L _ (dot (vscale k e2) v) HS) as Q. assert (SS : forall z, dot (vscale k e2) z = k * dot e2 z) by (intros; spec_unfold; ring).
        rewrite !SS, (dot_across n e2 _ A5) in Q. rewrite <- Ep, (dot_across n e2 _ A5) in Q. specialize (Q ltac:(intros z Z; specialize (SD z Z); rewrite SS; rewrite <- Ep, dsub, (dot_across n e2 _ A5) in SD; lra)).
        rewrite !dsub in *. lra. }
      destruct (Rlt_or_le k 0) as [K|K]; [left|right]; intros x Ix; specialize (LL x Ix); nra.
Qed.
