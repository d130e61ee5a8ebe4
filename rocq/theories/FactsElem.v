(** Proofs about edges, triangles and tetrahedra: closest points. *)
From Verif Require Import ModelElem FactsVec FactsAlg Facts2D.
Open Scope R_scope.

(** replace the C vector operations of the goal by the specification's *)
Ltac zvg := repeat match goal with
  | |- context [zVec3DAdd ?a ?b] => change (zVec3DAdd a b) with (vadd a b)
  | |- context [zVec3DSub ?a ?b] => change (zVec3DSub a b) with (vsub a b)
  | |- context [zVec3DMul ?a ?k] => change (zVec3DMul a k) with (vscale k a)
  | |- context [zVec3DRev ?a] => change (zVec3DRev a) with (vneg a)
  | |- context [zVec3DCat ?a ?k ?b] => change (zVec3DCat a k b) with (vadd a (vscale k b))
  | |- context [zVec3DInnerProd ?a ?b] => change (zVec3DInnerProd a b) with (dot a b)
  | |- context [zVec3DOuterProd ?a ?b] => change (zVec3DOuterProd a b) with (cross a b)
  | |- context [zVec3DSqrNorm ?a] => change (zVec3DSqrNorm a) with (dot a a)
  | |- context [zVec3DNorm ?a] => change (zVec3DNorm a) with (norm a)
  | |- context [zVec3DSqrDist ?a ?b] => change (zVec3DSqrDist a b) with (dot (vsub a b) (vsub a b))
  | |- context [zVec3DDist ?a ?b] => change (zVec3DDist a b) with (dist a b)
  | |- context [zVec3DGrassmannProd ?a ?b ?c] => change (zVec3DGrassmannProd a b c) with (det3v a b c)
  | |- context [zVec3DOuterProdNorm ?a ?b] => change (zVec3DOuterProdNorm a b) with (norm (cross a b))
  | |- context [zVec2DAdd ?a ?b] => change (zVec2DAdd a b) with (vadd2 a b)
  | |- context [zVec2DSub ?a ?b] => change (zVec2DSub a b) with (vsub2 a b)
  | |- context [zVec2DMul ?a ?k] => change (zVec2DMul a k) with (vscale2 k a)
  | |- context [zVec2DCat ?a ?k ?b] => change (zVec2DCat a k b) with (vadd2 a (vscale2 k b))
  | |- context [zVec2DInnerProd ?a ?b] => change (zVec2DInnerProd a b) with (dot2 a b)
  | |- context [zVec2DOuterProd ?a ?b] => change (zVec2DOuterProd a b) with (cross2 a b)
  | |- context [zVec2DSqrNorm ?a] => change (zVec2DSqrNorm a) with (dot2 a a)
  | |- context [zVec2DNorm ?a] => change (zVec2DNorm a) with (norm_2 a)
  | |- context [zVec2DDist ?a ?b] => change (zVec2DDist a b) with (dist2 a b)
  | |- context [zVec2DSqrDist ?a ?b] => change (zVec2DSqrDist a b) with (dot2 (vsub2 a b) (vsub2 a b))
  end.

(** ** the edge, in terms of Gram entries *)
Section EdgeReal.
  Variables a b c : R.
  Let f t := (1 - t) * (1 - t) * a + 2 * t * (1 - t) * b + t * t * c.
  Let L := a - 2 * b + c.
  Lemma edge_real_min t : 0 < L -> f ((a - b) / L) <= f t.
  Proof.
    intros HL. assert (E : f t - f ((a - b) / L) = L * ((t - (a - b) / L) * (t - (a - b) / L))) by (unfold f, L in *; field; lra).
    assert (0 <= (t - (a - b) / L) * (t - (a - b) / L)) by apply sqr_nonneg. nra.
  Qed.
  Lemma edge_real_v1 t : 0 < L -> (c - b) / L < 0 -> 0 <= t <= 1 -> c <= f t.
  Proof.
    intros HL H Ht. assert (c - b < 0).
    { assert (E : c - b = (c - b) / L * L) by (field; lra). rewrite E. nra. }
    assert (E : f t - c = (1 - t) * ((1 - t) * L + 2 * (b - c))) by (unfold f, L; ring).
    assert (0 <= (1 - t) * ((1 - t) * L + 2 * (b - c))) by (apply Rmult_le_pos; [lra|]; assert (0 <= (1 - t) * L) by (apply Rmult_le_pos; lra); lra). lra.
  Qed.
  Lemma edge_real_v0 t : 0 < L -> (a - b) / L < 0 -> 0 <= t <= 1 -> a <= f t.
  Proof.
    intros HL H Ht. assert (a - b < 0).
    { assert (E : a - b = (a - b) / L * L) by (field; lra). rewrite E. nra. }
    assert (E : f t - a = t * (t * L + 2 * (b - a))) by (unfold f, L; ring).
    assert (0 <= t * (t * L + 2 * (b - a))) by (apply Rmult_le_pos; [lra|]; assert (0 <= t * L) by (apply Rmult_le_pos; lra); lra). lra.
  Qed.
End EdgeReal.

Lemma gram3 v0 v1 : v0 <> v1 -> 0 < dot v0 v0 - 2 * dot v0 v1 + dot v1 v1.
Proof.
  intros H. assert (E : dot v0 v0 - 2 * dot v0 v1 + dot v1 v1 = dot (vsub v0 v1) (vsub v0 v1)) by (spec_unfold; ring).
  rewrite E. destruct (Rle_lt_or_eq_dec _ _ (dot_self_nonneg (vsub v0 v1))) as [|Z]; [assumption|].
  symmetry in Z. apply dot_self_zero in Z. exfalso; apply H. apply vec3_ext.
  all: destruct v0 as [a b c], v1 as [a' b' c']; unfold vsub, v3zero in Z; injection Z; intros; pcbn; lra.
Qed.
Lemma comb2_dot s0 s1 v0 v1 : dot (comb2 s0 s1 v0 v1) (comb2 s0 s1 v0 v1) =
  s0 * s0 * dot v0 v0 + 2 * s1 * s0 * dot v0 v1 + s1 * s1 * dot v1 v1.
Proof. unfold comb2; spec_unfold; ring. Qed.

Definition edge3_good v0 v1 (r : R * R * R * vec3) : Prop :=
  let '(d, s0, s1, cp) := r in
  weights2 s0 s1 /\ cp = comb2 s0 s1 v0 v1 /\ d = norm cp /\ forall x, segment v0 v1 x -> norm cp <= norm x.

Lemma edge3_ok v0 v1 : v0 <> v1 ->
  exists r, zEdge3DClosestFromOrigin v0 v1 = Some r /\ edge3_good v0 v1 r.
Proof.
  intros Hne. pose proof (gram3 _ _ Hne) as HL.
  unfold zEdge3DClosestFromOrigin. cbv zeta. zvec.
  set (a := dot v0 v0) in *. set (b := dot v0 v1) in *. set (c := dot v1 v1) in *.
  assert (Ex : x2 (zMulAdjMat2DVec2D (M2 a b b c) (V2 1 1)) = c - b) by (un2; pcbn; ring).
  assert (Ey : y2 (zMulAdjMat2DVec2D (M2 a b b c) (V2 1 1)) = a - b) by (un2; pcbn; ring).
  rewrite Ex, Ey. clear Ex Ey.
  destruct (Reqb_reflect (c - b + (a - b)) 0) as [Z|NZ]; [lra|].
  assert (Es0 : (c - b) * (1 / (c - b + (a - b))) = (c - b) / (a - 2 * b + c)) by (field; lra).
  assert (Es1 : (a - b) * (1 / (c - b + (a - b))) = (a - b) / (a - 2 * b + c)) by (field; lra).
  rewrite Es0, Es1.
  assert (Hsum : (c - b) / (a - 2 * b + c) + (a - b) / (a - 2 * b + c) = 1) by (field; lra).
  assert (Hseg : forall x, segment v0 v1 x -> exists t, 0 <= t <= 1 /\
            dot x x = (1 - t) * (1 - t) * a + 2 * t * (1 - t) * b + t * t * c).
  { intros x (s0 & s1 & (H0 & H1 & HS) & ->). exists s1. split; [lra|].
    rewrite comb2_dot. replace s0 with (1 - s1) by lra. reflexivity. }
  destruct (Rltb_reflect ((c - b) / (a - 2 * b + c)) 0) as [N0|P0].
  { eexists; split; [reflexivity|]. split; [unfold weights2; lra|]. split; [unfold comb2; vring|]. split; [reflexivity|].
    intros x Hx. destruct (Hseg x Hx) as (t & Ht & Ex). apply norm_le_of_sqr. rewrite Ex. fold c. apply edge_real_v1; assumption. }
  destruct (Rltb_reflect ((a - b) / (a - 2 * b + c)) 0) as [N1|P1].
  { eexists; split; [reflexivity|]. split; [unfold weights2; lra|]. split; [unfold comb2; vring|]. split; [reflexivity|].
    intros x Hx. destruct (Hseg x Hx) as (t & Ht & Ex). apply norm_le_of_sqr. rewrite Ex. fold a. apply edge_real_v0; assumption. }
  eexists; split; [reflexivity|]. split; [unfold weights2; lra|]. split; [unfold comb2; zvec; reflexivity|]. split; [reflexivity|].
  intros x Hx. destruct (Hseg x Hx) as (t & Ht & Ex). apply norm_le_of_sqr. rewrite Ex. zvec.
  fold (comb2 ((c - b) / (a - 2 * b + c)) ((a - b) / (a - 2 * b + c)) v0 v1). rewrite comb2_dot. fold a b c.
  replace ((c - b) / (a - 2 * b + c)) with (1 - (a - b) / (a - 2 * b + c)) by lra.
  eapply Rle_trans; [|apply (edge_real_min a b c t); assumption]. lra.
Qed.
Lemma edge3_degenerate v : zEdge3DClosestFromOrigin v v = None.
Proof.
  unfold zEdge3DClosestFromOrigin. cbv zeta. match goal with |- context [Reqb ?z 0] => destruct (Reqb_reflect z 0) as [E|N] end; [reflexivity|].
  exfalso; apply N. un2; pcbn. zvec. ring.
Qed.
Lemma edge3_none v0 v1 : zEdge3DClosestFromOrigin v0 v1 = None <-> v0 = v1.
Proof.
  split; [|intros ->; apply edge3_degenerate]. intros H.
  destruct (Req_EM_T (vx v0) (vx v1)) as [X|X]; [destruct (Req_EM_T (vy v0) (vy v1)) as [Y|Y];
   [destruct (Req_EM_T (vz v0) (vz v1)) as [Z|Z]|]|].
  { apply vec3_ext; assumption. }
  all: destruct (edge3_ok v0 v1) as (r & E & _); [intros ->; auto|congruence].
Qed.
Lemma vec3_dec (a b : vec3) : {a = b} + {a <> b}.
Proof.
  destruct (Req_EM_T (vx a) (vx b)) as [X|X]; [|right; intros ->; auto].
  destruct (Req_EM_T (vy a) (vy b)) as [Y|Y]; [|right; intros ->; auto].
  destruct (Req_EM_T (vz a) (vz b)) as [Z|Z]; [|right; intros ->; auto].
  left; apply vec3_ext; assumption.
Qed.

(** translation: nearest points from the origin give nearest points from [p] *)
Lemma seg_shift a b p x : segment a b x <-> segment (vsub a p) (vsub b p) (vsub x p).
Proof.
  split; intros (s0 & s1 & (H0 & H1 & HS) & E); exists s0, s1; (split; [unfold weights2; auto|]).
  - subst x. apply vec3_ext; unfold comb2; spec_unfold; replace s0 with (1 - s1) by lra; ring.
  - replace x with (vadd (vsub x p) p) by vring. rewrite E.
    apply vec3_ext; unfold comb2; spec_unfold; replace s0 with (1 - s1) by lra; ring.
Qed.
Lemma dist_vsub q x : dist q x = norm (vsub x q).
Proof. rewrite dist_sym. reflexivity. Qed.
Lemma add_sub a b : vsub (vadd a b) b = a. Proof. vring. Qed.

Lemma edge3_closest e p : ev0 e <> ev1 e ->
  exists d cp, zEdge3DClosest e p = Some (d, cp) /\ nearest (segment (ev0 e) (ev1 e)) p cp /\ d = dist p cp.
Proof.
  intros Hne. unfold zEdge3DClosest.
  destruct (edge3_ok (zVec3DSub (ev0 e) p) (zVec3DSub (ev1 e) p)) as ([[[d s0] s1] cp] & E & Hw & Hc & Hd & Hm).
  { zvec. intros Heq. apply Hne. destruct e as [[a b c] [a' b' c']]; cbn [ev0 ev1] in *.
    spec_unfold. injection Heq; intros; f_equal; lra. }
  rewrite E. exists d, (zVec3DAdd cp p). split; [reflexivity|]. zvec. unfold nearest.
  rewrite dist_vsub, add_sub. split; [|assumption]. split.
  - apply (seg_shift _ _ p). rewrite add_sub. exists s0, s1. split; assumption.
  - intros x Hx. rewrite dist_vsub. apply Hm. apply seg_shift. assumption.
Qed.
Lemma edge3_closest_deg v p : zEdge3DClosest (E3 v v) p = None.
Proof. unfold zEdge3DClosest; cbn [ev0 ev1]. rewrite edge3_degenerate. reflexivity. Qed.

(** ** 2D edges *)
Lemma norm_2_le_of_sqr a b : dot2 a a <= dot2 b b -> norm_2 a <= norm_2 b.
Proof. apply sqrt_le_1_alt. Qed.
Lemma dot2_self_zero a : dot2 a a = 0 -> a = v2zero.
Proof. intros H. unfold dot2 in H. destruct (sum2_sqr_zero _ _ H). apply vec2_ext; assumption. Qed.
Lemma gram2 v0 v1 : v0 <> v1 -> 0 < dot2 v0 v0 - 2 * dot2 v0 v1 + dot2 v1 v1.
Proof.
  intros H. assert (E : dot2 v0 v0 - 2 * dot2 v0 v1 + dot2 v1 v1 = dot2 (vsub2 v0 v1) (vsub2 v0 v1)) by (un2; pcbn; ring).
  rewrite E. destruct (Rle_lt_or_eq_dec _ _ (dot2_nonneg (vsub2 v0 v1))) as [|Z]; [assumption|].
  symmetry in Z. apply dot2_self_zero in Z. exfalso; apply H. apply vec2_ext.
  all: destruct v0 as [a b], v1 as [a' b']; unfold vsub2, v2zero in Z; injection Z; intros; cbn [x2 y2] in *; lra.
Qed.
Lemma comb2_2_dot s0 s1 v0 v1 : dot2 (comb2_2 s0 s1 v0 v1) (comb2_2 s0 s1 v0 v1) =
  s0 * s0 * dot2 v0 v0 + 2 * s1 * s0 * dot2 v0 v1 + s1 * s1 * dot2 v1 v1.
Proof. unfold comb2_2; un2; unfold vadd2, vscale2, dot2; pcbn; ring. Qed.
Definition edge2_good v0 v1 (r : R * R * R * vec2) : Prop :=
  let '(d, s0, s1, cp) := r in
  weights2 s0 s1 /\ cp = comb2_2 s0 s1 v0 v1 /\ d = norm_2 cp /\ forall x, segment2 v0 v1 x -> norm_2 cp <= norm_2 x.
Lemma edge2_ok v0 v1 : v0 <> v1 ->
  exists r, zEdge2DClosestFromOrigin v0 v1 = Some r /\ edge2_good v0 v1 r.
Proof.
  intros Hne. pose proof (gram2 _ _ Hne) as HL.
  unfold zEdge2DClosestFromOrigin. cbv zeta.
  change (zVec2DSqrNorm v0) with (dot2 v0 v0). change (zVec2DSqrNorm v1) with (dot2 v1 v1). change (zVec2DInnerProd v0 v1) with (dot2 v0 v1).
  set (a := dot2 v0 v0) in *. set (b := dot2 v0 v1) in *. set (c := dot2 v1 v1) in *.
  assert (Ex : x2 (zMulAdjMat2DVec2D (M2 a b b c) (V2 1 1)) = c - b) by (un2; pcbn; ring).
  assert (Ey : y2 (zMulAdjMat2DVec2D (M2 a b b c) (V2 1 1)) = a - b) by (un2; pcbn; ring).
  rewrite Ex, Ey. clear Ex Ey.
  destruct (Reqb_reflect (c - b + (a - b)) 0) as [Z|NZ]; [lra|].
  assert (Es0 : (c - b) * (1 / (c - b + (a - b))) = (c - b) / (a - 2 * b + c)) by (field; lra).
  assert (Es1 : (a - b) * (1 / (c - b + (a - b))) = (a - b) / (a - 2 * b + c)) by (field; lra).
  rewrite Es0, Es1.
  assert (Hsum : (c - b) / (a - 2 * b + c) + (a - b) / (a - 2 * b + c) = 1) by (field; lra).
  assert (Hseg : forall x, segment2 v0 v1 x -> exists t, 0 <= t <= 1 /\
            dot2 x x = (1 - t) * (1 - t) * a + 2 * t * (1 - t) * b + t * t * c).
  { intros x (s0 & s1 & (H0 & H1 & HS) & ->). exists s1. split; [lra|].
    rewrite comb2_2_dot. replace s0 with (1 - s1) by lra. reflexivity. }
  destruct (Rltb_reflect ((c - b) / (a - 2 * b + c)) 0) as [N0|P0].
  { eexists; split; [reflexivity|]. split; [unfold weights2; lra|].
    split; [apply vec2_ext; unfold comb2_2, vadd2, vscale2; pcbn; ring|]. split; [reflexivity|].
    intros x Hx. destruct (Hseg x Hx) as (t & Ht & Ex). apply norm_2_le_of_sqr. rewrite Ex. fold c. apply edge_real_v1; assumption. }
  destruct (Rltb_reflect ((a - b) / (a - 2 * b + c)) 0) as [N1|P1].
  { eexists; split; [reflexivity|]. split; [unfold weights2; lra|].
    split; [apply vec2_ext; unfold comb2_2, vadd2, vscale2; pcbn; ring|]. split; [reflexivity|].
    intros x Hx. destruct (Hseg x Hx) as (t & Ht & Ex). apply norm_2_le_of_sqr. rewrite Ex. fold a. apply edge_real_v0; assumption. }
  eexists; split; [reflexivity|]. split; [unfold weights2; lra|].
  split; [reflexivity|]. split; [reflexivity|].
  intros x Hx. destruct (Hseg x Hx) as (t & Ht & Ex). apply norm_2_le_of_sqr. rewrite Ex.
  change (zVec2DCat (zVec2DMul v0 ((c - b) / (a - 2 * b + c))) ((a - b) / (a - 2 * b + c)) v1)
    with (comb2_2 ((c - b) / (a - 2 * b + c)) ((a - b) / (a - 2 * b + c)) v0 v1). rewrite comb2_2_dot. fold a b c.
  replace ((c - b) / (a - 2 * b + c)) with (1 - (a - b) / (a - 2 * b + c)) by lra.
  eapply Rle_trans; [|apply (edge_real_min a b c t); assumption]. lra.
Qed.
Lemma edge2_degenerate v : zEdge2DClosestFromOrigin v v = None.
Proof.
  unfold zEdge2DClosestFromOrigin. cbv zeta. match goal with |- context [Reqb ?z 0] => destruct (Reqb_reflect z 0) as [E|N] end; [reflexivity|].
  exfalso; apply N. un2; pcbn. change (zVec2DSqrNorm v) with (dot2 v v). change (zVec2DInnerProd v v) with (dot2 v v). unfold dot2. ring.
Qed.
Ltac v2ring := apply vec2_ext; unfold comb3_2, comb2_2, vadd2, vsub2, vscale2, vneg2, v2zero; pcbn; ring.
Lemma seg2_shift a b p x : segment2 a b x <-> segment2 (vsub2 a p) (vsub2 b p) (vsub2 x p).
Proof.
  split; intros (s0 & s1 & (H0 & H1 & HS) & E); exists s0, s1; (split; [unfold weights2; auto|]).
  - subst x. replace s0 with (1 - s1) by lra. v2ring.
  - replace x with (vadd2 (vsub2 x p) p) by v2ring. rewrite E. replace s0 with (1 - s1) by lra. v2ring.
Qed.
Lemma dist2_vsub q x : dist2 q x = norm_2 (vsub2 x q).
Proof. unfold dist2, norm_2. f_equal. unfold dot2, vsub2; pcbn; ring. Qed.
Lemma add_sub2 a b : vsub2 (vadd2 a b) b = a. Proof. v2ring. Qed.
Lemma sub2_inj a b p : vsub2 a p = vsub2 b p -> a = b.
Proof. intros H. replace a with (vadd2 (vsub2 a p) p) by v2ring. rewrite H. v2ring. Qed.
Lemma sub3_inj a b p : vsub a p = vsub b p -> a = b.
Proof. intros H. replace a with (vadd (vsub a p) p) by vring. rewrite H. vring. Qed.
Lemma edge2_closest e p : ew0 e <> ew1 e ->
  exists d cp, zEdge2DClosest e p = Some (d, cp) /\ nearest2 (segment2 (ew0 e) (ew1 e)) p cp /\ d = dist2 p cp.
Proof.
  intros Hne. unfold zEdge2DClosest.
  destruct (edge2_ok (zVec2DSub (ew0 e) p) (zVec2DSub (ew1 e) p)) as ([[[d s0] s1] cp] & E & Hw & Hc & Hd & Hm).
  { intros Heq. apply Hne. exact (sub2_inj _ _ _ Heq). }
  rewrite E. exists d, (zVec2DAdd cp p). split; [reflexivity|]. unfold nearest2.
  change (zVec2DAdd cp p) with (vadd2 cp p).
  rewrite dist2_vsub, add_sub2. split; [|assumption]. split.
  - apply (seg2_shift _ _ p). rewrite add_sub2. exists s0, s1. split; assumption.
  - intros x Hx. rewrite dist2_vsub. apply Hm. exact (proj1 (seg2_shift _ _ p _) Hx).
Qed.
Lemma edge2_closest_deg v p : zEdge2DClosest (E2 v v) p = None.
Proof. unfold zEdge2DClosest; cbn [ew0 ew1]. rewrite edge2_degenerate. reflexivity. Qed.

(** ** moving towards an outside point until the boundary is met *)
Lemma shrink (l : list (R * R)) :
  Forall (fun p => 0 <= fst p) l -> Exists (fun p => snd p < 0) l ->
  exists k, 0 <= k <= 1 /\ Forall (fun p => 0 <= (1 - k) * fst p + k * snd p) l /\
    Exists (fun p => snd p < 0 /\ (1 - k) * fst p + k * snd p = 0) l.
Proof.
  induction l as [|[t w] l IH]; intros HF HE; [inversion HE|].
  inversion HF as [|? ? Ht HF']; subst. cbn [fst] in Ht.
  assert (Hown : w < 0 -> 0 <= t / (t - w) <= 1 /\ (1 - t / (t - w)) * t + t / (t - w) * w = 0).
  { intros Hw. split; [split|field; lra].
    - apply Rmult_le_pos; [lra|]. left; apply Rinv_0_lt_compat; lra.
    - apply (Rmult_le_reg_r (t - w)); [lra|]. replace (t / (t - w) * (t - w)) with t by (field; lra). lra. }
  destruct (Exists_dec (fun p : R * R => snd p < 0) l) as [E|N].
  { intros p. destruct (Rlt_dec (snd p) 0); [left|right]; auto. }
  - destruct (IH HF' E) as (k & Hk & Hall & Hex).
    destruct (Rle_dec 0 ((1 - k) * t + k * w)) as [P|NP].
    + exists k. split; [assumption|]. split; [constructor; assumption|]. apply Exists_cons_tl; assumption.
    + assert (Hw : w < 0). { destruct (Rlt_dec w 0); [assumption|]. exfalso; apply NP. assert (0 <= (1 - k) * t) by (apply Rmult_le_pos; lra). assert (0 <= k * w) by (apply Rmult_le_pos; lra). lra. }
      destruct (Hown Hw) as [Hk' Hz]. set (k' := t / (t - w)) in *.
      assert (Hlt : k' <= k).
      { destruct (Rle_dec k' k); [assumption|]. exfalso. assert (k < k') by lra.
        assert (0 < (k' - k) * (t - w)) by (apply Rmult_lt_0_compat; lra). nra. }
      exists k'. split; [assumption|]. split.
      * constructor; [cbn [fst snd]; lra|]. rewrite Forall_forall in *. intros [a b] Hin. cbn [fst snd].
        pose proof (HF' _ Hin) as Ha. pose proof (Hall _ Hin) as Hb. cbn [fst snd] in Ha, Hb.
        destruct (Req_EM_T k 0) as [Z|NZ]; [assert (k' = 0) by lra; replace k' with 0 by lra; lra|].
        assert (0 < k) by lra.
        assert (Ek : k * ((1 - k') * a + k' * b) = (k - k') * a + k' * ((1 - k) * a + k * b)) by ring.
        assert (0 <= (k - k') * a) by (apply Rmult_le_pos; lra).
        assert (0 <= k' * ((1 - k) * a + k * b)) by (apply Rmult_le_pos; lra). nra.
      * apply Exists_cons_hd. cbn [fst snd]. split; assumption.
  - assert (Hw : w < 0). { inversion HE; subst; [assumption|contradiction]. }
    destruct (Hown Hw) as [Hk' Hz]. set (k' := t / (t - w)) in *.
    exists k'. split; [assumption|]. split.
    + constructor; [cbn [fst snd]; lra|]. rewrite Forall_forall in *. intros [a b] Hin. cbn [fst snd].
      pose proof (HF' _ Hin) as Ha. cbn [fst] in Ha.
      assert (~ b < 0). { intros Hb. apply N. apply Exists_exists. exists (a, b). split; assumption. }
      assert (0 <= (1 - k') * a) by (apply Rmult_le_pos; lra). assert (0 <= k' * b) by (apply Rmult_le_pos; lra). lra.
    + apply Exists_cons_hd. cbn [fst snd]. split; assumption.
Qed.
Lemma shrink3 t0 t1 t2 w0 w1 w2 : weights3 t0 t1 t2 -> w0 + w1 + w2 = 1 -> (w0 < 0 \/ w1 < 0 \/ w2 < 0) ->
  exists k c0 c1 c2, 0 <= k <= 1 /\ weights3 c0 c1 c2 /\
    c0 = (1 - k) * t0 + k * w0 /\ c1 = (1 - k) * t1 + k * w1 /\ c2 = (1 - k) * t2 + k * w2 /\
    ((w0 < 0 /\ c0 = 0) \/ (w1 < 0 /\ c1 = 0) \/ (w2 < 0 /\ c2 = 0)).
Proof.
  intros (H0 & H1 & H2 & HS) HW HN.
  destruct (shrink [(t0, w0); (t1, w1); (t2, w2)]) as (k & Hk & HA & HE).
  { repeat (apply Forall_cons; [assumption|]); apply Forall_nil. }
  { destruct HN as [|[|]]; [apply Exists_cons_hd|apply Exists_cons_tl, Exists_cons_hd|apply Exists_cons_tl, Exists_cons_tl, Exists_cons_hd]; assumption. }
  exists k, ((1 - k) * t0 + k * w0), ((1 - k) * t1 + k * w1), ((1 - k) * t2 + k * w2).
  inversion HA as [|? ? A0 HA1]; subst. inversion HA1 as [|? ? A1 HA2]; subst. inversion HA2 as [|? ? A2 HA3]; subst.
  cbn [fst snd] in *. split; [assumption|]. split.
  { unfold weights3. repeat split; try assumption. replace t0 with (1 - t1 - t2) by lra. replace w0 with (1 - w1 - w2) by lra. ring. }
  repeat split.
  inversion HE as [? ? E|? ? E]; subst; [left; exact E|].
  inversion E as [? ? E'|? ? E']; subst; [right; left; exact E'|].
  inversion E' as [? ? E2|? ? E2]; subst; [right; right; exact E2|]. inversion E2.
Qed.
Lemma shrink4 t0 t1 t2 t3 w0 w1 w2 w3 : weights4 t0 t1 t2 t3 -> w0 + w1 + w2 + w3 = 1 -> (w0 < 0 \/ w1 < 0 \/ w2 < 0 \/ w3 < 0) ->
  exists k c0 c1 c2 c3, 0 <= k <= 1 /\ weights4 c0 c1 c2 c3 /\
    c0 = (1 - k) * t0 + k * w0 /\ c1 = (1 - k) * t1 + k * w1 /\ c2 = (1 - k) * t2 + k * w2 /\ c3 = (1 - k) * t3 + k * w3 /\
    ((w0 < 0 /\ c0 = 0) \/ (w1 < 0 /\ c1 = 0) \/ (w2 < 0 /\ c2 = 0) \/ (w3 < 0 /\ c3 = 0)).
Proof.
  intros (H0 & H1 & H2 & H3 & HS) HW HN.
  destruct (shrink [(t0, w0); (t1, w1); (t2, w2); (t3, w3)]) as (k & Hk & HA & HE).
  { repeat (apply Forall_cons; [assumption|]); apply Forall_nil. }
  { destruct HN as [|[|[|]]]; [apply Exists_cons_hd|apply Exists_cons_tl, Exists_cons_hd|apply Exists_cons_tl, Exists_cons_tl, Exists_cons_hd
     |apply Exists_cons_tl, Exists_cons_tl, Exists_cons_tl, Exists_cons_hd]; assumption. }
  exists k, ((1 - k) * t0 + k * w0), ((1 - k) * t1 + k * w1), ((1 - k) * t2 + k * w2), ((1 - k) * t3 + k * w3).
  inversion HA as [|? ? A0 HA1]; subst. inversion HA1 as [|? ? A1 HA2]; subst. inversion HA2 as [|? ? A2 HA3]; subst.
  inversion HA3 as [|? ? A3 HA4]; subst.
  cbn [fst snd] in *. split; [assumption|]. split.
  { unfold weights4. repeat split; try assumption. replace t0 with (1 - t1 - t2 - t3) by lra. replace w0 with (1 - w1 - w2 - w3) by lra. ring. }
  repeat split.
  inversion HE as [? ? E|? ? E]; subst; [left; exact E|].
  inversion E as [? ? E'|? ? E']; subst; [right; left; exact E'|].
  inversion E' as [? ? E2|? ? E2]; subst; [right; right; left; exact E2|].
  inversion E2 as [? ? E3|? ? E3]; subst; [right; right; right; exact E3|]. inversion E3.
Qed.

(** ** keeping the best candidate *)
Lemma keep3_some {A} (acc new : option (R * A)) r : keep3 acc new = Some r ->
  (acc = Some r \/ new = Some r) /\ (forall r', acc = Some r' -> fst r <= fst r') /\ (forall r', new = Some r' -> fst r <= fst r').
Proof.
  unfold keep3. destruct new as [[d x]|]; destruct acc as [[dm y]|]; try rcase1; intros E; try discriminate; injection E as <-;
    (split; [auto|]); split; intros r' E'; try discriminate; injection E' as <-; cbn [fst]; lra.
Qed.
Lemma keep3_none {A} (acc new : option (R * A)) : keep3 acc new = None <-> acc = None /\ new = None.
Proof.
  unfold keep3. destruct new as [[d x]|]; destruct acc as [[dm y]|]; try rcase1; split; try (intros [? ?]); try discriminate; auto; intros; split; auto; discriminate.
Qed.
