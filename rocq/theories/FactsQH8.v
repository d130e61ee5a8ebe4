(** Quickhull: points without a tetrahedron. *)
From Verif Require Export FactsQH7.
From Coq Require Import Lra Lia List Arith Bool.
Import ListNotations.
Open Scope R_scope.

Section Degenerate.
Variable pt : nat -> vec3.
Lemma simplex2_none v0 : forall pl, (forall v, List.In v pl -> zVec3DIsTiny (zVec3DSub (pt v) (pt v0)) = true) -> simplex2 pt v0 pl = None.
Proof. induction pl as [|v r IH]; intros H; [reflexivity|]. cbn. rewrite (H v (or_introl eq_refl)). apply IH. intros u U. apply H. right. exact U. Qed.
Lemma simplex2_some v0 : forall pl v1 r, simplex2 pt v0 pl = Some (v1, r) -> List.In v1 pl /\ incl r pl /\ zVec3DIsTiny (zVec3DSub (pt v1) (pt v0)) = false.
Proof.
  induction pl as [|v l IH]; intros v1 r E; [discriminate|]. cbn in E. destruct (zVec3DIsTiny (zVec3DSub (pt v) (pt v0))) eqn:T.
  - destruct (IH _ _ E) as (A & B & C). split; [right; exact A|]. split; [intros x X; right; apply B; exact X|exact C].
  - injection E as <- <-. split; [left; reflexivity|]. split; [intros x X; right; exact X|exact T].
Qed.
Lemma simplex3_some v0 d0 : forall pl rs v2 n r rs', simplex3 pt v0 d0 pl rs = Some (v2, n, r, rs') ->
  List.In v2 pl /\ incl (r ++ rs') (pl ++ rs) /\ zVec3DIsTiny (zVec3DSub (pt v2) (pt v0)) = false /\
  let c := zVec3DOuterProd d0 (snd (zVec3DNormalize (zVec3DSub (pt v2) (pt v0)) v3zero)) in zVec3DIsTiny c = false /\ n = snd (zVec3DNormalizeDRC c).
Proof.
  induction pl as [|v l IH]; intros rs v2 n r rs' E; [discriminate|]. cbn [simplex3] in E. cbv zeta in E.
  assert (STEP : simplex3 pt v0 d0 l (v :: rs) = Some (v2, n, r, rs') -> List.In v2 (v :: l) /\ incl (r ++ rs') ((v :: l) ++ rs) /\ zVec3DIsTiny (zVec3DSub (pt v2) (pt v0)) = false /\ let c := zVec3DOuterProd d0 (snd (zVec3DNormalize (zVec3DSub (pt v2) (pt v0)) v3zero)) in zVec3DIsTiny c = false /\ n = snd (zVec3DNormalizeDRC c)).
  { intros Q. destruct (IH _ _ _ _ _ Q) as (A & B & C). split; [right; exact A|]. split; [|exact C]. intros x X. apply B in X. apply in_app_or in X. cbn. rewrite in_app_iff. cbn in X. intuition. }
  destruct (zVec3DIsTiny (zVec3DSub (pt v) (pt v0))) eqn:T; [auto|]. destruct (zVec3DIsTiny (zVec3DOuterProd d0 (snd (zVec3DNormalize (zVec3DSub (pt v) (pt v0)) v3zero)))) eqn:T2; [auto|].
  injection E as <- <- <- <-. split; [left; reflexivity|]. split; [intros x X; right; exact X|]. split; [exact T|]. split; [exact T2|reflexivity].
Qed.
Lemma simplex4_some v0 n : forall pl rs v3 h r rs', simplex4 pt v0 n pl rs = Some (v3, h, r, rs') -> List.In v3 pl /\ h = zVec3DInnerProd (zVec3DSub (pt v3) (pt v0)) n /\ zIsTiny h = false.
Proof.
  induction pl as [|v l IH]; intros rs v3 h r rs' E; [discriminate|]. cbn [simplex4] in E. cbv zeta in E. destruct (zIsTiny (zVec3DInnerProd (zVec3DSub (pt v) (pt v0)) n)) eqn:T.
  - destruct (IH _ _ _ _ _ E) as (A & B). split; [right; exact A|exact B].
  - injection E as <- <- <- <-. cbn. auto.
Qed.
End Degenerate.
Lemma nth_in_seq (l : list vec3) v : List.In v (seq 0 (length l)) -> List.In (nth v l v3zero) l.
Proof. intros V. apply in_seq in V. apply nth_In. lia. Qed.
Lemma normalize_scale v : exists k, snd (zVec3DNormalize v v3zero) = vscale k v.
Proof. unfold zVec3DNormalize. destruct (zVec3DIsTiny v); [exists 0; cbn; vring|]. eexists. reflexivity. Qed.
(** no points, or all at one place *)
Lemma degenerate_place sort fuel data : (forall x y, List.In x data -> List.In y data -> negligible (vsub x y)) -> zVec3DDataConvexHull sort fuel data = Some None.
Proof.
  intros H. unfold zVec3DDataConvexHull, zQHCreate. destruct data as [|p r] eqn:ED; [reflexivity|]. rewrite <- ED in *. assert (EL : seq 0 (length data) = 0%nat :: seq 1 (length r)) by (rewrite ED; reflexivity). rewrite EL. unfold zQHSimplexVert. rewrite simplex2_none; [reflexivity|].
  intros v V. rewrite zsub_spec. apply zVec3DIsTiny_true. apply H; apply nth_in_seq; rewrite EL; [right; exact V|left; reflexivity].
Qed.
(** all on one line *)
Lemma degenerate_line sort fuel data o d : (forall x, List.In x data -> on_line o d x) -> zVec3DDataConvexHull sort fuel data = Some None.
Proof.
  intros H. unfold zVec3DDataConvexHull, zQHCreate, zQHSimplexVert. destruct (seq 0 (length data)) as [|v0 pl] eqn:ES; [reflexivity|].
  set (pt := fun i => nth i data v3zero). destruct (simplex2 pt v0 pl) as [[v1 r]|] eqn:E2; [|reflexivity]. destruct (simplex3 pt v0 _ r []) as [[[[v2 n] r'] rs]|] eqn:E3; [|reflexivity]. exfalso.
  destruct (simplex2_some _ _ _ _ _ E2) as (I1 & R1 & _). destruct (simplex3_some _ _ _ _ _ _ _ _ _ E3) as (I2 & _ & _ & C & _).
  assert (IP : forall v, List.In v (v0 :: pl) -> List.In (pt v) data) by (intros v V; apply nth_in_seq; rewrite ES; exact V).
  destruct (H _ (IP v0 (or_introl eq_refl))) as (t0 & Q0). destruct (H _ (IP v1 (or_intror I1))) as (t1 & Q1). destruct (H _ (IP v2 (or_intror (R1 _ I2)))) as (t2 & Q2).
  change (nth v1 data v3zero) with (pt v1) in C; change (nth v0 data v3zero) with (pt v0) in C. change zVec3DSub with vsub in C. destruct (normalize_scale (vsub (pt v1) (pt v0))) as (k1 & K1). destruct (normalize_scale (vsub (pt v2) (pt v0))) as (k2 & K2). rewrite K1, K2, Q0, Q1, Q2 in C.
  replace (zVec3DOuterProd _ _) with v3zero in C. 2: { change zVec3DOuterProd with cross. vring. }
  apply zVec3DIsTiny_false in C. apply C. unfold negligible, v3zero, below. cbn [vx vy vz]. rewrite Rabs_R0. pose proof zTOL_pos. auto.
Qed.
(** all on one plane: the planar method or nothing *)
Lemma degenerate_plane sort fuel data o w : w <> v3zero -> (forall x, List.In x data -> dot w (vsub x o) = 0) ->
  zVec3DDataConvexHull sort fuel data = Some None \/ zVec3DDataConvexHull sort fuel data = planar_hull sort data.
Proof.
  intros W H. unfold zVec3DDataConvexHull, zQHCreate, zQHSimplexVert. destruct (seq 0 (length data)) as [|v0 pl] eqn:ES; [auto|].
  set (pt := fun i => nth i data v3zero). destruct (simplex2 pt v0 pl) as [[v1 r]|] eqn:E2; [|auto]. destruct (simplex3 pt v0 _ r []) as [[[[v2 n] r'] rs]|] eqn:E3; [|auto]. destruct (simplex4 pt v0 n r' rs) as [[[[v3 h] r3] rs3]|] eqn:E4; [|auto]. exfalso.
  destruct (simplex2_some _ _ _ _ _ E2) as (I1 & R1 & _). destruct (simplex3_some _ _ _ _ _ _ _ _ _ E3) as (I2 & R2 & _ & C & ->). destruct (simplex4_some _ _ _ _ _ _ _ _ _ E4) as (I3 & -> & T).
  assert (IP : forall v, List.In v (v0 :: pl) -> List.In (pt v) data) by (intros v V; apply nth_in_seq; rewrite ES; exact V).
  assert (D : forall v, List.In v (v0 :: pl) -> dot w (vsub (pt v) (pt v0)) = 0). { intros v V. pose proof (H _ (IP v V)) as A. pose proof (H _ (IP v0 (or_introl eq_refl))) as B. replace (dot w (vsub (pt v) (pt v0))) with (dot w (vsub (pt v) o) - dot w (vsub (pt v0) o)) by (clear; spec_unfold; ring). lra. }
  assert (A1 := D v1 (or_intror I1)). assert (A2 := D v2 (or_intror (R1 _ I2))). assert (I3' : List.In v3 r). { assert (K : List.In v3 (r' ++ rs)) by (apply in_or_app; auto). apply R2 in K. rewrite app_nil_r in K. exact K. } assert (A3 := D v3 (or_intror (R1 _ I3'))).
  change (nth v1 data v3zero) with (pt v1) in C; change (nth v0 data v3zero) with (pt v0) in C. change (nth v1 data v3zero) with (pt v1) in T; change (nth v0 data v3zero) with (pt v0) in T. change zVec3DSub with vsub in C, T. destruct (normalize_scale (vsub (pt v1) (pt v0))) as (k1 & K1). destruct (normalize_scale (vsub (pt v2) (pt v0))) as (k2 & K2). rewrite K1, K2 in *.
  set (c := zVec3DOuterProd (vscale k1 (vsub (pt v1) (pt v0))) (vscale k2 (vsub (pt v2) (pt v0)))) in *. unfold zVec3DNormalizeDRC, zVec3DNormalize in T. rewrite C in T.
  apply zIsTiny_false in T. assert (Z : dot (vsub (pt v3) (pt v0)) c = 0).
  { assert (P : 0 < dot w w). { rewrite <- norm_sqr. assert (0 < norm w) by (destruct (norm_nonneg w) as [P|P]; [exact P|exfalso; apply W, norm_zero_iff; auto]). nra. }
    assert (K : dot w w * dot (vsub (pt v3) (pt v0)) c = 0). { change c with (cross (vscale k1 (vsub (pt v1) (pt v0))) (vscale k2 (vsub (pt v2) (pt v0)))). revert A1 A2 A3. generalize (vsub (pt v1) (pt v0)) (vsub (pt v2) (pt v0)) (vsub (pt v3) (pt v0)). clear. intros a b e A B E.
      transitivity (k1 * k2 * (dot w e * dot w (cross a b) + dot w a * dot w (cross b e) + dot w b * dot w (cross e a))); [spec_unfold; ring|rewrite A, B, E; ring]. }
    nra. }
  change (zVec3DInnerProd (vsub (pt v3) (pt v0)) (snd (zVec3DNorm c, zVec3DMul c (1 / zVec3DNorm c)))) with (dot (vsub (pt v3) (pt v0)) (vscale (1 / zVec3DNorm c) c)) in T.
  replace (dot (vsub (pt v3) (pt v0)) (vscale (1 / zVec3DNorm c) c)) with (1 / zVec3DNorm c * dot (vsub (pt v3) (pt v0)) c) in T by (generalize (1 / zVec3DNorm c); intros; clear; spec_unfold; ring). rewrite Z, Rmult_0_r, Rabs_R0 in T. pose proof zTOL_pos. lra.
Qed.
(** the vertices are the extreme points *)
Lemma quickhull_extreme sort fuel data ch : general_position data -> (4 <= length data)%nat -> (length data <= fuel)%nat -> zVec3DDataConvexHull sort fuel data = Some (Some ch) ->
  forall x, List.In x data -> (List.In x (pverts ch) <-> ~ exists L, (forall y, List.In y L -> List.In y data /\ y <> x) /\ convex_hull L x).
Proof.
  intros G N F E. destruct (quickhull_correct sort fuel data G N F) as (ch' & E' & S). rewrite E in E'. injection E' as <-. exact (hull_surface_extreme _ _ _ S).
Qed.
(** small integer coordinates *)
Definition boxed (v : vec3) : Prop := -8 <= vx v <= 8 /\ -8 <= vy v <= 8 /\ -8 <= vz v <= 8.
Lemma boxed_dist a b : boxed a -> boxed b -> norm (vsub a b) <= 28.
Proof.
  intros (A1 & A2 & A3) (B1 & B2 & B3). apply Rsqr_incr_0_var; [|lra]. unfold Rsqr. rewrite norm_sqr. spec_unfold. cbn [vx vy vz] in *.
  assert (K : forall x y, -8 <= x <= 8 -> -8 <= y <= 8 -> (x - y) * (x - y) <= 256) by (intros; nra). pose proof (K _ _ A1 B1). pose proof (K _ _ A2 B2). pose proof (K _ _ A3 B3). lra.
Qed.
Lemma boxed_apart a b c d : boxed a -> boxed b -> boxed c -> boxed d -> 1 <= Rabs (vol6 a b c d) -> 2 * zTOL * norm (cross (vsub b a) (vsub c a)) * (1 + dist d a) < Rabs (vol6 a b c d).
Proof.
  intros A B C D V. pose proof (cross_norm_le (vsub b a) (vsub c a)) as K. pose proof (boxed_dist b a B A). pose proof (boxed_dist c a C A). pose proof (boxed_dist d a D A) as Kd. fold (dist d a) in Kd. pose proof zTOL_pos. pose proof zTOL_small.
  pose proof (norm_nonneg (vsub b a)). pose proof (norm_nonneg (vsub c a)). pose proof (norm_nonneg (vsub d a)) as Nd. fold (dist d a) in Nd. pose proof (norm_nonneg (cross (vsub b a) (vsub c a))) as Nc.
  assert (K1 : norm (cross (vsub b a) (vsub c a)) <= 784) by (eapply Rle_trans; [exact K|]; nra).
  assert (K2 : norm (cross (vsub b a) (vsub c a)) * (1 + dist d a) <= 784 * 29) by (apply Rmult_le_compat; lra).
  assert (K3 : 2 * zTOL * (norm (cross (vsub b a) (vsub c a)) * (1 + dist d a)) <= 2 * zTOL * (784 * 29)) by (apply Rmult_le_compat_l; lra). lra.
Qed.
