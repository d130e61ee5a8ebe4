(** Proofs about elevation maps: cells. *)
From Verif Require Import Base Spec SpecTerra ModelVec ModelMat ModelTerra FactsAlg FactsVec FactsMat.
From Coq Require Import List ZArith Lra Lia Permutation.
Import ListNotations.
Open Scope R_scope.

Definition wv (p : vec3) : vec3 := V3 (vx p) (vy p) 1.
Lemma plane_w k p : plane_z k (vx p) (vy p) = dot (wv p) k.
Proof. unfold plane_z, wv, dot; cbn. ring. Qed.

Lemma rsum_snoc f l p : rsum f (l ++ [p]) = rsum f l + f p.
Proof. unfold rsum. induction l as [|a l IH]; cbn; [ring|]. rewrite IH. ring. Qed.
Lemma cost_snoc l p k : cost (l ++ [p]) k = cost l k + (dot (wv p) k - vz p) * (dot (wv p) k - vz p).
Proof. unfold cost. rewrite rsum_snoc, plane_w. ring. Qed.

(** normal equations *)
Definition normal_eq (l : list vec3) (s : mat3) (k : vec3) : Prop :=
  exists a b, mmul a s = mid /\ symmetric a /\ symmetric s /\ mvec a k = b /\
    (forall x, cost l x = dot x (mvec a x) - 2 * dot b x + cost l v3zero) /\ (forall x, dot x x <= dot x (mvec a x)).

Lemma dot_sym a b : dot a b = dot b a. Proof. unfold dot; ring. Qed.
Lemma sym_dot m x y : symmetric m -> dot x (mvec m y) = dot (mvec m x) y.
Proof. intros H. rewrite dot_mvec, H. reflexivity. Qed.

Lemma normal_eq_init : normal_eq [] mid v3zero.
Proof.
  exists mid, v3zero. split; [apply mmul_id_l|]. split; [apply mtr_mid|]. split; [apply mtr_mid|]. split; [apply mvec_id|]. split.
  - intros x. rewrite mvec_id. unfold cost, rsum, v3zero, dot; cbn. ring.
  - intros x. rewrite mvec_id. lra.
Qed.

Lemma normal_eq_fits l s k : normal_eq l s k -> fits l k.
Proof.
  intros (a & b & _ & SA & _ & K & C & P) x. rewrite (C x), (C k). rewrite K. subst b.
  pose proof (P (vsub x k)) as Q. rewrite mvec_sub in Q.
  assert (E : dot (vsub x k) (vsub (mvec a x) (mvec a k)) = dot x (mvec a x) - dot x (mvec a k) - dot k (mvec a x) + dot k (mvec a k)) by (unfold dot, vsub; cbn; ring).
  rewrite E in Q. rewrite (sym_dot a k x SA) in Q. rewrite (dot_sym x (mvec a k)) in Q. rewrite (dot_sym (mvec a k) k). lra.
Qed.

Lemma fits_unique l k k' : fits l k -> fits l k' -> k = k'.
Proof.
  intros H H'. pose proof (H k') as A. pose proof (H' k) as B.
  assert (Z : dot (vsub k' k) (vsub k' k) <= 0) by (assert (E : dot (vsub k k') (vsub k k') = dot (vsub k' k) (vsub k' k)) by (unfold dot, vsub; cbn; ring); lra).
  unfold dot, vsub in Z; cbn in Z.
  assert (Q : forall u, 0 <= u * u) by (intros; nra).
  pose proof (Q (vx k' - vx k)). pose proof (Q (vy k' - vy k)). pose proof (Q (vz k' - vz k)).
  assert (R : forall a b, (b - a) * (b - a) = 0 -> a = b) by (intros a b HH; apply Rmult_integral in HH; lra).
  apply vec3_ext; apply R; lra.
Qed.

Lemma rsum_perm f l l' : Permutation l l' -> rsum f l = rsum f l'.
Proof. unfold rsum. induction 1; cbn; lra. Qed.
Lemma fits_perm l l' k : Permutation l l' -> fits l k -> fits l' k.
Proof. intros P H x. specialize (H x). unfold cost in *. rewrite <- !(rsum_perm _ _ _ P). exact H. Qed.

(** one step *)
Lemma subdyad_v m a b v : mvec (zMat3DSubDyad m a b) v = vsub (mvec m v) (vscale (dot b v) a).
Proof. unfold zMat3DSubDyad, of_b, zVec3DCat, mvec, vsub, vscale, dot, bx, by_, bz, row0, row1, row2; cbn. apply vec3_ext; cbn; ring. Qed.

Lemma rls_step l s k p : normal_eq l s k ->
  let w := wv p in let q := mvec s w in let d := 1 + dot w q in
  1 <= d /\ normal_eq (l ++ [p]) (zMat3DSubDyad s (vscale (1 / d) q) q) (vadd k (vscale (- (dot w k - vz p)) (vscale (1 / d) q))).
Proof.
  intros (a & b & AS & SA & SS & K & C & P). cbv zeta. set (w := wv p). set (q := mvec s w). set (d := 1 + dot w q).
  assert (AQ : mvec a q = w) by (unfold q; rewrite <- mvec_mmul, AS; apply mvec_id).
  assert (D : 1 <= d).
  { unfold d. pose proof (P q) as Q. rewrite AQ in Q. rewrite (dot_sym q w) in Q. assert (0 <= dot q q) by (unfold dot; nra). lra. }
  split; [exact D|].
  exists (madd a (outer w w)), (vadd b (vscale (vz p) w)).
  assert (MV : forall x, mvec (madd a (outer w w)) x = vadd (mvec a x) (vscale (dot w x) w)).
  { intros x. unfold mvec, madd, outer, vadd, vscale, dot, cols3, row0, row1, row2; cbn. apply vec3_ext; cbn; ring. }
  assert (DQ : dot w q = d - 1) by (unfold d; ring).
  split; [|split; [|split; [|split; [|split]]]].
  - apply mvec_ext. intros v. rewrite mvec_mmul, mvec_id, MV, subdyad_v.
    assert (E1 : mvec a (vsub (mvec s v) (vscale (dot q v) (vscale (1 / d) q))) = vsub v (vscale (dot q v / d) w)).
    { rewrite mvec_sub, !mvec_scale, AQ, <- mvec_mmul, AS, mvec_id. unfold vsub, vscale; cbn. apply vec3_ext; cbn; field; lra. }
    rewrite E1.
    assert (E2 : dot w (vsub (mvec s v) (vscale (dot q v) (vscale (1 / d) q))) = dot q v - dot q v / d * (d - 1)).
    { replace (dot w (vsub (mvec s v) (vscale (dot q v) (vscale (1 / d) q)))) with (dot w (mvec s v) - dot q v / d * dot w q) by (unfold dot, vsub, vscale; cbn; field; lra).
      rewrite DQ. rewrite (sym_dot s w v SS). reflexivity. }
    rewrite E2. unfold vadd, vsub, vscale; cbn. apply vec3_ext; cbn; field; lra.
  - unfold symmetric in *. rewrite <- SA at 2. unfold mtr, madd, outer, cols3, row0, row1, row2; cbn. apply mat3_ext; cbn; ring.
  - unfold symmetric in *. rewrite <- SS at 2. unfold zMat3DSubDyad, of_b, zVec3DCat, mtr, vscale, cols3, bx, by_, bz, row0, row1, row2; cbn. apply mat3_ext; cbn; ring.
  - rewrite MV, mvec_add, !mvec_scale, AQ, K.
    assert (E : dot w (vadd k (vscale (- (dot w k - vz p)) (vscale (1 / d) q))) = dot w k - (dot w k - vz p) / d * (d - 1)).
    { replace (dot w (vadd k (vscale (- (dot w k - vz p)) (vscale (1 / d) q)))) with (dot w k - (dot w k - vz p) / d * dot w q) by (unfold dot, vadd, vscale; cbn; field; lra). rewrite DQ. reflexivity. }
    rewrite E. unfold vadd, vscale; cbn. apply vec3_ext; cbn; field; lra.
  - intros x. rewrite !cost_snoc, MV, (C x). fold w.
    replace (dot x (vadd (mvec a x) (vscale (dot w x) w))) with (dot x (mvec a x) + dot w x * dot w x) by (unfold dot, vadd, vscale; cbn; ring).
    replace (dot (vadd b (vscale (vz p) w)) x) with (dot b x + vz p * dot w x) by (unfold dot, vadd, vscale; cbn; ring).
    replace (dot w v3zero) with 0 by (unfold dot, v3zero; cbn; ring). ring.
  - intros x. rewrite MV. replace (dot x (vadd (mvec a x) (vscale (dot w x) w))) with (dot x (mvec a x) + dot w x * dot w x) by (unfold dot, vadd, vscale; cbn; ring).
    pose proof (P x). assert (0 <= dot w x * dot w x) by nra. lra.
Qed.

(** state of a cell after the points [l] *)
Definition cell_inv (l : list vec3) (c : tcell) : Prop :=
  normal_eq l (tS c) (tprm c) /\ tnp c = length l /\ exists s, online l s /\ INR (length l) * tvar c = s /\ 0 <= tvar c.

Lemma ident_mid : ZMAT3DIDENT = mid. Proof. reflexivity. Qed.
Lemma cell_inv_init : cell_inv [] zTerraCellInit.
Proof.
  split; [exact normal_eq_init|]. split; [reflexivity|]. exists 0. split; [constructor|]. cbn. split; lra.
Qed.

Lemma cell_inv_step l c p : cell_inv l c -> exists c', zTerraCellUpdate c p = Some c' /\ cell_inv (l ++ [p]) c' /\ tz c' = tz c /\ tnorm c' = tnorm c /\ ttravs c' = ttravs c.
Proof.
  intros (NE & NP & s & ON & VA & V0). destruct (rls_step l (tS c) (tprm c) p NE) as [D NE'].
  unfold zTerraCellUpdate. fold (wv p). rewrite zmv_spec, zdot_spec. set (q := mvec (tS c) (wv p)) in *. set (d := 1 + dot (wv p) q) in *.
  unfold zVec3DDiv. destruct (Reqb_reflect d 0) as [Z | _]; [lra|].
  change (zVec3DMul q (1 / d)) with (vscale (1 / d) q).
  assert (E : zTerraCellResidual c p = dot (wv p) (tprm c) - vz p) by (unfold zTerraCellResidual, zTerraCellZ; rewrite <- plane_w; reflexivity).
  rewrite E. rewrite zcat_spec.
  eexists. split; [reflexivity|]. cbn [tz tnorm ttravs].
  split; [|auto]. split; [exact NE'|]. split; [cbn; rewrite NP, app_length; cbn; lia|].
  set (k := vadd (tprm c) (vscale (- (dot (wv p) (tprm c) - vz p)) (vscale (1 / d) q))) in *.
  cbn [tvar]. unfold zTerraCellResidual at 1 2, zTerraCellZ. cbn [tprm]. fold k. fold (plane_z k (vx p) (vy p)). set (e := plane_z k (vx p) (vy p) - vz p).
  exists (s + e * e). split; [exact (on_snoc l s p k ON (normal_eq_fits _ _ _ NE'))|].
  rewrite app_length; cbn [length]. rewrite NP, Nat.add_1_r. pose proof (pos_INR (length l)) as PI. rewrite S_INR.
  assert (X : (INR (length l) + 1) * (tvar c + (e * e - tvar c) / (INR (length l) + 1)) = s + e * e) by (rewrite <- VA; field; lra).
  split; [exact X|].
  assert (Y : 0 <= s + e * e) by (rewrite <- VA; nra). rewrite <- X in Y. apply Rmult_le_reg_l with (INR (length l) + 1); [lra|rewrite Rmult_0_r; exact Y].
Qed.

Fixpoint cell_run (c : tcell) (l : list vec3) : option tcell :=
  match l with [] => Some c | p :: l' => match zTerraCellUpdate c p with Some c' => cell_run c' l' | None => None end end.
Lemma cell_run_inv l : forall l0 c, cell_inv l0 c -> exists c', cell_run c l = Some c' /\ cell_inv (l0 ++ l) c' /\ tz c' = tz c /\ tnorm c' = tnorm c /\ ttravs c' = ttravs c.
Proof.
  induction l as [|p l IH]; intros l0 c H; cbn [cell_run].
  - exists c. rewrite app_nil_r. auto.
  - destruct (cell_inv_step l0 c p H) as (c1 & E & I & A & B & C). rewrite E. destruct (IH _ _ I) as (c' & E' & I' & A' & B' & C').
    exists c'. split; [exact E'|]. rewrite <- app_assoc in I'. split; [exact I'|]. split; [congruence|]. split; congruence.
Qed.

(** observable meaning of the state of a cell *)
Lemma cell_inv_obs l c : cell_inv l c -> fits l (tprm c) /\ tnp c = length l /\ (exists s, online l s /\ INR (length l) * tvar c = s) /\ 0 <= tvar c.
Proof. intros (NE & NP & s & ON & VA & V0). split; [exact (normal_eq_fits _ _ _ NE)|]. split; [exact NP|]. split; [exists s; auto|exact V0]. Qed.

Lemma terra_cell l : exists c, cell_run zTerraCellInit l = Some c /\ fits l (tprm c) /\ tnp c = length l /\ (exists s, online l s /\ INR (length l) * tvar c = s) /\ 0 <= tvar c.
Proof. destruct (cell_run_inv l [] _ cell_inv_init) as (c & E & I & _). exists c. split; [exact E|]. apply cell_inv_obs. exact I. Qed.

Lemma terra_cell_order l l' c c' : Permutation l l' -> cell_run zTerraCellInit l = Some c -> cell_run zTerraCellInit l' = Some c' -> tprm c = tprm c' /\ tnp c = tnp c'.
Proof.
  intros P E E'. destruct (terra_cell l) as (c0 & E0 & F0 & N0 & _). destruct (terra_cell l') as (c1 & E1 & F1 & N1 & _).
  rewrite E in E0. rewrite E' in E1. injection E0 as <-. injection E1 as <-.
  split; [|rewrite N0, N1; apply Permutation_length; exact P].
  apply (fits_unique l'); [exact (fits_perm _ _ _ P F0)|exact F1].
Qed.
