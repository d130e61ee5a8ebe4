(** Basis functions: support, sign, sum, ends. *)
From Verif Require Import Base Spec SpecMesh SpecNurbs ModelNurbs FactsAlg.
From Coq Require Import List Lra Lia.
Import ListNotations.
Open Scope R_scope.

Lemma bs_knot_of p i : bs_at p i = knot_of (bs_knot p) i.
Proof. reflexivity. Qed.

Lemma basis_outside p t r : forall i k, (k < i \/ i + r < k)%nat -> zBSplineParamBasis p t i r k = 0.
Proof.
  induction r as [|r IH]; intros i k H; cbn [zBSplineParamBasis].
  - destruct (Nat.eqb_spec i k); [lia|reflexivity].
  - destruct (Nat.leb_spec i k).
    + destruct (Nat.ltb_spec k (i + S r)); [lia|]. rewrite (IH (i + 1)%nat) by lia. destruct (Reqb _ _); lra.
    + rewrite (IH i) by lia. destruct (Nat.ltb k (i + S r)); [destruct (Reqb (bs_at p (i + S r)) (bs_at p i))|]; lra.
Qed.

(** degree and segment inside of a knot vector without descents *)
Record at_seg (p : bspl) (t : R) (o k : nat) : Prop := AS {
  as_up : forall i j, (i <= j <= k + o)%nat -> bs_at p i <= bs_at p j;
  as_lo : bs_at p k <= t; as_hi : t <= bs_at p (S k); as_pos : bs_at p k < bs_at p (S k); as_ord : (o <= k)%nat }.

Lemma as_gap p t o k i j : (1 <= o)%nat -> at_seg p t o k -> (i <= k)%nat -> (k < j <= k + o)%nat -> bs_at p i < bs_at p j /\ bs_at p i <= t <= bs_at p j.
Proof.
  intros O A I J. pose proof (as_up _ _ _ _ A i k ltac:(lia)). pose proof (as_up _ _ _ _ A (S k) j ltac:(lia)). pose proof (as_lo _ _ _ _ A). pose proof (as_hi _ _ _ _ A). pose proof (as_pos _ _ _ _ A). lra.
Qed.
Lemma as_lower p t o k o' : at_seg p t o k -> (o' <= o)%nat -> at_seg p t o' k.
Proof. intros A H. destruct A. constructor; try assumption; try lia. intros. apply as_up0. lia. Qed.

Lemma basis_step p t r k i : at_seg p t (S r) k -> (k <= i + S r)%nat -> (i <= k)%nat ->
  zBSplineParamBasis p t i (S r) k = (if Nat.ltb k (i + S r) then (t - bs_at p i) / (bs_at p (i + S r) - bs_at p i) * zBSplineParamBasis p t i r k else 0) +
    (if Nat.ltb i k then (bs_at p (i + S r + 1) - t) / (bs_at p (i + S r + 1) - bs_at p (i + 1)) * zBSplineParamBasis p t (i + 1) r k else 0).
Proof.
  intros A H I. cbn [zBSplineParamBasis]. f_equal.
  - destruct (Nat.ltb_spec k (i + S r)); [|reflexivity]. pose proof (as_gap p t (S r) k i (i + S r) ltac:(lia) A I ltac:(lia)). destruct (Reqb_reflect (bs_at p (i + S r)) (bs_at p i)); [lra|reflexivity].
  - destruct (Nat.leb_spec i k); [|lia]. destruct (Nat.ltb_spec i k).
    + pose proof (as_gap p t (S r) k (i + 1) (i + S r + 1) ltac:(lia) A ltac:(lia) ltac:(lia)). destruct (Reqb_reflect (bs_at p (i + S r + 1)) (bs_at p (i + 1))); [lra|reflexivity].
    + rewrite basis_outside by lia. destruct (Reqb _ _); lra.
Qed.

Lemma ratio_unit a b t : a < b -> a <= t <= b -> 0 <= (t - a) / (b - a) /\ 0 <= (b - t) / (b - a).
Proof. intros. split; (apply Rmult_le_pos; [lra|]; left; apply Rinv_0_lt_compat; lra). Qed.

Lemma basis_nonneg p t r : forall k i, at_seg p t r k -> 0 <= zBSplineParamBasis p t i r k.
Proof.
  induction r as [|r IH]; intros k i A.
  - cbn. destruct (Nat.eqb i k); lra.
  - destruct (Nat.le_gt_cases k (i + S r)) as [H|H]; [|rewrite basis_outside by lia; lra]. destruct (Nat.le_gt_cases i k) as [I|I]; [|rewrite basis_outside by lia; lra].
    rewrite basis_step by assumption. pose proof (as_lower _ _ _ _ r A ltac:(lia)) as A'.
    apply Rplus_le_le_0_compat.
    + destruct (Nat.ltb_spec k (i + S r)); [|lra]. apply Rmult_le_pos; [|apply IH, A']. destruct (as_gap p t (S r) k i (i + S r) ltac:(lia) A I ltac:(lia)). apply ratio_unit; assumption.
    + destruct (Nat.ltb_spec i k); [|lra]. apply Rmult_le_pos; [|apply IH, A']. destruct (as_gap p t (S r) k (i + 1) (i + S r + 1) ltac:(lia) A ltac:(lia) ltac:(lia)). apply ratio_unit; assumption.
Qed.

Lemma rsum_app {A} (f : A -> R) l1 l2 : rsum f (l1 ++ l2) = rsum f l1 + rsum f l2.
Proof. induction l1 as [|a l IH]; cbn [app rsum fold_right]; [unfold rsum; cbn; ring|]. fold (rsum f (l ++ l2)) (rsum f l). rewrite IH. ring. Qed.
Lemma rsum_ext {A} (f g : A -> R) l : (forall a, List.In a l -> f a = g a) -> rsum f l = rsum g l.
Proof. intros H. induction l as [|a l IH]; [reflexivity|]. cbn. f_equal; [apply H; left; reflexivity|]. apply IH. intros; apply H; right; assumption. Qed.
Lemma rsum_plus {A} (f g : A -> R) l : rsum (fun a => f a + g a) l = rsum f l + rsum g l.
Proof. induction l as [|a l IH]; cbn; [ring|]. fold (rsum (fun a => f a + g a) l) (rsum f l) (rsum g l). rewrite IH. ring. Qed.
Lemma rsum_scale {A} (f : A -> R) k l : rsum (fun a => k * f a) l = k * rsum f l.
Proof. induction l as [|a l IH]; cbn; [ring|]. fold (rsum (fun a => k * f a) l) (rsum f l). rewrite IH. ring. Qed.
Lemma rsum_shift f a n : rsum (fun i => f (i + 1)%nat) (seq a n) = rsum f (seq (S a) n).
Proof. revert a. induction n as [|n IH]; intros a; [reflexivity|]. cbn [seq rsum fold_right]. fold (rsum (fun i => f (i + 1)%nat) (seq (S a) n)) (rsum f (seq (S (S a)) n)). rewrite IH. f_equal. f_equal. lia. Qed.
Lemma rsum_le {A} (f g : A -> R) l : (forall a, List.In a l -> f a <= g a) -> rsum f l <= rsum g l.
Proof. intros H. induction l as [|a l IH]; [cbn; lra|]. cbn. fold (rsum f l) (rsum g l). pose proof (H a ltac:(left; reflexivity)). assert (rsum f l <= rsum g l) by (apply IH; intros; apply H; right; assumption). lra. Qed.
Lemma rsum_pos {A} (f : A -> R) l : (forall a, List.In a l -> 0 <= f a) -> 0 <= rsum f l.
Proof. intros H. induction l as [|a l IH]; [cbn; lra|]. cbn. fold (rsum f l). pose proof (H a ltac:(left; reflexivity)). assert (0 <= rsum f l) by (apply IH; intros; apply H; right; assumption). lra. Qed.

Lemma rsum_cons {A} (f : A -> R) a l : rsum f (a :: l) = f a + rsum f l.
Proof. reflexivity. Qed.
Lemma seq_S a n : seq a (S n) = a :: seq (S a) n.
Proof. reflexivity. Qed.

(** the basis functions add up to one *)
Lemma basis_sum p t r : forall k, at_seg p t r k -> rsum (fun i => zBSplineParamBasis p t i r k) (seq (k - r) (S r)) = 1.
Proof.
  induction r as [|r IH]; intros k A.
  - replace (k - 0)%nat with k by lia. cbn. rewrite Nat.eqb_refl. lra.
  - pose proof (as_lower _ _ _ _ r A ltac:(lia)) as A'. pose proof (as_ord _ _ _ _ A) as O.
    set (al := fun i => (t - bs_at p i) / (bs_at p (i + S r) - bs_at p i) * zBSplineParamBasis p t i r k).
    set (be := fun i => (bs_at p (i + S r) - t) / (bs_at p (i + S r) - bs_at p i) * zBSplineParamBasis p t i r k).
    rewrite (rsum_ext _ (fun i => (if Nat.ltb k (i + S r) then al i else 0) + (if Nat.ltb i k then be (i + 1)%nat else 0))).
    2: { intros i Hi. apply in_seq in Hi. rewrite basis_step by (assumption || lia). unfold al, be. replace (i + S r + 1)%nat with (i + 1 + S r)%nat by lia. reflexivity. }
    rewrite rsum_plus.
    assert (E1 : rsum (fun i => if Nat.ltb k (i + S r) then al i else 0) (seq (k - S r) (S (S r))) = rsum al (seq (k - r) (S r))).
    { rewrite (seq_S (k - S r) (S r)), rsum_cons. destruct (Nat.ltb_spec k (k - S r + S r)); [lia|]. replace (S (k - S r)) with (k - r)%nat by lia. rewrite Rplus_0_l.
      apply rsum_ext. intros i Hi. apply in_seq in Hi. destruct (Nat.ltb_spec k (i + S r)); [reflexivity|lia]. }
    assert (E2 : rsum (fun i => if Nat.ltb i k then be (i + 1)%nat else 0) (seq (k - S r) (S (S r))) = rsum be (seq (k - r) (S r))).
    { replace (S (S r)) with (S r + 1)%nat by lia. rewrite seq_app, rsum_app. replace (k - S r + S r)%nat with k by lia. change (seq k 1) with [k]. rewrite (rsum_cons _ k []), (Nat.ltb_irrefl k).
      rewrite (rsum_ext (fun i => if Nat.ltb i k then be (i + 1)%nat else 0) (fun i => be (i + 1)%nat)) by (intros i Hi; apply in_seq in Hi; destruct (Nat.ltb_spec i k); [reflexivity|lia]).
      rewrite (rsum_shift be). replace (S (k - S r)) with (k - r)%nat by lia. cbn. ring. }
    rewrite E1, E2, <- rsum_plus. rewrite <- (IH k A'). apply rsum_ext. intros i Hi. apply in_seq in Hi. unfold al, be.
    destruct (as_gap p t (S r) k i (i + S r) ltac:(lia) A ltac:(lia) ltac:(lia)). field. lra.
Qed.
