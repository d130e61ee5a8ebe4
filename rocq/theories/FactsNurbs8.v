(** Derivatives: basis functions, tangents, normals. *)
From Verif Require Import Base Spec SpecMesh SpecNurbs ModelNurbs FactsAlg FactsVec FactsElem FactsNurbs FactsNurbs2.
From Coq Require Import List Lra Lia.
Import ListNotations.
Open Scope R_scope.

Section Diff.
Variables (p : bspl) (k o : nat).
Hypothesis UP : forall i j, (i <= j <= k + o)%nat -> bs_at p i <= bs_at p j.
Hypothesis PO : bs_at p k < bs_at p (S k).
Definition gr (i r : nat) : R := if (Nat.leb i k && Nat.ltb k (i + r))%bool then / (bs_at p (i + r) - bs_at p i) else 0.
Lemma gap i j : (i <= k)%nat -> (k < j <= k + o)%nat -> bs_at p i < bs_at p j.
Proof. intros I J. pose proof (UP i k ltac:(lia)). pose proof (UP (S k) j ltac:(lia)). lra. Qed.
Lemma gr_one i r : (r <= o)%nat -> (i <= k < i + r)%nat -> (bs_at p (i + r) - bs_at p i) * gr i r = 1.
Proof. intros R I. unfold gr. pose proof (gap i (i + r) ltac:(lia) ltac:(lia)). destruct (Nat.leb_spec i k); [|lia]. destruct (Nat.ltb_spec k (i + r)); [|lia]. cbn [andb]. field. lra. Qed.
Lemma gr_in i r : (i <= k < i + r)%nat -> gr i r = / (bs_at p (i + r) - bs_at p i).
Proof. intros I. unfold gr. destruct (Nat.leb_spec i k); [|lia]. destruct (Nat.ltb_spec k (i + r)); [|lia]. reflexivity. Qed.
Lemma basis_g t r i : (S r <= o)%nat -> zBSplineParamBasis p t i (S r) k = (t - bs_at p i) * gr i (S r) * zBSplineParamBasis p t i r k + (bs_at p (i + S r + 1) - t) * gr (i + 1) (S r) * zBSplineParamBasis p t (i + 1) r k.
Proof.
  intros R. cbn [zBSplineParamBasis]. f_equal.
  - destruct (Nat.ltb_spec k (i + S r)) as [H|H].
    + destruct (Nat.le_gt_cases i k) as [I|I].
      * rewrite gr_in by lia. pose proof (gap i (i + S r) I ltac:(lia)). destruct (Reqb_reflect (bs_at p (i + S r)) (bs_at p i)); [lra|]. reflexivity.
      * rewrite (basis_outside p t r i k) by lia. destruct (Reqb (bs_at p (i + S r)) (bs_at p i)); ring.
    + rewrite (basis_outside p t r i k) by lia. ring.
  - destruct (Nat.leb_spec i k) as [I|I]; [|rewrite (basis_outside p t r (i + 1) k) by lia; ring].
    destruct (Nat.le_gt_cases (i + 1) k) as [J|J]; [destruct (Nat.le_gt_cases k (i + 1 + r)) as [L|L]|].
    + rewrite gr_in by lia. replace (i + S r + 1)%nat with (i + 1 + S r)%nat by lia. pose proof (gap (i + 1) (i + 1 + S r) J ltac:(lia)). destruct (Reqb_reflect (bs_at p (i + 1 + S r)) (bs_at p (i + 1))); [lra|]. reflexivity.
    + rewrite (basis_outside p t r (i + 1) k) by lia. destruct (Reqb (bs_at p (i + S r + 1)) (bs_at p (i + 1))); ring.
    + rewrite (basis_outside p t r (i + 1) k) by lia. destruct (Reqb (bs_at p (i + S r + 1)) (bs_at p (i + 1))); ring.
Qed.
Lemma diff_g t r i : (S r <= o)%nat -> zBSplineParamBasisDiff1 p t i (S r) k = INR (S r) * (gr i (S r) * zBSplineParamBasis p t i r k - gr (i + 1) (S r) * zBSplineParamBasis p t (i + 1) r k).
Proof.
  intros R. unfold zBSplineParamBasisDiff1. do 2 f_equal.
  - destruct (Nat.ltb_spec k (i + S r)) as [H|H].
    + destruct (Nat.le_gt_cases i k) as [I|I].
      * rewrite gr_in by lia. pose proof (gap i (i + S r) I ltac:(lia)). destruct (Reqb_reflect (bs_at p (i + S r)) (bs_at p i)); [lra|]. unfold Rdiv. ring.
      * rewrite (basis_outside p t r i k) by lia. destruct (Reqb (bs_at p (i + S r)) (bs_at p i)); unfold Rdiv; ring.
    + rewrite (basis_outside p t r i k) by lia. ring.
  - destruct (Nat.leb_spec i k) as [I|I]; [|rewrite (basis_outside p t r (i + 1) k) by lia; ring].
    destruct (Nat.le_gt_cases (i + 1) k) as [J|J]; [destruct (Nat.le_gt_cases k (i + 1 + r)) as [L|L]|].
    + rewrite gr_in by lia. replace (i + S r + 1)%nat with (i + 1 + S r)%nat by lia. pose proof (gap (i + 1) (i + 1 + S r) J ltac:(lia)). destruct (Reqb_reflect (bs_at p (i + 1 + S r)) (bs_at p (i + 1))); [lra|]. unfold Rdiv. ring.
    + rewrite (basis_outside p t r (i + 1) k) by lia. destruct (Reqb (bs_at p (i + S r + 1)) (bs_at p (i + 1))); unfold Rdiv; ring.
    + rewrite (basis_outside p t r (i + 1) k) by lia. destruct (Reqb (bs_at p (i + S r + 1)) (bs_at p (i + 1))); unfold Rdiv; ring.
Qed.
Lemma dl_eq f x l l' : derivable_pt_lim f x l -> l = l' -> derivable_pt_lim f x l'.
Proof. intros H <-. exact H. Qed.
Lemma dl_ext f g x l : (forall t, f t = g t) -> derivable_pt_lim f x l -> derivable_pt_lim g x l.
Proof. intros E H e He. destruct (H e He) as [d D]. exists d. intros h H1 H2. rewrite <- !E. apply D; assumption. Qed.
Lemma basis_diff r : forall i t, (r <= o)%nat -> derivable_pt_lim (fun t => zBSplineParamBasis p t i r k) t (zBSplineParamBasisDiff1 p t i r k).
Proof.
  induction r as [|r IH]; intros i t R.
  - cbn. apply derivable_pt_lim_const.
  - eapply dl_ext; [intros x; symmetry; apply basis_g; exact R|]. rewrite diff_g by exact R.
    pose proof (IH i t ltac:(lia)) as D0. pose proof (IH (i + 1)%nat t ltac:(lia)) as D1.
    assert (L0 : derivable_pt_lim (fun x => (x - bs_at p i) * gr i (S r)) t (gr i (S r))).
    { apply dl_ext with (fun x => gr i (S r) * (x - bs_at p i)); [intros; ring|]. apply dl_eq with (gr i (S r) * (1 - 0)); [|ring]. apply derivable_pt_lim_scal, derivable_pt_lim_minus; [apply derivable_pt_lim_id|apply derivable_pt_lim_const]. }
    assert (L1 : derivable_pt_lim (fun x => (bs_at p (i + S r + 1) - x) * gr (i + 1) (S r)) t (- gr (i + 1) (S r))).
    { apply dl_ext with (fun x => gr (i + 1) (S r) * (bs_at p (i + S r + 1) - x)); [intros; ring|]. apply dl_eq with (gr (i + 1) (S r) * (0 - 1)); [|ring]. apply derivable_pt_lim_scal, derivable_pt_lim_minus; [apply derivable_pt_lim_const|apply derivable_pt_lim_id]. }
    eapply dl_eq; [exact (derivable_pt_lim_plus _ _ _ _ _ (derivable_pt_lim_mult _ _ _ _ _ L0 D0) (derivable_pt_lim_mult _ _ _ _ _ L1 D1))|]. clear L0 L1 D0 D1 IH.
    destruct r as [|r].
    { unfold zBSplineParamBasisDiff1. cbn [INR]. ring. }
    rewrite !diff_g by lia. rewrite (basis_g t r i) by lia. rewrite (basis_g t r (i + 1)) by lia. rewrite (S_INR (S r)).
    set (N0 := zBSplineParamBasis p t i r k). set (N1 := zBSplineParamBasis p t (i + 1) r k). set (N2 := zBSplineParamBasis p t (i + 1 + 1) r k).
    assert (KEY : gr (i + 1) (S r) * N1 * ((bs_at p (i + S r + 1) - bs_at p i) * gr i (S (S r)) - (bs_at p (i + S (S r) + 1) - bs_at p (i + 1)) * gr (i + 1) (S (S r))) = 0).
    { destruct (Nat.le_gt_cases (i + 1) k) as [I|I]; [destruct (Nat.lt_ge_cases k (i + 1 + S r)) as [J|J]|].
      - pose proof (gr_one i (S (S r)) ltac:(lia) ltac:(lia)) as E1. pose proof (gr_one (i + 1) (S (S r)) ltac:(lia) ltac:(lia)) as E2.
        replace (i + S r + 1)%nat with (i + S (S r))%nat by lia. replace (i + S (S r) + 1)%nat with (i + 1 + S (S r))%nat by lia. rewrite E1, E2. ring.
      - unfold N1. rewrite basis_outside by lia. ring.
      - unfold N1. rewrite basis_outside by lia. ring. }
    replace (i + 1 + S r + 1)%nat with (i + S (S r) + 1)%nat by lia. revert KEY. set (G0 := gr i (S (S r))). set (G1 := gr (i + 1) (S (S r))). set (H0 := gr i (S r)). set (H1 := gr (i + 1) (S r)). set (H2 := gr (i + 1 + 1) (S r)).
    set (c := INR (S r)). set (a0 := bs_at p i). set (a1 := bs_at p (i + 1)). set (b0 := bs_at p (i + S r + 1)). set (b1 := bs_at p (i + S (S r) + 1)). clearbody N0 N1 N2 G0 G1 H0 H1 H2 c a0 a1 b0 b1. clear. intros KEY.
    match goal with |- ?L = ?R => assert (L - R = - c * (H1 * N1 * ((b0 - a0) * G0 - (b1 - a1) * G1))) by ring end. rewrite KEY in H. lra.
Qed.
End Diff.
Lemma dl_sum {A} (f : A -> R -> R) (f' : A -> R) t l : (forall a, derivable_pt_lim (f a) t (f' a)) -> derivable_pt_lim (fun x => rsum (fun a => f a x) l) t (rsum f' l).
Proof.
  intros H. induction l as [|a l IH]; [cbn; apply derivable_pt_lim_const|]. eapply dl_ext; [intros x; symmetry; apply (rsum_cons (fun a => f a x))|]. rewrite rsum_cons. apply (derivable_pt_lim_plus (f a) (fun x => rsum (fun a => f a x) l)); [apply H|exact IH].
Qed.
