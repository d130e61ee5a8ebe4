(** Facts on single precision numbers. *)
From Flocq Require Import Core.Core IEEE754.BinarySingleNaN IEEE754.Binary IEEE754.Bits.
From Coq Require Import Reals ZArith Lia Lra.
From Verif Require Import Spec SpecFile SpecSingle ModelStl FactsStl3.
Open Scope R_scope.

Lemma single_four : four_bytes single.
Proof. intros x. reflexivity. Qed.
#[local] Instance single_valid : Valid_exp single_format.
Proof. apply FLT_exp_valid. reflexivity. Qed.
Lemma single_recoded x : Rabs (to_single x) < bpow radix2 128 -> recoded single x = to_single x.
Proof.
  intros H. unfold recoded, single. cbn [fenc fdec].
  assert (Rg := bits_of_binary_float_range 23 8 eq_refl eq_refl (single_b32 x)).
  rewrite of32_le32 by exact Rg. unfold b32_of_bits, bits_of_b32. rewrite binary_float_of_bits_of_binary_float.
  unfold single_b32. set (y := to_single x) in *.
  assert (G : generic_format radix2 single_format y) by (apply generic_format_round; [apply single_valid|apply valid_rnd_N]).
  assert (E : F2R {| Fnum := Ztrunc (scaled_mantissa radix2 single_format y); Fexp := cexp radix2 single_format y |} = y) by (symmetry; exact G).
  assert (C := binary_normalize_correct 24 128 single_prec single_emax mode_NE (Ztrunc (scaled_mantissa radix2 single_format y)) (cexp radix2 single_format y) false).
  rewrite E in C. change (SpecFloat.fexp 24 128) with single_format in C.
  assert (Rn : round radix2 single_format (round_mode mode_NE) y = y) by (apply round_generic; [apply valid_rnd_N|exact G]).
  rewrite Rn in C. rewrite Rlt_bool_true in C by exact H. apply C.
Qed.
Lemma single_exact x : is_single x -> recoded single x = x.
Proof.
  intros [G B]. assert (E : to_single x = x) by (apply round_generic; [apply valid_rnd_N|exact G]). rewrite single_recoded; rewrite E; auto.
Qed.
Lemma single_integer n : (Z.abs n < 16777216)%Z -> is_single (IZR n).
Proof.
  intros H. assert (E : IZR n = F2R (Float radix2 n 0)) by (unfold F2R; cbn [Fnum Fexp bpow]; ring). split.
  - apply generic_format_FLT. exists (Float radix2 n 0); [exact E|exact H|cbn; lia].
  - rewrite <- abs_IZR. apply Rlt_trans with (IZR 16777216); [apply IZR_lt, H|]. change (IZR 16777216) with (bpow radix2 24). apply bpow_lt. lia.
Qed.
Lemma single_tris ts : (forall v, List.In v (all_corners ts) -> is_single (vx v) /\ is_single (vy v) /\ is_single (vz v)) -> map (each3 (each (recoded single))) ts = ts.
Proof.
  induction ts as [|[[a b] c] ts IH]; intros H; [reflexivity|]. cbn [map each3]. rewrite IH by (intros v Hv; apply H; unfold all_corners; cbn [flat_map]; apply in_or_app; now right).
  assert (K : forall v, List.In v [a; b; c] -> each (recoded single) v = v).
  { intros v Hv. destruct (H v) as (X & Y & Z); [unfold all_corners; cbn [flat_map]; apply in_or_app; left; exact Hv|]. unfold each. rewrite !single_exact by assumption. now destruct v. }
  rewrite !K by (cbn; auto). reflexivity.
Qed.
