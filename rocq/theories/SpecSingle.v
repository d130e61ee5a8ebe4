(** Single precision numbers (IEEE 754 binary32) and their four bytes, little-endian, after Flocq. *)
From Flocq Require Import Core.Core IEEE754.BinarySingleNaN IEEE754.Binary IEEE754.Bits.
From Coq Require Import Reals ZArith.
From Verif Require Import SpecFile.
Open Scope R_scope.

(** rounding to the nearest, ties to even, without bound on the exponent above; numbers that need no rounding *)
Definition single_format : Z -> Z := FLT_exp (-149) 24.
Definition to_single (x : R) : R := round radix2 single_format ZnearestE x.
Definition is_single (x : R) : Prop := generic_format radix2 single_format x /\ Rabs x < bpow radix2 128.
Lemma single_prec : Prec_gt_0 24. Proof. reflexivity. Qed.
Lemma single_emax : Prec_lt_emax 24 128. Proof. reflexivity. Qed.
Definition single_b32 (x : R) : binary32 :=
  binary_normalize 24 128 single_prec single_emax mode_NE (Ztrunc (scaled_mantissa radix2 single_format (to_single x))) (cexp radix2 single_format (to_single x)) false.
Definition single : fcodec := FCodec (fun x => le32 (bits_of_b32 (single_b32 x))) (fun b => B2R 24 128 (b32_of_bits (of32 b))).
