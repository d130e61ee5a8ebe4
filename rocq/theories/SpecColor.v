(** Vocabulary for colours, independent of the code: the unit cube of red,
    green and blue, the colour circle of hue, saturation and value, and what a
    string of hexadecimal digits denotes. *)
From Verif Require Import Base.
From Coq Require Import List Ascii String NArith Lra.
Import ListNotations.
Open Scope R_scope.

Record rgb := RGB { cr : R; cg : R; cb : R }.
Record hsv := HSV { hue : R; sat : R; val : R }.

Definition in01 (x : R) : Prop := 0 <= x <= 1.
Definition in_cube (c : rgb) : Prop := in01 (cr c) /\ in01 (cg c) /\ in01 (cb c).

(** closest number in the unit interval *)
Definition clamp01 (x : R) : R := Rmax 0 (Rmin 1 x).

(** distance in degrees of two points on the colour circle *)
Definition arc (h c : R) : R := Rmin (Rabs (h - c)) (360 - Rabs (h - c)).
(** a primary colour placed at [c] is full within 60 degrees, absent beyond
    120 degrees and linear in between *)
Definition weight (h c : R) : R := clamp01 (2 - arc h c / 60).
(** red at 0, green at 120 and blue at 240 degrees; saturation mixes with
    white, value scales *)
Definition colour (x : hsv) : rgb :=
  RGB (val x * (1 - sat x + sat x * weight (hue x) 0))
      (val x * (1 - sat x + sat x * weight (hue x) 120))
      (val x * (1 - sat x + sat x * weight (hue x) 240)).
Definition hsv_valid (x : hsv) : Prop := 0 <= hue x < 360 /\ in01 (sat x) /\ in01 (val x).

(** hexadecimal digits and numerals *)
Definition str (s : string) : list ascii := list_ascii_of_string s.
Definition digit (c : ascii) (n : nat) : Prop :=
  nth_error (str "0123456789abcdef") n = Some c \/ nth_error (str "0123456789ABCDEF") n = Some c.
Inductive denotes : list ascii -> N -> Prop :=
| den_nil : denotes [] 0
| den_snoc l v c n : denotes l v -> digit c n -> denotes (l ++ [c]) (16 * v + N.of_nat n).

(** a fraction of the greatest number of as many digits *)
Definition fraction (v : N) (n : nat) : R := IZR (Z.of_N v) / (16 ^ n - 1).
