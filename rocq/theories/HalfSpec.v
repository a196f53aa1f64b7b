(** Independent vocabulary: the numbers that bits stand for (IEEE 754). *)
From Coq Require Import ZArith Bool List.
Local Open Scope Z_scope.

(** A format with [k] exponent bits and [m] significand bits. *)
Definition sign_of (k m bits : Z) : Z := bits / 2 ^ (k + m).
Definition exponent_of (k m bits : Z) : Z := (bits / 2 ^ m) mod 2 ^ k.
Definition fraction_of (m bits : Z) : Z := bits mod 2 ^ m.

(** Magnitudes are counted in units of the smallest positive number. *)
Definition magnitude (k m bits : Z) : Z :=
  if exponent_of k m bits =? 0 then fraction_of m bits
  else (2 ^ m + fraction_of m bits) * 2 ^ (exponent_of k m bits - 1).
Definition number (k m bits : Z) : Z :=
  if sign_of k m bits =? 0 then magnitude k m bits else - magnitude k m bits.
Definition finite (k m bits : Z) : Prop := exponent_of k m bits <> 2 ^ k - 1.
Definition infinite (k m bits : Z) : Prop := exponent_of k m bits = 2 ^ k - 1 /\ fraction_of m bits = 0.
Definition nan (k m bits : Z) : Prop := exponent_of k m bits = 2 ^ k - 1 /\ fraction_of m bits <> 0.

Definition half_bits (h : Z) : Prop := 0 <= h < 2 ^ 16.
Definition float_bits (x : Z) : Prop := 0 <= x < 2 ^ 32.

(** The number a half, and a float, stands for, in units of 2^-149. *)
Definition half_value (h : Z) : Z := number 5 10 h * 2 ^ 125.
Definition float_value (x : Z) : Z := number 8 23 x.
Definition half_finite (h : Z) : Prop := finite 5 10 h.
Definition float_finite (x : Z) : Prop := finite 8 23 x.

(** [h] is the half nearest to the number [v], and the one with even bits if two
    halfs are equally near. *)
Definition nearest_half (v h : Z) : Prop :=
  half_bits h /\ half_finite h /\
  forall h', half_bits h' -> half_finite h' ->
    Z.abs (half_value h - v) <= Z.abs (half_value h' - v) /\
    (half_value h' <> half_value h -> Z.abs (half_value h - v) = Z.abs (half_value h' - v) -> Z.even h = true).
