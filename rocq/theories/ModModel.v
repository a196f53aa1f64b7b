(** Model of the remainder of Mod2 for one pair of elements (src/nbla/function/generic/mod2.cpp); how
    elements are paired is that of other functions of two arrays.

    Floating-point numbers are rational numbers without rounding.  [None]: undefined behaviour of
    integers, or no number. *)
From Coq Require Import List ZArith Bool QArith Qcanon Qround.
From Verif Require Import ReduceModel.
Local Open Scope Z_scope.

(** IntegerModBinaryOp (mod2.cpp:32-41) for a type whose least value, after promotion to int, is
    [least]; % is undefined for a divisor of 0, and for [least] and -1. *)
Definition integer_mod (least x0 x1 : Z) : option Z :=
  if (x1 =? 0) || ((x0 =? least) && (x1 =? -1)) then None else
  let ret := Z.rem x0 x1 in
  Some (if ((0 <? ret) && (x1 <? 0)) || ((ret <? 0) && (0 <? x1)) then ret + x1 else ret).
(** An integer as double: the nearest of 53 bits, and of two the even one. *)
Definition to_double (x : Z) : Z :=
  let a := Z.abs x in
  let e := Z.max 0 (Z.log2 a - 52) in
  let q := a / 2 ^ e in
  let r := a mod 2 ^ e in
  let up := (2 ^ e <? 2 * r) || ((2 ^ e =? 2 * r) && Z.odd q) in
  Z.sgn x * ((if up then q + 1 else q) * 2 ^ e).
(** FloatModBinaryOp (mod2.cpp:25-30) with integers: std::fmod of integers computes with doubles. *)
Definition integer_fmod (x0 x1 : Z) : option Z :=
  if to_double x1 =? 0 then None else Some (Z.rem (to_double x0) (to_double x1)).
(** Towards zero. *)
Definition truncate (q : Q) : Z := if Qle_bool 0 q then Qfloor q else Qceiling q.
(** FloatModBinaryOp with floating-point numbers. *)
Definition float_mod (x0 x1 : Qc) : option Qc :=
  if Qc_eq_dec x1 0 then None else Some (x0 - x1 * of_Z (truncate (this (x0 / x1)))%Qc)%Qc.
(** Mod2::forward_impl (mod2.cpp:94-172): which of them is used. *)
Inductive number := Float (q : Qc) | Integer (z : Z).
Definition mod2 (fmod : bool) (least : Z) (x0 x1 : number) : option number :=
  match x0, x1 with
  | Float a, Float b => option_map Float (float_mod a b)
  | Integer a, Integer b => option_map Integer (if fmod then integer_fmod a b else integer_mod least a b)
  | _, _ => None
  end.
