(** Model of the half precision number type: include/nbla/float_bits.hpp,
    include/nbla/half.hpp and src/nbla/half.cpp.

    A number of type Half, float or double is represented by its bits, an integer
    between 0 and 2^n.  Masks, shifts and additions of the C++ code are the
    operations of Z on these; an addition that can leave the type is reduced
    modulo 2^n.

    Not modelled: arithmetic of the type float, which the arithmetic of Half uses
    (half.cpp:57-140), and the functions of <cmath>. *)
From Coq Require Import ZArith Bool List.
Import ListNotations.
Local Open Scope Z_scope.

(** nbits<T> (float_bits.hpp:28-47) *)
Record fmt := { n : Z; nexp : Z; nsig : Z }.
Definition Half : fmt := {| n := 16; nexp := 5; nsig := 10 |}.
Definition Float : fmt := {| n := 32; nexp := 8; nsig := 23 |}.

(** The constants of float_bits<T> (float_bits.hpp:52-59). *)
Definition sign_mask (T : fmt) : Z := 2 ^ (n T - 1).
Definition exp_mask (T : fmt) : Z := 2 ^ nexp T - 1.
Definition inf_bits (T : fmt) : Z := Z.shiftl (exp_mask T) (nsig T).
Definition sig_mask (T : fmt) : Z := 2 ^ nsig T - 1.
Definition exp_bias (T : fmt) : Z := 2 ^ (nexp T - 1) - 1.
Definition exp_max (T : fmt) : Z := exp_bias T.
Definition exp_min (T : fmt) : Z := - exp_bias T + 1.
Definition implied_bit (T : fmt) : Z := sig_mask T + 1.
Definition diff_sig (T U : fmt) : Z := nsig T - nsig U.

Definition wrap (T : fmt) (x : Z) : Z := x mod 2 ^ n T.

(** get_significand_bits, get_signed_exponent, get_sign_bit_of, get_sign_bit_from,
    signed_exp_to_bits (float_bits.hpp:64-82) *)
Definition significand (T : fmt) (bits : Z) : Z := Z.land bits (sig_mask T).
Definition signed_exponent (T : fmt) (bits : Z) : Z :=
  Z.land (Z.shiftr bits (nsig T)) (exp_mask T) - exp_bias T.
Definition sign_bit_of (T U : fmt) (bits : Z) : Z :=
  Z.land (Z.shiftr bits (n T - n U)) (sign_mask U).
Definition sign_bit_from (T U : fmt) (bits : Z) : Z :=
  Z.land (Z.shiftl bits (n T - n U)) (sign_mask T).
Definition signed_exp_to_bits (U : fmt) (e : Z) : Z := wrap U (Z.shiftl (e + exp_bias U) (nsig U)).

(** round_ties_to_even (float_bits.hpp:83-93) *)
Definition round_ties_to_even (T U : fmt) (sig : Z) : Z :=
  let mask := Z.shiftl 1 (diff_sig T U + 1) - 1 in
  let tie := Z.shiftl 1 (diff_sig T U - 1) in
  if Z.land sig mask =? tie then sig else wrap T (sig + tie).

(** downconvert_to (float_bits.hpp:105-160) *)
Definition downconvert (T U : fmt) (bits : Z) : Z :=
  let tsign := sign_bit_of T U bits in
  let e := signed_exponent T bits in
  let sig := significand T bits in
  if e =? exp_max T + 1 then
    if sig =? 0 then Z.lor tsign (inf_bits U)
    else let tsig := wrap U (Z.shiftr sig (diff_sig T U)) in
         let tsig := if tsig =? 0 then tsig + 1 else tsig in
         Z.lor (Z.lor tsign (inf_bits U)) tsig
  else if e >? exp_max U then Z.lor tsign (inf_bits U)
  else if e <? exp_min U - nsig U then tsign
  else if e >=? exp_min U then
    let sig := round_ties_to_even T U sig in
    Z.lor tsign (signed_exp_to_bits U e + wrap U (Z.shiftr sig (diff_sig T U)))
  else
    let sig := Z.lor sig (implied_bit T) in
    let rshift := - e + exp_min U in
    let sig := Z.shiftr sig rshift in
    let sig := round_ties_to_even T U sig in
    Z.lor tsign (wrap U (Z.shiftr sig (diff_sig T U))).

(** The loop of upconvert_to (float_bits.hpp:190-194); the fuel is the number of
    bits of the significand. *)
Fixpoint normalize (fuel : nat) (T U : fmt) (sig texp : Z) : Z * Z :=
  match fuel with
  | O => (sig, texp)
  | S fuel' =>
      if Z.land sig (implied_bit T) =? 0
      then normalize fuel' T U (wrap T (Z.shiftl sig 1)) (wrap U (texp - 1))
      else (sig, texp)
  end.

(** The bits upconvert_to computes (float_bits.hpp:164-206). *)
Definition upconvert_bits (T U : fmt) (bits : Z) : Z :=
  let dsig := diff_sig U T in
  let tsign := sign_bit_from U T bits in
  let e := signed_exponent T bits in
  let sig := significand T bits in
  if e =? exp_max T + 1 then Z.lor (Z.lor tsign (inf_bits U)) (Z.shiftl sig dsig)
  else if e =? exp_min T - 1 then
    if sig =? 0 then tsign
    else
      let '(sig', texp) := normalize (Z.to_nat (nsig T)) T U (wrap T (Z.shiftl sig 1))
                                     (exp_bias U - exp_bias T) in
      Z.lor (Z.lor tsign (Z.shiftl texp (nsig U))) (Z.shiftl (significand T sig') dsig)
  else Z.lor (Z.lor tsign (Z.shiftl (e + exp_bias U) (nsig U))) (Z.shiftl sig dsig).

(** upconvert_to is declared to return U itself, so that the unsigned integer of
    bits is converted to the nearest float (ties to even), and halfbits2float
    (half.hpp:38-45) converts that number back to an unsigned integer. *)
Definition nearest_float_of_uint (x : Z) : Z :=
  let k := Z.log2 x - nsig Float in
  if k <=? 0 then x
  else let q := Z.shiftr x k in
       let r := x - Z.shiftl q k in
       let half := 2 ^ (k - 1) in
       let q' := if (half <? r) || ((r =? half) && Z.odd q) then q + 1 else q in
       Z.shiftl q' k.

(** float2halfbits and halfbits2float (half.hpp:29-45) *)
Definition half_of_float (bits : Z) : Z := downconvert Float Half bits.
Definition float_of_half (bits : Z) : Z := wrap Float (nearest_float_of_uint (upconvert_bits Half Float bits)).

(** ** Comparisons

    The built-in comparisons of float: false if one of the numbers is not a number,
    otherwise the comparison of the values. *)
Definition is_nan (T : fmt) (bits : Z) : bool := 
  (signed_exponent T bits =? exp_max T + 1) && negb (significand T bits =? 0).
(** A number that orders the floats other than NaN as their values. *)
Definition order_key (T : fmt) (bits : Z) : Z :=
  let m := Z.land bits (sign_mask T - 1) in
  if Z.land bits (sign_mask T) =? 0 then m else - m.
Definition float_lt (a b : Z) : bool :=
  negb (is_nan Float a) && negb (is_nan Float b) && (order_key Float a <? order_key Float b).
Definition float_eq (a b : Z) : bool :=
  negb (is_nan Float a) && negb (is_nan Float b) && (order_key Float a =? order_key Float b).

(** The operators on two Halfs (half.cpp:174-179). *)
Definition half_lt (a b : Z) : bool := float_lt (float_of_half a) (float_of_half b).
Definition half_gt (a b : Z) : bool := half_lt b a.
Definition half_le (a b : Z) : bool := negb (half_gt a b).
Definition half_ge (a b : Z) : bool := negb (half_lt a b).
Definition half_eq (a b : Z) : bool := a =? b.
Definition half_ne (a b : Z) : bool := negb (half_eq a b).

(** The operators on a Half and a float (half.cpp:149-159). *)
Definition half_float_lt (a b : Z) : bool := float_lt (float_of_half a) b.
Definition half_float_eq (a b : Z) : bool := float_eq (float_of_half a) b.

(** numeric_limits<Half> (half.hpp:246-252): the literals 6.10352e-5 and 3.2768e+4,
    converted to float, are the bits 0x38800006 and 0x47000000. *)
Definition half_min : Z := half_of_float 0x38800006.
Definition half_max : Z := half_of_float 0x47000000.
