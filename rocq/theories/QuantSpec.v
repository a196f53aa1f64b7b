(** What functions that simulate quantization should compute. *)
From Coq Require Import List ZArith Bool QArith Qcanon.
From Verif Require Import NdSpec ScanSpec ReduceSpec ConvSpec MatSpec BinSpec.
Import ListNotations.
Local Open Scope list_scope.
Local Open Scope Qc_scope.

(** An integer, and the size of a number. *)
Definition whole_number (k : Z) : Qc := Q2Qc (inject_Z k).
Definition mag (v : Qc) : Qc := if Qclt_le_dec v 0 then - v else v.

(** [y] is the multiple of [delta] nearest to [x] among those from [lo] to [hi] times [delta];
    of two it is the one farther from 0. *)
Definition on_grid (delta : Qc) (lo hi : Z) (x y : Qc) : Prop :=
  exists k : Z, (lo <= k <= hi)%Z /\ y = whole_number k * delta /\
  forall j : Z, (lo <= j <= hi)%Z -> mag (x - y) <= mag (x - whole_number j * delta) /\
    (mag (x - y) = mag (x - whole_number j * delta) -> (Z.abs j <= Z.abs k)%Z).
(** Bits for the size of a number. *)
Definition bits (sign : bool) (n : Z) : Z := (if sign then n - 1 else n)%Z.

(** 2^k, for any integer. *)
Definition two_to (k : Z) : Qc := if (k <? 0)%Z then / whole_number (2 ^ - k) else whole_number (2 ^ k).
(** How many times the greater of two positive numbers is the less. *)
Definition factor (a b : Qc) : Qc := if Qclt_le_dec a b then b / a else a / b.
(** [q] is the power of two nearest to [a] by factor, among those from 2^lo to 2^hi; of two it is
    the greater one. *)
Definition nearest_power (lo hi : Z) (a q : Qc) : Prop :=
  exists k : Z, (lo <= k <= hi)%Z /\ q = two_to k /\
  forall j : Z, (lo <= j <= hi)%Z -> factor a q <= factor a (two_to j) /\ (factor a q = factor a (two_to j) -> (j <= k)%Z).

(** [k] is the nearest integer; of two it is the even one, or the one farther from 0. *)
Definition rounds_to (even : bool) (v : Qc) (k : Z) : Prop :=
  forall j : Z, mag (v - whole_number k) <= mag (v - whole_number j) /\
    (j <> k -> mag (v - whole_number k) = mag (v - whole_number j) -> if even then Z.Even k else (Z.abs j < Z.abs k)%Z).
(** The integers of the type BYTE (1) or UBYTE (2). *)
Definition dtype_range (narrow : bool) (dtype lo hi : Z) : Prop :=
  (dtype = 1%Z /\ lo = (if narrow then -127 else -128)%Z /\ hi = 127%Z) \/ (dtype = 2%Z /\ lo = (if narrow then 1 else 0)%Z /\ hi = 255%Z).
(** The integer of a range that is nearest to an integer. *)
Definition into (lo hi k : Z) : Z := Z.max lo (Z.min hi k).
(** The quantized size of a number of size [a]: with zero, numbers below 2^lo / sqrt 2 are 0. *)
Definition power_value (with_zero : bool) (lo hi : Z) (a q : Qc) : Prop :=
  if with_zero then ((1 + 1) * (a * a) < two_to lo * two_to lo -> q = 0) /\ (two_to lo * two_to lo <= (1 + 1) * (a * a) -> nearest_power lo hi a q)
  else (a = 0 -> q = two_to lo) /\ (0 < a -> nearest_power lo hi a q).
(** Bits for exponents, and the least exponent. *)
Definition exponent_bits (sign with_zero : bool) (n : Z) : Z := (n - (if sign then 1 else 0) - (if with_zero then 1 else 0))%Z.
Definition least_exponent (sign with_zero : bool) (n m : Z) : Z := (m - (2 ^ exponent_bits sign with_zero n - 1))%Z.

(** [v] is the least (greatest) element of [x], of shape [A], among those that belong to element
    [b] of an array of shape [B]. *)
Definition least_at (A B : list Z) (x : list Qc) (b : list Z) (v : Qc) : Prop :=
  (exists c, inside c A /\ picked B c = b /\ qelem x A c = v) /\ forall c, inside c A -> picked B c = b -> v <= qelem x A c.
Definition greatest_at (A B : list Z) (x : list Qc) (b : list Z) (v : Qc) : Prop :=
  (exists c, inside c A /\ picked B c = b /\ qelem x A c = v) /\ forall c, inside c A -> picked B c = b -> qelem x A c <= v.
(** The limit of the range that is used: the old one, the extreme element, or their average. *)
Definition limit_of (x_min_max ema : bool) (decay old new : Qc) (extreme : Qc -> Prop) : Prop :=
  if x_min_max then exists v, extreme v /\ new = (if ema then decay * old + (1 - decay) * v else v) else new = old.
(** The upper limit is at least [eps] above the lower one. *)
Definition kept_apart (eps lower upper new : Qc) : Prop := (eps <= upper - lower -> new = upper) /\ (upper - lower < eps -> new = lower + eps).
(** The level of the number 0. *)
Definition zero_level (l h : Z) (zf : Qc) (zp : Z) : Prop := exists k, rounds_to false zf k /\ zp = into l h k.
(** [y] is the number of level [q], from [l] to [h], nearest to [x]; of two it is the greater. *)
Definition nearest_level (l h zp : Z) (s x y : Qc) (q : Z) : Prop :=
  (l <= q <= h)%Z /\ y = whole_number (q - zp) * s /\
  forall j : Z, (l <= j <= h)%Z -> mag (x - y) <= mag (x - whole_number (j - zp) * s) /\
    (mag (x - y) = mag (x - whole_number (j - zp) * s) -> (j <= q)%Z).

(** The numbers of elements smaller than [t], and of elements not greater than [t], in size. *)
Definition smaller (t : Qc) (x : list Qc) : nat := length (filter (fun v => if Qclt_le_dec (mag v) t then true else false) x).
Definition not_greater (t : Qc) (x : list Qc) : nat := length (filter (fun v => if Qclt_le_dec t (mag v) then false else true) x).
(** Elements for which Min and Max are right. *)
Definition of_moderate_size (A : list Z) (x : list Qc) : Prop := forall c, inside c A -> - whole_number 100000000 < qelem x A c /\ qelem x A c < whole_number 100000000.
