(** Model of functions that simulate quantization: FixedPointQuantize
    (src/nbla/function/generic/fixed_point_quantize.cpp), Pow2Quantize (pow2_quantize.cpp),
    QuantizeLinear (quantize_linear.cpp), DequantizeLinear (dequantize_linear.cpp),
    MinMaxQuantize (min_max_quantize.cpp) and Prune (prune.cpp).

    The conventions of ScanModel and BinModel hold: elements and parameters are rational numbers,
    None is any error, including a read or write outside an array, and [junk] is what new memory
    holds.  Not-a-number and infinite numbers are not modelled.  The inputs and the output of a
    function are different variables. *)
From Coq Require Import List ZArith Bool QArith Qcanon Qround.
From Verif Require Import NdModel IdxModel JoinModel ScanModel ReduceModel ConvModel MatModel BinModel BfaModel FindModel.
Import ListNotations.
Local Open Scope list_scope.
Local Open Scope Z_scope.

Definition half : Qc := Q2Qc (1 # 2).
Definition qabs (v : Qc) : Qc := if less v 0%Qc then (- v)%Qc else v.
(** std::round: the nearest integer, away from 0 if there are two. *)
Definition std_round (v : Qc) : Qc := let k := of_Z (Qfloor (qabs v + half)%Qc) in if less v 0%Qc then (- k)%Qc else k.
(** One pass over all elements (all loops of this file but those of MinMaxQuantize). *)
Definition each (f : Qc -> option Qc) (n : Z) (x y : list Qc) : option (list Qc) :=
  loop (fun s y => obind (get x s) (fun v => obind (f v) (fun w => put y s w))) (upto n) y.

(** * FixedPointQuantize *)

(** setup_impl (fixed_point_quantize.cpp:28-44): max_ and min_. *)
Definition fixed_setup (sign : bool) (n : Z) (delta : Qc) : option (Qc * Qc) :=
  if negb ((0 <? n) && more delta 0%Qc) then None else
  let n := if sign then n - 1 else n in
  let max := (of_Z (2 ^ n - 1) * delta)%Qc in
  let min := if sign then (- max)%Qc else 0%Qc in
  if negb (0 <? n) then None else Some (max, min).
(** The cast to int of a number that is not negative; too large ones are undefined. *)
Definition cast_int (v : Qc) : option Z := let k := Qfloor v in if k <=? 2147483647 then Some k else None.
(** The body of the loop of forward_impl (fixed_point_quantize.cpp:54-65). *)
Definition fixed_value (delta max min x : Qc) : option Qc :=
  if more x max then Some max else if less x min then Some min else
  let sign_x := less x 0%Qc in
  obind (cast_int (qabs x / delta + half)%Qc) (fun k =>
  let y := (of_Z k * delta)%Qc in
  Some (if sign_x then (- y)%Qc else y)).
(** forward_impl (fixed_point_quantize.cpp:46-67). *)
Definition fixed_forward (sign : bool) (n : Z) (delta : Qc) (x y : list Qc) : option (list Qc) :=
  obind (fixed_setup sign n delta) (fun '(max, min) => each (fixed_value delta max min) (Z.of_nat (length x)) x y).
(** quantize_native_backward_cpu and quantize_backward_cpu (fixed_point_quantize.cpp:69-100), with
    the choice of backward_impl (lines 102-130). *)
Definition fixed_grad (fine : bool) (max min : Qc) (accum : bool) (x dy dx : list Qc) : option (list Qc) :=
  loop (fun s dx => obind (get x s) (fun v => obind (get dy s) (fun e => obind (get dx s) (fun old =>
    if fine && (more v max || less v min) then (if accum then Some dx else put dx s 0%Qc)
    else put dx s (if accum then (old + e)%Qc else e))))) (upto (Z.of_nat (length x))) dx.
Definition fixed_backward (sign : bool) (n : Z) (delta : Qc) (fine accum : bool) (x dy dx : list Qc) : option (list Qc) :=
  obind (fixed_setup sign n delta) (fun '(max, min) => fixed_grad fine max min accum x dy dx).

(** * Pow2Quantize *)

(** 2^k. *)
Definition pow2 (k : Z) : Qc := Q2Qc ((2 # 1) ^ k)%Q.
(** std::round(std::log2(x)) for a positive number: the integer k with
    2^(k - 1/2) <= x < 2^(k + 1/2).  [d] is the logarithm, rounded down, or one more. *)
Definition round_log2 (x : Qc) : Z :=
  let d := Z.log2 (Qnum (this x)) - Z.log2 (Zpos (Qden (this x))) in
  let e := if less x (pow2 d) then d - 1 else d in
  if less (x * x)%Qc (pow2 (2 * e + 1)) then e else e + 1.
(** setup_impl (pow2_quantize.cpp:28-49): p_max_ and p_min_.  pruning_threshold_ is p_min_ over
    the square root of 2 (see [below]).  1 << n is undefined for the bits of an int and more. *)
Definition pow2_setup (sign with_zero : bool) (n m : Z) : option (Qc * Qc) :=
  if negb (0 <? n) then None else
  let n := if sign then n - 1 else n in
  let n := if with_zero then n - 1 else n in
  if negb (0 <? n) then None else if 31 <=? n then None else Some (pow2 m, pow2 (m - (2 ^ n - 1))).
(** x_abs < pruning_threshold_, for squares. *)
Definition below (x p_min : Qc) : bool := less (of_Z 2 * (x * x))%Qc (p_min * p_min)%Qc.
(** std::pow(2., std::round(std::log2(x_abs))), which is 0 for 0. *)
Definition pow2_near (x_abs : Qc) : Qc := if same x_abs 0%Qc then 0%Qc else pow2 (round_log2 x_abs).
(** The body of the loop of forward_impl (pow2_quantize.cpp:62-87). *)
Definition pow2_value (sign with_zero : bool) (p_max p_min x : Qc) : Qc :=
  let x_abs := qabs x in
  let q := pow2_near x_abs in
  let q := if more q p_max then p_max
           else if less q p_min && with_zero then (if below x_abs p_min then 0%Qc else p_min)
           else if less q p_min then p_min else q in
  let sign_x := less x 0%Qc in
  if sign then (if sign_x then (- q)%Qc else q)
  else if with_zero then (if sign_x then 0%Qc else q) else (if sign_x then p_min else q).
(** forward_impl (pow2_quantize.cpp:51-89). *)
Definition pow2_forward (sign with_zero : bool) (n m : Z) (x y : list Qc) : option (list Qc) :=
  obind (pow2_setup sign with_zero n m) (fun '(p_max, p_min) => each (fun v => Some (pow2_value sign with_zero p_max p_min v)) (Z.of_nat (length x)) x y).
(** The factor of quantize_backward_cpu (pow2_quantize.cpp:103-134). *)
Definition pow2_factor (sign : bool) (p_max x : Qc) : Qc :=
  let c := if more (pow2_near (qabs x)) p_max then 0%Qc else 1%Qc in
  if sign then c else if less x 0%Qc then 0%Qc else c.
(** backward_impl (pow2_quantize.cpp:91-165). *)
Definition pow2_backward (sign with_zero : bool) (n m : Z) (fine accum : bool) (x dy dx : list Qc) : option (list Qc) :=
  obind (pow2_setup sign with_zero n m) (fun '(p_max, p_min) =>
  loop (fun s dx => obind (get x s) (fun v => obind (get dy s) (fun e => obind (get dx s) (fun old =>
    let g := if fine then (pow2_factor sign p_max v * e)%Qc else e in
    put dx s (if accum then (old + g)%Qc else g))))) (upto (Z.of_nat (length x))) dx).

(** * QuantizeLinear and DequantizeLinear *)

(** The checks of setup_impl (quantize_linear.cpp:27-45, dequantize_linear.cpp:25-43). *)
Fixpoint ones_or_same (s t : list Z) : bool :=
  match s, t with
  | [], [] => true
  | m :: s, n :: t => ((n =? 1) || (n =? m)) && ones_or_same s t
  | _, _ => false
  end.
(** min_range_ and max_range_ (quantize_linear.cpp:53-60); they are not initialised for types
    other than BYTE (1) and UBYTE (2). *)
Definition ranges (narrow : bool) (dtype : Z) : option (Qc * Qc) :=
  if dtype =? 1 then Some (of_Z (if narrow then -127 else -128), of_Z 127)
  else if dtype =? 2 then Some (of_Z (if narrow then 1 else 0), of_Z 255) else None.
(** saturate (quantize_linear.cpp:63-74): one element. *)
Definition saturate (lo hi v : Qc) : Qc := if less v lo then lo else if more v hi then hi else v.
(** round (quantize_linear.cpp:76-96): one element.  [even] is HALF_TO_EVEN, else it is
    HALF_AWAY_FROM_ZERO.  (With any other string, elements are not rounded.) *)
Definition round_mode (even : bool) (v : Qc) : Qc :=
  let t := std_round v in
  if even && same (qabs (v - t)%Qc) half then (std_round (v * half) * of_Z 2)%Qc else t.
(** setup_impl and forward_impl (quantize_linear.cpp:27-61 and 98-118): the output, and the
    zero point, which is changed. *)
Definition quantize_linear (junk : Qc) (even narrow : bool) (dtype : Z) (x scale zero_point : nd) : option (nd * nd) :=
  if negb (ones_or_same (fst x) (fst scale) && ones_or_same (fst x) (fst zero_point)) then None else
  obind (ranges narrow dtype) (fun '(lo, hi) =>
  obind (call2 junk div_op x scale) (fun y =>
  obind (scalar_into (round_mode even) y) (fun y =>
  obind (scalar_into (round_mode even) zero_point) (fun z =>
  obind (scalar_into (saturate lo hi) z) (fun z =>
  obind (add_into false y z) (fun y =>
  obind (scalar_into (saturate lo hi) y) (fun y => Some (y, z)))))))).
(** backward_impl (quantize_linear.cpp:120-160), for x only; backward_impl of DequantizeLinear
    (dequantize_linear.cpp:66-106) is the same with Mul2. *)
Definition linear_backward (op : Qc -> Qc -> Qc) (junk : Qc) (accum : bool) (scale dy dx : nd) : option nd :=
  if accum then obind (call2 junk op dy scale) (fun t => add_into false dx t)
  else call2 junk op dy scale.
(** setup_impl and forward_impl (dequantize_linear.cpp:25-64). *)
Definition dequantize_linear (junk : Qc) (x scale zero_point : nd) : option nd :=
  if negb (ones_or_same (fst x) (fst scale) && ones_or_same (fst x) (fst zero_point)) then None else
  obind (call2 junk sub_op x zero_point) (fun y => call_into false mul_op y scale).

(** * MinMaxQuantize *)

(** The last check of setup_impl (min_max_quantize.cpp:67-82); x->shape()[a] is read outside the
    shape if x has less axes. *)
Fixpoint ones_or_axes (s t : list Z) : bool :=
  match s, t with
  | _, [] => true
  | m :: s, n :: t => ((n =? 1) || (m =? n)) && ones_or_axes s t
  | [], n :: t => (n =? 1) && ones_or_axes [] t
  end.
(** execute(min_, ...) and execute(max_, ...) into a new array. *)
Definition call_best (forward : reduction -> list Z -> list Qc -> list Qc -> list Z -> option (list Qc * list Z)) (junk : Qc) (axes : list Z) (x : nd) : option nd :=
  obind (red_setup (created axes) true (fst x)) (fun '(f, out) =>
  obind (forward f (fst x) (snd x) (fresh junk out) (map (fun _ => 0) (fresh junk out))) (fun '(y, _) => Some (out, y))).
(** qr_min (or qr_max) after lines 156-178 of min_max_quantize.cpp: the extreme of x or its
    moving average. *)
Definition tracked (forward : reduction -> list Z -> list Qc -> list Qc -> list Z -> option (list Qc * list Z)) (junk decay : Qc) (x_min_max ema : bool) (x qr : nd) : option nd :=
  if x_min_max then
    obind (call_best forward junk (ones_from 0 (fst qr)) x) (fun iv =>
    if ema then
      obind (scalar_into (fun v => (v * (1 - decay))%Qc) iv) (fun iv =>
      obind (scalar_into (fun v => (v * decay)%Qc) qr) (fun qr => add_into false qr iv))
    else Some iv)
  else Some qr.
(** nudge_range (min_max_quantize.cpp:352-361). *)
Definition nudge_range (eps : Qc) (qr_min qr_max : nd) : option nd :=
  obind (loop (fun i hi => obind (get (snd qr_min) i) (fun a => obind (get hi i) (fun b =>
    if less (b - a)%Qc eps then put hi i (a + eps)%Qc else Some hi))) (upto (prod (fst qr_min))) (snd qr_max)) (fun hi =>
  Some (fst qr_max, hi)).
(** The body of the loop of nudge_qr_min_max (min_max_quantize.cpp:378-392): zero_point_nudged. *)
Definition zero_nudged (ql_min ql_max qr_min scale : Qc) : Qc :=
  let z := (ql_min - qr_min / scale)%Qc in
  if negb (more z ql_min) then ql_min else if negb (less z ql_max) then ql_max else std_round z.
(** nudge_qr_min_max (min_max_quantize.cpp:362-394): qr_min_nudged for [ql] = ql_min,
    qr_max_nudged for [ql] = ql_max. *)
Definition nudged (junk : Qc) (ql ql_min ql_max qr_min scale : nd) : option nd :=
  obind (loop (fun i y => obind (get (snd ql_min) i) (fun a => obind (get (snd ql_max) i) (fun b => obind (get (snd qr_min) i) (fun m => obind (get (snd scale) i) (fun s =>
    obind (get (snd ql) i) (fun l => put y i ((l - zero_nudged a b m s) * s)%Qc)))))) (upto (prod (fst qr_min))) (fresh junk (fst qr_min))) (fun y =>
  Some (fst qr_min, y)).
(** setup_impl and forward_impl (min_max_quantize.cpp:45-228): the output, qr_min and qr_max. *)
Definition min_max_quantize (junk decay eps : Qc) (x_min_max ema : bool) (x qr_min qr_max ql_min ql_max : nd) : option (nd * nd * nd) :=
  if negb (if list_eq_dec Z.eq_dec (fst ql_min) (fst ql_max) then true else false) then None else
  if negb (if list_eq_dec Z.eq_dec (fst ql_max) (fst qr_min) then true else false) then None else
  if negb (if list_eq_dec Z.eq_dec (fst qr_min) (fst qr_max) then true else false) then None else
  if negb (ones_or_axes (fst x) (fst ql_min)) then None else
  obind (tracked min_forward junk decay x_min_max ema x qr_min) (fun qr_min =>
  obind (tracked max_forward junk decay x_min_max ema x qr_max) (fun qr_max =>
  obind (nudge_range eps qr_min qr_max) (fun qr_max =>
  obind (call2 junk sub_op qr_max qr_min) (fun scale =>
  obind (call2 junk sub_op ql_max ql_min) (fun iv =>
  obind (call_into false div_op scale iv) (fun scale =>
  obind (nudged junk ql_min ql_min ql_max qr_min scale) (fun lo =>
  obind (nudged junk ql_max ql_min ql_max qr_min scale) (fun hi =>
  obind (py_broadcast junk (fst x) lo) (fun lo =>
  obind (py_broadcast junk (fst x) hi) (fun hi =>
  obind (py_broadcast junk (fst x) scale) (fun scale =>
  obind (call2 junk max_op x lo) (fun y =>
  obind (call_into false min_op y hi) (fun y =>
  obind (call_into false sub_op y lo) (fun y =>
  obind (call_into false div_op y scale) (fun y =>
  obind (scalar_into std_round y) (fun y =>
  obind (call_into false mul_op y scale) (fun y =>
  obind (add_into false y lo) (fun y => Some (y, qr_min, qr_max))))))))))))))))))).

(** The functions Greater, Less, GreaterEqual and LessEqual of elements. *)
Definition truth (b : bool) : Qc := if b then 1%Qc else 0%Qc.
Definition greater_op (a b : Qc) : Qc := truth (more a b).
Definition less_op (a b : Qc) : Qc := truth (less a b).
Definition greater_equal_op (a b : Qc) : Qc := truth (negb (less a b)).
Definition less_equal_op (a b : Qc) : Qc := truth (negb (more a b)).
(** Add2 into g (which may be its second input, since sums commute), or Identity. *)
Definition give (accum : bool) (g v : nd) : option nd := if accum then add_into false g v else Some v.
(** sum(mask * g_y) (min_max_quantize.cpp:309-311 and 335-337). *)
Definition gathered (junk : Qc) (op : Qc -> Qc -> Qc) (x edge dy qr : nd) : option nd :=
  obind (call2 junk op x edge) (fun mask => obind (call2 junk mul_op mask dy) (fun t => sum_for junk (fst qr) t)).
(** backward_impl (min_max_quantize.cpp:230-350) after forward_impl has left [qr_min] and [scale];
    [d], [d0] and [d1] are the gradients of x, qr_min and qr_max if they are wanted, with the flags
    accum. *)
Definition min_max_backward (junk : Qc) (x_min_max ema fine : bool) (x qr_min ql_min ql_max scale dy : nd) (d d0 d1 : option (bool * nd)) : option (option nd * option nd * option nd) :=
  obind (nudged junk ql_min ql_min ql_max qr_min scale) (fun lo =>
  obind (nudged junk ql_max ql_min ql_max qr_min scale) (fun hi =>
  obind (py_broadcast junk (fst x) lo) (fun lo =>
  obind (py_broadcast junk (fst x) hi) (fun hi =>
  let wanted (d : option (bool * nd)) (v : option nd) := match d with None => Some None | Some (a, g) => obind v (fun v => obind (give a g v) (fun g => Some (Some g))) end in
  obind (wanted d (if fine then
      obind (call2 junk greater_equal_op x lo) (fun iv0 => obind (call2 junk less_equal_op x hi) (fun iv1 =>
      obind (call2 junk mul_op iv0 iv1) (fun mask => call_into false mul_op mask dy)))
    else Some dy)) (fun gx =>
  let kept (d : option (bool * nd)) := match d with None => None | Some (_, g) => Some g end in
  if x_min_max || ema then Some (gx, kept d0, kept d1) else
  obind (wanted d0 (gathered junk less_op x lo dy qr_min)) (fun g0 =>
  obind (wanted d1 (gathered junk greater_op x hi dy qr_min)) (fun g1 => Some (gx, g0, g1)))))))).

(** * Prune *)

Section prune.
Variable std_sort : (Qc -> Qc -> bool) -> list Qc -> list Qc.
(** thresh_idx_ (prune.cpp:33-35): the cast to int cuts towards 0. *)
Definition prune_index (rate : Qc) (size : Z) : Z := let v := (of_Z (size - 1) * rate)%Qc in Z.quot (Qnum v) (Zpos (Qden v)).
(** setup_impl and forward_impl (prune.cpp:28-68). *)
Definition prune (rate : Qc) (x y : list Qc) : option (list Qc) :=
  if negb (negb (less rate 0%Qc) && negb (more rate 1%Qc)) then None else
  let buffer := std_sort (fun i j => less (qabs i) (qabs j)) x in
  obind (get buffer (prune_index rate (Z.of_nat (length x)))) (fun b =>
  let thresh := (qabs b + (if same rate 1%Qc then 1%Qc else 0%Qc))%Qc in
  each (fun v => Some (if less (qabs v) thresh then 0%Qc else v)) (Z.of_nat (length x)) x y).
(** backward_impl (prune.cpp:70-90). *)
Definition prune_backward (accum : bool) (dy dx : list Qc) : option (list Qc) :=
  loop (fun s dx => obind (get dy s) (fun e => obind (get dx s) (fun old => put dx s (if accum then (old + e)%Qc else e)))) (upto (Z.of_nat (length dx))) dx.
End prune.
