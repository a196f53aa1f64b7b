(** Model of Softmax, LogSoftmax, SoftmaxCrossEntropy, CategoricalCrossEntropy, KLMultinomial,
    PReLU, CReLU and CELU of src/nbla/function/generic/.

    Elements are real numbers: rounding, overflow and NaN are not modelled, std::exp and std::log
    are the mathematical functions (with an arbitrary logarithm of numbers that have none).  Labels
    are integers.  Index arithmetic is exact.  Arrays are lists in memory order; an array got with
    the flag write_only holds its previous values.  None is any error: a failed NBLA_CHECK, a
    division by zero of sizes, or a read or write outside an array. *)
From Coq Require Import List ZArith Bool Reals.
From Verif Require Import NdModel IdxModel JoinModel ScanModel BinModel.
Import ListNotations.
Local Open Scope list_scope.
Local Open Scope Z_scope.

(** setup_impl of Softmax (softmax.cpp:30-42) and LogSoftmax (log_softmax.cpp:30-42) is
    [scan_setup] of ScanModel; its last check always holds. *)

(** The loops over i0 and i2 with a body that is given both. *)
Definition pairs {S : Type} (size0 size2 : Z) (body : Z -> Z -> S -> option S) : S -> option S :=
  loop (fun i0 => loop (body i0) (upto size2)) (upto size0).

(** * Softmax *)
(** max_x (softmax.cpp:54-59, log_softmax.cpp:54-59). *)
Definition line_max (size1 size2 : Z) (x : list R) (j : Z) : option R :=
  obind (get x j) (loop (fun i1 m => obind (get x (i1 * size2 + j)) (fun v => Some (if Rle_dec v m then m else v))) (upto size1)).
(** The bodies of the loops over i0 and i2 (softmax.cpp:51-74). *)
Definition softmax_line (size1 size2 : Z) (x : list R) (i0 i2 : Z) (y : list R) : option (list R) :=
  let j := i0 * size1 * size2 + i2 in
  obind (line_max size1 size2 x j) (fun m =>
  obind (loop (fun i1 '(y, s) =>
      let k := i1 * size2 + j in
      obind (get x k) (fun v => let tmp := exp (v - m) in
      obind (put y k tmp) (fun y => Some (y, (s + tmp)%R)))) (upto size1) (y, 0%R)) (fun '(y, s) =>
  loop (fun i1 y => let k := i1 * size2 + j in obind (get y k) (fun v => put y k (v / s)%R)) (upto size1) y)).
(** forward_impl (softmax.cpp:45-75). *)
Definition softmax_forward (axis : Z) (shape : list Z) (x y : list R) : option (list R) :=
  obind (scan_setup axis shape) (fun '(size0, size1, size2) => pairs size0 size2 (softmax_line size1 size2 x) y).
(** backward_impl (softmax.cpp:78-107). *)
Definition softmax_back_line (size1 size2 : Z) (accum : bool) (y dy : list R) (i0 i2 : Z) (dx : list R) : option (list R) :=
  let j := i0 * size1 * size2 + i2 in
  obind (loop (fun i1 s => let k := i1 * size2 + j in
      obind (get dy k) (fun g => obind (get y k) (fun v => Some (s + g * v)%R))) (upto size1) 0%R) (fun s =>
  loop (fun i1 dx => let k := i1 * size2 + j in
      obind (get dx k) (fun old => obind (get y k) (fun v => obind (get dy k) (fun g =>
      put dx k ((if accum then old else 0) + v * (g - s))%R)))) (upto size1) dx).
Definition softmax_backward (axis : Z) (shape : list Z) (accum : bool) (y dy dx : list R) : option (list R) :=
  obind (scan_setup axis shape) (fun '(size0, size1, size2) => pairs size0 size2 (softmax_back_line size1 size2 accum y dy) dx).

(** * LogSoftmax *)
(** log_softmax.cpp:45-75. *)
Definition log_softmax_line (size1 size2 : Z) (x : list R) (i0 i2 : Z) (y : list R) : option (list R) :=
  let j := i0 * size1 * size2 + i2 in
  obind (line_max size1 size2 x j) (fun m =>
  obind (loop (fun i1 '(y, s) =>
      let k := i1 * size2 + j in
      obind (get x k) (fun v => let tmp := (v - m)%R in
      obind (put y k tmp) (fun y => Some (y, (s + exp tmp)%R)))) (upto size1) (y, 0%R)) (fun '(y, s) =>
  loop (fun i1 y => let k := i1 * size2 + j in obind (get y k) (fun v => put y k (v - ln s)%R)) (upto size1) y)).
Definition log_softmax_forward (axis : Z) (shape : list Z) (x y : list R) : option (list R) :=
  obind (scan_setup axis shape) (fun '(size0, size1, size2) => pairs size0 size2 (log_softmax_line size1 size2 x) y).
(** backward_impl (log_softmax.cpp:78-107). *)
Definition log_softmax_back_line (size1 size2 : Z) (accum : bool) (y dy : list R) (i0 i2 : Z) (dx : list R) : option (list R) :=
  let j := i0 * size1 * size2 + i2 in
  obind (loop (fun i1 s => let k := i1 * size2 + j in obind (get dy k) (fun g => Some (s + g)%R)) (upto size1) 0%R) (fun s =>
  loop (fun i1 dx => let k := i1 * size2 + j in
      obind (get dx k) (fun old => obind (get y k) (fun v => obind (get dy k) (fun g =>
      put dx k ((if accum then old else 0) + g - exp v * s)%R)))) (upto size1) dx).
Definition log_softmax_backward (axis : Z) (shape : list Z) (accum : bool) (y dy dx : list R) : option (list R) :=
  obind (scan_setup axis shape) (fun '(size0, size1, size2) => pairs size0 size2 (log_softmax_back_line size1 size2 accum y dy) dx).

(** * Losses of labels *)
(** The checks of the shape of the labels, for an axis that is not negative
    (softmax_cross_entropy.cpp:42-57, categorical_cross_entropy.cpp:43-60). *)
Fixpoint label_fits (axis : nat) (label shape : list Z) : bool :=
  match label, shape with
  | [], [] => true
  | m :: label, n :: shape =>
      match axis with
      | O => (m =? 1) && label_fits (length shape) label shape
      | S axis => (m =? n) && label_fits axis label shape
      end
  | _, _ => false
  end.
Definition refined (axis : Z) (shape : list Z) : nat := Z.to_nat (if axis <? 0 then axis + Z.of_nat (length shape) else axis).
(** setup_impl (softmax_cross_entropy.cpp:35-70, categorical_cross_entropy.cpp:33-70): the sizes.
    The output has the shape of the labels. *)
Definition label_setup (axis : Z) (shape label : list Z) : option (Z * Z * Z) :=
  obind (scan_setup axis shape) (fun s => if label_fits (refined axis shape) label shape then Some s else None).
(** forward_impl of SoftmaxCrossEntropy (softmax_cross_entropy.cpp:73-94); [buf] is the memory of
    log_softmax_output_.  The result is the loss and log_softmax_output_. *)
Definition sce_forward (axis : Z) (shape label : list Z) (x : list R) (l : list Z) (buf y : list R) : option (list R * list R) :=
  obind (label_setup axis shape label) (fun '(size0, size1, size2) =>
  obind (log_softmax_forward axis shape x buf) (fun log_p =>
  obind (pairs size0 size2 (fun i0 i2 y =>
      let j := i0 * size2 + i2 in
      obind (get l j) (fun t =>
      if t <? 0 then put y j 0%R else
      obind (get log_p (i0 * size1 * size2 + t * size2 + i2)) (fun v => put y j (- v)%R))) y) (fun y => Some (y, log_p)))).
(** backward_impl (softmax_cross_entropy.cpp:97-127), with the log_softmax_output_ of the forward
    pass. *)
Definition sce_backward (axis : Z) (shape label : list Z) (accum : bool) (log_p : list R) (l : list Z) (dy dx : list R) : option (list R) :=
  obind (label_setup axis shape label) (fun '(size0, size1, size2) =>
  pairs size0 size2 (fun i0 i2 dx =>
    let j := i0 * size2 + i2 in
    obind (get l j) (fun t => obind (get dy j) (fun grad =>
    if t <? 0 then Some dx else
    loop (fun i1 dx =>
      let k := i0 * size1 * size2 + i1 * size2 + i2 in
      obind (get dx k) (fun old => obind (get log_p k) (fun v =>
      put dx k (old + grad * (exp v - (if t =? i1 then 1 else 0)))%R))) (upto size1) dx)))
  (if accum then dx else map (fun _ => 0%R) dx)).
(** CategoricalCrossEntropy (categorical_cross_entropy.cpp:73-93 and 96-130); [least] is
    std::numeric_limits<T>::min(). *)
Definition cce_forward (least : R) (axis : Z) (shape label : list Z) (p : list R) (l : list Z) (y : list R) : option (list R) :=
  obind (label_setup axis shape label) (fun '(size0, size1, size2) =>
  pairs size0 size2 (fun i0 i2 y =>
    let j := i0 * size2 + i2 in
    obind (get l j) (fun t =>
    if t <? 0 then put y j 0%R else
    obind (get p (i0 * size1 * size2 + t * size2 + i2)) (fun v => put y j (- ln (Rmax v least))%R))) y).
Definition cce_backward (least : R) (axis : Z) (shape label : list Z) (accum : bool) (p : list R) (l : list Z) (dy dx : list R) : option (list R) :=
  obind (label_setup axis shape label) (fun '(size0, size1, size2) =>
  pairs size0 size2 (fun i0 i2 dx =>
    let j := i0 * size2 + i2 in
    obind (get l j) (fun t =>
    if t <? 0 then Some dx else
    let k := i0 * size1 * size2 + t * size2 + i2 in
    obind (get dx k) (fun old => obind (get dy j) (fun g => obind (get p k) (fun v => put dx k (old + - g / Rmax v least)%R)))))
  (if accum then dx else map (fun _ => 0%R) dx)).

(** * KLMultinomial (kl_multinomial.cpp) *)
(** refine_axis. *)
Definition axis_of (axis : Z) (shape : list Z) : option nat :=
  if (axis <? Z.of_nat (length shape)) && (- Z.of_nat (length shape) <=? axis) then Some (refined axis shape) else None.
(** setup_impl (kl_multinomial.cpp:30-51): the shape of the output. *)
Definition kl_setup (base_axis : Z) (shape0 shape1 : list Z) : option (list Z) :=
  if negb (if list_eq_dec Z.eq_dec shape0 shape1 then true else false) then None else
  obind (axis_of base_axis shape0) (fun b => Some (firstn b shape0 ++ [1])).
(** k and n (kl_multinomial.cpp:60-61 and 88-89). *)
Definition kl_sizes (base_axis : Z) (shape : list Z) : option (Z * Z) :=
  obind (axis_of base_axis shape) (fun b =>
  obind (get (cstrides shape) (Z.of_nat b - 1)) (fun k => obind (divide (size_from shape 0) k) (fun n => Some (k, n)))).
(** forward_impl (kl_multinomial.cpp:54-73); [e] is 1.0e-8. *)
Definition kl_forward (e : R) (base_axis : Z) (shape : list Z) (x0 x1 y : list R) : option (list R) :=
  obind (kl_sizes base_axis shape) (fun '(k, n) =>
  loop (fun i y =>
    obind (put y i 0%R) (fun y =>
    loop (fun j y => obind (get y i) (fun s => obind (get x0 (i * k + j)) (fun a => obind (get x1 (i * k + j)) (fun b =>
      put y i (s + a * (ln (a + e) - ln (b + e)))%R)))) (upto k) y)) (upto n) y).
(** backward_impl (kl_multinomial.cpp:76-118). *)
Definition kl_backward0 (e : R) (base_axis : Z) (shape : list Z) (accum : bool) (x0 x1 dy dx0 : list R) : option (list R) :=
  obind (kl_sizes base_axis shape) (fun '(k, n) =>
  pairs n k (fun i j dx =>
    obind (get x0 (i * k + j)) (fun a => obind (get x1 (i * k + j)) (fun b => obind (get dy i) (fun g => obind (get dx (i * k + j)) (fun old =>
    put dx (i * k + j) ((if accum then old else 0) + g * (ln (a + e) - ln (b + e) + 1))%R))))) dx0).
Definition kl_backward1 (base_axis : Z) (shape : list Z) (accum : bool) (x0 x1 dy dx1 : list R) : option (list R) :=
  obind (kl_sizes base_axis shape) (fun '(k, n) =>
  pairs n k (fun i j dx =>
    obind (get x0 (i * k + j)) (fun a => obind (get x1 (i * k + j)) (fun b => obind (get dy i) (fun g => obind (get dx (i * k + j)) (fun old =>
    put dx (i * k + j) ((if accum then old else 0) - g * a / b)%R))))) dx1).

(** * PReLU (prelu.cpp) *)
(** setup_impl (prelu.cpp:31-48): base_shape_ and base_stride_. *)
Definition prelu_setup (base_axis : Z) (shape wshape : list Z) : option (Z * Z) :=
  obind (axis_of base_axis shape) (fun b =>
  let n := nth b shape 0 in
  if (size_from wshape 0 =? 1) || (match wshape with [m] => m =? n | _ => false end)
  then Some (n, nth b (cstrides shape) 0) else None).
(** Which slope is used for element [s] (prelu.cpp:56-67). *)
Definition prelu_slope (n stride wsize s : Z) : option Z :=
  if wsize =? 1 then Some 0 else obind (divide s stride) (fun q => remainder q n).
(** forward_impl (prelu.cpp:51-68). *)
Definition prelu_forward (base_axis : Z) (shape wshape : list Z) (x w y : list R) : option (list R) :=
  obind (prelu_setup base_axis shape wshape) (fun '(n, stride) =>
  loop (fun s y =>
    obind (get x s) (fun v => obind (prelu_slope n stride (size_from wshape 0) s) (fun iw => obind (get w iw) (fun a =>
    put y s (if Rle_dec 0 v then v else (v * a)%R))))) (upto (size_from shape 0)) y).
(** backward_impl (prelu.cpp:71-126). *)
Definition prelu_backward0 (base_axis : Z) (shape wshape : list Z) (accum : bool) (x w dy dx : list R) : option (list R) :=
  obind (prelu_setup base_axis shape wshape) (fun '(n, stride) =>
  loop (fun s dx =>
    obind (get x s) (fun v => obind (prelu_slope n stride (size_from wshape 0) s) (fun iw => obind (get w iw) (fun a =>
    obind (get dy s) (fun g => obind (get dx s) (fun old =>
    put dx s ((if accum then old else 0) + (if Rle_dec 0 v then g else g * a))%R)))))) (upto (size_from shape 0)) dx).
Definition prelu_backward1 (base_axis : Z) (shape wshape : list Z) (accum : bool) (x dy dw : list R) : option (list R) :=
  obind (prelu_setup base_axis shape wshape) (fun '(n, stride) =>
  loop (fun s dw =>
    obind (get x s) (fun v =>
    if Rlt_dec v 0 then
      obind (prelu_slope n stride (size_from wshape 0) s) (fun iw =>
      obind (get dw iw) (fun old => obind (get dy s) (fun g => put dw iw (old + g * v)%R)))
    else Some dw)) (upto (size_from shape 0)) (if accum then dw else map (fun _ => 0%R) dw)).

(** * CReLU (crelu.cpp) and CELU (celu.cpp) *)
(** setup_impl (crelu.cpp:29-42, celu.cpp:30-40): the shape of the output, size0_ and size1_. *)
Definition crelu_setup (axis : Z) (shape : list Z) : option (list Z * Z * Z) :=
  obind (axis_of axis shape) (fun a =>
  let size0 := size_from shape a in
  obind (divide (size_from shape 0) size0) (fun size1 =>
  Some (firstn a shape ++ nth a shape 0 * 2 :: skipn (S a) shape, size0, size1))).
(** forward_impl with the functions for both halves (crelu.cpp:45-55, celu.cpp:43-54). *)
Definition halves_forward (f g : R -> R) (axis : Z) (shape : list Z) (x y : list R) : option (list R) :=
  obind (crelu_setup axis shape) (fun '(_, size0, size1) =>
  pairs size1 size0 (fun i1 i0 y =>
    obind (get x (i1 * size0 + i0)) (fun v =>
    obind (put y (i1 * size0 * 2 + i0) (f v)) (fun y => put y (i1 * size0 * 2 + size0 + i0) (g v)))) y).
Definition crelu_forward : Z -> list Z -> list R -> list R -> option (list R) :=
  halves_forward (fun v => Rmax 0 v) (fun v => Rmax 0 (-1 * v)).
Definition celu_forward (alpha : R) : Z -> list Z -> list R -> list R -> option (list R) :=
  halves_forward (fun v => if Rle_dec 0 v then v else (alpha * (exp v - 1))%R) (fun v => if Rle_dec v 0 then (- v)%R else (alpha * (exp (- v) - 1))%R).
(** backward_impl (crelu.cpp:58-76, celu.cpp:57-79): [d] is given the element and both gradients. *)
Definition halves_backward (d : R -> R -> R -> R) (axis : Z) (shape : list Z) (accum : bool) (x dy dx : list R) : option (list R) :=
  obind (crelu_setup axis shape) (fun '(_, size0, size1) =>
  pairs size1 size0 (fun i1 i0 dx =>
    obind (get x (i1 * size0 + i0)) (fun v =>
    obind (get dy (i1 * size0 * 2 + i0)) (fun g0 => obind (get dy (i1 * size0 * 2 + size0 + i0)) (fun g1 =>
    obind (get dx (i1 * size0 + i0)) (fun old =>
    put dx (i1 * size0 + i0) ((if accum then old else 0) + d v g0 g1)%R))))) dx).
Definition crelu_backward : Z -> list Z -> bool -> list R -> list R -> list R -> option (list R) :=
  halves_backward (fun v g0 g1 => if Rlt_dec 0 v then g0 else (- g1)%R).
Definition celu_backward (alpha : R) : Z -> list Z -> bool -> list R -> list R -> list R -> option (list R) :=
  halves_backward (fun v g0 g1 => ((if Rle_dec 0 v then g0 else g0 * alpha * exp v) - (if Rle_dec v 0 then g1 else g1 * alpha * exp (- v)))%R).
