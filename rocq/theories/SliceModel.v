(** Model of slicing: functions.slice of python/src/nnabla/functions.py:331-372 and the
    function Slice of src/nbla/function/generic/slice.cpp.

    Integers are unbounded: overflow of int is not modelled.  Arrays are lists of elements
    in memory order; None is any error: a failed check, an exception, or an access outside
    an array. *)
From Coq Require Import List ZArith Bool.
Import ListNotations.
Local Open Scope list_scope.
Local Open Scope Z_scope.

(** SLICE_NONE (include/nbla/function/slice.hpp:57). *)
Definition slice_none : Z := 2147483647.

(** The loop body of functions.slice (functions.py:356-369); [n] is x.shape[i]. *)
Definition fill (n : Z) (a : option Z * option Z * option Z) : Z * Z * Z :=
  let '(s0, s1, s2) := a in
  let neg := match s2 with Some k => k <? 0 | None => false end in
  (match s0 with Some v => v | None => if neg then -1 else 0 end,
   match s1 with Some v => v | None => if neg then - n - 1 else n end,
   match s2 with Some k => k | None => 1 end).
(** functions.slice: the i-th entry is filled with the i-th extent of the input.  The three
    lists start, stop and step are one list of triples (different lengths are an error);
    more entries than axes are an error here or in setup. *)
Fixpoint fill_all (shape : list Z) (args : list (option Z * option Z * option Z)) : option (list (Z * Z * Z)) :=
  match args, shape with
  | [], _ => Some []
  | _ :: _, [] => None
  | a :: args, n :: shape =>
      match fill_all shape args with Some r => Some (fill n a :: r) | None => None end
  end.

(** The loop of setup_impl inserting entries for the leading axes (slice.cpp:46-50). *)
Definition pad (shape : list Z) (args : list (Z * Z * Z)) : list (Z * Z * Z) :=
  map (fun n => (0, n, 1)) (firstn (length shape - length args) shape) ++ args.

(** One axis of setup_impl (slice.cpp:68-113): start, stop and step after it, and the
    extent of the output.  Z.quot is division of C. *)
Definition setup_axis (n : Z) (a : Z * Z * Z) : option (Z * Z * Z * Z) :=
  let '(start, stop, step) := a in
  if step =? 0 then None else
  let step := if step =? slice_none then 1 else step in
  let start := if start <? 0 then start + n else start in
  let stop := if stop <? 0 then stop + n else stop in
  let start := if start =? slice_none then (if 0 <? step then 0 else n - 1) else start in
  let stop := if stop =? slice_none then (if 0 <? step then n else -1) else stop in
  let size :=
    if (step <? 0) && (stop <? start) then Z.quot (start - 1 - stop) (Z.abs step) + 1
    else if (0 <? step) && (start <? stop) then
      if stop <=? n then Z.quot (stop - 1 - start) (Z.abs step) + 1
      else Z.quot (n - 1 - start) (Z.abs step) + 1
    else 0 in
  Some (start, stop, step, size).

Fixpoint setup_axes (shape : list Z) (args : list (Z * Z * Z)) : option (list (Z * Z * Z * Z)) :=
  match shape, args with
  | [], [] => Some []
  | n :: shape, a :: args =>
      match setup_axis n a, setup_axes shape args with
      | Some r, Some l => Some (r :: l)
      | _, _ => None
      end
  | _, _ => None
  end.
(** setup_impl (slice.cpp:29-117). *)
Definition setup (shape : list Z) (args : list (Z * Z * Z)) : option (list (Z * Z * Z * Z)) :=
  setup_axes shape (pad shape args).
Definition out_shape (axes : list (Z * Z * Z * Z)) : list Z := map (fun '(_, _, _, size) => size) axes.

(** get_c_contiguous_strides (include/nbla/common.hpp:63-72). *)
Fixpoint contiguous (shape : list Z) : list Z :=
  match shape with
  | [] => []
  | _ :: t =>
      match contiguous t with
      | r :: rest => r * hd 1 t :: r :: rest
      | [] => [1]
      end
  end.

(** 0, ..., n - 1. *)
Definition upto (n : Z) : list Z := map Z.of_nat (seq 0 (Z.to_nat n)).

(** slice_forward_recursive and slice_backward_recursive (slice.cpp:120-194): the offsets in
    the input and the output, in the order visited.  base_axis_ is 0, so slice_index stays
    0.  The memcpy for a unit stride copies the same elements; the loops ending at
    [end_x] run [size] times as the stride is not zero. *)
Fixpoint offsets (axes : list (Z * Z * Z * Z)) (xs ys : list Z) (xo yo : Z) : list (Z * Z) :=
  match axes, xs, ys with
  | (start, _, step, size) :: rest, sx :: xs, sy :: ys =>
      let xo := xo + sx * start in
      match rest with
      | [] => map (fun i => (xo + i * (sx * step), yo + i * sy)) (upto size)
      | _ :: _ => flat_map (fun i => offsets rest xs ys (xo + i * (sx * step)) (yo + i * sy)) (upto size)
      end
  | _, _, _ => []
  end.

Fixpoint update {A} (l : list A) (i : nat) (f : A -> A) : option (list A) :=
  match l, i with
  | [], _ => None
  | x :: l, O => Some (f x :: l)
  | x :: l, S i => match update l i f with Some r => Some (x :: r) | None => None end
  end.
(** dst[d] = f(dst[d], src[s]) for each pair (s, d). *)
Fixpoint transfer {A} (f : A -> A -> A) (pairs : list (Z * Z)) (src dst : list A) : option (list A) :=
  match pairs with
  | [] => Some dst
  | (s, d) :: pairs =>
      if (s <? 0) || (d <? 0) then None else
      match nth_error src (Z.to_nat s) with
      | None => None
      | Some v =>
          match update dst (Z.to_nat d) (fun old => f old v) with
          | None => None
          | Some dst => transfer f pairs src dst
          end
      end
  end.

Definition product (shape : list Z) : Z := fold_left Z.mul shape 1.

(** forward_impl (slice.cpp:196-206) after setup_impl; [y] is the uninitialised output.
    An input without axes indexes empty vectors; a negative extent is not an array. *)
Definition forward {A} (shape : list Z) (axes : list (Z * Z * Z * Z)) (x y : list A) : option (list A) :=
  let shape_y := out_shape axes in
  if Nat.eqb (length shape) 0 || existsb (fun s => s <? 0) shape_y then None
  else if product shape_y =? 0 then Some y
  else transfer (fun _ v => v) (offsets axes (contiguous shape) (contiguous shape_y) 0 0) x y.

(** backward_impl (slice.cpp:208-227) with propagate_down; [add] is addition. *)
Definition backward {A} (zero : A) (add : A -> A -> A) (shape : list Z) (axes : list (Z * Z * Z * Z))
  (accum : bool) (dy dx : list A) : option (list A) :=
  let shape_y := out_shape axes in
  if Nat.eqb (length shape) 0 || existsb (fun s => s <? 0) shape_y then None
  else if product shape_y =? 0 then Some dx
  else
    let dx := if accum then dx else map (fun _ => zero) dx in
    transfer add (map (fun '(a, b) => (b, a)) (offsets axes (contiguous shape) (contiguous shape_y) 0 0)) dy dx.

(** setup_impl called again, after rewiring (variable.cpp:761-769): start_, stop_ and step_
    keep the values of the previous call. *)
Definition setup_again (shape : list Z) (axes : list (Z * Z * Z * Z)) : option (list (Z * Z * Z * Z)) :=
  setup shape (map (fun '(start, stop, step, _) => (start, stop, step)) axes).
