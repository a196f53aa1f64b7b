(** Model of functions of two arrays element by element, with broadcasting
    (include/nbla/function/utils/base_transform_binary.hpp), of functions of one array element by
    element (include/nbla/function/utils/base_transform_unary.hpp), of Add2
    (src/nbla/function/generic/add2.cpp), of the call of a function on NdArrays
    (src/nbla/imperative.cpp) and of the operators of Python on NdArrays
    (python/src/nnabla/_arithmetic_ops.pyx, _nd_array.pyx).

    The conventions of ConvModel hold: arrays are lists of rational numbers, an access outside
    is [None], division truncates and by zero is [None], sizes do not overflow.  The operation
    and its two gradients are arbitrary functions of rational numbers; the conversion of Half to
    float around them is not modelled.  The flag inplace is ignored by every function defined
    with these classes (IGNORE_INPLACE), so it is left out; NdArrays can still be computed in
    place, see [call_into]. *)
From Coq Require Import List ZArith Bool QArith Qcanon.
From Verif Require Import IdxModel JoinModel ScanModel ReduceModel ConvModel MatModel.
Import ListNotations.
Local Open Scope list_scope.
Local Open Scope Z_scope.

(** * BaseTransformBinary *)

(** The shape of the output (base_transform_binary.hpp:61-76). *)
Fixpoint bin_out (s0 s1 : list Z) : option (list Z) :=
  match s0, s1 with
  | [], [] => Some []
  | m :: s0, n :: s1 =>
      if negb (m =? n) && negb (Z.min m n =? 1) then None else
      obind (bin_out s0 s1) (fun o => Some (Z.max m n :: o))
  | _, _ => None
  end.
(** Extents m, n of one axis and m', n' of the next are broadcast in the same way
    (base_transform_binary.hpp:129-140). *)
Definition same_case (m n m' n' : Z) : bool :=
  ((m =? n) && (m' =? n')) ||
  ((m =? 1) && negb (n =? 1) && ((m' =? 1) && negb (n' =? 1))) ||
  (negb (m =? 1) && (n =? 1) && (negb (m' =? 1) && (n' =? 1))).
(** The loop that compresses adjacent axes (base_transform_binary.hpp:114-157), with tmp_size_x0,
    tmp_size_x1 and tmp_size_y: the compressed extents of x0, x1 and y. *)
Fixpoint compress (s0 s1 : list Z) (t0 t1 ty : Z) : list (Z * Z * Z) :=
  match s0, s1 with
  | m :: s0, n :: s1 =>
      let t0 := t0 * m in let t1 := t1 * n in let ty := ty * Z.max m n in
      match s0, s1 with
      | m' :: _, n' :: _ => if same_case m n m' n' then compress s0 s1 t0 t1 ty else (t0, t1, ty) :: compress s0 s1 1 1 1
      | _, _ => [(t0, t1, ty)]
      end
  | _, _ => []
  end.
(** At least three axes (base_transform_binary.hpp:159-165). *)
Definition pad3 (l : list (Z * Z * Z)) : list (Z * Z * Z) := repeat (1, 1, 1) (3 - length l) ++ l.
(** strides_x0_ (strides_x1_ likewise) (base_transform_binary.hpp:168-215): the stride is 0 where
    the extent differs from that of the output. *)
Fixpoint zero_strides (shape shape_y strides : list Z) : list Z :=
  match shape, shape_y, strides with
  | n :: shape, ny :: shape_y, st :: strides => (if n =? ny then st else 0) :: zero_strides shape shape_y strides
  | _, _, _ => []
  end.
(** The members set by setup_impl, and the shape of the output. *)
Record bin := { strides_x0 : list Z; strides_x1 : list Z; strides_y : list Z; shape_y : list Z; b_out : list Z }.
(** setup_impl (base_transform_binary.hpp:60-215). *)
Definition bin_setup (s0 s1 : list Z) : option bin :=
  obind (bin_out s0 s1) (fun o =>
  let c := pad3 (compress s0 s1 1 1 1) in
  let c0 := map (fun a => fst (fst a)) c in let c1 := map (fun a => snd (fst a)) c in let cy := map snd c in
  Some {| strides_x0 := zero_strides c0 cy (cstrides c0); strides_x1 := zero_strides c1 cy (cstrides c1);
          strides_y := cstrides cy; shape_y := cy; b_out := o |}).

(** The loop over the axes that computes idx0 and idx1 (base_transform_binary.hpp:273-280). *)
Definition remainder (a b : Z) : option Z := if b =? 0 then None else Some (Z.rem a b).
Fixpoint bin_index (st0 st1 sty shy : list Z) (idx idx0 idx1 : Z) : option (Z * Z) :=
  match st0, st1, sty, shy with
  | a :: st0, b :: st1, s :: sty, n :: shy =>
      obind (divide idx s) (fun q => obind (remainder q n) (fun d =>
      bin_index st0 st1 sty shy idx (idx0 + d * a) (idx1 + d * b)))
  | _, _, _, _ => Some (idx0, idx1)
  end.
Definition at_index (f : bin) (idx : Z) : option (Z * Z) := bin_index (strides_x0 f) (strides_x1 f) (strides_y f) (shape_y f) idx 0 0.
(** transform_binary and forward_impl (base_transform_binary.hpp:263-284 and 338-356). *)
Definition bin_forward (op : Qc -> Qc -> Qc) (f : bin) (x0 x1 y : list Qc) : option (list Qc) :=
  loop (fun idx y => obind (at_index f idx) (fun '(i0, i1) =>
    obind (get x0 i0) (fun a => obind (get x1 i1) (fun b => put y idx (op a b))))) (upto (prod (b_out f))) y.
(** transform_binary_grad0 and transform_binary_grad1 (base_transform_binary.hpp:286-336): [side]
    is 0 for [false]; the gradient is added at idx0, or at idx1. *)
Definition bin_grad (side : bool) (g : Qc -> Qc -> Qc -> Qc -> Qc) (f : bin) (dy x0 x1 y d : list Qc) : option (list Qc) :=
  loop (fun idx d => obind (at_index f idx) (fun '(i0, i1) =>
    let i := if side then i1 else i0 in
    obind (get dy idx) (fun e => obind (get x0 i0) (fun a => obind (get x1 i1) (fun b => obind (get y idx) (fun v =>
    obind (get d i) (fun old => put d i (old + g e a b v)%Qc))))))) (upto (prod (b_out f))) d.
(** backward_impl (base_transform_binary.hpp:358-398). *)
Definition bin_backward (g0 g1 : Qc -> Qc -> Qc -> Qc -> Qc) (f : bin) (x0 x1 y dy : list Qc) (d0 d1 : grad) : option (option (list Qc) * option (list Qc)) :=
  obind (with_grad (fun accum d => bin_grad false g0 f dy x0 x1 y (cleared accum d)) d0) (fun e0 =>
  obind (with_grad (fun accum d => bin_grad true g1 f dy x0 x1 y (cleared accum d)) d1) (fun e1 => Some (e0, e1))).
(** backward_impl when both inputs are the same variable, with gradient [d]: the graph engine
    lets the second gradient accumulate on the first. *)
Definition bin_backward_same (g0 g1 : Qc -> Qc -> Qc -> Qc -> Qc) (f : bin) (x y dy : list Qc) (accum : bool) (d : list Qc) : option (list Qc) :=
  obind (bin_grad false g0 f dy x x y (cleared accum d)) (fun d => bin_grad true g1 f dy x x y (cleared true d)).

(** * The functions (include/nbla/function/*.hpp): operation, gradients 0 and 1 *)
Local Open Scope Qc_scope.
Definition qgt (a b : Qc) : bool := match (a ?= b)%Qc with Gt => true | _ => false end.
Definition qbool (b : bool) : Qc := if b then 1 else 0.
(** bc_add2.hpp:34, sub2.hpp:41, mul2.hpp:42, div2.hpp:44.  Division by
    zero is 0 here; no theorem uses it. *)
Definition add_op (a b : Qc) := a + b.
Definition add_g0 (dy a b y : Qc) := dy.
Definition add_g1 (dy a b y : Qc) := dy.
Definition sub_op (a b : Qc) := a - b.
Definition sub_g0 (dy a b y : Qc) := dy.
Definition sub_g1 (dy a b y : Qc) := - dy.
Definition mul_op (a b : Qc) := a * b.
Definition mul_g0 (dy a b y : Qc) := dy * b.
Definition mul_g1 (dy a b y : Qc) := dy * a.
Definition div_op (a b : Qc) := a / b.
Definition div_g0 (dy a b y : Qc) := dy / b.
Definition div_g1 (dy a b y : Qc) := - dy * a / (b * b).
(** maximum2.hpp:41, minimum2.hpp:41. *)
Definition max_op (a b : Qc) := if qgt a b then a else b.
Definition max_g0 (dy a b y : Qc) := qbool (qgt a b) * dy.
Definition max_g1 (dy a b y : Qc) := qbool (negb (qgt a b)) * dy.
Definition min_op (a b : Qc) := if qgt b a then a else b.
Definition min_g0 (dy a b y : Qc) := qbool (qgt b a) * dy.
Definition min_g1 (dy a b y : Qc) := qbool (negb (qgt b a)) * dy.
Local Open Scope Z_scope.

(** * Add2 (add2.cpp) *)

(** The function: whether fall_back_func_ is set (then with what its setup made), else the shape
    it was set up for. *)
Inductive add2 := Plain (shape : list Z) | Fallen (f : bin).
(** Function::setup (src/nbla/function.cpp:28-33) and setup_impl (add2.cpp:27-36): once set,
    fall_back_func_ stays. *)
Definition add2_setup (old : option add2) (s0 s1 : list Z) : option add2 :=
  match old with
  | Some (Fallen _) => obind (bin_setup s0 s1) (fun f => Some (Fallen f))
  | _ => if list_eq_dec Z.eq_dec s0 s1 then Some (Plain s0) else obind (bin_setup s0 s1) (fun f => Some (Fallen f))
  end.
Definition add2_shape (f : add2) : list Z := match f with Plain s => s | Fallen f => b_out f end.
(** forward_impl (add2.cpp:38-46). *)
Definition add2_forward (f : add2) (x0 x1 y : list Qc) : option (list Qc) :=
  match f with
  | Plain s => loop (fun i y => obind (get x0 i) (fun a => obind (get x1 i) (fun b => put y i (a + b)%Qc))) (upto (prod s)) y
  | Fallen f => bin_forward add_op f x0 x1 y
  end.
(** add2_backward_cpu (add2.cpp:47-55). *)
Definition add2_grad (accum : bool) (n : Z) (dy d : list Qc) : option (list Qc) :=
  loop (fun i d => obind (get dy i) (fun e => obind (get d i) (fun old => put d i (if accum then (old + e)%Qc else e)))) (upto n) d.
(** backward_impl (add2.cpp:57-76). *)
Definition add2_backward (f : add2) (x0 x1 y dy : list Qc) (d0 d1 : grad) : option (option (list Qc) * option (list Qc)) :=
  match f with
  | Plain s =>
      obind (with_grad (fun accum => add2_grad accum (prod s) dy) d0) (fun e0 =>
      obind (with_grad (fun accum => add2_grad accum (prod s) dy) d1) (fun e1 => Some (e0, e1)))
  | Fallen f => bin_backward add_g0 add_g1 f x0 x1 y dy d0 d1
  end.

(** * TransformUnary *)

(** transform_unary and forward_impl (base_transform_unary.hpp:94-102 and 112-118).  The loop
    may be divided among threads; every iteration touches its own element. *)
Definition un_forward (op : Qc -> Qc) (n : Z) (x y : list Qc) : option (list Qc) :=
  loop (fun i y => obind (get x i) (fun a => put y i (op a))) (upto n) y.
(** transform_unary_grad and backward_impl (base_transform_unary.hpp:104-110 and 120-138). *)
Definition un_grad (g : Qc -> Qc -> Qc -> Qc) (accum : bool) (n : Z) (dy x y d : list Qc) : option (list Qc) :=
  loop (fun i d => obind (get d i) (fun old => obind (get dy i) (fun e => obind (get x i) (fun a => obind (get y i) (fun v =>
    put d i ((if accum then old else 0) + g e a v)%Qc))))) (upto n) d.

(** * Calls on NdArrays (src/nbla/imperative.cpp:22-67) *)

(** An array with its shape. *)
Definition nd := (list Z * list Qc)%type.
(** A call without outputs: the output gets new memory. *)
Definition call2 (junk : Qc) (op : Qc -> Qc -> Qc) (a b : nd) : option nd :=
  obind (bin_setup (fst a) (fst b)) (fun f =>
  obind (bin_forward op f (snd a) (snd b) (fresh junk (b_out f))) (fun y => Some (b_out f, y))).
Definition call1 (junk : Qc) (op : Qc -> Qc) (a : nd) : option nd :=
  obind (un_forward op (prod (fst a)) (snd a) (fresh junk (fst a))) (fun y => Some (fst a, y)).
(** A call with the first input, and also the second if [same], as output: only the sizes are
    compared, then the output uses the memory of the input.  The loop of transform_binary reads
    the elements of the inputs from the array it writes to. *)
Definition in_place (same : bool) (op : Qc -> Qc -> Qc) (f : bin) (x1 y : list Qc) : option (list Qc) :=
  loop (fun idx y => obind (at_index f idx) (fun '(i0, i1) =>
    obind (get y i0) (fun a => obind (get (if same then y else x1) i1) (fun b => put y idx (op a b))))) (upto (prod (b_out f))) y.
Definition call_into (same : bool) (op : Qc -> Qc -> Qc) (a b : nd) : option nd :=
  obind (bin_setup (fst a) (fst b)) (fun f =>
  if negb (prod (fst a) =? prod (b_out f)) then None else
  obind (in_place same op f (snd b) (snd a)) (fun y => Some (fst a, y))).
(** Add2 does not use the index loop for arrays of the same shape. *)
Definition add_into (same : bool) (a b : nd) : option nd :=
  if list_eq_dec Z.eq_dec (fst a) (fst b) then
    obind (loop (fun i y => obind (get y i) (fun u => obind (get (if same then y else snd b) i) (fun v => put y i (u + v)%Qc))) (upto (prod (fst a))) (snd a)) (fun y => Some (fst a, y))
  else call_into same add_op a b.
Definition scalar_into (op : Qc -> Qc) (a : nd) : option nd :=
  obind (loop (fun i y => obind (get y i) (fun u => put y i (op u))) (upto (prod (fst a))) (snd a)) (fun y => Some (fst a, y)).
Definition call_add (junk : Qc) (a b : nd) : option nd :=
  obind (add2_setup None (fst a) (fst b)) (fun f =>
  obind (add2_forward f (snd a) (snd b) (fresh junk (add2_shape f))) (fun y => Some (add2_shape f, y))).

(** * Operators *)

(** An operand: an array or a number. *)
Inductive operand := Arr (a : nd) | Num (c : Qc).
Inductive operator := Plus | Minus | Times | Over.
(** add, sub, mul and truediv (_arithmetic_ops.pyx:39-159); [None] is also a ZeroDivisionError. *)
Definition number_op (o : operator) (a b : Qc) : option Qc :=
  match o with
  | Plus => Some (a + b)%Qc | Minus => Some (a - b)%Qc | Times => Some (a * b)%Qc
  | Over => if Qc_eq_dec b 0 then None else Some (a / b)%Qc
  end.
Definition apply_op (junk : Qc) (o : operator) (x y : operand) : option operand :=
  let arr r := obind r (fun r => Some (Arr r)) in
  match x, y with
  | Arr a, Arr b => arr (match o with Plus => call_add junk a b | Minus => call2 junk sub_op a b | Times => call2 junk mul_op a b | Over => call2 junk div_op a b end)
  | Arr a, Num c =>
      match o with
      | Plus => arr (call1 junk (fun u => u + c)%Qc a)
      | Minus => arr (call1 junk (fun u => u + - c)%Qc a)
      | Times => arr (call1 junk (fun u => u * c)%Qc a)
      | Over => obind (number_op Over 1 c) (fun r => arr (call1 junk (fun u => u * r)%Qc a))
      end
  | Num c, Arr a =>
      match o with
      | Plus => arr (call1 junk (fun u => u + c)%Qc a)
      | Minus => arr (call1 junk (fun u => c - u)%Qc a)
      | Times => arr (call1 junk (fun u => u * c)%Qc a)
      | Over => arr (call1 junk (fun u => c / u)%Qc a)
      end
  | Num c, Num d => obind (number_op o c d) (fun r => Some (Num r))
  end.
(** neg (_arithmetic_ops.pyx:28-37). *)
Definition negate (junk : Qc) (a : nd) : option nd := call1 junk (fun u => u * - (1))%Qc a.
(** __iadd__, __isub__, __imul__, __itruediv__ of NdArray (_nd_array.pyx:518-556).  The result is
    what the array holds afterwards and what the name is bound to afterwards; [same] if the
    right-hand side is the same array. *)
Definition augment (junk : Qc) (o : operator) (same : bool) (a : nd) (y : operand) : option (nd * nd) :=
  let kept r := obind r (fun r => Some (r, r)) in
  match y with
  | Arr b =>
      match o with
      | Plus => kept (add_into same a b)
      | Minus => kept (call_into same sub_op a b)
      | Times => obind (call2 junk mul_op a b) (fun r => Some (a, r))
      | Over => obind (call2 junk div_op a b) (fun r => Some (a, r))
      end
  | Num c =>
      match o with
      | Plus => kept (scalar_into (fun u => u + c)%Qc a)
      | Minus => kept (scalar_into (fun u => u + - c)%Qc a)
      | Times => kept (scalar_into (fun u => u * c)%Qc a)
      | Over => obind (number_op Over 1 c) (fun r => kept (scalar_into (fun u => u * r)%Qc a))
      end
  end.
