(** Model of the Python gradients (python/src/nnabla/backward_function/*.py) of functions of arrays:
    Add2, Sub2, Mul2, Div2, Maximum2, Minimum2, Broadcast, Sum, Mean, Prod, Max and Min.

    A Python gradient calls functions on variables, which are modelled by what the C++ functions
    compute from the data: BinModel for functions of two arrays, ReduceModel for Sum and Prod,
    IdxModel for the places Broadcast reads from.  The conventions of these hold: arrays are lists of
    rational numbers with a shape, None is any error.  [junk] is what new memory holds.  That the
    results are again graphs with gradients is not modelled here; see BfModel. *)
From Coq Require Import List ZArith Bool QArith Qcanon.
From Verif Require Import IdxModel JoinModel ScanModel ReduceModel ConvModel MatModel BinModel.
Import ListNotations.
Local Open Scope list_scope.
Local Open Scope Z_scope.

(** * Functions that gradients call *)
(** functions.py:25-43 and sum.cpp; functions.py:257-275 and prod.cpp. *)
Definition call_red (forward : reduction -> list Z -> list Qc -> list Qc -> option (list Qc)) (junk : Qc) (axes : list Z) (keep_dims : bool) (a : nd) : option nd :=
  obind (red_setup (created axes) keep_dims (fst a)) (fun '(f, out) =>
  obind (forward f (fst a) (snd a) (fresh junk out)) (fun y => Some (out, y))).
Definition py_sum := call_red sum_forward.
Definition py_prod := call_red prod_forward.
(** broadcast.cpp:28-67 and 98-107. *)
Definition py_broadcast (junk : Qc) (target : list Z) (a : nd) : option nd :=
  obind (bc_pairs (fst a) target) (fun ps =>
  obind (copyq ps (snd a) (fresh junk target)) (fun y => Some (target, y))).
(** reshape.cpp:49-56 and 76-78, for a shape without a negative entry. *)
Definition py_reshape (shape : list Z) (a : nd) : option nd := if prod (fst a) =? prod shape then Some (shape, snd a) else None.
(** greater.hpp:23, less.hpp:23, equal.hpp:23. *)
Definition gt_op (a b : Qc) : Qc := qbool (qgt a b).
Definition lt_op (a b : Qc) : Qc := qbool (qgt b a).
Definition eq_op (a b : Qc) : Qc := if Qc_eq_dec a b then 1%Qc else 0%Qc.
(** The numbers of the axes with one element. *)
Fixpoint ones_from (i : Z) (shape : list Z) : list Z :=
  match shape with [] => [] | n :: shape => if n =? 1 then i :: ones_from (i + 1) shape else ones_from (i + 1) shape end.
(** sum_for_arithmetics and sum_for_arithmetics_with_shape (backward_function/utils.py:67-80). *)
Definition sum_for (junk : Qc) (shape : list Z) (a : nd) : option nd := py_sum junk (ones_from 0 shape) true a.

(** * Functions of two arrays *)
Definition both (r0 r1 : option nd) : option (nd * nd) := obind r0 (fun a => obind r1 (fun b => Some (a, b))).
(** add2.py:37-44, sub2.py:37-44, mul2.py:38-45, div2.py:38-45. *)
Definition py_add2 (junk : Qc) (x0 x1 dy : nd) : option (nd * nd) :=
  both (sum_for junk (fst x0) dy) (sum_for junk (fst x1) dy).
Definition py_sub2 (junk : Qc) (x0 x1 dy : nd) : option (nd * nd) :=
  both (sum_for junk (fst x0) dy) (obind (negate junk dy) (sum_for junk (fst x1))).
Definition py_mul2 (junk : Qc) (x0 x1 dy : nd) : option (nd * nd) :=
  both (obind (call2 junk mul_op dy x1) (sum_for junk (fst x0))) (obind (call2 junk mul_op dy x0) (sum_for junk (fst x1))).
Definition py_div2 (junk : Qc) (x0 x1 dy : nd) : option (nd * nd) :=
  both (obind (call2 junk div_op dy x1) (sum_for junk (fst x0)))
       (obind (negate junk dy) (fun n => obind (call2 junk mul_op n x0) (fun p => obind (call1 junk (fun u => u * u)%Qc x1) (fun s =>
        obind (call2 junk div_op p s) (sum_for junk (fst x1)))))).
(** maximum2.py:39-48, minimum2.py:39-48. *)
Definition py_extreme (cmp : Qc -> Qc -> Qc) (junk : Qc) (x0 x1 dy : nd) : option (nd * nd) :=
  obind (call2 junk cmp x0 x1) (fun m0 => obind (call1 junk (fun u => 1 - u)%Qc m0) (fun m1 =>
  both (call2 junk mul_op dy m0) (call2 junk mul_op dy m1))).
Definition py_maximum2 := py_extreme gt_op.
Definition py_minimum2 := py_extreme lt_op.

(** * Functions of one array *)
(** broadcast.py:37-42. *)
Definition py_broadcast_grad (junk : Qc) (xshape : list Z) (dy : nd) : option nd := py_sum junk (ones_from 0 xshape) true dy.
(** i in axes. *)
Definition member (i : Z) (axes : list Z) : bool := existsb (Z.eqb i) axes.
(** [1 if i in axes else s for i, s in enumerate(shape)] *)
Fixpoint flattened (i : Z) (axes shape : list Z) : list Z :=
  match shape with [] => [] | s :: shape => (if member i axes then 1 else s) :: flattened (i + 1) axes shape end.
(** np.prod([s if i in axes else 1 for i, s in enumerate(shape)]) *)
Fixpoint reduced (i : Z) (axes shape : list Z) : Z :=
  match shape with [] => 1 | s :: shape => (if member i axes then s else 1) * reduced (i + 1) axes shape end.
(** F.broadcast(F.reshape(dy, shape), x0_shape), or F.broadcast(dy, x0_shape) with kept axes. *)
Definition spread (junk : Qc) (axes : list Z) (keep_dims : bool) (xshape : list Z) (a : nd) : option nd :=
  if keep_dims then py_broadcast junk xshape a
  else obind (py_reshape (flattened 0 axes xshape) a) (py_broadcast junk xshape).
(** sum.py:22-33. *)
Definition py_sum_grad (junk : Qc) (axes : list Z) (keep_dims : bool) (xshape : list Z) (dy : nd) : option nd :=
  let n := Z.of_nat (length xshape) in
  spread junk (map (fun a => if 0 <=? a then a else a + n) axes) keep_dims xshape dy.
(** mean.py:23-34. *)
Definition py_mean_grad (junk : Qc) (axes : list Z) (keep_dims : bool) (xshape : list Z) (dy : nd) : option nd :=
  obind (spread junk axes keep_dims xshape dy) (fun d =>
  obind (number_op Over 1 (of_Z (reduced 0 axes xshape))) (fun r => call1 junk (fun u => u * r)%Qc d)).
(** max.py:39-61, min.py:39-61; neither with_index nor only_index. *)
Definition py_best_grad (junk : Qc) (axes : list Z) (keep_dims : bool) (x y dy : nd) : option nd :=
  obind (spread junk axes keep_dims (fst x) y) (fun y =>
  obind (spread junk axes keep_dims (fst x) dy) (fun dy =>
  obind (call2 junk eq_op x y) (fun m => call2 junk mul_op dy m))).
(** prod.py:37-48. *)
Definition py_prod_grad (junk : Qc) (axes : list Z) (keep_dims : bool) (x dy : nd) : option nd :=
  obind (py_prod junk axes keep_dims x) (fun y =>
  obind (call2 junk mul_op dy y) (fun p =>
  obind (if keep_dims then Some p else py_reshape (flattened 0 axes (fst x)) p) (fun p =>
  obind (call2 junk div_op p x) (py_broadcast junk (fst x))))).
