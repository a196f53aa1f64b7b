(** Model of MeanSubtraction (src/nbla/function/generic/mean_subtraction.cpp).

    Elements are rational numbers without rounding.  Setup is left out: [size0] is the number of
    samples and [size1] the size of a sample, and arrays have the lengths that go with them. *)
From Coq Require Import List ZArith Bool QArith Qcanon.
From Verif Require Import ReduceModel.
Import ListNotations.
Local Open Scope list_scope.
Local Open Scope Qc_scope.

Definition int_max : Z := 2147483647.
(** m[i1] (mean_subtraction.cpp:103-108). *)
Definition batch_mean (size0 size1 : nat) (x : list Qc) (i1 : nat) : Qc :=
  fold_left Qcplus (map (fun i0 => nth (i0 * size1 + i1) x 0) (seq 0 size0)) 0 / of_Z (Z.of_nat size0).
(** y[i] = x[i] - rm[i1] for all i, in the order of i (mean_subtraction.cpp:113-117 and 134-139). *)
Definition subtract (size0 size1 : nat) (x rm : list Qc) : list Qc :=
  concat (map (fun i0 => map (fun i1 => nth (i0 * size1 + i1) x 0 - nth i1 rm 0) (seq 0 size1)) (seq 0 size0)).
(** forward_impl_batch (mean_subtraction.cpp:86-121): y, the running mean and the count.  [None]: the
    count + 1 is more than an int can hold, so the behaviour is undefined, or it is zero. *)
Definition forward_batch (size0 size1 : nat) (x rm : list Qc) (t : Z) : option (list Qc * list Qc * Z) :=
  if (int_max <? t + 1)%Z || (t + 1 =? 0)%Z then None else
  let coef := 1 / of_Z (t + 1) in
  let rm' := map (fun i1 => nth i1 rm 0 + (batch_mean size0 size1 x i1 - nth i1 rm 0) * coef) (seq 0 size1) in
  Some (subtract size0 size1 x rm', rm', Z.min (t + 1) int_max).
(** forward_impl_global (mean_subtraction.cpp:123-140); recompute_impl is this as well (80-84). *)
Definition forward_global (size0 size1 : nat) (x rm : list Qc) : list Qc := subtract size0 size1 x rm.
Definition recompute := forward_global.

(** mean_subtraction_backward_batch and backward_impl_batch (mean_subtraction.cpp:154-183); [t] is the
    count at this time. *)
Fixpoint scaled (accum : bool) (factor : Qc) (dx dy : list Qc) : list Qc :=
  match dx, dy with a :: dx, b :: dy => (if accum then a else 0) + b * (1 - factor) :: scaled accum factor dx dy | _, _ => [] end.
Definition backward_batch (size0 : nat) (propagate accum : bool) (t : Z) (dx dy : list Qc) : list Qc :=
  if negb propagate then dx else scaled accum (1 / of_Z (t * Z.of_nat size0)) dx dy.
(** mean_subtraction_backward_global and backward_impl_global (mean_subtraction.cpp:185-211). *)
Fixpoint passed (accum : bool) (dx dy : list Qc) : list Qc :=
  match dx, dy with a :: dx, b :: dy => (if accum then a else 0) + b :: passed accum dx dy | _, _ => [] end.
Definition backward_global (propagate accum : bool) (dx dy : list Qc) : list Qc :=
  if negb propagate then dx else passed accum dx dy.

(** Forward with one batch after the other. *)
Fixpoint train (size0 size1 : nat) (batches : list (list Qc)) (rm : list Qc) (t : Z) : option (list Qc * Z) :=
  match batches with
  | [] => Some (rm, t)
  | x :: batches => match forward_batch size0 size1 x rm t with Some (_, rm, t) => train size0 size1 batches rm t | None => None end
  end.
