(** Model of AddN and MulN (src/nbla/function/generic/add_n.cpp and mul_n.cpp).

    Elements are rational numbers; a quotient by zero, which is NaN or infinite, is [None].  Shapes are
    left out: inputs are lists of the same length. *)
From Coq Require Import List ZArith Bool QArith Qcanon.
Import ListNotations.
Local Open Scope list_scope.
Local Open Scope Qc_scope.

(** for (k) y[k] = op(y[k], x[k]). *)
Fixpoint each {A B C} (op : A -> B -> C) (y : list A) (x : list B) : list C :=
  match y, x with a :: y, b :: x => op a b :: each op y x | _, _ => [] end.
(** The second loop over the inputs: those after the first active one (add_n.cpp:57-65,
    mul_n.cpp:57-65).  [mask] is what is_active_input gives for the inputs. *)
Fixpoint remaining (op : Qc -> Qc -> Qc) (mask : list bool) (inputs : list (list Qc)) (y : list Qc) : list Qc :=
  match mask, inputs with
  | a :: mask, x :: inputs => remaining op mask inputs (if a then each op y x else y)
  | _, _ => y
  end.
(** The first loop, which copies the first active input; y keeps what it was if there is none, which
    for MulN is memory that is not initialised (add_n.cpp:44-56, mul_n.cpp:44-56). *)
Fixpoint from_first (op : Qc -> Qc -> Qc) (mask : list bool) (inputs : list (list Qc)) (y : list Qc) : list Qc :=
  match mask, inputs with
  | a :: mask, x :: inputs => if a then remaining op mask inputs x else from_first op mask inputs y
  | _, _ => y
  end.
Definition add_n := from_first Qcplus.
Definition mul_n := from_first Qcmult.

(** The body of the loop of AddN::backward_impl for one input (add_n.cpp:75-86). *)
Definition add_n_backward (active propagate accum : bool) (dx dy : list Qc) : list Qc :=
  if active && propagate then if accum then each Qcplus dx dy else dy else dx.
Definition quotient (a b : Qc) : option Qc := if Qc_eq_dec b 0 then None else Some (a / b).
(** The body of the loop of MulN::backward_impl for one input (mul_n.cpp:76-88). *)
Definition mul_n_backward (active propagate accum : bool) (dx dy y x : list Qc) : list (option Qc) :=
  if active && propagate then
    let v := each (fun dyy x => quotient dyy x) (each Qcmult dy y) x in
    if accum then each (fun d v => option_map (Qcplus d) v) dx v else v
  else map Some dx.
