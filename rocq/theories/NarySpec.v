(** What sums and products of many inputs should be. *)
From Coq Require Import List QArith Qcanon.
Import ListNotations.
Local Open Scope Qc_scope.

(** Sum and product of element [k] of the inputs that are active. *)
Fixpoint sum_at (k : nat) (mask : list bool) (inputs : list (list Qc)) : Qc :=
  match mask, inputs with a :: mask, x :: inputs => (if a then nth k x 0 else 0) + sum_at k mask inputs | _, _ => 0 end.
Fixpoint product_at (k : nat) (mask : list bool) (inputs : list (list Qc)) : Qc :=
  match mask, inputs with a :: mask, x :: inputs => (if a then nth k x 1 else 1) * product_at k mask inputs | _, _ => 1 end.
(** The same mask without input [i]. *)
Fixpoint without (i : nat) (mask : list bool) : list bool :=
  match mask, i with [], _ => [] | _ :: mask, O => false :: mask | a :: mask, S i => a :: without i mask end.
