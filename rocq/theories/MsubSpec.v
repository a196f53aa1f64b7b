(** What subtraction of the running mean should compute. *)
From Coq Require Import List ZArith QArith Qcanon.
From Verif Require Import QuantSpec.
Import ListNotations.
Local Open Scope Qc_scope.

Fixpoint total (l : list Qc) : Qc := match l with [] => 0 | v :: l => v + total l end.
(** [m] is the mean of element [c] of the samples. *)
Definition is_mean (size0 size1 : nat) (x : list Qc) (c : nat) (m : Qc) : Prop :=
  whole_number (Z.of_nat size0) * m = total (map (fun s => nth (s * size1 + c) x 0) (seq 0 size0)).
