(** What flips should do. *)
From Coq Require Import List ZArith.
Import ListNotations.
Local Open Scope Z_scope.

(** All indices of an array, in order, and the place of an element. *)
Fixpoint indices (shape : list nat) : list (list Z) :=
  match shape with [] => [[]] | n :: s => flat_map (fun j => map (cons (Z.of_nat j)) (indices s)) (seq 0 n) end.
Fixpoint elements (shape : list nat) : Z := match shape with [] => 1 | n :: s => Z.of_nat n * elements s end.
Fixpoint place (shape : list nat) (index : list Z) : Z :=
  match shape, index with _ :: s, j :: index => j * elements s + place s index | _, _ => 0 end.
(** The index with the axes turned for which [f] says so. *)
Fixpoint turned (f : nat -> bool) (dim : nat) (shape : list nat) (index : list Z) : list Z :=
  match shape, index with n :: s, j :: index => (if f dim then Z.of_nat n - 1 - j else j) :: turned f (S dim) s index | _, _ => [] end.
