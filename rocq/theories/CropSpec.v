(** What crops should do. *)
From Coq Require Import List ZArith.
Import ListNotations.
Local Open Scope Z_scope.

(** The index moved by the start of each axis. *)
Fixpoint moved_by (start : nat -> Z) (dim : nat) (index : list Z) : list Z :=
  match index with [] => [] | j :: index => j + start dim :: moved_by start (S dim) index end.
