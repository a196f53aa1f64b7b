(** What shifts should do. *)
From Coq Require Import List ZArith.
From Verif Require Import FlowSpec.
Import ListNotations.
Local Open Scope Z_scope.

(** Place [p] of a row of [size] that goes on beyond its ends: mirrored again and again, with the
    elements at the ends repeated; as at the ends; or not at all. *)
Definition mirrored (size p r : Z) : Prop := 0 <= r < size /\ exists k, p = k * (2 * size) + r \/ p = k * (2 * size) - 1 - r.
Definition inside (size p : Z) : option Z := if Z_lt_le_dec p 0 then None else if Z_lt_le_dec p size then Some p else None.
(** The index in the input, given for each axis the place along this axis. *)
Fixpoint from (source : nat -> nat -> Z -> option Z) (dim : nat) (shape : list nat) (index : list Z) : option (list Z) :=
  match shape, index with
  | n :: s, j :: index => match source dim n j, from source (S dim) s index with Some r, Some l => Some (r :: l) | _, _ => None end
  | _, _ => Some []
  end.
