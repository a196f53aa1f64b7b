(** Shapes, indices and row-major offsets. *)
From Coq Require Import List ZArith.
Import ListNotations.
Local Open Scope list_scope.
Local Open Scope Z_scope.

(** Number of elements. *)
Fixpoint size (shape : list Z) : Z := match shape with [] => 1 | s :: shape => s * size shape end.

(** [index] is inside [shape]. *)
Definition inside (index shape : list Z) : Prop := Forall2 (fun i s => 0 <= i < s) index shape.

(** The position of [index] in row-major order, read from the outermost axis. *)
Fixpoint position (acc : Z) (index shape : list Z) : Z :=
  match index, shape with
  | i :: index, s :: shape => position (acc * s + i) index shape
  | _, _ => acc
  end.

(** All indices of a shape in row-major order. *)
Fixpoint range (from : Z) (n : nat) : list Z := match n with O => [] | S n => from :: range (from + 1) n end.
Fixpoint indices (shape : list Z) : list (list Z) :=
  match shape with
  | [] => [[]]
  | s :: shape => flat_map (fun i => map (cons i) (indices shape)) (range 0 (Z.to_nat s))
  end.
