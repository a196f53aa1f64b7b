(** Model of RandomFlip (src/nbla/function/generic/random_flip.cpp), for arrays with at least one
    axis.

    Elements are rational numbers.  The generator is the sequence of the lowest bits of the numbers
    that it will give.  y is written in order, one element after the other, so what flip_recursive
    does is the list of the offsets that are read. *)
From Coq Require Import List ZArith Bool QArith Qcanon.
Import ListNotations.
Local Open Scope list_scope.
Local Open Scope Z_scope.

Definition count (shape : list nat) : Z := Z.of_nat (fold_right Nat.mul 1%nat shape).
(** flip_[flip_index][dim]. *)
Definition flip_at (flips : list (list bool)) (flip_index dim : nat) : bool := nth dim (nth flip_index flips []) false.
(** flip_recursive (random_flip.cpp:45-88) from axis [dim] on: offsets in x, and flip_index
    afterwards. *)
Fixpoint reads (flips : list (list bool)) (base dim : nat) (shape : list nat) (x_offset : Z) (flip_index : nat) : list Z * nat :=
  match shape with
  | [] => ([], flip_index)
  | size :: rest =>
      let stride := count rest in
      let flip := flip_at flips flip_index dim in
      let current := if flip then x_offset + stride * (Z.of_nat size - 1) else x_offset in
      let step := if flip then - stride else stride in
      match rest with
      | [] => (map (fun i => current + Z.of_nat i * step) (seq 0 size), flip_index)
      | _ :: _ =>
          (fix loop n current flip_index :=
             match n with
             | O => ([], flip_index)
             | S n => let '(l, k) := reads flips base (S dim) rest current flip_index in
                      let k := if Nat.ltb dim base then ((k + 1) mod length flips)%nat else k in
                      let '(l', k) := loop n (current + step) k in
                      (l ++ l', k)
             end) size current flip_index
      end
  end.
(** random_flip (random_flip.cpp:96-113): the flips; [size] is size_, the number of samples, and
    [ndim] the number of axes. *)
Definition draw (size ndim : nat) (axes : list nat) (bit : nat -> bool) : list (list bool) :=
  map (fun i => map (fun id => bit (i * ndim + id)%nat && existsb (Nat.eqb id) axes) (seq 0 ndim)) (seq 0 size).
Definition size_of (base : nat) (shape : list nat) : nat := fold_right Nat.mul 1%nat (firstn base shape).
Definition flips_of (base : nat) (shape axes : list nat) (bit : nat -> bool) : list (list bool) := draw (size_of base shape) (length shape) axes bit.
(** forward_impl, with add = false (random_flip.cpp:57-76, 109-112). *)
Definition flip_forward (base : nat) (shape axes : list nat) (bit : nat -> bool) (x : list Qc) : list Qc :=
  map (fun o => nth (Z.to_nat o) x 0%Qc) (fst (reads (flips_of base shape axes bit) base 0 shape 0 0)).
(** backward_impl (random_flip.cpp:136-148): the same with dy in place of x and dx in place of y. *)
Fixpoint put_each (add : bool) (dx : list Qc) (values : list Qc) : list Qc :=
  match dx, values with d :: dx, v :: values => ((if add then d else 0) + v)%Qc :: put_each add dx values | _, _ => [] end.
Definition flip_backward (base : nat) (shape axes : list nat) (bit : nat -> bool) (accum : bool) (dx dy : list Qc) : list Qc :=
  put_each accum dx (map (fun o => nth (Z.to_nat o) dy 0%Qc) (fst (reads (flips_of base shape axes bit) base 0 shape 0 0))).
