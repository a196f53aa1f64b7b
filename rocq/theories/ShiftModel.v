(** Model of RandomShift (src/nbla/function/generic/random_shift.cpp), for arrays with at least one
    axis.

    Elements are rational numbers.  The generator is the sequence of the numbers that it will give.
    y is written in order, one element after the other, so what shift_recursive does is the list of
    the offsets that are read.  Integers do not overflow. *)
From Coq Require Import List ZArith Bool QArith Qcanon.
From Verif Require Import FlipModel FlowModel.
Import ListNotations.
Local Open Scope list_scope.
Local Open Scope Z_scope.

Inductive mode := Reflect | Nearest | Constant.
(** CVAL_INDEX (include/nbla/function/random_shift.hpp:61). *)
Definition CVAL_INDEX : Z := -1.
(** One entry of a table (random_shift.cpp:59-76). *)
Definition entry (m : mode) (size : nat) (stride shift : Z) (i : nat) : Z :=
  let n := Z.of_nat size in
  let i := Z.of_nat i in
  match m with
  | Reflect => let a := if 1 <? n then Z.rem (Z.abs (i + n * 2 + shift)) (n * 2) else 0 in
               (if n <=? a then n * 2 - 1 - a else a) * stride
  | Nearest => Z.min (Z.max (i + shift) 0) (n - 1) * stride
  | Constant => if (i + shift <? 0) || (n <=? i + shift) then CVAL_INDEX else (i + shift) * stride
  end.
(** prepare_addr_table (random_shift.cpp:43-79) from axis [id] on; [in_dim] is the number of axes. *)
Fixpoint prepare_addr_table (m : mode) (shifts : list Z) (in_dim id : nat) (shape : list nat) : list (list Z) :=
  match shape with
  | [] => []
  | size :: rest =>
      let shift_index := Z.of_nat (length shifts) - Z.of_nat in_dim + Z.of_nat id in
      let shift := if 0 <=? shift_index then - nth (Z.to_nat shift_index) shifts 0 else 0 in
      map (entry m size (count rest) shift) (seq 0 size) :: prepare_addr_table m shifts in_dim (S id) rest
  end.
(** shift_recursive (random_shift.cpp:81-112) from axis [dim] on: offsets in x, or CVAL_INDEX, and
    shift_index afterwards. *)
Fixpoint shift_reads (tables : list (list (list Z))) (base dim : nat) (shape : list nat) (x_offset : Z) (shift_index : nat) : list Z * nat :=
  match shape with
  | [] => ([], shift_index)
  | size :: rest =>
      let table := nth dim (nth shift_index tables []) [] in
      let next i := if (x_offset =? CVAL_INDEX) || (nth i table 0 =? CVAL_INDEX) then CVAL_INDEX else x_offset + nth i table 0 in
      match rest with
      | [] => (map next (seq 0 size), shift_index)
      | _ :: _ =>
          (fix loop n i shift_index :=
             match n with
             | O => ([], shift_index)
             | S n => let '(l, k) := shift_reads tables base (S dim) rest (next i) shift_index in
                      let k := if Nat.ltb dim base then ((k + 1) mod length tables)%nat else k in
                      let '(l', k) := loop n (S i) k in
                      (l ++ l', k)
             end) size 0%nat shift_index
      end
  end.
(** random_shift (random_shift.cpp:152-169); [limits] is shifts_. *)
Definition draw_shifts (limits : list Z) (number : nat -> Z) (i : nat) : list Z :=
  map (fun id => let limit := nth id limits 0 in number (i * length limits + id)%nat mod (limit * 2 + 1) - limit) (seq 0 (length limits)).
Definition tables_of (m : mode) (base : nat) (shape : list nat) (limits : list Z) (number : nat -> Z) : list (list (list Z)) :=
  map (fun i => prepare_addr_table m (draw_shifts limits number i) (length shape) 0 shape) (seq 0 (size_of base shape)).
Definition offsets (m : mode) (base : nat) (shape : list nat) (limits : list Z) (number : nat -> Z) : list Z :=
  fst (shift_reads (tables_of m base shape limits number) base 0 shape 0 0).
Definition read (constant_value : Qc) (x : list Qc) (o : Z) : Qc := if o =? CVAL_INDEX then constant_value else nth (Z.to_nat o) x 0%Qc.
Definition shift_forward (m : mode) (constant_value : Qc) (base : nat) (shape : list nat) (limits : list Z) (number : nat -> Z) (x : list Qc) : list Qc :=
  map (read constant_value x) (offsets m base shape limits number).
(** backward_impl and shift_backward_recursive (random_shift.cpp:114-144, 192-207): the same offsets,
    to which gradients are added. *)
Definition shift_backward (m : mode) (base : nat) (shape : list nat) (limits : list Z) (number : nat -> Z) (accum : bool) (dx dy : list Qc) : list Qc :=
  fold_left (fun g '(o, d) => if o =? CVAL_INDEX then g else add_at (Z.to_nat o) d g) (combine (offsets m base shape limits number) dy) (zeroed accum dx).
