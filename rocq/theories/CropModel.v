(** Model of RandomCrop (src/nbla/function/generic/random_crop.cpp), for arrays with at least one
    axis.

    Elements are rational numbers.  The generator is the sequence of the numbers that it will give.
    y is written in order, one element after the other, so what slice_forward_recursive does is the
    list of the offsets that are read.  step_ is always 1 and stop_ is never used; both are left
    out.  Sizes to crop to are not negative, and integers do not overflow. *)
From Coq Require Import List ZArith Bool QArith Qcanon.
From Verif Require Import FlipModel FlowModel.
Import ListNotations.
Local Open Scope list_scope.
Local Open Scope Z_scope.

(** setup_impl (random_crop.cpp:31-54): the shape of the output, an error, or, if there are more
    sizes to crop to than axes, reading before the start of the shape. *)
Inductive outcome := Cropped (shape : list nat) | Refused | Undefined.
Definition crop_setup (ins crop : list nat) : outcome :=
  if Nat.ltb (length ins) (length crop) then Undefined
  else let dim_offset := (length ins - length crop)%nat in
       if forallb (fun i => Nat.leb (nth i crop 0%nat) (nth (i + dim_offset) ins 0%nat)) (seq 0 (length crop))
       then Cropped (firstn dim_offset ins ++ crop) else Refused.
(** slice_forward_recursive (random_crop.cpp:56-91) from axis [dim] on: offsets in x, and slice_index
    afterwards. *)
Fixpoint crop_reads (starts : list (list Z)) (base dim : nat) (ins outs : list nat) (x_offset : Z) (slice_index : nat) : list Z * nat :=
  match ins, outs with
  | _ :: irest, size :: orest =>
      let stride := count irest in
      let current := x_offset + stride * nth dim (nth slice_index starts []) 0 in
      match irest with
      | [] => (map (fun i => current + Z.of_nat i * stride) (seq 0 size), slice_index)
      | _ :: _ =>
          (fix loop n current slice_index :=
             match n with
             | O => ([], slice_index)
             | S n => let '(l, k) := crop_reads starts base (S dim) irest orest current slice_index in
                      let k := if Nat.ltb dim base then ((k + 1) mod length starts)%nat else k in
                      let '(l', k) := loop n (current + stride) k in
                      (l ++ l', k)
             end) size current slice_index
      end
  | _, _ => ([], slice_index)
  end.
(** random_crop (random_crop.cpp:133-161): start_. *)
Definition starts_of (base : nat) (ins crop : list nat) (number : nat -> Z) : list (list Z) :=
  let dim_offset := (length ins - length crop)%nat in
  map (fun id => map (fun i => if Nat.leb dim_offset i
                               then number (id * length crop + (i - dim_offset))%nat mod (Z.of_nat (nth i ins 0%nat) - Z.of_nat (nth (i - dim_offset) crop 0%nat) + 1)
                               else 0) (seq 0 (length ins))) (seq 0 (size_of base ins)).
Definition crop_offsets (base : nat) (ins crop : list nat) (number : nat -> Z) (outs : list nat) : list Z :=
  fst (crop_reads (starts_of base ins crop number) base 0 ins outs 0 0).
Definition crop_forward (base : nat) (ins crop outs : list nat) (number : nat -> Z) (x : list Qc) : list Qc :=
  map (fun o => nth (Z.to_nat o) x 0%Qc) (crop_offsets base ins crop number outs).
(** backward_impl and slice_backward_recursive (random_crop.cpp:93-125, 184-200): the same offsets, to
    which gradients are added. *)
Definition crop_backward (base : nat) (ins crop outs : list nat) (number : nat -> Z) (accum : bool) (dx dy : list Qc) : list Qc :=
  fold_left (fun g '(o, d) => add_at (Z.to_nat o) d g) (combine (crop_offsets base ins crop number outs) dy) (zeroed accum dx).
