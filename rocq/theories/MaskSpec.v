(** What Where, BoolFill, BoolGather, BoolScatter and OneHot should compute. *)
From Coq Require Import List ZArith Bool QArith Qcanon.
From Verif Require Import NdSpec IdxSpec ScanSpec ReduceSpec ConvSpec MatSpec.
Import ListNotations.
Local Open Scope list_scope.
Local Open Scope Z_scope.

Definition is_set (c : Qc) : bool := if Qc_eq_dec c 0%Qc then false else true.
(** The indices where a mask of shape [M] is set, in order. *)
Definition chosen (M : list Z) (mask : list Qc) : list (list Z) := filter (fun i => is_set (qelem mask M i)) (indices M).
(** All elements are 0 or 1. *)
Definition binary (mask : list Qc) : Prop := Forall (fun c => c = 0%Qc \/ c = 1%Qc) mask.
(** The index in a mask of shape [M], repeated along the other axes, of the element at [i] of an
    array with [n] axes. *)
Definition under (M : list Z) (n : nat) (i : list Z) : list Z := picked M (skipn (n - length M) i).
(** A mask of shape [M] may be repeated to the shape [X]. *)
Definition repeatable (M X : list Z) : Prop := (length M <= length X)%nat /\ Forall2 (fun m n => m = n \/ m = 1) M (skipn (length X - length M) X).
(** Classes count from the end if negative. *)
Definition class_of (n c : Z) : Z := if c <? 0 then c + n else c.
Fixpoint classes (shape : list Z) (c : list Z) : list Z :=
  match shape, c with n :: shape, c :: cs => class_of n c :: classes shape cs | _, _ => [] end.
(** The classes in an array of labels, whose last axis has an entry for each axis of [shape]. *)
Definition labels (A shape x a : list Z) : list Z :=
  classes shape (map (fun k => elem x (A ++ [Z.of_nat (length shape)]) (a ++ [k])) (range 0 (length shape))).
