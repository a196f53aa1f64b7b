(** What reductions should compute. *)
From Coq Require Import List ZArith Bool QArith Qcanon.
From Verif Require Import NdSpec JoinSpec ScanSpec.
Import ListNotations.
Local Open Scope list_scope.
Local Open Scope Z_scope.

(** A [mask] tells which axes are reduced.  The entries of reduced or kept axes. *)
Fixpoint select {A : Type} (b : bool) (mask : list bool) (l : list A) : list A :=
  match mask, l with
  | m :: mask, a :: l => if Bool.eqb m b then a :: select b mask l else select b mask l
  | _, _ => []
  end.
(** The shape of the output and the index in the output that an index of the input
    contributes to: reduced axes are left out, or kept with one entry. *)
Fixpoint out {A : Type} (one : A) (keep_dims : bool) (mask : list bool) (l : list A) : list A :=
  match mask, l with
  | m :: mask, a :: l =>
      if m then (if keep_dims then one :: out one keep_dims mask l else out one keep_dims mask l)
      else a :: out one keep_dims mask l
  | _, _ => []
  end.
Definition out_shape : bool -> list bool -> list Z -> list Z := out 1.
Definition out_index : bool -> list bool -> list Z -> list Z := out 0.
(** All indices that agree with [idx] on the kept axes. *)
Definition group (mask : list bool) (shape idx : list Z) : list (list Z) :=
  filter (fun j => if list_eq_dec Z.eq_dec (select false mask j) (select false mask idx) then true else false) (indices shape).
(** [axes] are the reduced axes in increasing order, counted from the front or the end. *)
Definition chosen (axes : list Z) (mask : list bool) : Prop :=
  Forall2 (fun a k => denotes a k (length mask)) axes (select true mask (seq 0 (length mask))).

Definition lsum (l : list Qc) : Qc := fold_right Qcplus 0%Qc l.
Definition lprod (l : list Qc) : Qc := fold_right Qcmult 1%Qc l.
(** The elements of [x] at some indices. *)
Definition elems (x : list Qc) (shape : list Z) (l : list (list Z)) : list Qc := map (qelem x shape) l.
