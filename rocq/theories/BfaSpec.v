(** What Python gradients of functions of arrays should be. *)
From Coq Require Import List ZArith Bool QArith Qcanon.
From Verif Require Import NdSpec ReduceSpec ConvSpec MatSpec BinSpec BinModel.
Import ListNotations.
Local Open Scope list_scope.
Local Open Scope Z_scope.

Definition above (s : list Z) : Prop := Forall (fun n => 0 < n) s.
(** A Python gradient agrees with the C++ gradient of the same function. *)
Definition agrees (py : Qc -> nd -> nd -> nd -> option (nd * nd)) (g0 g1 : Qc -> Qc -> Qc -> Qc -> Qc) : Prop :=
  forall junk A B C f x0 x1 y dy d0 d1, bin_setup A B = Some f -> joined A B C -> above C ->
  has_size x0 (size A) -> has_size x1 (size B) -> has_size y (size C) -> has_size dy (size C) -> has_size d0 (size A) -> has_size d1 (size B) ->
  exists e0 e1, py junk (A, x0) (B, x1) (C, dy) = Some ((A, e0), (B, e1)) /\
    bin_backward g0 g1 f x0 x1 y dy (Some (false, d0)) (Some (false, d1)) = Some (Some e0, Some e1).
(** The same, but only for inputs of the same shape. *)
Definition agrees_same (py : Qc -> nd -> nd -> nd -> option (nd * nd)) (g0 g1 : Qc -> Qc -> Qc -> Qc -> Qc) : Prop :=
  forall junk A f x0 x1 y dy d0 d1, bin_setup A A = Some f -> above A ->
  has_size x0 (size A) -> has_size x1 (size A) -> has_size y (size A) -> has_size dy (size A) -> has_size d0 (size A) -> has_size d1 (size A) ->
  exists e0 e1, py junk (A, x0) (A, x1) (A, dy) = Some ((A, e0), (A, e1)) /\
    bin_backward g0 g1 f x0 x1 y dy (Some (false, d0)) (Some (false, d1)) = Some (Some e0, Some e1).
(** Every extent of [A] is that of [C] or 1. *)
Definition widens (A C : list Z) : Prop := Forall2 (fun a c => a = c \/ a = 1) A C.
