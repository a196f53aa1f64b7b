(** What batch normalization with given statistics computes, and which layers can absorb it. *)
From Coq Require Import List ZArith Bool QArith Qcanon.
From Verif Require Import NdSpec ScanSpec ReduceSpec ConvSpec FoldModel.
Import ListNotations.
Local Open Scope list_scope.
Local Open Scope Z_scope.

(** Normalization of [y] with mean [m] and variance [v], then scale [g] and shift [b]. *)
Definition normalized (root : Qc -> Qc) (e g b m v y : Qc) : Qc := (g * ((y - m) / root (v + e)) + b)%Qc.
(** The shape of the parameters of a batch normalization over one axis of [rank] axes. *)
Definition stat_shape (axis rank : nat) (C : Z) : list Z := map (fun i => if Nat.eqb i axis then C else 1) (seq 0 rank).
Definition valued (a : nd) (shape : list Z) : Prop := sh a = shape /\ Z.of_nat (length (el a)) = size shape.
Definition valued_stats (s : stats) (axis rank : nat) (C : Z) : Prop :=
  valued (beta s) (stat_shape axis rank C) /\ valued (gamma s) (stat_shape axis rank C) /\
  valued (mean s) (stat_shape axis rank C) /\ valued (var s) (stat_shape axis rank C).
(** The [c]-th number. *)
Definition channel (a : nd) (c : Z) : Qc := nth (Z.to_nat c) (el a) 0%Qc.
(** No division by zero. *)
Definition proper (root : Qc -> Qc) (s : stats) (C : Z) : Prop := forall c, 0 <= c < C -> root (channel (var s) c + eps s)%Qc <> 0%Qc.
(** Batch normalization of a number in channel [c]. *)
Definition batch_norm (root : Qc -> Qc) (s : stats) (c : Z) (y : Qc) : Qc :=
  normalized root (eps s) (channel (gamma s) c) (channel (beta s) c) (channel (mean s) c) (channel (var s) c) y.
(** The value of an element of an array. *)
Definition value (a : nd) (idx : list Z) : Qc := qelem (el a) (sh a) idx.
