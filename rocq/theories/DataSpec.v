(** Vocabulary for the properties of data sources and iterators. *)
From Coq Require Import List Bool Arith ZArith Lia Permutation.
From Verif Require Import DataModel.
Import ListNotations.

(** Every draw of the random generator is a permutation of 0..n-1. *)
Definition fair (rng : rng_t) : Prop := forall k n, Permutation (rng k n) (seq 0 n).

(** All examples handed out, in order. *)
Definition delivered {E} (outs : list (outcome E)) : list E :=
  flat_map (fun x => match x with Batch l => l | _ => [] end) outs.

(** The e-th group of [size] consecutive examples. *)
Definition epoch_slice {E} (size e : nat) (l : list E) : list E := firstn size (skipn (e * size) l).

(** What n calls of next return when example number j of the whole run is [x j]. *)
Definition batches_of {E} (x : nat -> E) (batch n : nat) : list (outcome E) :=
  map (fun i => Batch (map x (seq (i * batch) batch))) (seq 0 n).

(** The callbacks of e completed epochs. *)
Definition epoch_events (e : nat) : list event :=
  flat_map (fun i => [EpochEnd i; EpochBegin (S i)]) (seq 0 e).

(** How many of the first [i] batches ended at least one epoch. *)
Definition count_wraps (size batch i : nat) : nat :=
  length (filter (fun j => negb (Nat.eqb ((j + 1) * batch / size) (j * batch / size))) (seq 0 i)).

(** The windows of all workers as natural numbers. *)
Definition window (drop_last : bool) (size workers rank : nat) : nat * nat :=
  let (st, en) := slice_start_end drop_last (Z.of_nat size) (Z.of_nat workers) (Z.of_nat rank) in
  (Z.to_nat st, Z.to_nat en).

(** n calls of next have returned full batches in which example number j of the
    whole run is [x j]; the epoch counter and the callbacks agree with the number of
    completed passes over [size] examples. *)
Definition good_run {E} {S} (r : iter S E * list (outcome E)) (x : nat -> E) (size batch n : nat) : Prop :=
  snd r = batches_of x batch n /\ it_epoch (fst r) = n * batch / size /\
  it_log (fst r) = epoch_events (n * batch / size).
