(** Padded and packed sequences. *)
From Coq Require Import List Arith Bool Sorting.Sorted.
Import ListNotations.
Local Open Scope list_scope.

(** Lengths in decreasing order. *)
Definition decreasing (l : list nat) : Prop := StronglySorted (fun a b => b <= a) l.

(** Element (t, b, d) of a (T, B, D) or (B, T, D) array in row-major order is [v]. *)
Definition cell {A} (batch_first : bool) (T B D : nat) (x : list A) (t b d : nat) (v : A) : Prop :=
  t < T /\ b < B /\ d < D /\ nth_error x ((if batch_first then b * T + t else t * B + b) * D + d) = Some v.

(** The elements of the packed sequence: for each step, the sequences longer than it. *)
Definition packed_order (lengths : list nat) (T D : nat) : list (nat * nat * nat) :=
  flat_map (fun t =>
    flat_map (fun b => map (fun d => (t, b, d)) (seq 0 D))
      (filter (fun b => t <? nth b lengths 0) (seq 0 (length lengths)))) (seq 0 T).
Definition total (l : list nat) : nat := fold_right Nat.add 0 l.
