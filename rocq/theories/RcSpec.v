(** What a random choice should be. *)
From Coq Require Import List ZArith QArith Qcanon.
Import ListNotations.
Local Open Scope list_scope.
Local Open Scope Qc_scope.

Definition sum_of (l : list Qc) : Qc := fold_right Qcplus 0 l.
(** The sum of the weights before place [k]. *)
Definition before (w : list Qc) (k : nat) : Qc := sum_of (firstn k w).
(** The number [c] between 0 and 1 picks place [k]: scaled by the sum of all weights it falls into
    the part of the line that belongs to the weight of [k]. *)
Definition picks (w : list Qc) (c : Qc) (k : nat) : Prop :=
  (k < length w)%nat /\ before w k <= c * sum_of w /\ c * sum_of w < before w (S k).
(** A number of a generator. *)
Definition unit_number (c : Qc) : Prop := 0 <= c /\ c < 1.
Definition no_negative (w : list Qc) : Prop := Forall (fun v => 0 <= v) w.
(** The documented condition on the weights of a population. *)
Definition valid (w : list Qc) : Prop := no_negative w /\ 0 < sum_of w.
(** The number of weights above 0. *)
Fixpoint positives (w : list Qc) : nat :=
  match w with [] => O | v :: w => if Qclt_le_dec 0 v then S (positives w) else positives w end.
(** The weights when the places of [l] are taken. *)
Definition left_over (w : list Qc) (l : list nat) : list Qc :=
  map (fun k => if in_dec Nat.eq_dec k l then 0 else nth k w 0) (seq 0 (length w)).
(** 1 + 2 + ... + n. *)
Fixpoint steps (n : nat) : nat := match n with O => O | S n => (S n + steps n)%nat end.
(** The elements of a population at some places. *)
Definition elements (x : list Qc) (l : list nat) : list Qc := map (fun k => nth k x 0) l.
