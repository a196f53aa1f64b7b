(** What searching, counting and finding distinct elements should do. *)
From Coq Require Import List ZArith Bool Permutation QArith Qcanon.
From Verif Require Import NdSpec ScanSpec SortSpec.
Import ListNotations.
Local Open Scope list_scope.
Local Open Scope Z_scope.

(** * Searching *)

(** [f 0], ..., [f (n - 1)] do not decrease. *)
Definition rising (n : Z) (f : Z -> Qc) : Prop := forall i j, 0 <= i < j -> j < n -> (f i <= f j)%Qc.
(** [a] has its place before a value [v] to be inserted: behind equal elements or before them. *)
Definition goes_before (right : bool) (a v : Qc) : Prop := if right then (a <= v)%Qc else (a < v)%Qc.
(** Inserting [v] at [k] is right: just the elements before [k] have their place before [v]. *)
Definition insertion (right : bool) (n : Z) (f : Z -> Qc) (v : Qc) (k : Z) : Prop :=
  0 <= k <= n /\ forall i, 0 <= i < n -> (i < k <-> goes_before right (f i) v).

(** * Finding elements that are not zero *)

(** Their indices, in row-major order. *)
Definition nonzero_indices (shape : list Z) (x : list Qc) : list (list Z) :=
  filter (fun idx => if Qc_eq_dec (qelem x shape idx) 0 then false else true) (indices shape).

(** * Classification *)

(** [l] lists the classes 0, ..., n - 1, those of higher scores first. *)
Definition ranking (n : Z) (score : Z -> Qc) (l : list Z) : Prop :=
  Permutation l (range 0 (Z.to_nat n)) /\
  forall i j, (i < j < length l)%nat -> (score (nth j l 0%Z) <= score (nth i l 0%Z))%Qc.
(** [c] is the first of the classes of highest score. *)
Definition predicted (n : Z) (score : Z -> Qc) (c : Z) : Prop :=
  0 <= c < n /\ (forall i, 0 <= i < n -> (score i <= score c)%Qc) /\ (forall i, 0 <= i < c -> (score i < score c)%Qc).

(** * Distinct elements *)

(** std::stable_sort: equivalent elements keep their order. *)
Definition stable {A : Type} (sort : (A -> A -> bool) -> list A -> list A) : Prop :=
  forall R l a, strict_weak R ->
  filter (fun b => negb (R a b) && negb (R b a)) (sort R l) = filter (fun b => negb (R a b) && negb (R b a)) l.

(** [count] of the values [val 0], ..., [val (n - 1)] are [v]. *)
Definition occurs {V : Type} (n : Z) (val : Z -> V) (v : V) (count : Z) : Prop :=
  exists l, NoDup l /\ (forall i, In i l <-> 0 <= i < n /\ val i = v) /\ count = Z.of_nat (length l).
(** [out 0], ..., [out (num - 1)] are the distinct values of [val 0], ..., [val (n - 1)], in
    order of their values or of where they first occur, [index] says where each first
    occurs, [inverse] which of them each value is, and [counts] how often each occurs. *)
Record distinct {V : Type} (before : V -> V -> Prop) (sorted : bool) (n : Z) (val : Z -> V)
    (num : Z) (out : Z -> V) (index inverse counts : Z -> Z) : Prop := {
  d_index : forall k, 0 <= k < num -> 0 <= index k < n /\ val (index k) = out k /\ forall j, 0 <= j < index k -> val j <> out k;
  d_inverse : forall i, 0 <= i < n -> 0 <= inverse i < num /\ out (inverse i) = val i;
  d_counts : forall k, 0 <= k < num -> occurs n val (out k) (counts k);
  d_order : forall k k', 0 <= k < k' -> k' < num -> if sorted then before (out k) (out k') else index k < index k' }.

(** The elements of slice [a] of an axis of size [n] between axes [A] and [B]. *)
Definition slice_of (x : list Qc) (A : list Z) (n : Z) (B : list Z) (a : Z) : list Qc :=
  map (fun pr => qelem x (A ++ n :: B) (fst pr ++ a :: snd pr)) (list_prod (indices A) (indices B)).
(** The lexicographic order: the first difference decides. *)
Definition lex (a b : list Qc) : Prop := exists w u v s t, a = w ++ u :: s /\ b = w ++ v :: t /\ (u < v)%Qc.
(** Element [i] of a list of integers. *)
Definition ith (l : list Z) (i : Z) : Z := nth (Z.to_nat i) l 0.
