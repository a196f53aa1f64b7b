(** What sorting and selecting should do, and what the standard library promises. *)
From Coq Require Import List ZArith Bool Permutation QArith Qcanon.
From Verif Require Import NdSpec IdxSpec ScanSpec SortModel.
Import ListNotations.
Local Open Scope list_scope.
Local Open Scope Z_scope.

(** A strict weak order, which the standard library wants of comparisons. *)
Definition strict_weak {A : Type} (R : A -> A -> bool) : Prop :=
  (forall a, R a a = false) /\ (forall a b, R a b = true -> R b a = false) /\
  (forall a b c, R a b = true -> R b c = true -> R a c = true) /\
  (forall a b c, R a b = false -> R b c = false -> R a c = false).
(** No later element comes before an earlier one. *)
Definition ordered {A : Type} (R : A -> A -> bool) (l : list A) : Prop :=
  forall d i j, (i < j < length l)%nat -> R (nth j l d) (nth i l d) = false.
(** std::sort. *)
Definition sorting {A : Type} (sort : (A -> A -> bool) -> list A -> list A) : Prop :=
  forall R l, strict_weak R -> Permutation (sort R l) l /\ ordered R (sort R l).

(** The heaps of the standard library: no element is less than its children. *)
Definition is_heap {A : Type} (R : A -> A -> bool) (l : list A) : Prop :=
  forall d i, (0 < i < length l)%nat -> R (nth ((i - 1) / 2) l d) (nth i l d) = false.
Definition heaping (std : heap_functions) : Prop := forall R, strict_weak R ->
  (forall l, Permutation (make_heap std R l) l /\ is_heap R (make_heap std R l)) /\
  (forall a l, is_heap R (a :: l) -> exists h, pop_heap std R (a :: l) = h ++ [a] /\ Permutation h l /\ is_heap R h) /\
  (forall h a, is_heap R h -> Permutation (push_heap std R (h ++ [a])) (h ++ [a]) /\ is_heap R (push_heap std R (h ++ [a]))) /\
  (forall l, is_heap R l -> Permutation (sort_heap std R l) l /\ ordered R (sort_heap std R l)).

(** [l] are the positions of the [k] best elements of [x], best first. *)
Definition best_k (better : Qc -> Qc -> Prop) (x : list Qc) (k : Z) (l : list Z) : Prop :=
  Z.of_nat (length l) = k /\ NoDup l /\ (forall i, In i l -> 0 <= i < Z.of_nat (length x)) /\
  (forall i j, (i < j < length l)%nat -> ~ better (nth (Z.to_nat (nth j l 0)) x 0%Qc) (nth (Z.to_nat (nth i l 0)) x 0%Qc)) /\
  (forall i j, In i l -> 0 <= j < Z.of_nat (length x) -> ~ In j l -> ~ better (nth (Z.to_nat j) x 0%Qc) (nth (Z.to_nat i) x 0%Qc)).
(** The orders to choose from. *)
Definition Qcabs (v : Qc) : Qc := if Qclt_le_dec v 0 then (- v)%Qc else v.
Definition before_in (largest abs : bool) (a b : Qc) : Prop :=
  let val v := if abs then Qcabs v else v in if largest then (val b < val a)%Qc else (val a < val b)%Qc.
(** Elements [o * n], ..., [o * n + n - 1]: sample [o] of size [n]. *)
Definition sample {T : Type} (d : T) (n o : Z) (a : list T) : list T :=
  map (fun i => nth (Z.to_nat (o * n) + i) a d) (seq 0 (Z.to_nat n)).
