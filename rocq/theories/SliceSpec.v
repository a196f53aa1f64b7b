(** Python's slices (Python Library Reference, common sequence operations, notes 3 to 5). *)
From Coq Require Import List ZArith.
Import ListNotations.
Local Open Scope list_scope.
Local Open Scope Z_scope.

(** A bound [v] of a slice with step [k] of a sequence of length [n]: negative bounds count
    from the end, bounds outside the sequence are replaced by the nearest end. *)
Definition clamp (n k v : Z) : Z :=
  if v <? 0 then Z.max (v + n) (if 0 <? k then 0 else -1)
  else Z.min v (if 0 <? k then n else n - 1).
Definition first (n : Z) (start : option Z) (k : Z) : Z :=
  match start with Some v => clamp n k v | None => if 0 <? k then 0 else n - 1 end.
Definition last (n : Z) (stop : option Z) (k : Z) : Z :=
  match stop with Some v => clamp n k v | None => if 0 <? k then n else -1 end.

(** [l] lists the indices of s[start:stop:step]: i, i+k, i+2k, ... stopping before j. *)
Definition python_slice (n : Z) (a : option Z * option Z * option Z) (l : list Z) : Prop :=
  let '(start, stop, step) := a in
  let k := match step with Some k => k | None => 1 end in
  k <> 0 /\
  forall m x, nth_error l m = Some x <->
    x = first n start k + Z.of_nat m * k /\ (if 0 <? k then x < last n stop k else last n stop k < x).

(** [src] is the index whose d-th entry is the index[d]-th element of the d-th list. *)
Inductive picks : list (list Z) -> list Z -> list Z -> Prop :=
| picks_nil : picks [] [] []
| picks_cons l ls i is x xs : 0 <= i -> nth_error l (Z.to_nat i) = Some x -> picks ls is xs ->
    picks (l :: ls) (i :: is) (x :: xs).

(** Bounds the theorems ask for: not the number standing for None in C++; and, for forward
    steps, a start not before the axis, and before its end unless the stop is not beyond
    it; for backward steps, a start before the end of the axis and a stop not before the
    element in front of it. *)
Definition ordinary (n : Z) (a : option Z * option Z * option Z) : Prop :=
  let '(start, stop, step) := a in
  let k := match step with Some k => k | None => 1 end in
  start <> Some 2147483647 /\ stop <> Some 2147483647 /\ step <> Some 2147483647 /\
  (0 < k /\ (let v := match start with Some v => v | None => 0 end in
     - n <= v /\ (v < n \/ (forall w, stop = Some w -> w <= n) \/ v = n /\ k = 1)) \/
   k < 0 /\ (forall v, start = Some v -> v < n) /\ (forall w, stop = Some w -> - n - 1 <= w)).

(** The element of an array at a position. *)
Definition element {A} (l : list A) (i : Z) (v : A) : Prop := 0 <= i /\ nth_error l (Z.to_nat i) = Some v.
