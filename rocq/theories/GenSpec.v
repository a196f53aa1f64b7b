(** What functions that repeat, cut out or make up arrays should compute. *)
From Coq Require Import List ZArith Bool QArith Qcanon.
From Verif Require Import NdSpec ScanSpec ConvSpec.
Import ListNotations.
Local Open Scope list_scope.
Local Open Scope Z_scope.

(** A shape with ones in front, up to [n] axes. *)
Definition lengthened (n : nat) (s : list Z) : list Z := repeat 1 (n - length s) ++ s.
Definition axes_of (a b : list Z) : nat := Nat.max (length a) (length b).
Fixpoint times (a b : list Z) : list Z := match a, b with m :: a, n :: b => m * n :: times a b | _, _ => [] end.
(** The index inside one copy of an array of shape [s]. *)
Fixpoint folded (c s : list Z) : list Z := match c, s with i :: c, n :: s => i mod n :: folded c s | _, _ => [] end.
(** The places of the output at which element [a] is repeated. *)
Definition copies (s o a : list Z) : list (list Z) := filter (fun c => if list_eq_dec Z.eq_dec (folded c s) a then true else false) (indices o).

(** Entry (i, j) is in the part that is kept. *)
Definition kept_part (upper : bool) (k i j : Z) : Prop := if upper then k <= j - i else j - i <= k.

(** The axis of input [i] among [n]: the first two are swapped for Cartesian indexing. *)
Definition own_axis (ij : bool) (n i : nat) : nat :=
  if ij then i else if Nat.leb n 1 then i else match i with O => 1%nat | 1%nat => O | _ => i end.
(** The shape of a grid for axes of the given lengths. *)
Definition grid (ij : bool) (ms : list Z) : list Z := match ij, ms with false, a :: b :: r => b :: a :: r | _, _ => ms end.
(** The places of a grid whose coordinate for axis [k] is [j]. *)
Definition slab (shape : list Z) (k : nat) (j : Z) : list (list Z) := filter (fun c => Z.eqb (nth k c 0) j) (indices shape).

(** Python's list[start:stop], where stop = 0 stands for none. *)
Definition clipped (n i : Z) : Z := Z.max 0 (Z.min n (if i <? 0 then i + n else i)).
Definition sliced (start stop : Z) (l : list Z) : list Z :=
  let n := Z.of_nat (length l) in
  let a := clipped n start in
  let b := if stop =? 0 then n else clipped n stop in
  firstn (Z.to_nat (b - a)) (skipn (Z.to_nat a) l).
