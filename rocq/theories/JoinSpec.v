(** What joining and splitting arrays along an axis should compute. *)
From Coq Require Import List ZArith.
From Verif Require Import NdSpec IdxSpec.
Import ListNotations.
Local Open Scope list_scope.
Local Open Scope Z_scope.

Definition sum (l : list Z) : Z := fold_right Z.add 0 l.

(** [axis] denotes axis [k] of [ndim], counted from the front or from the end. *)
Definition denotes (axis : Z) (k ndim : nat) : Prop := axis = Z.of_nat k \/ axis = Z.of_nat k - Z.of_nat ndim.

(** What a gradient is added to: its previous value, or nothing. *)
Definition before (accum : bool) (v : Z) : Z := if accum then v else 0.

(** Arrays of given shapes. *)
Definition arrays (shapes : list (list Z)) (xs : list (list Z)) : Prop :=
  Forall2 (fun s x => Z.of_nat (length x) = size s) shapes xs.
