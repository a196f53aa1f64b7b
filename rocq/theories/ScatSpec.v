(** What ScatterAdd and ScatterNd should compute. *)
From Coq Require Import List ZArith Bool QArith Qcanon.
From Verif Require Import NdSpec IdxSpec ScanSpec ReduceSpec ConvSpec MatSpec.
Import ListNotations.
Local Open Scope list_scope.
Local Open Scope Z_scope.

(** [i] with its entry [k] replaced by [v]. *)
Definition replaced (k : nat) (v : Z) (i : list Z) : list Z := firstn k i ++ v :: skipn (S k) i.
(** Shapes for ScatterAdd along axis [k]. *)
Record scatter_fit (k : nat) (X0 I X1 : list Z) : Prop := {
  s_axis : (k < length X0)%nat; s_ndim : length I = length X0; s_ndim1 : length X1 = length X0;
  s_x0 : forall m, (m < length X0)%nat -> m <> k -> nth m I 0 <= nth m X0 0;
  s_x1 : forall m, (m < length X0)%nat -> nth m I 0 <= nth m X1 0;
  s_sizes : sizes X0 /\ sizes I /\ sizes X1 }.
(** All indices are in the range of the axis. *)
Definition in_range (k : nat) (X0 idx : list Z) : Prop := Forall (fun v => 0 <= v < nth k X0 0) idx.
Definition same (a b : list Z) : bool := if list_eq_dec Z.eq_dec a b then true else false.

(** The place in the first axes [A] of the output to which ScatterNd brings the entry [c], where
    negative indices count from the end. *)
Definition signed (n v : Z) : Z := if v <? 0 then v + n else v.
Definition place (idx rest A c : list Z) : list Z :=
  map (fun m => signed (nth m A 0) (elem idx (Z.of_nat (length A) :: rest) (Z.of_nat m :: c))) (seq 0 (length A)).
Definition places_valid (idx rest A : list Z) : Prop :=
  forall c m, inside c rest -> (m < length A)%nat -> - nth m A 0 <= elem idx (Z.of_nat (length A) :: rest) (Z.of_nat m :: c) < nth m A 0.
(** [c] is the last, or the first, entry that is brought to [p]. *)
Definition last_to (idx rest A p c : list Z) : Prop :=
  inside c rest /\ place idx rest A c = p /\ forall d, inside d rest -> place idx rest A d = p -> position 0 d rest <= position 0 c rest.
Definition first_to (idx rest A p c : list Z) : Prop :=
  inside c rest /\ place idx rest A c = p /\ forall d, inside d rest -> place idx rest A d = p -> position 0 c rest <= position 0 d rest.
Definition none_to (idx rest A p : list Z) : Prop := forall c, inside c rest -> place idx rest A c <> p.
(** No two entries are brought to the same place. *)
Definition distinct (idx rest A : list Z) : Prop := forall c d, inside c rest -> inside d rest -> place idx rest A c = place idx rest A d -> c = d.
