(** What a schedule of moves between host and device does when it is carried out. *)
From Coq Require Import List ZArith Bool Arith.
From Verif Require Import SwapModel.
Import ListNotations.
Local Open Scope list_scope.
Local Open Scope Z_scope.

(** Where the copy of an array on the device is: not there, there, or being copied to the host and not
    yet freed. *)
Inductive place := Absent | Resident | Leaving.
Inductive happening := Planned (e : event) | Used (i : nat) | Dropped (s : nat).
Definition leave (a : place) : place := match a with Resident => Leaving | _ => a end.
Definition occupied (a : place) : bool := match a with Absent => false | _ => true end.

Section replay.
Variables (order : list record) (ends : list nat).
Let rec_at (i : nat) : record := nth i order no_record.
Definition from_to (a b : nat) : list nat := seq a (b - a).
(** The records of function [f]: those up to the end of its block, from the end of the block before. *)
Definition accesses (f : nat) : list nat := from_to (match f with O => O | S g => nth g ends 0%nat end) (nth f ends 0%nat).
(** One happening and one array.  Swapping out an array that is not there does nothing, as waiting for an
    array that has not been swapped out (run, lines 930-953).  Using an array on the host is taken to
    leave the copy on the device. *)
Definition act (s : nat) (h : happening) (a : place) : place :=
  match h with
  | Planned (t, i) =>
      if Nat.eqb (said (rec_at i)) s then
        match t with
        | SwapInGet | SwapInCast => Resident
        | SwapOut => leave a
        | Wait => match a with Leaving => Absent | _ => a end
        | Preclear => Absent
        end
      else a
  | Used i =>
      if Nat.eqb (said (rec_at i)) s then
        match tag (rec_at i) with Clear => Absent | _ => if on_device (rec_at i) then Resident else a end
      else a
  | Dropped s' => if Nat.eqb s' s then Absent else a
  end.
Definition after (start : nat -> place) (hs : list happening) (s : nat) : place := fold_left (fun a h => act s h a) hs (start s).
(** While a function runs it accesses its arrays; buffers that only it holds are gone when it ends. *)
Definition body (f : nat) : list happening :=
  map Used (accesses f) ++ map (fun i => Dropped (said (rec_at i))) (filter (fun i => match tag (rec_at i) with Clear => false | _ => temporary (rec_at i) end) (accesses f)).
(** Before function [f] the moves planned for the end of the function before and for the beginning of [f]
    are made (pre_callback, lines 878-907). *)
Fixpoint through (begins finals : nat -> list event) (f : nat) : list happening :=
  match f with
  | O => []
  | S g => through begins finals g ++ map Planned (finals g) ++ map Planned (begins (S g)) ++ body (S g)
  end.
(** Block 0 comes before the first function. *)
Definition at_start : nat -> place := after (fun _ => Absent) (body 0).
Definition whole (begins finals : nat -> list event) : list happening := through begins finals (length ends).

(** The arrays that are ever used, and the memory that the ones on the device take. *)
Definition arrays : list nat := nodup Nat.eq_dec (map said (filter (fun r => match tag r with Clear => false | _ => true end) order)).
Definition memory (weight : nat -> Z) (w : nat -> place) : Z := fold_right Z.add 0 (map (fun s => if occupied (w s) then weight s else 0) arrays).
(** An access is served without a transfer if it makes the array or only writes it. *)
Definition demands (i : nat) : Prop := tag (rec_at i) <> Clear /\ on_device (rec_at i) = true /\ write_only (rec_at i) = false /\ created (rec_at i) = false.
(** Record [j] is the first one of array [s] from index [a] on that is not a clear. *)
Definition first_use (s a j : nat) : Prop :=
  (a <= j < length order)%nat /\ tag (rec_at j) <> Clear /\ said (rec_at j) = s /\ forall k, (a <= k < j)%nat -> tag (rec_at k) <> Clear -> said (rec_at k) <> s.
End replay.

(** Every array is accessed with one type, and all arrays have fixed sizes. *)
Definition one_type (order : list record) (head0 : nat -> option nat) (sizeof : nat -> Z) (weight : nat -> Z) : Prop :=
  exists ty, (forall r, List.In r order -> tag r <> Clear -> dtype r = ty (said r) /\ elements r * sizeof (ty (said r)) = weight (said r)) /\
  (forall s d, head0 s = Some d -> d = ty s) /\ forall s, 0 <= weight s.
(** The blocks follow each other and cover the order. *)
Definition blocks (order : list record) (ends : list nat) : Prop :=
  ends <> [] /\ (forall f, (S f < length ends)%nat -> (nth f ends 0 <= nth (S f) ends 0)%nat) /\ nth (length ends - 1) ends 0%nat = length order.
(** The weights of the arrays used before the first function. *)
Definition before_first (order : list record) (ends : list nat) (weight : nat -> Z) : Z :=
  fold_right Z.add 0 (map weight (nodup Nat.eq_dec (map (fun i => said (nth i order no_record)) (filter (fun i => match tag (nth i order no_record) with Clear => false | _ => true end) (accesses ends 0))))).
(** The weights of the arrays accessed by records. *)
Definition load (order : list record) (weight : nat -> Z) (l : list nat) : Z :=
  fold_right Z.add 0 (map weight (nodup Nat.eq_dec (map (fun i => said (nth i order no_record)) (filter (fun i => match tag (nth i order no_record) with Clear => false | _ => true end) l)))).
(** An access that made its array when it was recorded makes it again, unless the array has a content since
    before the iteration. *)
Definition makes (head0 : nat -> option nat) (order : list record) (i : nat) : Prop :=
  created (nth i order no_record) = true /\
  (head0 (said (nth i order no_record)) = None \/ exists c, (c < i)%nat /\ tag (nth c order no_record) = Clear /\ said (nth c order no_record) = said (nth i order no_record)).
Definition needs_content (head0 : nat -> option nat) (order : list record) (i : nat) : Prop :=
  tag (nth i order no_record) <> Clear /\ write_only (nth i order no_record) = false /\ ~ makes head0 order i.
(** At least one function, blocks in order, one type and one size for each array, and memory that can be addressed. *)
Definition regular (order : list record) (ends : list nat) (sizeof : nat -> Z) (weight : nat -> Z) (max_bytes : Z) (head0 : nat -> option nat) : Prop :=
  blocks order ends /\ (2 <= length ends)%nat /\ one_type order head0 sizeof weight /\ max_bytes < 18446744073709551616.
(** Arrays are used on the device; after a clear an array is made or written before it is read; buffers of a
    function are used by no other function. *)
Definition disciplined (order : list record) (ends : list nat) : Prop :=
  (forall r, List.In r order -> tag r <> Clear -> on_device r = true) /\
  (forall c j, (c < length order)%nat -> tag (nth c order no_record) = Clear -> first_use order (said (nth c order no_record)) (S c) j -> write_only (nth j order no_record) = true \/ created (nth j order no_record) = true) /\
  (forall f i j, List.In i (accesses ends f) -> tag (nth i order no_record) <> Clear -> temporary (nth i order no_record) = true -> (nth f ends 0 <= j < length order)%nat -> tag (nth j order no_record) <> Clear -> said (nth j order no_record) <> said (nth i order no_record)).
