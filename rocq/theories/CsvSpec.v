(** What the header cells of a CSV data set mean (property C32). *)
From Coq Require Import String Ascii List Arith Bool DecimalString.
Import ListNotations.
Local Open Scope string_scope.
Local Open Scope list_scope.

(** A header cell: a comment, or a column for variable [n], either as a whole or for its
    item number k, possibly with a label. *)
Inductive cell := Comment (text : string) | Col (n : string) (k : option nat) (label : option string).

Definition decimal (k : nat) : string := NilEmpty.string_of_uint (Nat.to_uint k).
Definition render (c : cell) : string :=
  match c with
  | Comment t => String "#" t
  | Col n k label =>
      n ++ (match k with Some k => "__" ++ decimal k | None => "" end)
        ++ (match label with Some l => ":" ++ l | None => "" end)
  end%string.

(** [occurs p s]: p is a substring of s. *)
Definition occurs (p s : string) : Prop := exists a b, s = (a ++ p ++ b)%string.

(** Names that can be used: not empty, not starting with '#', without ':' and '__'; and not
    ending in '_' when an index follows. *)
Definition good_cell (c : cell) : Prop :=
  match c with
  | Comment _ => True
  | Col n k _ =>
      n <> "" /\ (forall s, n <> String "#" s) /\ ~ occurs ":" n
      /\ match k with None => ~ occurs "__" n | Some _ => ~ occurs "__" (n ++ "_") end
  end%string.

Definition names (h : list cell) : list string :=
  flat_map (fun c => match c with Comment _ => [] | Col n _ _ => [n] end) h.
(** Each element of a list once, in the order of first appearance. *)
Fixpoint firsts (l : list string) : list string :=
  match l with
  | [] => []
  | x :: l => x :: filter (fun y => negb (String.eqb x y)) (firsts l)
  end.

(** A variable given as a whole has one column. *)
Definition whole_once (h : list cell) : Prop :=
  forall i j n l k l', nth_error h i = Some (Col n None l) -> nth_error h j = Some (Col n k l') -> i = j.
(** The items of each variable are numbered 0, 1, ... from left to right. *)
Definition in_order (h : list cell) : Prop :=
  forall j n k l, nth_error h j = Some (Col n (Some k) l) ->
    k = count_occ string_dec (names (firstn j h)) n.
