(** Independent vocabulary: reading examples directly from the cache files. *)
From Coq Require Import String List Bool Arith ZArith.
From Verif Require Import PrefModel.
Import ListNotations.
Local Open Scope string_scope.
Local Open Scope list_scope.

Section Files.
Variable content : string -> option arrays.
Variable failures : string -> nat.

(** A file can be read: it exists and opening it fails fewer than ten times in a
    row. *)
Definition readable (f : string) : Prop := content f <> None /\ failures f < 10.

(** Row [i] of every array. *)
Definition row (d : arrays) (i : nat) : option (list Z) :=
  if forallb (fun a => Nat.ltb i (List.length a)) d
  then Some (map (fun a => nth i a 0%Z) d) else None.

(** The example at a position of an order, read directly. *)
Definition direct (ord : list (string * nat)) (pos : nat) : option (list Z) :=
  match nth_error ord pos with
  | None => None
  | Some (f, i) => match content f with Some d => row d i | None => None end
  end.

(** The answers to a sequence of operations; asking for what does not exist
    raises and ends the sequence. *)
Fixpoint direct_answers (ord : list (string * nat)) (ops : list op) : list (outcome (list Z)) :=
  match ops with
  | [] => []
  | Reset ord' :: ops' => direct_answers ord' ops'
  | Get pos :: ops' => match direct ord pos with
                       | Some x => Done x :: direct_answers ord ops'
                       | None => [IndexError]
                       end
  end.

(** The files named by the orders. *)
Fixpoint files_of (ord : list (string * nat)) (ops : list op) : list string :=
  map fst ord ++ match ops with
                 | [] => []
                 | Reset ord' :: ops' => files_of ord' ops'
                 | Get _ :: ops' => files_of [] ops'
                 end.
End Files.
