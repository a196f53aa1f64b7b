(** Model of function_reference_count of one variable
    (src/nbla/computation_graph/variable.cpp:1031-1049,
    computation_graph.cpp:23-37, function.cpp:44-48).

    Functions are numbered in order of creation, so numbers are not reused; the map
    function_references_ is an association list from functions to the field [count]
    of FunctionReferenceInfo, which starts at 0 (variable.hpp:109-112). *)
From Coq Require Import List Arith Bool.
Import ListNotations.

Record vrefs := mkRefs { table : list (nat * nat); total : nat }.
Definition no_refs : vrefs := mkRefs [] 0.

Fixpoint lookup (t : list (nat * nat)) (f : nat) : option nat :=
  match t with
  | [] => None
  | (k, c) :: r => if Nat.eqb k f then Some c else lookup r f
  end.
Fixpoint bump (t : list (nat * nat)) (f : nat) : list (nat * nat) :=
  match t with
  | [] => []
  | (k, c) :: r => if Nat.eqb k f then (k, S c) :: r else (k, c) :: bump r f
  end.
Fixpoint erase (t : list (nat * nat)) (f : nat) : list (nat * nat) :=
  match t with
  | [] => []
  | (k, c) :: r => if Nat.eqb k f then r else (k, c) :: erase r f
  end.

(** insert_function_reference (variable.cpp:1031-1041). *)
Definition insert_ref (v : vrefs) (f : nat) : vrefs :=
  match lookup (table v) f with
  | Some _ => mkRefs (bump (table v) f) (S (total v))
  | None => mkRefs ((f, 0) :: table v) (S (total v))
  end.
(** remove_function_reference (variable.cpp:1043-1049). *)
Definition remove_ref (v : vrefs) (f : nat) : vrefs :=
  match lookup (table v) f with
  | Some c => mkRefs (erase (table v) f) (total v - c)
  | None => v
  end.

(** Events: a function taking the variable [n] times among its inputs is connected
    (set_function_inputs), or a function is destroyed (its destructor calls
    remove_function_reference once per input). *)
Inductive event := Connect (f n : nat) | Destroy (f n : nat).
Fixpoint times {A} (n : nat) (g : A -> A) (x : A) : A :=
  match n with 0 => x | S n => times n g (g x) end.
Definition step (v : vrefs) (e : event) : vrefs :=
  match e with
  | Connect f n => times n (fun v => insert_ref v f) v
  | Destroy f n => times n (fun v => remove_ref v f) v
  end.
Definition run (es : list event) : vrefs := fold_left step es no_refs.
