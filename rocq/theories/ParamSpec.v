(** Independent vocabulary for the properties of the parameter registry. *)
From Coq Require Import List String Ascii Bool Arith ZArith.
From Verif Require Import ParamModel.
Import ListNotations.
Local Open Scope string_scope.
Local Open Scope list_scope.

(** The registry seen as a partial map: the variable found by following a path
    of names from a dictionary. *)
Fixpoint registered (d : dict) (p : list string) : option nat :=
  match p with
  | [] => None
  | [k] => match dlookup k d with Some (EVar v) => Some v | _ => None end
  | n :: q => match dlookup n d with Some (EScope c) => registered c q | _ => None end
  end.

(** The path a slash-separated key denotes: empty components are ignored except
    for the last one, which is the name of the parameter itself. *)
Fixpoint canon (names : list string) : list string :=
  match names with
  | [] => []
  | [k] => [k]
  | n :: rest => if String.eqb n "" then canon rest else n :: canon rest
  end.
Definition key_path (key : string) : list string := canon (split_slash key).
(** ... and as seen from the root when looked up in the current scope. *)
Definition full_path (s : st) (key : string) : list string := cur s ++ key_path key.

(** The path a scope name denotes. *)
Definition nonempty (n : string) : bool := negb (String.eqb n "").
Definition scope_path (name : string) : list string := filter nonempty (split_slash name).

(** The name of a path: '/'-joined components. *)
Fixpoint joinp (p : list string) : string :=
  match p with
  | [] => ""
  | [k] => k
  | n :: q => (n ++ "/" ++ joinp q)%string
  end.

Definition is_prefix (p q : list string) : Prop := exists r, q = p ++ r.
Definition strictly_below (p q : list string) : Prop := exists n r, q = p ++ n :: r.

(** A proper prefix of the path is already a parameter, so the path cannot be
    walked. *)
Definition blocked (r : dict) (path : list string) : Prop :=
  exists p v, strictly_below p path /\ registered r p = Some v.

(** States a client can observe: from the initial state by any commands, also in
    the middle of (arbitrarily nested) with-blocks. *)
Inductive reach : st -> Prop :=
| reach_init : reach init
| reach_cmd s c s' o : reach s -> exec s c = (s', o) -> reach s'
| reach_in_scope s name r p :
    reach s -> enter (root s) (cur s) (scope_names name) = (r, Ok p) ->
    reach (with_cur (with_root s r) p)
| reach_in_nograd s b : reach s -> reach (with_nograd s b).

(** A sequence of get_parameter_or_create calls and their outcomes. *)
Record call := { cname : string; cshape : option (list Z); cinit : initializer;
                 cneed : bool; cas : option bool }.
Fixpoint run_calls (s : st) (cs : list call) : st * list (res retvar) :=
  match cs with
  | [] => (s, [])
  | c :: cs' =>
      let (s1, r) := get_parameter_or_create s (cname c) (cshape c) (cinit c) (cneed c) (cas c) in
      let (s2, rs) := run_calls s1 cs' in (s2, r :: rs)
  end.

(** The content an initializer produces. *)
Definition init_content (i : initializer) : Z :=
  match i with INone => 0%Z | IArray _ c => c | ICallable c => c | IInvalid => 0%Z end.

(** What the caller asked for: need_grad, overridden by as_need_grad. *)
Definition requested (need : bool) (as_need : option bool) : bool :=
  match as_need with None => need | Some b => b end.
