(** Model of the global parameter registry: python/src/nnabla/parameter.py.

    Simplifications, global to this file:
    - A Python dictionary of scopes is a list of (name, entry) pairs in insertion
      order; [dset] keeps the position of an existing key and appends a new one,
      as OrderedDict does.
    - [current_scope] (a reference to a dictionary object, parameter.py:37) is the
      path from the root dictionary to it.  The optional argument [scope=] of
      parameter_scope, by which a caller supplies another dictionary object, is
      not modelled.
    - A Variable object is an index into [heap]; the array behind it is an index
      into [store]; array contents are opaque integers chosen by the initializer.
    - Python exceptions are values of type [exn]. *)
From Coq Require Import List String Ascii Bool Arith ZArith.
Import ListNotations.
Local Open Scope string_scope.
Local Open Scope list_scope.

(** An entry of a scope dictionary: a Variable object or a sub-dictionary
    (parameter.py:181 stores dictionaries, :230 stores variables). *)
Inductive entry : Type :=
| EVar (v : nat)
| EScope (d : list (string * entry)).

Definition dict := list (string * entry).

(** dict.get *)
Fixpoint dlookup (n : string) (d : dict) : option entry :=
  match d with
  | [] => None
  | (m, e) :: d' => if String.eqb n m then Some e else dlookup n d'
  end.

(** dict.__setitem__ of an OrderedDict *)
Fixpoint dset (n : string) (e : entry) (d : dict) : dict :=
  match d with
  | [] => [(n, e)]
  | (m, x) :: d' => if String.eqb n m then (m, e) :: d' else (m, x) :: dset n e d'
  end.

(** dict.__delitem__ *)
Fixpoint ddel (n : string) (d : dict) : dict :=
  match d with
  | [] => []
  | (m, x) :: d' => if String.eqb n m then d' else (m, x) :: ddel n d'
  end.

(** Variable objects: shape, need_grad flag and the array they refer to. *)
Record var := { vshape : list Z; vneed : bool; vstore : nat }.

(** What get_parameter_or_create hands back: an unlinked variable
    (parameter.py:323-326) sharing the array. *)
Record retvar := { rshape : list Z; rneed : bool; rstore : nat; rname : string }.

Inductive exn := AssertionError | ValueError | TypeError | UserError | Detached.

Inductive res (A : Type) := Ok (a : A) | Exn (e : exn).
Arguments Ok {A} a. Arguments Exn {A} e.

(** The module-level state: parameter.py:37-39 ([root], [cur], [nograd]) plus the
    objects it refers to. *)
Record st := { heap : list var; store : list Z; root : dict;
               cur : list string; nograd : bool }.

Definition with_cur (s : st) (c : list string) : st :=
  {| heap := heap s; store := store s; root := root s; cur := c; nograd := nograd s |}.
Definition with_root (s : st) (r : dict) : st :=
  {| heap := heap s; store := store s; root := r; cur := cur s; nograd := nograd s |}.
Definition with_nograd (s : st) (b : bool) : st :=
  {| heap := heap s; store := store s; root := root s; cur := cur s; nograd := b |}.
Definition with_heap (s : st) (h : list var) : st :=
  {| heap := h; store := store s; root := root s; cur := cur s; nograd := nograd s |}.

(** Dereference and overwrite the dictionary a path refers to. *)
Fixpoint dict_at (d : dict) (p : list string) : option dict :=
  match p with
  | [] => Some d
  | n :: q => match dlookup n d with
              | Some (EScope c) => dict_at c q
              | _ => None
              end
  end.

Fixpoint dict_put (d : dict) (p : list string) (new : dict) : dict :=
  match p with
  | [] => new
  | n :: q => match dlookup n d with
              | Some (EScope c) => dset n (EScope (dict_put c q new)) d
              | _ => d
              end
  end.

(** str.split('/'): always at least one component. *)
Fixpoint split_slash (s : string) : list string :=
  match s with
  | EmptyString => [""]
  | String c s' =>
      if Ascii.eqb c "/"%char then "" :: split_slash s'
      else match split_slash s' with
           | [] => [String c ""]          (* unreachable *)
           | h :: t => String c h :: t
           end
  end.

(** str.strip('/') *)
Fixpoint lstrip_slash (s : string) : string :=
  match s with
  | String c s' => if Ascii.eqb c "/"%char then lstrip_slash s' else s
  | EmptyString => ""
  end.

Fixpoint srev_app (s acc : string) : string :=
  match s with EmptyString => acc | String c s' => srev_app s' (String c acc) end.
Definition srev s := srev_app s "".
Definition strip_slash (s : string) : string := srev (lstrip_slash (srev (lstrip_slash s))).

(** The loop parameter.py:174-183: walk (and create) scopes component by
    component; an empty component stays in the same scope.  [Exn] is the
    AssertionError of line 182; dictionaries created before it stay. *)
Fixpoint enter (r : dict) (p : list string) (names : list string)
  : dict * res (list string) :=
  match names with
  | [] => (r, Ok p)
  | n :: ns =>
      if String.eqb n "" then enter r p ns
      else match dict_at r p with
           | None => (r, Exn Detached)
           | Some d =>
               match dlookup n d with
               | None => enter (dict_put r p (dset n (EScope []) d)) (p ++ [n]) ns
               | Some (EScope c) =>
                   enter (dict_put r p (dset n (EScope c) d)) (p ++ [n]) ns
               | Some (EVar _) => (r, Exn AssertionError)
               end
           end
  end.

(** parameter_scope (parameter.py:99-188) around a body; the [finally] clause
    restores [current_scope] whether or not the body raises. *)
Definition with_scope {A} (s : st) (names : list string)
           (body : st -> st * res A) : st * res A :=
  let prev := cur s in
  match enter (root s) (cur s) names with
  | (r, Exn e) => (with_root s r, Exn e)
  | (r, Ok p) =>
      let (s', o) := body (with_cur (with_root s r) p) in
      (with_cur s' prev, o)
  end.

Definition scope_names (name : string) : list string := split_slash (strip_slash name).

(** get_parameter (parameter.py:191-200).  The recursion on
    '/'.join(names[1:]) is a recursion on the tail of the component list.
    parameter_scope(names[0]) receives a single component without slashes. *)
Fixpoint get_names (s : st) (names : list string) : st * res (option nat) :=
  match names with
  | [] => (s, Ok None)                                    (* unreachable *)
  | [k] => match dict_at (root s) (cur s) with
           | None => (s, Exn Detached)
           | Some d => match dlookup k d with
                       | None => (s, Ok None)
                       | Some (EVar v) => (s, Ok (Some v))
                       | Some (EScope _) => (s, Exn AssertionError)
                       end
           end
  | n :: rest => with_scope s [n] (fun s' => get_names s' rest)
  end.
Definition get_parameter (s : st) (key : string) := get_names s (split_slash key).

(** pop_parameter (parameter.py:203-221); like the code it also removes, and
    returns, a whole scope dictionary. *)
Fixpoint pop_names (s : st) (names : list string) : st * res (option entry) :=
  match names with
  | [] => (s, Ok None)                                    (* unreachable *)
  | [k] => match dict_at (root s) (cur s) with
           | None => (s, Exn Detached)
           | Some d => match dlookup k d with
                       | None => (s, Ok None)
                       | Some e => (with_root s (dict_put (root s) (cur s) (ddel k d)), Ok (Some e))
                       end
           end
  | n :: rest => with_scope s [n] (fun s' => pop_names s' rest)
  end.
Definition pop_parameter (s : st) (key : string) := pop_names s (split_slash key).

(** set_parameter (parameter.py:224-230) *)
Fixpoint set_names (s : st) (names : list string) (v : nat) : st * res unit :=
  match names with
  | [] => (s, Ok tt)                                      (* unreachable *)
  | [k] => match dict_at (root s) (cur s) with
           | None => (s, Exn Detached)
           | Some d => (with_root s (dict_put (root s) (cur s) (dset k (EVar v) d)), Ok tt)
           end
  | n :: rest => with_scope s [n] (fun s' => set_names s' rest v)
  end.
Definition set_parameter (s : st) (key : string) (v : nat) := set_names s (split_slash key) v.

(** _create_parameter_by_initializer (parameter.py:233-257).  The integer is the
    content the initializer produces. *)
Inductive initializer :=
| INone | IArray (shape : list Z) (content : Z) | ICallable (content : Z) | IInvalid.

Definition create_by_initializer (i : initializer) (shape : option (list Z))
  : res (list Z * Z) :=
  match i with
  | INone => match shape with None => Exn AssertionError | Some sh => Ok (sh, 0%Z) end
  | IArray ash c =>
      match shape with
      | None => Ok (ash, c)
      | Some sh => if list_eq_dec Z.eq_dec sh ash then Ok (ash, c) else Exn AssertionError
      end
  | ICallable c => match shape with None => Exn AssertionError | Some sh => Ok (sh, c) end
  | IInvalid => Exn ValueError
  end.

(** Assigning an attribute of the Variable object [v]. *)
Fixpoint heap_upd (h : list var) (v : nat) (x : var) : list var :=
  match h, v with
  | [], _ => []
  | _ :: h', O => x :: h'
  | y :: h', S v' => y :: heap_upd h' v' x
  end.

(** get_parameter_or_create (parameter.py:260-352).  [as_need] is the optional
    argument as_need_grad. *)
Fixpoint goc_names (s : st) (names : list string) (shape : option (list Z))
         (i : initializer) (need : bool) (as_need : option bool)
  : st * res retvar :=
  match names with
  | [] => (s, Exn AssertionError)                         (* unreachable *)
  | [k] =>
      let an := match as_need with None => need | Some b => b end in
      let an := if nograd s then false else an in
      match get_names s [k] with
      | (s1, Exn e) => (s1, Exn e)
      | (s1, Ok (Some v)) =>
          match nth_error (heap s1) v with
          | None => (s1, Exn Detached)
          | Some x =>
              match shape with
              | None => (s1, Exn TypeError)               (* tuple(None), line 330 *)
              | Some sh =>
                  if list_eq_dec Z.eq_dec (vshape x) sh then
                    let ret := {| rshape := vshape x; rneed := an; rstore := vstore x; rname := k |} in
                    if Bool.eqb need (vneed x) then (s1, Ok ret)
                    else
                      let x' := {| vshape := vshape x; vneed := need; vstore := vstore x |} in
                      match set_names (with_heap s1 (heap_upd (heap s1) v x')) [k] v with
                      | (s2, Ok _) => (s2, Ok ret)
                      | (s2, Exn e) => (s2, Exn e)
                      end
                  else (s1, Exn ValueError)
              end
          end
      | (s1, Ok None) =>
          match create_by_initializer i shape with
          | Exn e => (s1, Exn e)
          | Ok (sh, c) =>
              let sid := List.length (store s1) in
              let vid := List.length (heap s1) in
              let x := {| vshape := sh; vneed := need; vstore := sid |} in
              let s2 := {| heap := heap s1 ++ [x]; store := store s1 ++ [c];
                           root := root s1; cur := cur s1; nograd := nograd s1 |} in
              match set_names s2 [k] vid with
              | (s3, Ok _) => (s3, Ok {| rshape := sh; rneed := an; rstore := sid; rname := k |})
              | (s3, Exn e) => (s3, Exn e)
              end
          end
      end
  | n :: rest => with_scope s [n] (fun s' => goc_names s' rest shape i need as_need)
  end.
Definition get_parameter_or_create (s : st) (name : string) :=
  goc_names s (split_slash name).

(** '/'.join([path, k]) if path else k  (parameter.py:377,381) *)
Definition join_path (path k : string) : string :=
  if String.eqb path "" then k else (path ++ "/" ++ k)%string.

(** get_parameters (parameter.py:355-382) as the ordered sequence of assignments
    [params[key] = v] it performs; [out_set] below folds them into the
    OrderedDict that is returned.  Entering each sub-scope with parameter_scope
    and leaving it again is the recursion into the sub-dictionary. *)
Fixpoint collect (h : list var) (grad_only : bool) (path : string) (e : entry)
         (k : string) : list (string * nat) :=
  match e with
  | EVar v =>
      if orb (negb grad_only) (match nth_error h v with Some x => vneed x | None => false end)
      then [(join_path path k, v)] else []
  | EScope d =>
      (fix go (l : list (string * entry)) : list (string * nat) :=
         match l with
         | [] => []
         | (m, x) :: l' => (collect h grad_only (join_path path k) x m ++ go l')%list
         end) d
  end.

Definition collect_dict (h : list var) (grad_only : bool) (path : string) (d : dict)
  : list (string * nat) :=
  flat_map (fun '(m, x) => collect h grad_only path x m) d.

Fixpoint out_set (k : string) (v : nat) (o : list (string * nat)) : list (string * nat) :=
  match o with
  | [] => [(k, v)]
  | (m, x) :: o' => if String.eqb k m then (m, v) :: o' else (m, x) :: out_set k v o'
  end.

Definition get_parameters (s : st) (grad_only : bool) : list (string * nat) :=
  match dict_at (root s) (cur s) with
  | None => []
  | Some d => fold_left (fun o kv => out_set (fst kv) (snd kv) o)
                        (collect_dict (heap s) grad_only "" d) []
  end.

(** clear_parameters (parameter.py:385-389): delete every key of the current scope. *)
Definition clear_parameters (s : st) : st :=
  match dict_at (root s) (cur s) with
  | None => s
  | Some d => with_root s (dict_put (root s) (cur s)
                                    (fold_left (fun d' k => ddel k d') (map fst d) d))
  end.

(** nn.Variable(shape, need_grad): a fresh Variable object, not registered. *)
Definition new_variable (s : st) (sh : list Z) (need : bool) (c : Z) : st * nat :=
  ({| heap := (heap s ++ [{| vshape := sh; vneed := need; vstore := List.length (store s) |}])%list;
      store := (store s ++ [c])%list; root := root s; cur := cur s; nograd := nograd s |},
   List.length (heap s)).

(** Programs over the API, with nesting, exceptions and handlers.  [CSet key v]
    registers the Variable object [v] if it exists. *)
Inductive cmd :=
| CNew (shape : list Z) (need : bool) (content : Z)
| CSet (key : string) (v : nat)
| CGet (key : string)
| CPop (key : string)
| CGoc (name : string) (shape : option (list Z)) (i : initializer) (need : bool) (as_need : option bool)
| CGetAll (grad_only : bool)
| CClear
| CRaise                                   (* the user's code raises *)
| CScope (name : string) (body : list cmd) (* with nn.parameter_scope(name): *)
| CNoGrad (b : bool) (body : list cmd)     (* with nn.no_grad(b):  parameter.py:49-96 *)
| CTry (body : list cmd).                  (* try: body except: pass *)

Definition ret_unit {A} (x : st * res A) : st * res unit :=
  match x with (s, Ok _) => (s, Ok tt) | (s, Exn e) => (s, Exn e) end.

Fixpoint exec (s : st) (c : cmd) {struct c} : st * res unit :=
  let exec_list := fix exec_list (s : st) (cs : list cmd) {struct cs} : st * res unit :=
    match cs with
    | [] => (s, Ok tt)
    | c :: cs' => match exec s c with
                  | (s', Ok _) => exec_list s' cs'
                  | (s', Exn e) => (s', Exn e)
                  end
    end in
  match c with
  | CNew sh n z => (fst (new_variable s sh n z), Ok tt)
  | CSet k v => if Nat.ltb v (List.length (heap s)) then set_parameter s k v else (s, Exn UserError)
  | CGet k => ret_unit (get_parameter s k)
  | CPop k => ret_unit (pop_parameter s k)
  | CGoc n sh i need an => ret_unit (get_parameter_or_create s n sh i need an)
  | CGetAll _ => (s, Ok tt)
  | CClear => (clear_parameters s, Ok tt)
  | CRaise => (s, Exn UserError)
  | CScope n body => with_scope s (scope_names n) (fun s' => exec_list s' body)
  | CNoGrad b body =>
      let prev := nograd s in
      let (s', o) := exec_list (with_nograd s b) body in
      (with_nograd s' prev, o)
  | CTry body => match exec_list s body with (s', _) => (s', Ok tt) end
  end.

Fixpoint exec_list (s : st) (cs : list cmd) : st * res unit :=
  match cs with
  | [] => (s, Ok tt)
  | c :: cs' => match exec s c with
                | (s', Ok _) => exec_list s' cs'
                | (s', Exn e) => (s', Exn e)
                end
  end.

Definition init : st := {| heap := []; store := []; root := []; cur := []; nograd := false |}.
