(** Model of the names given to functions and variables while a graph definition is
    recorded: python/src/nnabla/core/graph_def.py, _get_unique_name (lines 238-245) and
    ProtoFunction.__init__ / _proto_call (lines 2238-2378). *)
From Coq Require Import String Ascii List Arith Bool DecimalString.
From Verif Require Import Assoc.
Import ListNotations.
Local Open Scope string_scope.
Local Open Scope list_scope.

Definition decimal (k : nat) : string := NilEmpty.string_of_uint (Nat.to_uint k).

(** "{}_{}".format(prefix, k) *)
Definition numbered (prefix : string) (k : nat) : string := (prefix ++ "_" ++ decimal k)%string.

(** _get_unique_name *)
Definition unique_name (names : @amap nat) (prefix : string) : string * @amap nat :=
  match aget prefix names with
  | Some k => (numbered prefix k, aput prefix (S k) names)
  | None => (prefix, aput prefix 1 names)
  end.
Fixpoint unique_names (names : @amap nat) (prefixes : list string) : list string :=
  match prefixes with
  | [] => []
  | p :: prefixes => let (n, names) := unique_name names p in n :: unique_names names prefixes
  end.

(** The network being recorded.  Proto variables are numbered objects; [n_names] holds the
    name attribute of those that have one, [n_next] is the next new object.  The log keeps,
    for each recorded function, its name and its inputs and outputs as names and as
    objects. *)
Record record := { r_name : string; r_in : list (string * nat); r_out : list (string * nat) }.
Record net := {
  n_func_names : @amap nat;
  n_var_names : @amap nat;
  n_variables : @amap nat;
  n_names : list (nat * string);
  n_next : nat;
  n_log : list record }.

Definition name_of (o : nat) (l : list (nat * string)) : option string :=
  option_map snd (find (fun x => Nat.eqb (fst x) o) l).
(** The first key under which an object is stored (lines 2325-2327). *)
Definition key_of (o : nat) (m : @amap nat) : option string :=
  option_map fst (find (fun x => Nat.eqb (snd x) o) m).

(** One input (lines 2320-2339); inputs that are nn.Variable (parameters) are not
    modelled. *)
Definition add_input (prefix : string) (o : nat) (s : net) : string * net :=
  match key_of o (n_variables s) with
  | Some k => (k, s)
  | None =>
      match name_of o (n_names s) with
      | Some n =>
          (n, {| n_func_names := n_func_names s; n_var_names := n_var_names s;
                 n_variables := aput n o (n_variables s); n_names := n_names s; n_next := n_next s; n_log := n_log s |})
      | None =>
          let (n, vn) := unique_name (n_var_names s) (prefix ++ "_in") in
          (n, {| n_func_names := n_func_names s; n_var_names := vn;
                 n_variables := aput n o (n_variables s); n_names := (o, n) :: n_names s; n_next := n_next s; n_log := n_log s |})
      end
  end.
Fixpoint add_inputs (prefix : string) (os : list nat) (s : net) : list (string * nat) * net :=
  match os with
  | [] => ([], s)
  | o :: os =>
      let (n, s) := add_input prefix o s in
      let (l, s) := add_inputs prefix os s in ((n, o) :: l, s)
  end.
(** One output (lines 2352-2367); [rename] is the name the user gave for it, if any.  None:
    ValueError. *)
Definition add_output (prefix : string) (rename : option string) (s : net) : option (string * nat * net) :=
  let p := match rename with Some u => u | None => (prefix ++ "_out")%string end in
  let (n, vn) := unique_name (n_var_names s) p in
  if match rename with Some u => negb (String.eqb u (prefix ++ "_out")) && negb (String.eqb n u) | None => false end then None
  else
    let o := n_next s in
    Some (n, o, {| n_func_names := n_func_names s; n_var_names := vn; n_variables := aput n o (n_variables s);
                   n_names := (o, n) :: n_names s; n_next := S o; n_log := n_log s |}).
Fixpoint add_outputs (prefix : string) (renames : list (option string)) (s : net) : option (list (string * nat) * net) :=
  match renames with
  | [] => Some ([], s)
  | r :: renames =>
      match add_output prefix r s with
      | None => None
      | Some (n, o, s) =>
          match add_outputs prefix renames s with None => None | Some (l, s) => Some ((n, o) :: l, s) end
      end
  end.
(** One function call: its prefix ("path/Type" or "Type"), its inputs, and one entry per
    output. *)
Record call := { c_prefix : string; c_inputs : list nat; c_renames : list (option string) }.
Definition proto_call (c : call) (s : net) : option net :=
  let (fname, fn) := unique_name (n_func_names s) (c_prefix c) in
  let s := {| n_func_names := fn; n_var_names := n_var_names s; n_variables := n_variables s; n_names := n_names s; n_next := n_next s; n_log := n_log s |} in
  let (i, s) := add_inputs (c_prefix c) (c_inputs c) s in
  match add_outputs (c_prefix c) (c_renames c) s with
  | None => None
  | Some (o, s) =>
      Some {| n_func_names := n_func_names s; n_var_names := n_var_names s; n_variables := n_variables s; n_names := n_names s; n_next := n_next s;
              n_log := n_log s ++ [{| r_name := fname; r_in := i; r_out := o |}] |}
  end.
Fixpoint record_net (cs : list call) (s : net) : option net :=
  match cs with
  | [] => Some s
  | c :: cs => match proto_call c s with Some s => record_net cs s | None => None end
  end.
(** [given]: the variables the user made with a name. *)
Definition start (given : list (nat * string)) (next : nat) : net :=
  {| n_func_names := []; n_var_names := []; n_variables := []; n_names := given; n_next := next; n_log := [] |}.
