(** Model of walking a proto network: ProtoNetwork.execute_on_proto
    (python/src/nnabla/core/graph_def.py:782-864).

    Variables and functions are numbers instead of names; every name is found (no KeyError).
    [parent] is the attribute of that name.  The callback does not change the network; its
    calls are recorded. *)
From Coq Require Import List Arith Bool.
Import ListNotations.
Local Open Scope list_scope.

Record net := {
  fn_inputs : nat -> list nat;
  fn_outputs : nat -> list nat;
  parent : nat -> option nat;
  net_inputs : list nat;
  net_outputs : list nat }.

Definition mem (x : nat) (l : list nat) : bool := existsb (Nat.eqb x) l.

Record state := {
  stack : list nat;              (* top first *)
  evaluated : list nat;
  stops : nat -> bool;           (* the stop attribute of the variables *)
  calls : list nat }.            (* functions passed to [execute], in order *)
Inductive step_result := Next (s : state) | Finished | AssertionFailed.

(** One turn of the while loop (lines 826-864). *)
Definition step (N : net) (s : state) : step_result :=
  match stack s with
  | [] => Finished
  | f :: rest =>
      let ins := fn_inputs N f in
      let outs := fn_outputs N f in
      let stop := existsb (stops s) ins in
      let stops' := fun v => if mem v outs then stops s v || stop else stops s v in
      let unresolved := filter (fun v => match parent N v with Some _ => negb (mem v (evaluated s)) | None => false end) ins in
      match unresolved with
      | [] =>
          let no_need := forallb (fun v => mem v (evaluated s)) outs in
          let need := forallb (fun v => negb (mem v (evaluated s))) outs in
          if no_need then Next {| stack := rest; evaluated := evaluated s; stops := stops'; calls := calls s |}
          else if need then
            Next {| stack := rest; evaluated := outs ++ evaluated s; stops := stops';
                    calls := if stop then calls s else calls s ++ [f] |}
          else AssertionFailed
      | _ =>
          Next {| stack := rev (flat_map (fun v => match parent N v with Some g => [g] | None => [] end) unresolved) ++ f :: rest;
                  evaluated := evaluated s; stops := stops'; calls := calls s |}
      end
  end.
(** None: the loop has not ended after [fuel] turns; Some None: the assertion failed. *)
Fixpoint loop (fuel : nat) (N : net) (s : state) : option (option state) :=
  match fuel with
  | O => None
  | S fuel =>
      match step N s with
      | Finished => Some (Some s)
      | AssertionFailed => Some None
      | Next s => loop fuel N s
      end
  end.
(** Lines 813-824. *)
Definition start (N : net) (stop0 : nat -> bool) : state :=
  {| stack := rev (flat_map (fun v => match parent N v with Some g => [g] | None => [] end) (net_outputs N));
     evaluated := net_inputs N; stops := stop0; calls := [] |}.
Definition execute_on_proto (fuel : nat) (N : net) (stop0 : nat -> bool) : option (option (list nat)) :=
  option_map (option_map calls) (loop fuel N (start N stop0)).

(** ProtoNetwork.from_proto (graph_def.py:912-951): the links of a network read from a message
    with buffer variables [vars] and functions [fs].  Dictionaries are functions, a later
    function of the same name or writing the same variable replaces the earlier one; shapes,
    types, arguments and initialisers are left out. *)
Record pfunc := { p_name : nat; p_in : list nat; p_out : list nat }.
Definition last_with (P : pfunc -> bool) (fs : list pfunc) : option pfunc := find P (rev fs).
Definition from_proto (vars : list nat) (fs : list pfunc) : net :=
  let find_fn := fun n => last_with (fun f => Nat.eqb (p_name f) n) fs in
  let par := fun v => option_map p_name (last_with (fun f => mem v (p_out f)) fs) in
  let required := fun v => existsb (fun f => mem v (p_in f)) fs in
  let has_parent := fun v => match par v with Some _ => true | None => false end in
  {| fn_inputs := fun n => match find_fn n with Some f => p_in f | None => [] end;
     fn_outputs := fun n => match find_fn n with Some f => p_out f | None => [] end;
     parent := par;
     net_inputs := filter (fun v => negb (has_parent v) && required v) vars;
     net_outputs := filter (fun v => negb (required v) && has_parent v) vars |}.
