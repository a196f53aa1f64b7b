(** Independent vocabulary for the solver properties. *)
From Coq Require Import String Ascii List Bool Arith ZArith.
From Verif Require Import Assoc SolverModel.
Import ListNotations.
Local Open Scope string_scope.
Local Open Scope list_scope.

(** Solvers a client can hold: every history of public calls.  The argument of
    set_parameters comes from a dict, so its keys are distinct; set_states is used
    with the states of another solver of the same kind. *)
Inductive reachable (k : kind) : solver -> Prop :=
| r_new : reachable k (new_solver k)
| r_set s ps reset retain :
    reachable k s -> NoDup (akeys ps) -> reachable k (fst (set_parameters s ps reset retain))
| r_remove s keys : reachable k s -> reachable k (remove_parameters s keys)
| r_clear s : reachable k s -> reachable k (clear_parameters s)
| r_op s o z h : reachable k s -> reachable k (fst (fst (run_op s o z h)))
| r_states s s' : reachable k s -> reachable k s' -> reachable k (fst (set_states s (states s'))).

(** A state as new: zero arrays of the parameter's shape, counter 0. *)
Definition initial_state (k : kind) (v : var) (st : sstate) : Prop :=
  iter st = 0 /\
  (forall n, In n (state_names k) ->
     aget n (pstate st) = Some (mkArr (vshape v) (repeat 0%Z (size_of (vshape v))))) /\
  (forall n, ~ In n (state_names k) -> aget n (pstate st) = None).

(** Two states with the same contents. *)
Definition same_state (a b : sstate) : Prop :=
  iter a = iter b /\ forall n, aget n (pstate a) = aget n (pstate b).
Definition same_states (m m' : amap sstate) : Prop :=
  forall key, match aget key m, aget key m' with
              | Some a, Some b => same_state a b
              | None, None => True
              | _, _ => False
              end.

(** Hooks around every operation, as documented. *)
Definition block (x : op * string * Z) : list event :=
  let '(o, k, r) := x in [GlobalPre; Pre; Impl o k r; Post; GlobalPost].
Definition bracketed (t : list event) : Prop := exists xs, t = concat (map block xs).

(** The parameters an operation was applied to. *)
Definition applied (t : list event) : list string :=
  flat_map (fun e => match e with Impl _ k _ => [k] | _ => [] end) t.
Definition is_check (o : op) : bool :=
  match o with CheckInf | CheckNan | CheckInfOrNan => true | _ => false end.

(** The rate of the last weight_decay call not yet consumed by an update. *)
Fixpoint pending (dflt : Z) (rev_calls : list op) : Z :=
  match rev_calls with
  | [] => dflt
  | Update :: _ => dflt
  | WeightDecay r :: _ => r
  | _ :: l => pending dflt l
  end.

(** No name is a string prefix of another. *)
Definition prefix_free (l : list string) : Prop :=
  forall p q, In p l -> In q l -> p <> q -> String.prefix p q = false.
Fixpoint has_slash (s : string) : bool :=
  match s with
  | EmptyString => false
  | String c r => Ascii.eqb c "/"%char || has_slash r
  end.
(** State array names that do not clash with the counter or with paths. *)
Definition good_names (k : kind) : Prop :=
  NoDup (state_names k) /\
  forall n, In n (state_names k) -> has_slash n = false /\ n <> "t".
