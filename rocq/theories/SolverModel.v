(** Model of the solver base class (src/nbla/solver.cpp, include/nbla/solver.hpp)
    and of the state files of python/src/nnabla/solver.pyx.tmpl. *)
From Coq Require Import String Ascii List Bool Arith ZArith.
From Verif Require Import Assoc.
Import ListNotations.
Local Open Scope string_scope.
Local Open Scope list_scope.

(** A parameter variable: identity and shape (include/nbla/variable.hpp).  The
    data and gradient buffers are not part of the solver's own state. *)
Record var := mkVar { vid : nat; vshape : list nat }.

(** A state array: shape and contents (a [VariablePtr] of
    [SolverState::pstate], solver.hpp:81-96).  Floats are represented by
    integers: nothing here computes with them. *)
Record arr := mkArr { ashape : list nat; acontent : list Z }.
Record sstate := mkState { pstate : amap arr; iter : nat }.

(** The derived solver classes, as far as the base class sees them
    (src/nbla/solver/generic/*.cpp): the names of the state arrays, and whether
    [remove_state_impl] erases the entry of [states_] (all classes) or does
    nothing (Sgd, sgd.cpp:36).  [fused] / [default_rate]: the arguments of the
    base constructor (solver.cpp:80-89); rates are integers here. *)
Record kind := mkKind {
  state_names : list string;
  erases : bool;
  fused : bool;
  default_rate : Z
}.

Record solver := mkSolver {
  skind : kind;
  params : amap var;      (* params_, solver.hpp:108 *)
  states : amap sstate;   (* states_, solver.hpp:105 *)
  rate : Z                (* weight_decay_rate_, solver.hpp:127 *)
}.

(** Solver::Solver (solver.cpp:85-89). *)
Definition new_solver (k : kind) : solver := mkSolver k [] [] (default_rate k).

Definition with_params (s : solver) (p : amap var) : solver :=
  mkSolver (skind s) p (states s) (rate s).
Definition with_states (s : solver) (q : amap sstate) : solver :=
  mkSolver (skind s) (params s) q (rate s).
Definition with_rate (s : solver) (r : Z) : solver :=
  mkSolver (skind s) (params s) (states s) r.

Inductive error := EShape (key : string) | EUnknownKey (key : string).

Definition size_of (shape : list nat) : nat := fold_right Nat.mul 1 shape.

(** [make_shared<Variable>(shape); m->data()->zero()] for every state array
    (e.g. momentum.cpp:32-38, adam.cpp:35-43). *)
Definition fresh_state (k : kind) (v : var) : sstate :=
  mkState (map (fun n => (n, mkArr (vshape v) (repeat 0%Z (size_of (vshape v)))))
               (state_names k)) 0.

(** [set_state_impl]: [states_.insert({key, state})] in every class. *)
Definition set_state_impl (s : solver) (key : string) (v : var) : solver :=
  with_states s (ainsert key (fresh_state (skind s) v) (states s)).
(** [remove_state_impl]: [states_.erase(key)]; empty body in Sgd. *)
Definition remove_state_impl (s : solver) (key : string) : solver :=
  if erases (skind s) then with_states s (aerase key (states s)) else s.

(** Solver::clear_parameters (solver.cpp:145-151). *)
Definition clear_parameters (s : solver) : solver :=
  with_params (fold_left remove_state_impl (akeys (params s)) s) [].

(** Solver::remove_parameters (solver.cpp:138-143). *)
Definition remove_parameters (s : solver) (keys : list string) : solver :=
  fold_left (fun s key => remove_state_impl (with_params s (aerase key (params s))) key)
            keys s.

Definition shape_eqb (a b : list nat) : bool := if list_eq_dec Nat.eq_dec a b then true else false.

(** The loop of Solver::set_parameters (solver.cpp:115-135).  An exception stops
    the loop; what was done before remains. *)
Fixpoint set_params_loop (reset retain : bool) (s : solver) (ps : list (string * var))
  : solver * option error :=
  match ps with
  | [] => (s, None)
  | (key, v) :: ps' =>
      let add s := set_state_impl (with_params s (ainsert key v (params s))) key v in
      if reset then set_params_loop reset retain (add s) ps'
      else match aget key (params s) with
           | None => set_params_loop reset retain (add s) ps'
           | Some old =>
               if retain then
                 if shape_eqb (vshape v) (vshape old)
                 then set_params_loop reset retain s ps'
                 else (s, Some (EShape key))
               else set_params_loop reset retain (add (remove_state_impl s key)) ps'
           end
  end.

(** Solver::set_parameters (solver.cpp:109-136); the argument is the item list of
    a Python dict (solver.pyx.tmpl:120-139). *)
Definition set_parameters (s : solver) (ps : list (string * var)) (reset retain : bool)
  : solver * option error :=
  set_params_loop reset retain (if reset then clear_parameters s else s) ps.

(** Solver::set_states (solver.cpp:170-177). *)
Fixpoint set_states_cpp (s : solver) (sts : list (string * sstate)) : solver * option error :=
  match sts with
  | [] => (s, None)
  | (key, st) :: sts' =>
      if ahas key (states s) then set_states_cpp (with_states s (aput key st (states s))) sts'
      else (s, Some (EUnknownKey key))
  end.

(** set_states of solver.pyx.tmpl:185-198: one C++ state object [dst_cstate] is
    declared for the whole loop, so its [pstate] map keeps the arrays of the
    earlier parameters. *)
Fixpoint convert_states (acc : amap arr) (sts : list (string * sstate))
  : list (string * sstate) :=
  match sts with
  | [] => []
  | (key, st) :: sts' =>
      let acc' := fold_left (fun a kv => aput (fst kv) (snd kv) a) (pstate st) acc in
      (key, mkState acc' (iter st)) :: convert_states acc' sts'
  end.
Definition set_states (s : solver) (sts : list (string * sstate)) : solver * option error :=
  set_states_cpp s (convert_states [] sts).

(** ** Hooks and per-parameter operations *)

Inductive op := Update | WeightDecay (r : Z) | ClipGrad (norm : Z)
              | CheckInf | CheckNan | CheckInfOrNan | ScaleGrad (scale : Z).

(** What is observable from outside: hook calls and the operation applied to one
    parameter; for an update, the weight decay rate it reads. *)
Inductive event :=
| GlobalPre | Pre | Post | GlobalPost
| Impl (o : op) (key : string) (used_rate : Z).

(** ScopedCallback (solver.cpp:192-210).  In every method the object is created
    as an unnamed temporary, [ScopedCallback(pre_callback, post_callback);], and
    so destroyed at the end of that statement. *)
Definition scoped_ctor : list event := [GlobalPre; Pre].
Definition scoped_dtor : list event := [Post; GlobalPost].

(** The common loop of update (solver.cpp:216-228), weight_decay (241-254),
    clip_grad_by_norm (261-273), check_*_grad (278-324) and scale_grad (329-341).
    [zeroing k]: the gradient of parameter [k] is lazily zero, i.e. not computed;
    [hit k]: the result of the check of parameter [k] (only the checks stop). *)
Fixpoint loop (o : op) (r : Z) (zeroing hit : string -> bool) (ps : list string)
  : list event * bool :=
  match ps with
  | [] => ([], false)
  | k :: ps' =>
      if zeroing k then loop o r zeroing hit ps'
      else
        let here := scoped_ctor ++ scoped_dtor ++ [Impl o k r] in
        let stops := match o with CheckInf | CheckNan | CheckInfOrNan => hit k | _ => false end in
        if stops then (here, true)
        else let '(t, b) := loop o r zeroing hit ps' in (here ++ t, b)
  end.

(** Iteration counter of every state class: [t = min(t + 1, UINT32_MAX - 1)]
    (e.g. sgd.cpp:46-48, adam.cpp:60). *)
Definition max_iter : N := 4294967294.
Definition bump (n : nat) : nat := if (N.of_nat n <? max_iter)%N then S n else n.
Fixpoint bump_key (k : string) (m : amap sstate) : amap sstate :=
  match m with
  | [] => []
  | (k', st) :: m' =>
      if String.eqb k k' then (k', mkState (pstate st) (bump (iter st))) :: m'
      else (k', st) :: bump_key k m'
  end.

(** One public call.  Fused weight decay only records the rate (solver.cpp:236-239);
    a zero rate or a zero norm returns immediately (240, 259); update resets the
    rate at the end (230-231). *)
Definition run_op (s : solver) (o : op) (zeroing hit : string -> bool)
  : solver * list event * bool :=
  let go := loop o (rate s) zeroing hit (akeys (params s)) in
  match o with
  | WeightDecay r =>
      if fused (skind s) then (with_rate s r, [], false)
      else if Z.eqb r 0 then (s, [], false) else (s, fst go, snd go)
  | ClipGrad n => if Z.eqb n 0 then (s, [], false) else (s, fst go, snd go)
  | Update =>
      let touched := filter (fun k => negb (zeroing k)) (akeys (params s)) in
      (with_rate (with_states s (fold_left (fun m k => bump_key k m) touched (states s)))
                 (default_rate (skind s)), fst go, snd go)
  | _ => (s, fst go, snd go)
  end.

(** A program of public calls; [zeroing] and [hit] may change between calls. *)
Record call := mkCall { cop : op; czero : string -> bool; chit : string -> bool }.
Fixpoint run_ops (s : solver) (cs : list call) : solver * list event :=
  match cs with
  | [] => (s, [])
  | c :: cs' =>
      let '(s1, t, _) := run_op s (cop c) (czero c) (chit c) in
      let '(s2, t') := run_ops s1 cs' in (s2, t ++ t')
  end.

(** ** State files *)

(** An HDF5 file: datasets by full path, with the [index] attribute of their
    parent group.  Groups that hold no dataset cannot occur: save writes [t] into
    each.  Paths are assumed canonical (no empty component). *)
Inductive dset := DT (t : nat) | DArr (a : arr).
Record entry := mkEntry { epath : string; eindex : nat; edata : dset }.

Definition path_in (p n : string) : string := p ++ "/" ++ n.

(** An object (group or dataset) is at path [p]. *)
Definition exists_obj (f : list entry) (p : string) : bool :=
  existsb (fun e => String.eqb (epath e) p || String.prefix (p ++ "/") (epath e)) f.
(** Some proper ancestor of [p] is a dataset: nothing can be created below it. *)
Definition under_dataset (f : list entry) (p : string) : bool :=
  existsb (fun e => String.prefix (epath e ++ "/") p) f.

(** save_states, '.h5' (solver.pyx.tmpl:217-228): create_group raises when the
    name exists or an ancestor is a dataset; likewise create_dataset. *)
Definition create_dataset (f : list entry) (p n : string) (i : nat) (d : dset)
  : option (list entry) :=
  if exists_obj f (path_in p n) || under_dataset f (path_in p n) then None
  else Some (f ++ [mkEntry (path_in p n) i d]).
Fixpoint save_arrays (f : list entry) (p : string) (i : nat) (l : amap arr)
  : option (list entry) :=
  match l with
  | [] => Some f
  | (n, a) :: l' => match create_dataset f p n i (DArr a) with
                    | None => None
                    | Some f' => save_arrays f' p i l'
                    end
  end.
Fixpoint save_h5_from (i : nat) (f : list entry) (sts : amap sstate) : option (list entry) :=
  match sts with
  | [] => Some f
  | (p, st) :: sts' =>
      if exists_obj f p || under_dataset f p then None
      else match create_dataset f p "t" i (DT (iter st)) with
           | None => None
           | Some f1 => match save_arrays f1 p i (pstate st) with
                        | None => None
                        | Some f2 => save_h5_from (S i) f2 sts'
                        end
           end
  end.
Definition save_h5 (s : solver) : option (list entry) := save_h5_from 0 [] (states s).

(** [name[:name.rindex("/")]] and [name.split("/")[-1]]. *)
Fixpoint split_last (s : string) : option (string * string) :=
  match s with
  | EmptyString => None
  | String c r =>
      match split_last r with
      | Some (a, b) => Some (String c a, b)
      | None => if Ascii.eqb c "/"%char then Some ("", r) else None
      end
  end.
Definition parent (p : string) : string :=
  match split_last p with Some (a, _) => a | None => "" end.
Definition base (p : string) : string :=
  match split_last p with Some (_, b) => b | None => p end.

(** pkeys: a set of (index, parent) pairs, visited in sorted order. *)
Definition pkey_eq_dec (a b : nat * string) : {a = b} + {a <> b}.
Proof. decide equality; [apply string_dec | apply Nat.eq_dec]. Defined.
Definition pkeys (visit : list entry) : list (nat * string) :=
  nodup pkey_eq_dec (map (fun e => (eindex e, parent (epath e))) visit).
Fixpoint insert_key (x : nat * string) (l : list (nat * string)) : list (nat * string) :=
  match l with
  | [] => [x]
  | y :: l' => if Nat.leb (fst x) (fst y) then x :: l else y :: insert_key x l'
  end.
Definition sort_keys (l : list (nat * string)) : list (nat * string) :=
  fold_right insert_key [] l.

(** The inner loop of load_states (solver.pyx.tmpl:289-301; the same code in
    utils/get_file_handle.py:214-223): every dataset whose path starts with the
    parameter's name is taken; [skey.endswith("/t")] tells the counter from the
    arrays (a dataset named t holding an array, or another one holding a counter,
    is never written). *)
Definition collect (visit : list entry) (pkey : string) : sstate :=
  fold_left (fun st e =>
    if String.prefix pkey (epath e) then
      match String.eqb (base (epath e)) "t", edata e with
      | true, DT n => mkState (pstate st) n
      | false, DArr a => mkState (aput (base (epath e)) a (pstate st)) (iter st)
      | _, _ => st
      end
    else st) visit (mkState [] 0).

(** load_states, '.h5' (solver.pyx.tmpl:265-302).  [visit] is the order in which
    [visititems] enumerates the datasets. *)
Definition load_h5 (s : solver) (visit : list entry) : solver * option error :=
  set_states s
    (fold_left (fun m k => aput (snd k) (collect visit (snd k)) m)
               (sort_keys (pkeys visit)) []).

(** The protobuf message (nnabla.proto.tmpl:149-165): maps from names; arrays as
    shape and float data.  set_states_to_protobuf (solver.pyx.tmpl:237-252). *)
Definition save_pb (s : solver) : amap sstate :=
  fold_left (fun m kv =>
    aput (fst kv)
         (mkState (fold_left (fun a nv => aput (fst nv) (snd nv) a) (pstate (snd kv)) [])
                  (iter (snd kv))) m)
    (states s) [].
(** set_states_from_protobuf (solver.pyx.tmpl:319-336); the iteration order of the
    message's maps is the argument's order. *)
Definition load_pb (s : solver) (msg : amap sstate) : solver * option error :=
  set_states s msg.
