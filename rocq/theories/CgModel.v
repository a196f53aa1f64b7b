(** Model of the computation graph's forward propagation:
    src/nbla/computation_graph/variable.cpp (ForwardCallback,
    CgVariable::visit_function_recursive, CgVariable::forward),
    src/nbla/computation_graph/function.cpp (verify_during_forward) and
    src/nbla/computation_graph/computation_graph.cpp (forward_all).

    Variables, functions and data arrays are numbered.  The contents of an array are a
    value of an arbitrary type [V]; a cleared (or never written) array is [None], and
    reading one is the error [EGarbage] (the program would read undefined memory).
    Functions are pure maps from the values of their active inputs to the values of
    their outputs.  Not modelled: shapes and setup calls, hooks, the recording of clear
    flags, functions that change their inputs other than by in-placing (the running
    mean of a batch normalisation), and execution inside [connect]. *)
From Coq Require Import List Arith Bool.
Import ListNotations.
Local Open Scope list_scope.

(** Function::NOT_INPLACE, INPLACE_NOT_MODIFY and INPLACE
    (include/nbla/function.hpp:89-91). *)
Inductive inplace := NOT_INPLACE | INPLACE_NOT_MODIFY | INPLACE_MODIFY.
Definition is_inplace (l : inplace) : bool :=
  match l with NOT_INPLACE => false | _ => true end.

(** A node: a CgFunction with the static answers of its Function
    (include/nbla/function.hpp:151-334): active input mask, in-place level and partner,
    prohibit_clear_input_buffers, grad_depends_input_data,
    grad_depends_output_data and overwrite_input_data_in_forward. *)
Record fn (V : Type) := mkFn {
  f_ins : list nat;
  f_outs : list nat;
  f_op : list (option V) -> list V;
  f_active : nat -> bool;
  f_inplace : nat -> inplace;
  f_inplace_with : nat -> nat;
  f_prohibit_clear : bool;
  f_dep_in : nat -> nat -> bool;
  f_dep_out : nat -> nat -> bool;
  f_overwrite : nat -> bool }.
Arguments mkFn {V}. Arguments f_ins {V}. Arguments f_outs {V}. Arguments f_op {V}.
Arguments f_active {V}. Arguments f_inplace {V}. Arguments f_inplace_with {V}.
Arguments f_prohibit_clear {V}. Arguments f_dep_in {V}. Arguments f_dep_out {V}.
Arguments f_overwrite {V}.

(** A CgVariable (include/nbla/computation_graph/variable.hpp:97-125): its parent
    function, the array its data lives in, the user's need_grad flag (None is
    NG_NONE), the persistent, recompute and prohibit_clear_data flags, and
    function_reference_count. *)
Record var := mkVar {
  v_parent : option nat;
  v_arr : nat;
  v_need_grad : option bool;
  v_persistent : bool;
  v_recompute : bool;
  v_prohibit : bool;
  v_refs : nat }.

Record graph (V : Type) := mkGraph { g_fns : list (fn V); g_vars : list var }.
Arguments mkGraph {V}. Arguments g_fns {V}. Arguments g_vars {V}.

Definition upd {A} (m : nat -> A) (k : nat) (x : A) : nat -> A :=
  fun n => if Nat.eqb n k then x else m n.
Definition mem_nat (x : nat) (l : list nat) : bool := existsb (Nat.eqb x) l.

(** The state that a forward pass changes.  [mem]: array contents; [vrank], [vng]:
    rank_ and need_grad_state_ of a variable; [frank], [fng]: those of a function;
    [vallow]: allow_modify_data_; [closed]: the set fclosed; [log]: the functions
    executed, in order (an observation, not a program variable).  The other four are
    the members of ForwardCallback. *)
Record st (V : Type) := mkSt {
  mem : nat -> option V;
  vrank : nat -> nat;
  vng : nat -> bool;
  frank : nat -> nat;
  fng : nat -> bool;
  vallow : nat -> bool;
  closed : list nat;
  log : list nat;
  vseen : nat -> option nat;
  ngset : list nat;
  ipset : list nat;
  owset : list nat }.
Arguments mkSt {V}. Arguments mem {V}. Arguments vrank {V}. Arguments vng {V}.
Arguments frank {V}. Arguments fng {V}. Arguments vallow {V}. Arguments closed {V}.
Arguments log {V}. Arguments vseen {V}. Arguments ngset {V}. Arguments ipset {V}.
Arguments owset {V}.

Inductive err := EVerify | EGarbage | EFuel | EGraph | ENoParent.
Inductive res (A : Type) := Ok (a : A) | Err (e : err).
Arguments Ok {A}. Arguments Err {A}.

Section Forward.
Context {V : Type}.
Variable g : graph V.

Definition fun_at (f : nat) : option (fn V) := nth_error (g_fns g) f.
Definition var_at (v : nat) : var :=
  nth v (g_vars g) (mkVar None 0 None false false false 0).
Definition arr (v : nat) : nat := v_arr (var_at v).
Definition parent (v : nat) : option nat := v_parent (var_at v).

(** CgVariable::need_grad_state (variable.hpp:192-195). *)
Definition need_grad_state (s : st V) (v : nat) : bool :=
  match v_need_grad (var_at v) with Some b => b | None => vng s v end.

(** Setters. *)
Definition set_vrank (s : st V) v r :=
  mkSt (mem s) (upd (vrank s) v r) (vng s) (frank s) (fng s) (vallow s) (closed s) (log s)
       (vseen s) (ngset s) (ipset s) (owset s).
Definition set_vng (s : st V) v b :=
  mkSt (mem s) (vrank s) (upd (vng s) v b) (frank s) (fng s) (vallow s) (closed s) (log s)
       (vseen s) (ngset s) (ipset s) (owset s).
Definition set_frank (s : st V) f r :=
  mkSt (mem s) (vrank s) (vng s) (upd (frank s) f r) (fng s) (vallow s) (closed s) (log s)
       (vseen s) (ngset s) (ipset s) (owset s).
Definition set_fng (s : st V) f b :=
  mkSt (mem s) (vrank s) (vng s) (frank s) (upd (fng s) f b) (vallow s) (closed s) (log s)
       (vseen s) (ngset s) (ipset s) (owset s).
Definition set_vallow (s : st V) v b :=
  mkSt (mem s) (vrank s) (vng s) (frank s) (fng s) (upd (vallow s) v b) (closed s) (log s)
       (vseen s) (ngset s) (ipset s) (owset s).
Definition close (s : st V) f :=
  mkSt (mem s) (vrank s) (vng s) (frank s) (fng s) (vallow s) (f :: closed s) (log s)
       (vseen s) (ngset s) (ipset s) (owset s).
Definition set_mem (s : st V) (m : nat -> option V) : st V :=
  mkSt m (vrank s) (vng s) (frank s) (fng s) (vallow s) (closed s) (log s)
       (vseen s) (ngset s) (ipset s) (owset s).
Definition push_log (s : st V) f :=
  mkSt (mem s) (vrank s) (vng s) (frank s) (fng s) (vallow s) (closed s) (log s ++ [f])
       (vseen s) (ngset s) (ipset s) (owset s).
Definition set_vseen (s : st V) v c :=
  mkSt (mem s) (vrank s) (vng s) (frank s) (fng s) (vallow s) (closed s) (log s)
       (upd (vseen s) v c) (ngset s) (ipset s) (owset s).
Definition add_ng (s : st V) v :=
  mkSt (mem s) (vrank s) (vng s) (frank s) (fng s) (vallow s) (closed s) (log s)
       (vseen s) (v :: ngset s) (ipset s) (owset s).
Definition add_ip (s : st V) v :=
  mkSt (mem s) (vrank s) (vng s) (frank s) (fng s) (vallow s) (closed s) (log s)
       (vseen s) (ngset s) (v :: ipset s) (owset s).
Definition add_ow (s : st V) v :=
  mkSt (mem s) (vrank s) (vng s) (frank s) (fng s) (vallow s) (closed s) (log s)
       (vseen s) (ngset s) (ipset s) (v :: owset s).
(** A new ForwardCallback (variable.cpp:138-157). *)
Definition fresh_callback (s : st V) : st V :=
  mkSt (mem s) (vrank s) (vng s) (frank s) (fng s) (vallow s) (closed s) (log s)
       (fun _ => None) [] [] [].

(** ForwardCallback::check_last_visit (variable.cpp:159-180). *)
Definition check_last_visit (s : st V) (v : nat) : st V * bool :=
  let num_ref := v_refs (var_at v) in
  if Nat.ltb num_ref 2 then (s, true)
  else match vseen s v with
       | None => (set_vseen s v (Some 1), false)
       | Some c => if Nat.eqb (S c) num_ref then (set_vseen s v None, true)
                   else (set_vseen s v (Some (S c)), false)
       end.

(** ForwardCallback::check_grad_depends_data (variable.cpp:182-201). *)
Definition dep_data (dep : nat -> nat -> bool) (fd : fn V) (k : nat) : bool :=
  existsb (fun i => dep i k) (seq 0 (length (f_ins fd))).

(** ForwardCallback::get_clear_flags (variable.cpp:203-270): first the outputs, then
    one decision per input. *)
Fixpoint mark_outputs (s : st V) (f : nat) (fd : fn V) (o : nat) (outs : list nat) : st V :=
  match outs with
  | [] => s
  | v :: r =>
      mark_outputs (if fng s f && dep_data (f_dep_out fd) fd o then add_ng s v else s)
                   f fd (S o) r
  end.

Definition mark_input (s : st V) (f : nat) (fd : fn V) (i vi : nat) : st V :=
  let s := if fng s f && dep_data (f_dep_in fd) fd i then add_ng s vi else s in
  let s := if fng s f && f_overwrite fd i then add_ow s vi else s in
  if is_inplace (f_inplace fd i)
  then add_ip (add_ip s vi) (nth (f_inplace_with fd i) (f_outs fd) 0)
  else s.

Definition clear_flag (cb cng rc : bool) (s : st V) (f : nat) (fd : fn V) (i vi : nat)
  : st V * bool :=
  let s := mark_input s f fd i vi in
  let (s, last) := check_last_visit s vi in
  let r :=
    if negb last then false
    else if f_prohibit_clear fd then false
    else if Nat.eqb (vrank s vi) 0 || v_persistent (var_at vi)
            || is_inplace (f_inplace fd i) || v_prohibit (var_at vi) then false
    else if mem_nat vi (ipset s) then false
    else if cb then true
    else if negb rc && v_recompute (var_at vi) then true
    else if cng then
      if mem_nat vi (ngset s) then false
      else if mem_nat vi (owset s) then false else true
    else false in
  (s, r).

Fixpoint clear_flags (cb cng rc : bool) (s : st V) (f : nat) (fd : fn V) (i : nat)
  (ins : list nat) : st V * list bool :=
  match ins with
  | [] => (s, [])
  | vi :: r =>
      let (s, b) := clear_flag cb cng rc s f fd i vi in
      let (s, bs) := clear_flags cb cng rc s f fd (S i) r in
      (s, b :: bs)
  end.

(** ForwardCallback::clear_inputs (variable.cpp:272-281). *)
Fixpoint clear_inputs (m : nat -> option V) (ins : list nat) (bs : list bool)
  : nat -> option V :=
  match ins, bs with
  | v :: r, b :: bs => clear_inputs (if b then upd m (arr v) None else m) r bs
  | _, _ => m
  end.

(** The values a function reads: those of its active inputs. *)
Fixpoint read_inputs (m : nat -> option V) (fd : fn V) (i : nat) (ins : list nat)
  : option (list (option V)) :=
  match ins with
  | [] => Some []
  | v :: r =>
      match read_inputs m fd (S i) r with
      | None => None
      | Some xs =>
          if f_active fd i
          then match m (arr v) with Some x => Some (Some x :: xs) | None => None end
          else Some (None :: xs)
      end
  end.

Fixpoint write_outputs (m : nat -> option V) (outs : list nat) (ys : list V)
  : nat -> option V :=
  match outs, ys with
  | v :: r, y :: ys => write_outputs (upd m (arr v) (Some y)) r ys
  | _, _ => m
  end.

(** ForwardCallback::operator() (variable.cpp:324-404). *)
Definition callback (cb cng rc : bool) (s : st V) (f : nat) (fd : fn V) : res (st V) :=
  match read_inputs (mem s) fd 0 (f_ins fd) with
  | None => Err EGarbage
  | Some xs =>
      let s := set_mem s (write_outputs (mem s) (f_outs fd) (f_op fd xs)) in
      let s := push_log s f in
      let s := mark_outputs s f fd 0 (f_outs fd) in
      let (s, bs) := clear_flags cb cng rc s f fd 0 (f_ins fd) in
      Ok (set_mem s (clear_inputs (mem s) (f_ins fd) bs))
  end.

(** CgFunction::check_data_inplace and verify_during_forward
    (function.cpp:62-108). *)
Fixpoint forbid_outputs (s : st V) (fd : fn V) (i o : nat) (outs : list nat) : st V :=
  match outs with
  | [] => s
  | v :: r => forbid_outputs (if f_dep_out fd i o then set_vallow s v false else s)
                             fd i (S o) r
  end.
Definition check_data_inplace (s : st V) (fd : fn V) (i v : nat) : res (st V) :=
  let s := if need_grad_state s v then forbid_outputs s fd i 0 (f_outs fd) else s in
  match f_inplace fd i with
  | INPLACE_MODIFY =>
      if negb (vallow s v) then Err EVerify
      else if Nat.ltb (v_refs (var_at v)) 2 then Ok s else Err EVerify
  | INPLACE_NOT_MODIFY =>
      if Nat.ltb 1 (v_refs (var_at v)) || need_grad_state s v
      then Ok (set_vallow s (nth (f_inplace_with fd i) (f_outs fd) 0) false)
      else Ok s
  | NOT_INPLACE => Ok s
  end.
Fixpoint verify_inputs (s : st V) (fd : fn V) (i : nat) (ins : list nat) : res (st V) :=
  match ins with
  | [] => Ok s
  | v :: r => match check_data_inplace s fd i v with
              | Ok s => verify_inputs s fd (S i) r
              | Err e => Err e
              end
  end.
Definition verify (s : st V) (fd : fn V) : res (st V) :=
  verify_inputs (fold_left (fun s v => set_vallow s v true) (f_outs fd) s) fd 0 (f_ins fd).

(** The input loop of visit_function_recursive (variable.cpp:688-743, with
    as_recomputation false); [rec] is the recursive call. *)
Fixpoint visit_inputs (rec : nat -> st V -> res (st V)) (fd : fn V) (i : nat)
  (ins : list nat) (rank : nat) (ng : bool) (s : st V) : res (st V * nat * bool) :=
  match ins with
  | [] => Ok (s, rank, ng)
  | v :: r =>
      if negb (f_active fd i) then visit_inputs rec fd (S i) r rank ng s
      else match parent v with
           | None =>
               let s := set_vng (set_vrank s v 0) v false in
               visit_inputs rec fd (S i) r (Nat.max 0 rank) (ng || need_grad_state s v) s
           | Some p =>
               match (if mem_nat p (closed s) then Ok s else rec p s) with
               | Err e => Err e
               | Ok s =>
                   let s := set_vng (set_vrank s v (frank s p)) v (fng s p) in
                   visit_inputs rec fd (S i) r (Nat.max (frank s p) rank)
                                (ng || need_grad_state s v) s
               end
           end
  end.

(** CgVariable::visit_function_recursive (variable.cpp:671-779).  The recursion is
    bounded by [fuel]. *)
Fixpoint visit (cb cng : bool) (fuel : nat) (f : nat) (s : st V) : res (st V) :=
  match fuel with
  | 0 => Err EFuel
  | S n =>
      match fun_at f with
      | None => Err EGraph
      | Some fd =>
          match visit_inputs (visit cb cng n) fd 0 (f_ins fd) 0 false (close s f) with
          | Err e => Err e
          | Ok (s, rank, ng) =>
              match verify (set_frank (set_fng s f ng) f (S rank)) fd with
              | Err e => Err e
              | Ok s => callback cb cng false s f fd
              end
          end
      end
  end.

(** CgVariable::forward (variable.cpp:939-957) with a given fclosed. *)
Definition forward_from (cb cng : bool) (y : nat) (s : st V) : res (st V) :=
  match parent y with
  | None => Err ENoParent
  | Some p => visit cb cng (length (g_fns g)) p (fresh_callback s)
  end.
(** A start state of a call: empty fclosed. *)
Definition unclosed (s : st V) : st V :=
  mkSt (mem s) (vrank s) (vng s) (frank s) (fng s) (vallow s) [] [] (fun _ => None) [] [] [].
Definition forward (cb cng : bool) (y : nat) (s : st V) : res (st V) :=
  forward_from cb cng y (unclosed s).

(** The loop of forward_all (computation_graph.cpp:180-192). *)
Fixpoint forward_loop (cb cng : bool) (ys : list nat) (s : st V) : res (st V) :=
  match ys with
  | [] => Ok s
  | y :: r =>
      match parent y with
      | None => forward_loop cb cng r s
      | Some p =>
          if mem_nat p (closed s) then forward_loop cb cng r s
          else match forward_from cb cng y s with
               | Err e => Err e
               | Ok s => forward_loop cb cng r s
               end
      end
  end.
End Forward.

(** forward_all (computation_graph.cpp:162-193): set persistent on the requested
    variables, remembering the flags found; run; restore the remembered flags in
    order.  The result also gives the variables with their final flags. *)
Definition set_flag (vs : list var) (v : nat) (b : bool) : list var :=
  map (fun p => if Nat.eqb (fst p) v
                then let x := snd p in
                     mkVar (v_parent x) (v_arr x) (v_need_grad x) b (v_recompute x)
                           (v_prohibit x) (v_refs x)
                else snd p)
      (combine (seq 0 (length vs)) vs).
Fixpoint set_persistents (vs : list var) (ys : list nat) : list var * list bool :=
  match ys with
  | [] => (vs, [])
  | y :: r =>
      let b := v_persistent (nth y vs (mkVar None 0 None false false false 0)) in
      let (vs, bs) := set_persistents (set_flag vs y true) r in
      (vs, b :: bs)
  end.
Fixpoint restore_persistents (vs : list var) (ys : list nat) (bs : list bool) : list var :=
  match ys, bs with
  | y :: r, b :: bs => restore_persistents (set_flag vs y b) r bs
  | _, _ => vs
  end.
Definition forward_all {V} (g : graph V) (cb cng : bool) (ys : list nat) (s : st V)
  : res (st V) * list var :=
  let (vs, bs) := set_persistents (g_vars g) ys in
  (forward_loop (mkGraph (g_fns g) vs) cb cng ys (unclosed s), restore_persistents vs ys bs).
