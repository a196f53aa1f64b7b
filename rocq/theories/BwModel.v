(** Model of backward propagation: src/nbla/computation_graph/variable.cpp
    (BackwardCallback 407-669, visit_function_backward 852-937, backward 959-1015) and
    Function::backward (src/nbla/function.cpp:125-174), over the graphs of CgModel.

    Gradients are elements of an arbitrary type [G] with addition and zero; the
    derivative of the [o]-th output of function [f] with respect to its [i]-th input,
    applied to an output gradient, is [d f o i].  The contents of a gradient array are
    [None] when undefined (cleared).  Not modelled: the clearing of data arrays,
    recomputation, hooks, communicator callbacks, prohibit_zero_input_grad. *)
From Coq Require Import List Arith Bool.
From Verif Require Import CgModel.
Import ListNotations.
Local Open Scope list_scope.

(** Gradient arrays: those of the variables, and the temporary ones that
    CgVariable::backward installs in the outputs of the root function
    (variable.cpp:977-1005). *)
Inductive garray := Own (a : nat) | Temp (v : nat).
Definition garray_eqb (x y : garray) : bool :=
  match x, y with
  | Own a, Own b => Nat.eqb a b
  | Temp a, Temp b => Nat.eqb a b
  | _, _ => false
  end.

(** The state of a backward pass.  [gmem]: array contents; [gzero]: SyncedArray::zeroing;
    [seen]: vseen_ with the field [grad_] of ClearFlag; [blog]: the functions run
    backward, in order (an observation). *)
Record bst (G : Type) := mkBst {
  gmem : garray -> option G;
  gzero : garray -> bool;
  seen : list (nat * bool);
  blog : list nat }.
Arguments mkBst {G}. Arguments gmem {G}. Arguments gzero {G}. Arguments seen {G}.
Arguments blog {G}.

Definition gupd {A} (m : garray -> A) (k : garray) (x : A) : garray -> A :=
  fun n => if garray_eqb n k then x else m n.

Section Backward.
Context {V G : Type}.
Variable add : G -> G -> G.
Variable zero : G.
Variable g : graph V.
Variable s : st V.                       (* the state forward left *)
Variable d : nat -> nat -> nat -> G -> G.
Variable garr : nat -> nat.              (* the gradient array of a variable *)
Variable clear_buffer clear_initial : bool.
Variable y p : nat.                      (* the root variable and its parent *)
Variable given : bool.                   (* an initial gradient was passed *)

(** activate_clear_initial_grad (variable.cpp:974,995-998). *)
Definition clear_first : bool := given && clear_initial.

(** The gradient array in effect during the call. *)
Definition root_outs : list nat := match fun_at g p with Some pd => f_outs pd | None => [] end.
Definition gra (v : nat) : garray :=
  if mem_nat v root_outs
  then if Nat.eqb v y then (if given then Temp v else Own (garr v)) else Temp v
  else Own (garr v).

Definition seen_flag (l : list (nat * bool)) (v : nat) : option bool :=
  match find (fun e => Nat.eqb (fst e) v) l with Some (_, b) => Some b | None => None end.
Fixpoint and_flag (l : list (nat * bool)) (v : nat) (b : bool) : list (nat * bool) :=
  match l with
  | [] => []
  | (u, c) :: r => if Nat.eqb u v then (u, c && b) :: r else (u, c) :: and_flag r v b
  end.

(** query_input_flags (variable.cpp:546-583), the gradient flags only: whether each
    input is seen for the first time. *)
Fixpoint query_inputs (fd : fn V) (ins : list nat) (l : list (nat * bool))
  : list bool * list (nat * bool) :=
  match ins with
  | [] => ([], l)
  | v :: r =>
      let first := match seen_flag l v with None => true | Some _ => false end in
      let l := if first then l ++ [(v, negb (f_prohibit_clear fd))]
               else and_flag l v (negb (f_prohibit_clear fd)) in
      let (bs, l) := query_inputs fd r l in (first :: bs, l)
  end.

(** query_outputs_flags (variable.cpp:501-544): first-visit and clear flags. *)
Fixpoint query_outputs (outs : list nat) (l : list (nat * bool))
  : list (bool * bool) * list (nat * bool) :=
  match outs with
  | [] => ([], l)
  | v :: r =>
      let first := match seen_flag l v with None => true | Some _ => false end in
      let c := match seen_flag l v with None => clear_first | Some b => b end in
      let l := if first then l ++ [(v, clear_first)] else l in
      let c := if v_persistent (var_at g v) then false else c in
      let c := if clear_buffer then c else false in
      let (fs, l) := query_outputs r l in ((first, c) :: fs, l)
  end.

(** Another input than the [i]-th uses the same gradient array (variable.cpp:441-449). *)
Definition shared (ins : list nat) (i : nat) (a : garray) : bool :=
  existsb (fun ju => negb (Nat.eqb (fst ju) i) && garray_eqb (gra (snd ju)) a)
          (combine (seq 0 (length ins)) ins).

(** get_accum (variable.cpp:428-462). *)
Definition accum_flag (b : bst G) (ins : list nat) (i v : nat) (first : bool) : bool :=
  if negb (need_grad_state g s v) then false
  else if gzero b (gra v) && negb (shared ins i (gra v)) then false
  else if (match parent g v with Some _ => true | None => false end) && first then false
  else true.
Fixpoint accum_flags (b : bst G) (all : list nat) (i : nat) (ins : list nat) (firsts : list bool)
  : list bool :=
  match ins, firsts with
  | v :: r, f :: fs => accum_flag b all i v f :: accum_flags b all (S i) r fs
  | _, _ => []
  end.

Definition set_zero (b : bst G) (a : garray) : bst G :=
  mkBst (gupd (gmem b) a (Some zero)) (gupd (gzero b) a true) (seen b) (blog b).
Definition set_grad (b : bst G) (a : garray) (x : option G) : bst G :=
  mkBst (gupd (gmem b) a x) (gupd (gzero b) a false) (seen b) (blog b).

(** force_zero_grad_if_unseen (variable.cpp:464-485). *)
Fixpoint zero_unseen (b : bst G) (outs : list nat) (flags : list (bool * bool)) : bst G :=
  match outs, flags with
  | o :: r, (first, _) :: fs =>
      zero_unseen (if first && negb (mem_nat o root_outs) then set_zero b (gra o) else b) r fs
  | _, _ => b
  end.

(** Function::backward (function.cpp:165-171): zero the gradients that will not be
    accumulated. *)
Fixpoint zero_inputs (b : bst G) (ins : list nat) (acc : list bool) : bst G :=
  match ins, acc with
  | v :: r, a :: acc =>
      zero_inputs (if need_grad_state g s v && negb a then set_zero b (gra v) else b) r acc
  | _, _ => b
  end.

Fixpoint read_grads (m : garray -> option G) (outs : list nat) : option (list G) :=
  match outs with
  | [] => Some []
  | o :: r => match m (gra o), read_grads m r with
              | Some x, Some xs => Some (x :: xs)
              | _, _ => None
              end
  end.
(** The gradient with respect to the [i]-th input. *)
Definition local_grad (f i : nat) (gs : list G) : G :=
  fold_right add zero (map (fun ox => d f (fst ox) i (snd ox)) (combine (seq 0 (length gs)) gs)).

(** backward_impl: one input after the other. *)
Fixpoint write_grads (b : bst G) (f : nat) (fd : fn V) (gs : list G) (i : nat) (ins : list nat)
  (acc : list bool) : res (bst G) :=
  match ins, acc with
  | v :: r, a :: acc =>
      if f_active fd i && need_grad_state g s v then
        if a then
          match gmem b (gra v) with
          | None => Err EGarbage
          | Some x => write_grads (set_grad b (gra v) (Some (add x (local_grad f i gs)))) f fd gs (S i) r acc
          end
        else write_grads (set_grad b (gra v) (Some (local_grad f i gs))) f fd gs (S i) r acc
      else write_grads b f fd gs (S i) r acc
  | _, _ => Ok b
  end.

(** clear_outputs (variable.cpp:487-497). *)
Fixpoint clear_outputs (b : bst G) (outs : list nat) (flags : list (bool * bool)) : bst G :=
  match outs, flags with
  | o :: r, (_, c) :: fs => clear_outputs (if c then set_grad b (gra o) None else b) r fs
  | _, _ => b
  end.

(** BackwardCallback::operator() (variable.cpp:607-668). *)
Definition backward_one (b : bst G) (f : nat) (fd : fn V) : res (bst G) :=
  let (firsts, l) := query_inputs fd (f_ins fd) (seen b) in
  let acc := accum_flags b (f_ins fd) 0 (f_ins fd) firsts in
  let (oflags, l) := query_outputs (f_outs fd) l in
  let b := mkBst (gmem b) (gzero b) l (blog b ++ [f]) in
  let b := zero_unseen b (f_outs fd) oflags in
  let b := zero_inputs b (f_ins fd) acc in
  match read_grads (gmem b) (f_outs fd) with
  | None => Err EGarbage
  | Some gs =>
      match write_grads b f fd gs 0 (f_ins fd) acc with
      | Err e => Err e
      | Ok b => Ok (clear_outputs b (f_outs fd) oflags)
      end
  end.

(** The open set is ordered by decreasing rank, then by the order in which functions
    were first met (variable.cpp:855-871): a list in that order, of which the first
    element of maximal rank is taken. *)
Fixpoint pick (open : list nat) : option nat :=
  match open with
  | [] => None
  | f :: r => match pick r with
              | None => Some f
              | Some h => if Nat.ltb (frank s f) (frank s h) then Some h else Some f
              end
  end.
Definition insert_open (open : list nat) (f : nat) : list nat :=
  if mem_nat f open then open else open ++ [f].
Fixpoint propagate (fd : fn V) (i : nat) (ins : list nat) (open : list nat) : list nat :=
  match ins with
  | [] => open
  | v :: r =>
      propagate fd (S i) r
        (if f_active fd i && need_grad_state g s v
         then match parent g v with Some q => insert_open open q | None => open end
         else open)
  end.

(** visit_function_backward (variable.cpp:852-937). *)
Fixpoint backward_loop (fuel : nat) (open : list nat) (b : bst G) : res (bst G) :=
  match pick open with
  | None => Ok b
  | Some f =>
      match fuel with
      | 0 => Err EFuel
      | S n =>
          if negb (fng s f) then backward_loop n (remove Nat.eq_dec f open) b
          else match fun_at g f with
               | None => Err EGraph
               | Some fd =>
                   match backward_one b f fd with
                   | Err e => Err e
                   | Ok b => backward_loop n
                               (remove Nat.eq_dec f (propagate fd 0 (f_ins fd) open)) b
                   end
               end
      end
  end.

(** CgVariable::backward (variable.cpp:959-1015): zero gradients in the sibling outputs
    of the root; the given initial gradient [x0] in the root.  At exit the original
    arrays are restored, so that the result is read through [Own]. *)
Definition backward_start (m : nat -> option G) (z : nat -> bool) (x0 : G) : bst G :=
  mkBst (fun a => match a with
                  | Own a => m a
                  | Temp v => if Nat.eqb v y then Some x0 else Some zero
                  end)
        (fun a => match a with Own a => z a | Temp v => negb (Nat.eqb v y) end) [] [].
Definition backward (m : nat -> option G) (z : nat -> bool) (x0 : G) : res (bst G) :=
  backward_loop (length (g_fns g)) [p] (backward_start m z x0).
End Backward.
