(** Model of nn.grad: python/src/nnabla/grad.py (class Grad, 54-320), over the graphs of
    CgModel.

    The graph of gradients that nn.grad builds is represented by the values it will
    have: the derivative of the [o]-th output of function [f] with respect to its
    [i]-th input, applied to an output gradient, is [d f o i].  A backward function
    returns None exactly for the inputs that are not active.  Two Python objects are
    the same variable (__eq__, __hash__: _variable.pyx:284-296) if they hold the same
    nbla::Variable; its address is [vid].  Not modelled: checks of argument types and
    shapes, functions missing from the registry, bind_grad_output,
    persistent_outputs.  The products of outputs with given grad_outputs (lines
    251-267) are nodes of the graph: [roots] are the variables after multiplication,
    [outs] the outputs as given. *)
From Coq Require Import List Arith Bool.
From Verif Require Import CgModel.
Import ListNotations.
Local Open Scope list_scope.

Inductive gerr := EKey | EAttribute | EGradFuel.
Inductive gres (A : Type) := GOk (a : A) | GErr (e : gerr).
Arguments GOk {A}. Arguments GErr {A}.

(** A loop whose body may fail. *)
Fixpoint ofold {A B} (f : A -> B -> option A) (l : list B) (a : A) : option A :=
  match l with
  | [] => Some a
  | x :: l => match f a x with Some a => ofold f l a | None => None end
  end.

(** Dictionaries. *)
Fixpoint lookup {A} (k : nat) (m : list (nat * A)) : option A :=
  match m with
  | [] => None
  | (j, x) :: m => if Nat.eqb j k then Some x else lookup k m
  end.
Definition remove {A} (k : nat) (m : list (nat * A)) : list (nat * A) :=
  filter (fun e => negb (Nat.eqb (fst e) k)) m.
Definition put {A} (k : nat) (x : A) (m : list (nat * A)) : list (nat * A) := (k, x) :: remove k m.

Fixpoint set_nth {A} (i : nat) (x : A) (l : list A) : list A :=
  match l, i with
  | [], _ => []
  | _ :: l, 0 => x :: l
  | y :: l, S i => y :: set_nth i x l
  end.

(** The state of the search: the set [open] of (rank, function); the dictionary [ids]
    as the list of functions in order of their numbers; grad_vars; grads. *)
Record gst (G : Type) := mkGst {
  gopen : list (nat * nat);
  gids : list nat;
  gvars : list (nat * list (nat * list G));
  grads : list (option G) }.
Arguments mkGst {G}. Arguments gopen {G}. Arguments gids {G}. Arguments gvars {G}.
Arguments grads {G}.

Section Grad.
Context {V G : Type}.
Variable add : G -> G -> G.
Variable zero : G.
Variable g : graph V.
Variable vid : nat -> nat.               (* address of the nbla::Variable *)
Variable vr fr : nat -> nat.             (* ranks of variables and functions *)
Variable vneed fneed : nat -> bool.      (* need_grad of variables and functions *)
Variable d : nat -> nat -> nat -> G -> G.
Variable one : nat -> G.                 (* what GradEndFunction delivers, lines 47-48 *)

(** inp2id (line 134): a later input overwrites an equal earlier one. *)
Fixpoint last_index (k : nat) (l : list nat) (i : nat) : option nat :=
  match l with
  | [] => None
  | x :: l =>
      match last_index k l (S i) with
      | Some j => Some j
      | None => if Nat.eqb (vid x) k then Some i else None
      end
  end.

(** Lines 146-148. *)
Definition bind (inputs : list nat) (v : nat) (ret : list (option nat)) : list (option nat) :=
  match last_index (vid v) inputs 0 with
  | Some i => set_nth i (Some v) ret
  | None => ret
  end.

(** dfs of _get_corresponding_vars_on_graph (lines 138-151); the state is (open, ret). *)
Fixpoint dfs_up (fuel : nat) (inputs : list nat) (node : nat)
    (st : list nat * list (option nat)) : option (list nat * list (option nat)) :=
  match fuel with
  | 0 => None
  | S fuel =>
      if mem_nat (vid node) (fst st) then Some st
      else
        match parent g node with
        | None => Some st
        | Some f =>
            match fun_at g f with
            | None => Some st
            | Some fd =>
                ofold (fun st u =>
                  if mem_nat (vid node) (fst st) then Some st
                  else
                    match dfs_up fuel inputs u (fst st, bind inputs u (snd st)) with
                    | Some st => Some (vid u :: fst st, snd st)
                    | None => None
                    end) (f_ins fd) st
            end
        end
  end.

Definition nfuel : nat := S (S (length (g_fns g))).

(** _get_corresponding_vars_on_graph (lines 127-156). *)
Definition corresponding (inputs outs : list nat) : option (list (option nat)) :=
  match ofold (fun st o => dfs_up nfuel inputs o st) outs ([], map (fun _ => None) inputs) with
  | Some st => Some (snd st)
  | None => None
  end.

(** function_references (computation_graph/variable.cpp:1017-1025). *)
Definition refs (v : nat) : list nat :=
  filter (fun h => match fun_at g h with Some fd => mem_nat v (f_ins fd) | None => false end)
         (seq 0 (length (g_fns g))).
Definition outs_of (f : nat) : list nat :=
  match fun_at g f with Some fd => f_outs fd | None => [] end.

(** dfs of _get_children (lines 164-175). *)
Fixpoint dfs_down (fuel : nat) (node : nat) (ch : list nat) : option (list nat) :=
  match fuel with
  | 0 => None
  | S fuel =>
      if mem_nat (vid node) ch then Some ch
      else
        ofold (fun ch f =>
          ofold (fun ch o =>
            if mem_nat (vid o) ch then Some ch
            else match dfs_down fuel o ch with
                 | Some ch => Some (vid o :: ch)
                 | None => None
                 end) (outs_of f) ch) (refs node) ch
  end.

(** _get_children (lines 158-183). *)
Definition children (wrt : list (option nat)) : option (list nat) :=
  ofold (fun ch w => match w with Some v => dfs_down nfuel v ch | None => Some ch end) wrt [].

(** get_id (lines 239-244). *)
Definition get_id (f : nat) (ids : list nat) : list nat :=
  if mem_nat f ids then ids else ids ++ [f].
Fixpoint index (f : nat) (ids : list nat) : nat :=
  match ids with [] => 0 | h :: ids => if Nat.eqb h f then 0 else S (index f ids) end.

Definition entry_eqb (a b : nat * nat) : bool :=
  Nat.eqb (fst a) (fst b) && Nat.eqb (snd a) (snd b).
(** Adding to the set [open]. *)
Definition add_open (e : nat * nat) (l : list (nat * nat)) : list (nat * nat) :=
  if existsb (entry_eqb e) l then l else l ++ [e].

(** The order of the tuples (-rank, id, function). *)
Definition before (ids : list nat) (a b : nat * nat) : bool :=
  Nat.ltb (fst b) (fst a)
  || Nat.eqb (fst a) (fst b) && Nat.ltb (index (snd a) ids) (index (snd b) ids).
Fixpoint best (ids : list nat) (e : nat * nat) (l : list (nat * nat)) : nat * nat :=
  match l with
  | [] => e
  | x :: l => best ids (if before ids x e then x else e) l
  end.

(** Lines 268-273: one output. *)
Definition start_one (st : gst G) (y : nat) : option (gst G) :=
  match parent g y with
  | None => None
  | Some f =>
      Some (mkGst (add_open (vr y, f) (gopen st)) (get_id f (gids st))
              (put f [(vid y, [one y])] (gvars st)) (grads st))
  end.

(** Lines 69-80: the gradient at one output of the function. *)
Definition out_grad (mp : list (nat * list G)) (o : nat) : G :=
  match lookup (vid o) mp with Some l => fold_left add l zero | None => zero end.

(** What the backward function returns for input [i] (lines 108-113). *)
Definition local (f : nat) (gs : list G) (i : nat) : G :=
  fold_right add zero (map (fun ou => d f (fst ou) i (snd ou)) (combine (seq 0 (length gs)) gs)).

(** Lines 115-124: record a gradient for a variable.  Entries of leaves, under the key
    None, are never looked up and left out. *)
Definition push (u : nat) (x : G) (m : list (nat * list (nat * list G))) :=
  match parent g u with
  | None => m
  | Some q =>
      let mp := match lookup q m with Some mp => mp | None => [] end in
      let l := match lookup (vid u) mp with Some l => l | None => [] end in
      put q (put (vid u) (l ++ [x]) mp) m
  end.

Definition items (fd : fn V) : list (nat * nat) := combine (seq 0 (length (f_ins fd))) (f_ins fd).

(** wrt_inputs.index: the first entry that holds the same variable; an input that was
    not found is a fresh variable, equal to none (line 280). *)
Fixpoint windex (k : nat) (wrt : list (option nat)) (i : nat) : option nat :=
  match wrt with
  | [] => None
  | Some v :: wrt => if Nat.eqb (vid v) k then Some i else windex k wrt (S i)
  | None :: wrt => windex k wrt (S i)
  end.

(** Lines 294-302: accumulate the gradient of a requested input. *)
Definition accum (wrt : list (option nat)) (u : nat) (x : G) (r : list (option G)) : list (option G) :=
  match windex (vid u) wrt 0 with
  | None => r
  | Some i =>
      if vneed u then
        set_nth i (Some (match nth i r None with Some y => add y x | None => x end)) r
      else r
  end.

(** Lines 306-313: propagate down. *)
Definition visit (ch : list nat) (u : nat) (st : list (nat * nat) * list nat) :=
  if mem_nat (vid u) ch && vneed u then
    match parent g u with
    | Some p => (add_open (fr p, p) (fst st), get_id p (snd st))
    | None => st
    end
  else st.

(** One iteration of the loop (lines 283-313). *)
Definition turn (wrt : list (option nat)) (ch : list nat) (st : gst G) (e0 : nat * nat)
    (rest : list (nat * nat)) : gres (gst G) :=
  let e := best (gids st) e0 rest in
  let f := snd e in
  let op := filter (fun x => negb (entry_eqb e x)) (gopen st) in
  if negb (fneed f) then GOk (mkGst op (gids st) (gvars st) (grads st))
  else
    match lookup f (gvars st), fun_at g f with
    | Some mp, Some fd =>
        let gs := map (out_grad mp) (f_outs fd) in
        let act := filter (fun iu => f_active fd (fst iu)) (items fd) in
        let m := fold_left (fun m iu => push (snd iu) (local f gs (fst iu)) m) act (remove f (gvars st)) in
        let r := fold_left (fun r iu => accum wrt (snd iu) (local f gs (fst iu)) r) act (grads st) in
        let oi := fold_left (fun oi iu => visit ch (snd iu) oi) act (op, gids st) in
        GOk (mkGst (fst oi) (snd oi) m r)
    | _, _ => GErr EKey
    end.

Fixpoint loop (fuel : nat) (wrt : list (option nat)) (ch : list nat) (st : gst G) : gres (gst G) :=
  match gopen st with
  | [] => GOk st
  | e0 :: rest =>
      match fuel with
      | 0 => GErr EGradFuel
      | S fuel =>
          match turn wrt ch st e0 rest with
          | GOk st => loop fuel wrt ch st
          | GErr e => GErr e
          end
      end
  end.

(** Grad.__call__ (lines 185-320). *)
Definition grad (roots outs inputs : list nat) : gres (list G) :=
  match ofold start_one roots (mkGst [] [] [] (map (fun _ => None) inputs)) with
  | None => GErr EAttribute
  | Some st =>
      match corresponding inputs outs with
      | None => GErr EGradFuel
      | Some wrt =>
          match children wrt with
          | None => GErr EGradFuel
          | Some ch =>
              match loop (S (length roots + length (g_fns g))) wrt ch st with
              | GOk st => GOk (map (fun r => match r with Some x => x | None => zero end) (grads st))
              | GErr e => GErr e
              end
          end
      end
  end.
End Grad.
