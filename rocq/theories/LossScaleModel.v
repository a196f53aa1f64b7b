(** Model of python/src/nnabla/experimental/mixed_precision_training.py:
    DynamicLossScalingUpdater. *)
From Coq Require Import List Bool Arith QArith.
Import ListNotations.
Local Open Scope list_scope.

(** A gradient value: a finite number (rounding is not modelled) or inf / nan. *)
Inductive fp := Fin (q : Q) | NonFin.
Definition fadd (a b : fp) : fp :=
  match a, b with Fin x, Fin y => Fin (x + y) | _, _ => NonFin end.
Definition fscale (c : Q) (a : fp) : fp :=
  match a with Fin x => Fin (c * x) | NonFin => NonFin end.
Definition is_fin (a : fp) : bool := match a with Fin _ => true | NonFin => false end.

(** Constructor arguments (mixed_precision_training.py:66-84); [comm] is None.
    [max_rec] is [_max_recursive_count] = 100. *)
Record config := mkConfig {
  factor : Q;           (* scaling_factor *)
  interval : nat;       (* N *)
  accum : nat;          (* accum_grad *)
  wd : option Q;        (* weight_decay *)
  max_rec : nat
}.

(** The mutable state, plus the number of forward/backward passes done so far
    (the position in the data stream) and the log of solver.update() calls with
    the gradients the solver saw and the weight decay applied to them. *)
Record upd := mkUpd {
  scale : Q;
  counter : nat;
  rcount : nat;
  passes : nat;
  log : list (list fp * option Q)
}.
Definition init_upd (s : Q) : upd := mkUpd s 0 0 0 [].

Section Updater.
Variable c : config.
(** One feed + forward + backward(scale): what the pass adds to the gradients of
    the parameters, as a function of the position in the data stream and the
    scale. *)
Variable back : nat -> Q -> list fp.
Variable dim : nat.  (* total number of gradient elements *)

Fixpoint add_grads (a b : list fp) : list fp :=
  match a, b with
  | x :: a', y :: b' => fadd x y :: add_grads a' b'
  | _, _ => []
  end.

(** Lines 101-112: solver.zero_grad(), then accum_grad passes. *)
Fixpoint accumulate (n : nat) (pos : nat) (s : Q) (g : list fp) : list fp :=
  match n with
  | O => g
  | S n' => accumulate n' (S pos) s (add_grads g (back pos s))
  end.
Definition pass_grads (pos : nat) (s : Q) : list fp :=
  accumulate (accum c) pos s (repeat (Fin 0) dim).

(** update (lines 86-143).  [fuel] bounds the recursion depth: the recursion
    counter is at most max_rec + 1, see the proofs; [None] = fuel exhausted. *)
Fixpoint update (fuel : nat) (u : upd) : option upd :=
  match fuel with
  | O => None
  | S fuel' =>
      let g := pass_grads (passes u) (scale u) in
      let pos := (passes u + accum c)%nat in
      if negb (forallb is_fin g) then
        let s' := scale u / factor c in
        if Nat.ltb (max_rec c) (S (rcount u))
        then Some (mkUpd s' 0 0 pos (log u))
        else update fuel' (mkUpd s' 0 (S (rcount u)) pos (log u))
      else
        let g' := map (fscale (1 / scale u)) g in
        let log' := log u ++ [(g', wd c)] in
        if Nat.ltb (interval c) (counter u)
        then Some (mkUpd (scale u * factor c) 1 0 pos log')
        else Some (mkUpd (scale u) (S (counter u)) 0 pos log')
  end.

(** One call from outside. *)
Definition call (u : upd) : option upd := update (S (max_rec c)) u.
Fixpoint calls (n : nat) (u : upd) : option upd :=
  match n with
  | O => Some u
  | S n' => match call u with Some u' => calls n' u' | None => None end
  end.
End Updater.
