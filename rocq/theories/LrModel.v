(** Model of python/src/nnabla/utils/learning_rate_scheduler.py.  Floats are real
    numbers (rounding is not modelled); iterations are natural numbers. *)
From Coq Require Import Reals List Arith ZArith.
Import ListNotations.
Local Open Scope R_scope.
Local Open Scope list_scope.

(** Python's [b ** p] on floats where the result is a float: [None] stands for the
    complex result of a negative base with a non-integral exponent and for the
    ZeroDivisionError of 0 to a negative power.  Integral exponents of negative
    bases are given as [PInt]. *)
Inductive expo := PReal (p : R) | PInt (p : nat).
Definition py_pow (b : R) (p : expo) : option R :=
  match p with
  | PInt n => Some (pow b n)
  | PReal r =>
      if Rlt_dec 0 b then Some (Rpower b r)
      else if Req_EM_T b 0 then
        if Rlt_dec 0 r then Some 0 else if Req_EM_T r 0 then Some 1 else None
      else None
  end.

(** PolynomialScheduler.get_learning_rate (lines 42-69). *)
Definition polynomial (init_lr : R) (max_iter : nat) (power : expo) (iter : nat) : option R :=
  match py_pow (1 - INR iter / INR max_iter) power with
  | Some x => Some (init_lr * x)
  | None => None
  end.

(** CosineScheduler.get_learning_rate (lines 72-97). *)
Definition cosine (init_lr : R) (max_iter iter : nat) : R :=
  init_lr * ((cos (INR iter / INR max_iter * PI) + 1) * (1 / 2)).

(** ExponentialScheduler.get_learning_rate (lines 100-129). *)
Definition exponential (init_lr gamma : R) (interval iter : nat) : R :=
  init_lr * pow gamma (iter / interval).

(** StepScheduler.get_learning_rate (lines 132-166). *)
Definition step (init_lr gamma : R) (steps : list nat) (iter : nat) : R :=
  fold_left (fun lr s => if Nat.leb s iter then lr * gamma else lr) steps init_lr.

(** LinearWarmupScheduler.get_learning_rate (lines 169-200), over any scheduler. *)
Definition warmup (sched : nat -> R) (warmup_iter iter : nat) : R :=
  if Nat.ltb iter warmup_iter then sched iter * (INR (iter + 1) / INR warmup_iter)
  else sched iter.
