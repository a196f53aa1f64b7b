(** Model of nnabla.grad (python/src/nnabla/grad.py) on graphs of functions that compute element by
    element, with the Python gradients of python/src/nnabla/backward_function/*.py, for one element.

    A graph is a tree here: a variable that is used twice is written twice (so its gradients are
    passed on apart and added at the inputs, not added first).  Every array has one element, so the
    sums over broadcast axes (backward_function/utils.py:67-80) do nothing.
    Numbers are real numbers, as in ActModel, whose functions are the forward functions here. *)
From Coq Require Import Reals ZArith Bool List.
From Verif Require Import ActModel.
Import ListNotations.
Local Open Scope R_scope.

(** * Graphs *)
(** F.greater, F.greater_equal, F.less, F.less_equal, F.not_equal, and the same with a scalar. *)
Inductive cmp := Gt | Ge | Lt | Le | Ne.
(** [In k] is an input; [Con] is F.constant, or the gradient 1 of the output (grad.py:25-51); [Stop]
    is no_grad (backward_function/utils.py:20-21); [Where] is F.where. *)
Inductive expr :=
| In (k : nat) | Con (c : R) | Un (f : act) (a : expr) | Bi (f : act2) (a b : expr) | Add (a b : expr)
| Cmp (c : cmp) (a b : expr) | Stop (a : expr) | Where (c a b : expr).
(** include/nbla/function/greater.hpp:23, greater_equal.hpp:23, less.hpp:23, less_equal.hpp:23,
    not_equal.hpp:23, and line 39 of the same with a scalar. *)
Definition compare (c : cmp) (x y : R) : R :=
  match c with
  | Gt => num (Rlt_dec y x)
  | Ge => num (Rle_dec y x)
  | Lt => num (Rlt_dec x y)
  | Le => num (Rle_dec x y)
  | Ne => if Req_EM_T x y then 0 else 1
  end.
(** add2.cpp:38-48; where.cpp:42-58. *)
Fixpoint eval (e : expr) (env : nat -> R) : R :=
  match e with
  | In k => env k
  | Con c => c
  | Un f a => fwd f (eval a env)
  | Bi f a b => fwd2 f (eval a env) (eval b env)
  | Add a b => eval a env + eval b env
  | Cmp c a b => compare c (eval a env) (eval b env)
  | Stop a => eval a env
  | Where c a b => if Req_EM_T (eval c env) 0 then eval b env else eval a env
  end.

(** * Gradients of one function *)
(** What a Python gradient returns for one input: an exception, None, or a graph. *)
Inductive res := Raise | Nothing | Got (e : expr).
(** grad.py:89-106: an input (or the output) is None if no gradient depends on its data. *)
Definition reading (o : option expr) (h : expr -> expr) : res :=
  match o with Some x => Got (h x) | None => Raise end.
(** Operators of variables and numbers (_arithmetic_ops.pyx:28-224). *)
Definition plus (a b : expr) : expr := Add a b.
Definition minus (a b : expr) : expr := Bi Sub2 a b.
Definition times (a b : expr) : expr := Bi Mul2 a b.
Definition over (a b : expr) : expr := Bi Div2 a b.
Definition adds (c : R) (a : expr) : expr := Un (AddScalar c) a.
Definition muls (c : R) (a : expr) : expr := Un (MulScalar c) a.
Definition rsub (c : R) (a : expr) : expr := Un (RSubScalar c) a.
Definition pows (a : expr) (c : R) : expr := Un (PowScalar c) a.
Definition neg (a : expr) : expr := muls (-1) a.
(** abs.py:39-46, acos.py:34-37, acosh.py:34-37, add_scalar.py:34-36, asin.py:34-37, asinh.py:34-37,
    atan.py:34-37, atanh.py:34-37, binary_sigmoid.py:39-44, binary_tanh.py:39-44, ceil.py:34-37,
    cos.py:37-40, cosh.py:37-40, elu.py:39-46, exp.py:34-37, floor.py:34-37, gelu.py:38-48,
    hard_sigmoid.py:39-46, hard_tanh.py:39-46, leaky_relu.py:39-54, log.py:34-37,
    log_sigmoid.py:37-40, maximum_scalar.py:39-44, minimum_scalar.py:39-44, mish.py:41-43,
    mul_scalar.py:34-36, pow_scalar.py:35-38, r_div_scalar.py:34-37, r_pow_scalar.py:37-40,
    r_sub_scalar.py:34-37, relu.py:39-45, relu6.py:39-46, round.py:34-37, selu.py:39-46,
    sigmoid.py:34-38, sign.py:34-37, sin.py:37-40, sinc.py:39-48, sinh.py:37-40, softplus.py:37-40,
    softsign.py:37-40, swish.py:37-41, tan.py:37-40, tanh.py:34-38, tanh_shrink.py:37-41. *)
Definition bk (f : act) (dy : expr) (ox oy : option expr) : res :=
  match f with
  | Abs => reading ox (fun x => times dy (Stop (minus (Cmp Ge x (Con 0)) (rsub 1 (Cmp Ge x (Con 0))))))
  | ACos => reading ox (fun x => times (neg dy) (pows (rsub 1 (pows x 2)) (-1 / 2)))
  | ACosh => reading ox (fun x => times dy (pows (adds (-1) (pows x 2)) (-1 / 2)))
  | AddScalar _ => Got dy
  | ASin => reading ox (fun x => times dy (pows (rsub 1 (pows x 2)) (-1 / 2)))
  | ASinh => reading ox (fun x => times dy (pows (adds 1 (pows x 2)) (-1 / 2)))
  | ATan => reading ox (fun x => over dy (adds 1 (pows x 2)))
  | ATanh => reading ox (fun x => over dy (rsub 1 (pows x 2)))
  | BinarySigmoid => reading ox (fun x => muls (1 / 2) (times dy (Stop (Cmp Lt (Un Abs x) (Con 1)))))
  | BinaryTanh => reading ox (fun x => times dy (Stop (Cmp Lt (Un Abs x) (Con 1))))
  | Ceil => Got dy
  | Cos => reading ox (fun x => times (neg dy) (Un Sin x))
  | Cosh => reading ox (fun x => times dy (Un Sinh x))
  | ELU a => reading ox (fun x => times dy (plus (Stop (Cmp Gt x (Con 0))) (times (muls a (Un Exp x)) (Stop (rsub 1 (Cmp Gt x (Con 0)))))))
  | Exp => reading oy (fun y => times dy y)
  | Floor => Got dy
  | GELU => reading ox (fun x =>
      let v := muls (sqrt (2 / PI)) (plus x (muls (44715 / 1000000) (pows x 3))) in
      let t1 := muls (1 / 2) (adds 1 (Un Tanh v)) in
      let t2 := times (muls (sqrt (2 / PI)) (times (muls (1 / 2) x) (rsub 1 (pows (Un Tanh v) 2)))) (adds 1 (muls (134145 / 1000000) (pows x 2))) in
      times dy (plus t1 t2))
  | HardSigmoid => reading ox (fun x => times (muls (1 / 5) dy) (Stop (times (Cmp Gt x (Con (-5 / 2))) (Cmp Lt x (Con (5 / 2))))))
  | HardTanh => reading ox (fun x => times dy (Stop (times (Cmp Ge x (Con (-1))) (Cmp Le x (Con 1)))))
  | LeakyReLU a => reading (if Rle_dec 0 a then oy else ox) (fun x => times dy (plus (Stop (Cmp Gt x (Con 0))) (muls a (Stop (rsub 1 (Cmp Gt x (Con 0)))))))
  | Log => reading ox (fun x => over dy x)
  | LogSigmoid => reading ox (fun x => times dy (rsub 1 (Un Sigmoid x)))
  | MaximumScalar a => reading ox (fun x => times dy (Stop (Cmp Gt x (Con a))))
  | MinimumScalar a => reading ox (fun x => times dy (Stop (Cmp Lt x (Con a))))
  | Mish => Raise
  | MulScalar a => Got (muls a dy)
  | PowScalar a => reading ox (fun x => times (muls a dy) (pows x (a - 1)))
  | RDivScalar a => reading ox (fun x => over (muls a (neg dy)) (pows x 2))
  | RPowScalar a => reading ox (fun x => muls (ln a) (times dy (Un (RPowScalar a) x)))
  | RSubScalar _ => Got (neg dy)
  | ReLU => reading oy (fun y => times dy (Stop (Cmp Gt y (Con 0))))
  | ReLU6 => reading ox (fun x => times dy (Stop (times (Cmp Gt x (Con 0)) (Cmp Lt x (Con 6)))))
  | Round => Got dy
  | SELU scale alpha => reading ox (fun x => times (muls scale dy) (plus (Stop (Cmp Gt x (Con 0))) (times (muls alpha (Un Exp x)) (Stop (rsub 1 (Cmp Gt x (Con 0)))))))
  | Sigmoid => reading oy (fun y => times (times dy y) (rsub 1 y))
  | Sign _ => Got dy
  | Sin => reading ox (fun x => times dy (Un Cos x))
  | Sinc => reading ox (fun x => Where (Stop (Cmp Ne x (Con 0))) (over (times dy (minus (Un Cos x) (over (Un Sin x) x))) x) (Con 0))
  | Sinh => reading ox (fun x => times dy (Un Cosh x))
  | SoftPlus a => reading ox (fun x => times dy (Un Sigmoid (muls a x)))
  | SoftSign => reading ox (fun x => times dy (Un (RDivScalar 1) (pows (adds 1 (Un Abs x)) 2)))
  | Swish => reading ox (fun x => times (times dy (Un Sigmoid x)) (adds 1 (times x (rsub 1 (Un Sigmoid x)))))
  | Tan => reading ox (fun x => times dy (pows (Un Cos x) (-2)))
  | Tanh => reading oy (fun y => times dy (rsub 1 (pows y 2)))
  | TanhShrink => reading ox (fun x => times dy (rsub 1 (rsub 1 (pows (Un Tanh x) 2))))
  end.
(** Gradients for the two inputs: absolute_error.py:39-49, atan2.py:34-40, bc_add2.py:34-36,
    binary_cross_entropy.py:34-38, div2.py:38-45, epsilon_insensitive_loss.py:39-54,
    huber_loss.py:39-56, maximum2.py:39-48, minimum2.py:39-48, mul2.py:38-45, pow2.py:38-43,
    sigmoid_cross_entropy.py:37-42, squared_error.py:34-39, sub2.py:37-44. *)
Definition reading2 (o o' : option expr) (h : expr -> expr -> res) : res :=
  match o, o' with Some x, Some x' => h x x' | _, _ => Raise end.
Definition eps_graph (a : R) (x0 x1 : expr) : expr :=
  let m0 := Stop (Cmp Gt (Un Abs (minus x0 x1)) (Con a)) in
  plus (times m0 (Stop (Cmp Gt x0 x1))) (times (neg m0) (Stop (rsub 1 (Cmp Gt x0 x1)))).
Definition huber_graph (a : R) (x0 x1 : expr) : expr :=
  let d := minus x0 x1 in
  let m0 := Cmp Lt (Un Abs d) (Con a) in
  let m1 := Stop (rsub 1 m0) in
  let mg := Cmp Gt x0 x1 in
  plus (plus (times (muls 2 d) (Stop m0)) (times (muls (2 * a) m1) (Stop mg))) (times (muls (-2 * a) m1) (Stop (rsub 1 mg))).
Definition bk0 (f : act2) (dy : expr) (o0 o1 : option expr) : res :=
  match f with
  | AbsoluteError => reading2 o0 o1 (fun x0 x1 => Got (times dy (minus (Stop (Cmp Ge x0 x1)) (Stop (rsub 1 (Cmp Ge x0 x1))))))
  | ATan2 => reading2 o0 o1 (fun y x => Got (over (times dy x) (plus (pows x 2) (pows y 2))))
  | BcAdd2 => Raise
  | BinaryCrossEntropy _ => reading2 o0 o1 (fun x0 x1 => Got (over (times dy (minus x0 x1)) (times x0 (rsub 1 x0))))
  | Div2 => reading2 o0 o1 (fun x0 x1 => Got (over dy x1))
  | EpsilonInsensitiveLoss a => reading2 o0 o1 (fun x0 x1 => Got (times dy (eps_graph a x0 x1)))
  | HuberLoss a => reading2 o0 o1 (fun x0 x1 => Got (times dy (huber_graph a x0 x1)))
  | Maximum2 => reading2 o0 o1 (fun x0 x1 => Got (times dy (Stop (Cmp Gt x0 x1))))
  | Minimum2 => reading2 o0 o1 (fun x0 x1 => Got (times dy (Stop (Cmp Lt x0 x1))))
  | Mul2 => reading2 o0 o1 (fun x0 x1 => Got (times dy x1))
  | Pow2 => reading2 o0 o1 (fun x0 x1 => Got (times (times dy x1) (Bi Pow2 x0 (adds (-1) x1))))
  | SigmoidCrossEntropy => reading2 o0 o1 (fun x0 x1 => Got (times dy (minus (Un Sigmoid x0) x1)))
  | SquaredError => reading2 o0 o1 (fun x0 x1 => Got (times (muls 2 dy) (minus x0 x1)))
  | Sub2 => Got dy
  end.
Definition bk1 (f : act2) (dy : expr) (o0 o1 : option expr) : res :=
  match f with
  | AbsoluteError => reading2 o0 o1 (fun x0 x1 => Got (neg (times dy (minus (Stop (Cmp Ge x0 x1)) (Stop (rsub 1 (Cmp Ge x0 x1)))))))
  | ATan2 => reading2 o0 o1 (fun y x => Got (over (times (neg dy) y) (plus (pows x 2) (pows y 2))))
  | BcAdd2 => Raise
  | BinaryCrossEntropy _ => Nothing
  | Div2 => reading2 o0 o1 (fun x0 x1 => Got (over (times (neg dy) x0) (pows x1 2)))
  | EpsilonInsensitiveLoss a => reading2 o0 o1 (fun x0 x1 => Got (neg (times dy (eps_graph a x0 x1))))
  | HuberLoss a => reading2 o0 o1 (fun x0 x1 => Got (neg (times dy (huber_graph a x0 x1))))
  | Maximum2 => reading2 o0 o1 (fun x0 x1 => Got (times dy (Stop (rsub 1 (Cmp Gt x0 x1)))))
  | Minimum2 => reading2 o0 o1 (fun x0 x1 => Got (times dy (Stop (rsub 1 (Cmp Lt x0 x1)))))
  | Mul2 => reading2 o0 o1 (fun x0 x1 => Got (times dy x0))
  | Pow2 => reading2 o0 o1 (fun x0 x1 => Got (times (times dy (Bi Pow2 x0 x1)) (Un Log x0)))
  | SigmoidCrossEntropy => Nothing
  | SquaredError => reading2 o0 o1 (fun x0 x1 => Got (neg (times (muls 2 dy) (minus x0 x1))))
  | Sub2 => Got (neg dy)
  end.

(** * The gradient of a graph *)
(** Whether an input of the graph needs a gradient through this variable (need_grad, and
    _get_children, grad.py:158-182). *)
Fixpoint depends (e : expr) (k : nat) : bool :=
  match e with
  | In j => Nat.eqb j k
  | Con _ | Stop _ => false
  | Un _ a => depends a k
  | Bi _ a b | Add a b | Cmp _ a b => depends a k || depends b k
  | Where c a b => depends c k || depends a k || depends b k
  end.
(** Gradients of the same variable are added (grad.py:68-79, 294-302); None is left out
    (grad.py:115-118). *)
Definition join (r s : res) : res :=
  match r, s with
  | Raise, _ | _, Raise => Raise
  | Nothing, t => t
  | t, Nothing => t
  | Got a, Got b => Got (Add a b)
  end.
Definition pass (r : res) (h : expr -> res) : res := match r with Got d => h d | t => t end.
(** grad.py:67-125 for every function from the output to the inputs; add2.py:37-44, greater.py:34 and the
    like (None), where.py:39-51. *)
Definition given (b : bool) (e : expr) : option expr := if b then Some e else None.
Definition arg0 (f : act2) (a : expr) : option expr := given (dep_x2 f false false || dep_x2 f true false) a.
Definition arg1 (f : act2) (b : expr) : option expr := given (dep_x2 f false true || dep_x2 f true true) b.
Fixpoint back (e d : expr) (k : nat) : res :=
  if depends e k then
    match e with
    | In _ => Got d
    | Con _ | Cmp _ _ _ | Stop _ => Nothing
    | Un f a => pass (bk f d (given (dep_x f) a) (given (dep_y f) e)) (fun g => back a g k)
    | Bi f a b => join (pass (bk0 f d (arg0 f a) (arg1 f b)) (fun g => back a g k)) (pass (bk1 f d (arg0 f a) (arg1 f b)) (fun g => back b g k))
    | Add a b => join (back a d k) (back b d k)
    | Where c a b => join (back a (times d (Stop (Where c (Con 1) (Con 0)))) k) (back b (times d (Stop (rsub 1 (Where c (Con 1) (Con 0))))) k)
    end
  else Nothing.
(** grad.py:184-320 for one output and one input; None is an exception (an input has no parent
    function, grad.py:268 and 289). *)
Definition grad (e : expr) (k : nat) : option expr :=
  match e with
  | In _ => None
  | _ => match back e (Con 1) k with Raise => None | Nothing => Some (Con 0) | Got g => Some g end
  end.
(** nnabla.grad of a gradient of a gradient...: the last input is the first one used. *)
Fixpoint grads (e : expr) (ks : list nat) : option expr :=
  match ks with
  | [] => Some e
  | k :: ks => match grads e ks with Some g => grad g k | None => None end
  end.
