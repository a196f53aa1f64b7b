(** What gradients of gradients should be, and where nnabla.grad finds them. *)
From Coq Require Import Reals ZArith Bool List.
From Verif Require Import ActModel ActSpec BfModel.
Import ListNotations.
Local Open Scope R_scope.

(** The environment with input [k] replaced. *)
Definition upd (env : nat -> R) (k : nat) (u : R) : nat -> R := fun j => if Nat.eqb j k then u else env j.
(** [l] is the partial derivative of [F] at [env], by the last number of the list first. *)
Fixpoint partials (F : (nat -> R) -> R) (ks : list nat) (env : nat -> R) (l : R) : Prop :=
  match ks with
  | [] => F env = l
  | k :: ks => exists g : R -> R,
      (exists delta, 0 < delta /\ forall u, Rabs (u - env k) < delta -> partials F ks (upd env k u) (g u)) /\
      derivable_pt_lim g (env k) l
  end.

(** * Where the Python gradient is the C++ gradient *)
Definition meets (f : act) (x : R) : Prop :=
  match f with
  | ACos | ASin => -1 < x < 1
  | ACosh => 1 < x
  | ELU a => x <> 0 \/ a = 1
  | HardSigmoid => x <> 5 / 2 /\ x <> -5 / 2
  | _ => True
  end.
Definition meets2 (f : act2) (x0 x1 : R) : Prop :=
  match f with
  | AbsoluteError => x0 <> x1
  | BinaryCrossEntropy m => m <= x0 - x0 * x0
  | EpsilonInsensitiveLoss a => 0 <= a
  | _ => True
  end.

(** * Where a function has a finite value *)
Definition whole (a : R) : Prop := exists n, a = IZR n.
Definition pow_defined (x a : R) : Prop := 0 < x \/ (x = 0 /\ 0 <= a) \/ (x <> 0 /\ whole a).
Definition defined (f : act) (x : R) : Prop :=
  match f with
  | ACos | ASin => -1 <= x <= 1
  | ATanh => -1 < x < 1
  | ACosh => 1 <= x
  | Log => 0 < x
  | PowScalar a => pow_defined x a
  | RDivScalar _ => x <> 0
  | RPowScalar a => pow_defined a x
  | SoftPlus a => a <> 0
  | Tan => cos x <> 0
  | _ => True
  end.
Definition defined2 (f : act2) (x0 x1 : R) : Prop :=
  match f with
  | BinaryCrossEntropy m => 0 < m
  | Div2 => x1 <> 0
  | Pow2 => pow_defined x0 x1
  | _ => True
  end.

(** * Where gradients of order [m] are found *)
(** The order is limited where the graph of the gradient has a function at an argument where it has no
    derivative, even if the function itself has derivatives of every order. *)
Definition reach (m : nat) (f : act) (x : R) : Prop :=
  match f with
  | ACos | ASin | ASinh | ATan | ATanh | GELU | Tanh | TanhShrink => x = 0 -> (m <= 3)%nat
  | PowScalar a => x = 0 -> INR m <= a
  | ELU _ | LeakyReLU _ | SELU _ _ | Sinc | SoftSign => x = 0 -> (m <= 1)%nat
  | _ => True
  end.
Definition smooth (m : nat) (f : act) (x : R) : Prop :=
  match m with O => defined f x | _ => domain f x /\ ~ kink f x /\ reach m f x end.
Definition smooth2 (m : nat) (f : act2) (x0 x1 : R) : Prop :=
  match m with
  | O => defined2 f x0 x1
  | _ => domain2 f x0 x1 /\
      match f with
      | AbsoluteError | Maximum2 | Minimum2 => x0 <> x1
      | ATan2 => x0 = 0 \/ x1 = 0 -> (m <= 3)%nat
      | BinaryCrossEntropy least => least < x0 - x0 * x0
      | EpsilonInsensitiveLoss a => Rabs (x0 - x1) <> a /\ (x0 = x1 -> (m <= 1)%nat)
      | HuberLoss a => 0 < a /\ (x0 = x1 \/ Rabs (x0 - x1) = a -> (m <= 1)%nat)
      | _ => True
      end
  end.
(** A graph whose value can only jump: comparisons, constants and what is computed from them. *)
Fixpoint flat (e : expr) : bool :=
  match e with
  | In _ => false
  | Con _ | Cmp _ _ _ => true
  | Un _ a | Stop a => flat a
  | Bi _ a b | Add a b => flat a && flat b
  | Where c a b => flat c && flat a && flat b
  end.
(** A graph without inputs. *)
Fixpoint closed (e : expr) : bool :=
  match e with
  | In _ => false
  | Con _ => true
  | Un _ a | Stop a => closed a
  | Bi _ a b | Add a b | Cmp _ a b => closed a && closed b
  | Where c a b => closed c && closed a && closed b
  end.
(** Functions whose second input (the label) gets no gradient. *)
Definition labelled (f : act2) : bool := match f with BinaryCrossEntropy _ | SigmoidCrossEntropy => true | _ => false end.
(** A rectifier that is off, with the value 0 for all inputs around. *)
Definition off (e : expr) (env : nat -> R) : Prop :=
  match e with
  | Un ReLU a => eval a env < 0
  | Un (LeakyReLU s) a => s = 0 /\ eval a env < 0
  | _ => False
  end.
(** All functions of the graph have gradients of order [m] at their arguments (of order 0: a finite
    value), and labels are constant. *)
Fixpoint regular (m : nat) (e : expr) (env : nat -> R) : Prop :=
  match e with
  | In _ | Con _ => True
  | Un f a => regular m a env /\ smooth m f (eval a env)
  | Bi f a b => regular m a env /\ regular m b env /\ smooth2 m f (eval a env) (eval b env) /\ (m = O \/ labelled f = false \/ closed b = true)
  | Add a b => regular m a env /\ regular m b env
  | Cmp _ a b => regular m a env /\ regular m b env /\ (m = O \/ eval a env <> eval b env \/ (off a env /\ b = Con 0))
  | Stop a => regular m a env /\ (m = O \/ flat a = true)
  | Where c a b => regular m c env /\ (m = O \/ flat c = true) /\
      match m with
      | O => if Req_EM_T (eval c env) 0 then regular m b env else regular m a env
      | _ => regular m a env /\ regular m b env
      end
  end.
(** Graphs without the functions whose gradient is not implemented in Python. *)
Fixpoint supported (e : expr) : bool :=
  match e with
  | In _ | Con _ => true
  | Un f a => match f with Mish => false | _ => supported a end
  | Bi f a b => match f with BcAdd2 => false | _ => supported a && supported b end
  | Add a b | Cmp _ a b => supported a && supported b
  | Stop a => supported a
  | Where c a b => supported c && supported a && supported b
  end.
Definition is_input (e : expr) : bool := match e with In _ => true | _ => false end.
