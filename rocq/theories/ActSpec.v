(** What gradients of functions of real numbers should be. *)
From Coq Require Import Reals ZArith.
From Verif Require Import ActModel.
Local Open Scope R_scope.

(** The slopes of [f] at [x], from the left and from the right. *)
Definition left_slope (f : R -> R) (x l : R) : Prop :=
  forall eps, 0 < eps -> exists d, 0 < d /\ forall h, 0 < h < d -> Rabs ((f x - f (x - h)) / h - l) < eps.
Definition right_slope (f : R -> R) (x r : R) : Prop :=
  forall eps, 0 < eps -> exists d, 0 < d /\ forall h, 0 < h < d -> Rabs ((f (x + h) - f x) / h - r) < eps.
(** [g] lies between the slopes from both sides: it is the derivative if there is one. *)
Definition slope (f : R -> R) (x g : R) : Prop :=
  exists l r, left_slope f x l /\ right_slope f x r /\ Rmin l r <= g <= Rmax l r.
(** The numbers at which a function has a value and slopes (functions with steps have none). *)
Definition domain (f : act) (x : R) : Prop :=
  match f with
  | ACos | ASin | ATanh => -1 < x < 1
  | ACosh => 1 < x
  | Log => 0 < x
  | PowScalar a => 0 < x \/ exists n, a = IZR n /\ (x <> 0 \/ (1 <= n)%Z)
  | RDivScalar _ => x <> 0
  | RPowScalar a => 0 < a
  | SoftPlus a => a <> 0
  | Tan => cos x <> 0
  | BinarySigmoid | BinaryTanh | Ceil | Floor | Round | Sign _ => False
  | _ => True
  end.
(** Where the slopes from the left and the right may differ. *)
Definition kink (f : act) (x : R) : Prop :=
  match f with
  | Abs | ReLU => x = 0
  | ELU a | LeakyReLU a => x = 0 /\ a <> 1
  | SELU scale alpha => x = 0 /\ scale <> alpha * scale
  | HardSigmoid => x = 5 / 2 \/ x = -5 / 2
  | HardTanh => x = 1 \/ x = -1
  | MaximumScalar a | MinimumScalar a => x = a
  | ReLU6 => x = 0 \/ x = 6
  | _ => False
  end.
(** The pairs at which a function of two numbers has slopes. *)
Definition domain2 (f : act2) (x0 x1 : R) : Prop :=
  match f with
  | ATan2 => ~ (x0 = 0 /\ x1 <= 0)
  | BinaryCrossEntropy m => 0 < m /\ m <= x0 - x0 * x0
  | Div2 => x1 <> 0
  | EpsilonInsensitiveLoss a => 0 <= a
  | Pow2 => 0 < x0
  | _ => True
  end.
