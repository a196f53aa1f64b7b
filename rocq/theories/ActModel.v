(** Model of the functions that compute element by element (include/nbla/function/*.hpp, macros
    NBLA_DEFINE_TRANSFORM_UNARY and NBLA_DEFINE_TRANSFORM_BINARY), and of ReLU, LeakyReLU, SELU,
    BinaryCrossEntropy and SigmoidCrossEntropy (src/nbla/function/generic/*.cpp): what is computed
    for one element.  How the elements are visited is in BinModel.

    Numbers are real numbers: rounding, overflow, infinities and NaN are not modelled (so IsInf,
    IsNaN, ResetInf and ResetNaN are left out), and the functions of the C library are the
    mathematical ones.  Erf is left out.  Where a C function has no real value, or an infinite
    one, the value here is arbitrary; the theorems exclude these arguments. *)
From Coq Require Import Reals Ratan ZArith Bool.
Local Open Scope R_scope.

(** * The C library *)
(** std::floor, std::ceil, std::round (halves away from zero). *)
Definition cfloor (x : R) : R := IZR (Int_part x).
Definition cceil (x : R) : R := - cfloor (- x).
Definition cround (x : R) : R := if Rle_dec 0 x then cfloor (x + 1 / 2) else cceil (x - 1 / 2).
(** std::pow: a negative base needs an integer exponent. *)
Definition cpow (x a : R) : R :=
  if Rlt_dec 0 x then Rpower x a
  else if Req_EM_T a (IZR (Int_part a)) then powerRZ x (Int_part a) else 0.
(** std::acosh, std::atanh. *)
Definition cacosh (x : R) : R := ln (x + sqrt (x * x - 1)).
Definition catanh (x : R) : R := 1 / 2 * ln ((1 + x) / (1 - x)).
(** std::atan2. *)
Definition catan2 (a b : R) : R :=
  if Rlt_dec 0 b then atan (a / b)
  else if Rlt_dec b 0 then (if Rle_dec 0 a then atan (a / b) + PI else atan (a / b) - PI)
  else if Rlt_dec 0 a then PI / 2 else if Rlt_dec a 0 then - (PI / 2) else 0.
(** A comparison as a number. *)
Definition num {P Q : Prop} (b : {P} + {Q}) : R := if b then 1 else 0.

(** * Functions of one number *)
Inductive act :=
| Abs | ACos | ACosh | AddScalar (a : R) | ASin | ASinh | ATan | ATanh | BinarySigmoid | BinaryTanh
| Ceil | Cos | Cosh | ELU (a : R) | Exp | Floor | GELU | HardSigmoid | HardTanh | LeakyReLU (a : R)
| Log | LogSigmoid | MaximumScalar (a : R) | MinimumScalar (a : R) | Mish | MulScalar (a : R)
| PowScalar (a : R) | RDivScalar (a : R) | RPowScalar (a : R) | RSubScalar (a : R) | ReLU | ReLU6
| Round | SELU (scale alpha : R) | Sigmoid | Sign (a : R) | Sin | Sinc | Sinh | SoftPlus (a : R)
| SoftSign | Swish | Tan | Tanh | TanhShrink.

(** sqrt(2 / M_PI) (x + 0.044715 x^3) (gelu.hpp:43-44). *)
Definition gelu_in (x : R) : R := sqrt (2 / PI) * (x + (44715 / 1000000) * x ^ 3).
(** The first expression given to the macro: abs.hpp:42, acos.hpp:40, acosh.hpp:40,
    add_scalar.hpp:43, asin.hpp:40, asinh.hpp:40, atan.hpp:40, atanh.hpp:40, binary_sigmoid.hpp:51,
    binary_tanh.hpp:51, ceil.hpp:44, cos.hpp:40, cosh.hpp:40, elu.hpp:54, exp.hpp:30, floor.hpp:42,
    gelu.hpp:43-44, hard_sigmoid.hpp:47, hard_tanh.hpp:46, leaky_relu.cpp:36-47, log.hpp:30,
    log_sigmoid.hpp:45-46, maximum_scalar.hpp:43, minimum_scalar.hpp:43, mish.hpp:38,
    mul_scalar.hpp:43, pow_scalar.hpp:45-46, r_div_scalar.hpp:43, r_pow_scalar.hpp:43,
    r_sub_scalar.hpp:41, relu.cpp:34-40, relu6.hpp:44, round.hpp:42, selu.cpp:34-41,
    sigmoid.hpp:42, sign.hpp:49, sin.hpp:40, sinc.hpp:45, sinh.hpp:40, softplus.hpp:41-42,
    softsign.hpp:44, swish.hpp:49, tan.hpp:40, tanh.hpp:42, tanh_shrink.hpp:44. *)
Definition fwd (f : act) (x : R) : R :=
  match f with
  | Abs => Rabs x
  | ACos => acos x
  | ACosh => cacosh x
  | AddScalar a => x + a
  | ASin => asin x
  | ASinh => arcsinh x
  | ATan => atan x
  | ATanh => catanh x
  | BinarySigmoid => if Rlt_dec 0 x then 1 else 0
  | BinaryTanh => if Rlt_dec 0 x then 1 else -1
  | Ceil => cceil x
  | Cos => cos x
  | Cosh => cosh x
  | ELU a => if Rle_dec 0 x then x else a * (exp x - 1)
  | Exp => exp x
  | Floor => cfloor x
  | GELU => x / 2 * (1 + tanh (gelu_in x))
  | HardSigmoid => if Rlt_dec (5 / 2) x then 1 else if Rlt_dec x (-5 / 2) then 0 else (1 / 5) * x + (1 / 2)
  | HardTanh => if Rlt_dec 1 x then 1 else if Rlt_dec x (-1) then -1 else x
  | LeakyReLU a => if Rlt_dec 0 x then x else a * x
  | Log => ln x
  | LogSigmoid => if Rlt_dec 0 x then - ln (exp (- x) + 1) else x - ln (exp x + 1)
  | MaximumScalar a => if Rlt_dec a x then x else a
  | MinimumScalar a => if Rlt_dec x a then x else a
  | Mish => x * tanh (ln (exp x + 1))
  | MulScalar a => x * a
  | PowScalar a => if Req_EM_T a (1 / 2) then sqrt x else cpow x a
  | RDivScalar a => a / x
  | RPowScalar a => cpow a x
  | RSubScalar a => a - x
  | ReLU => Rmax 0 x
  | ReLU6 => Rmin (Rmax x 0) 6
  | Round => cround x
  | SELU scale alpha => if Rlt_dec 0 x then scale * x else alpha * scale * (exp x - 1)
  | Sigmoid => 1 / (1 + exp (- x))
  | Sign a => if Rlt_dec 0 x then 1 else if Rlt_dec x 0 then -1 else a
  | Sin => sin x
  | Sinc => if Req_EM_T x 0 then 1 else sin x / x
  | Sinh => sinh x
  | SoftPlus a => if Rlt_dec 0 x then x + ln (exp (- x * a) + 1) / a else ln (exp (x * a) + 1) / a
  | SoftSign => x / (1 + Rabs x)
  | Swish => x / (1 + exp (- x))
  | Tan => tan x
  | Tanh => tanh x
  | TanhShrink => x - tanh x
  end.
(** The second expression, with dy, x and y: the same lines and the following; leaky_relu.cpp:48-84,
    relu.cpp:41-66, selu.cpp:43-66. *)
Definition bwd (f : act) (dy x y : R) : R :=
  match f with
  | Abs => if Rlt_dec x 0 then - dy else dy
  | ACos => - dy / sqrt (1 - x * x)
  | ACosh => dy / sqrt (x * x - 1)
  | AddScalar _ => dy
  | ASin => dy / sqrt (1 - x * x)
  | ASinh => dy / sqrt (x * x + 1)
  | ATan => dy / (1 + x * x)
  | ATanh => dy / (1 - x * x)
  | BinarySigmoid => if Rle_dec 1 (Rabs x) then 0 else dy * (1 / 2)
  | BinaryTanh => if Rle_dec 1 (Rabs x) then 0 else dy
  | Ceil => dy
  | Cos => - dy * sin x
  | Cosh => dy * sinh x
  | ELU a => if Rle_dec 0 x then dy else dy * a * exp x
  | Exp => y * dy
  | Floor => dy
  | GELU => dy * ((1 / 2) * (1 + tanh (gelu_in x)) + (1 / 2) * x * (1 - tanh (gelu_in x) ^ 2) * sqrt (2 / PI) * (1 + (134145 / 1000000) * x ^ 2))
  | HardSigmoid => if Rle_dec x (5 / 2) then (if Rle_dec (-5 / 2) x then dy * (1 / 5) else 0) else 0
  | HardTanh => if Rle_dec (-1) x then (if Rle_dec x 1 then dy else 0) else 0
  | LeakyReLU a => if Rlt_dec 0 (if Rle_dec 0 a then y else x) then dy else a * dy
  | Log => dy / x
  | LogSigmoid => dy / (exp x + 1)
  | MaximumScalar a => if Rlt_dec a x then dy else 0
  | MinimumScalar a => if Rlt_dec x a then dy else 0
  | Mish => dy * exp x * (4 * (x + 1) + 4 * exp (2 * x) + exp (3 * x) + exp x * (4 * x + 6)) / (2 * exp x + exp (2 * x) + 2) ^ 2
  | MulScalar a => dy * a
  | PowScalar a => dy * a * cpow x (a - 1)
  | RDivScalar a => dy * (- a / (x * x))
  | RPowScalar a => dy * cpow a x * ln a
  | RSubScalar _ => - dy
  | ReLU => if Rlt_dec 0 y then dy else 0
  | ReLU6 => if Rlt_dec 0 x then (if Rlt_dec x 6 then dy else 0) else 0
  | Round => dy
  | SELU scale alpha => if Rlt_dec 0 x then scale * dy else alpha * scale * exp x * dy
  | Sigmoid => dy * y * (1 - y)
  | Sign _ => dy
  | Sin => dy * cos x
  | Sinc => if Req_EM_T x 0 then 0 else dy * (cos x - sin x / x) / x
  | Sinh => dy * cosh x
  | SoftPlus a => dy / (1 + exp (- a * x))
  | SoftSign => dy / (1 + Rabs x) ^ 2
  | Swish => dy * (y + 1 / (1 + exp (- x)) * (1 - y))
  | Tan => dy / cos x ^ 2
  | Tanh => dy * (1 - y * y)
  | TanhShrink => dy * tanh x ^ 2
  end.
(** grad_depends_output_data and grad_depends_input_data_impl: the last flags of the macro
    (base_transform_unary.hpp:152-162), leaky_relu.hpp:72-74 and 85-87, relu.hpp:64 and 75-77,
    selu.hpp:107 and 118. *)
Definition dep_y (f : act) : bool :=
  match f with
  | Exp | GELU | ReLU | Sigmoid | Swish | Tanh => true
  | LeakyReLU a => if Rle_dec 0 a then true else false
  | _ => false
  end.
Definition dep_x (f : act) : bool :=
  match f with
  | AddScalar _ | Ceil | Exp | Floor | MulScalar _ | RSubScalar _ | ReLU | Round | Sigmoid | Sign _ | Tanh => false
  | LeakyReLU a => if Rle_dec 0 a then false else true
  | _ => true
  end.

(** * Functions of two numbers *)
Inductive act2 :=
| AbsoluteError | ATan2 | BcAdd2 | BinaryCrossEntropy (least : R) | Div2 | EpsilonInsensitiveLoss (a : R)
| HuberLoss (a : R) | Maximum2 | Minimum2 | Mul2 | Pow2 | SigmoidCrossEntropy | SquaredError | Sub2.
(** absolute_error.hpp:46, atan2.hpp:47, bc_add2.hpp:34, binary_cross_entropy.cpp:39-51 ([least] is
    std::numeric_limits<T>::min()), div2.hpp:44, epsilon_insensitive_loss.hpp:58, huber_loss.hpp:51-52,
    maximum2.hpp:41, minimum2.hpp:41, mul2.hpp:42, pow2.hpp:44, sigmoid_cross_entropy.cpp:42-53,
    squared_error.hpp:42, sub2.hpp:41. *)
Definition fwd2 (f : act2) (x0 x1 : R) : R :=
  match f with
  | AbsoluteError => Rabs (x0 - x1)
  | ATan2 => catan2 x0 x1
  | BcAdd2 => x0 + x1
  | BinaryCrossEntropy m => - (x1 * ln (Rmax x0 m) + (1 - x1) * ln (Rmax (1 - x0) m))
  | Div2 => x0 / x1
  | EpsilonInsensitiveLoss a => if Rlt_dec a (Rabs (x0 - x1)) then Rabs (x0 - x1) - a else 0
  | HuberLoss a => if Rlt_dec (Rabs (x0 - x1)) a then Rabs (x0 - x1) * Rabs (x0 - x1) else a * (2 * Rabs (x0 - x1) - a)
  | Maximum2 => if Rlt_dec x1 x0 then x0 else x1
  | Minimum2 => if Rlt_dec x0 x1 then x0 else x1
  | Mul2 => x0 * x1
  | Pow2 => cpow x0 x1
  | SigmoidCrossEntropy => - (x0 * (x1 - num (Rle_dec 0 x0)) - ln (1 + exp (x0 - 2 * x0 * num (Rle_dec 0 x0))))
  | SquaredError => (x0 - x1) * (x0 - x1)
  | Sub2 => x0 - x1
  end.
(** binary_cross_entropy.cpp:53-87, sigmoid_cross_entropy.cpp:55-79 (the label has no gradient), else
    the lines above and the following. *)
Definition bwd0 (f : act2) (dy x0 x1 y : R) : R :=
  match f with
  | AbsoluteError => if Rlt_dec 0 (x0 - x1) then dy else - dy
  | ATan2 => dy * x1 / (x0 * x0 + x1 * x1)
  | BcAdd2 => dy
  | BinaryCrossEntropy m => dy * (x0 - x1) / Rmax (x0 - x0 * x0) m
  | Div2 => dy / x1
  | EpsilonInsensitiveLoss a => if Rlt_dec a (x0 - x1) then dy else if Rlt_dec (x0 - x1) (- a) then - dy else 0
  | HuberLoss a => 2 * dy * (if Rlt_dec (Rabs (x0 - x1)) a then x0 - x1 else (if Rlt_dec 0 (x0 - x1) then 1 else -1) * a)
  | Maximum2 => num (Rlt_dec x1 x0) * dy
  | Minimum2 => num (Rlt_dec x0 x1) * dy
  | Mul2 => dy * x1
  | Pow2 => dy * x1 * cpow x0 (x1 - 1)
  | SigmoidCrossEntropy => dy * (1 / (1 + exp (- x0)) - x1)
  | SquaredError => 2 * dy * (x0 - x1)
  | Sub2 => dy
  end.
Definition bwd1 (f : act2) (dy x0 x1 y : R) : R :=
  match f with
  | AbsoluteError => if Rlt_dec 0 (x0 - x1) then - dy else dy
  | ATan2 => - dy * x0 / (x0 * x0 + x1 * x1)
  | BcAdd2 => dy
  | BinaryCrossEntropy m => dy * (ln (Rmax (1 - x0) m) - ln (Rmax x0 m))
  | Div2 => - dy * x0 / (x1 * x1)
  | EpsilonInsensitiveLoss a => if Rlt_dec a (x0 - x1) then - dy else if Rlt_dec (x0 - x1) (- a) then dy else 0
  | HuberLoss a => -2 * dy * (if Rlt_dec (Rabs (x0 - x1)) a then x0 - x1 else (if Rlt_dec 0 (x0 - x1) then 1 else -1) * a)
  | Maximum2 => num (Rle_dec x0 x1) * dy
  | Minimum2 => num (Rle_dec x1 x0) * dy
  | Mul2 => dy * x0
  | Pow2 => dy * ln x0 * cpow x0 x1
  | SigmoidCrossEntropy => 0
  | SquaredError => -2 * dy * (x0 - x1)
  | Sub2 => - dy
  end.
(** Whether the gradient of input [i] depends on the data of input [j] ([true] is the second
    input) or on the output (base_transform_binary.hpp:415-434, whose flags do not depend on [j];
    binary_cross_entropy.hpp:64 and 75-85, sigmoid_cross_entropy.hpp:69 and 80-86). *)
Definition dep_x2 (f : act2) (i j : bool) : bool :=
  match f with
  | BcAdd2 | Sub2 => false
  | BinaryCrossEntropy _ => negb i || negb j
  | SigmoidCrossEntropy => negb i
  | _ => true
  end.
Definition dep_y2 (f : act2) (i : bool) : bool := false.
