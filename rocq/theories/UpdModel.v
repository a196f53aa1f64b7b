(** Model of update_impl of the solvers (src/nbla/solver/generic/) and of the functions on
    gradients they share (include/nbla/solver/).

    Elements, learning rates and other settings are real numbers: rounding, overflow and NaN are
    not modelled, nor is the conversion between float and the type of the elements.  (sqrt of a
    negative number and division by zero have arbitrary values.)  Arrays are lists in memory order;
    parameter, gradient and states are different arrays.  The size of the parameter is that of its
    array.  None is a read or write outside an array, or a failed NBLA_CHECK.  States of the
    parameter are held in a tuple after the counter t; the map from keys to states, callbacks and
    which solvers fuse the weight decay are in SolverModel. *)
From Coq Require Import List ZArith Bool Reals.
From Verif Require Import NdModel IdxModel ScanModel.
Import ListNotations.
Local Open Scope list_scope.
Local Open Scope Z_scope.

(** t = std::min(t + 1, std::numeric_limits<uint32_t>::max() - 1) on uint32_t (adam.cpp:60 and all
    other solvers). *)
Definition next_t (t : Z) : Z := Z.min ((t + 1) mod 2 ^ 32) (2 ^ 32 - 1 - 1).
(** std::pow(beta, t). *)
Definition pow_t (beta : R) (t : Z) : R := pow beta (Z.to_nat t).

(** std::transform(a, a + size, b, b, f). *)
Definition transform (f : R -> R -> R) (size : Z) (a b : list R) : option (list R) :=
  loop (fun i b => obind (get a i) (fun u => obind (get b i) (fun w => put b i (f u w)))) (upto size) b.
(** std::sqrt(std::accumulate(a, a + size, T(0), acc + u * u)). *)
Definition norm2 (size : Z) (a : list R) : option R :=
  obind (loop (fun i s => obind (get a i) (fun u => Some (s + u * u)%R)) (upto size) 0%R) (fun s => Some (sqrt s)).
(** Loops over the elements whose bodies read position s of the gradient, of one, two or three
    states and of the parameter, and write position s of the states and of the parameter. *)
Definition elements1 (size : Z) (body : R -> R -> R -> R * R) (g : list R) : list R * list R -> option (list R * list R) :=
  loop (fun s '(a, x) => obind (get g s) (fun gs => obind (get a s) (fun a0 => obind (get x s) (fun x0 =>
    let '(a1, x1) := body gs a0 x0 in obind (put a s a1) (fun a => obind (put x s x1) (fun x => Some (a, x))))))) (upto size).
Definition elements2 (size : Z) (body : R -> R -> R -> R -> R * R * R) (g : list R) : list R * list R * list R -> option (list R * list R * list R) :=
  loop (fun s '(a, b, x) => obind (get g s) (fun gs => obind (get a s) (fun a0 => obind (get b s) (fun b0 => obind (get x s) (fun x0 =>
    let '(a1, b1, x1) := body gs a0 b0 x0 in
    obind (put a s a1) (fun a => obind (put b s b1) (fun b => obind (put x s x1) (fun x => Some (a, b, x))))))))) (upto size).
Definition elements3 (size : Z) (body : R -> R -> R -> R -> R -> R * R * R * R) (g : list R) : list R * list R * list R * list R -> option (list R * list R * list R * list R) :=
  loop (fun s '(a, b, c, x) => obind (get g s) (fun gs => obind (get a s) (fun a0 => obind (get b s) (fun b0 => obind (get c s) (fun c0 => obind (get x s) (fun x0 =>
    let '(a1, b1, c1, x1) := body gs a0 b0 c0 x0 in
    obind (put a s a1) (fun a => obind (put b s b1) (fun b => obind (put c s c1) (fun c => obind (put x s x1) (fun x => Some (a, b, c, x))))))))))) (upto size).
Definition sizeof (x : list R) : Z := Z.of_nat (length x).

(** * Gradient descent *)
(** sgd.cpp:38-49. *)
Definition sgd_update (lr : R) (g : list R) '((t, x) : Z * list R) : option (Z * list R) :=
  obind (transform (fun g x => x - lr * g)%R (sizeof x) g x) (fun x => Some (next_t t, x)).
(** momentum.cpp:44-57. *)
Definition momentum_update (lr momentum : R) (g : list R) '((t, v, x) : Z * list R * list R) : option (Z * list R * list R) :=
  obind (transform (fun g v => momentum * v + lr * g)%R (sizeof x) g v) (fun v =>
  obind (transform (fun v x => x - v)%R (sizeof x) v x) (fun x => Some (next_t t, v, x))).
(** nesterov.cpp:44-59. *)
Definition nesterov_update (lr momentum : R) (g : list R) '((t, v, x) : Z * list R * list R) : option (Z * list R * list R) :=
  obind (elements1 (sizeof x) (fun g v_prev x =>
    let v := (momentum * v_prev - lr * g)%R in
    (v, x + (- momentum * v_prev + (1 + momentum) * v))%R) g (v, x)) (fun '(v, x) => Some (next_t t, v, x)).
(** sgdw.cpp:47-62; [rate] is weight_decay_rate_. *)
Definition sgdw_update (init_lr lr momentum rate : R) (g : list R) '((t, v, x) : Z * list R * list R) : option (Z * list R * list R) :=
  let decay_rate := (lr / init_lr * rate)%R in
  obind (transform (fun g v => momentum * v + lr * g)%R (sizeof x) g v) (fun v =>
  obind (transform (fun v x => x - v - decay_rate * x)%R (sizeof x) v x) (fun x => Some (next_t t, v, x))).
(** lion.cpp:47-65. *)
Definition sign (v : R) : R := ((if Rlt_dec 0 v then 1 else 0) - (if Rlt_dec v 0 then 1 else 0))%R.
Definition lerp (x y t : R) : R := (x + t * (y - x))%R.
Definition lion_update (lr beta1 beta2 rate : R) (g : list R) '((t, m, x) : Z * list R * list R) : option (Z * list R * list R) :=
  obind (elements1 (sizeof x) (fun g m x =>
    let u := sign (lerp g m beta1) in
    (lerp g m beta2, x - lr * (u + rate * x))%R) g (m, x)) (fun '(m, x) => Some (next_t t, m, x)).

(** * Adaptive rates *)
(** adagrad.cpp:44-58. *)
Definition adagrad_update (lr eps : R) (g : list R) '((t, v, x) : Z * list R * list R) : option (Z * list R * list R) :=
  obind (elements1 (sizeof x) (fun g v x =>
    let v := (v + g * g)%R in (v, x - lr * g / (sqrt v + eps))%R) g (v, x)) (fun '(v, x) => Some (next_t t, v, x)).
(** rmsprop.cpp:45-59. *)
Definition rmsprop_update (lr decay eps : R) (g : list R) '((t, v, x) : Z * list R * list R) : option (Z * list R * list R) :=
  obind (elements1 (sizeof x) (fun g v x =>
    let v := (v * decay + g * g * (1 - decay))%R in (v, x - lr / (sqrt v + eps) * g)%R) g (v, x)) (fun '(v, x) => Some (next_t t, v, x)).
(** adadelta.cpp:48-68. *)
Definition adadelta_update (lr decay eps : R) (grad : list R) '((t, e, d, x) : Z * list R * list R * list R) : option (Z * list R * list R * list R) :=
  obind (elements2 (sizeof x) (fun g e d x =>
    let e := (e * decay + g * g * (1 - decay))%R in
    let delta := (sqrt ((d + eps) / (e + eps)) * g)%R in
    (e, d * decay + delta * delta * (1 - decay), x - lr * delta)%R) grad (e, d, x)) (fun '(e, d, x) => Some (next_t t, e, d, x)).
(** rmsprop_graves.cpp:52-73. *)
Definition graves_update (lr decay momentum eps : R) (grad : list R) '((t, n, g, d, x) : Z * list R * list R * list R * list R)
    : option (Z * list R * list R * list R * list R) :=
  obind (elements3 (sizeof x) (fun grad n g d x =>
    let n := (decay * n + (1 - decay) * grad * grad)%R in
    let g := (decay * g + (1 - decay) * grad)%R in
    let d := (momentum * d - lr * grad / sqrt (n - g * g + eps))%R in
    (n, g, d, x + d)%R) grad (n, g, d, x)) (fun '(n, g, d, x) => Some (next_t t, n, g, d, x)).

(** * The family of Adam *)
Definition bias_correction (beta1 beta2 : R) (t : Z) : R := (sqrt (1 - pow_t beta2 t) / (1 - pow_t beta1 t))%R.
(** adam.cpp:49-71. *)
Definition adam_update (alpha beta1 beta2 eps : R) (g : list R) '((t, m, v, x) : Z * list R * list R * list R) : option (Z * list R * list R * list R) :=
  let t := next_t t in
  let alpha_t := (alpha * bias_correction beta1 beta2 t)%R in
  obind (elements2 (sizeof x) (fun g m v x =>
    let m := (beta1 * m + (1 - beta1) * g)%R in
    let v := (beta2 * v + (1 - beta2) * g * g)%R in
    (m, v, x - alpha_t * m / (sqrt v + eps))%R) g (m, v, x)) (fun '(m, v, x) => Some (t, m, v, x)).
(** adamw.cpp:51-75. *)
Definition adamw_update (init_alpha alpha beta1 beta2 eps rate : R) (g : list R) '((t, m, v, x) : Z * list R * list R * list R)
    : option (Z * list R * list R * list R) :=
  let t := next_t t in
  let eta_t := (alpha / init_alpha)%R in
  let alpha_t := (alpha * bias_correction beta1 beta2 t)%R in
  obind (elements2 (sizeof x) (fun g m v x =>
    let m := (beta1 * m + (1 - beta1) * g)%R in
    let v := (beta2 * v + (1 - beta2) * g * g)%R in
    (m, v, x - alpha_t * m / (sqrt v + eps) - eta_t * rate * x)%R) g (m, v, x)) (fun '(m, v, x) => Some (t, m, v, x)).
(** adamax.cpp:49-70. *)
Definition adamax_update (alpha beta1 beta2 eps : R) (g : list R) '((t, m, u, x) : Z * list R * list R * list R) : option (Z * list R * list R * list R) :=
  let t := next_t t in
  let alpha_t := (alpha * (1 / (1 - pow_t beta1 t)))%R in
  obind (elements2 (sizeof x) (fun g m u x =>
    let m := (beta1 * m + (1 - beta1) * g)%R in
    let u := Rmax (beta2 * u) (Rabs g) in
    (m, u, x - alpha_t * m / (u + eps))%R) g (m, u, x)) (fun '(m, u, x) => Some (t, m, u, x)).
(** amsgrad.cpp:53-78. *)
Definition amsgrad_update (alpha beta1 beta2 eps : R) (correct : bool) (g : list R) '((t, m, v, h, x) : Z * list R * list R * list R * list R)
    : option (Z * list R * list R * list R * list R) :=
  let t := next_t t in
  let alpha_t := (alpha * (if correct then bias_correction beta1 beta2 t else 1))%R in
  obind (elements3 (sizeof x) (fun g m v h x =>
    let m := (beta1 * m + (1 - beta1) * g)%R in
    let v := (beta2 * v + (1 - beta2) * g * g)%R in
    let h := Rmax h v in
    (m, v, h, x - alpha_t * m / (sqrt h + eps))%R) g (m, v, h, x)) (fun '(m, v, h, x) => Some (t, m, v, h, x)).
(** adabound.cpp:50-77. *)
Definition adabound_update (init_alpha alpha beta1 beta2 eps final gamma : R) (g : list R) '((t, m, v, x) : Z * list R * list R * list R)
    : option (Z * list R * list R * list R) :=
  let t := next_t t in
  let alpha_t := (alpha * bias_correction beta1 beta2 t)%R in
  let final_lr := (final * (alpha / init_alpha))%R in
  obind (elements2 (sizeof x) (fun g m v x =>
    let m := (beta1 * m + (1 - beta1) * g)%R in
    let v := (beta2 * v + (1 - beta2) * g * g)%R in
    let lower_bound := (final_lr * (1 - 1 / (gamma * IZR t + 1)))%R in
    let upper_bound := (final_lr * (1 + 1 / (gamma * IZR t)))%R in
    let denom := (sqrt v + eps)%R in
    let eta := Rmin upper_bound (Rmax (alpha_t / denom) lower_bound) in
    (m, v, x - eta * m)%R) g (m, v, x)) (fun '(m, v, x) => Some (t, m, v, x)).
(** amsbound.cpp:56-86. *)
Definition amsbound_update (init_alpha alpha beta1 beta2 eps final gamma : R) (correct : bool) (g : list R)
    '((t, m, v, h, x) : Z * list R * list R * list R * list R) : option (Z * list R * list R * list R * list R) :=
  let t := next_t t in
  let alpha_t := (alpha * (if correct then bias_correction beta1 beta2 t else 1))%R in
  let final_lr := (final * (alpha / init_alpha))%R in
  obind (elements3 (sizeof x) (fun g m v h x =>
    let m := (beta1 * m + (1 - beta1) * g)%R in
    let v := (beta2 * v + (1 - beta2) * g * g)%R in
    let h := Rmax h v in
    let lower_bound := (final_lr * (1 - 1 / (gamma * IZR t + 1)))%R in
    let upper_bound := (final_lr * (1 + 1 / gamma * IZR t))%R in
    let denom := (sqrt h + eps)%R in
    let eta := Rmin upper_bound (Rmax (alpha_t / denom) lower_bound) in
    (m, v, h, x - eta * m)%R) g (m, v, h, x)) (fun '(m, v, h, x) => Some (t, m, v, h, x)).
(** AdaBelief: rho_t, r_t and alpha_t (adabelief.cpp:73-85). *)
Definition rho_inf (beta2 : R) : R := (2 / (1 - beta2) - 1)%R.
Definition rho_at (beta2 : R) (t : Z) : R := (rho_inf beta2 - 2 * IZR t * pow_t beta2 t / (1 - pow_t beta2 t))%R.
Definition r_at (beta2 : R) (t : Z) : R :=
  let rho_t := rho_at beta2 t in
  sqrt ((rho_t - 4) * (rho_t - 2) * rho_inf beta2 / ((rho_inf beta2 - 4) * (rho_inf beta2 - 2) * rho_t)).
Definition sgd_step (rectify : bool) (beta2 : R) (t : Z) : bool := rectify && (if Rle_dec (rho_at beta2 t) 4 then true else false).
Definition belief_alpha (rectify : bool) (alpha beta1 beta2 : R) (t : Z) : R :=
  if sgd_step rectify beta2 t then alpha else (alpha * (if rectify then r_at beta2 t else 1) / (1 - pow_t beta1 t))%R.
(** adabelief.cpp:59-122.  s_max is not there without amsgrad; here it is then an array that is not
    looked at.  [fused] is weight_decay_is_fused(). *)
Definition adabelief_update (alpha beta1 beta2 eps rate : R) (amsgrad fused fixed_decay rectify : bool) (g : list R)
    '((t, m, s, h, x) : Z * list R * list R * list R * list R) : option (Z * list R * list R * list R * list R) :=
  let t := next_t t in
  let alpha_t := belief_alpha rectify alpha beta1 beta2 t in
  let decay_ratio := (if fixed_decay then rate else rate * alpha)%R in
  obind (elements3 (sizeof x) (fun g m s h x =>
    let m := (beta1 * m + (1 - beta1) * g)%R in
    let s := (beta2 * s + (1 - beta2) * pow (g - m) 2)%R in
    let x := if fused then (x - x * decay_ratio)%R else x in
    let '(s, h) := if amsgrad then (s, Rmax h s + eps)%R else ((s + eps)%R, h) in
    let x := if sgd_step rectify beta2 t then (x - alpha_t * m)%R
             else (x - alpha_t * m / (sqrt (if amsgrad then h else s) / sqrt (1 - pow_t beta2 t) + eps))%R in
    (m, s, h, x)) g (m, s, h, x)) (fun '(m, s, h, x) => Some (t, m, s, h, x)).

(** * Rates per layer *)
(** weight_decay_cpu (weight_decay.hpp:20-28). *)
Definition weight_decay_cpu (rate : R) (x g : list R) : option (list R) := transform (fun x g => g + rate * x)%R (sizeof x) x g.
(** lars.cpp:50-80; the gradient is changed too.  [rate] is weight_decay_rate_. *)
Definition lars_update (lr momentum coefficient eps rate : R) '((t, v, g, x) : Z * list R * list R * list R) : option (Z * list R * list R * list R) :=
  obind (norm2 (sizeof x) g) (fun g_norm => obind (norm2 (sizeof x) x) (fun d_norm =>
  let q := (g_norm + rate * d_norm)%R in
  if Rlt_dec q 0 then None else
  let q := if Rlt_dec q eps then (q + eps)%R else q in
  let lr := if Rlt_dec d_norm eps then lr else (lr * coefficient * d_norm / q)%R in
  obind (weight_decay_cpu rate x g) (fun g =>
  obind (transform (fun g v => momentum * v + lr * g)%R (sizeof x) g v) (fun v =>
  obind (transform (fun v x => x - v)%R (sizeof x) v x) (fun x => Some (next_t t, v, g, x)))))).
(** lamb.cpp:58-109; r is a new array, here of zeros. *)
Definition lamb_update (eta beta1 beta2 gamma_l gamma_u eps : R) (correct : bool) (rate : R) (g : list R)
    '((t, m, v, w) : Z * list R * list R * list R) : option (Z * list R * list R * list R) :=
  let t := next_t t in
  let correction_1 := (if correct then 1 - pow_t beta1 t else 1)%R in
  let correction_2 := (if correct then 1 - pow_t beta2 t else 1)%R in
  obind (elements3 (sizeof w) (fun g m v _ w =>
    let m := (beta1 * m + (1 - beta1) * g)%R in
    let v := (beta2 * v + (1 - beta2) * g * g)%R in
    let r := (m / correction_1 / (sqrt (v / correction_2) + eps))%R in
    let r := (r + rate * w)%R in
    (m, v, r, w)) g (m, v, repeat 0%R (length w), w)) (fun '(m, v, r, w) =>
  obind (norm2 (sizeof w) r) (fun g_norm => obind (norm2 (sizeof w) w) (fun v_norm =>
  let v_norm := if Rlt_dec v_norm gamma_l then gamma_l else v_norm in
  let v_norm := if Rlt_dec gamma_u v_norm then gamma_u else v_norm in
  let local_lr := (if Rlt_dec eps g_norm then v_norm / g_norm else 1)%R in
  obind (transform (fun r w => w - eta * local_lr * r)%R (sizeof w) r w) (fun w => Some (t, m, v, w))))).

(** * Functions on gradients *)
(** clip_grad_by_norm_cpu (clip_grad.hpp:25-41). *)
Definition clip_cpu (clip_norm : R) (g : list R) : option (list R) :=
  obind (loop (fun i s => obind (get g i) (fun u => Some (s + u * u)%R)) (upto (sizeof g)) 0%R) (fun sum =>
  if Rlt_dec 0 sum then
    if Rlt_dec (clip_norm * clip_norm) sum then
      let norm := sqrt sum in
      loop (fun i g => obind (get g i) (fun u => put g i (clip_norm * u / norm)%R)) (upto (sizeof g)) g
    else Some g
  else Some g).
(** Solver::clip_grad_by_norm for one parameter whose gradient is computed (solver.cpp:257-273). *)
Definition clip_grad_by_norm (norm : R) (g : list R) : option (list R) := if Req_EM_T norm 0 then Some g else clip_cpu norm g.
(** scale_grad_impl_cpu (mixed_precision_training.hpp:57-65). *)
Definition scale_grad_cpu (scale : R) (x g : list R) : option (list R) := transform (fun _ g => g * scale)%R (sizeof x) x g.
