(** Model of BatchNormalization (src/nbla/function/generic/batch_normalization.cpp).

    The conventions of SmModel hold: elements are real numbers, index arithmetic is exact, arrays
    are lists in memory order and hold their previous values when they are got with the flag
    write_only, None is any error.  A running variance may be no number ([None] in the array),
    because it is divided by the number of elements less one.  Different inputs and outputs are
    different arrays. *)
From Coq Require Import List ZArith Bool Reals.
From Verif Require Import NdModel IdxModel JoinModel ScanModel BinModel ActModel SmModel.
Import ListNotations.
Local Open Scope list_scope.
Local Open Scope Z_scope.

(** * Setup (batch_normalization.cpp:30-133) *)

(** Which input has which role: x, beta, gamma, mean, variance (batch_normalization.cpp:39-61).
    [None] also for a wrong number of inputs. *)
Definition bn_roles {A : Type} (no_scale no_bias : bool) (inputs : list A) : option (A * option A * option A * A * A) :=
  let n := Z.of_nat (length inputs) in
  let expect := 3 + (if no_scale then 0 else 1) + (if no_bias then 0 else 1) in
  if negb (n =? expect) then None else
  let b_idx := 1 in
  let g_idx := if no_bias then 1 else 2 in
  let m_idx := n - 2 in
  let v_idx := n - 1 in
  obind (get inputs 0) (fun x =>
  obind (if no_bias then Some None else obind (get inputs b_idx) (fun b => Some (Some b))) (fun beta =>
  obind (if no_scale then Some None else obind (get inputs g_idx) (fun g => Some (Some g))) (fun gamma =>
  obind (get inputs m_idx) (fun m => obind (get inputs v_idx) (fun v => Some (x, beta, gamma, m, v)))))).
(** shape_check (batch_normalization.cpp:76-77). *)
Definition bn_shape (axis : nat) (shape : list Z) : list Z := repeat 1 axis ++ nth axis shape 0 :: repeat 1 (length shape - S axis).
Definition same_shape (a b : list Z) : bool := if list_eq_dec Z.eq_dec a b then true else false.
Definition shape_fits (check : list Z) (s : option (list Z)) : bool := match s with Some s => same_shape check s | None => true end.
(** size0_, size1_ and size2_ (batch_normalization.cpp:64-73) are computed as in [scan_setup]. *)
Definition bn_setup (axes : list Z) (batch_stat no_scale no_bias : bool) (shapes : list (list Z)) (noutputs : Z) : option (Z * Z * Z) :=
  match axes with
  | [axis] =>
      obind (bn_roles no_scale no_bias shapes) (fun '(x, beta, gamma, m, v) =>
      if negb batch_stat && negb (noutputs =? 1) then None else
      if negb ((noutputs =? 1) || (noutputs =? 3)) then None else
      obind (scan_setup axis x) (fun '(size0, size1, size2) =>
      if negb (size0 * size1 * size2 =? size_from x 0) then None else
      let check := bn_shape (refined axis x) x in
      if shape_fits check beta && shape_fits check gamma && same_shape check m && same_shape check v
      then Some (size0, size1, size2) else None))
  | _ => None
  end.

(** i of i1 and i02 (batch_normalization.cpp:196-198 and the other loops). *)
Definition bn_at (size1 size2 i1 i02 : Z) : option Z :=
  obind (divide i02 size2) (fun i0 => obind (remainder i02 size2) (fun i2 => Some (i0 * (size1 * size2) + i1 * size2 + i2))).
(** The loop over i02 with a body that is given i. *)
Definition channel {S : Type} (size0 size1 size2 i1 : Z) (body : Z -> S -> option S) : S -> option S :=
  loop (fun i02 s => obind (bn_at size1 size2 i1 i02) (fun i => body i s)) (upto (size0 * size2)).
(** beta and gamma where they are given (batch_normalization.cpp:220-221). *)
Definition param (p : option (list R)) (default : R) (i1 : Z) : option R := match p with Some a => get a i1 | None => Some default end.

(** * Training mode *)

(** The sums of the values and of their squares (batch_normalization.cpp:193-202). *)
Definition bn_sums (size0 size1 size2 i1 : Z) (x m v : list R) : option (list R * list R) :=
  obind (put m i1 0%R) (fun m => obind (put v i1 0%R) (fun v =>
  channel size0 size1 size2 i1 (fun i '(m, v) =>
    obind (get x i) (fun value =>
    obind (get m i1) (fun a => obind (put m i1 (a + value)%R) (fun m =>
    obind (get v i1) (fun b => obind (put v i1 (b + value * value)%R) (fun v => Some (m, v))))))) (m, v))).
(** batch_normalization.cpp:203-204. *)
Definition bn_stats (size02 i1 : Z) (m v : list R) : option (list R * list R) :=
  obind (get m i1) (fun a => obind (put m i1 (a / IZR size02)%R) (fun m =>
  obind (get v i1) (fun b => obind (get m i1) (fun a => obind (put v i1 (b / IZR size02 - a * a)%R) (fun v => Some (m, v)))))).
(** The new running variance (batch_normalization.cpp:209-210). *)
Definition running_var (decay : R) (size02 : Z) (v : R) (old : option R) : option R :=
  match old with
  | Some r => if size02 - 1 =? 0 then None else Some (decay * r + (1 - decay) * v * IZR size02 / IZR (size02 - 1))%R
  | None => None
  end.
(** batch_normalization.cpp:206-211. *)
Definition bn_running (decay : R) (size02 i1 : Z) (m v rm : list R) (rv : list (option R)) : option (list R * list (option R)) :=
  obind (get rm i1) (fun r => obind (get m i1) (fun a => obind (put rm i1 (decay * r + (1 - decay) * a)%R) (fun rm =>
  obind (get rv i1) (fun r => obind (get v i1) (fun b => obind (put rv i1 (running_var decay size02 b r)) (fun rv => Some (rm, rv))))))).
(** batch_normalization.cpp:213-223, with the mean and the variance that are used: also
    batch_normalization.cpp:250-260. *)
Definition bn_normalize (size0 size1 size2 i1 : Z) (eps : R) (x : list R) (beta gamma : option (list R)) (m v : list R) (y : list R) : option (list R) :=
  channel size0 size1 size2 i1 (fun i y =>
    obind (get m i1) (fun mean => obind (get v i1) (fun var =>
    obind (param gamma 1 i1) (fun scale => obind (param beta 0 i1) (fun bias =>
    obind (get x i) (fun value => put y i ((value - mean) * scale / sqrt (var + eps) + bias)%R)))))) y.
(** forward_impl_batch (batch_normalization.cpp:158-225): y, the mean and the variance of the
    batch, the running mean and the running variance.  The mean and the variance of the batch are
    outputs or members of the function. *)
Definition bn_state := (list R * list R * list R * list R * list (option R))%type.
Definition bn_forward_batch (size0 size1 size2 : Z) (eps decay : R) (update : bool) (x : list R) (beta gamma : option (list R)) : bn_state -> option bn_state :=
  loop (fun i1 '(y, m, v, rm, rv) =>
    obind (bn_sums size0 size1 size2 i1 x m v) (fun '(m, v) =>
    obind (bn_stats (size0 * size2) i1 m v) (fun '(m, v) =>
    obind (if update then bn_running decay (size0 * size2) i1 m v rm rv else Some (rm, rv)) (fun '(rm, rv) =>
    obind (bn_normalize size0 size1 size2 i1 eps x beta gamma m v y) (fun y => Some (y, m, v, rm, rv)))))) (upto size1).

(** The gradient with respect to x (batch_normalization.cpp:303-350).  [given] are the gradients
    of the outputs batch mean and batch variance, if there are three outputs. *)
Definition bn_grad_sums (size0 size1 size2 i1 : Z) (x : list R) (gamma : option (list R)) (m dy : list R) : option (R * R * R) :=
  channel size0 size1 size2 i1 (fun i '(dvar, dmean, tmp) =>
    obind (param gamma 1 i1) (fun scale => obind (get dy i) (fun e => obind (get x i) (fun value => obind (get m i1) (fun mean =>
    let dxh := (e * scale)%R in let cx := (value - mean)%R in
    Some ((dvar + dxh * cx)%R, (dmean + dxh)%R, (tmp + cx)%R)))))) (0%R, 0%R, 0%R).
Definition bn_given (given : option (list R * list R)) (second : bool) (i1 : Z) : option R :=
  match given with Some (dm, dv) => get (if second then dv else dm) i1 | None => Some 0%R end.
Definition bn_grad_x (size0 size1 size2 : Z) (eps : R) (accum : bool) (x : list R) (gamma : option (list R)) (m v dy : list R)
    (given : option (list R * list R)) : list R -> option (list R) :=
  loop (fun i1 dx =>
    obind (bn_grad_sums size0 size1 size2 i1 x gamma m dy) (fun '(dvar, dmean, tmp) =>
    obind (get v i1) (fun var => obind (bn_given given true i1) (fun dv => obind (bn_given given false i1) (fun dm =>
    let size02 := IZR (size0 * size2) in
    let dvar := (dvar * (- (1 / 2)) * cpow (var + eps) (- (3 / 2)) + dv)%R in
    let dmean := (dmean * (-1 / sqrt (var + eps)) + dvar * (-2) * tmp / size02 + dm)%R in
    channel size0 size1 size2 i1 (fun i dx =>
      obind (param gamma 1 i1) (fun scale => obind (get dy i) (fun e => obind (get x i) (fun value => obind (get m i1) (fun mean =>
      let grad := (e * scale / sqrt (var + eps) + dvar * 2 * (value - mean) / size02 + dmean / size02)%R in
      obind (get dx i) (fun old => put dx i (if accum then old + grad else grad)%R)))))) dx))))) (upto size1).
(** The gradients with respect to beta and gamma (batch_normalization.cpp:353-378); each is
    [Some (accum, gradient)] if it is to be propagated to.  The check at the beginning of
    backward_impl_batch returns only if there is nothing to propagate to. *)
Definition bn_grad_params (size0 size1 size2 : Z) (eps : R) (x m v dy : list R) : option (bool * list R) * option (bool * list R) -> option (option (bool * list R) * option (bool * list R)) :=
  loop (fun i1 '(db, dg) =>
    let start (d : option (bool * list R)) := match d with Some (true, a) => get a i1 | _ => Some 0%R end in
    let finish (d : option (bool * list R)) (value : R) := match d with Some (accum, a) => obind (put a i1 value) (fun a => Some (Some (accum, a))) | None => Some None end in
    obind (start db) (fun dbv => obind (start dg) (fun dgv =>
    obind (channel size0 size1 size2 i1 (fun i '(dbv, dgv) =>
      obind (match db with Some _ => obind (get dy i) (fun e => Some (dbv + e)%R) | None => Some dbv end) (fun dbv =>
      obind (match dg with
             | Some _ => obind (get dy i) (fun e => obind (get x i) (fun value => obind (get m i1) (fun mean => obind (get v i1) (fun var =>
                 Some (dgv + e * (value - mean) / sqrt (var + eps))%R))))
             | None => Some dgv
             end) (fun dgv => Some (dbv, dgv)))) (dbv, dgv)) (fun '(dbv, dgv) =>
    obind (finish db dbv) (fun db => obind (finish dg dgv) (fun dg => Some (db, dg))))))) (upto size1).

(** * Testing mode *)

(** forward_impl_global (batch_normalization.cpp:227-262). *)
Definition bn_forward_global (size0 size1 size2 : Z) (eps : R) (x : list R) (beta gamma : option (list R)) (rm rv : list R) : list R -> option (list R) :=
  loop (fun i1 => bn_normalize size0 size1 size2 i1 eps x beta gamma rm rv) (upto size1).

(** The functions that backward_impl_global calls, on arrays of the shape of x, or of the shape of
    mean that are broadcast (Identity, AddScalar, PowScalar, Mul2, Sub2, Add2, Sum; BinModel and
    ReduceModel have the loops): [spread2] broadcasts its second operand. *)
Definition each1 (op : R -> R) (n : Z) (a : list R) : option (list R) := omap (fun i => obind (get a i) (fun u => Some (op u))) (upto n).
Definition each2 (op : R -> R -> R) (n : Z) (a b : list R) : option (list R) :=
  omap (fun i => obind (get a i) (fun u => obind (get b i) (fun w => Some (op u w)))) (upto n).
Definition spread2 (op : R -> R -> R) (size0 size1 size2 : Z) (a b : list R) : option (list R) :=
  omap (fun i => obind (get a i) (fun u => obind (divide i size2) (fun q => obind (remainder q size1) (fun i1 =>
    obind (get b i1) (fun w => Some (op u w)))))) (upto (size0 * size1 * size2)).
Definition sum_all (size0 size1 size2 : Z) (a : list R) : option (list R) :=
  omap (fun i1 => channel size0 size1 size2 i1 (fun i s => obind (get a i) (fun u => Some (s + u)%R)) 0%R) (upto size1).
(** rstd_inv (batch_normalization.cpp:406-411). *)
Definition rstd_inv (eps : R) (size1 : Z) (rv : list R) : option (list R) :=
  obind (each1 (fun u => u) size1 rv) (fun r => obind (each1 (fun u => u + eps)%R size1 r) (fun r => each1 (fun u => cpow u (- (1 / 2))) size1 r)).
(** The new gradient is added to the old one or replaces it. *)
Definition added (accum : bool) (n : Z) (old new : list R) : option (list R) := if accum then each2 Rplus n old new else each1 (fun u => u) n new.
(** batch_normalization.cpp:416-440. *)
Definition bn_global_x (size0 size1 size2 : Z) (eps : R) (accum : bool) (gamma : option (list R)) (rv dy dx : list R) : option (list R) :=
  obind (rstd_inv eps size1 rv) (fun r =>
  obind (match gamma with Some g => each2 Rmult size1 g r | None => Some r end) (fun iv =>
  obind (spread2 Rmult size0 size1 size2 dy iv) (fun g => added accum (size0 * size1 * size2) dx g))).
(** batch_normalization.cpp:449-461. *)
Definition bn_global_beta (size0 size1 size2 : Z) (accum : bool) (dy db : list R) : option (list R) :=
  obind (sum_all size0 size1 size2 dy) (fun g => added accum size1 db g).
(** batch_normalization.cpp:464-487. *)
Definition bn_global_gamma (size0 size1 size2 : Z) (eps : R) (accum : bool) (x rm rv dy dg : list R) : option (list R) :=
  obind (rstd_inv eps size1 rv) (fun r =>
  obind (spread2 Rminus size0 size1 size2 x rm) (fun iv => obind (spread2 Rmult size0 size1 size2 iv r) (fun iv =>
  obind (each2 Rmult (size0 * size1 * size2) dy iv) (fun iv =>
  obind (sum_all size0 size1 size2 iv) (fun g => added accum size1 dg g))))).
