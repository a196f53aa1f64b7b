(** Model of CumSum and CumProd of src/nbla/function/generic/.

    Elements are rational numbers, so that divisions are exact: rounding is not modelled.
    Index arithmetic is exact.  Arrays are lists in memory order; an array got with the flag
    write_only holds its previous values.  None is any error: a failed NBLA_CHECK, a division
    by zero of sizes, or a read or write outside an array. *)
From Coq Require Import List ZArith Bool QArith Qcanon.
From Verif Require Import IdxModel JoinModel.
Import ListNotations.
Local Open Scope list_scope.
Local Open Scope Z_scope.

(** Reading and writing. *)
Definition get {A : Type} (a : list A) (i : Z) : option A := if i <? 0 then None else nth_error a (Z.to_nat i).
Fixpoint put_nat {A : Type} (a : list A) (i : nat) (v : A) : option (list A) :=
  match a, i with
  | [], _ => None
  | _ :: a, O => Some (v :: a)
  | x :: a, S i => obind (put_nat a i v) (fun r => Some (x :: r))
  end.
Definition put {A : Type} (a : list A) (i : Z) (v : A) : option (list A) :=
  if i <? 0 then None else put_nat a (Z.to_nat i) v.
(** A loop over [l] with state [s]. *)
Fixpoint loop {A S : Type} (f : A -> S -> option S) (l : list A) (s : S) : option S :=
  match l with [] => Some s | a :: l => obind (f a s) (loop f l) end.

(** setup_impl (cumsum.cpp:24-48, cumprod.cpp:27-49): size0_, size1_, size2_.  A negative
    axis that stays negative and one that is too large are both refused. *)
Definition scan_setup (axis : Z) (shape : list Z) : option (Z * Z * Z) :=
  let axis := if axis <? 0 then axis + Z.of_nat (length shape) else axis in
  if axis <? 0 then None else
  if Z.of_nat (length shape) <=? axis then None else
  let a := Z.to_nat axis in
  let size := size_from shape 0 in
  obind (divide size (size_from shape a)) (fun size0 =>
  let size1 := nth a shape 0 in
  obind (divide size size0) (fun q =>
  obind (divide q size1) (fun size2 => Some (size0, size1, size2)))).

(** * CumSum (cumsum.cpp) *)

(** The body of the loop over idx of forward_impl (cumsum.cpp:62-76). *)
Definition cumsum_step (exclusive reverse : bool) (size1 size2 j : Z) (x : list Qc) (idx : Z) (y : list Qc) : option (list Qc) :=
  let i1 := if reverse then size1 - idx - 1 else idx in
  let yk := i1 * size2 + j in
  if idx =? 0 then
    obind (if exclusive then Some 0%Qc else get x yk) (fun v => put y yk v)
  else
    let d := if reverse then -1 else 1 in
    let prev := yk - d * size2 in
    let xk := if exclusive then prev else yk in
    obind (get y prev) (fun a => obind (get x xk) (fun b => put y yk (a + b)%Qc)).
(** The loops over i0 and i2, doing [body] with j. *)
Definition lines {S : Type} (size0 size1 size2 : Z) (body : Z -> S -> option S) : S -> option S :=
  loop (fun i0 => loop (fun i2 => body (i0 * size1 * size2 + i2)) (upto size2)) (upto size0).
(** forward_impl (cumsum.cpp:50-79). *)
Definition cumsum_forward (axis : Z) (exclusive reverse : bool) (shape : list Z) (x y : list Qc) : option (list Qc) :=
  obind (scan_setup axis shape) (fun '(size0, size1, size2) =>
  lines size0 size1 size2 (fun j => loop (cumsum_step exclusive reverse size1 size2 j x) (upto size1)) y).
(** The body of the loop over idx of backward_impl (cumsum.cpp:100-111): cum_sum and g_x. *)
Definition cumsum_back (exclusive reverse accum : bool) (size1 size2 j : Z) (dy : list Qc) (idx : Z) (s : Qc * list Qc) : option (Qc * list Qc) :=
  let '(cum, dx) := s in
  let i1 := if reverse then idx else size1 - idx - 1 in
  let xk := i1 * size2 + j in
  obind (get dy xk) (fun g =>
  let cum := (cum + g)%Qc in
  let cur := if exclusive then (cum - g)%Qc else cum in
  obind (get dx xk) (fun old =>
  obind (put dx xk (if accum then (old + cur)%Qc else cur)) (fun dx => Some (cum, dx)))).
(** backward_impl (cumsum.cpp:81-115). *)
Definition cumsum_backward (axis : Z) (exclusive reverse : bool) (shape : list Z) (accum : bool) (dy dx : list Qc) : option (list Qc) :=
  obind (scan_setup axis shape) (fun '(size0, size1, size2) =>
  lines size0 size1 size2 (fun j dx =>
    obind (loop (cumsum_back exclusive reverse accum size1 size2 j dy) (upto size1) (0%Qc, dx)) (fun s => Some (snd s))) dx).

(** * CumProd (cumprod.cpp) *)

(** The body of the loop over idx of forward_impl (cumprod.cpp:63-77). *)
Definition cumprod_step (exclusive reverse : bool) (size1 size2 j : Z) (x : list Qc) (idx : Z) (y : list Qc) : option (list Qc) :=
  let i1 := if reverse then size1 - idx - 1 else idx in
  let yk := i1 * size2 + j in
  if idx =? 0 then
    obind (if exclusive then Some 1%Qc else get x yk) (fun v => put y yk v)
  else
    let d := if reverse then -1 else 1 in
    let prev := yk - d * size2 in
    let xk := if exclusive then prev else yk in
    obind (get y prev) (fun a => obind (get x xk) (fun b => put y yk (a * b)%Qc)).
(** forward_impl (cumprod.cpp:51-80). *)
Definition cumprod_forward (axis : Z) (exclusive reverse : bool) (shape : list Z) (x y : list Qc) : option (list Qc) :=
  obind (scan_setup axis shape) (fun '(size0, size1, size2) =>
  lines size0 size1 size2 (fun j => loop (cumprod_step exclusive reverse size1 size2 j x) (upto size1)) y).
(** The loop creating masked_cumprod (cumprod.cpp:168-181): first_zero_pos, prod, and the
    entries of masked_cumprod, written in order of k. *)
Definition mask_step (reverse : bool) (size1 size2 j : Z) (x : list Qc) (k : Z) (s : Z * Qc * list Qc) : option (Z * Qc * list Qc) :=
  let '(first_zero, prod, masked) := s in
  let i1 := if reverse then size1 - k - 1 else k in
  let idx := i1 * size2 + j in
  obind (get x idx) (fun v =>
  if (if Qc_eq_dec v 0%Qc then true else false) && (first_zero =? size1) then Some (k, prod, masked ++ [prod])
  else Some (first_zero, (prod * v)%Qc, masked ++ [(prod * v)%Qc])).
(** The body of the loop over k calculating the gradient (cumprod.cpp:184-207): sum and
    g_x. *)
Definition cumprod_back (exclusive reverse accum : bool) (size1 size2 j : Z) (x dy masked : list Qc) (first_zero k : Z) (s : Qc * list Qc) : option (Qc * list Qc) :=
  let '(sum, dx) := s in
  let i1 := if reverse then size1 - k - 1 else k in
  let idx := i1 * size2 + j in
  obind (get dy idx) (fun g =>
  obind (if exclusive then Some sum else obind (get masked k) (fun m => Some (sum + m * g)%Qc)) (fun sum =>
  obind (get x idx) (fun v =>
  let '(grad, sum) :=
    if k =? first_zero then (sum, 0%Qc)
    else if first_zero <? k then (0%Qc, sum)
    else ((sum / v)%Qc, sum) in
  obind (get dx idx) (fun old =>
  obind (put dx idx (grad + (if accum then old else 0))%Qc) (fun dx =>
  obind (if exclusive && negb (k =? 0) then obind (get masked (k - 1)) (fun m => Some (sum + m * g)%Qc) else Some sum) (fun sum =>
  Some (sum, dx))))))).
(** backward_impl (cumprod.cpp:145-210). *)
Definition cumprod_backward (axis : Z) (exclusive reverse : bool) (shape : list Z) (accum : bool) (x dy dx : list Qc) : option (list Qc) :=
  obind (scan_setup axis shape) (fun '(size0, size1, size2) =>
  lines size0 size1 size2 (fun j dx =>
    obind (loop (mask_step reverse size1 size2 j x) (upto size1) (size1, 1%Qc, [])) (fun '(first_zero, _, masked) =>
    obind (loop (cumprod_back exclusive reverse accum size1 size2 j x dy masked first_zero) (rev (upto size1)) (0%Qc, dx)) (fun s =>
    Some (snd s)))) dx).
