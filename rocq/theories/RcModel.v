(** Model of RandomChoice (src/nbla/function/generic/random_choice.cpp).

    Elements are rational numbers.  A random number generator is the list of the numbers between 0
    and 1 that it will give: uniform_real_distribution<>(0, t) gives the next of them times t, and
    the conversion to type T (which may round up to t itself) is part of that number.  Only
    finitely many numbers are given, so there is a third outcome besides success and error: more
    numbers are needed.  The pointers x_data, w_data and so on, that move from one population to
    the next, are lists of populations here. *)
From Coq Require Import List ZArith Bool QArith Qcanon.
From Verif Require Import IdxModel JoinModel ScanModel ReduceModel ConvModel ItpModel.
Import ListNotations.
Local Open Scope list_scope.
Local Open Scope Qc_scope.

Inductive outcome (A : Type) := Done (a : A) | Refused | More.
Arguments Done {A} a.
Arguments Refused {A}.
Arguments More {A}.
Definition andthen {A B} (o : outcome A) (f : A -> outcome B) : outcome B :=
  match o with Done a => f a | Refused => Refused | More => More end.

(** std::partial_sum. *)
Fixpoint partial_sum (acc : Qc) (l : list Qc) : list Qc :=
  match l with [] => [] | a :: l => (acc + a) :: partial_sum (acc + a) l end.
(** The loop that looks for the first sum above [u] (random_choice.cpp:93-99, 120-129). *)
Fixpoint first_above (u : Qc) (sums : list Qc) : option nat :=
  match sums with [] => None | s :: sums => if less u s then Some O else option_map S (first_above u sums) end.
(** w_sum.back(), which is undefined behaviour for an empty population: 0 here. *)
Definition back (sums : list Qc) : Qc := last sums 0.

(** The loop over inner_loop_ of sampling with replacement (random_choice.cpp:91-102): the
    indices, and the generator afterwards. *)
Fixpoint with_replacement (w_size : nat) (w_sum : list Qc) (n : nat) (rgen : list Qc) : outcome (list nat * list Qc) :=
  match n, rgen with
  | O, _ => Done ([], rgen)
  | S n, c :: rgen =>
      let u := c * back w_sum in
      let index := match first_above u w_sum with Some i => i | None => (w_size - 1)%nat end in
      andthen (with_replacement w_size w_sum n rgen) (fun '(l, rgen) => Done (index :: l, rgen))
  | S _, [] => More
  end.

(** w_vec[i] = 0. *)
Fixpoint take_out (i : nat) (w_vec : list Qc) : list Qc :=
  match w_vec, i with [] , _ => [] | _ :: l, O => 0 :: l | a :: l, S i => a :: take_out i l end.
(** while (need--) (random_choice.cpp:118-131): the indices that were found, w_vec and the
    generator. *)
Fixpoint one_round (w_sum : list Qc) (need : nat) (w_vec rgen : list Qc) : outcome (list nat * list Qc * list Qc) :=
  match need, rgen with
  | O, _ => Done ([], w_vec, rgen)
  | S need, c :: rgen =>
      match first_above (c * back w_sum) w_sum with
      | Some i => if less 0 (nth i w_vec 0)
                  then andthen (one_round w_sum need (take_out i w_vec) rgen) (fun '(l, w, r) => Done (i :: l, w, r))
                  else one_round w_sum need w_vec rgen
      | None => one_round w_sum need w_vec rgen
      end
  | S _, [] => More
  end.
(** while (have < inner_loop_) (random_choice.cpp:114-133).  [need] is inner_loop_ - have; every
    round takes at least one number, so more rounds than numbers are not possible and [fuel] can
    be the number of them. *)
Fixpoint without_replacement (fuel need : nat) (w_vec rgen : list Qc) : outcome (list nat * list Qc) :=
  match need, fuel with
  | O, _ => Done ([], rgen)
  | S _, O => More
  | S _, S fuel =>
      andthen (one_round (partial_sum 0 w_vec) need w_vec rgen) (fun '(l, w, rgen) =>
      andthen (without_replacement fuel (need - length l) w rgen) (fun '(m, rgen) => Done (l ++ m, rgen)))
  end.

(** One population (random_choice.cpp:85-102 and 109-133). *)
Definition choose (replace : bool) (inner : nat) (w rgen : list Qc) : outcome (list nat * list Qc) :=
  if replace then
    if existsb (fun v => less v 0) w then Refused else
    let w_sum := partial_sum 0 w in
    if negb (less 0 (back w_sum)) then Refused else with_replacement (length w) w_sum inner rgen
  else
    if Nat.ltb (length (filter (fun v => less 0 v) w)) inner then Refused else
    without_replacement (S (length rgen)) inner w rgen.
(** random_choice (random_choice.cpp:67-138): the output, idxbuf_ and the generator. *)
Fixpoint random_choice (replace : bool) (inner : nat) (xs ws : list (list Qc)) (rgen : list Qc) : outcome (list Qc * list nat * list Qc) :=
  match xs, ws with
  | x :: xs, w :: ws =>
      andthen (choose replace inner w rgen) (fun '(l, rgen) =>
      andthen (random_choice replace inner xs ws rgen) (fun '(y, idx, rgen) =>
      Done (map (fun i => nth i x 0) l ++ y, l ++ idx, rgen)))
  | _, _ => Done ([], [], rgen)
  end.

(** The populations of an array: [k] times [n] elements. *)
Fixpoint populations (n k : nat) (a : list Qc) : list (list Qc) :=
  match k with O => [] | S k => firstn n a :: populations n k (skipn n a) end.

(** The arguments, and setup_impl (random_choice.cpp:28-59): the shape of the output, outer_loop_
    and inner_loop_.  Without any axis the code moves an iterator before the beginning: an error
    here. *)
Record arguments := Arguments_of { a_shape : list Z; a_replace : bool; a_seed : Z }.
Definition choice_setup (f : arguments) (xshape wshape : list Z) : option (list Z * Z * Z) :=
  if negb (if list_eq_dec Z.eq_dec xshape wshape then true else false) then None else
  match xshape with
  | [] => None
  | _ =>
      let lead := removelast xshape in
      let oshape := lead ++ match a_shape f with [] => [1%Z] | s => s end in
      let outer := prod (firstn (length xshape - 1) oshape) in
      let inner := prod (skipn (length xshape - 1) oshape) in
      if negb (a_replace f) && (last xshape 0 <? inner)%Z then None else Some (oshape, outer, inner)
  end.

(** The state of the function: rgen_, save_rng_, rgen_for_recompute_ and idxbuf_. *)
Record state := State { own : list Qc; save_rng : bool; saved : list Qc; idxbuf : list nat }.
(** The end of setup_impl (random_choice.cpp:58); [mt] are the numbers for a seed, and without a
    seed the generator made from random_device is never used. *)
Definition seeded (mt : Z -> list Qc) (f : arguments) (s : state) : state := State (mt (a_seed f)) (save_rng s) (saved s) (idxbuf s).
(** setup_recompute_impl (random_choice.cpp:61-65). *)
Definition setup_recompute (s : state) : state := State (own s) true (saved s) (idxbuf s).
(** forward_impl (random_choice.cpp:140-152); [global] is the generator of the RandomManager. *)
Definition choice_forward (f : arguments) (inner : nat) (s : state) (global : list Qc) (xs ws : list (list Qc)) : outcome (list Qc * state * list Qc) :=
  let rgen := if (a_seed f =? -1)%Z then global else own s in
  let kept := if save_rng s then rgen else saved s in
  andthen (random_choice (a_replace f) inner xs ws rgen) (fun '(y, idx, rgen) =>
  Done (y, State (if (a_seed f =? -1)%Z then own s else rgen) (save_rng s) kept idx, if (a_seed f =? -1)%Z then rgen else global)).
(** recompute_impl (random_choice.cpp:154-159): a copy of the generator is used. *)
Definition choice_recompute (f : arguments) (inner : nat) (s : state) (xs ws : list (list Qc)) : outcome (list Qc * state) :=
  andthen (random_choice (a_replace f) inner xs ws (saved s)) (fun '(y, idx, _) =>
  Done (y, State (own s) (save_rng s) (saved s) idx)).

(** The loops of backward_impl (random_choice.cpp:178-188 and 190-200), the same for both inputs. *)
Definition add_rows (w_size outer inner : Z) (idx : list nat) (gy a : list Qc) : option (list Qc) :=
  loop (fun b => loop (fun i a =>
    obind (get idx (b * inner + i)%Z) (fun k => obind (get gy (b * inner + i)%Z) (fun g =>
    add_at a (b * w_size + Z.of_nat k)%Z g))) (upto inner)) (upto outer) a.
(** backward_impl (random_choice.cpp:161-201). *)
Definition choice_backward (w_size outer inner : Z) (idx : list nat) (gy : list Qc) (gx gw : grad) : option (option (list Qc) * option (list Qc)) :=
  obind (on_grad (add_rows w_size outer inner idx gy) (start gx)) (fun dx =>
  obind (on_grad (add_rows w_size outer inner idx gy) (start gw)) (fun dw => Some (dx, dw))).
