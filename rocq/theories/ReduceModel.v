(** Model of Sum, Mean, Prod, Max and Min of src/nbla/function/generic/.

    The conventions of ScanModel hold: elements are rational numbers, index arithmetic is
    exact, None is any error. *)
From Coq Require Import List ZArith Bool QArith Qcanon.
From Verif Require Import IdxModel JoinModel ScanModel.
Import ListNotations.
Local Open Scope list_scope.
Local Open Scope Z_scope.

(** Loops over pairs of a destination and a source index. *)
Definition copyq (ps : list (Z * Z)) (src dst : list Qc) : option (list Qc) :=
  loop (fun p dst => obind (get src (snd p)) (fun v => put dst (fst p) v)) ps dst.
Definition addq (ps : list (Z * Z)) (src dst : list Qc) : option (list Qc) :=
  loop (fun p dst => obind (get src (snd p)) (fun v => obind (get dst (fst p)) (fun w => put dst (fst p) (w + v)%Qc))) ps dst.

(** * Setup (sum.cpp:35-76), shared by all *)

(** The numbers b with from <= b < until. *)
Definition between (from until : Z) : list Z := map (fun i => from + i) (upto (until - from)).
(** The loop over axes_ (sum.cpp:51-61) and the one after it (sum.cpp:62-65): the axes that
    are kept, the shape of the output and reduction_size_. *)
Fixpoint red_axes (prev : Z) (axes shape : list Z) (keep_dims : bool) : option (list Z * list Z * Z) :=
  match axes with
  | [] =>
      let bs := between (prev + 1) (Z.of_nat (length shape)) in
      obind (omap (vget shape) bs) (fun ns => Some (bs, ns, 1))
  | a :: axes =>
      let bs := between (prev + 1) a in
      obind (omap (vget shape) bs) (fun ns =>
      obind (vget shape a) (fun n =>
      obind (red_axes a axes shape keep_dims) (fun '(bs', ns', r) =>
      Some (bs ++ bs', ns ++ (if keep_dims then [1] else []) ++ ns', n * r))))
  end.
(** The members set by setup: axes_, f_transpose_ (its axes) and reduction_size_. *)
Record reduction := { r_axes : list Z; r_transpose : option (list Z); r_size : Z }.
(** A function that has not been set up. *)
Definition created (axes : list Z) : reduction := {| r_axes := axes; r_transpose := None; r_size := 0 |}.
(** setup_impl: the members and the shape of the output.  f_transpose_ is only ever set, and
    axes_ is refined in place. *)
Definition red_setup (f : reduction) (keep_dims : bool) (shape : list Z) : option (reduction * list Z) :=
  obind (refine_axes (length shape) (r_axes f)) (fun axes =>
  obind (red_axes (-1) axes shape keep_dims) (fun '(kept, out, r) =>
  let ta := kept ++ axes in
  Some ({| r_axes := axes;
           r_transpose := if list_eq_dec Z.eq_dec ta (upto (Z.of_nat (length shape))) then r_transpose f else Some ta;
           r_size := r |}, out))).

(** execute(f_transpose_, inputs, {&i_transpose}), into a new array. *)
Definition transposed (ta shape : list Z) (x : list Qc) : option (list Qc) :=
  obind (tr_setup ta shape) (fun t => obind (tr_pairs (t_yshape t) (t_xstt t)) (fun ps =>
  copyq ps x (repeat 0%Qc (Z.to_nat (size_from shape 0))))).
(** nbla::backward(f_transpose_, ...) from the gradient of i_transpose to that of the input. *)
Definition untransposed (ta shape : list Z) (accum : bool) (dxt dx : list Qc) : option (list Qc) :=
  obind (tr_setup ta shape) (fun t => obind (tr_pairs (t_xshape t) (t_ystt t)) (fun ps =>
  (if accum then addq else copyq) ps dxt dx)).
(** forward_impl (sum.cpp:78-93), given forward_impl_reduce. *)
Definition red_forward {S : Type} (reduce : Z -> Z -> list Qc -> S -> option S) (f : reduction) (shape : list Z) (x : list Qc) (y : S) : option S :=
  obind (divide (size_from shape 0) (r_size f)) (fun outer =>
  match r_transpose f with
  | Some ta => obind (transposed ta shape x) (fun xt => reduce outer (r_size f) xt y)
  | None => reduce outer (r_size f) x y
  end).
(** backward_impl (sum.cpp:95-118), given backward_impl_reduce; prop_down[0] is set. *)
Definition red_backward (reduce : Z -> Z -> bool -> list Qc -> option (list Qc)) (f : reduction) (shape : list Z) (accum : bool) (dx : list Qc) : option (list Qc) :=
  obind (divide (size_from shape 0) (r_size f)) (fun outer =>
  match r_transpose f with
  | Some ta =>
      obind (reduce outer (r_size f) false (repeat 0%Qc (Z.to_nat (size_from shape 0)))) (fun dxt =>
      untransposed ta shape accum dxt dx)
  | None => reduce outer (r_size f) accum dx
  end).

(** * Loops over the rows *)

(** The elements x[o * reduction_size + i] in order of i. *)
Definition row (x : list Qc) (o r : Z) : option (list Qc) := omap (fun i => get x (o * r + i)) (upto r).
(** y[o] = f(row o) for all o. *)
Definition rows_forward (f : list Qc -> Qc) (outer r : Z) (x y : list Qc) : option (list Qc) :=
  loop (fun o y => obind (row x o r) (fun l => put y o (f l))) (upto outer) y.
(** dx[o * reduction_size + i] = (accum ? dx[...] : 0) + g(o, i) for all o and i. *)
Definition rows_backward (g : Z -> Z -> option Qc) (outer r : Z) (accum : bool) (dx : list Qc) : option (list Qc) :=
  loop (fun o => loop (fun i dx =>
    obind (g o (o * r + i)) (fun v =>
    if accum then obind (get dx (o * r + i)) (fun old => put dx (o * r + i) (old + v)%Qc)
    else put dx (o * r + i) v)) (upto r)) (upto outer) dx.

(** * Sum (sum.cpp:120-140), Mean (mean.cpp:24-43), Prod (prod.cpp:22-80) *)

Definition sum_row (l : list Qc) : Qc := fold_left Qcplus l 0%Qc.
Definition sum_forward (f : reduction) (shape : list Z) (x y : list Qc) : option (list Qc) := red_forward (rows_forward sum_row) f shape x y.
Definition sum_backward (f : reduction) (shape : list Z) (accum : bool) (dy dx : list Qc) : option (list Qc) :=
  red_backward (rows_backward (fun o _ => get dy o)) f shape accum dx.

Definition of_Z (z : Z) : Qc := Q2Qc (inject_Z z).
Definition mean_forward (f : reduction) (shape : list Z) (x y : list Qc) : option (list Qc) :=
  red_forward (fun outer r => rows_forward (fun l => sum_row l / of_Z r)%Qc outer r) f shape x y.
Definition mean_backward (f : reduction) (shape : list Z) (accum : bool) (dy dx : list Qc) : option (list Qc) :=
  red_backward (fun outer r => rows_backward (fun o _ => obind (get dy o) (fun g => Some (g / of_Z r)%Qc)) outer r) f shape accum dx.

Definition prod_row (l : list Qc) : Qc := fold_left Qcmult l 1%Qc.
Definition prod_forward (f : reduction) (shape : list Z) (x y : list Qc) : option (list Qc) := red_forward (rows_forward prod_row) f shape x y.
(** backward_impl_reduce_prod (prod.cpp:64-80). *)
Definition prod_grad (x y dy : list Qc) (o j : Z) : option Qc :=
  obind (get x j) (fun v => obind (get dy o) (fun g => obind (get y o) (fun w =>
  Some (if Qc_eq_dec v 0%Qc then 0%Qc else (g * w / v)%Qc)))).
(** backward_impl (prod.cpp:34-62): transposes the input again. *)
Definition prod_backward (f : reduction) (shape : list Z) (accum : bool) (x y dy dx : list Qc) : option (list Qc) :=
  obind (match r_transpose f with Some ta => transposed ta shape x | None => Some x end) (fun xt =>
  red_backward (rows_backward (prod_grad xt y dy)) f shape accum dx).

(** * Max (max.cpp:43-72) and Min (min.cpp:21-42) *)

(** The loop over i: m, mi and i. *)
Definition best_step (better : Qc -> Qc -> bool) (s : Qc * Z * Z) (v : Qc) : Qc * Z * Z :=
  let '(m, mi, i) := s in if better v m then (v, i, i + 1) else (m, mi, i + 1).
Definition best_row (better : Qc -> Qc -> bool) (start : Qc) (l : list Qc) : Qc * Z * Z := fold_left (best_step better) l (start, 0, 0).
Definition more (a b : Qc) : bool := if Qclt_le_dec b a then true else false.
Definition less (a b : Qc) : bool := if Qclt_le_dec a b then true else false.
(** forward_impl_reduce: y and ind. *)
Definition best_forward (better : Qc -> Qc -> bool) (start : Qc) (f : reduction) (shape : list Z) (x y : list Qc) (ind : list Z) : option (list Qc * list Z) :=
  red_forward (fun outer r x s =>
    loop (fun o '(y, ind) => obind (row x o r) (fun l =>
      let '(m, mi, _) := best_row better start l in
      obind (put y o m) (fun y => obind (put ind o mi) (fun ind => Some (y, ind))))) (upto outer) s) f shape x (y, ind).
Definition max_forward := best_forward more (of_Z (-100000000)).
Definition min_forward := best_forward less (of_Z 100000000).
(** backward_impl_reduce (max.cpp:63-72), shared by both. *)
Definition best_backward (f : reduction) (shape : list Z) (accum : bool) (ind : list Z) (dy dx : list Qc) : option (list Qc) :=
  red_backward (fun outer r accum dx =>
    loop (fun o dx => obind (get ind o) (fun i => obind (get dy o) (fun g =>
      obind (get dx (o * r + i)) (fun old => put dx (o * r + i) (old + g)%Qc))))
      (upto outer) (if accum then dx else map (fun _ => 0%Qc) dx)) f shape accum dx.
