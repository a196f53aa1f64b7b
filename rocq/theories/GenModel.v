(** Model of functions that repeat, cut out or make up arrays: Tile
    (src/nbla/function/generic/tile.cpp), Trilu (trilu.cpp), EyeLike (eye_like.cpp), Meshgrid
    (meshgrid.cpp), Linspace (linspace.cpp), Arange (arange.cpp), Shape (shape.cpp) and BitShift
    (bit_shift.cpp).

    The conventions of ScanModel and BinModel hold: elements are rational numbers, None is any
    error, including a read or write outside an array, and [junk] is what new memory holds.
    Assertions are checked, as in NdModel.  Integers do not overflow, but for the running
    values of nd2flat and inner_size. *)
From Coq Require Import List ZArith Bool QArith Qcanon Qround SpecFloat.
From Verif Require Import NdModel IdxModel JoinModel ScanModel ReduceModel ConvModel MatModel BinModel BfaModel.
Import ListNotations.
Local Open Scope list_scope.
Local Open Scope Z_scope.

(** for (i = 1; i < n; i++). *)
Definition from_1 (n : Z) : list Z := map (Z.add 1) (upto (n - 1)).

(** * Tile *)

(** ndi::expand (nd_index.hpp:207-215). *)
Definition expand (a : list Z) (n : nat) (v : Z) : list Z := repeat v (n - length a) ++ a.
Fixpoint products (a b : list Z) : list Z := match a, b with x :: a, y :: b => x * y :: products a b | _, _ => [] end.
(** ndi::multiply (nd_index.hpp:188-205). *)
Definition multiply (a b : list Z) : list Z :=
  let n := Nat.max (length a) (length b) in products (expand a n 1) (expand b n 1).
(** do body while (ndi::increment(index, shape, axis)): the index and the state after it.  None
    also if [fuel] rounds are not enough. *)
Fixpoint do_while {A : Type} (fuel : nat) (shape : list Z) (axis : Z) (body : list Z -> A -> option A) (index : list Z) (a : A) : option (list Z * A) :=
  match fuel with
  | O => None
  | S fuel =>
      obind (body index a) (fun a =>
      obind (increment_axis index shape axis) (fun '(index, more) =>
      if more : bool then do_while fuel shape axis body index a else Some (index, a)))
  end.
(** std::memcpy of n ints inside one array. *)
Definition copy_within (dst src n : Z) (a : list Z) : option (list Z) :=
  loop (fun i a => obind (get a (src + i)) (fun v => put a (dst + i) v)) (upto n) a.
(** The loop for the last axis (tile.cpp:58-67), with the state (iota, idxmap). *)
Definition tile_row (strides : list Z) (last reps : Z) (index : list Z) (st : Z * list Z) : option (Z * list Z) :=
  let '(iota, idx) := st in
  obind (nd2flat index strides) (fun at_ =>
  obind (loop (fun i idx => put idx (at_ + i) (iota + i)) (upto last) idx) (fun idx =>
  obind (loop (fun r idx => copy_within (at_ + r * last) at_ last idx) (from_1 reps) idx) (fun idx =>
  Some (iota + last, idx)))).
(** The loop for another axis (tile.cpp:73-79). *)
Definition tile_block (strides map_shape : list Z) (axis : Z) (reps : Z) (index : list Z) (idx : list Z) : option (list Z) :=
  obind (nd2flat index strides) (fun at_ =>
  obind (inner_size map_shape axis) (fun inner =>
  obind (divide inner reps) (fun cnt =>
  loop (fun rep idx => copy_within (at_ + rep * cnt) at_ cnt idx) (from_1 reps) idx))).
(** setup_impl (tile.cpp:28-81): the shape of the output, and idxmap_. *)
Definition tile_setup (junk : Z) (reps shape : list Z) : option (list Z * list Z) :=
  if existsb (fun r => r <? 1) reps then None else
  let oshape := multiply shape reps in
  let reps := expand reps (S (length oshape)) 1 in
  let map_shape := expand oshape (length reps) 1 in
  let src_shape := expand shape (length reps) 1 in
  let src_index := repeat 0 (length src_shape) in
  let idx := repeat junk (Z.to_nat (prod map_shape)) in
  let fuel := S (Z.to_nat (prod (map (Z.max 1) src_shape))) in
  obind (strides map_shape) (fun st =>
  obind (do_while fuel src_shape (-2) (tile_row st (last src_shape 0) (last reps 0)) src_index (0, idx)) (fun '(src_index, (_, idx)) =>
  obind (loop (fun axis '(src_index, idx) =>
      do_while fuel src_shape (axis - 1) (tile_block st map_shape axis (nth (Z.to_nat axis) reps 0)) src_index idx)
    (rev (from_1 (Z.of_nat (length reps) - 1))) (src_index, idx)) (fun '(_, idx) => Some (oshape, idx)))).
(** forward_impl (tile.cpp:84-93). *)
Definition tile_forward (idx : list Z) (x y : list Qc) : option (list Qc) :=
  loop (fun i y => obind (get idx i) (fun j => obind (get x j) (fun v => put y i v))) (upto (Z.of_nat (length idx))) y.
Definition tile (junk : Z) (new : Qc) (reps : list Z) (x : nd) : option nd :=
  obind (tile_setup junk reps (fst x)) (fun '(oshape, idx) => obind (tile_forward idx (snd x) (fresh new oshape)) (fun y => Some (oshape, y))).
(** backward_impl (tile.cpp:96-115). *)
Definition tile_backward (junk : Z) (reps shape : list Z) (accum : bool) (dy dx : list Qc) : option (list Qc) :=
  obind (tile_setup junk reps shape) (fun '(_, idx) =>
  loop (fun i dx => obind (get idx i) (fun j => obind (get dy i) (fun e => obind (get dx j) (fun old => put dx j (old + e)%Qc)))) (upto (Z.of_nat (length idx)))
    (if accum then dx else map (fun _ => 0%Qc) dx)).

(** * Trilu *)

(** The loops of set_trilu_mask and backward_impl over batch, rows and columns (trilu.cpp:25-34 and
    63-70).  None also if x has less than two axes: shape[shape.size() - 2] is then read outside the
    shape. *)
Definition matrices (body : Z -> Z -> Z -> list Qc -> option (list Qc)) (shape : list Z) (a : list Qc) : option (list Qc) :=
  match rev shape with
  | cols :: rows :: _ =>
      obind (divide (prod shape) (cols * rows)) (fun batch =>
      loop (fun b a => loop (fun i a => loop (fun j a => body (b * rows * cols + i * cols + j) i j a) (upto cols) a) (upto rows) a) (upto batch) a)
  | _ => None
  end.
(** set_trilu_mask (trilu.cpp:19-35). *)
Definition trilu_mask (junk : Qc) (k : Z) (upper : bool) (shape : list Z) : option (list Qc) :=
  matrices (fun index i j m =>
    let retain := (upper && (i - j <=? - k)) || (negb upper && (- k <=? i - j)) in
    put m index (if retain then 1%Qc else 0%Qc)) shape (fresh junk shape).
(** setup_impl (trilu.cpp:10-17) and forward_impl (trilu.cpp:38-46). *)
Definition trilu (junk : Qc) (k : Z) (upper : bool) (x : nd) : option nd :=
  obind (trilu_mask junk k upper (fst x)) (fun m =>
  obind (loop (fun i y => obind (get (snd x) i) (fun v => obind (get m i) (fun w => put y i (v * w)%Qc))) (upto (Z.of_nat (length m))) (fresh junk (fst x))) (fun y =>
  Some (fst x, y))).
(** backward_impl (trilu.cpp:49-71). *)
Definition trilu_backward (junk : Qc) (k : Z) (upper : bool) (shape : list Z) (accum : bool) (dy dx : list Qc) : option (list Qc) :=
  obind (trilu_mask junk k upper shape) (fun m =>
  matrices (fun index _ _ dx => obind (get dx index) (fun old => obind (get dy index) (fun e => obind (get m index) (fun w =>
    put dx index ((if accum then old else 0) + e * w)%Qc)))) shape dx).

(** * EyeLike (eye_like.cpp:25-51) *)
Definition eye_like (k : Z) (shape : list Z) : option nd :=
  match shape with
  | [rows; cols] =>
      let '(start_row, end_row) := if 0 <=? k then (0, Z.min rows (cols - k)) else (Z.abs k, Z.abs k + Z.min (rows - Z.abs k) cols) in
      obind (loop (fun i y => put y (i * cols + i + k) 1%Qc) (map (Z.add start_row) (upto (end_row - start_row))) (fresh 0%Qc shape)) (fun y => Some (shape, y))
  | _ => None
  end.

(** * Meshgrid *)

(** The axis of input i of n (meshgrid.cpp:46-52). *)
Definition mesh_axis (ij : bool) (n i : nat) : nat :=
  if negb ij && (Nat.eqb i 0 || Nat.eqb i 1) && Nat.ltb 1 n then 1 - i else i.
Fixpoint set_nth (l : list Z) (i : nat) (v : Z) : list Z :=
  match l, i with [], _ => [] | _ :: l, O => v :: l | x :: l, S i => x :: set_nth l i v end.
(** shape_inp of input i with m elements. *)
Definition mesh_in (ij : bool) (n i : nat) (m : Z) : list Z := set_nth (repeat 1 n) (mesh_axis ij n i) m.
(** setup_impl (meshgrid.cpp:27-64): shape_out after input i and following ones. *)
Fixpoint mesh_out (ij : bool) (n i : nat) (shapes : list (list Z)) (out : list Z) : option (list Z) :=
  match shapes with
  | [] => Some out
  | [m] :: shapes => mesh_out ij n (S i) shapes (set_nth out (mesh_axis ij n i) m)
  | _ :: _ => None
  end.
Definition mesh_shape (ij : bool) (shapes : list (list Z)) : option (list Z) :=
  mesh_out ij (length shapes) 0 shapes (repeat 1 (length shapes)).
(** forward_impl (meshgrid.cpp:67-87): the inputs from input i on.  Their shapes are changed and
    changed back, which is left out. *)
Fixpoint mesh_each (junk : Qc) (ij : bool) (n i : nat) (out : list Z) (xs : list nd) : option (list nd) :=
  match xs with
  | [] => Some []
  | x :: xs =>
      obind (py_broadcast junk out (mesh_in ij n i (prod (fst x)), snd x)) (fun y =>
      obind (mesh_each junk ij n (S i) out xs) (fun ys => Some (y :: ys)))
  end.
Definition meshgrid (junk : Qc) (ij : bool) (xs : list nd) : option (list nd) :=
  obind (mesh_shape ij (map fst xs)) (fun out => mesh_each junk ij (length xs) 0 out xs).
(** Broadcast<T>::backward_impl (broadcast.cpp:133-202). *)
Definition broadcast_backward (shape target : list Z) (accum : bool) (dy dx : list Qc) : option (list Qc) :=
  obind (bc_pairs shape target) (fun ps => addq (map (fun '(i, j) => (j, i)) ps) dy (if accum then dx else map (fun _ => 0%Qc) dx)).
(** backward_impl (meshgrid.cpp:90-121): an input carries propagate_down, accum and its gradient.
    With one input, propagate_down[1] is outside its vector; it is read if propagate_down[0] is
    false. *)
Fixpoint mesh_back (ij : bool) (n i : nat) (out : list Z) (dys : list (list Qc)) (dxs : list (bool * bool * list Qc)) : option (list (list Qc)) :=
  match dxs with
  | [] => Some []
  | (want, accum, dx) :: dxs =>
      obind (nth_error dys i) (fun dy =>
      obind (if want : bool then broadcast_backward (mesh_in ij n i (Z.of_nat (length dx))) out accum dy dx else Some dx) (fun d =>
      obind (mesh_back ij n (S i) out dys dxs) (fun ds => Some (d :: ds))))
  end.
Definition meshgrid_backward (ij : bool) (dys : list (list Qc)) (dxs : list (bool * bool * list Qc)) : option (list (list Qc)) :=
  obind (mesh_shape ij (map (fun d => [Z.of_nat (length (snd d))]) dxs)) (fun out =>
  obind (nth_error dxs 0) (fun d0 =>
  obind (if fst (fst d0) then Some true else obind (nth_error dxs 1) (fun d1 => Some (fst (fst d1)))) (fun some =>
  if some then mesh_back ij (length dxs) 0 out dys dxs else Some (map snd dxs)))).

(** * Linspace (linspace.cpp:26-43) *)
Definition linspace (junk start stop : Qc) (num : Z) : option nd :=
  if num <? 0 then None else
  let step := if 1 <? num then ((stop - start) / of_Z (num - 1))%Qc else 0%Qc in
  obind (loop (fun i y => put y i (start + step * of_Z i)%Qc) (upto num) (fresh junk [num])) (fun y => Some ([num], y)).

(** * Arange (arange.cpp:27-56) *)

(** Here numbers are rational numbers or floats. *)
Section arange.
Variable T : Type.
Variable plus : T -> T -> T.
Variable lt : T -> T -> bool.
Variable zero : T.
(** The loops of setup_impl.  None: more than [fuel] rounds. *)
Fixpoint arange_count (fuel : nat) (before : T -> bool) (step value : T) (count : Z) : option Z :=
  if before value then
    match fuel with O => None | S fuel => arange_count fuel before step (plus value step) (count + 1) end
  else Some count.
Definition arange (fuel : nat) (junk start stop step : T) : option (list T) :=
  if negb (lt step zero) && negb (lt zero step) then None else
  obind (arange_count fuel (fun value => if lt step zero then lt stop value else lt value stop) step start 0) (fun count =>
  obind (loop (fun i '(y, value) => obind (put y i value) (fun y => Some (y, plus value step))) (upto count) (repeat junk (Z.to_nat count), start)) (fun '(y, _) => Some y)).
End arange.
Definition arange_q := arange Qc Qcplus less 0%Qc.
(** binary32: 24 bits, greatest exponent 128. *)
Definition arange_f := arange spec_float (SFadd 24 128) SFltb (S754_zero false).

(** * Shape (shape.cpp:27-66) *)

(** [s] and [e] of both setup_impl and forward_impl. *)
Definition shape_bounds (start stop n : Z) : Z * Z :=
  ((if start <? 0 then start + n else if n <? start then n else start),
   (if stop <? 0 then n + stop else if 0 <? stop then (if n <? stop then n else stop) else n)).
(** The shape of the output and its data; [old] is the shape of the output before. *)
Definition shape_op (junk : Z) (start stop : Z) (old shape : list Z) : option (list Z * list Z) :=
  let n := Z.of_nat (length shape) in
  if n <=? 0 then None else
  let '(s, e) := shape_bounds start stop n in
  let out := if s <? e then [e - s] else old in
  obind (if s <? e then loop (fun j y => obind (get shape (s + j)) (fun v => put y j v)) (upto (e - s)) (repeat junk (Z.to_nat (prod out)))
         else Some (repeat junk (Z.to_nat (prod out)))) (fun y => Some (out, y)).

(** * BitShift *)

Definition to_Z (v : Qc) : Z := Qfloor v.
(** A cast to an unsigned type of [bits] bits. *)
Definition unsigned (bits : Z) (v : Z) : Z := v mod 2 ^ bits.
(** ShiftLeftBinaryOp and ShiftRightBinaryOp (bit_shift.cpp:24-44); the result is cast. *)
Definition shift_left (bits x0 x1 : Z) : Z := if (0 <=? x1) && (x1 <? bits) then unsigned bits (Z.shiftl x0 x1) else 0.
Definition shift_right (bits x0 x1 : Z) : Z := if (0 <=? x1) && (x1 <? bits) then unsigned bits (Z.shiftr x0 x1) else 0.
(** setup_impl and forward_impl (bit_shift.cpp:68-127).  [dtype]: the type of x, an index into
    unsigned char, short, int, long, long long; other numbers are other types.  [direction]: LEFT
    is 0, RIGHT is 1.  x1 is cast to the type of x. *)
Definition bit_shift (junk : Qc) (dtype direction : Z) (x0 x1 : nd) : option nd :=
  obind (bin_setup (fst x0) (fst x1)) (fun _ =>
  if negb ((direction =? 0) || (direction =? 1)) then None else
  obind (get [8; 16; 32; 64; 64] dtype) (fun bits =>
  call2 junk (fun a b => of_Z ((if direction =? 0 then shift_left else shift_right) bits (to_Z a) (unsigned bits (to_Z b)))) x0 x1)).
