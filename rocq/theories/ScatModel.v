(** Model of ScatterAdd and ScatterNd of src/nbla/function/generic/.

    The conventions of IdxModel and MatModel hold: arrays are lists of rational numbers, those of
    indices are lists of integers, an access outside is [None] as is a failed check, and index
    arithmetic is exact.  A gradient is a pair of the accum flag and the previous value if it is
    to be propagated to.  (The code of ScatterAdd reads the indices as numbers of the type of the
    data; they are taken to be integers here.) *)
From Coq Require Import List ZArith Bool QArith Qcanon.
From Verif Require Import NdModel IdxModel JoinModel ScanModel ReduceModel ConvModel MatModel.
Import ListNotations.
Local Open Scope list_scope.
Local Open Scope Z_scope.

(** * ScatterAdd (scatter_add.cpp) *)

(** scatter_add.cpp:29. *)
Definition sa_axis (axis : Z) (ndim : nat) : Z := if axis <? 0 then Z.of_nat ndim + axis else axis.
(** The loop of setup_impl (scatter_add.cpp:40-52), from axis [k] on. *)
Fixpoint sa_fits (k axis : Z) (ishape x0 x1 : list Z) : bool :=
  match ishape, x0, x1 with
  | n :: ishape, a :: x0, b :: x1 => ((k =? axis) || (n <=? a)) && (n <=? b) && sa_fits (k + 1) axis ishape x0 x1
  | _, _, _ => true
  end.
(** setup_impl (scatter_add.cpp:25-54): the shape of the output. *)
Definition sa_setup (axis : Z) (x0 ishape x1 : list Z) : option (list Z) :=
  let a := sa_axis axis (length x0) in
  if negb (a <=? Z.of_nat (length x0)) then None else
  if negb (Nat.eqb (length x0) (length ishape)) then None else
  if negb (Nat.eqb (length x0) (length x1)) then None else
  if sa_fits 0 a ishape x0 x1 then Some x0 else None.
(** nd_index[axis] = v. *)
Definition vset (l : list Z) (k v : Z) : option (list Z) :=
  if (0 <=? k) && (k <? Z.of_nat (length l)) then Some (firstn (Z.to_nat k) l ++ v :: skipn (S (Z.to_nat k)) l) else None.
(** The loop of forward_impl (scatter_add.cpp:80-89) and of backward_impl (scatter_add.cpp:140-154)
    as the list of dst_flat_index and src_flat_index. *)
Definition sa_pairs (axis : Z) (x0 ishape x1 idx : list Z) : option (list (Z * Z)) :=
  obind (strides x0) (fun st0 => obind (strides ishape) (fun st => obind (strides x1) (fun st1 =>
  let a := sa_axis axis (length x0) in
  omap (fun i => obind (get idx i) (fun v => obind (vget x0 a) (fun n =>
    if (0 <=? v) && (v <? n) then
      let nd := flat2nd i st in obind (vset nd a v) (fun nd' => Some (dot nd' st0, dot nd st1))
    else None))) (upto (prod ishape))))).
(** forward_impl (scatter_add.cpp:56-90). *)
Definition sa_forward (axis : Z) (x0 ishape x1 : list Z) (data : list Qc) (idx : list Z) (upd y : list Qc) : option (list Qc) :=
  obind (loop (fun i y => obind (get data i) (put y i)) (upto (prod x0)) y) (fun y =>
  obind (sa_pairs axis x0 ishape x1 idx) (fun ps => add_all ps upd y)).
(** backward_impl (scatter_add.cpp:92-157): the gradients of the inputs 0 and 2. *)
Definition sa_backward (axis : Z) (x0 ishape x1 idx : list Z) (dy : list Qc) (g0 g1 : grad) : option (option (list Qc) * option (list Qc)) :=
  obind (with_grad (fun accum dx => loop (fun i dx => obind (get dy i) (fun v =>
    if accum then obind (get dx i) (fun old => put dx i (old + v)%Qc) else put dx i v)) (upto (prod x0)) dx) g0) (fun d0 =>
  obind (with_grad (fun accum dx =>
    obind (sa_pairs axis x0 ishape x1 idx) (fun ps =>
    (if accum then add_all else copy_all) (map swap ps) dy (cleared accum dx))) g1) (fun d1 => Some (d0, d1))).

(** * ScatterNd (scatter_nd.cpp) *)

(** setup_impl (scatter_nd.cpp:27-67); the loops over axes are comparisons of lists here. *)
Definition snd_setup (shape data ishape : list Z) : option (list Z) :=
  match ishape with
  | rows :: ((_ :: _) as rest) =>
      if negb (rows <=? Z.of_nat (length shape)) then None else
      if negb (Z.of_nat (length shape) =? Z.of_nat (length data) + rows - Z.of_nat (length rest)) then None else
      if negb (if list_eq_dec Z.eq_dec (firstn (length rest) data) rest then true else false) then None else
      if negb (if list_eq_dec Z.eq_dec (skipn (length rest) data) (skipn (Z.to_nat rows) shape) then true else false) then None else Some shape
  | _ => None
  end.
(** forward_impl (scatter_nd.cpp:69-111).  The loops are those of GatherNd on the output; [dst] is
    the array of the third input if there is one ([out]). *)
Definition snd_forward (out add : bool) (shape ishape idx : list Z) (src dst : list Qc) : option (list Qc) :=
  obind (gnd_pairs shape ishape idx) (fun ps => (if add then add_all else copy_all) (map swap ps) src (cleared out dst)).
(** src_ndi in backward_impl (scatter_nd.cpp:139-142): the indices are not checked. *)
Fixpoint snd_index (idx : list Z) (cols i m : Z) (shape : list Z) (rows : nat) : option (list Z) :=
  match rows, shape with
  | O, _ => Some (map (fun _ => 0) shape)
  | S rows, n :: shape =>
      obind (get idx (m * cols + i)) (fun index =>
      obind (snd_index idx cols i (m + 1) shape rows) (fun r => Some ((if index <? 0 then n + index else index) :: r)))
  | S _, [] => None
  end.
Definition snd_pairs (shape ishape idx : list Z) : option (list (Z * Z)) :=
  obind (strides shape) (fun st =>
  let rows := hd 0 ishape in
  let cols := prod (tl ishape) in
  obind (omap (fun i =>
     obind (snd_index idx cols i 0 shape (Z.to_nat rows)) (fun ndi =>
     obind (vget st (rows - 1)) (fun len =>
     Some (map (fun k => (i * len + k, dot ndi st + k)) (upto len))))) (upto cols)) (fun l =>
  Some (concat l))).
(** backward_impl (scatter_nd.cpp:113-177): the gradient of the data, and that of the output, which
    is also the gradient of the third input. *)
Definition snd_step (accum : bool) (p : Z * Z) (st : list Qc * list Qc) : option (list Qc * list Qc) :=
  let '(dx, dy) := st in
  obind (get dy (snd p)) (fun v =>
  obind (if accum then obind (get dx (fst p)) (fun old => put dx (fst p) (old + v)%Qc) else put dx (fst p) v) (fun dx =>
  obind (put dy (snd p) 0%Qc) (fun dy => Some (dx, dy)))).
Definition snd_backward (out : bool) (shape ishape idx : list Z) (dy : list Qc) (gx : grad) : option (option (list Qc) * list Qc) :=
  match gx with
  | None => Some (None, dy)
  | Some (accum, dx) =>
      obind (snd_pairs shape ishape idx) (fun ps =>
      if out then obind (loop (snd_step accum) ps (dx, dy)) (fun '(dx, dy) => Some (Some dx, dy))
      else obind ((if accum then add_all else copy_all) ps dy dx) (fun dx => Some (Some dx, dy)))
  end.
