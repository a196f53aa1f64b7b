(** Model of MaxPooling, AveragePooling, SumPooling, MaxPoolingBackward, GlobalAveragePooling
    and Unpooling of src/nbla/function/generic/, and of src/nbla/function/utils/base_pooling.cpp.

    The conventions of ScanModel hold: arrays are lists of rational numbers, an access outside
    is [None].  An [int] does not overflow; division truncates ([divide]) and by zero is
    [None].  A division of an element by zero, which gives infinity or NaN, is [None], too.
    channel_last = true is refused by all forward passes and not modelled.  The versions for
    two and three dimensions are the same text with one loop more, and one definition here. *)
From Coq Require Import List ZArith Bool QArith Qcanon.
From Verif Require Import IdxModel JoinModel ScanModel ReduceModel ConvModel.
Import ListNotations.
Local Open Scope list_scope.
Local Open Scope Z_scope.

(** * Setup *)

(** get_stride (base_pooling.cpp:18-23). *)
Definition pool_stride (kernel stride : list Z) : list Z := match stride with [] => kernel | _ => stride end.
(** The loop of get_pooling_output_shape (base_pooling.cpp:53-59). *)
Fixpoint pool_extents (ignore_border : bool) (shape kernel stride pad : list Z) : option (list Z) :=
  match shape, kernel, stride, pad with
  | w :: shape, k :: kernel, s :: stride, p :: pad =>
      obind (divide (w + p - (if ignore_border then k - p else 1)) s) (fun q =>
      obind (pool_extents ignore_border shape kernel stride pad) (fun r => Some (q + 1 :: r)))
  | _, _, _, _ => Some []
  end.
Record pool := { p_kernel : list Z; p_stride : list Z; p_pad : list Z; p_in : list Z; p_out : list Z }.
(** setup_impl (base_pooling.hpp) and get_pooling_output_shape (base_pooling.cpp:25-72). *)
Definition pool_setup (kernel stride : list Z) (ignore_border : bool) (pad inshape : list Z) : option pool :=
  let stride := pool_stride kernel stride in
  if negb (Nat.eqb (length kernel) (length stride)) then None else
  if Nat.ltb (length inshape) (length kernel) then None else
  if Nat.ltb (length kernel) 2 || Nat.ltb 3 (length kernel) then None else
  if negb (Nat.eqb (length kernel) (length pad)) then None else
  let s := (length inshape - length kernel)%nat in
  obind (pool_extents ignore_border (skipn s inshape) kernel stride pad) (fun out =>
  Some {| p_kernel := kernel; p_stride := stride; p_pad := pad; p_in := inshape; p_out := firstn s inshape ++ out |}).

(** The variables s, x_map_size and y_map_size of all passes (max_pooling.cpp:155-157). *)
Definition outer_dims (f : pool) : nat := (length (p_in f) - length (p_kernel f))%nat.
Definition map_size (shape : list Z) (s : nat) : Z := match s with O => prod shape | S k => nth k (cstrides shape) 0 end.
Definition x_map (f : pool) : Z := map_size (p_in f) (outer_dims f).
Definition y_map (f : pool) : Z := map_size (p_out f) (outer_dims f).
Definition x_strides (f : pool) : list Z := skipn (outer_dims f) (cstrides (p_in f)).
Definition x_shape (f : pool) : list Z := skipn (outer_dims f) (p_in f).
Definition y_shape (f : pool) : list Z := skipn (outer_dims f) (p_out f).

(** * Windows *)

(** The nested loops over ranges, the last one innermost. *)
Fixpoint box (l : list (Z * Z)) : list (list Z) :=
  match l with
  | [] => [[]]
  | (a, b) :: l => flat_map (fun i => map (cons i) (box l)) (map (Z.add a) (upto (b - a)))
  end.
(** i0 * x_stride[0] + i1, or i0 * x_stride[0] + i1 * x_stride[1] + i2. *)
Fixpoint flat (idx strides : list Z) : Z :=
  match idx, strides with
  | [i], _ => i
  | i :: idx, s :: strides => i * s + flat idx strides
  | _, _ => 0
  end.
(** pool_start and pool_end (average_pooling.cpp:56-59), and after clipping (64-67). *)
Definition span (o s p k w : Z) : Z * Z := (o * s - p, Z.min (o * s - p + k) (w + p)).
Definition clip (w : Z) (ab : Z * Z) : Z * Z := (Z.max (fst ab) 0, Z.min (snd ab) w).
Fixpoint spans (idx stride pad kernel shape : list Z) : list (Z * Z) :=
  match idx, stride, pad, kernel, shape with
  | o :: idx, s :: stride, p :: pad, k :: kernel, w :: shape => span o s p k w :: spans idx stride pad kernel shape
  | _, _, _, _, _ => []
  end.
Definition clips (shape : list Z) (l : list (Z * Z)) : list (Z * Z) := map (fun p => clip (fst p) (snd p)) (combine shape l).
Definition spans_of (f : pool) (idx : list Z) : list (Z * Z) := spans idx (p_stride f) (p_pad f) (p_kernel f) (x_shape f).
Definition window_of (f : pool) (idx : list Z) : list (Z * Z) := clips (x_shape f) (spans_of f idx).
(** The product of the lengths. *)
Definition pool_size (l : list (Z * Z)) : Z := fold_left (fun r ab => r * (snd ab - fst ab)) l 1.
(** The loops over y_idx; [body] gets the index and how often the pointers were increased. *)
Definition over_map {T : Type} (shape : list Z) (body : list Z -> Z -> T -> option T) (t : T) : option T :=
  obind (loop (fun idx '(k, t) => obind (body idx k t) (fun t => Some (k + 1, t))) (box (map (pair 0) shape)) (0, t)) (fun '(_, t) => Some t).

(** * MaxPooling *)

(** The search of forward_map (max_pooling.cpp:63-73, 96-110); [x] from [xo] on. *)
Definition max_in (x : list Qc) (xo : Z) (strides : list Z) (l : list (Z * Z)) : option (Z * Qc) :=
  let i0 := flat (map fst l) strides in
  obind (get x (xo + i0)) (fun v0 =>
  loop (fun idx '(mi, mv) =>
    let i := flat idx strides in
    obind (get x (xo + i)) (fun v => Some (if less mv v then (i, v) else (mi, mv)))) (box l) (i0, v0)).
(** forward_impl (max_pooling.cpp:139-191): the output and max_idx_. *)
Definition max_forward (f : pool) (x y : list Qc) (m : list Z) : option (list Qc * list Z) :=
  obind (divide (prod (p_in f)) (x_map f)) (fun n_map =>
  loop (fun n => over_map (y_shape f) (fun idx k '(y, m) =>
    obind (max_in x (n * x_map f) (x_strides f) (window_of f idx)) (fun '(i, v) =>
    obind (put m (n * y_map f + k) i) (fun m =>
    obind (put y (n * y_map f + k) v) (fun y => Some (y, m)))))) (upto n_map) (y, m)).
(** backward_impl (max_pooling.cpp:193-228) with backward_map (117-122).  [m] is max_idx_ if
    forward_done_. *)
Definition max_backward (f : pool) (m : option (list Z)) (accum : bool) (dy dx : list Qc) : option (list Qc) :=
  match m with
  | None => None
  | Some m =>
      obind (divide (prod (p_out f)) (y_map f)) (fun n_map =>
      loop (fun n => loop (fun k dx =>
        obind (get m (n * y_map f + k)) (fun i =>
        obind (get dy (n * y_map f + k)) (fun g =>
        obind (get dx (n * x_map f + i)) (fun old => put dx (n * x_map f + i) (old + g)%Qc)))) (upto (y_map f))) (upto n_map) (cleared accum dx))
  end.

(** * AveragePooling and SumPooling *)

Definition sum_in (x : list Qc) (xo : Z) (strides : list Z) (l : list (Z * Z)) : option Qc :=
  loop (fun idx s => obind (get x (xo + flat idx strides)) (fun v => Some (s + v)%Qc)) (box l) 0%Qc.
Definition add_in (v : Qc) (xo : Z) (strides : list Z) (l : list (Z * Z)) (dx : list Qc) : option (list Qc) :=
  loop (fun idx dx => obind (get dx (xo + flat idx strides)) (fun old => put dx (xo + flat idx strides) (old + v)%Qc)) (box l) dx.
(** pool_size (average_pooling.cpp:60-73); SumPooling does not divide. *)
Inductive kind := Sums | Averages (including_pad : bool).
Definition share (k : kind) (f : pool) (idx : list Z) (v : Qc) : option Qc :=
  match k with
  | Sums => Some v
  | Averages including_pad =>
      let n := pool_size (if including_pad then spans_of f idx else window_of f idx) in
      if n =? 0 then None else Some (v / Q2Qc (inject_Z n))%Qc
  end.
(** forward_impl (average_pooling.cpp:212-262, sum_pooling.cpp:172-222) with forward_map
    (average_pooling.cpp:47-125, sum_pooling.cpp:47-105). *)
Definition sum_forward (k : kind) (f : pool) (x y : list Qc) : option (list Qc) :=
  obind (divide (prod (p_in f)) (x_map f)) (fun n_map =>
  loop (fun n => over_map (y_shape f) (fun idx i y =>
    obind (sum_in x (n * x_map f) (x_strides f) (window_of f idx)) (fun v =>
    obind (share k f idx v) (fun v => put y (n * y_map f + i) v)))) (upto n_map) y).
(** backward_impl (average_pooling.cpp:264-322, sum_pooling.cpp:224-282) with backward_map
    (average_pooling.cpp:127-203, sum_pooling.cpp:107-163). *)
Definition sum_backward (k : kind) (f : pool) (accum : bool) (dy dx : list Qc) : option (list Qc) :=
  obind (divide (prod (p_out f)) (y_map f)) (fun n_map =>
  loop (fun n => over_map (y_shape f) (fun idx i dx =>
    obind (get dy (n * y_map f + i)) (fun g =>
    obind (share k f idx g) (fun g => add_in g (n * x_map f) (x_strides f) (window_of f idx) dx)))) (upto n_map) (cleared accum dx)).

(** * MaxPoolingBackward *)

(** xshape[ndim - 3], xshape[ndim - 2], xshape[ndim - 1] (max_pooling_backward.cpp:258-263),
    with [d] spatial dimensions. *)
Definition last_dims (ndim d : nat) (shape : list Z) : option (Z * list Z) :=
  if Nat.ltb ndim (d + 1) then None else if negb (Nat.eqb (length shape) ndim) then None else
  Some (nth (ndim - d - 1) shape 0, skipn (ndim - d) shape).
(** The region (max_pooling_backward.cpp:56-62): the end is cut at the end of the image. *)
Fixpoint regions (idx stride pad kernel shape : list Z) : list (Z * Z) :=
  match idx, stride, pad, kernel, shape with
  | o :: idx, s :: stride, p :: pad, k :: kernel, w :: shape => (Z.max (o * s - p) 0, Z.min (o * s - p + k) w) :: regions idx stride pad kernel shape
  | _, _, _, _, _ => []
  end.
(** ndi::nd2flat. *)
Fixpoint nd2flat (idx strides : list Z) : Z :=
  match idx, strides with i :: idx, s :: strides => i * s + nd2flat idx strides | _, _ => 0 end.
(** The search (max_pooling_backward.cpp:64-76): the position of the maximum. *)
Definition max_at (x : list Qc) (strides : list Z) (b c : Z) (l : list (Z * Z)) : option Z :=
  let i0 := nd2flat (b :: c :: map fst l) strides in
  obind (get x i0) (fun v0 =>
  obind (loop (fun idx '(mi, mv) =>
    let i := nd2flat (b :: c :: idx) strides in
    obind (get x i) (fun v => Some (if less mv v then (i, v) else (mi, mv)))) (box l) (i0, v0)) (fun '(i, _) => Some i)).
(** The loops over b, c and the spatial dimensions, with the running oidx
    (max_pooling_backward.cpp:43-129, 131-217), and the sizes (247-294, 321-377).  Other
    numbers of dimensions than 2 and 3 do nothing. *)
Definition each_max {T : Type} (kernel stride pad yshape xshape : list Z) (x : list Qc) (body : Z -> Z -> T -> option T) (t : T) : option T :=
  let d := length kernel in
  if negb (Nat.eqb d 2 || Nat.eqb d 3) then Some t else
  if Nat.ltb (length stride) d || Nat.ltb (length pad) d then None else
  let ndim := length xshape in
  obind (last_dims ndim d xshape) (fun '(cx, xs) =>
  obind (last_dims ndim d yshape) (fun '(cy, ys) =>
  obind (divide (prod yshape) (prod (cy :: ys))) (fun by_ =>
  let strides := cstrides (by_ :: cx :: xs) in
  obind (loop (fun b => loop (fun c => loop (fun idx '(o, t) =>
    obind (max_at x strides b c (regions idx stride pad kernel xs)) (fun i =>
    obind (body i o t) (fun t => Some (o + 1, t)))) (box (map (pair 0) ys))) (upto cy)) (upto by_) (0, t)) (fun '(_, t) => Some t)))).
(** forward_impl (max_pooling_backward.cpp:226-295). *)
Definition mpb_forward (kernel stride pad yshape xshape : list Z) (dy x dx : list Qc) : option (list Qc) :=
  each_max kernel stride pad yshape xshape x (fun i o dx =>
    obind (get dy o) (fun g => obind (get dx i) (fun old => put dx i (old + g)%Qc))) (map (fun _ => 0%Qc) dx).
(** backward_impl (max_pooling_backward.cpp:297-378). *)
Definition mpb_backward (kernel stride pad yshape xshape : list Z) (accum : bool) (gdx x gdy : list Qc) : option (list Qc) :=
  each_max kernel stride pad yshape xshape x (fun i o gdy =>
    obind (get gdx i) (fun g => if accum then obind (get gdy o) (fun old => put gdy o (old + g)%Qc) else put gdy o g)) gdy.

(** * GlobalAveragePooling *)

(** setup_impl (global_average_pooling.cpp:27-44). *)
Definition gap_setup (shape : list Z) : option (list Z) :=
  match shape with n :: c :: _ => Some [n; c; 1; 1] | _ => None end.
Definition in_wh (shape : list Z) : Z :=
  (if Nat.leb 4 (length shape) then nth 3 shape 0 else 1) * (if Nat.leb 3 (length shape) then nth 2 shape 0 else 1).
(** forward_impl (global_average_pooling.cpp:46-72). *)
Definition gap_forward (shape : list Z) (x y : list Qc) : option (list Qc) :=
  obind (gap_setup shape) (fun out =>
  let n := nth 0 out 0 in let c := nth 1 out 0 in let wh := in_wh shape in
  loop (fun i => loop (fun j y =>
    obind (omap (fun k => get x (i * (wh * c) + j * wh + k)) (upto wh)) (fun l =>
    if wh =? 0 then None else put y (i * c + j) (sum_list l / Q2Qc (inject_Z wh))%Qc)) (upto c)) (upto n) y).
(** backward_impl (global_average_pooling.cpp:74-117). *)
Definition gap_backward (shape : list Z) (accum : bool) (dy dx : list Qc) : option (list Qc) :=
  obind (gap_setup shape) (fun out =>
  let n := nth 0 out 0 in let c := nth 1 out 0 in let wh := in_wh shape in
  loop (fun i => loop (fun j dx =>
    obind (get dy (i * c + j)) (fun g =>
    if wh =? 0 then None else
    let g := (g / Q2Qc (inject_Z wh))%Qc in
    loop (fun k dx =>
      let p := i * (wh * c) + j * wh + k in
      if accum then obind (get dx p) (fun old => put dx p (old + g)%Qc) else put dx p g) (upto wh) dx)) (upto c)) (upto n) dx).

(** * Unpooling *)

(** setup_impl (unpooling.cpp:28-47). *)
Definition unpool_setup (kernel shape : list Z) : option (list Z) :=
  if Nat.ltb (length shape) (length kernel) then None else
  let s := (length shape - length kernel)%nat in
  Some (firstn s shape ++ map (fun p => fst p * snd p) (combine (skipn s shape) kernel)).
(** x_stride, y_stride, kernel and size for each dimension. *)
Definition unpool_dims (kernel shape out : list Z) : list (Z * Z * Z * Z) :=
  let s := (length shape - length kernel)%nat in
  combine (combine (combine (cstrides shape) (cstrides out)) (repeat 1 s ++ kernel)) out.
(** The loop over the elements of a dimension, with the offsets (unpooling.cpp:70-80, 82-91):
    the offset in [x] moves on after every [kernel] elements. *)
Definition unpool_loop {T : Type} (d : Z * Z * Z * Z) (body : Z -> Z -> T -> option T) (xo yo : Z) (t : T) : option T :=
  let '(xs, ys, k, n) := d in
  obind (loop (fun _ '(count, cx, cy, t) =>
    obind (body cx cy t) (fun t =>
    Some (if k <=? count + 1 then (0, cx + xs, cy + ys, t) else (count + 1, cx, cy + ys, t)))) (upto n) (0, xo, yo, t)) (fun '(_, _, _, t) => Some t).
(** unpooling_forward_recursive (unpooling.cpp:49-93).  Without dimensions, strides()[0] is
    outside. *)
Fixpoint unpool_rec (ds : list (Z * Z * Z * Z)) (x : list Qc) (xo yo : Z) (y : list Qc) : option (list Qc) :=
  match ds with
  | [] => None
  | d :: ds =>
      let '(xs, ys, k, n) := d in
      match ds with
      | [] =>
          if (xs =? 1) && (k =? 1) then loop (fun i y => obind (get x (xo + i)) (fun v => put y (yo + i) v)) (upto n) y
          else unpool_loop d (fun cx cy y => obind (get x cx) (fun v => put y cy v)) xo yo y
      | _ => unpool_loop d (fun cx cy y => unpool_rec ds x cx cy y) xo yo y
      end
  end.
(** forward_impl (unpooling.cpp:95-105). *)
Definition unpool_forward (kernel shape : list Z) (x y : list Qc) : option (list Qc) :=
  obind (unpool_setup kernel shape) (fun out => unpool_rec (unpool_dims kernel shape out) x 0 0 y).
(** unpooling_backward_recursive (unpooling.cpp:107-148). *)
Fixpoint unpool_back (ds : list (Z * Z * Z * Z)) (dy : list Qc) (xo yo : Z) (dx : list Qc) : option (list Qc) :=
  match ds with
  | [] => None
  | d :: ds =>
      match ds with
      | [] => unpool_loop d (fun cx cy dx => obind (get dy cy) (fun g => obind (get dx cx) (fun old => put dx cx (old + g)%Qc))) xo yo dx
      | _ => unpool_loop d (fun cx cy dx => unpool_back ds dy cx cy dx) xo yo dx
      end
  end.
(** backward_impl (unpooling.cpp:150-162). *)
Definition unpool_backward (kernel shape : list Z) (accum : bool) (dy dx : list Qc) : option (list Qc) :=
  obind (unpool_setup kernel shape) (fun out => unpool_back (unpool_dims kernel shape out) dy 0 0 (cleared accum dx)).
