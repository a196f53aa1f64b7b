(** Model of the patch matrix (unfold_to_patches.cpp, fold_from_patches.cpp of
    src/nbla/utils/) and of Convolution and Deconvolution of src/nbla/function/generic/.

    The conventions of ScanModel hold: arrays are lists of rational numbers, an access outside
    is [None].  An [int] does not overflow; division truncates ([divide]) and by zero is
    [None].  channel_last = true is refused by all passes and not modelled. *)
From Coq Require Import List ZArith Bool QArith Qcanon.
From Verif Require Import IdxModel JoinModel ScanModel ReduceModel.
Import ListNotations.
Local Open Scope list_scope.
Local Open Scope Z_scope.

(** * Patches *)

(** index_in_shape (unfold_to_patches.cpp:29-31, fold_from_patches.cpp:23-25): one unsigned
    comparison. *)
Definition in_shape (i n : Z) : bool := (0 <=? i) && (i <? n).
(** The entries of outmap_shape, outmap_isize, sample_shape, sample_isize, sample_shift and
    stride for one dimension. *)
Record dim := { d_out : Z; d_osize : Z; d_in : Z; d_isize : Z; d_shift : Z; d_stride : Z }.

(** kernel_1d (unfold_to_patches.cpp:33-46).  sample_data is [x] from [so] on, column_data is
    [col] from [co] on.  The running sample_index is computed. *)
Definition unfold_1d (d : dim) (x : list Qc) (so co : Z) (col : list Qc) : option (list Qc) :=
  loop (fun i col =>
    let si := d_shift d + i * d_stride d in
    obind (if in_shape si (d_in d) then get x (so + si) else Some 0%Qc) (fun v => put col (co + i) v)) (upto (d_out d)) col.
(** memset(column_data, 0, n). *)
Definition zero_fill (co n : Z) (col : list Qc) : option (list Qc) := loop (fun i col => put col (co + i) 0%Qc) (upto n) col.
(** kernel_2d (unfold_to_patches.cpp:48-69). *)
Definition unfold_2d (d e : dim) (x : list Qc) (so co : Z) (col : list Qc) : option (list Qc) :=
  loop (fun i col =>
    let si := d_shift d + i * d_stride d in
    if in_shape si (d_in d) then unfold_1d e x (so + d_isize d * si) (co + i * d_osize d) col
    else zero_fill (co + i * d_osize d) (d_osize d) col) (upto (d_out d)) col.
(** kernel_nd (unfold_to_patches.cpp:71-96). *)
Fixpoint unfold_nd (ds : list dim) (x : list Qc) (so co : Z) (col : list Qc) : option (list Qc) :=
  match ds with
  | [] => None
  | d :: ds =>
      loop (fun i col =>
        let si := d_shift d + i * d_stride d in
        if negb (in_shape si (d_in d)) then zero_fill (co + i * d_osize d) (d_osize d) col
        else match ds with
             | [e] => unfold_1d e x (so + d_isize d * si) (co + i * d_osize d) col
             | _ => unfold_nd ds x (so + d_isize d * si) (co + i * d_osize d) col
             end) (upto (d_out d)) col
  end.
Definition unfold_kernel (ds : list dim) : list Qc -> Z -> Z -> list Qc -> option (list Qc) :=
  match ds with [d] => unfold_1d d | [d; e] => unfold_2d d e | _ => unfold_nd ds end.

(** outmap_shape (unfold_to_patches.cpp:126-134, fold_from_patches.cpp:96-104). *)
Definition extent (n p k s d : Z) : option Z := obind (divide (n + 2 * p - (d * (k - 1) + 1)) s) (fun q => Some (q + 1)).
Fixpoint outmap (shape kernel padding stride dilation : list Z) : option (list Z) :=
  match shape, kernel, padding, stride, dilation with
  | [], [], [], [], [] => Some []
  | n :: shape, k :: kernel, p :: padding, s :: stride, d :: dilation =>
      obind (extent n p k s d) (fun o => obind (outmap shape kernel padding stride dilation) (fun os => Some (o :: os)))
  | _, _, _, _, _ => None
  end.
(** kernel_index and sample_shift (unfold_to_patches.cpp:164-172, fold_from_patches.cpp:128-136). *)
Definition kernel_index (k : Z) (shape : list Z) : list Z :=
  map (fun p => Z.rem (Z.quot k (snd p)) (fst p)) (combine shape (cstrides shape)).
Fixpoint dims (out osize shape isize kidx dilation padding stride : list Z) : list dim :=
  match out, osize, shape, isize, kidx, dilation, padding, stride with
  | o :: out, os :: osize, n :: shape, i :: isize, k :: kidx, d :: dilation, p :: padding, s :: stride =>
      {| d_out := o; d_osize := os; d_in := n; d_isize := i; d_shift := k * d - p; d_stride := s |} :: dims out osize shape isize kidx dilation padding stride
  | _, _, _, _, _, _, _, _ => []
  end.
(** The common part of both functions: for each k, the dimensions, the channel and the
    positions of the row of the patch matrix and of the channel of the sample. *)
Definition patch_rows (channels : Z) (shape kernel padding stride dilation : list Z) : option (list (list dim * Z * Z)) :=
  obind (outmap shape kernel padding stride dilation) (fun out =>
  let kshape := channels :: kernel in
  Some (map (fun k =>
    match kernel_index k kshape with
    | c :: kidx => (dims out (cstrides out) shape (cstrides shape) kidx dilation padding stride, c * prod shape, k * prod out)
    | [] => ([], 0, 0)
    end) (upto (prod kshape)))).
(** unfold_to_patches (unfold_to_patches.cpp:102-194): [x] from [xo] on to [col]. *)
Definition unfold_patches (channels : Z) (shape kernel padding stride dilation : list Z) (x : list Qc) (xo : Z) (col : list Qc) : option (list Qc) :=
  obind (patch_rows channels shape kernel padding stride dilation) (fun rows =>
  loop (fun '(ds, so, co) col => unfold_kernel ds x (xo + so) co col) rows col).

(** The kernels of fold_from_patches (fold_from_patches.cpp:27-81).  column_data is [col] from
    [co] on, outmap_data is [x] from [so] on. *)
Definition fold_1d (d : dim) (col : list Qc) (so co : Z) (x : list Qc) : option (list Qc) :=
  loop (fun i x =>
    let si := d_shift d + i * d_stride d in
    if in_shape si (d_in d) then obind (get col (co + i)) (fun v => obind (get x (so + si)) (fun old => put x (so + si) (old + v)%Qc))
    else Some x) (upto (d_out d)) x.
Definition fold_2d (d e : dim) (col : list Qc) (so co : Z) (x : list Qc) : option (list Qc) :=
  loop (fun i x =>
    let si := d_shift d + i * d_stride d in
    if in_shape si (d_in d) then fold_1d e col (so + d_isize d * si) (co + i * d_osize d) x else Some x) (upto (d_out d)) x.
Fixpoint fold_nd (ds : list dim) (col : list Qc) (so co : Z) (x : list Qc) : option (list Qc) :=
  match ds with
  | [] => None
  | d :: ds =>
      loop (fun i x =>
        let si := d_shift d + i * d_stride d in
        if in_shape si (d_in d) then
          match ds with
          | [e] => fold_1d e col (so + d_isize d * si) (co + i * d_osize d) x
          | _ => fold_nd ds col (so + d_isize d * si) (co + i * d_osize d) x
          end
        else Some x) (upto (d_out d)) x
  end.
Definition fold_kernel (ds : list dim) : list Qc -> Z -> Z -> list Qc -> option (list Qc) :=
  match ds with [d] => fold_1d d | [d; e] => fold_2d d e | _ => fold_nd ds end.
(** fold_from_patches (fold_from_patches.cpp:87-155): adds [col] to [x] from [xo] on. *)
Definition fold_patches (channels : Z) (shape kernel padding stride dilation : list Z) (col : list Qc) (x : list Qc) (xo : Z) : option (list Qc) :=
  obind (patch_rows channels shape kernel padding stride dilation) (fun rows =>
  loop (fun '(ds, so, co) x => fold_kernel ds col (xo + so) co x) rows x).

(** * Matrices (Eigen, row major) *)

(** Element of the matrix with [cols] columns at [off]. *)
Definition mat (a : list Qc) (off cols r c : Z) : option Qc := get a (off + r * cols + c).
Definition sum_list (l : list Qc) : Qc := fold_left Qcplus l 0%Qc.
(** dst = a * b, or dst += a * b. *)
Definition matmul (accum : bool) (rows depth cols : Z) (a b : Z -> Z -> option Qc) (off : Z) (dst : list Qc) : option (list Qc) :=
  loop (fun r => loop (fun c dst =>
    obind (omap (fun k => obind (a r k) (fun u => obind (b k c) (fun v => Some (u * v)%Qc))) (upto depth)) (fun l =>
    if accum then obind (get dst (off + r * cols + c)) (fun old => put dst (off + r * cols + c) (old + sum_list l)%Qc)
    else put dst (off + r * cols + c) (sum_list l))) (upto cols)) (upto rows) dst.
Definition transposed_mat (a : Z -> Z -> option Qc) (r c : Z) : option Qc := a c r.
(** dst.colwise() += b. *)
Definition add_column (rows cols : Z) (b : list Qc) (off : Z) (dst : list Qc) : option (list Qc) :=
  loop (fun r => loop (fun c dst =>
    obind (get b r) (fun v => obind (get dst (off + r * cols + c)) (fun old => put dst (off + r * cols + c) (old + v)%Qc))) (upto cols)) (upto rows) dst.
(** dst += a.rowwise().sum(). *)
Definition add_row_sums (rows cols : Z) (a : list Qc) (off : Z) (dst : list Qc) : option (list Qc) :=
  loop (fun r dst =>
    obind (omap (fun c => get a (off + r * cols + c)) (upto cols)) (fun l =>
    obind (get dst r) (fun old => put dst r (old + sum_list l)%Qc))) (upto rows) dst.

(** * Convolution (convolution.cpp) *)

(** The members set by setup: outer_size_, channels_i_, channels_o_, channels_g_, group_,
    spatial_shape_i_, spatial_shape_o_, kernel_, pad_, stride_, dilation_; the other sizes are
    computed from them. *)
Record conv := { outer : Z; channels_i : Z; channels_o : Z; channels_g : Z; groups : Z;
  shape_i : list Z; shape_o : list Z; kernel : list Z; pad : list Z; stride : list Z; dilation : list Z }.
Definition inner_k (f : conv) : Z := channels_g f * prod (kernel f).
Definition inner_i (f : conv) : Z := channels_i f * prod (shape_i f).
Definition inner_o (f : conv) : Z := channels_o f * prod (shape_o f).
(** row_w_ = row_y_, col_w_ = row_col_, col_col_ = col_y_ (convolution.cpp:152-157). *)
Definition rows_w (f : conv) : Z := Z.quot (channels_o f) (groups f).
Definition cols_y (f : conv) : Z := Z.quot (inner_o f) (channels_o f).

(** The loop over the spatial dimensions (convolution.cpp:93-105). *)
Definition conv_shape (shape kernel pad stride dilation : list Z) : option (list Z) :=
  obind (outmap shape kernel pad stride dilation) (fun o => if forallb (fun n => 0 <? n) o then Some o else None).
(** setup_impl (convolution.cpp:40-158), with the shape of the output.  [bias] is the shape of
    the third input. *)
Definition conv_setup (base_axis : Z) (pad stride dilation : list Z) (group : Z) (data weights : list Z) (bias : option (list Z)) : option (conv * list Z) :=
  obind (refine_axis (length data) base_axis) (fun base =>
  if Z.of_nat (length data) - 1 <=? base then None else
  let base := Z.to_nat base in
  if negb (Nat.eqb (length weights) (2 + (length data - base - 1))) then None else
  match skipn base data, weights with
  | ci :: shape, co :: cg :: kernel =>
      if group =? 0 then None else
      if negb (Z.rem ci group =? 0) then None else
      if negb (Z.rem co group =? 0) then None else
      if negb (Z.quot ci group =? cg) then None else
      obind (conv_shape shape kernel pad stride dilation) (fun out =>
      if negb (match bias with None => true | Some b => if list_eq_dec Z.eq_dec b [co] then true else false end) then None else
      if co =? 0 then None else
      Some ({| outer := prod (firstn base data); channels_i := ci; channels_o := co; channels_g := cg; groups := group;
               shape_i := shape; shape_o := out; kernel := kernel; pad := pad; stride := stride; dilation := dilation |},
            firstn base data ++ co :: out))
  | _, _ => None
  end).

Definition unfold_conv (f : conv) : list Qc -> Z -> list Qc -> option (list Qc) :=
  unfold_patches (channels_i f) (shape_i f) (kernel f) (pad f) (stride f) (dilation f).
Definition fold_conv (f : conv) : list Qc -> list Qc -> Z -> option (list Qc) :=
  fold_patches (channels_i f) (shape_i f) (kernel f) (pad f) (stride f) (dilation f).
(** The matrices of group [g]: of the weights, of the patch matrix, and of sample [n] of [y]. *)
Definition w_mat (f : conv) (w : list Qc) (g : Z) : Z -> Z -> option Qc := mat w (g * rows_w f * inner_k f) (inner_k f).
Definition col_mat (f : conv) (col : list Qc) (g : Z) : Z -> Z -> option Qc := mat col (g * inner_k f * cols_y f) (cols_y f).
Definition y_off (f : conv) (n g : Z) : Z := n * inner_o f + g * rows_w f * cols_y f.
Definition y_mat (f : conv) (y : list Qc) (n g : Z) : Z -> Z -> option Qc := mat y (y_off f n g) (cols_y f).

(** forward_impl (convolution.cpp:160-197).  [col] is the buffer, which is thrown away. *)
Definition conv_forward (f : conv) (x w : list Qc) (b : option (list Qc)) (col y : list Qc) : option (list Qc) :=
  obind (loop (fun n '(col, y) =>
    obind (unfold_conv f x (n * inner_i f) col) (fun col =>
    obind (loop (fun g => matmul false (rows_w f) (inner_k f) (cols_y f) (w_mat f w g) (col_mat f col g) (y_off f n g)) (upto (groups f)) y) (fun y =>
    obind (match b with Some b => add_column (channels_o f) (cols_y f) b (n * inner_o f) y | None => Some y end) (fun y =>
    Some (col, y))))) (upto (outer f)) (col, y)) (fun '(_, y) => Some y).

Definition cleared (accum : bool) (a : list Qc) : list Qc := if accum then a else map (fun _ => 0%Qc) a.
(** backward_impl (convolution.cpp:199-281).  A gradient is a pair of the accum flag and the
    previous value if it is to be propagated to. *)
Definition grad := option (bool * list Qc).
Definition start (g : grad) : option (list Qc) := match g with Some (accum, a) => Some (cleared accum a) | None => None end.
(** If propagate_down, do [f] with the gradient. *)
Definition on_grad (f : list Qc -> option (list Qc)) (g : option (list Qc)) : option (option (list Qc)) :=
  match g with Some a => obind (f a) (fun a => Some (Some a)) | None => Some None end.
Definition conv_backward (f : conv) (x w dy col : list Qc) (gx gw gb : grad) : option (option (list Qc) * option (list Qc) * option (list Qc)) :=
  obind (loop (fun n '(col, dx, dw, db) =>
    obind (match dx with
           | Some dx =>
               obind (loop (fun g => matmul false (inner_k f) (rows_w f) (cols_y f) (transposed_mat (w_mat f w g)) (y_mat f dy n g) (g * inner_k f * cols_y f)) (upto (groups f)) col) (fun col =>
               obind (fold_conv f col dx (n * inner_i f)) (fun dx => Some (col, Some dx)))
           | None => Some (col, None)
           end) (fun '(col, dx) =>
    obind (match dw with
           | Some dw =>
               obind (unfold_conv f x (n * inner_i f) col) (fun col =>
               obind (loop (fun g => matmul true (rows_w f) (cols_y f) (inner_k f) (y_mat f dy n g) (transposed_mat (col_mat f col g)) (g * rows_w f * inner_k f)) (upto (groups f)) dw) (fun dw =>
               Some (col, Some dw)))
           | None => Some (col, None)
           end) (fun '(col, dw) =>
    obind (on_grad (add_row_sums (channels_o f) (cols_y f) dy (n * inner_o f)) db) (fun db =>
    Some (col, dx, dw, db))))) (upto (outer f)) (col, start gx, start gw, start gb)) (fun '(_, dx, dw, db) =>
  Some (dx, dw, db)).

(** * Deconvolution (deconvolution.cpp) *)

(** The loop over the spatial dimensions (deconvolution.cpp:109-127). *)
Fixpoint deconv_shape (shape kernel pad stride dilation output_padding : list Z) : option (list Z) :=
  match shape, kernel, pad, stride, dilation, output_padding with
  | [], [], [], [], [], [] => Some []
  | o :: shape, k :: kernel, p :: pad, s :: stride, d :: dilation, op :: output_padding =>
      let n := s * (o - 1) + (d * (k - 1) + 1) - 2 * p + op in
      if n <=? 0 then None else if s <=? op then None else
      obind (deconv_shape shape kernel pad stride dilation output_padding) (fun ns => Some (n :: ns))
  | _, _, _, _, _, _ => None
  end.
(** setup_impl (deconvolution.cpp:43-179).  The number of channels of the input is not read. *)
Definition deconv_setup (base_axis : Z) (pad stride dilation : list Z) (group : Z) (output_padding data weights : list Z) (bias : option (list Z)) : option (conv * list Z) :=
  obind (refine_axis (length data) base_axis) (fun base =>
  if Z.of_nat (length data) <=? base + 1 then None else
  let base := Z.to_nat base in
  if negb (Nat.eqb (length weights) (2 + (length data - base - 1))) then None else
  match skipn base data, weights with
  | _ :: shape, co :: cg :: kernel =>
      let ci := cg * group in
      let output_padding := match output_padding with [] => map (fun _ => 0) shape | _ => output_padding end in
      if group =? 0 then None else
      if negb (Z.rem ci group =? 0) then None else
      if negb (Z.rem co group =? 0) then None else
      if negb (Z.quot ci group =? cg) then None else
      obind (deconv_shape shape kernel pad stride dilation output_padding) (fun into =>
      if negb (match bias with None => true | Some b => if list_eq_dec Z.eq_dec b [ci] then true else false end) then None else
      if co =? 0 then None else
      Some ({| outer := prod (firstn base data); channels_i := ci; channels_o := co; channels_g := cg; groups := group;
               shape_i := into; shape_o := shape; kernel := kernel; pad := pad; stride := stride; dilation := dilation |},
            firstn base data ++ ci :: into))
  | _, _ => None
  end).
(** inner_size_i_ / channels_i_. *)
Definition map_i (f : conv) : option Z := divide (inner_i f) (channels_i f).

(** forward_impl (deconvolution.cpp:181-224): [y] is the input and [x] the output. *)
Definition deconv_forward (f : conv) (y w : list Qc) (b : option (list Qc)) (col x : list Qc) : option (list Qc) :=
  obind (loop (fun n '(col, x) =>
    obind (loop (fun g => matmul false (inner_k f) (rows_w f) (cols_y f) (transposed_mat (w_mat f w g)) (y_mat f y n g) (g * inner_k f * cols_y f)) (upto (groups f)) col) (fun col =>
    obind (zero_fill (n * inner_i f) (inner_i f) x) (fun x =>
    obind (fold_conv f col x (n * inner_i f)) (fun x =>
    obind (match b with Some b => obind (map_i f) (fun m => add_column (channels_i f) m b (n * inner_i f) x) | None => Some x end) (fun x =>
    Some (col, x)))))) (upto (outer f)) (col, x)) (fun '(_, x) => Some x).

(** backward_impl (deconvolution.cpp:226-315). *)
Definition deconv_backward (f : conv) (y w dx col : list Qc) (gy gw gb : grad) : option (option (list Qc) * option (list Qc) * option (list Qc)) :=
  obind (loop (fun n '(col, dy, dw, db) =>
    obind (match gy, gw with None, None => Some col | _, _ => unfold_conv f dx (n * inner_i f) col end) (fun col =>
    obind (match gy with
           | Some (accum, _) => on_grad (fun dy => loop (fun g => matmul accum (rows_w f) (inner_k f) (cols_y f) (w_mat f w g) (col_mat f col g) (y_off f n g)) (upto (groups f)) dy) dy
           | None => Some dy
           end) (fun dy =>
    obind (on_grad (fun dw => loop (fun g => matmul true (rows_w f) (cols_y f) (inner_k f) (y_mat f y n g) (transposed_mat (col_mat f col g)) (g * rows_w f * inner_k f)) (upto (groups f)) dw) dw) (fun dw =>
    obind (on_grad (fun db => obind (map_i f) (fun m => add_row_sums (channels_i f) m dx (n * inner_i f) db)) db) (fun db =>
    Some (col, dy, dw, db)))))) (upto (outer f)) (col, match gy with Some (_, a) => Some a | None => None end, start gw, start gb)) (fun '(_, dy, dw, db) =>
  Some (dy, dw, db)).
