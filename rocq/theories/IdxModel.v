(** Model of functions that copy elements of an array to places given by index arithmetic:
    Shift, Flip, Pad, Broadcast, Transpose, GatherNd, Gather, Embed, MatrixDiag and
    MatrixDiagPart of src/nbla/function/generic/.

    Elements are integers, added exactly: rounding of float addition is not modelled.  Index
    arithmetic is exact too; NdModel treats what happens when a size does not fit an int.
    Arrays are lists in memory order.  An array got with the flag write_only holds
    unspecified values, here its previous ones.  None is any error: a failed NBLA_CHECK, an
    out-of-range index of at(), a division by zero, or a read or write outside an array.
    Assertions are taken to be compiled out. *)
From Coq Require Import List ZArith Bool.
From Verif Require Import NdModel.
Import ListNotations.
Local Open Scope list_scope.
Local Open Scope Z_scope.

Definition obind {A B : Type} (o : option A) (f : A -> option B) : option B :=
  match o with Some a => f a | None => None end.

(** * Reading and writing *)
Definition rd (a : list Z) (i : Z) : option Z := if i <? 0 then None else nth_error a (Z.to_nat i).
Fixpoint wr_nat (a : list Z) (i : nat) (v : Z) : option (list Z) :=
  match a, i with
  | [], _ => None
  | _ :: a, O => Some (v :: a)
  | x :: a, S i => match wr_nat a i v with Some r => Some (x :: r) | None => None end
  end.
Definition wr (a : list Z) (i v : Z) : option (list Z) := if i <? 0 then None else wr_nat a (Z.to_nat i) v.

(** for (int i = 0; i < n; ++i) *)
Definition upto (n : Z) : list Z := map Z.of_nat (seq 0 (Z.to_nat n)).

(** A loop doing [dst[d] = src[s]] for pairs (d, s) in order. *)
Fixpoint copy_loop (ps : list (Z * Z)) (src dst : list Z) : option (list Z) :=
  match ps with
  | [] => Some dst
  | (d, s) :: ps => obind (rd src s) (fun v => obind (wr dst d v) (copy_loop ps src))
  end.
(** A loop doing [dst[d] += src[s]]. *)
Fixpoint add_loop (ps : list (Z * Z)) (src dst : list Z) : option (list Z) :=
  match ps with
  | [] => Some dst
  | (d, s) :: ps =>
      obind (rd src s) (fun v => obind (rd dst d) (fun w => obind (wr dst d (w + v)) (add_loop ps src)))
  end.
(** A loop doing [dst[d] = src[s]], or [dst[d] = c] when there is no s. *)
Fixpoint fill_loop (c : Z) (ps : list (Z * option Z)) (src dst : list Z) : option (list Z) :=
  match ps with
  | [] => Some dst
  | (d, s) :: ps =>
      obind (match s with Some s => rd src s | None => Some c end) (fun v => obind (wr dst d v) (fill_loop c ps src))
  end.
(** NdArray::zero. *)
Definition zeroed (a : list Z) : list Z := map (fun _ => 0) a.
Definition swap {A B : Type} (p : A * B) : B * A := (snd p, fst p).

(** get_c_contiguous_strides (include/nbla/common.hpp:63-72). *)
Fixpoint cstrides (shape : list Z) : list Z :=
  match shape with
  | [] => []
  | _ :: t => let r := cstrides t in match t, r with s :: _, st :: _ => 1 * (st * s) | _, _ => 1 end :: r
  end.

(** Product of extents: compute_size_by_shape, ndi::inner_size, ndi::outer_size. *)
Definition prod (l : list Z) : Z := fold_left Z.mul l 1.

(** refine_axes (include/nbla/utils/axis_utils.hpp:32-43). *)
Definition refine_axis (ndim : nat) (a : Z) : option Z :=
  if (a <? Z.of_nat ndim) && (- Z.of_nat ndim <=? a) then Some (if a <? 0 then Z.of_nat ndim + a else a) else None.
Fixpoint refine_axes (ndim : nat) (axes : list Z) : option (list Z) :=
  match axes with
  | [] => Some []
  | a :: axes => obind (refine_axis ndim a) (fun a => obind (refine_axes ndim axes) (fun r => Some (a :: r)))
  end.

(** * Shift (shift.cpp) *)

(** The shift of axis [dim] (shift.cpp:42-43). *)
Definition shift_at (shifts : list Z) (ndim dim : nat) : Z :=
  if Nat.leb ndim (length shifts + dim) then - nth (length shifts + dim - ndim) shifts 0 else 0.
(** The index j before multiplication with the stride (shift.cpp:46-55). *)
Definition shift_j (reflect : bool) (size shift i : Z) : Z :=
  if reflect then
    let a := if 1 <? size then Z.rem (Z.abs (i + size * 2 + shift)) (size * 2) else 0 in
    if size <=? a then size * 2 - 1 - a else a
  else Z.min (Z.max (i + shift) 0) (size - 1).
(** shift_recursive (shift.cpp:32-72): pairs (index of y, index of x).  The case of no axis
    is not reached from an array of one axis or more; an array of no axes is read past its
    shape by the code, which [shift_pairs] excludes. *)
Fixpoint shift_rec (reflect : bool) (shifts : list Z) (ndim dim : nat) (shape stride : list Z) (xo yo : Z) : list (Z * Z) :=
  match shape, stride with
  | n :: shape, st :: stride =>
      let sh := shift_at shifts ndim dim in
      flat_map (fun i => shift_rec reflect shifts ndim (S dim) shape stride (xo + shift_j reflect n sh i * st) (yo + i * st)) (upto n)
  | _, _ => [(yo, xo)]
  end.
Definition shift_pairs (reflect : bool) (shifts shape : list Z) : option (list (Z * Z)) :=
  match shape with
  | [] => None
  | _ => Some (shift_rec reflect shifts (length shape) 0 shape (cstrides shape) 0 0)
  end.
(** forward_impl and backward_impl (shift.cpp:74-93). *)
Definition shift_forward (reflect : bool) (shifts shape x y : list Z) : option (list Z) :=
  obind (shift_pairs reflect shifts shape) (fun ps => copy_loop ps x y).
Definition shift_backward (reflect : bool) (shifts shape : list Z) (accum : bool) (dy dx : list Z) : option (list Z) :=
  obind (shift_pairs reflect shifts shape) (fun ps =>
  add_loop (map swap ps) dy (if accum then dx else zeroed dx)).

(** * Flip (flip.cpp) *)

(** flip_recursive (flip.cpp:38-93).  The loop over the last axis, which compares pointers,
    and memcpy are both the loop over i. *)
Fixpoint flip_rec (flip : list bool) (shape stride : list Z) (xo yo : Z) : list (Z * Z) :=
  match flip, shape, stride with
  | f :: flip, n :: shape, st :: stride =>
      let xo := if f then xo + st * (n - 1) else xo in
      let xst := if f then - st else st in
      flat_map (fun i => flip_rec flip shape stride (xo + i * xst) (yo + i * st)) (upto n)
  | _, _, _ => [(yo, xo)]
  end.
(** setup_impl (flip.cpp:29-36) and the loop of forward_impl (flip.cpp:99-102). *)
Definition flip_pairs (axes shape : list Z) : option (list (Z * Z)) :=
  match shape with
  | [] => None
  | _ =>
      obind (refine_axes (length shape) axes) (fun axes =>
      let flip := map (fun d => existsb (Z.eqb d) axes) (upto (Z.of_nat (length shape))) in
      Some (flip_rec flip shape (cstrides shape) 0 0))
  end.
(** forward_impl and backward_impl (flip.cpp:95-116): the backward pass flips dy. *)
Definition flip_forward (axes shape x y : list Z) : option (list Z) :=
  obind (flip_pairs axes shape) (fun ps => copy_loop ps x y).
Definition flip_backward (axes shape : list Z) (accum : bool) (dy dx : list Z) : option (list Z) :=
  obind (flip_pairs axes shape) (fun ps => (if accum then add_loop else copy_loop) ps dy dx).

(** * Pad (pad.cpp) *)

(** The pairs of pad_width (pad.cpp:178-185). *)
Fixpoint pad_pairs (w : list Z) : list (Z * Z) :=
  match w with a :: b :: w => (a, b) :: pad_pairs w | _ => [] end.
Definition padding_of (ndim : nat) (w : list Z) : list (Z * Z) :=
  repeat (0, 0) (ndim - length (pad_pairs w)) ++ pad_pairs w.
(** The shape of y (pad.cpp:187-195). *)
Fixpoint pad_shape (shape : list Z) (padding : list (Z * Z)) : list Z :=
  match shape, padding with
  | n :: shape, (a, b) :: padding => n + a + b :: pad_shape shape padding
  | _, _ => []
  end.
Definition set_front (v : Z) (l : list Z) : list Z := match l with [] => [] | _ :: t => v :: t end.
Record pad_info := { p_padding : list (Z * Z); p_xst : list Z; p_yst : list Z; p_yshape : list Z }.
(** setup_impl (pad.cpp:168-217). *)
Definition pad_setup (shape w : list Z) : option pad_info :=
  if Nat.even (length w) && Nat.leb (length w) (2 * length shape) && forallb (fun v => 0 <=? v) w then
    let padding := padding_of (length shape) w in
    let ys := pad_shape shape padding in
    let npad := (Nat.div2 (length w) + 1)%nat in
    let nout := length ys in
    if Nat.ltb npad nout then
      let k := (nout - npad)%nat in
      Some {| p_padding := skipn k padding;
              p_xst := set_front (prod (skipn (S k) shape)) (skipn k (cstrides shape));
              p_yst := set_front (prod (skipn (S k) ys)) (skipn k (cstrides ys));
              p_yshape := set_front (prod (firstn (S k) ys)) (skipn k ys) |}
    else Some {| p_padding := padding; p_xst := cstrides shape; p_yst := cstrides ys; p_yshape := ys |}
  else None.

(** The index of x of pad_constant_impl (pad.cpp:35-43 and 52-59). *)
Fixpoint const_src (ndi shape : list Z) (padding : list (Z * Z)) (xst : list Z) : option Z :=
  match ndi, shape, padding, xst with
  | i :: ndi, n :: shape, (a, b) :: padding, st :: xst =>
      if (i <? a) || (n - b <=? i) then None
      else obind (const_src ndi shape padding xst) (fun r => Some ((i - a) * st + r))
  | _, _, _, _ => Some 0
  end.
(** reflect_index (pad.cpp:66-72) and the index of x of pad_reflect_impl (pad.cpp:80-89, 99-108). *)
Definition reflect_index (idx len : Z) : Z :=
  if 0 <? len then Z.abs (Z.land (Z.quot idx len) 1 * len - Z.rem idx len) else 0.
Fixpoint reflect_src (ndi shape : list Z) (padding : list (Z * Z)) (xst : list Z) : Z :=
  match ndi, shape, padding, xst with
  | i :: ndi, n :: shape, (a, b) :: padding, st :: xst =>
      reflect_index (Z.abs (i - a)) (n - a - b - 1) * st + reflect_src ndi shape padding xst
  | _, _, _, _ => 0
  end.
(** The index of x of pad_repeat_impl (pad.cpp:121-129 and 139-147). *)
Fixpoint repeat_src (ndi shape : list Z) (padding : list (Z * Z)) (xst : list Z) : Z :=
  match ndi, shape, padding, xst with
  | i :: ndi, n :: shape, (a, b) :: padding, st :: xst =>
      Z.min (n - a - b - 1) (Z.max 0 (i - a)) * st + repeat_src ndi shape padding xst
  | _, _, _, _ => 0
  end.
Inductive pad_mode := PConstant | PReflect | PRepeat.
Definition pad_src (m : pad_mode) (ndi shape : list Z) (padding : list (Z * Z)) (xst : list Z) : option Z :=
  match m with
  | PConstant => const_src ndi shape padding xst
  | PReflect => Some (reflect_src ndi shape padding xst)
  | PRepeat => Some (repeat_src ndi shape padding xst)
  end.
(** The do-while loops over y_ndi: pairs (index of y, index of x if any). *)
Definition pad_list (m : pad_mode) (shape w : list Z) : option (list (Z * option Z)) :=
  obind (pad_setup shape w) (fun p =>
  obind (visit (S (Z.to_nat (prod (p_yshape p)))) (flat2nd 0 (p_yst p)) (p_yshape p)) (fun l =>
  Some (map (fun ndi => (dot ndi (p_yst p), pad_src m ndi (p_yshape p) (p_padding p) (p_xst p))) l))).
Fixpoint used (ps : list (Z * option Z)) : list (Z * Z) :=
  match ps with
  | [] => []
  | (d, Some s) :: ps => (d, s) :: used ps
  | (_, None) :: ps => used ps
  end.
(** forward_impl (pad.cpp:220-253). *)
Definition pad_forward (m : pad_mode) (c : Z) (shape w x y : list Z) : option (list Z) :=
  obind (pad_list m shape w) (fun ps => fill_loop c ps x y).
(** backward_impl (pad.cpp:255-302): the mode constant overwrites when not accumulating, the
    others zero the gradient first. *)
Definition pad_backward (m : pad_mode) (shape w : list Z) (accum : bool) (dy dx : list Z) : option (list Z) :=
  obind (pad_list m shape w) (fun ps =>
  let ps := map swap (used ps) in
  match m with
  | PConstant => (if accum then add_loop else copy_loop) ps dy dx
  | _ => add_loop ps dy (if accum then dx else zeroed dx)
  end).

(** * Broadcast (broadcast.cpp) *)

(** expand_shape (include/nbla/function/broadcast.hpp:32-40). *)
Definition expand_shape (shape : list Z) (n : nat) : list Z := repeat 1 (n - length shape) ++ shape.
(** The checks and strides of setup_impl (broadcast.cpp:45-62). *)
Fixpoint bc_strides (eshape est target : list Z) : option (list Z) :=
  match eshape, est, target with
  | [], [], [] => Some []
  | e :: eshape, st :: est, n :: target =>
      if (e =? n) || (e =? 1) then
        obind (bc_strides eshape est target) (fun r => Some ((if e =? n then st else 0) :: r))
      else None
  | _, _, _ => None
  end.
(** strided_index::_get (broadcast.cpp:77-95), the lists reversed: it runs from the last
    axis.  An array of no axes gives 0 (broadcast.cpp:86). *)
Fixpoint strided_rev (i stride : Z) (shape_rev stride_rev : list Z) : Z :=
  match shape_rev, stride_rev with
  | n :: shape_rev, st :: stride_rev =>
      Z.rem (Z.quot i stride) n * st + strided_rev i (stride * n) shape_rev stride_rev
  | _, _ => 0
  end.
Definition strided_index (i : Z) (shape stride : list Z) : Z := strided_rev i 1 (rev shape) (rev stride).
(** NBLA_BROADCAST_MAX_DIM is 8. *)
Definition bc_pairs (shape target : list Z) : option (list (Z * Z)) :=
  if Nat.leb (length shape) (length target) && Nat.leb (length target) 8 then
    let es := expand_shape shape (length target) in
    obind (bc_strides es (cstrides es) target) (fun st =>
    Some (map (fun i => (i, strided_index i target st)) (upto (prod target))))
  else None.
Definition bc_forward (shape target x y : list Z) : option (list Z) :=
  obind (bc_pairs shape target) (fun ps => copy_loop ps x y).
Definition bc_backward (shape target : list Z) (accum : bool) (dy dx : list Z) : option (list Z) :=
  obind (bc_pairs shape target) (fun ps => add_loop (map swap ps) dy (if accum then dx else zeroed dx)).

(** * Transpose (transpose.cpp) *)

(** Indexing of a vector with a possibly negative int: outside is an error. *)
Definition vget {A : Type} (l : list A) (i : Z) : option A := if i <? 0 then None else nth_error l (Z.to_nat i).
Fixpoint omap {A B : Type} (f : A -> option B) (l : list A) : option (list B) :=
  match l with
  | [] => Some []
  | a :: l => obind (f a) (fun b => obind (omap f l) (fun r => Some (b :: r)))
  end.
Fixpoint erase {A : Type} (n : nat) (l : list A) : list A :=
  match l, n with [], _ => [] | _ :: t, O => t | a :: t, S n => a :: erase n t end.
(** The axes differ (transpose.cpp:43-47). *)
Fixpoint distinct (l : list Z) : bool :=
  match l with [] => true | a :: l => negb (existsb (Z.eqb a) l) && distinct l end.
(** The loop combining successive axes (transpose.cpp:56-70).  None: out of fuel, or an
    index outside. *)
Fixpoint compact (fuel : nat) (i : nat) (axes ishape : list Z) : option (list Z * list Z) :=
  match fuel with
  | O => None
  | S fuel =>
      if Nat.ltb i (length axes) then
        obind (nth_error axes i) (fun t =>
        obind (nth_error axes (i - 1)) (fun p =>
        if t =? p + 1 then
          obind (vget ishape p) (fun np =>
          obind (vget ishape t) (fun nt =>
          obind (wr ishape p (np * nt)) (fun ishape =>
          compact fuel i (map (fun a => if t <? a then a - 1 else a) (erase i axes)) (erase (Z.to_nat t) ishape))))
        else compact fuel (S i) axes ishape))
      else Some (axes, ishape)
  end.
(** The loop filling y_strides_transposed_[axes[i]] = y_strides_[i] (transpose.cpp:84-87). *)
Fixpoint scatter (ps : list (Z * Z)) (l : list Z) : option (list Z) :=
  match ps with [] => Some l | (a, v) :: ps => obind (wr l a v) (scatter ps) end.
Record tr_info := { t_xshape : list Z; t_yshape : list Z; t_xstt : list Z; t_ystt : list Z }.
(** setup_impl (transpose.cpp:27-88): the local copy [axes] is made before refine_axes. *)
Definition tr_setup (axes shape : list Z) : option tr_info :=
  obind (refine_axes (length shape) axes) (fun _ =>
  if Nat.eqb (length shape) (length axes) && distinct axes then
    obind (omap (vget shape) axes) (fun _ =>
    obind (compact (S (2 * length axes)) 1 axes shape) (fun '(axes, xshape) =>
    obind (omap (vget xshape) axes) (fun yshape =>
    obind (strides xshape) (fun xst =>
    obind (strides yshape) (fun yst =>
    obind (omap (vget xst) axes) (fun xstt =>
    obind (scatter (combine axes yst) (repeat 0 (length axes))) (fun ystt =>
    Some {| t_xshape := xshape; t_yshape := yshape; t_xstt := xstt; t_ystt := ystt |})))))))
  else None).
(** The loop of transpose (transpose.cpp:90-99): dst is written in order. *)
Definition tr_pairs (dst_shape stt : list Z) : option (list (Z * Z)) :=
  obind (visit (S (Z.to_nat (prod dst_shape))) (map (fun _ => 0) dst_shape) dst_shape) (fun l =>
  Some (combine (upto (Z.of_nat (length l))) (map (fun ndi => dot ndi stt) l))).
Definition transpose_forward (axes shape x y : list Z) : option (list Z) :=
  obind (tr_setup axes shape) (fun t => obind (tr_pairs (t_yshape t) (t_xstt t)) (fun ps => copy_loop ps x y)).
Definition transpose_backward (axes shape : list Z) (accum : bool) (dy dx : list Z) : option (list Z) :=
  obind (tr_setup axes shape) (fun t => obind (tr_pairs (t_xshape t) (t_ystt t)) (fun ps =>
  (if accum then add_loop else copy_loop) ps dy dx)).

(** * GatherNd (gather_nd.cpp) *)

(** The index of one row, checked and made non-negative (gather_nd.cpp:74-81). *)
Definition norm_index (index n : Z) : option Z :=
  if index <? n then if - n <=? index then Some (if index <? 0 then n + index else index) else None else None.
(** src_ndi for column [i] (gather_nd.cpp:73-82); axes beyond the rows keep 0. *)
Fixpoint gnd_index (idx : list Z) (cols i m : Z) (shape : list Z) (rows : nat) : option (list Z) :=
  match rows, shape with
  | O, _ => Some (map (fun _ => 0) shape)
  | S rows, n :: shape =>
      obind (rd idx (m * cols + i)) (fun index =>
      obind (norm_index index n) (fun j =>
      obind (gnd_index idx cols i (m + 1) shape rows) (fun r => Some (j :: r))))
  | S _, [] => None
  end.
(** setup_impl (gather_nd.cpp:26-54): the shape of the output. *)
Definition gnd_shape (shape ishape : list Z) : option (list Z) :=
  match ishape with
  | rows :: ((_ :: _) as rest) =>
      if Nat.leb (Z.to_nat rows) (length shape) then Some (rest ++ skipn (Z.to_nat rows) shape) else None
  | _ => None
  end.
(** The loops of forward_impl (gather_nd.cpp:66-88); those of backward_impl are the same. *)
Definition gnd_pairs (shape ishape idx : list Z) : option (list (Z * Z)) :=
  obind (gnd_shape shape ishape) (fun _ =>
  obind (strides shape) (fun st =>
  let rows := hd 0 ishape in
  let cols := prod (tl ishape) in
  obind (omap (fun i =>
     obind (gnd_index idx cols i 0 shape (Z.to_nat rows)) (fun ndi =>
     obind (vget st (rows - 1)) (fun len =>
     Some (map (fun k => (i * len + k, dot ndi st + k)) (upto len))))) (upto cols)) (fun l =>
  Some (concat l)))).
Definition gnd_forward (shape ishape idx x y : list Z) : option (list Z) :=
  obind (gnd_pairs shape ishape idx) (fun ps => copy_loop ps x y).
Definition gnd_backward (shape ishape idx : list Z) (accum : bool) (dy dx : list Z) : option (list Z) :=
  obind (gnd_pairs shape ishape idx) (fun ps => add_loop (map swap ps) dy (if accum then dx else zeroed dx)).

(** * Gather (gather.cpp) *)

(** The checks of setup_impl (gather.cpp:44-59), with axis already refined, and the shape of
    the output (gather.cpp:61-73).  batch_dims is not negative. *)
Definition ga_shape (axis bd : nat) (shape ishape : list Z) : option (list Z) :=
  if Nat.ltb axis (length shape) && Nat.leb bd (length shape) && Nat.leb bd (length ishape) &&
     forallb (fun p => fst p =? snd p) (combine (firstn bd shape) (firstn bd ishape))
  then Some (firstn axis shape ++ skipn bd ishape ++ skipn (S axis) shape) else None.
(** The loops of forward_impl (gather.cpp:92-142); those of backward_impl are the same. *)
Definition ga_pairs (axis bd : nat) (shape ishape idx : list Z) : option (list (Z * Z)) :=
  obind (ga_shape axis bd shape ishape) (fun yshape =>
  obind (nth_error shape axis) (fun x1 =>
  let x2 := prod (skipn (S axis) shape) in
  let i0 := prod (firstn bd ishape) in
  let i1 := prod (skipn bd ishape) in
  let y0 := prod (firstn axis yshape) in
  if i0 =? 0 then None else
  let lead := Z.quot y0 i0 in
  obind (omap (fun i =>
     if lead =? 0 then None else
     let b := hd 0 (flat2nd i [lead; 1]) in
     obind (omap (fun j =>
        obind (rd idx (dot [b; j] [i1; 1])) (fun g =>
        if (0 <=? g) && (g <? x1) then
          Some (map (fun k => (dot [i; j; k] [i1 * x2; x2; 1], dot [i; g; k] [x1 * x2; x2; 1])) (upto x2))
        else None)) (upto i1)) (fun l => Some (concat l))) (upto y0)) (fun l =>
  Some (concat l)))).
Definition ga_forward (axis bd : nat) (shape ishape idx x y : list Z) : option (list Z) :=
  obind (ga_pairs axis bd shape ishape idx) (fun ps => copy_loop ps x y).
(** backward_impl (gather.cpp:145-216): accum is not used. *)
Definition ga_backward (axis bd : nat) (shape ishape idx : list Z) (accum : bool) (dy dx : list Z) : option (list Z) :=
  obind (ga_pairs axis bd shape ishape idx) (fun ps => add_loop (map swap ps) dy dx).

(** * Embed (embed.cpp) *)

(** forward_impl and embed_backward_cpu (embed.cpp:38-59); [ix] are the elements of x, which
    are not checked. *)
Definition em_pairs (ishape wshape ix : list Z) : option (list (Z * Z)) :=
  match wshape with
  | [] => None
  | _ :: rest =>
      let st := prod rest in
      obind (omap (fun i => obind (rd ix i) (fun v => Some (map (fun j => (i * st + j, v * st + j)) (upto st)))) (upto (prod ishape)))
        (fun l => Some (concat l))
  end.
Definition em_forward (ishape wshape ix w y : list Z) : option (list Z) :=
  obind (em_pairs ishape wshape ix) (fun ps => copy_loop ps w y).
Definition em_backward (ishape wshape ix : list Z) (accum : bool) (dy dw : list Z) : option (list Z) :=
  obind (em_pairs ishape wshape ix) (fun ps => add_loop (map swap ps) dy (if accum then dw else zeroed dw)).

(** * MatrixDiagPart (matrix_diag_part.cpp) and MatrixDiag (matrix_diag.cpp) *)

(** setup_impl (matrix_diag_part.cpp:27-47): the second check assigns, so that it only fails
    when the last extent is 0, and the shape of the output has the last extent in the place
    of the second last. *)
Definition mdp_setup (shape : list Z) : option (Z * list Z) :=
  match rev shape with
  | n :: _ :: r => if n =? 0 then None else Some (n, rev (n :: r))
  | _ => None
  end.
Definition mdp_pairs (n : Z) (yshape : list Z) : list (Z * Z) :=
  map (fun i => (i, i * n + Z.rem i n)) (upto (prod yshape)).
Definition mdp_forward (shape x y : list Z) : option (list Z) :=
  obind (mdp_setup shape) (fun '(n, ys) => copy_loop (mdp_pairs n ys) x y).
(** Both loops of matrix_diag_part_backward_cpu (matrix_diag_part.cpp:60-76), the inner one
    writing a row of zeros but for the diagonal; used for MatrixDiag::forward_impl
    (matrix_diag.cpp:45-53) too, which is the same loop. *)
Definition diag_list (n size : Z) : list (Z * option Z) :=
  flat_map (fun i => map (fun j => (i * n + j, if Z.rem i n =? j then Some i else None)) (upto n)) (upto size).
Definition mdp_backward (shape : list Z) (accum : bool) (dy dx : list Z) : option (list Z) :=
  obind (mdp_setup shape) (fun '(n, ys) =>
  if accum then add_loop (map swap (mdp_pairs n ys)) dy dx else fill_loop 0 (diag_list n (prod ys)) dy dx).
(** matrix_diag.cpp:27-82. *)
Definition md_forward (shape x y : list Z) : option (list Z) :=
  match rev shape with [] => None | n :: _ => fill_loop 0 (diag_list n (prod shape)) x y end.
Definition md_backward (shape : list Z) (accum : bool) (dy dx : list Z) : option (list Z) :=
  match rev shape with
  | [] => None
  | n :: _ => (if accum then add_loop else copy_loop) (mdp_pairs n shape) dy dx
  end.
