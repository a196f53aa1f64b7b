(** Model of Interpolate (src/nbla/function/generic/interpolate.cpp) and of F.interpolate
    (python/src/nnabla/functions.py).

    The conventions of ScanModel hold: elements are rational numbers, arrays are lists in memory
    order and None is any error, including a read or write outside an array.  The scales and
    coordinates of type float are rational numbers too, so rounding is not modelled.  Index
    arithmetic is exact.  The loops over outer_dim are done in order (OpenMP is not modelled). *)
From Coq Require Import List ZArith Bool QArith Qcanon Qround.
From Verif Require Import IdxModel JoinModel ScanModel ReduceModel ConvModel FindModel QuantModel.
Import ListNotations.
Local Open Scope list_scope.
Local Open Scope Z_scope.

(** static_cast<int> of a float: the fraction is cut off. *)
Definition to_int (f : Qc) : Z := Z.quot (Qnum f) (Zpos (Qden f)).
(** compute_scale (interpolate.cpp:24-29). *)
Definition compute_scale (isize osize : Z) (align : bool) : Qc :=
  if osize <=? 1 then 0%Qc
  else if align then (of_Z (isize - 1) / of_Z (osize - 1))%Qc else (of_Z isize / of_Z osize)%Qc.
(** compute_scale_for_nn (interpolate.cpp:31-35). *)
Definition compute_scale_for_nn (isize osize : Z) (align half_for_nn : bool) : Qc :=
  if half_for_nn then (of_Z isize / of_Z osize)%Qc else compute_scale isize osize align.
(** get_src_index (interpolate.cpp:37-40). *)
Definition get_src_index (scale : Qc) (dst_index : Z) (half_pixel : bool) : Qc :=
  if half_pixel then let v := (scale * (of_Z dst_index + half) - half)%Qc in if less 0%Qc v then v else 0%Qc
  else (scale * of_Z dst_index)%Qc.
(** get_src_index_for_nn (interpolate.cpp:42-46). *)
Definition get_src_index_for_nn (scale : Qc) (dst_index : Z) (half_pixel half_for_nn : bool) : Qc :=
  if half_for_nn then (scale * (of_Z dst_index + half))%Qc else get_src_index scale dst_index half_pixel.

(** The two pixels of one axis and their weights: x1, x2, lx0, lx1 (interpolate.cpp:52-56, and
    the same lines for every axis of the other functions). *)
Record pair := Pair { p1 : Z; p2 : Z; l0 : Qc; l1 : Qc }.
Definition pair_of (n : Z) (s : Qc) (half_pixel : bool) (o : Z) : pair :=
  let f := get_src_index s o half_pixel in
  let x1 := to_int f in
  let x2 := Z.min (x1 + 1) (n - 1) in
  let lx1 := (f - of_Z x1)%Qc in
  Pair x1 x2 (1 - lx1)%Qc lx1.
(** The same in the backward functions (interpolate.cpp:137-141). *)
Definition back_pair_of (n : Z) (s : Qc) (half_pixel : bool) (o : Z) : pair :=
  let f := get_src_index s o half_pixel in
  let x1 := to_int f in
  let x2 := if x1 <? n - 1 then x1 + 1 else x1 in
  let lx1 := (f - of_Z x1)%Qc in
  Pair x1 x2 (1 - lx1)%Qc lx1.
(** The pixel of one axis (interpolate.cpp:229-230, and the same lines of the other functions). *)
Definition pixel_of (n : Z) (s : Qc) (half_pixel half_for_nn : bool) (o : Z) : Z :=
  Z.min (to_int (get_src_index_for_nn s o half_pixel half_for_nn)) (n - 1).
(** dst[p] += v. *)
Definition add_at (dst : list Qc) (p : Z) (v : Qc) : option (list Qc) := obind (get dst p) (fun c => put dst p (c + v)%Qc).

(** * Forward.  The pointers are src + so and dst + do. *)

(** linear_interpolate_1d (interpolate.cpp:48-62). *)
Definition linear_1d (src : list Qc) (so d : Z) (iw ow : Z) (sx : Qc) (half_pixel : bool) (dst : list Qc) : option (list Qc) :=
  loop (fun ox dst =>
    let x := pair_of iw sx half_pixel ox in
    obind (get src (so + p1 x)) (fun v0 => obind (get src (so + p2 x)) (fun v1 =>
    put dst (d + ox) (l0 x * v0 + l1 x * v1)%Qc))) (upto ow) dst.
(** linear_interpolate_2d (interpolate.cpp:64-91). *)
Definition linear_2d (src : list Qc) (so d : Z) (iw ih ow oh : Z) (sx sy : Qc) (half_pixel : bool) (dst : list Qc) : option (list Qc) :=
  loop (fun oy => let y := pair_of ih sy half_pixel oy in loop (fun ox dst =>
    let x := pair_of iw sx half_pixel ox in
    obind (get src (so + (p1 y * iw + p1 x))) (fun v0 => obind (get src (so + (p1 y * iw + p2 x))) (fun v1 =>
    obind (get src (so + (p2 y * iw + p1 x))) (fun v2 => obind (get src (so + (p2 y * iw + p2 x))) (fun v3 =>
    put dst (d + (oy * ow + ox)) (l0 y * (l0 x * v0 + l1 x * v1) + l1 y * (l0 x * v2 + l1 x * v3))%Qc))))) (upto ow)) (upto oh) dst.
(** linear_interpolate_3d (interpolate.cpp:93-132). *)
Definition linear_3d (src : list Qc) (so d : Z) (iw ih id ow oh od : Z) (sx sy sz : Qc) (half_pixel : bool) (dst : list Qc) : option (list Qc) :=
  loop (fun oz => let z := pair_of id sz half_pixel oz in loop (fun oy => let y := pair_of ih sy half_pixel oy in loop (fun ox dst =>
    let x := pair_of iw sx half_pixel ox in
    let at_ a b c := get src (so + (a * ih * iw + b * iw + c)) in
    obind (at_ (p1 z) (p1 y) (p1 x)) (fun v0 => obind (at_ (p1 z) (p1 y) (p2 x)) (fun v1 =>
    obind (at_ (p1 z) (p2 y) (p1 x)) (fun v2 => obind (at_ (p1 z) (p2 y) (p2 x)) (fun v3 =>
    obind (at_ (p2 z) (p1 y) (p1 x)) (fun v4 => obind (at_ (p2 z) (p1 y) (p2 x)) (fun v5 =>
    obind (at_ (p2 z) (p2 y) (p1 x)) (fun v6 => obind (at_ (p2 z) (p2 y) (p2 x)) (fun v7 =>
    let v8 := (l0 y * (l0 x * v0 + l1 x * v1) + l1 y * (l0 x * v2 + l1 x * v3))%Qc in
    let v9 := (l0 y * (l0 x * v4 + l1 x * v5) + l1 y * (l0 x * v6 + l1 x * v7))%Qc in
    put dst (d + (oz * oh * ow + oy * ow + ox)) (l0 z * v8 + l1 z * v9)%Qc)))))))))
    (upto ow)) (upto oh)) (upto od) dst.
(** nearest_interpolate_1d (interpolate.cpp:224-233). *)
Definition nearest_1d (src : list Qc) (so d : Z) (iw ow : Z) (sx : Qc) (half_pixel nn : bool) (dst : list Qc) : option (list Qc) :=
  loop (fun ox dst => obind (get src (so + pixel_of iw sx half_pixel nn ox)) (fun v => put dst (d + ox) v)) (upto ow) dst.
(** nearest_interpolate_2d (interpolate.cpp:235-250). *)
Definition nearest_2d (src : list Qc) (so d : Z) (iw ih ow oh : Z) (sx sy : Qc) (half_pixel nn : bool) (dst : list Qc) : option (list Qc) :=
  loop (fun oy => let iy := pixel_of ih sy half_pixel nn oy in loop (fun ox dst =>
    let ix := pixel_of iw sx half_pixel nn ox in
    obind (get src (so + (iy * iw + ix))) (fun v => put dst (d + (oy * ow + ox)) v)) (upto ow)) (upto oh) dst.
(** nearest_interpolate_3d (interpolate.cpp:252-275). *)
Definition nearest_3d (src : list Qc) (so d : Z) (iw ih id ow oh od : Z) (sx sy sz : Qc) (half_pixel nn : bool) (dst : list Qc) : option (list Qc) :=
  loop (fun oz => let iz := pixel_of id sz half_pixel nn oz in loop (fun oy => let iy := pixel_of ih sy half_pixel nn oy in loop (fun ox dst =>
    let ix := pixel_of iw sx half_pixel nn ox in
    obind (get src (so + (iz * ih * iw + iy * iw + ix))) (fun v => put dst (d + (oz * oh * ow + oy * ow + ox)) v))
    (upto ow)) (upto oh)) (upto od) dst.

(** * Backward.  The pointers are dst + d and src + so. *)

(** linear_interpolate_1d_backward (interpolate.cpp:134-148). *)
Definition linear_1d_backward (src : list Qc) (so d : Z) (iw ow : Z) (sx : Qc) (half_pixel : bool) (dst : list Qc) : option (list Qc) :=
  loop (fun ox dst =>
    let x := back_pair_of iw sx half_pixel ox in
    obind (get src (so + ox)) (fun g =>
    obind (add_at dst (d + p1 x) (l0 x * g)%Qc) (fun dst => add_at dst (d + p2 x) (l1 x * g)%Qc))) (upto ow) dst.
(** linear_interpolate_2d_backward (interpolate.cpp:150-180). *)
Definition linear_2d_backward (src : list Qc) (so d : Z) (iw ih ow oh : Z) (sx sy : Qc) (half_pixel : bool) (dst : list Qc) : option (list Qc) :=
  loop (fun oy => let y := back_pair_of ih sy half_pixel oy in loop (fun ox dst =>
    let x := back_pair_of iw sx half_pixel ox in
    obind (get src (so + (oy * ow + ox))) (fun g =>
    obind (add_at dst (d + (p1 y * iw + p1 x)) (l0 y * l0 x * g)%Qc) (fun dst =>
    obind (add_at dst (d + (p1 y * iw + p2 x)) (l0 y * l1 x * g)%Qc) (fun dst =>
    obind (add_at dst (d + (p2 y * iw + p1 x)) (l1 y * l0 x * g)%Qc) (fun dst =>
    add_at dst (d + (p2 y * iw + p2 x)) (l1 y * l1 x * g)%Qc))))) (upto ow)) (upto oh) dst.
(** linear_interpolate_3d_backward (interpolate.cpp:182-222). *)
Definition linear_3d_backward (src : list Qc) (so d : Z) (iw ih id ow oh od : Z) (sx sy sz : Qc) (half_pixel : bool) (dst : list Qc) : option (list Qc) :=
  loop (fun oz => let z := back_pair_of id sz half_pixel oz in loop (fun oy => let y := back_pair_of ih sy half_pixel oy in loop (fun ox dst =>
    let x := back_pair_of iw sx half_pixel ox in
    let at_ a b c := d + (a * ih * iw + b * iw + c) in
    obind (get src (so + (oz * oh * ow + oy * ow + ox))) (fun g =>
    obind (add_at dst (at_ (p1 z) (p1 y) (p1 x)) (l0 z * l0 y * l0 x * g)%Qc) (fun dst =>
    obind (add_at dst (at_ (p1 z) (p1 y) (p2 x)) (l0 z * l0 y * l1 x * g)%Qc) (fun dst =>
    obind (add_at dst (at_ (p1 z) (p2 y) (p1 x)) (l0 z * l1 y * l0 x * g)%Qc) (fun dst =>
    obind (add_at dst (at_ (p1 z) (p2 y) (p2 x)) (l0 z * l1 y * l1 x * g)%Qc) (fun dst =>
    obind (add_at dst (at_ (p2 z) (p1 y) (p1 x)) (l1 z * l0 y * l0 x * g)%Qc) (fun dst =>
    obind (add_at dst (at_ (p2 z) (p1 y) (p2 x)) (l1 z * l0 y * l1 x * g)%Qc) (fun dst =>
    obind (add_at dst (at_ (p2 z) (p2 y) (p1 x)) (l1 z * l1 y * l0 x * g)%Qc) (fun dst =>
    add_at dst (at_ (p2 z) (p2 y) (p2 x)) (l1 z * l1 y * l1 x * g)%Qc)))))))))
    (upto ow)) (upto oh)) (upto od) dst.
(** nearest_interpolate_1d_backward (interpolate.cpp:277-287). *)
Definition nearest_1d_backward (src : list Qc) (so d : Z) (iw ow : Z) (sx : Qc) (half_pixel nn : bool) (dst : list Qc) : option (list Qc) :=
  loop (fun ox dst => obind (get src (so + ox)) (fun g => add_at dst (d + pixel_of iw sx half_pixel nn ox) g)) (upto ow) dst.
(** nearest_interpolate_2d_backward (interpolate.cpp:289-305). *)
Definition nearest_2d_backward (src : list Qc) (so d : Z) (iw ih ow oh : Z) (sx sy : Qc) (half_pixel nn : bool) (dst : list Qc) : option (list Qc) :=
  loop (fun oy => let iy := pixel_of ih sy half_pixel nn oy in loop (fun ox dst =>
    let ix := pixel_of iw sx half_pixel nn ox in
    obind (get src (so + (oy * ow + ox))) (fun g => add_at dst (d + (iy * iw + ix)) g)) (upto ow)) (upto oh) dst.
(** nearest_interpolate_3d_backward (interpolate.cpp:307-332). *)
Definition nearest_3d_backward (src : list Qc) (so d : Z) (iw ih id ow oh od : Z) (sx sy sz : Qc) (half_pixel nn : bool) (dst : list Qc) : option (list Qc) :=
  loop (fun oz => let iz := pixel_of id sz half_pixel nn oz in loop (fun oy => let iy := pixel_of ih sy half_pixel nn oy in loop (fun ox dst =>
    let ix := pixel_of iw sx half_pixel nn ox in
    obind (get src (so + (oz * oh * ow + oy * ow + ox))) (fun g => add_at dst (d + (iz * ih * iw + iy * iw + ix)) g))
    (upto ow)) (upto oh)) (upto od) dst.

(** * The function *)

(** The arguments; the mode is a string in the code. *)
Inductive kind := Linear | Nearest | Other_mode.
Record itp := { output_size : list Z; mode : kind; align_corners : bool; half_pixel : bool; half_pixel_for_nn : bool; channel_last : bool }.

(** setup_impl (interpolate.cpp:334-357): the shape of the output.  If there are too few axes,
    the offset is a huge unsigned number: a write outside out_shape. *)
Definition itp_setup (f : itp) (shape : list Z) : option (list Z) :=
  let k := Z.of_nat (length (output_size f)) in
  if negb ((1 <=? k) && (k <=? 3)) then None else
  match mode f with Other_mode => None | _ =>
  if negb (negb (align_corners f) || negb (half_pixel f)) then None else
  let offset := if channel_last f then Z.of_nat (length shape) - k - 1 else Z.of_nat (length shape) - k in
  if offset <? 0 then None else
  Some (firstn (Z.to_nat offset) shape ++ output_size f ++ skipn (Z.to_nat (offset + k)) shape)
  end.
(** The size of axis ndim - i. *)
Definition axis_size (shape : list Z) (i : Z) : option Z := get shape (Z.of_nat (length shape) - i).

(** forward_impl (interpolate.cpp:359-470); [ishape] and [oshape] are the shapes of the input
    and the output. *)
Definition itp_forward (f : itp) (ishape oshape : list Z) (src dst : list Qc) : option (list Qc) :=
  if channel_last f then None else
  let a := align_corners f in let h := half_pixel f in let nn := half_pixel_for_nn f in
  match Z.of_nat (length (output_size f)) with
  | 1 =>
      obind (axis_size ishape 1) (fun iw => obind (axis_size oshape 1) (fun ow =>
      obind (divide (prod ishape) iw) (fun outer =>
      match mode f with
      | Linear => let sx := compute_scale iw ow a in
          loop (fun n => linear_1d src (n * iw) (n * ow) iw ow sx h) (upto outer) dst
      | Nearest => let sx := compute_scale_for_nn iw ow a nn in
          loop (fun n => nearest_1d src (n * iw) (n * ow) iw ow sx h nn) (upto outer) dst
      | Other_mode => Some dst
      end)))
  | 2 =>
      obind (axis_size ishape 1) (fun iw => obind (axis_size ishape 2) (fun ih =>
      obind (axis_size oshape 1) (fun ow => obind (axis_size oshape 2) (fun oh =>
      obind (divide (prod ishape) (iw * ih)) (fun outer =>
      match mode f with
      | Linear => let sx := compute_scale iw ow a in let sy := compute_scale ih oh a in
          loop (fun n => linear_2d src (n * (iw * ih)) (n * (ow * oh)) iw ih ow oh sx sy h) (upto outer) dst
      | Nearest => let sx := compute_scale_for_nn iw ow a nn in let sy := compute_scale_for_nn ih oh a nn in
          loop (fun n => nearest_2d src (n * (iw * ih)) (n * (ow * oh)) iw ih ow oh sx sy h nn) (upto outer) dst
      | Other_mode => Some dst
      end)))))
  | 3 =>
      obind (axis_size ishape 1) (fun iw => obind (axis_size ishape 2) (fun ih => obind (axis_size ishape 3) (fun id =>
      obind (axis_size oshape 1) (fun ow => obind (axis_size oshape 2) (fun oh => obind (axis_size oshape 3) (fun od =>
      obind (divide (prod ishape) (id * iw * ih)) (fun outer =>
      match mode f with
      | Linear => let sx := compute_scale iw ow a in let sy := compute_scale ih oh a in let sz := compute_scale id od a in
          loop (fun n => linear_3d src (n * (iw * ih * id)) (n * (ow * oh * od)) iw ih id ow oh od sx sy sz h) (upto outer) dst
      | Nearest => let sx := compute_scale_for_nn iw ow a nn in let sy := compute_scale_for_nn ih oh a nn in let sz := compute_scale_for_nn id od a nn in
          loop (fun n => nearest_3d src (n * (iw * ih * id)) (n * (ow * oh * od)) iw ih id ow oh od sx sy sz h nn) (upto outer) dst
      | Other_mode => Some dst
      end)))))))
  | _ => Some dst
  end.
(** backward_impl (interpolate.cpp:472-600).  The gradient [g] is a pair of accum and the previous
    value, or None if it is not to be propagated; without accum, Function::backward sets it to
    zero before (src/nbla/function.cpp:159-174); accum itself is not used here. *)
Definition itp_backward (f : itp) (ishape oshape : list Z) (gy : list Qc) (g : grad) : option (option (list Qc)) :=
  if channel_last f then None else
  let a := align_corners f in let h := half_pixel f in let nn := half_pixel_for_nn f in
  on_grad (fun gx =>
  match Z.of_nat (length (output_size f)) with
  | 1 =>
      obind (axis_size ishape 1) (fun iw => obind (axis_size oshape 1) (fun ow =>
      obind (divide (prod ishape) iw) (fun outer =>
      match mode f with
      | Linear => let sx := compute_scale iw ow a in
          loop (fun n => linear_1d_backward gy (n * ow) (n * iw) iw ow sx h) (upto outer) gx
      | Nearest => let sx := compute_scale_for_nn iw ow a nn in
          loop (fun n => nearest_1d_backward gy (n * ow) (n * iw) iw ow sx h nn) (upto outer) gx
      | Other_mode => Some gx
      end)))
  | 2 =>
      obind (axis_size ishape 1) (fun iw => obind (axis_size ishape 2) (fun ih =>
      obind (axis_size oshape 1) (fun ow => obind (axis_size oshape 2) (fun oh =>
      obind (divide (prod ishape) (iw * ih)) (fun outer =>
      match mode f with
      | Linear => let sx := compute_scale iw ow a in let sy := compute_scale ih oh a in
          loop (fun n => linear_2d_backward gy (n * (ow * oh)) (n * (iw * ih)) iw ih ow oh sx sy h) (upto outer) gx
      | Nearest => let sx := compute_scale_for_nn iw ow a nn in let sy := compute_scale_for_nn ih oh a nn in
          loop (fun n => nearest_2d_backward gy (n * (ow * oh)) (n * (iw * ih)) iw ih ow oh sx sy h nn) (upto outer) gx
      | Other_mode => Some gx
      end)))))
  | 3 =>
      obind (axis_size ishape 1) (fun iw => obind (axis_size ishape 2) (fun ih => obind (axis_size ishape 3) (fun id =>
      obind (axis_size oshape 1) (fun ow => obind (axis_size oshape 2) (fun oh => obind (axis_size oshape 3) (fun od =>
      obind (divide (prod ishape) (iw * ih * id)) (fun outer =>
      match mode f with
      | Linear => let sx := compute_scale iw ow a in let sy := compute_scale ih oh a in let sz := compute_scale id od a in
          loop (fun n => linear_3d_backward gy (n * (ow * oh * od)) (n * (iw * ih * id)) iw ih id ow oh od sx sy sz h) (upto outer) gx
      | Nearest => let sx := compute_scale_for_nn iw ow a nn in let sy := compute_scale_for_nn ih oh a nn in let sz := compute_scale_for_nn id od a nn in
          loop (fun n => nearest_3d_backward gy (n * (ow * oh * od)) (n * (iw * ih * id)) iw ih id ow oh od sx sy sz h nn) (upto outer) gx
      | Other_mode => Some gx
      end)))))))
  | _ => Some gx
  end) (start g).

(** F.interpolate (functions.py:769-886): the output sizes from scale and output_size.  A slice
    from a negative number of more than all axes starts at the first axis. *)
Definition last_axes (shape : list Z) (k : nat) (channel_last : bool) : list Z :=
  if channel_last then removelast (skipn (length shape - k - 1) shape) else skipn (length shape - k) shape.
Definition f_interpolate_size (shape : list Z) (scale : option (list Qc)) (output_size : option (list Z)) (channel_last : bool) : option (list Z) :=
  match scale, output_size with
  | None, None => None
  | _, Some o => Some o
  | Some s, None => Some (map (fun '(d, s) => Qfloor (s * of_Z d)%Qc) (combine (last_axes shape (length s) channel_last) s))
  end.
