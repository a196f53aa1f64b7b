(** Model of WarpByGrid (src/nbla/function/generic/warp_by_grid.cpp) for images, that is with
    grids of four axes, and of the grids of AffineGrid (src/nbla/function/generic/affine_grid.cpp)
    for images.

    The conventions of ScanModel hold: elements are rational numbers, arrays are lists in memory
    order and None is any error, including a read or write outside an array.  A division by zero,
    which gives infinity or NaN in C++, is an error too.  Index arithmetic is exact, and
    static_cast<int> of coordinates does not overflow. *)
From Coq Require Import List ZArith Bool QArith Qcanon Qround.
From Verif Require Import IdxModel JoinModel ScanModel ReduceModel ConvModel QuantModel ItpModel.
Import ListNotations.
Local Open Scope list_scope.
Local Open Scope Z_scope.

Inductive padding_mode := Zero | Repeat | Reflect.
Definition two : Qc := of_Z 2.
(** unnormalize_grid_with (warp_by_grid.cpp:26-35). *)
Definition unnormalize (align : bool) (x : Qc) (S : Z) : Qc :=
  if align then ((x + 1) * (of_Z S - 1) / two)%Qc else (((x + 1) * of_Z S - 1) / two)%Qc.
(** get_src_findex_with_repeat_pad (warp_by_grid.cpp:42-51). *)
Definition repeat_pad (s : Qc) (S : Z) : Qc :=
  if less s 0%Qc then 0%Qc else if less (of_Z (S - 1)) s then of_Z (S - 1) else s.
(** reflect (warp_by_grid.cpp:53-80). *)
Definition reflect (s : Qc) (L U : Z) : option Qc :=
  let len := U - L in
  let part (d : Qc) := Z.quot (Qnum (d / of_Z len)%Qc) (Zpos (Qden (d / of_Z len)%Qc)) in
  if less s (of_Z L) then
    if len =? 0 then None else
    let d := (of_Z L - s)%Qc in
    let n := part d in
    let r := (d - of_Z n * of_Z len)%Qc in
    Some (if Z.rem n 2 =? 0 then (of_Z L + r)%Qc else (of_Z U - r)%Qc)
  else if less (of_Z U) s then
    if len =? 0 then None else
    let d := (s - of_Z U)%Qc in
    let n := part d in
    let r := (d - of_Z n * of_Z len)%Qc in
    Some (if Z.rem n 2 =? 0 then (of_Z U - r)%Qc else (of_Z L + r)%Qc)
  else Some s.
(** get_src_findex_with_pad (warp_by_grid.cpp:37-40, 82-93 and 211-222). *)
Definition findex (m : padding_mode) (align : bool) (s : Qc) (S : Z) : option Qc :=
  match m with
  | Zero => Some s
  | Reflect =>
      if align then reflect s 0 (S - 1)
      else obind (reflect (two * s)%Qc (-1) (2 * S - 1)) (fun sf => Some (repeat_pad (sf * half)%Qc S))
  | Repeat => Some (repeat_pad s S)
  end.
(** get_pixel_value_2d (warp_by_grid.cpp:148-157), with the strides of (B, C, H, W). *)
Definition pixel (input : list Qc) (C H W b c h w : Z) : option Qc :=
  if (0 <=? h) && (h <? H) && ((0 <=? w) && (w <? W)) then get input (b * (C * H * W) + c * (H * W) + h * W + w) else Some 0%Qc.
(** backward_data_2d (warp_by_grid.cpp:172-180). *)
Definition add_pixel (C H W b c h w : Z) (v : Qc) (igrad : list Qc) : option (list Qc) :=
  if (0 <=? h) && (h <? H) && ((0 <=? w) && (w <? W)) then add_at igrad (b * (C * H * W) + c * (H * W) + h * W + w) v else Some igrad.

(** The arguments and sizes. *)
Record warp := { w_mode : padding_mode; w_align : bool; w_B : Z; w_C : Z; w_Ho : Z; w_Wo : Z; w_Hi : Z; w_Wi : Z }.
(** The loops with the counter oidx, and the coordinates (warp_by_grid.cpp:224-235, 378-389,
    491-502, 554-565 and 763-774). *)
Definition each_output {A : Type} (f : warp) (grid : list Qc) (body : Z -> Z -> Z -> Z -> Qc -> Qc -> Z -> A -> option A) (s : A) : option (A * Z) :=
  loop (fun b => loop (fun c => loop (fun h => loop (fun w '(s, oidx) =>
    let gidx := b * (w_Ho f * w_Wo f * 2) + h * (w_Wo f * 2) + w * 2 in
    obind (get grid (gidx + 0)) (fun xn =>
    obind (get grid (gidx + 1)) (fun yn =>
    obind (findex (w_mode f) (w_align f) (unnormalize (w_align f) xn (w_Wi f)) (w_Wi f)) (fun xf =>
    obind (findex (w_mode f) (w_align f) (unnormalize (w_align f) yn (w_Hi f)) (w_Hi f)) (fun yf =>
    obind (body b c h w yf xf oidx s) (fun s => Some (s, oidx + 1)))))))
    (upto (w_Wo f))) (upto (w_Ho f))) (upto (w_C f))) (upto (w_B f)) (s, 0).
(** warp_linear_forward_2d (warp_by_grid.cpp:197-260). *)
Definition linear_forward (f : warp) (input grid output : list Qc) : option (list Qc) :=
  obind (each_output f grid (fun b c h w yf xf oidx output =>
    let xi0 := Qfloor xf in
    let yi0 := Qfloor yf in
    let xi1 := xi0 + 1 in
    let yi1 := yi0 + 1 in
    let px0 := (xf - of_Z xi0)%Qc in
    let py0 := (yf - of_Z yi0)%Qc in
    let px1 := (1 - px0)%Qc in
    let py1 := (1 - py0)%Qc in
    obind (pixel input (w_C f) (w_Hi f) (w_Wi f) b c yi0 xi0) (fun v_y0x0 =>
    obind (pixel input (w_C f) (w_Hi f) (w_Wi f) b c yi0 xi1) (fun v_y0x1 =>
    obind (pixel input (w_C f) (w_Hi f) (w_Wi f) b c yi1 xi0) (fun v_y1x0 =>
    obind (pixel input (w_C f) (w_Hi f) (w_Wi f) b c yi1 xi1) (fun v_y1x1 =>
    put output oidx (v_y0x0 * py1 * px1 + v_y0x1 * py1 * px0 + v_y1x0 * py0 * px1 + v_y1x1 * py0 * px0)%Qc))))) output) (fun '(output, _) => Some output).
(** static_cast<int>(std::round(v)). *)
Definition round_int (v : Qc) : Z := Qfloor (std_round v).
(** warp_nearest_forward_2d (warp_by_grid.cpp:351-399). *)
Definition nearest_forward (f : warp) (input grid output : list Qc) : option (list Qc) :=
  obind (each_output f grid (fun b c h w yf xf oidx output =>
    obind (pixel input (w_C f) (w_Hi f) (w_Wi f) b c (round_int yf) (round_int xf)) (fun v => put output oidx v)) output) (fun '(output, _) => Some output).
(** warp_linear_backward_data_2d (warp_by_grid.cpp:464-525).  Function::backward (function.cpp:
    158-170) clears the gradient before if it is not to be added to. *)
Definition linear_backward_data (f : warp) (ograd grid igrad : list Qc) : option (list Qc) :=
  obind (each_output f grid (fun b c h w yf xf oidx igrad =>
    let xi0 := Qfloor xf in
    let yi0 := Qfloor yf in
    let xi1 := xi0 + 1 in
    let yi1 := yi0 + 1 in
    let px0 := (xf - of_Z xi0)%Qc in
    let py0 := (yf - of_Z yi0)%Qc in
    let px1 := (1 - px0)%Qc in
    let py1 := (1 - py0)%Qc in
    obind (get ograd oidx) (fun grad =>
    obind (add_pixel (w_C f) (w_Hi f) (w_Wi f) b c yi0 xi0 (grad * py1 * px1)%Qc igrad) (fun igrad =>
    obind (add_pixel (w_C f) (w_Hi f) (w_Wi f) b c yi0 xi1 (grad * py1 * px0)%Qc igrad) (fun igrad =>
    obind (add_pixel (w_C f) (w_Hi f) (w_Wi f) b c yi1 xi0 (grad * py0 * px1)%Qc igrad) (fun igrad =>
    add_pixel (w_C f) (w_Hi f) (w_Wi f) b c yi1 xi1 (grad * py0 * px0)%Qc igrad))))) igrad) (fun '(igrad, _) => Some igrad).
(** warp_nearest_backward_data_2d (warp_by_grid.cpp:527-575). *)
Definition nearest_backward_data (f : warp) (ograd grid igrad : list Qc) : option (list Qc) :=
  obind (each_output f grid (fun b c h w yf xf oidx igrad =>
    obind (get ograd oidx) (fun grad => add_pixel (w_C f) (w_Hi f) (w_Wi f) b c (round_int yf) (round_int xf) (grad * 1 * 1)%Qc igrad)) igrad) (fun '(igrad, _) => Some igrad).
(** forward_impl and the part of backward_impl for the data (warp_by_grid.cpp:977-1006,
    1040-1062, 1093-1095 and 1117-1170), without channel_last, which is refused. *)
Definition warp_forward (f : warp) (linear channel_last : bool) (input grid output : list Qc) : option (list Qc) :=
  if channel_last then None else if linear then linear_forward f input grid output else nearest_forward f input grid output.
Definition warp_backward_data (f : warp) (linear channel_last : bool) (ograd grid : list Qc) (g : grad) : option (option (list Qc)) :=
  if channel_last then None else on_grad (fun igrad => if linear then linear_backward_data f ograd grid igrad else nearest_backward_data f ograd grid igrad) (start g).

(** generate_target_grid_2d (affine_grid.cpp:25-47): one coordinate of pixel [i] of [S]. *)
Definition target (align : bool) (i S : Z) : option Qc :=
  if (S - 1 =? 0) || (negb align && (S =? 0)) then None else
  let y := (two * of_Z i / of_Z (S - 1) - 1)%Qc in
  Some (if align then y else (y * (of_Z (S - 1) / of_Z S))%Qc).
(** AffineGrid for images (affine_grid.cpp:80-92 and 108-125): row h, column w, component k of
    the product of the target grid with the transpose of theta, of shape (B, 2, 3). *)
Definition affine_grid (align : bool) (B H W : Z) (theta grid : list Qc) : option (list Qc) :=
  obind (loop (fun b => loop (fun h => loop (fun w => loop (fun k '(grid, i) =>
    obind (target align h H) (fun y =>
    obind (target align w W) (fun x =>
    obind (get theta (b * 6 + k * 3)) (fun a =>
    obind (get theta (b * 6 + k * 3 + 1)) (fun c =>
    obind (get theta (b * 6 + k * 3 + 2)) (fun d =>
    obind (put grid i (x * a + y * c + 1 * d)%Qc) (fun grid => Some (grid, i + 1))))))))
    (upto 2)) (upto W)) (upto H)) (upto B) (grid, 0)) (fun '(grid, _) => Some grid).
