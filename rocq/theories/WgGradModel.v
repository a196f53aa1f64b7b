(** Model of the gradient of the grid of WarpByGrid (src/nbla/function/generic/warp_by_grid.cpp)
    for images, with the conventions of WgModel. *)
From Coq Require Import List ZArith Bool QArith Qcanon Qround.
From Verif Require Import IdxModel JoinModel ScanModel ReduceModel ConvModel QuantModel ItpModel WgModel.
Import ListNotations.
Local Open Scope list_scope.
Local Open Scope Z_scope.

(** get_grad_coef_with_repeat_pad (warp_by_grid.cpp:98-107). *)
Definition repeat_coef (s : Qc) (S : Z) : Qc :=
  if less s 0%Qc then 0%Qc else if less (of_Z (S - 1)) s then 0%Qc else 1%Qc.
(** reflect_coef (warp_by_grid.cpp:109-133). *)
Definition reflect_coef (s : Qc) (L U : Z) : option Qc :=
  let len := U - L in
  let part (d : Qc) := Z.quot (Qnum (d / of_Z len)%Qc) (Zpos (Qden (d / of_Z len)%Qc)) in
  if less s (of_Z L) then
    if len =? 0 then None else
    let n := part (of_Z L - s)%Qc in
    Some (if Z.rem n 2 =? 0 then (- (1))%Qc else 1%Qc)
  else if less (of_Z U) s then
    if len =? 0 then None else
    let n := part (s - of_Z U)%Qc in
    Some (if Z.rem n 2 =? 0 then (- (1))%Qc else 1%Qc)
  else Some 1%Qc.
(** get_grad_coef_with_zero_pad, get_grad_coef_with_reflect_pad (warp_by_grid.cpp:93-96 and
    135-147). *)
Definition pad_coef (m : padding_mode) (align : bool) (s : Qc) (S : Z) : option Qc :=
  match m with
  | Zero => Some 1%Qc
  | Reflect =>
      if align then reflect_coef s 0 (S - 1)
      else obind (reflect_coef (two * s)%Qc (-1) (2 * S - 1)) (fun coef =>
           obind (reflect (two * s)%Qc (-1) (2 * S - 1)) (fun sf => Some (coef * repeat_coef (sf * half)%Qc S)%Qc))
  | Repeat => Some (repeat_coef s S)
  end.
(** get_grad_coef_with_pad (warp_by_grid.cpp:749-762). *)
Definition grad_coef (m : padding_mode) (align : bool) (s : Qc) (S : Z) : option Qc :=
  obind (pad_coef m align s S) (fun coef => Some (if align then (coef * of_Z (S - 1) / two)%Qc else (coef * of_Z S / two)%Qc)).
(** warp_linear_backward_grid_2d (warp_by_grid.cpp:721-808).  The numbers of the grid are read again
    where they are used; no pass writes them. *)
Definition linear_backward_grid (f : warp) (ograd input grid ggrad : list Qc) : option (list Qc) :=
  obind (each_output f grid (fun b c h w yf xf oidx ggrad =>
    let gidx := b * (w_Ho f * w_Wo f * 2) + h * (w_Wo f * 2) + w * 2 in
    obind (get grid (gidx + 0)) (fun xn =>
    obind (get grid (gidx + 1)) (fun yn =>
    let xf0 := unnormalize (w_align f) xn (w_Wi f) in
    let yf0 := unnormalize (w_align f) yn (w_Hi f) in
    let xi0 := Qfloor xf in
    let yi0 := Qfloor yf in
    let xi1 := xi0 + 1 in
    let yi1 := yi0 + 1 in
    let px0 := (xf - of_Z xi0)%Qc in
    let py0 := (yf - of_Z yi0)%Qc in
    let px1 := (1 - px0)%Qc in
    let py1 := (1 - py0)%Qc in
    obind (pixel input (w_C f) (w_Hi f) (w_Wi f) b c yi0 xi0) (fun v_y0x0 =>
    obind (pixel input (w_C f) (w_Hi f) (w_Wi f) b c yi0 xi1) (fun v_y0x1 =>
    obind (pixel input (w_C f) (w_Hi f) (w_Wi f) b c yi1 xi0) (fun v_y1x0 =>
    obind (pixel input (w_C f) (w_Hi f) (w_Wi f) b c yi1 xi1) (fun v_y1x1 =>
    obind (get ograd oidx) (fun grad =>
    let grad_x := (grad * ((v_y0x1 - v_y0x0) * py1 + (v_y1x1 - v_y1x0) * py0))%Qc in
    let grad_y := (grad * ((v_y1x0 - v_y0x0) * px1 + (v_y1x1 - v_y0x1) * px0))%Qc in
    obind (grad_coef (w_mode f) (w_align f) xf0 (w_Wi f)) (fun coef_x =>
    obind (grad_coef (w_mode f) (w_align f) yf0 (w_Hi f)) (fun coef_y =>
    obind (add_at ggrad (gidx + 0) (grad_x * coef_x)%Qc) (fun ggrad =>
    add_at ggrad (gidx + 1) (grad_y * coef_y)%Qc))))))))))) ggrad) (fun '(ggrad, _) => Some ggrad).
(** The part of backward_impl for the grid (warp_by_grid.cpp:1088-1095 and 1230-1270); in the mode
    nearest it is refused. *)
Definition warp_backward_grid (f : warp) (linear channel_last : bool) (ograd input grid : list Qc) (g : grad) : option (option (list Qc)) :=
  if channel_last then None else on_grad (fun ggrad => if linear then linear_backward_grid f ograd input grid ggrad else None) (start g).
