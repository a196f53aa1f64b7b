(** Model of PatchCorrelation (src/nbla/function/generic/patch_correlation.cpp) and of
    F.patch_correlation (python/src/nnabla/functions.py).

    The conventions of ScanModel hold: elements are rational numbers, arrays are lists in memory
    order and None is any error, including a read or write outside an array.  Index arithmetic is
    exact.  The two inputs have gradients of their own (the case of one variable as both inputs
    is not modelled). *)
From Coq Require Import List ZArith Bool QArith Qcanon.
From Verif Require Import IdxModel JoinModel ScanModel ReduceModel ConvModel ItpModel.
From Verif Require FoldModel.
Import ListNotations.
Local Open Scope list_scope.
Local Open Scope Z_scope.

(** The arguments: Shape2D and Pad2D (patch_correlation.cpp:24-48) of the vectors. *)
Record patch_corr := { patch_h : Z; patch_w : Z; shift_h : Z; shift_w : Z; patch_step_h : Z; patch_step_w : Z;
  shift_step_h : Z; shift_step_w : Z; pad_t : Z; pad_b : Z; pad_l : Z; pad_r : Z }.
(** setup_impl (patch_correlation.cpp:52-96): the output's shape.  The division of C++ cuts off
    the fraction. *)
Definition pc_setup (f : patch_corr) (shape1 shape2 : list Z) : option (list Z) :=
  match shape1, shape2 with
  | [n; h; w; c], [n2; h2; w2; c2] =>
    if negb ((n =? n2) && (h =? h2) && (w =? w2) && (c =? c2)) then None
    else if (patch_h f <=? 0) || (patch_w f <=? 0) then None
    else if (shift_h f <? 0) || (shift_w f <? 0) then None
    else if (patch_step_h f <=? 0) || (patch_step_w f <=? 0) then None
    else if (shift_step_h f <=? 0) || (shift_step_w f <=? 0) then None
    else if (pad_t f <? 0) || (pad_b f <? 0) || (pad_l f <? 0) || (pad_r f <? 0) then None
    else
      let och := Z.quot (2 * shift_h f + shift_step_h f) (shift_step_h f) in
      let ocw := Z.quot (2 * shift_w f + shift_step_w f) (shift_step_w f) in
      let oh := Z.quot (h + (pad_t f + pad_b f) - patch_h f + patch_step_h f) (patch_step_h f) in
      let ow := Z.quot (w + (pad_l f + pad_r f) - patch_w f + patch_step_w f) (patch_step_w f) in
      Some [n; oh; ow; och; ocw]
  | _, _ => None
  end.
(** The values of i in for (i = from; i <= last; i += step), for positive step. *)
Fixpoint stepping (fuel : nat) (from last step : Z) : list Z :=
  match fuel with
  | O => []
  | S fuel => if from <=? last then from :: stepping fuel (from + step) last step else []
  end.
Definition from_to (from last step : Z) : list Z := stepping (Z.to_nat (last - from + 1)) from last step.
(** The five loops of forward_impl (patch_correlation.cpp:122-126) and of backward_impl
    (patch_correlation.cpp:188-192) with their counter out_iter. *)
Definition each_place {A : Type} (f : patch_corr) (N H W : Z) (body : Z -> Z -> Z -> Z -> Z -> Z -> A -> option A) (s : A) : option (A * Z) :=
  loop (fun n => loop (fun y => loop (fun x => loop (fun yy => loop (fun xx '(s, out_iter) =>
    obind (body n y x yy xx out_iter s) (fun s => Some (s, out_iter + 1)))
    (from_to (- shift_w f) (shift_w f) (shift_step_w f)))
    (from_to (- shift_h f) (shift_h f) (shift_step_h f)))
    (from_to (- pad_l f) (W - patch_w f + pad_r f) (patch_step_w f)))
    (from_to (- pad_t f) (H - patch_h f + pad_b f) (patch_step_h f)))
    (upto N) (s, 0).
(** The loops over the patch and the channels (patch_correlation.cpp:128-142 and 194-212), with
    i1 + c and i2 + c. *)
Definition each_pair {A : Type} (f : patch_corr) (H W C n y x yy xx : Z) (body : Z -> Z -> A -> option A) (s : A) : option A :=
  let flat n y x := n * H * W * C + y * W * C + x * C in
  loop (fun ky s =>
    if (0 <=? y + ky) && (y + ky <? H) && (0 <=? y + yy + ky) && (y + yy + ky <? H) then
      loop (fun kx s =>
        if (0 <=? x + kx) && (x + kx <? W) && (0 <=? x + xx + kx) && (x + xx + kx <? W) then
          let i1 := flat n (y + ky) (x + kx) in
          let i2 := flat n (y + yy + ky) (x + xx + kx) in
          loop (fun c s => body (i1 + c) (i2 + c) s) (upto C) s
        else Some s) (upto (patch_w f)) s
    else Some s) (upto (patch_h f)) s.
(** forward_impl (patch_correlation.cpp:98-149). *)
Definition pc_forward (f : patch_corr) (N H W C : Z) (in1 in2 out : list Qc) : option (list Qc) :=
  obind (each_place f N H W (fun n y x yy xx out_iter out =>
    obind (each_pair f H W C n y x yy xx (fun i1 i2 value =>
      obind (get in1 i1) (fun a => obind (get in2 i2) (fun b => Some (value + a * b)%Qc))) 0%Qc) (fun value =>
    put out out_iter value)) out) (fun '(out, _) => Some out).
(** backward_impl (patch_correlation.cpp:151-219). *)
Definition pc_backward (f : patch_corr) (N H W C : Z) (in1 in2 out_grad : list Qc) (g1 g2 : grad) : option (option (list Qc) * option (list Qc)) :=
  obind (each_place f N H W (fun n y x yy xx out_iter s =>
    obind (get out_grad out_iter) (fun g =>
    each_pair f H W C n y x yy xx (fun i1 i2 '(in1_grad, in2_grad) =>
      obind (on_grad (fun d => obind (get in2 i2) (fun b => add_at d i1 (b * g)%Qc)) in1_grad) (fun in1_grad =>
      obind (on_grad (fun d => obind (get in1 i1) (fun a => add_at d i2 (a * g)%Qc)) in2_grad) (fun in2_grad =>
      Some (in1_grad, in2_grad)))) s)) (start g1, start g2)) (fun '(s, _) => Some s).

(** An argument that is one integer or a tuple. *)
Inductive one_or_more := One (v : Z) | More (l : list Z).
(** F.patch_correlation (functions.py:1617-1628): the arguments as tuples. *)
Definition pair_of (a : one_or_more) : list Z := match a with One v => [v; v] | More l => l end.
Definition padding_of (a : one_or_more) : list Z :=
  let l := match a with One v => [v; v; v; v] | More l => l end in
  match l with [a; b] => [a; a; b; b] | _ => l end.
(** x of shape (N, C, H, W) as (N, H, W, C) (functions.py:1630-1636). *)
Definition to_last (x : FoldModel.nd) : FoldModel.nd :=
  match FoldModel.sh x with
  | [n; c; h; w] => if c =? 1 then {| FoldModel.sh := [n; h; w; 1]; FoldModel.el := FoldModel.el x |}
                    else FoldModel.np_transpose [0%nat; 2%nat; 3%nat; 1%nat] x
  | _ => x
  end.
(** F.patch_correlation (functions.py:1609-1644).  reshape and transpose are those of arrays (C44
    is about the function Transpose); the vectors' at fails if they are too short.  The output
    is cleared before forward writes it. *)
Definition f_patch_correlation (x1 x2 : FoldModel.nd) (patch shift patch_step shift_step padding : one_or_more) (channel_last : bool) : option FoldModel.nd :=
  if negb (Nat.eqb (length (FoldModel.sh x1)) 4 && Nat.eqb (length (FoldModel.sh x2)) 4) then None
  else if negb (FoldModel.same_shape (FoldModel.sh x1) (FoldModel.sh x2)) then None
  else
    let x1 := if channel_last then x1 else to_last x1 in
    let x2 := if channel_last then x2 else to_last x2 in
    match pair_of patch, pair_of shift, pair_of patch_step, pair_of shift_step, padding_of padding with
    | ph :: pw :: _, sh :: sw :: _, psh :: psw :: _, ssh :: ssw :: _, pt :: pb :: pl :: pr :: _ =>
      let f := {| patch_h := ph; patch_w := pw; shift_h := sh; shift_w := sw; patch_step_h := psh; patch_step_w := psw;
                  shift_step_h := ssh; shift_step_w := ssw; pad_t := pt; pad_b := pb; pad_l := pl; pad_r := pr |} in
      obind (pc_setup f (FoldModel.sh x1) (FoldModel.sh x2)) (fun ys =>
      match FoldModel.sh x1 with
      | [N; H; W; C] =>
        obind (pc_forward f N H W C (FoldModel.el x1) (FoldModel.el x2) (map (fun _ => 0%Qc) (upto (prod ys)))) (fun y =>
        let y := {| FoldModel.sh := ys; FoldModel.el := y |} in
        Some (if channel_last then y else FoldModel.np_transpose [0%nat; 3%nat; 4%nat; 1%nat; 2%nat] y))
      | _ => None
      end)
    | _, _, _, _, _ => None
    end.
