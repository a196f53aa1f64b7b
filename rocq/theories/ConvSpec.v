(** What convolutions should compute. *)
From Coq Require Import List ZArith Bool QArith Qcanon.
From Verif Require Import NdSpec ScanSpec ReduceSpec.
Import ListNotations.
Local Open Scope list_scope.
Local Open Scope Z_scope.

(** The place in the padded input that position [k] of the kernel meets at position [o] of the
    output. *)
Fixpoint tap (stride dilation pad k o : list Z) : list Z :=
  match stride, dilation, pad, k, o with
  | s :: stride, d :: dilation, p :: pad, k :: ks, o :: os => (o * s + k * d - p) :: tap stride dilation pad ks os
  | _, _, _, _, _ => []
  end.
Fixpoint is_inside (idx shape : list Z) : bool :=
  match idx, shape with
  | [], [] => true
  | i :: idx, n :: shape => (0 <=? i) && (i <? n) && is_inside idx shape
  | _, _ => false
  end.
(** The element of channel [c] of sample [a] of [x], zero outside. *)
Definition padded (x : list Qc) (A : list Z) (C : Z) (S : list Z) (a : list Z) (c : Z) (i : list Z) : Qc :=
  if is_inside i S then qelem x (A ++ C :: S) (a ++ c :: i) else 0%Qc.
(** Sum over a list. *)
Definition total {A : Type} (l : list A) (f : A -> Qc) : Qc := lsum (map f l).

(** A layer: the shape of the batch, the channels of the image, those of the output, the
    number of groups, the shapes of the image and of the kernel, padding, stride and dilation. *)
Record layer := { batch : list Z; image_channels : Z; output_channels : Z; parts : Z;
  image : list Z; window : list Z; padding : list Z; steps : list Z; spacing : list Z }.
(** Every output channel belongs to one group, and sees only the image channels of that. *)
Definition channels_per_part (l : layer) : Z := image_channels l / parts l.
Definition outputs_per_part (l : layer) : Z := output_channels l / parts l.
(** The channel that channel [c] of the weights for output channel [oc] meets. *)
Definition channel_of (l : layer) (oc c : Z) : Z := oc / outputs_per_part l * channels_per_part l + c.
(** The number of positions of the kernel, including its dilation, in the padded image. *)
Fixpoint positions (image window padding steps spacing : list Z) : list Z :=
  match image, window, padding, steps, spacing with
  | n :: image, k :: window, p :: padding, s :: steps, d :: spacing =>
      ((n + 2 * p - (d * (k - 1) + 1)) / s + 1) :: positions image window padding steps spacing
  | _, _, _, _, _ => []
  end.
Definition output (l : layer) : list Z := positions (image l) (window l) (padding l) (steps l) (spacing l).
(** The kernel, including its dilation, fits into the padded image. *)
Fixpoint fitting (image window padding steps spacing : list Z) : Prop :=
  match image, window, padding, steps, spacing with
  | n :: image, k :: window, p :: padding, s :: steps, d :: spacing =>
      0 < s /\ d * (k - 1) + 1 <= n + 2 * p /\ fitting image window padding steps spacing
  | [], [], [], [], [] => True
  | _, _, _, _, _ => False
  end.
Definition sizes (l : list Z) : Prop := Forall (fun n => 0 <= n) l.
Record legal (l : layer) : Prop := {
  g_batch : sizes (batch l);
  g_image : sizes (image l);
  g_window : sizes (window l);
  g_dims : image l <> [];
  g_parts : 0 < parts l;
  g_in : 0 <= image_channels l;
  g_out : 0 < output_channels l;
  g_in_parts : (parts l | image_channels l);
  g_out_parts : (parts l | output_channels l);
  g_fits : fitting (image l) (window l) (padding l) (steps l) (spacing l) }.
Definition image_shape (l : layer) : list Z := batch l ++ image_channels l :: image l.
Definition weight_shape (l : layer) : list Z := output_channels l :: channels_per_part l :: window l.
Definition output_shape (l : layer) : list Z := batch l ++ output_channels l :: output l.
(** The size of the buffer for the patch matrix. *)
Definition buffer (l : layer) : Z := image_channels l * size (window l) * size (output l).
Definition has_size (a : list Qc) (n : Z) : Prop := Z.of_nat (length a) = n.
Definition bias_of (b : option (list Qc)) (c : Z) : Qc := match b with Some b => nth (Z.to_nat c) b 0%Qc | None => 0%Qc end.
Definition bias_size (b : option (list Qc)) (n : Z) : Prop := match b with Some b => has_size b n | None => True end.

(** Cross-correlation of the padded image with the weights of output channel [oc] at [o]. *)
Definition correlation (l : layer) (x w : list Qc) (a : list Z) (oc : Z) (o : list Z) : Qc :=
  total (range 0 (Z.to_nat (channels_per_part l))) (fun c => total (indices (window l)) (fun k =>
    qelem w (weight_shape l) (oc :: c :: k) * padded x (batch l) (image_channels l) (image l) a (channel_of l oc c) (tap (steps l) (spacing l) (padding l) k o))%Qc).

(** The transposed map: everything that meets place [i] of channel [c]. *)
Definition scattered (l : layer) (y w : list Qc) (a : list Z) (c : Z) (i : list Z) : Qc :=
  total (range 0 (Z.to_nat (output_channels l))) (fun oc => total (range 0 (Z.to_nat (channels_per_part l))) (fun cg =>
    total (indices (window l)) (fun k => total (indices (output l)) (fun o =>
      if (channel_of l oc cg =? c) && (if list_eq_dec Z.eq_dec (tap (steps l) (spacing l) (padding l) k o) i then true else false)
      then qelem w (weight_shape l) (oc :: cg :: k) * qelem y (output_shape l) (a ++ oc :: o) else 0)%Qc))).

(** [e] is the gradient of the linear map [F]: its adjoint, applied to [dy], added to the
    previous gradient if that is asked for; and there is one only if it is asked for. *)
Definition adjoint (g : option (bool * list Qc)) (d : option (list Qc)) (dy : list Qc) (F : list Qc -> option (list Qc)) : Prop :=
  match g, d with
  | Some (accum, d0), Some e => length e = length d0 /\
      forall u v, length u = length d0 -> F u = Some v -> qinner u e = ((if accum then qinner u d0 else 0) + qinner dy v)%Qc
  | None, None => True
  | _, _ => False
  end.
(** [e] is [T] at each of [n] positions, added to the previous gradient if that is asked for. *)
Definition each (g : option (bool * list Qc)) (d : option (list Qc)) (n : Z) (T : Z -> Qc) : Prop :=
  match g, d with
  | Some (accum, d0), Some e => length e = length d0 /\
      forall c, 0 <= c < n -> nth (Z.to_nat c) e 0%Qc = ((if accum then nth (Z.to_nat c) d0 0 else 0) + T c)%Qc
  | None, None => True
  | _, _ => False
  end.
Definition grad_size (g : option (bool * list Qc)) (n : Z) : Prop := match g with Some (_, a) => has_size a n | None => True end.

(** The image of a deconvolution with an input of shape [o] and output padding [e]. *)
Fixpoint enlarged (out window padding steps spacing extra : list Z) : list Z :=
  match out, window, padding, steps, spacing, extra with
  | o :: out, k :: window, p :: padding, s :: steps, d :: spacing, e :: extra =>
      (s * (o - 1) + (d * (k - 1) + 1) - 2 * p + e) :: enlarged out window padding steps spacing extra
  | _, _, _, _, _, _ => []
  end.
Fixpoint stretching (out window padding steps spacing extra : list Z) : Prop :=
  match out, window, padding, steps, spacing, extra with
  | o :: out, k :: window, p :: padding, s :: steps, d :: spacing, e :: extra =>
      0 < o /\ 0 <= e < s /\ 0 < s * (o - 1) + (d * (k - 1) + 1) - 2 * p + e /\ stretching out window padding steps spacing extra
  | [], [], [], [], [], [] => True
  | _, _, _, _, _, _ => False
  end.
(** The layer that a deconvolution is the transposed map of. *)
Definition transposed (batch : list Z) (channels groups per_group : Z) (out window padding steps spacing extra : list Z) : layer :=
  {| batch := batch; image_channels := per_group * groups; output_channels := channels; parts := groups;
     image := enlarged out window padding steps spacing extra; window := window; padding := padding; steps := steps; spacing := spacing |}.
