(** What warping by a grid should compute. *)
From Coq Require Import List ZArith Bool QArith Qcanon Qround.
From Verif Require Import NdSpec ScanSpec ReduceSpec ConvSpec QuantSpec ItpSpec.
Import ListNotations.
Local Open Scope list_scope.
Local Open Scope Qc_scope.

(** The place on an axis with [n] pixels that the number [v] of a grid means: from -1 to 1 is from
    the first to the last pixel with align_corners, else from the outer edge of the first to that
    of the last. *)
Definition place_of (align : bool) (v : Qc) (n : Z) : Qc :=
  if align then (v + 1) * one_half * whole_number (n - 1) else (v + 1) * one_half * whole_number n - one_half.
(** [r] is [s] reflected at [lo] and [hi] until it is between them. *)
Definition mirrored (lo hi s r : Qc) : Prop :=
  lo <= r /\ r <= hi /\ exists k : Z, r = s + whole_number (2 * k) * (hi - lo) \/ r = lo + lo - s + whole_number (2 * k) * (hi - lo).
Inductive border := Zeros | Nearest_pixel | Mirrored.
(** [r] is the place that is used for [s]. *)
Definition taken (m : border) (align : bool) (n : Z) (s r : Qc) : Prop :=
  match m with
  | Zeros => r = s
  | Nearest_pixel => r = held n s
  | Mirrored => if align then mirrored 0 (whole_number (n - 1)) s r
                else exists t, mirrored (- one_half) (whole_number n - one_half) s t /\ r = held n t
  end.
(** Bilinear interpolation of an image with zeros around it: each pixel counts as much as it is
    near, up to the distance 1. *)
Definition bilinear (H W : Z) (p : Z -> Z -> Qc) (y x : Qc) : Qc :=
  total (indices [H; W]) (fun k => match k with [i; j] => hat y i * hat x j * p i j | _ => 0 end).
(** A pixel of an image with zeros around it. *)
Definition or_zero (H W : Z) (p : Z -> Z -> Qc) (i j : Z) : Qc :=
  if (0 <=? i)%Z && (i <? H)%Z && ((0 <=? j)%Z && (j <? W)%Z) then p i j else 0.
(** The number that means pixel [i] of [n]. *)
Definition number_of (align : bool) (n i : Z) (v : Qc) : Prop := place_of align v n = whole_number i.
