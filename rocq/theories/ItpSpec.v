(** What interpolation should compute. *)
From Coq Require Import List ZArith Bool QArith Qcanon Qround.
From Verif Require Import NdSpec ScanSpec ReduceSpec ConvSpec QuantSpec.
Import ListNotations.
Local Open Scope list_scope.
Local Open Scope Qc_scope.

Definition one_half : Qc := Q2Qc (1 # 2).
(** How output coordinates become input coordinates. *)
Inductive rule := Corners | Half_pixels | Plain.
(** The table of the documentation (functions.py:787-805): the input coordinate of place [o] of
    [m] on an axis with [n] pixels. *)
Definition documented (r : rule) (n m o : Z) : Qc :=
  match r with
  | Corners => whole_number o * whole_number (n - 1) / whole_number (m - 1)
  | Half_pixels => (whole_number o + one_half) * whole_number n / whole_number m - one_half
  | Plain => whole_number o * whole_number n / whole_number m
  end.
(** The coordinate that is used: 0 if there is only one place. *)
Definition used (r : rule) (n m o : Z) : Qc := if (m =? 1)%Z then 0 else documented r n m o.
(** The documented coordinate for the old nearest mode. *)
Definition documented_old (n m o : Z) : Qc := (whole_number o + one_half) * whole_number n / whole_number m.

Definition atleast (a v : Qc) : Qc := if Qclt_le_dec v a then a else v.
Definition atmost (a v : Qc) : Qc := if Qclt_le_dec a v then a else v.
(** A coordinate moved into the range of the pixels. *)
Definition held (n : Z) (f : Qc) : Qc := atmost (whole_number (n - 1)) (atleast 0 f).
Definition distance (a b : Qc) : Qc := if Qclt_le_dec a b then b - a else a - b.
(** The weight of pixel [i] for coordinate [f]: 1 - |f - i|, not below 0. *)
Definition hat (f : Qc) (i : Z) : Qc := atleast 0 (1 - distance f (whole_number i)).
(** The product of the weights of all axes. *)
Fixpoint hats (c : Z -> Z -> Z -> Qc) (ns ms o i : list Z) : Qc :=
  match ns, ms, o, i with
  | n :: ns, m :: ms, o :: os, i :: is => hat (held n (c n m o)) i * hats c ns ms os is
  | _, _, _, _ => 1
  end.
(** Multilinear interpolation: leading axes [L], input sizes [ns], output sizes [ms]. *)
Definition interpolated (c : Z -> Z -> Z -> Qc) (L ns ms : list Z) (x : list Qc) (l o : list Z) : Qc :=
  total (indices ns) (fun i => hats c ns ms o i * qelem x (L ++ ns) (l ++ i)).
(** The pixel a coordinate is cut down to. *)
Definition cut (n : Z) (f : Qc) : Z := Z.min (Qfloor (atleast 0 f)) (n - 1).
Fixpoint cuts (c : Z -> Z -> Z -> Qc) (ns ms o : list Z) : list Z :=
  match ns, ms, o with
  | n :: ns, m :: ms, o :: os => cut n (c n m o) :: cuts c ns ms os
  | _, _, _ => []
  end.
(** [p] is a pixel nearest to [f] on an axis of [n] pixels with centres at [i + shift]. *)
Definition nearest_pixel (shift : Qc) (n : Z) (f : Qc) (p : Z) : Prop :=
  (0 <= p < n)%Z /\ forall i, (0 <= i < n)%Z -> distance (whole_number p + shift) f <= distance (whole_number i + shift) f.

(** The flags align_corners, half_pixel and half_pixel_for_nn. *)
Definition rule_of (align half : bool) : rule := if align then Corners else if half then Half_pixels else Plain.
Definition nn_rule (align half nn : bool) (n m o : Z) : Qc := if nn then documented_old n m o else used (rule_of align half) n m o.
(** Documented and used coordinates differ only on axes with one place, for half pixels. *)
Definition no_single (r : rule) (ns ms : list Z) : Prop := r = Half_pixels -> Forall2 (fun n m => m = 1 -> n = 1)%Z ns ms.
