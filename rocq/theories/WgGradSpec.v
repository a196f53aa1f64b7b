(** Where warping by a grid is differentiable in a number of the grid. *)
From Coq Require Import List ZArith Bool QArith Qcanon.
From Verif Require Import QuantSpec ItpSpec WgSpec.
Local Open Scope Qc_scope.

(** Two places that are both before, both on or both behind the range of the pixels. *)
Definition one_side (n : Z) (s t : Qc) : Prop :=
  (s < 0 /\ t < 0) \/ ((0 <= s /\ s <= whole_number (n - 1)) /\ (0 <= t /\ t <= whole_number (n - 1))) \/ (whole_number (n - 1) < s /\ whole_number (n - 1) < t).
(** Two places that are reflected equally often, and not on a border of reflection. *)
Definition one_strip (lo hi s t : Qc) : Prop :=
  exists k : Z, (lo + whole_number k * (hi - lo) < s /\ s < lo + whole_number (k + 1) * (hi - lo)) /\ (lo + whole_number k * (hi - lo) < t /\ t < lo + whole_number (k + 1) * (hi - lo)).
(** Two places for which the border is used in the same way. *)
Definition one_piece (m : border) (align : bool) (n : Z) (s t : Qc) : Prop :=
  match m with
  | Zeros => True
  | Nearest_pixel => one_side n s t
  | Mirrored => if align then one_strip 0 (whole_number (n - 1)) s t
                else one_strip (- one_half) (whole_number n - one_half) s t /\
                  forall s' t', mirrored (- one_half) (whole_number n - one_half) s s' -> mirrored (- one_half) (whole_number n - one_half) t t' -> one_side n s' t'
  end.
(** Two places that are used between the same two pixels. *)
Definition one_cell (m : border) (align : bool) (n : Z) (s t : Qc) : Prop :=
  forall s' t', taken m align n s s' -> taken m align n t t' -> exists k : Z, (whole_number k <= s' /\ s' < whole_number (k + 1)) /\ (whole_number k <= t' /\ t' < whole_number (k + 1)).
