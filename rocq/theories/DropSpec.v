(** What dropout should do. *)
From Coq Require Import List ZArith QArith Qcanon.
Import ListNotations.
Local Open Scope Qc_scope.

(** What an element is multiplied by if the number [u] is drawn for it. *)
Definition factor (p u : Qc) : Qc := if Qclt_le_dec u (1 - p) then 1 / (1 - p) else 0.
(** Element for element, with the numbers [us] that were drawn. *)
Inductive dropped (p : Qc) : list Qc -> list Qc -> list Qc -> Prop :=
  | dropped_nil us : dropped p us [] []
  | dropped_cons u us x xs ys : dropped p us xs ys -> dropped p (u :: us) (x :: xs) (factor p u * x :: ys).
(** The same, added to what was there. *)
Inductive added (p : Qc) : list Qc -> list Qc -> list Qc -> list Qc -> Prop :=
  | added_nil us : added p us [] [] []
  | added_cons u us d0 d0s dy dys ds : added p us d0s dys ds -> added p (u :: us) (d0 :: d0s) (dy :: dys) (d0 + factor p u * dy :: ds).
