(** Model of MonitorSeries and MonitorTimeElapsed (python/src/nnabla/monitor.py).

    Values and times are rational numbers without rounding.  A written line is the list of numbers
    that are printed, before they are formatted; the log and the file get the same lines. *)
From Coq Require Import List ZArith Bool QArith Qcanon.
From Verif Require Import ReduceModel.
Import ListNotations.
Local Open Scope list_scope.
Local Open Scope Z_scope.

(** MonitorSeries.__init__ (monitor.py:64-76). *)
Record series := { flush_at : Z; buf : list Qc; lines : list (Z * Qc) }.
Definition new_series : series := {| flush_at := -1; buf := []; lines := [] |}.
(** np.mean, of an array that is not empty. *)
Definition np_mean (l : list Qc) : Qc := (fold_left Qcplus l 0 / of_Z (Z.of_nat (length l)))%Qc.
(** MonitorSeries.add (monitor.py:78-97). *)
Definition add (interval : Z) (s : series) (index : Z) (value : Qc) : series :=
  let b := buf s ++ [value] in
  if index - flush_at s <? interval then {| flush_at := flush_at s; buf := b; lines := lines s |}
  else {| flush_at := index; buf := []; lines := lines s ++ [(index, np_mean b)] |}.
Definition add_all (interval : Z) (adds : list (Z * Qc)) (s : series) : series :=
  fold_left (fun s '(index, value) => add interval s index value) adds s.

(** MonitorTimeElapsed.__init__ (monitor.py:125-138); [now] is what time.time() gives.  A line is
    index, elapsed, it and elapsed_total. *)
Record timer := { t_flush_at : Z; t_start : Qc; t_lap : Qc; t_lines : list (Z * Qc * Z * Qc) }.
Definition new_timer (now : Qc) : timer := {| t_flush_at := -1; t_start := now; t_lap := now; t_lines := [] |}.
(** MonitorTimeElapsed.add (monitor.py:140-163). *)
Definition tick (interval : Z) (s : timer) (index : Z) (now : Qc) : timer :=
  if index - t_flush_at s <? interval then s
  else {| t_flush_at := index; t_start := t_start s; t_lap := now;
          t_lines := t_lines s ++ [(index, (now - t_lap s)%Qc, index - t_flush_at s, (now - t_start s)%Qc)] |}.
Definition tick_all (interval : Z) (ticks : list (Z * Qc)) (s : timer) : timer :=
  fold_left (fun s '(index, now) => tick interval s index now) ticks s.

(** MonitorImage.add and MonitorImageTile.add: whether images are written (monitor.py:231-232 and
    310-311). *)
Definition image_due (interval index : Z) : bool := negb (negb (index =? 0) && negb ((index + 1) mod interval =? 0)).
