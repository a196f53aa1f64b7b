(** What non-maximum suppression should do. *)
From Coq Require Import List ZArith Bool QArith Qcanon.
From Verif Require Import NdSpec ScanSpec SortSpec FindSpec.
Import ListNotations.
Local Open Scope list_scope.
Local Open Scope Z_scope.

(** * Boxes *)

Record rect := { left_ : Qc; right_ : Qc; low : Qc; high : Qc }.
Definition area (r : rect) : Qc := ((right_ r - left_ r) * (high r - low r))%Qc.
(** The points of a box. *)
Definition covers (r : rect) (u v : Qc) : Prop := (left_ r <= u /\ u <= right_ r /\ low r <= v /\ v <= high r)%Qc.
(** [c] is the intersection of [a] and [b], and it is more than a line. *)
Definition common (a b c : rect) : Prop :=
  (left_ c < right_ c)%Qc /\ (low c < high c)%Qc /\ forall u v, covers c u v <-> covers a u v /\ covers b u v.
(** The area of the intersection over that of the union; 0 if there is no intersection. *)
Definition iou_is (a b : rect) (q : Qc) : Prop :=
  (exists c, common a b c /\ q = (area c / (area a + area b - area c))%Qc) \/ ((forall c, ~ common a b c) /\ q = 0%Qc).
Definition overlapping (threshold : Qc) (a b : rect) : Prop := exists q, iou_is a b q /\ (threshold < q)%Qc.
(** A box given by its center, width and height, and one given by two opposite corners. *)
Definition centered (x y w h : Qc) : rect :=
  {| left_ := x - w / Q2Qc 2; right_ := x + w / Q2Qc 2; low := y - h / Q2Qc 2; high := y + h / Q2Qc 2 |}.
Definition smaller (a b : Qc) : Qc := if Qclt_le_dec a b then a else b.
Definition larger (a b : Qc) : Qc := if Qclt_le_dec a b then b else a.
Definition cornered (y1 x1 y2 x2 : Qc) : rect :=
  {| left_ := smaller x1 x2; right_ := larger x1 x2; low := smaller y1 y2; high := larger y1 y2 |}.

(** * Selection *)

(** The kept ones of [order] when each suppresses later ones: no kept one is suppressed by a kept
    one before it, and all others do not pass or are suppressed by a kept one before them. *)
Record selection (order : list Z) (pass : Z -> Prop) (over : Z -> Z -> Prop) (keep : Z -> Prop) : Prop := {
  s_pass : forall a, keep a -> In a order /\ pass a;
  s_apart : forall i j, (i < j < length order)%nat -> keep (nth i order 0) -> keep (nth j order 0) -> ~ over (nth i order 0) (nth j order 0);
  s_reason : forall j, (j < length order)%nat -> pass (nth j order 0) -> ~ keep (nth j order 0) ->
    exists i, (i < j)%nat /\ keep (nth i order 0) /\ over (nth i order 0) (nth j order 0) }.
(** [a] comes before [b] in [order]. *)
Definition earlier (order : list Z) (a b : Z) : Prop := exists i j, (i < j < length order)%nat /\ nth i order 0 = a /\ nth j order 0 = b.

(** * Detections *)

(** Values under the threshold are 0. *)
Definition cut (t v : Qc) : Qc := if Qclt_le_dec v t then 0%Qc else v.
Definition objectness_at (t : Qc) (x : list Qc) (sh : list Z) (b a : Z) : Qc := cut t (qelem x sh [b; a; 4]).
Definition score_at (t : Qc) (x : list Qc) (sh : list Z) (b k a : Z) : Qc := cut t (objectness_at t x sh b a * qelem x sh [b; a; (5 + k)%Z])%Qc.
Definition box_at (x : list Qc) (sh : list Z) (b a : Z) : rect :=
  centered (qelem x sh [b; a; 0]) (qelem x sh [b; a; 1]) (qelem x sh [b; a; 2]) (qelem x sh [b; a; 3]).
