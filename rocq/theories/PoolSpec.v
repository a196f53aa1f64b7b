(** What pooling should compute. *)
From Coq Require Import List ZArith Bool QArith Qcanon.
From Verif Require Import NdSpec ScanSpec ReduceSpec ConvSpec.
Import ListNotations.
Local Open Scope list_scope.
Local Open Scope Z_scope.

(** A pooling: the shape of batch and channels, the shape of the image, the kernel, the stride,
    the padding, and whether windows that reach over the end of the image are left out. *)
Record pooling := { outer : list Z; field : list Z; extent : list Z; stepping : list Z; margin : list Z; whole : bool }.
(** Place [i] of the image is in window [o]. *)
Fixpoint covers (stepping margin extent o i : list Z) : bool :=
  match stepping, margin, extent, o, i with
  | s :: stepping, p :: margin, k :: extent, o :: os, i :: is =>
      (o * s - p <=? i) && (i <? o * s - p + k) && covers stepping margin extent os is
  | _, _, _, _, _ => true
  end.
(** The places of the image in window [o], in row-major order. *)
Definition region (l : pooling) (o : list Z) : list (list Z) := filter (covers (stepping l) (margin l) (extent l) o) (indices (field l)).
(** The same in the padded image. *)
Definition enclosed (l : pooling) (o : list Z) : list (list Z) :=
  filter (covers (stepping l) (map (fun _ => 0) (margin l)) (extent l) o) (indices (map (fun np => fst np + 2 * snd np) (combine (field l) (margin l)))).
(** The number of windows: those that fit into the padded image, or those that begin before the
    end of the padded image, seen from the left padding only. *)
Fixpoint counts (whole : bool) (field extent stepping margin : list Z) : list Z :=
  match field, extent, stepping, margin with
  | n :: field, k :: extent, s :: stepping, p :: margin =>
      (if whole then (n + 2 * p - k) / s + 1 else (n + p - 1) / s + 1) :: counts whole field extent stepping margin
  | _, _, _, _ => []
  end.
Definition pooled (l : pooling) : list Z := counts (whole l) (field l) (extent l) (stepping l) (margin l).
(** The padding is smaller than the kernel; the kernel fits into the padded image if it has to. *)
Fixpoint sensible (whole : bool) (field extent stepping margin : list Z) : Prop :=
  match field, extent, stepping, margin with
  | n :: field, k :: extent, s :: stepping, p :: margin =>
      0 < n /\ 0 < s /\ 0 <= p < k /\ (whole = true -> k <= n + 2 * p) /\ sensible whole field extent stepping margin
  | [], [], [], [] => True
  | _, _, _, _ => False
  end.
Record poolable (l : pooling) : Prop := {
  a_outer : sizes (outer l);
  a_dims : length (field l) = 2%nat \/ length (field l) = 3%nat;
  a_sensible : sensible (whole l) (field l) (extent l) (stepping l) (margin l) }.
Definition pool_in (l : pooling) : list Z := outer l ++ field l.
Definition pool_out (l : pooling) : list Z := outer l ++ pooled l.

(** The element of the image of sample [a]. *)
Definition pixel (l : pooling) (x : list Qc) (a i : list Z) : Qc := qelem x (pool_in l) (a ++ i).
Definition window_sum (l : pooling) (x : list Qc) (a o : list Z) : Qc := total (region l o) (pixel l x a).
(** The number of places that an average counts. *)
Definition weight (l : pooling) (including_pad : bool) (o : list Z) : Qc :=
  Q2Qc (inject_Z (Z.of_nat (length (if including_pad then enclosed l o else region l o)))).
(** [i] is the first place of [l] where [f] has its maximum. *)
Definition first_max {A : Type} (l : list A) (f : A -> Qc) (i : A) : Prop :=
  exists before after, l = before ++ i :: after /\ (forall j, In j before -> (f j < f i)%Qc) /\ (forall j, In j after -> (f j <= f i)%Qc).

(** Unpooling: every element of the last axes is repeated. *)
Fixpoint divided (kernel idx : list Z) : list Z := match kernel, idx with k :: kernel, i :: idx => i / k :: divided kernel idx | _, _ => [] end.
Fixpoint repeated (kernel shape : list Z) : list Z := match kernel, shape with k :: kernel, n :: shape => n * k :: repeated kernel shape | _, _ => [] end.
