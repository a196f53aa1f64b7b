(** What PatchCorrelation should compute. *)
From Coq Require Import List ZArith Bool QArith Qcanon.
From Verif Require Import NdSpec ScanSpec ReduceSpec ConvSpec.
Import ListNotations.
Local Open Scope list_scope.
Local Open Scope Z_scope.

(** An image with zeros around it, given by its elements at row, column and channel. *)
Definition surrounded (H W : Z) (e : Z -> Z -> Z -> Qc) (y x c : Z) : Qc :=
  if (0 <=? y) && (y <? H) && (0 <=? x) && (x <? W) then e y x c else 0%Qc.
(** The documentation (functions.py:1489-1560): the patch of the first image at (y, x) and the
    patch of the second image at (y + dy, x + dx), multiplied and added up. *)
Definition patch_product (ph pw C : Z) (p1 p2 : Z -> Z -> Z -> Qc) (y x dy dx : Z) : Qc :=
  total (indices [ph; pw; C]) (fun k => match k with
    | [a; b; c] => (p1 (y + a)%Z (x + b)%Z c * p2 (y + dy + a)%Z (x + dx + b)%Z c)%Qc
    | _ => 0%Qc
    end).
(** [n] is the number of positions from 0 on, in steps of [step], that are at most [last]. *)
Definition counts (n step last : Z) : Prop := 0 <= n /\ forall i, 0 <= i -> (i < n <-> i * step <= last).
