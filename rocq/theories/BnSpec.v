(** What batch normalization should compute. *)
From Coq Require Import List ZArith Bool Reals.
From Verif Require Import NdSpec SmSpec.
Import ListNotations.
Local Open Scope list_scope.
Local Open Scope Z_scope.

Definition at_pos (x : list R) (e : Z) : R := nth (Z.to_nat e) x 0%R.
(** The coordinate on axis [a] of the element at position [e] of an array in row-major order. *)
Definition channel_of (shape : list Z) (a : nat) (e : Z) : Z := (e / size (skipn (S a) shape)) mod nth a shape 1.
(** The sum over the elements that have coordinate [c] on axis [a]. *)
Definition over_channel (shape : list Z) (a : nat) (c : Z) (f : Z -> R) : R :=
  rsum (size shape) (fun e => if channel_of shape a e =? c then f e else 0%R).
Definition count_of (shape : list Z) (a : nat) (c : Z) : R := over_channel shape a c (fun _ => 1%R).
Definition mean_of (shape : list Z) (a : nat) (x : list R) (c : Z) : R := (over_channel shape a c (at_pos x) / count_of shape a c)%R.
(** The sum of the squared deviations from the mean. *)
Definition deviations (shape : list Z) (a : nat) (x : list R) (c : Z) : R :=
  over_channel shape a c (fun e => (at_pos x e - mean_of shape a x c) * (at_pos x e - mean_of shape a x c))%R.
Definition var_of (shape : list Z) (a : nat) (x : list R) (c : Z) : R := (deviations shape a x c / count_of shape a c)%R.
(** The estimate of the variance of the distribution the elements are drawn from. *)
Definition unbiased_of (shape : list Z) (a : nat) (x : list R) (c : Z) : R := (deviations shape a x c / (count_of shape a c - 1))%R.
(** A parameter that may be left out. *)
Definition given_or (p : option (list R)) (default : R) (c : Z) : R := match p with Some a => at_pos a c | None => default end.
Definition fits (p : option (list R)) (n : Z) : Prop := match p with Some a => Z.of_nat (length a) = n | None => True end.
