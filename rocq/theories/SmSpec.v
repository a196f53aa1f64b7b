(** What softmax, losses of labels and rectifiers with parameters should compute. *)
From Coq Require Import List ZArith Reals.
From Verif Require Import NdSpec ActSpec.
Import ListNotations.
Local Open Scope list_scope.
Local Open Scope R_scope.

(** The element of an array of real numbers at an index. *)
Definition relem (a : list R) (shape idx : list Z) : R := nth (Z.to_nat (position 0 idx shape)) a 0.
(** The sum of [f 0], ..., [f (n - 1)]. *)
Fixpoint rsum_nat (n : nat) (f : Z -> R) : R := match n with O => 0 | S n => rsum_nat n f + f (Z.of_nat n) end.
Definition rsum (n : Z) (f : Z -> R) : R := rsum_nat (Z.to_nat n) f.
Fixpoint rinner (a b : list R) : R :=
  match a, b with x :: a, y :: b => x * y + rinner a b | _, _ => 0 end.
(** [x] with element [q] replaced. *)
Definition with_at (x : list R) (q : nat) (t : R) : list R := firstn q x ++ t :: skipn (S q) x.
(** [d] are the slopes of the sum of the outputs of [fwd], weighted with [dy], in every element of
    the input.  (A slope is the derivative if there is one.)  [fwd] is given the input and the
    memory for the output. *)
Definition rslopes (ny : Z) (fwd : list R -> list R -> option (list R)) (x dy d : list R) : Prop :=
  forall y0, Z.of_nat (length y0) = ny -> forall q, (q < length x)%nat ->
  (forall t, exists y, fwd (with_at x q t) y0 = Some y) /\
  slope (fun t => match fwd (with_at x q t) y0 with Some y => rinner dy y | None => 0 end) (nth q x 0) (nth q d 0).
(** [bwd] computes the slopes and adds them to the previous gradient or replaces that. *)
Definition rgradient (nx ny : Z) (fwd : list R -> list R -> option (list R))
    (bwd : bool -> list R -> list R -> option (list R)) (x : list R) : Prop :=
  forall accum dy dx0, Z.of_nat (length dy) = ny -> Z.of_nat (length dx0) = nx ->
  exists dx d, bwd accum dy dx0 = Some dx /\ length dx = length dx0 /\ length d = length dx0 /\ rslopes ny fwd x dy d /\
  forall q, (q < length dx0)%nat -> nth q dx 0 = (if accum then nth q dx0 0 else 0) + nth q d 0.
