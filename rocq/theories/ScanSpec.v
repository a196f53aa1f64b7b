(** What cumulative sums and products should compute. *)
From Coq Require Import List ZArith Bool QArith Qcanon.
From Verif Require Import NdSpec.
Import ListNotations.
Local Open Scope list_scope.
Local Open Scope Z_scope.

(** The element of an array of rational numbers at an index. *)
Definition qelem (a : list Qc) (shape idx : list Z) : Qc := nth (Z.to_nat (position 0 idx shape)) a 0%Qc.
Fixpoint qinner (a b : list Qc) : Qc :=
  match a, b with x :: a, y :: b => (x * y + qinner a b)%Qc | _, _ => 0%Qc end.

(** Position [i] of [n] contributes to position [k]. *)
Definition included (exclusive reverse : bool) (i k : Z) : bool :=
  match exclusive, reverse with
  | false, false => i <=? k
  | true, false => i <? k
  | false, true => k <=? i
  | true, true => k <? i
  end.
(** Sum and product of [f 0], ..., [f (n - 1)]. *)
Fixpoint qsum (n : nat) (f : Z -> Qc) : Qc := match n with O => 0%Qc | S n => (qsum n f + f (Z.of_nat n))%Qc end.
Fixpoint qprod (n : nat) (f : Z -> Qc) : Qc := match n with O => 1%Qc | S n => (qprod n f * f (Z.of_nat n))%Qc end.

(** [x] with element [q] replaced. *)
Definition replaced (x : list Qc) (q : nat) (t : Qc) : list Qc := firstn q x ++ t :: skipn (S q) x.

(** [fwd] is total at [x], and [d] are its derivatives there, weighted with [dy]: replacing
    one element of the input changes the weighted sum of the output by the derivative times
    the change.  This holds of functions that are linear in each element of the input. *)
Definition slopes (ny : Z) (fwd : list Qc -> list Qc -> option (list Qc)) (x dy d : list Qc) : Prop :=
  forall y0, Z.of_nat (length y0) = ny -> exists y, fwd x y0 = Some y /\
  forall q t, (q < length x)%nat -> exists y', fwd (replaced x q t) y0 = Some y' /\
    (qinner dy y' - qinner dy y = (t - nth q x 0) * nth q d 0)%Qc.
(** [bwd] computes the derivatives and adds them to the previous gradient or replaces that. *)
Definition derivative (nx ny : Z) (fwd : list Qc -> list Qc -> option (list Qc))
    (bwd : bool -> list Qc -> list Qc -> list Qc -> option (list Qc)) (x : list Qc) : Prop :=
  forall accum dy dx0, Z.of_nat (length x) = nx -> Z.of_nat (length dy) = ny -> Z.of_nat (length dx0) = nx ->
  exists dx d, bwd accum x dy dx0 = Some dx /\ length dx = length dx0 /\ slopes ny fwd x dy d /\
  forall q, (q < length dx0)%nat -> nth q dx 0%Qc = ((if accum then nth q dx0 0 else 0) + nth q d 0)%Qc.
