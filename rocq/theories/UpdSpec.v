(** What the solvers should compute: sums over the history of gradients. *)
From Coq Require Import List ZArith Reals.
From Verif Require Import SmSpec.
Import ListNotations.
Local Open Scope Z_scope.

Definition at_pos (a : list R) (e : Z) : R := nth (Z.to_nat e) a 0%R.
Definition len (a : list R) : Z := Z.of_nat (length a).
Definition zeros (n : Z) : list R := repeat 0%R (Z.to_nat n).
(** b to the k. *)
Definition power (b : R) (k : Z) : R := pow b (Z.to_nat k).
(** f 0, ..., f (T - 1), the last with weight 1, the one before with weight b, ... *)
Definition discounted (b : R) (f : Z -> R) (T : Z) : R := rsum T (fun i => power b (T - 1 - i) * f i)%R.
(** The moving average. *)
Definition average (b : R) (f : Z -> R) (T : Z) : R := ((1 - b) * discounted b f T)%R.
(** The average divided by the sum of the weights. *)
Definition unbiased (b : R) (f : Z -> R) (T : Z) : R := (average b f T / (1 - power b T))%R.
(** v is the largest of f 0, ..., f (T - 1). *)
Definition largest (f : Z -> R) (T : Z) (v : R) : Prop := (forall i, 0 <= i < T -> (f i <= v)%R) /\ exists i, 0 <= i < T /\ v = f i.
(** The root of the sum of squares. *)
Definition norm (a : list R) : R := sqrt (rsum (len a) (fun e => at_pos a e * at_pos a e)%R).
Definition distance (a b : list R) : R := sqrt (rsum (len a) (fun e => (at_pos a e - at_pos b e) * (at_pos a e - at_pos b e))%R).
Definition clamp (low high v : R) : R := Rmin high (Rmax v low).
(** The number of updates that are counted. *)
Definition counted : Z := 2 ^ 32 - 2.
(** S 0, S 1, ... are the states of repeated updates, as long as they are counted. *)
Definition updates {S : Type} (update : Z -> S -> option S) (s : Z -> S) : Prop := forall T, 0 <= T < counted -> update T (s T) = Some (s (T + 1)).
