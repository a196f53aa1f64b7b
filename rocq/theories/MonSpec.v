(** What the monitors should write. *)
From Coq Require Import List ZArith Bool QArith Qcanon.
From Verif Require Import QuantSpec.
Import ListNotations.
Local Open Scope list_scope.
Local Open Scope Z_scope.

(** The values [g] cut into groups, each of which ends with the first index that is at least
    [interval] further than the end of the group before ([prev]), and a rest. *)
Inductive cut {A : Type} (interval : Z) : Z -> list (list (Z * A)) -> list (Z * A) -> Prop :=
| cut_rest prev rest : Forall (fun a => fst a < prev + interval) rest -> cut interval prev [] rest
| cut_group prev g i v gs rest : Forall (fun a => fst a < prev + interval) g -> prev + interval <= i -> cut interval i gs rest ->
    cut interval prev ((g ++ [(i, v)]) :: gs) rest.
Fixpoint sum (l : list Qc) : Qc := match l with [] => 0%Qc | v :: l => (v + sum l)%Qc end.
(** The line for a group: its last index and the mean of its values. *)
Definition mean_line (g : list (Z * Qc)) (line : Z * Qc) : Prop :=
  (exists g0 v, g = g0 ++ [(fst line, v)]) /\ (snd line * whole_number (Z.of_nat (length g)) = sum (map snd g))%Qc.
