(** What functions of two arrays element by element should compute. *)
From Coq Require Import List ZArith Bool QArith Qcanon.
From Verif Require Import NdSpec ScanSpec ReduceSpec ConvSpec MatSpec.
Import ListNotations.
Local Open Scope list_scope.
Local Open Scope Z_scope.

(** No axis has one element in one array and none in the other. *)
Definition unmixed (A B : list Z) : Prop := Forall2 (fun m n => ~ (m = 1 /\ n < 1) /\ ~ (m < 1 /\ n = 1)) A B.
(** [y], of shape [C], is [op] of the elements of [x0] and [x1] that are repeated at each place. *)
Definition pairwise (op : Qc -> Qc -> Qc) (A B C : list Z) (x0 x1 y : list Qc) : Prop :=
  forall c, inside c C -> qelem y C c = op (qelem x0 A (picked A c)) (qelem x1 B (picked B c)).
(** The places of the output at which element [a] of an array of shape [A] is used. *)
Definition used_at (A C a : list Z) : list (list Z) :=
  filter (fun c => if list_eq_dec Z.eq_dec (picked A c) a then true else false) (indices C).
(** [d] is the derivative of the weighted sum of the output of [F] at [x], which is linear
    along every line. *)
Definition exact_slope (F : list Qc -> option (list Qc)) (x dy d : list Qc) : Prop :=
  forall x' y y', length x' = length x -> F x = Some y -> F x' = Some y' -> (qinner dy y' - qinner dy y = qinner x' d - qinner x d)%Qc.
