(** Cumulative sums and products (C48). *)
From Coq Require Import List ZArith Lia Bool QArith Qcanon.
From Verif Require Import NdSpec JoinSpec ScanModel ScanSpec ScanProofs4.
Import ListNotations.
Local Open Scope list_scope.
Local Open Scope Z_scope.

Definition pos (s : list Z) : Prop := Forall (fun n => 0 < n) s.

(** The output at [k] along the axis is the sum (product) of the input elements up to [k],
    without [k] itself if exclusive, from the other end if reverse. *)
Theorem C48_cumsum_partial : forall A B n axis exclusive reverse x y0, pos A -> 0 < n -> pos B ->
  denotes axis (length A) (length (A ++ n :: B)) ->
  Z.of_nat (length x) = size (A ++ n :: B) -> Z.of_nat (length y0) = size (A ++ n :: B) ->
  exists y, cumsum_forward axis exclusive reverse (A ++ n :: B) x y0 = Some y /\ length y = length y0 /\
  forall p k r, inside p A -> 0 <= k < n -> inside r B ->
    qelem y (A ++ n :: B) (p ++ k :: r) =
    qsum (Z.to_nat n) (fun i => if included exclusive reverse i k then qelem x (A ++ n :: B) (p ++ i :: r) else 0%Qc).
Proof. intros. apply cumsum_forward_ok; auto. Qed.
Theorem C48_cumprod_partial : forall A B n axis exclusive reverse x y0, pos A -> 0 < n -> pos B ->
  denotes axis (length A) (length (A ++ n :: B)) ->
  Z.of_nat (length x) = size (A ++ n :: B) -> Z.of_nat (length y0) = size (A ++ n :: B) ->
  exists y, cumprod_forward axis exclusive reverse (A ++ n :: B) x y0 = Some y /\ length y = length y0 /\
  forall p k r, inside p A -> 0 <= k < n -> inside r B ->
    qelem y (A ++ n :: B) (p ++ k :: r) =
    qprod (Z.to_nat n) (fun i => if included exclusive reverse i k then qelem x (A ++ n :: B) (p ++ i :: r) else 1%Qc).
Proof. intros. apply cumprod_forward_ok; auto. Qed.

Definition q (z : Z) : Qc := Q2Qc (inject_Z z).
Definition show (o : option (list Qc)) : option (list Q) := option_map (map this) o.
Definition qs (l : list Z) : option (list Q) := Some (map inject_Z l).
Example C48_forward_ex :
  show (cumsum_forward 1 false false [2; 3] (map q [1; 2; 3; 4; 5; 6]) (map q [9; 9; 9; 9; 9; 9])) = qs [1; 3; 6; 4; 9; 15] /\
  show (cumsum_forward (-1) true true [2; 3] (map q [1; 2; 3; 4; 5; 6]) (map q [9; 9; 9; 9; 9; 9])) = qs [5; 3; 0; 11; 6; 0] /\
  show (cumprod_forward 0 false true [3; 2] (map q [1; 2; 3; 4; 5; 6]) (map q [9; 9; 9; 9; 9; 9])) = qs [15; 48; 15; 24; 5; 6] /\
  show (cumprod_forward 0 true false [3; 2] (map q [1; 2; 3; 4; 5; 6]) (map q [9; 9; 9; 9; 9; 9])) = qs [1; 1; 1; 2; 3; 8].
Proof. repeat split; vm_compute; reflexivity. Qed.

(** The backward pass computes the derivatives at any input, also when elements of the
    input are zero. *)
Theorem C48_cumsum_gradient : forall A B n axis exclusive reverse x, pos A -> 0 < n -> pos B ->
  denotes axis (length A) (length (A ++ n :: B)) ->
  derivative (size (A ++ n :: B)) (size (A ++ n :: B)) (cumsum_forward axis exclusive reverse (A ++ n :: B))
    (fun accum _ => cumsum_backward axis exclusive reverse (A ++ n :: B) accum) x.
Proof. intros. apply cumsum_derivative; auto. Qed.
Theorem C48_cumprod_gradient : forall A B n axis exclusive reverse x, pos A -> 0 < n -> pos B ->
  denotes axis (length A) (length (A ++ n :: B)) ->
  derivative (size (A ++ n :: B)) (size (A ++ n :: B)) (cumprod_forward axis exclusive reverse (A ++ n :: B))
    (cumprod_backward axis exclusive reverse (A ++ n :: B)) x.
Proof. intros. apply cumprod_derivative; auto. Qed.
Example C48_gradient_ex :
  show (cumsum_backward 0 true false [3] true (map q [1; 2; 3]) (map q [10; 20; 30])) = qs [15; 23; 30] /\
  show (cumprod_backward 0 false false [4] false (map q [2; 0; 3; 4]) (map q [1; 1; 1; 1]) (map q [9; 9; 9; 9])) = qs [1; 32; 0; 0] /\
  show (cumprod_backward 0 false false [4] true (map q [2; 0; 3; 0]) (map q [1; 1; 1; 1]) (map q [9; 9; 9; 9])) = qs [10; 17; 9; 9] /\
  show (cumprod_backward 0 true true [4] false (map q [2; 0; 3; 4]) (map q [1; 1; 1; 1]) (map q [9; 9; 9; 9])) = qs [0; 12; 4; 4].
Proof. repeat split; vm_compute; reflexivity. Qed.

(** An axis that the input does not have is refused. *)
Theorem C48_axis : forall axis shape, ~ - Z.of_nat (length shape) <= axis < Z.of_nat (length shape) -> scan_setup axis shape = None.
Proof.
  intros axis shape H. unfold scan_setup. destruct (Z.ltb_spec axis 0).
  - destruct (Z.ltb_spec (axis + Z.of_nat (length shape)) 0); [reflexivity|lia].
  - destruct (Z.ltb_spec axis 0); [lia|]. destruct (Z.leb_spec (Z.of_nat (length shape)) axis); [reflexivity|lia].
Qed.
Example C48_axis_ex : scan_setup (-3) [2; 3] = None /\ scan_setup 2 [2; 3] = None /\ scan_setup (-2) [2; 3] = Some (1, 2, 3).
Proof. repeat split; reflexivity. Qed.

(** An empty array divides by zero. *)
Theorem C48_empty_refuted : ~ forall A B n axis exclusive reverse x y0, Forall (fun n => 0 <= n) A -> 0 <= n -> Forall (fun n => 0 <= n) B ->
  denotes axis (length A) (length (A ++ n :: B)) ->
  Z.of_nat (length x) = size (A ++ n :: B) -> Z.of_nat (length y0) = size (A ++ n :: B) ->
  exists y, cumsum_forward axis exclusive reverse (A ++ n :: B) x y0 = Some y /\ length y = length y0.
Proof.
  intros H. destruct (H [2] [] 0 1 false false [] []) as (y & E & _).
  - repeat apply Forall_cons; try apply Forall_nil; lia.
  - lia.
  - apply Forall_nil.
  - left. reflexivity.
  - reflexivity.
  - reflexivity.
  - vm_compute in E. discriminate.
Qed.

Print Assumptions C48_cumsum_partial.
Print Assumptions C48_cumprod_partial.
Print Assumptions C48_cumsum_gradient.
Print Assumptions C48_cumprod_gradient.
Print Assumptions C48_axis.
Print Assumptions C48_empty_refuted.
