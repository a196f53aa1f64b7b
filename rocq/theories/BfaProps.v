(** Python gradients of functions of arrays (C84). *)
From Coq Require Import List ZArith Bool Lia QArith Qcanon.
From Verif Require Import NdSpec IdxSpec JoinSpec ScanSpec MatModel ReduceSpec ReduceModel ReduceProofs3 ReduceProofs5 ConvSpec MatSpec MatProofs2 BinSpec BinModel BfaModel BfaSpec BfaProofs1 BfaProofs2.
From Verif Require ReduceProps.
Import ListNotations.
Local Open Scope list_scope.
Local Open Scope Z_scope.

Definition q (z : Z) : Qc := Q2Qc (inject_Z z).
Definition shown (o : option nd) : option (list Z * list Q) := option_map (fun '(s, l) => (s, map this l)) o.
Definition shown2 (o : option (nd * nd)) : option ((list Z * list Q) * (list Z * list Q)) := option_map (fun '((s, l), (t, m)) => ((s, map this l), (t, map this m))) o.
Definition qn (s : list Z) (l : list Z) : list Z * list Q := (s, map inject_Z l).
Definition n (s : list Z) (l : list Z) : nd := (s, map q l).

(** * Functions of two arrays *)
Theorem C84_add_partial : agrees py_add2 add_g0 add_g1.
Proof. exact add2_agrees. Qed.
Theorem C84_sub_partial : agrees py_sub2 sub_g0 sub_g1.
Proof. exact sub2_agrees. Qed.
Theorem C84_mul_partial : agrees py_mul2 mul_g0 mul_g1.
Proof. exact mul2_agrees. Qed.
Theorem C84_div_partial : agrees py_div2 div_g0 div_g1.
Proof. exact div2_agrees. Qed.
Example C84_arithmetic_ex :
  shown2 (py_add2 (q 9) (n [1] [5]) (n [2] [6; 7]) (n [2] [1; 2])) = Some (qn [1] [3], qn [2] [1; 2]) /\
  shown2 (py_sub2 (q 9) (n [2; 1] [5; 6]) (n [1; 2] [6; 7]) (n [2; 2] [1; 2; 3; 4])) = Some (qn [2; 1] [3; 7], qn [1; 2] [-4; -6]) /\
  shown2 (py_mul2 (q 9) (n [1] [5]) (n [2] [6; 7]) (n [2] [1; 2])) = Some (qn [1] [20], qn [2] [5; 10]) /\
  shown2 (py_div2 (q 9) (n [2] [4; 8]) (n [1] [2]) (n [2] [2; 4])) = Some (qn [2] [1; 2], qn [1] [-10]).
Proof. repeat split; vm_compute; reflexivity. Qed.
Example C84_add_ex : exists f, bin_setup [1] [2] = Some f /\ joined [1] [2] [2] /\ above [2].
Proof. eexists. split; [reflexivity |]. split; repeat constructor. Qed.

(** Maximum2 and Minimum2, only for inputs of the same shape. *)
Theorem C84_maximum_partial : agrees_same py_maximum2 max_g0 max_g1.
Proof. apply extreme_agrees; intros; unfold max_g0, max_g1, gt_op; destruct (qgt a b); cbn [qbool negb]; ring. Qed.
Theorem C84_minimum_partial : agrees_same py_minimum2 min_g0 min_g1.
Proof. apply extreme_agrees; intros; unfold min_g0, min_g1, lt_op; destruct (qgt b a); cbn [qbool negb]; ring. Qed.
Example C84_extremes_ex :
  shown2 (py_maximum2 (q 9) (n [3] [5; 6; 7]) (n [3] [7; 6; 5]) (n [3] [1; 2; 3])) = Some (qn [3] [0; 0; 3], qn [3] [1; 2; 0]) /\
  shown2 (py_minimum2 (q 9) (n [3] [5; 6; 7]) (n [3] [7; 6; 5]) (n [3] [1; 2; 3])) = Some (qn [3] [1; 0; 0], qn [3] [0; 2; 3]).
Proof. repeat split; vm_compute; reflexivity. Qed.
(** Their gradients are not summed over broadcast axes: the gradient of the first input has two elements,
    but the input has one.  Setup and the C++ gradient accept the inputs. *)
Theorem C84_maximum_refuted : ~ agrees py_maximum2 max_g0 max_g1 /\
  shown2 (py_maximum2 (q 9) (n [1] [5]) (n [2] [4; 7]) (n [2] [1; 2])) = Some (qn [2] [1; 0], qn [2] [0; 2]).
Proof.
  split; [| vm_compute; reflexivity]. intros A. destruct (bin_setup [1] [2]) as [f |] eqn:E; [| discriminate].
  destruct (A (q 9) [1] [2] [2] f [q 5] [q 4; q 7] [q 5; q 7] [q 1; q 2] [q 0] [q 0; q 0] E) as (e0 & e1 & P & _); try reflexivity; try (repeat constructor).
  apply (f_equal (option_map (fun p => fst (fst p)))) in P. vm_compute in P. discriminate.
Qed.
Theorem C84_minimum_refuted : ~ agrees py_minimum2 min_g0 min_g1.
Proof.
  intros A. destruct (bin_setup [1] [2]) as [f |] eqn:E; [| discriminate].
  destruct (A (q 9) [1] [2] [2] f [q 5] [q 4; q 7] [q 4; q 5] [q 1; q 2] [q 0] [q 0; q 0] E) as (e0 & e1 & P & _); try reflexivity; try (repeat constructor).
  apply (f_equal (option_map (fun p => fst (fst p)))) in P. vm_compute in P. discriminate.
Qed.

(** * Broadcast *)
(** With as many axes as before: broadcasting copies, and its gradient sums over the copies. *)
Theorem C84_broadcast_partial junk X C x dy : widens X C -> above C -> (length C <= 8)%nat -> has_size x (size X) -> has_size dy (size C) ->
  exists y e, py_broadcast junk C (X, x) = Some (C, y) /\ has_size y (size C) /\ (forall c, inside c C -> qelem y C c = qelem x X (picked X c)) /\
    py_broadcast_grad junk X (C, dy) = Some (X, e) /\ has_size e (size X) /\ (forall a, inside a X -> qelem e X a = total (used_at X C a) (qelem dy C)).
Proof.
  intros W P N L D. destruct (broadcast_ok junk X C x W (above_sizes C P) N L) as (y & E & S & V). destruct (sum_for_ok junk X C dy W P D) as (e & E' & S' & V').
  exists y, e. split; [exact E |]. split; [exact S |]. split; [exact V |]. split; [exact E' |]. split; [exact S' | exact V'].
Qed.
Example C84_broadcast_ex :
  shown (py_broadcast (q 9) [2; 3] (n [2; 1] [5; 6])) = Some (qn [2; 3] [5; 5; 5; 6; 6; 6]) /\
  shown (py_broadcast_grad (q 9) [2; 1] (n [2; 3] [1; 2; 3; 4; 5; 6])) = Some (qn [2; 1] [6; 15]) /\
  widens [2; 1] [2; 3].
Proof. split; [vm_compute; reflexivity |]. split; [vm_compute; reflexivity |]. apply Forall2_cons; [left; reflexivity |]. apply Forall2_cons; [right; reflexivity | apply Forall2_nil]. Qed.
(** With more axes than before the gradient keeps them: it has the shape of the output. *)
Theorem C84_broadcast_refuted :
  shown (py_broadcast (q 9) [2; 3] (n [3] [5; 6; 7])) = Some (qn [2; 3] [5; 6; 7; 5; 6; 7]) /\
  shown (py_broadcast_grad (q 9) [3] (n [2; 3] [1; 2; 3; 4; 5; 6])) = Some (qn [2; 3] [1; 2; 3; 4; 5; 6]).
Proof. split; vm_compute; reflexivity. Qed.

(** * Reductions *)
Theorem C84_sum_partial junk axes mask keep X f dy d0 : chosen axes mask -> length X = length mask -> above X -> (length X <= 8)%nat ->
  red_setup (created axes) keep X = Some (f, out_shape keep mask X) -> has_size dy (size (out_shape keep mask X)) -> has_size d0 (size X) ->
  exists e, py_sum_grad junk axes keep X (out_shape keep mask X, dy) = Some (X, e) /\ sum_backward f X false dy d0 = Some e.
Proof. intros C L P N E D D0. apply (setup_is axes mask) in E as (-> & _); auto. apply sum_grad_ok; assumption. Qed.
(** The others, for axes that are counted from the front. *)
Theorem C84_mean_partial junk axes mask keep X f dy d0 : chosen axes mask -> Forall (fun a => 0 <= a) axes -> length X = length mask -> above X -> (length X <= 8)%nat ->
  red_setup (created axes) keep X = Some (f, out_shape keep mask X) -> has_size dy (size (out_shape keep mask X)) -> has_size d0 (size X) ->
  exists e, py_mean_grad junk axes keep X (out_shape keep mask X, dy) = Some (X, e) /\ mean_backward f X false dy d0 = Some e.
Proof. intros C F L P N E D D0. apply (setup_is axes mask) in E as (-> & _); auto. rewrite (chosen_front axes mask C F). apply mean_grad_ok; assumption. Qed.
Theorem C84_prod_partial junk axes mask keep X f x y0 y dy d0 : chosen axes mask -> Forall (fun a => 0 <= a) axes -> length X = length mask -> above X -> (length X <= 8)%nat ->
  red_setup (created axes) keep X = Some (f, out_shape keep mask X) -> has_size x (size X) -> has_size y0 (size (out_shape keep mask X)) -> has_size dy (size (out_shape keep mask X)) -> has_size d0 (size X) ->
  (forall idx, inside idx X -> qelem x X idx <> 0%Qc) -> prod_forward f X x y0 = Some y ->
  exists e, py_prod_grad junk axes keep (X, x) (out_shape keep mask X, dy) = Some (X, e) /\ prod_backward f X false x y dy d0 = Some e.
Proof.
  intros C F L P N E LX L0 D D0 Z W. assert (FS : has_size (fresh junk (out_shape keep mask X)) (size (out_shape keep mask X))) by (apply fresh_size, above_sizes, out_above; exact P).
  assert (W' : prod_forward f X x (fresh junk (out_shape keep mask X)) = Some y).
  { destruct (ReduceProps.C49_prod_partial axes mask keep X f x y0 C L P E LX L0) as (a & A & LA & VA).
    destruct (ReduceProps.C49_prod_partial axes mask keep X f x (fresh junk (out_shape keep mask X)) C L P E LX FS) as (b & B & LB & VB).
    rewrite B. rewrite A in W. injection W as <-. f_equal. apply (list_by (out_shape keep mask X)); [apply above_sizes, out_above; exact P | unfold has_size in *; congruence | unfold has_size in *; congruence |].
    intros j J. destruct (ReduceProps.C49_onto keep mask X j L P J) as (i & I & <-). rewrite VA, VB by exact I. reflexivity. }
  apply (setup_is axes mask) in E as (-> & _); auto. rewrite (chosen_front axes mask C F). apply prod_grad_ok; assumption.
Qed.
Example C84_reductions_ex :
  shown (py_sum_grad (q 9) [-1] false [2; 3] (n [2] [1; 2])) = Some (qn [2; 3] [1; 1; 1; 2; 2; 2]) /\
  shown (py_mean_grad (q 9) [0] true [2; 2] (n [1; 2] [2; 4])) = Some (qn [2; 2] [1; 2; 1; 2]) /\
  shown (py_prod_grad (q 9) [0] false (n [2; 2] [2; 3; 5; 7]) (n [2] [1; 10])) = Some (qn [2; 2] [5; 70; 2; 30]) /\
  shown (py_sum_grad (q 9) [] false [2] (n [2] [1; 2])) = Some (qn [2] [1; 2]).
Proof. repeat split; vm_compute; reflexivity. Qed.

(** The greatest and least elements: every element that equals the output gets its gradient. *)
Theorem C84_best_partial junk axes mask keep X x y dy : chosen axes mask -> Forall (fun a => 0 <= a) axes -> length X = length mask -> above X -> (length X <= 8)%nat ->
  has_size x (size X) -> has_size y (size (out_shape keep mask X)) -> has_size dy (size (out_shape keep mask X)) ->
  exists e, py_best_grad junk axes keep (X, x) (out_shape keep mask X, y) (out_shape keep mask X, dy) = Some (X, e) /\ has_size e (size X) /\
  forall idx, inside idx X -> qelem e X idx =
    if Qc_eq_dec (qelem x X idx) (qelem y (out_shape keep mask X) (out_index keep mask idx)) then qelem dy (out_shape keep mask X) (out_index keep mask idx) else 0%Qc.
Proof. intros C F L P N LX LY D. rewrite (chosen_front axes mask C F). apply best_grad_ok; assumption. Qed.
Lemma unique_best (le : Qc -> Qc -> Prop) junk axes mask keep X f x y0 ind0 y ind dy d0 :
  chosen axes mask -> Forall (fun a => 0 <= a) axes -> length X = length mask -> above X -> (length X <= 8)%nat ->
  red_setup (created axes) keep X = Some (f, out_shape keep mask X) -> has_size x (size X) -> has_size y0 (size (out_shape keep mask X)) -> Z.of_nat (length ind0) = size (out_shape keep mask X) ->
  has_size y (size (out_shape keep mask X)) -> has_size dy (size (out_shape keep mask X)) -> has_size d0 (size X) ->
  max_forward f X x y0 ind0 = Some (y, ind) \/ min_forward f X x y0 ind0 = Some (y, ind) ->
  (forall idx, inside idx X -> let l := elems x X (group mask X idx) in exists i, elem ind (out_shape keep mask X) (out_index keep mask idx) = Z.of_nat i /\
    qelem y (out_shape keep mask X) (out_index keep mask idx) = nth i l 0%Qc /\ (i < length l)%nat /\ (forall j, (j < length l)%nat -> le (nth j l 0%Qc) (nth i l 0%Qc))) ->
  (forall i j, inside i X -> In j (group mask X i) -> qelem x X j = qelem x X i -> (forall k, In k (group mask X i) -> le (qelem x X k) (qelem x X i)) -> j = i) ->
  exists e, py_best_grad junk axes keep (X, x) (out_shape keep mask X, y) (out_shape keep mask X, dy) = Some (X, e) /\ best_backward f X false ind dy d0 = Some e.
Proof.
  intros C F L P N E LX L0 LI LY D D0 W V U. destruct (C84_best_partial junk axes mask keep X x y dy C F L P N LX LY D) as (e & B & LE & VE).
  destruct (ReduceProps.C49_max_gradient_partial axes mask keep X f x y0 ind0 y ind false dy d0 C L P E LX L0 LI W D D0) as (r & R & LR & VR).
  exists e. split; [exact B |]. rewrite R. f_equal. apply (list_by X); [apply above_sizes; exact P | unfold has_size in *; congruence | exact LE |]. intros idx I.
  rewrite VR, VE by exact I. destruct (V idx I) as (i & I1 & I2 & I3 & I4). rewrite I1, I2, Nat2Z.id. unfold elems in I3, I4 |- *. rewrite map_length in I3.
  assert (Q : nth i (map (qelem x X) (group mask X idx)) 0%Qc = qelem x X (nth i (group mask X idx) [])) by (rewrite (nth_indep _ 0%Qc (qelem x X []) ltac:(rewrite map_length; exact I3)); apply map_nth).
  destruct (list_eq_dec Z.eq_dec (nth i (group mask X idx) []) idx) as [Y | Y]; destruct (Qc_eq_dec (qelem x X idx) (nth i (map (qelem x X) (group mask X idx)) 0%Qc)) as [Z | Z]; try (apply Qcplus_0_l).
  - exfalso. apply Z. rewrite Q, Y. reflexivity.
  - exfalso. apply Y. apply U; [exact I | apply nth_In; exact I3 | congruence |]. intros k K. destruct (In_nth _ _ [] K) as (j & J & <-). rewrite map_length in I4.
    specialize (I4 j J). rewrite <- Z in I4. rewrite (nth_indep _ 0%Qc (qelem x X []) ltac:(rewrite map_length; exact J)), map_nth in I4. exact I4.
Qed.
(** If no group has two greatest (least) elements, this is the C++ gradient. *)
Theorem C84_max_partial junk axes mask keep X f x y0 ind0 y ind dy d0 :
  chosen axes mask -> Forall (fun a => 0 <= a) axes -> length X = length mask -> above X -> (length X <= 8)%nat ->
  red_setup (created axes) keep X = Some (f, out_shape keep mask X) -> has_size x (size X) -> has_size y0 (size (out_shape keep mask X)) -> Z.of_nat (length ind0) = size (out_shape keep mask X) ->
  has_size dy (size (out_shape keep mask X)) -> has_size d0 (size X) -> max_forward f X x y0 ind0 = Some (y, ind) ->
  (forall i, inside i X -> exists v, In v (elems x X (group mask X i)) /\ q (-100000000) < v)%Qc ->
  (forall i j, inside i X -> In j (group mask X i) -> qelem x X j = qelem x X i -> (forall k, In k (group mask X i) -> qelem x X k <= qelem x X i)%Qc -> j = i) ->
  exists e, py_best_grad junk axes keep (X, x) (out_shape keep mask X, y) (out_shape keep mask X, dy) = Some (X, e) /\ best_backward f X false ind dy d0 = Some e.
Proof.
  intros C F L P N E LX L0 LI D D0 W B U. destruct (ReduceProps.C49_max_partial axes mask keep X f x y0 ind0 C L P E LX L0 LI) as (y' & ind' & W' & LY & _ & V).
  rewrite W in W'. injection W' as <- <-. apply (unique_best Qcle junk axes mask keep X f x y0 ind0); try assumption; [unfold has_size in *; congruence | left; exact W |].
  intros i I. destruct (V i I (B i I)) as (m & H1 & H2 & H3 & H4 & _). exists m. split; [exact H1 |]. split; [exact H2 |]. split; [exact H3 | exact H4].
Qed.
Theorem C84_min_partial junk axes mask keep X f x y0 ind0 y ind dy d0 :
  chosen axes mask -> Forall (fun a => 0 <= a) axes -> length X = length mask -> above X -> (length X <= 8)%nat ->
  red_setup (created axes) keep X = Some (f, out_shape keep mask X) -> has_size x (size X) -> has_size y0 (size (out_shape keep mask X)) -> Z.of_nat (length ind0) = size (out_shape keep mask X) ->
  has_size dy (size (out_shape keep mask X)) -> has_size d0 (size X) -> min_forward f X x y0 ind0 = Some (y, ind) ->
  (forall i, inside i X -> exists v, In v (elems x X (group mask X i)) /\ v < q 100000000)%Qc ->
  (forall i j, inside i X -> In j (group mask X i) -> qelem x X j = qelem x X i -> (forall k, In k (group mask X i) -> qelem x X i <= qelem x X k)%Qc -> j = i) ->
  exists e, py_best_grad junk axes keep (X, x) (out_shape keep mask X, y) (out_shape keep mask X, dy) = Some (X, e) /\ best_backward f X false ind dy d0 = Some e.
Proof.
  intros C F L P N E LX L0 LI D D0 W B U. destruct (ReduceProps.C49_min_partial axes mask keep X f x y0 ind0 C L P E LX L0 LI) as (y' & ind' & W' & LY & _ & V).
  rewrite W in W'. injection W' as <- <-. apply (unique_best (fun a b => b <= a)%Qc junk axes mask keep X f x y0 ind0); try assumption; [unfold has_size in *; congruence | right; exact W |].
  intros i I. destruct (V i I (B i I)) as (m & H1 & H2 & H3 & H4 & _). exists m. split; [exact H1 |]. split; [exact H2 |]. split; [exact H3 | exact H4].
Qed.
Example C84_best_ex :
  shown (py_best_grad (q 9) [1] false (n [2; 2] [2; 3; 7; 5]) (n [2] [3; 7]) (n [2] [1; 10])) = Some (qn [2; 2] [0; 1; 10; 0]) /\
  shown (py_best_grad (q 9) [1] true (n [2; 2] [2; 3; 7; 5]) (n [2; 1] [2; 5]) (n [2; 1] [1; 10])) = Some (qn [2; 2] [1; 0; 0; 10]).
Proof. split; vm_compute; reflexivity. Qed.
(** With two greatest elements both get the whole gradient in Python, but only the first in C++. *)
Theorem C84_max_refuted : exists f, red_setup (created [0]) false [2] = Some (f, []) /\
  option_map snd (max_forward f [2] (map q [5; 5]) [q 0] [9]) = Some [0] /\
  shown (py_best_grad (q 9) [0] false (n [2] [5; 5]) (n [] [5]) (n [] [1])) = Some (qn [2] [1; 1]) /\
  option_map (map this) (best_backward f [2] false [0] [q 1] (map q [0; 0])) = Some (map inject_Z [1; 0]).
Proof. eexists. split; [reflexivity |]. repeat split; vm_compute; reflexivity. Qed.
(** An axis counted from the end is not found by Mean: with kept axes the gradient is not divided by the
    number of elements, without them there is an error.  C++ accepts both. *)
Theorem C84_mean_refuted : exists f g, red_setup (created [-1]) true [2] = Some (f, [1]) /\ red_setup (created [-1]) false [2] = Some (g, []) /\
  shown (py_mean_grad (q 9) [-1] true [2] (n [1] [2])) = Some (qn [2] [2; 2]) /\
  option_map (map this) (mean_backward f [2] false [q 2] (map q [0; 0])) = Some (map inject_Z [1; 1]) /\
  py_mean_grad (q 9) [-1] false [2] (n [] [2]) = None /\
  option_map (map this) (mean_backward g [2] false [q 2] (map q [0; 0])) = Some (map inject_Z [1; 1]).
Proof. do 2 eexists. split; [reflexivity |]. split; [reflexivity |]. repeat split; vm_compute; reflexivity. Qed.
(** Nor by Max, Min and Prod. *)
Theorem C84_negative_refuted : exists f, red_setup (created [-1]) false [2] = Some (f, []) /\
  py_best_grad (q 9) [-1] false (n [2] [5; 6]) (n [] [6]) (n [] [1]) = None /\
  option_map (map this) (best_backward f [2] false [1] [q 1] (map q [0; 0])) = Some (map inject_Z [0; 1]) /\
  py_prod_grad (q 9) [-1] false (n [2] [5; 6]) (n [] [1]) = None /\
  option_map (map this) (prod_backward f [2] false (map q [5; 6]) [q 30] [q 1] (map q [0; 0])) = Some (map inject_Z [6; 5]).
Proof. eexists. split; [reflexivity |]. repeat split; vm_compute; reflexivity. Qed.

Print Assumptions C84_div_partial.
Print Assumptions C84_maximum_partial.
Print Assumptions C84_prod_partial.
Print Assumptions C84_max_partial.
Print Assumptions C84_mean_refuted.
