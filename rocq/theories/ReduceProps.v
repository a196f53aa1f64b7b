(** Sum, Mean, Prod, Max and Min (C49). *)
From Coq Require Import List ZArith Lia Bool QArith Qcanon.
From Verif Require Import NdSpec IdxSpec IdxModel JoinSpec JoinModel ScanSpec ReduceModel ReduceSpec ReduceProofs3 ReduceProofs5.
Import ListNotations.
Local Open Scope list_scope.
Local Open Scope Z_scope.

Definition pos (s : list Z) : Prop := Forall (fun n => 0 < n) s.
Definition q (z : Z) : Qc := Q2Qc (inject_Z z).
Definition show (o : option (list Qc)) : option (list Q) := option_map (map this) o.
Definition qs (l : list Z) : option (list Q) := Some (map inject_Z l).

(** Setup finds the shape of the output. *)
Theorem C49_shape : forall axes mask keep_dims shape, chosen axes mask -> length shape = length mask ->
  exists f, red_setup (created axes) keep_dims shape = Some (f, out_shape keep_dims mask shape).
Proof. intros. eexists. apply setup_the; auto. Qed.
(** A function that has been set up before behaves as a new one, if the number of axes is the
    same. *)
Theorem C49_again_partial : forall axes mask keep_dims shape f o shape', chosen axes mask -> length shape = length mask -> length shape' = length mask ->
  red_setup (created axes) keep_dims shape = Some (f, o) ->
  red_setup f keep_dims shape' = red_setup (created axes) keep_dims shape'.
Proof. intros axes mask k shape f o shape' C L L' E. exact (setup_again axes mask k shape f o shape' C L L' E). Qed.
(** Also with another number of axes, if the axes are counted from the front and the new
    shape needs a transposition. *)
Theorem C49_again_other_partial : forall axes keep_dims shape f o shape' f' o', Forall (fun a => 0 <= a) axes ->
  red_setup (created axes) keep_dims shape = Some (f, o) -> red_setup (created axes) keep_dims shape' = Some (f', o') -> ~ r_transpose f' = None ->
  red_setup f keep_dims shape' = Some (f', o').
Proof.
  intros axes keep_dims shape f o shape' f' o' F E E' T.
  assert (R : forall n l, refine_axes n axes = Some l -> l = axes).
  { clear - F. intros n. induction F as [|a axes Ha F IH]; intros l; cbn [refine_axes]; [intros X; injection X as <-; auto|]. unfold refine_axis.
    destruct ((a <? Z.of_nat n) && (- Z.of_nat n <=? a)); cbn [obind]; [|discriminate]. destruct (Z.ltb_spec a 0); [lia|].
    destruct (refine_axes n axes) as [r|]; cbn [obind]; [|discriminate]. intros X; injection X as <-. f_equal. apply IH. auto. }
  unfold red_setup in E. cbn [created r_axes r_transpose] in E. destruct (refine_axes (length shape) axes) as [l|] eqn:E1; [|discriminate]. apply R in E1. subst l. cbn [obind] in E.
  destruct (red_axes (-1) axes shape keep_dims) as [((kept, out), r)|]; [|discriminate]. cbn [obind] in E. injection E as <- <-.
  unfold red_setup in E' |- *. cbn [created r_axes r_transpose] in E' |- *. destruct (refine_axes (length shape') axes) as [l|] eqn:E1; [|discriminate]. cbn [obind] in E' |- *.
  destruct (red_axes (-1) l shape' keep_dims) as [((kept', out'), r')|]; [|discriminate]. cbn [obind] in E' |- *.
  destruct (list_eq_dec Z.eq_dec (kept' ++ l) (upto (Z.of_nat (length shape')))); injection E' as <- <-; [exfalso; apply T; reflexivity|reflexivity].
Qed.
Example C49_again_other_ex : exists f f', red_setup (created [0]) false [2; 3] = Some (f, [3]) /\ red_setup (created [0]) false [2; 3; 4] = Some (f', [3; 4]) /\ r_transpose f = Some [1; 0] /\ r_transpose f' = Some [1; 2; 0] /\ red_setup f false [2; 3; 4] = Some (f', [3; 4]).
Proof. do 2 eexists. repeat split; vm_compute; reflexivity. Qed.
(** Every index of the output is that of a group. *)
Theorem C49_onto : forall keep_dims mask shape j, length shape = length mask -> pos shape -> inside j (out_shape keep_dims mask shape) ->
  exists idx, inside idx shape /\ out_index keep_dims mask idx = j.
Proof. intros. apply out_onto; auto. Qed.

Example C49_shape_ex :
  chosen [0; -1] [true; false; true] /\
  option_map snd (red_setup (created [0; -1]) false [2; 3; 4]) = Some [3] /\
  option_map snd (red_setup (created [0; -1]) true [2; 3; 4]) = Some [1; 3; 1] /\
  group [true; false; true] [2; 3; 4] [1; 2; 3] = [[0; 2; 0]; [0; 2; 1]; [0; 2; 2]; [0; 2; 3]; [1; 2; 0]; [1; 2; 1]; [1; 2; 2]; [1; 2; 3]].
Proof.
  split; [|repeat split; reflexivity]. unfold chosen, denotes. cbn. repeat apply Forall2_cons; try apply Forall2_nil; lia.
Qed.

(** Each output element is the sum, the mean or the product of its group. *)
Theorem C49_sum_partial : forall axes mask keep_dims shape f x y0, chosen axes mask -> length shape = length mask -> pos shape ->
  red_setup (created axes) keep_dims shape = Some (f, out_shape keep_dims mask shape) ->
  Z.of_nat (length x) = size shape -> Z.of_nat (length y0) = size (out_shape keep_dims mask shape) ->
  exists y, sum_forward f shape x y0 = Some y /\ length y = length y0 /\
  forall idx, inside idx shape ->
    qelem y (out_shape keep_dims mask shape) (out_index keep_dims mask idx) = lsum (elems x shape (group mask shape idx)).
Proof.
  intros axes mask k shape f x y0 C L P E Lx Ly. apply (setup_is axes mask) in E as (-> & _); auto.
  destruct (rows_ok mask shape L P k (fun _ => sum_row) x y0 Lx Ly) as (y & E & L' & V). exists y. split; [exact E|]. split; [auto|]. intros idx I. rewrite V by auto. apply sum_row_lsum.
Qed.
Theorem C49_mean_partial : forall axes mask keep_dims shape f x y0, chosen axes mask -> length shape = length mask -> pos shape ->
  red_setup (created axes) keep_dims shape = Some (f, out_shape keep_dims mask shape) ->
  Z.of_nat (length x) = size shape -> Z.of_nat (length y0) = size (out_shape keep_dims mask shape) ->
  exists y, mean_forward f shape x y0 = Some y /\ length y = length y0 /\
  forall idx, inside idx shape ->
    qelem y (out_shape keep_dims mask shape) (out_index keep_dims mask idx) =
    (lsum (elems x shape (group mask shape idx)) / q (Z.of_nat (length (group mask shape idx))))%Qc.
Proof.
  intros axes mask k shape f x y0 C L P E Lx Ly. apply (setup_is axes mask) in E as (-> & _); auto.
  destruct (rows_ok mask shape L P k (fun r l => sum_row l / of_Z r)%Qc x y0 Lx Ly) as (y & E & L' & V). exists y. split; [exact E|]. split; [auto|]. intros idx I. rewrite V, sum_row_lsum by auto.
  rewrite (group_length mask shape) by auto. reflexivity.
Qed.
Theorem C49_prod_partial : forall axes mask keep_dims shape f x y0, chosen axes mask -> length shape = length mask -> pos shape ->
  red_setup (created axes) keep_dims shape = Some (f, out_shape keep_dims mask shape) ->
  Z.of_nat (length x) = size shape -> Z.of_nat (length y0) = size (out_shape keep_dims mask shape) ->
  exists y, prod_forward f shape x y0 = Some y /\ length y = length y0 /\
  forall idx, inside idx shape ->
    qelem y (out_shape keep_dims mask shape) (out_index keep_dims mask idx) = lprod (elems x shape (group mask shape idx)).
Proof.
  intros axes mask k shape f x y0 C L P E Lx Ly. apply (setup_is axes mask) in E as (-> & _); auto.
  destruct (rows_ok mask shape L P k (fun _ => prod_row) x y0 Lx Ly) as (y & E & L' & V). exists y. split; [exact E|]. split; [auto|]. intros idx I. rewrite V by auto. apply prod_row_lprod.
Qed.
Definition after {A} (axes : list Z) (shape : list Z) (g : reduction -> option A) : option A :=
  obind (red_setup (created axes) false shape) (fun '(f, _) => g f).
Example C49_forward_ex :
  show (after [0; 2] [2; 2; 3] (fun f => sum_forward f [2; 2; 3] (map q [1; 2; 3; 4; 5; 6; 7; 8; 9; 10; 11; 12]) (map q [0; 0]))) = qs [30; 48] /\
  show (after [0] [2; 3] (fun f => mean_forward f [2; 3] (map q [1; 2; 3; 5; 6; 7]) (map q [0; 0; 0]))) = qs [3; 4; 5] /\
  show (after [-1] [2; 3] (fun f => prod_forward f [2; 3] (map q [1; 2; 3; 5; 6; 7]) (map q [0; 0]))) = qs [6; 210] /\
  show (after [] [3] (fun f => sum_forward f [3] (map q [1; 2; 3]) (map q [0; 0; 0]))) = qs [1; 2; 3] /\
  show (after [] [] (fun f => sum_forward f [] (map q [5]) (map q [0]))) = qs [5].
Proof. repeat split; vm_compute; reflexivity. Qed.

(** The backward passes compute the derivatives. *)
Theorem C49_sum_gradient_partial : forall axes mask keep_dims shape f x, chosen axes mask -> length shape = length mask -> pos shape ->
  red_setup (created axes) keep_dims shape = Some (f, out_shape keep_dims mask shape) ->
  derivative (size shape) (size (out_shape keep_dims mask shape)) (sum_forward f shape) (fun accum _ => sum_backward f shape accum) x.
Proof. intros axes mask k shape f x C L P E. apply (setup_is axes mask) in E as (-> & _); auto. apply sum_derivative; auto. Qed.
Theorem C49_mean_gradient_partial : forall axes mask keep_dims shape f x, chosen axes mask -> length shape = length mask -> pos shape ->
  red_setup (created axes) keep_dims shape = Some (f, out_shape keep_dims mask shape) ->
  derivative (size shape) (size (out_shape keep_dims mask shape)) (mean_forward f shape) (fun accum _ => mean_backward f shape accum) x.
Proof. intros axes mask k shape f x C L P E. apply (setup_is axes mask) in E as (-> & _); auto. apply mean_derivative; auto. Qed.
(** For Prod only if no group has exactly one zero.  The backward pass gets the output of the
    forward pass. *)
Definition prod_pass (f : reduction) (shape out : list Z) (accum : bool) (x dy dx : list Qc) : option (list Qc) :=
  obind (prod_forward f shape x (repeat 0%Qc (Z.to_nat (size out)))) (fun y => prod_backward f shape accum x y dy dx).
Theorem C49_prod_gradient_partial : forall axes mask keep_dims shape f x, chosen axes mask -> length shape = length mask -> pos shape ->
  red_setup (created axes) keep_dims shape = Some (f, out_shape keep_dims mask shape) ->
  (forall idx, inside idx shape -> qelem x shape idx = 0%Qc -> exists j, In j (group mask shape idx) /\ j <> idx /\ qelem x shape j = 0%Qc) ->
  derivative (size shape) (size (out_shape keep_dims mask shape)) (prod_forward f shape) (prod_pass f shape (out_shape keep_dims mask shape)) x.
Proof. intros axes mask k shape f x C L P E Z. apply (setup_is axes mask) in E as (-> & _); auto. apply prod_derivative; auto. Qed.
Example C49_gradient_ex :
  show (after [0] [2; 3] (fun f => sum_backward f [2; 3] true (map q [1; 2; 3]) (map q [10; 20; 30; 40; 50; 60]))) = qs [11; 22; 33; 41; 52; 63] /\
  show (after [1] [2; 2] (fun f => mean_backward f [2; 2] false (map q [2; 4]) (map q [9; 9; 9; 9]))) = qs [1; 1; 2; 2] /\
  show (after [0] [2; 2] (fun f => prod_pass f [2; 2] [2] true (map q [2; 3; 4; 5]) (map q [1; 10]) (map q [100; 100; 100; 100]))) = qs [104; 150; 102; 130] /\
  show (after [0] [3] (fun f => prod_pass f [3] [] false (map q [0; 0; 4]) (map q [1]) (map q [9; 9; 9]))) = qs [0; 0; 0].
Proof. repeat split; vm_compute; reflexivity. Qed.
(** With exactly one zero the gradient is not the derivative, which is 2 here. *)
Theorem C49_prod_gradient_refuted : exists f x, red_setup (created [0]) false [2] = Some (f, []) /\
  ~ derivative 2 1 (prod_forward f [2]) (prod_pass f [2] []) x /\
  show (prod_forward f [2] x (map q [0])) = qs [0] /\ show (prod_forward f [2] (map q [1; 2]) (map q [0])) = qs [2] /\
  show (prod_pass f [2] [] false x (map q [1]) (map q [0; 0])) = qs [0; 0].
Proof.
  eexists. exists (map q [0; 2]). split; [reflexivity|]. split; [|repeat split; vm_compute; reflexivity].
  intros D. destruct (D false (map q [1]) (map q [0; 0]) eq_refl eq_refl eq_refl) as (dx & d & E & _ & SL & V).
  destruct (SL (map q [0]) eq_refl) as (y & E1 & G). destruct (G 0%nat (q 1) ltac:(cbn; lia)) as (y' & E2 & N). specialize (V 0%nat ltac:(cbn; lia)).
  apply (f_equal show) in E, E1, E2. vm_compute in E. vm_compute in E1. vm_compute in E2.
  destruct dx as [|a [|b [|c dx]]]; try discriminate E. destruct y as [|e [|g y]]; try discriminate E1. destruct y' as [|h [|i y']]; try discriminate E2.
  injection E as Ea _. injection E1 as Ee. injection E2 as Eh. change (inject_Z 0 = this a) in Ea. change (inject_Z 0 = this e) in Ee. change (inject_Z 2 = this h) in Eh.
  assert (Ha : a = 0%Qc) by (apply Qc_is_canon; rewrite <- Ea; reflexivity). assert (He : e = 0%Qc) by (apply Qc_is_canon; rewrite <- Ee; reflexivity). assert (Hh : h = q 2) by (apply Qc_is_canon; rewrite <- Eh; reflexivity).
  subst a e h. cbn [nth qinner map] in *. assert (D0 : nth 0 d 0%Qc = 0%Qc). { transitivity (0 + nth 0 d 0)%Qc; [ring|]. rewrite <- V. reflexivity. }
  rewrite D0 in N. apply (f_equal this) in N. vm_compute in N. discriminate.
Qed.

(** Max (Min): the output element is the greatest (least) of its group, and the index its first
    position there, if some element of the group is above -100000000 (below 100000000). *)
Theorem C49_max_partial : forall axes mask keep_dims shape f x y0 ind0, chosen axes mask -> length shape = length mask -> pos shape ->
  red_setup (created axes) keep_dims shape = Some (f, out_shape keep_dims mask shape) ->
  Z.of_nat (length x) = size shape -> Z.of_nat (length y0) = size (out_shape keep_dims mask shape) -> Z.of_nat (length ind0) = size (out_shape keep_dims mask shape) ->
  exists y ind, max_forward f shape x y0 ind0 = Some (y, ind) /\ length y = length y0 /\ length ind = length ind0 /\
  forall idx, inside idx shape -> let l := elems x shape (group mask shape idx) in
    (exists v, In v l /\ q (-100000000) < v)%Qc ->
    exists i, elem ind (out_shape keep_dims mask shape) (out_index keep_dims mask idx) = Z.of_nat i /\
      qelem y (out_shape keep_dims mask shape) (out_index keep_dims mask idx) = nth i l 0%Qc /\
      (i < length l)%nat /\ (forall j, (j < length l)%nat -> nth j l 0 <= nth i l 0)%Qc /\ (forall j, (j < i)%nat -> nth j l 0 < nth i l 0)%Qc.
Proof.
  intros axes mask k shape f x y0 ind0 C L P E Lx Ly Li. apply (setup_is axes mask) in E as (-> & _); auto.
  destruct (best_forward_ok mask k shape L P more (of_Z (-100000000)) more_0 more_1 more_2 x y0 ind0 Lx Ly Li) as (y & ind & E & L1 & L2 & V).
  exists y, ind. split; [exact E|]. split; [auto|]. split; [auto|]. intros idx I l (v & Hv & Sv). destruct (V idx I) as (i & H1 & H2 & H3 & H4 & H5).
  { exists v. split; [auto|]. apply more_t. auto. }
  exists i. split; [auto|]. split; [auto|]. split; [auto|]. split; intros j Hj; [apply more_f|apply more_t]; auto.
Qed.
Theorem C49_min_partial : forall axes mask keep_dims shape f x y0 ind0, chosen axes mask -> length shape = length mask -> pos shape ->
  red_setup (created axes) keep_dims shape = Some (f, out_shape keep_dims mask shape) ->
  Z.of_nat (length x) = size shape -> Z.of_nat (length y0) = size (out_shape keep_dims mask shape) -> Z.of_nat (length ind0) = size (out_shape keep_dims mask shape) ->
  exists y ind, min_forward f shape x y0 ind0 = Some (y, ind) /\ length y = length y0 /\ length ind = length ind0 /\
  forall idx, inside idx shape -> let l := elems x shape (group mask shape idx) in
    (exists v, In v l /\ v < q 100000000)%Qc ->
    exists i, elem ind (out_shape keep_dims mask shape) (out_index keep_dims mask idx) = Z.of_nat i /\
      qelem y (out_shape keep_dims mask shape) (out_index keep_dims mask idx) = nth i l 0%Qc /\
      (i < length l)%nat /\ (forall j, (j < length l)%nat -> nth i l 0 <= nth j l 0)%Qc /\ (forall j, (j < i)%nat -> nth i l 0 < nth j l 0)%Qc.
Proof.
  intros axes mask k shape f x y0 ind0 C L P E Lx Ly Li. apply (setup_is axes mask) in E as (-> & _); auto.
  destruct (best_forward_ok mask k shape L P less (of_Z 100000000) less_0 less_1 less_2 x y0 ind0 Lx Ly Li) as (y & ind & E & L1 & L2 & V).
  exists y, ind. split; [exact E|]. split; [auto|]. split; [auto|]. intros idx I l (v & Hv & Sv). destruct (V idx I) as (i & H1 & H2 & H3 & H4 & H5).
  { exists v. split; [auto|]. apply less_t. auto. }
  exists i. split; [auto|]. split; [auto|]. split; [auto|]. split; intros j Hj; [apply less_f|apply less_t]; auto.
Qed.
(** The gradient of an output element goes to the element of the group that the index tells,
    and nowhere else. *)
Theorem C49_max_gradient_partial : forall axes mask keep_dims shape f x y0 ind0 y ind accum dy dx0, chosen axes mask -> length shape = length mask -> pos shape ->
  red_setup (created axes) keep_dims shape = Some (f, out_shape keep_dims mask shape) ->
  Z.of_nat (length x) = size shape -> Z.of_nat (length y0) = size (out_shape keep_dims mask shape) -> Z.of_nat (length ind0) = size (out_shape keep_dims mask shape) ->
  max_forward f shape x y0 ind0 = Some (y, ind) \/ min_forward f shape x y0 ind0 = Some (y, ind) ->
  Z.of_nat (length dy) = size (out_shape keep_dims mask shape) -> Z.of_nat (length dx0) = size shape ->
  exists dx, best_backward f shape accum ind dy dx0 = Some dx /\ length dx = length dx0 /\
  forall idx, inside idx shape ->
    qelem dx shape idx = ((if accum then qelem dx0 shape idx else 0) +
      (if list_eq_dec Z.eq_dec (nth (Z.to_nat (elem ind (out_shape keep_dims mask shape) (out_index keep_dims mask idx))) (group mask shape idx) []) idx
       then qelem dy (out_shape keep_dims mask shape) (out_index keep_dims mask idx) else 0))%Qc.
Proof.
  intros axes mask k shape f x y0 ind0 y ind accum dy dx0 C L P E Lx Ly Li F Ld L0. apply (setup_is axes mask) in E as (-> & _); auto.
  destruct F as [F|F].
  - apply (best_gradient_ok mask k shape L P more (of_Z (-100000000)) more_0 more_1 more_2 accum x y0 ind0 y ind); auto.
  - apply (best_gradient_ok mask k shape L P less (of_Z 100000000) less_0 less_1 less_2 accum x y0 ind0 y ind); auto.
Qed.
Definition show2 (o : option (list Qc * list Z)) : option (list Q * list Z) := option_map (fun '(y, ind) => (map this y, ind)) o.
Example C49_max_ex :
  show2 (after [0] [3; 2] (fun f => max_forward f [3; 2] (map q [1; 5; 3; 5; 3; 2]) (map q [0; 0]) [9; 9])) = Some (map inject_Z [3; 5], [1; 0]) /\
  show2 (after [1] [2; 3] (fun f => min_forward f [2; 3] (map q [4; 1; 1; -7; 2; 0]) (map q [0; 0]) [9; 9])) = Some (map inject_Z [1; -7], [1; 0]) /\
  show (after [0] [3; 2] (fun f => best_backward f [3; 2] true [1; 0] (map q [1; 2]) (map q [10; 20; 30; 40; 50; 60]))) = qs [10; 22; 31; 40; 50; 60].
Proof. repeat split; vm_compute; reflexivity. Qed.

(** Elements that are all below -100000000 (above 100000000) have the wrong greatest (least)
    element, and a position that has nothing to do with it. *)
Theorem C49_max_refuted : exists f, red_setup (created [0]) false [2] = Some (f, []) /\
  show2 (max_forward f [2] (map q [-300000000; -200000000]) (map q [0]) [9]) = Some ([inject_Z (-100000000)], [0]) /\
  show2 (min_forward f [2] (map q [300000000; 200000000]) (map q [0]) [9]) = Some ([inject_Z 100000000], [0]).
Proof. eexists. split; [reflexivity|]. split; vm_compute; reflexivity. Qed.

(** Axes that are not in increasing order are accepted by setup, with a wrong shape of the
    output, and the forward pass fails. *)
Theorem C49_order_refuted : exists f, red_setup (created [1; 0]) false [2; 3] = Some (f, [2; 3]) /\
  sum_forward f [2; 3] (map q [1; 2; 3; 4; 5; 6]) (map q [0; 0; 0; 0; 0; 0]) = None.
Proof. eexists. split; reflexivity. Qed.

(** Setting up a function again with another number of axes is not like setting up a new one:
    the last axis of the first shape is reduced, and the transposition stays. *)
Theorem C49_again_refuted : exists f f', 
  red_setup (created [-1]) false [2; 3] = Some (f, [2]) /\
  option_map snd (red_setup f false [2; 3; 4]) = Some [2; 4] /\ option_map snd (red_setup (created [-1]) false [2; 3; 4]) = Some [2; 3] /\
  red_setup (created [0]) false [2; 3] = Some (f', [3]) /\
  show (obind (red_setup f' false [2]) (fun '(f, _) => sum_forward f [2] (map q [1; 2]) (map q [0]))) = None /\
  show (after [0] [2] (fun f => sum_forward f [2] (map q [1; 2]) (map q [0]))) = qs [3].
Proof. do 2 eexists. repeat split; vm_compute; reflexivity. Qed.

(** Reducing an axis without elements divides by zero. *)
Theorem C49_empty_refuted : exists f, red_setup (created [1]) false [2; 0] = Some (f, [2]) /\ sum_forward f [2; 0] [] (map q [0; 0]) = None.
Proof. eexists. split; reflexivity. Qed.

(** The documentation of Sum says that all axes are reduced if the list of axes is empty
    (functions.yaml:2341-2343).  None is. *)
Theorem C49_no_axes_refuted : exists f, red_setup (created []) false [2; 3] = Some (f, [2; 3]) /\ ~ out_shape false [true; true] [2; 3] = [2; 3].
Proof. eexists. split; [reflexivity|discriminate]. Qed.

Print Assumptions C49_sum_gradient_partial.
Print Assumptions C49_mean_gradient_partial.
Print Assumptions C49_prod_gradient_partial.
Print Assumptions C49_max_gradient_partial.
