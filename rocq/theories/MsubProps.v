(** Properties of subtraction of the running mean. *)
From Coq Require Import List ZArith Lia Bool QArith Qcanon Field.
From Verif Require Import ReduceModel QuantSpec QuantProofs1 ItpProofs1 RcProofs3 MsubModel MsubSpec.
Import ListNotations.
Local Open Scope list_scope.
Local Open Scope Qc_scope.

Lemma W_nz n : (0 < n)%Z -> whole_number n <> 0.
Proof. intros P E. pose proof (W_pos n P) as H. rewrite E in H. exact (Qclt_not_eq _ _ H eq_refl). Qed.
Lemma fold_total l a : fold_left Qcplus l a = a + total l.
Proof. revert a. induction l as [| v l IH]; intros a; cbn [fold_left total]; [ring | rewrite IH; ring]. Qed.
Lemma mean_ok size0 size1 x c : (0 < size0)%nat -> is_mean size0 size1 x c (batch_mean size0 size1 x c).
Proof. intros P. unfold is_mean, batch_mean. rewrite fold_total. change (of_Z (Z.of_nat size0)) with (whole_number (Z.of_nat size0)). field. apply W_nz. lia. Qed.
Lemma mean_unique size0 size1 x c m m' : (0 < size0)%nat -> is_mean size0 size1 x c m -> is_mean size0 size1 x c m' -> m = m'.
Proof.
  unfold is_mean. intros P E E'. assert (N : whole_number (Z.of_nat size0) <> 0) by (apply W_nz; lia). replace m with (whole_number (Z.of_nat size0) * m / whole_number (Z.of_nat size0)) by (field; exact N). rewrite E, <- E'. field. exact N.
Qed.
Lemma nth_map_seq (f : nat -> Qc) n c : (c < n)%nat -> nth c (map f (seq 0 n)) 0 = f c.
Proof. intros L. rewrite (nth_indep _ 0 (f 0%nat)) by (rewrite map_length, seq_length; exact L). rewrite map_nth, seq_nth by exact L. reflexivity. Qed.
Lemma subtract_nth size0 size1 x rm s c : (s < size0)%nat -> (c < size1)%nat -> nth (s * size1 + c) (subtract size0 size1 x rm) 0 = nth (s * size1 + c) x 0 - nth c rm 0.
Proof.
  intros S C. unfold subtract. set (row := fun i0 => map (fun i1 => nth (i0 * size1 + i1) x 0 - nth i1 rm 0) (seq 0 size1)).
  assert (R : forall b, (b < size0)%nat -> nth b (map row (seq 0 size0)) [] = row b) by (intros b B; rewrite (nth_indep _ [] (row 0%nat)) by (rewrite map_length, seq_length; exact B); rewrite map_nth, seq_nth by exact B; reflexivity).
  rewrite (nth_concat 0 size1); [rewrite R by exact S; unfold row; rewrite nth_map_seq by exact C; reflexivity | | rewrite map_length, seq_length; exact S | exact C].
  intros b B. rewrite map_length, seq_length in B. rewrite R by exact B. unfold row. rewrite map_length, seq_length. reflexivity.
Qed.

(** * C134: values *)
(** In training the running mean moves to the mean of the batch by the part 1 / (t + 1) of the
    distance, and what it is then is subtracted. *)
Theorem C134_values : forall size0 size1 x rm t y rm' t', (0 < size0)%nat -> (0 <= t)%Z -> forward_batch size0 size1 x rm t = Some (y, rm', t') ->
  t' = (t + 1)%Z /\ length rm' = size1 /\
  (forall c, (c < size1)%nat -> exists m, is_mean size0 size1 x c m /\ whole_number (t + 1) * nth c rm' 0 = whole_number t * nth c rm 0 + m) /\
  (forall s c, (s < size0)%nat -> (c < size1)%nat -> nth (s * size1 + c) y 0 = nth (s * size1 + c) x 0 - nth c rm' 0).
Proof.
  intros size0 size1 x rm t y rm' t' P T E. unfold forward_batch in E. destruct ((int_max <? t + 1)%Z || (t + 1 =? 0)%Z) eqn:B; [discriminate |]. apply orb_false_iff in B. destruct B as (B & _). apply Z.ltb_ge in B. injection E as <- <- <-.
  split; [apply Z.min_l; exact B |]. split; [rewrite map_length, seq_length; reflexivity |]. split; [| intros s c S C; apply subtract_nth; assumption].
  intros c C. exists (batch_mean size0 size1 x c). split; [apply mean_ok; exact P |]. rewrite nth_map_seq by exact C. change (of_Z (t + 1)) with (whole_number (t + 1)). assert (N : whole_number (t + 1) <> 0) by (apply W_nz; lia). replace (whole_number t) with (whole_number (t + 1) - 1) by (rewrite W_plus; change (whole_number 1) with 1; ring). field. exact N.
Qed.
Theorem C134_accepted : forall size0 size1 x rm t, (0 <= t)%Z -> (t < 2147483647)%Z <-> exists y rm' t', forward_batch size0 size1 x rm t = Some (y, rm', t').
Proof.
  intros size0 size1 x rm t T. unfold forward_batch, int_max. destruct (Z.ltb_spec 2147483647 (t + 1)); destruct (Z.eqb_spec (t + 1) 0); cbn [orb]; split; try lia; intros H1; try (destruct H1 as (? & ? & ? & H1); discriminate); eexists; eexists; eexists; reflexivity.
Qed.
(** Refuted: the count stays at the greatest int; the std::min comes too late. *)
Theorem C134_limit_refuted : forall size0 size1 x rm, forward_batch size0 size1 x rm 2147483647 = None.
Proof. reflexivity. Qed.
(** From a count of 0 on, the running mean is the mean of the means of all batches, whatever it was
    in the beginning. *)
Inductive means (size0 size1 c : nat) : list (list Qc) -> list Qc -> Prop :=
  | means_nil : means size0 size1 c [] []
  | means_cons x xs m ms : is_mean size0 size1 x c m -> means size0 size1 c xs ms -> means size0 size1 c (x :: xs) (m :: ms).
Lemma train_means size0 size1 c : (0 < size0)%nat -> (c < size1)%nat -> forall batches rm t rm' t', (0 <= t)%Z -> train size0 size1 batches rm t = Some (rm', t') ->
  t' = (t + Z.of_nat (length batches))%Z /\ exists ms, means size0 size1 c batches ms /\ whole_number t' * nth c rm' 0 = whole_number t * nth c rm 0 + total ms.
Proof.
  intros P C. induction batches as [| x batches IH]; intros rm t rm' t' T E; cbn [train] in E.
  - injection E as <- <-. split; [cbn [length]; lia |]. exists []. split; [constructor | cbn [total]; ring].
  - destruct (forward_batch size0 size1 x rm t) as [[[y rm1] t1] |] eqn:F; [| discriminate]. destruct (C134_values _ _ _ _ _ _ _ _ P T F) as (-> & _ & M & _). destruct (M c C) as (m & M1 & M2). destruct (IH rm1 (t + 1)%Z rm' t' ltac:(lia) E) as (-> & ms & H1 & H2).
    split; [cbn [length]; lia |]. exists (m :: ms). split; [constructor; assumption |]. rewrite H2, M2. cbn [total]. ring.
Qed.
Theorem C134_running : forall size0 size1 batches rm rm' t' c, (0 < size0)%nat -> (c < size1)%nat -> train size0 size1 batches rm 0 = Some (rm', t') ->
  t' = Z.of_nat (length batches) /\ exists ms, means size0 size1 c batches ms /\ whole_number (Z.of_nat (length batches)) * nth c rm' 0 = total ms.
Proof.
  intros size0 size1 batches rm rm' t' c P C E. destruct (train_means size0 size1 c P C batches rm 0%Z rm' t' ltac:(lia) E) as (-> & ms & H1 & H2). split; [reflexivity |]. exists ms. split; [exact H1 |]. rewrite Z.add_0_l in H2. rewrite H2. change (whole_number 0) with 0. ring.
Qed.
(** Otherwise the running mean is subtracted; recomputation gives what forward gave, if the running
    mean was not changed since. *)
Theorem C134_global : forall size0 size1 x rm s c, (s < size0)%nat -> (c < size1)%nat -> nth (s * size1 + c) (forward_global size0 size1 x rm) 0 = nth (s * size1 + c) x 0 - nth c rm 0.
Proof. intros. apply subtract_nth; assumption. Qed.
Theorem C134_recompute : forall size0 size1 x rm t y rm' t', forward_batch size0 size1 x rm t = Some (y, rm', t') -> recompute size0 size1 x rm' = y.
Proof. intros size0 size1 x rm t y rm' t' E. unfold forward_batch in E. destruct (_ || _); [discriminate |]. injection E as <- <- <-. reflexivity. Qed.

(** * C135: gradients *)
Lemma scaled_nth accum factor : forall dx dy k, length dx = length dy -> (k < length dy)%nat -> nth k (scaled accum factor dx dy) 0 = (if accum then nth k dx 0 else 0) + nth k dy 0 * (1 - factor).
Proof. induction dx as [| a dx IH]; intros [| b dy] [| k] L K; cbn [length nth scaled] in *; try discriminate; try lia; [reflexivity |]. apply IH; lia. Qed.
Lemma passed_nth accum : forall dx dy k, length dx = length dy -> (k < length dy)%nat -> nth k (passed accum dx dy) 0 = (if accum then nth k dx 0 else 0) + nth k dy 0.
Proof. induction dx as [| a dx IH]; intros [| b dy] [| k] L K; cbn [length nth passed] in *; try discriminate; try lia; [reflexivity |]. apply IH; lia. Qed.
Lemma total_change n : forall (f g : nat -> Qc) s d a, (a <= s < a + n)%nat -> g s = f s + d -> (forall j, j <> s -> g j = f j) -> total (map g (seq a n)) = total (map f (seq a n)) + d.
Proof.
  induction n as [| n IH]; intros f g s d a R E N; [lia |]. cbn [seq map total]. destruct (Nat.eq_dec a s) as [-> | NE].
  - rewrite E. replace (total (map g (seq (S s) n))) with (total (map f (seq (S s) n))); [ring |]. f_equal. apply map_ext_in. intros j J. apply in_seq in J. symmetry. apply N. lia.
  - rewrite (N a NE), (IH f g s d (S a)) by (auto; lia). ring.
Qed.
(** If an element of the input changes by [d], its own output changes by [d] times the factor of
    backward, the outputs of the other samples change too, and other elements do not. *)
Lemma changed size0 size1 rm t x x' y y' rm1 rm1' t1 t1' s c d : (0 < size0)%nat -> (0 <= t)%Z -> (s < size0)%nat -> (c < size1)%nat ->
  forward_batch size0 size1 x rm t = Some (y, rm1, t1) -> forward_batch size0 size1 x' rm t = Some (y', rm1', t1') ->
  nth (s * size1 + c) x' 0 = nth (s * size1 + c) x 0 + d -> (forall j, j <> (s * size1 + c)%nat -> nth j x' 0 = nth j x 0) ->
  nth c rm1' 0 = nth c rm1 0 + d * (1 / whole_number (t1 * Z.of_nat size0)).
Proof.
  intros P T S C F F' E N. destruct (C134_values _ _ _ _ _ _ _ _ P T F) as (-> & _ & M & _). destruct (C134_values _ _ _ _ _ _ _ _ P T F') as (-> & _ & M' & _).
  destruct (M c C) as (m & M1 & M2). destruct (M' c C) as (m' & M1' & M2'). unfold is_mean in M1, M1'.
  assert (D : total (map (fun s0 => nth (s0 * size1 + c) x' 0) (seq 0 size0)) = total (map (fun s0 => nth (s0 * size1 + c) x 0) (seq 0 size0)) + d).
  { apply (total_change _ _ _ s); [lia | exact E |]. intros j J. apply N. intros Q. apply J. assert (j * size1 = s * size1)%nat by lia. nia. }
  rewrite <- M1, <- M1' in D. assert (N0 : whole_number (Z.of_nat size0) <> 0) by (apply W_nz; lia). assert (N1 : whole_number (t + 1) <> 0) by (apply W_nz; lia).
  assert (DM : m' = m + d / whole_number (Z.of_nat size0)). { replace m' with (whole_number (Z.of_nat size0) * m' / whole_number (Z.of_nat size0)) by (field; exact N0). rewrite D. field. exact N0. }
  replace (nth c rm1' 0) with (whole_number (t + 1) * nth c rm1' 0 / whole_number (t + 1)) by (field; exact N1). replace (nth c rm1 0) with (whole_number (t + 1) * nth c rm1 0 / whole_number (t + 1)) by (field; exact N1).
  rewrite M2', M2, DM, W_mult. field. split; assumption.
Qed.
Theorem C135_own_part : forall size0 size1 rm t x x' y y' rm1 rm1' t1 t1' s c d accum dx dy, (0 < size0)%nat -> (0 <= t)%Z -> (s < size0)%nat -> (c < size1)%nat ->
  forward_batch size0 size1 x rm t = Some (y, rm1, t1) -> forward_batch size0 size1 x' rm t = Some (y', rm1', t1') ->
  nth (s * size1 + c) x' 0 = nth (s * size1 + c) x 0 + d -> (forall j, j <> (s * size1 + c)%nat -> nth j x' 0 = nth j x 0) ->
  length dx = (size0 * size1)%nat -> length dy = (size0 * size1)%nat ->
  exists part, nth (s * size1 + c) y' 0 - nth (s * size1 + c) y 0 = d * part /\
  nth (s * size1 + c) (backward_batch size0 true accum t1 dx dy) 0 = (if accum then nth (s * size1 + c) dx 0 else 0) + nth (s * size1 + c) dy 0 * part /\
  forall s', (s' < size0)%nat -> s' <> s -> nth (s' * size1 + c) y' 0 - nth (s' * size1 + c) y 0 = d * (part - 1).
Proof.
  intros size0 size1 rm t x x' y y' rm1 rm1' t1 t1' s c d accum dx dy P T S C F F' E N LX LY. pose proof (changed _ _ _ _ _ _ _ _ _ _ _ _ _ _ _ P T S C F F' E N) as R.
  destruct (C134_values _ _ _ _ _ _ _ _ P T F) as (_ & _ & _ & Y). destruct (C134_values _ _ _ _ _ _ _ _ P T F') as (_ & _ & _ & Y').
  exists (1 - 1 / whole_number (t1 * Z.of_nat size0)). split; [rewrite Y, Y', E, R by assumption; ring |]. split.
  - unfold backward_batch. cbn [negb]. apply scaled_nth; [congruence |]. rewrite LY. nia.
  - intros s' S' NE. rewrite Y, Y', R by assumption. rewrite N; [ring |]. intros Q. apply NE. nia.
Qed.
(** Refuted: this is the gradient.  With two samples and a count of 0 the outputs always add up to 0,
    but the gradient of their sum is not 0. *)
Definition half_of_one : Qc := 1 / (1 + 1).
Theorem C135_gradient_refuted : (forall x0 x1 r, exists y0 y1 rm, forward_batch 2 1 [x0; x1] [r] 0 = Some ([y0; y1], rm, 1%Z) /\ y0 + y1 = 0) /\ map this (backward_batch 2 true false 1 [0; 0] [1; 1]) = map this [half_of_one; half_of_one].
Proof.
  split; [| vm_compute; reflexivity]. intros x0 x1 r.
  change (forward_batch 2 1 [x0; x1] [r] 0) with (Some (let rm := r + ((0 + x0 + x1) / of_Z 2 - r) * (1 / of_Z 1) in ([x0 - rm; x1 - rm], [rm], 1%Z))). cbv zeta. eexists. eexists. eexists. split; [reflexivity |].
  replace (of_Z 2) with (1 + 1) by (apply Qc_is_canon; reflexivity). replace (of_Z 1) with 1 by (apply Qc_is_canon; reflexivity). field. split; intros Q; discriminate Q.
Qed.
(** With the running mean fixed the gradient is passed on. *)
Theorem C135_global : forall size0 size1 rm x x' accum dx dy s c, (s < size0)%nat -> (c < size1)%nat -> length dx = (size0 * size1)%nat -> length dy = (size0 * size1)%nat ->
  nth (s * size1 + c) (forward_global size0 size1 x' rm) 0 - nth (s * size1 + c) (forward_global size0 size1 x rm) 0 = nth (s * size1 + c) x' 0 - nth (s * size1 + c) x 0 /\
  nth (s * size1 + c) (backward_global true accum dx dy) 0 = (if accum then nth (s * size1 + c) dx 0 else 0) + nth (s * size1 + c) dy 0.
Proof.
  intros size0 size1 rm x x' accum dx dy s c S C LX LY. unfold forward_global. rewrite !subtract_nth by assumption. split; [ring |]. unfold backward_global. cbn [negb]. apply passed_nth; [congruence |]. rewrite LY. nia.
Qed.
Theorem C135_not_wanted : forall size0 accum t dx dy, backward_batch size0 false accum t dx dy = dx /\ backward_global false accum dx dy = dx.
Proof. split; reflexivity. Qed.

(** * Examples *)
Definition n (k : Z) : Qc := Q2Qc (inject_Z k).
Example training_works : option_map (fun '(rm, t) => (map this rm, t)) (train 2 2 [[n 1; n 2; n 3; n 4]; [n 5; n 6; n 7; n 8]] [n 100; n 100] 0) = Some (map this [n 4; n 5], 2%Z).
Proof. vm_compute. reflexivity. Qed.
Example values_work : option_map (fun '(y, _, _) => map this y) (forward_batch 2 2 [n 1; n 2; n 3; n 4] [n 0; n 0] 0) = Some (map this [n (-1); n (-1); n 1; n 1]).
Proof. vm_compute. reflexivity. Qed.
Print Assumptions C134_running.
Print Assumptions C135_own_part.
Print Assumptions C135_gradient_refuted.
