(** Property C22: learning-rate schedules. *)
From Coq Require Import Reals List Arith ZArith Lra Lia.
From Verif Require Import LrModel.
Import ListNotations.
Local Open Scope R_scope.
Local Open Scope list_scope.

Lemma frac_range m i : (0 < m)%nat -> (i <= m)%nat -> 0 <= 1 - INR i / INR m <= 1.
Proof.
  intros Hm Hi. assert (0 < INR m) by (apply lt_0_INR; lia).
  assert (0 <= INR i) by apply pos_INR. assert (INR i <= INR m) by now apply le_INR.
  assert (0 <= INR i / INR m) by (apply Rmult_le_pos; [lra|left; now apply Rinv_0_lt_compat]).
  assert (INR i / INR m <= 1).
  { apply (Rmult_le_reg_r (INR m)); auto. unfold Rdiv. rewrite Rmult_assoc, Rinv_l; lra. }
  lra.
Qed.
Lemma frac_mono m i j : (0 < m)%nat -> (i <= j)%nat ->
  1 - INR j / INR m <= 1 - INR i / INR m.
Proof.
  intros Hm Hi. assert (0 < INR m) by (apply lt_0_INR; lia).
  assert (INR i <= INR j) by now apply le_INR.
  assert (INR i / INR m <= INR j / INR m).
  { unfold Rdiv. apply Rmult_le_compat_r; auto. left. now apply Rinv_0_lt_compat. }
  lra.
Qed.

Definition nonneg_expo (p : expo) : Prop :=
  match p with PReal r => 0 <= r | PInt _ => True end.

Lemma Rpower_nonneg_mono a b r : 0 < a -> a <= b -> 0 <= r -> Rpower a r <= Rpower b r.
Proof. intros. apply Rle_Rpower_l; lra. Qed.

Lemma py_pow_range b p : 0 <= b <= 1 -> nonneg_expo p ->
  exists x, py_pow b p = Some x /\ 0 <= x <= 1.
Proof.
  intros Hb Hp. destruct p as [r|n]; cbn in *.
  - destruct (Rlt_dec 0 b).
    + exists (Rpower b r). split; auto. split; [left; apply exp_pos|].
      replace 1 with (Rpower 1 r).
      * apply Rpower_nonneg_mono; lra.
      * unfold Rpower. rewrite ln_1, Rmult_0_r. apply exp_0.
    + destruct (Req_EM_T b 0); [|lra]. destruct (Rlt_dec 0 r); [exists 0; split; auto; lra|].
      destruct (Req_EM_T r 0); [exists 1; split; auto; lra|lra].
  - exists (b ^ n). split; auto. split; [apply pow_le; lra|].
    rewrite <- (pow1 n). apply pow_incr. lra.
Qed.

Lemma py_pow_mono a b p x y : 0 <= a <= b -> b <= 1 -> nonneg_expo p ->
  py_pow a p = Some x -> py_pow b p = Some y -> x <= y.
Proof.
  intros Ha Hb Hp. destruct p as [r|n]; cbn in *.
  - destruct (Rlt_dec 0 a), (Rlt_dec 0 b); try lra.
    + intros [= <-] [= <-]. apply Rpower_nonneg_mono; lra.
    + destruct (Req_EM_T a 0); [|lra]. destruct (Rlt_dec 0 r).
      * intros [= <-] [= <-]. left. apply exp_pos.
      * destruct (Req_EM_T r 0); [|discriminate]. intros [= <-] [= <-]. subst.
        unfold Rpower. rewrite Rmult_0_l, exp_0. lra.
    + destruct (Req_EM_T a 0), (Req_EM_T b 0); try lra.
      destruct (Rlt_dec 0 r); [intros [= <-] [= <-]; lra|].
      destruct (Req_EM_T r 0); [|discriminate]. intros [= <-] [= <-]. lra.
  - intros [= <-] [= <-]. apply pow_incr. lra.
Qed.

(** Polynomial decay, for iterations up to max_iter: defined, between 0 and the
    initial rate, starting at it, never increasing; with a positive exponent it ends
    at 0. *)
Theorem C22_polynomial_partial : forall init_lr max_iter power,
  0 <= init_lr -> (0 < max_iter)%nat -> nonneg_expo power ->
  (forall i, (i <= max_iter)%nat ->
     exists r, polynomial init_lr max_iter power i = Some r /\ 0 <= r <= init_lr) /\
  polynomial init_lr max_iter power 0 = Some init_lr /\
  (forall i j r r', (i <= j)%nat -> (j <= max_iter)%nat ->
     polynomial init_lr max_iter power i = Some r ->
     polynomial init_lr max_iter power j = Some r' -> r' <= r).
Proof.
  intros lr m p Hlr Hm Hp. split; [|split].
  - intros i Hi. unfold polynomial.
    destruct (py_pow_range _ p (frac_range m i Hm Hi) Hp) as (x & -> & Hx).
    eexists. split; auto. split; [apply Rmult_le_pos; lra|].
    rewrite <- (Rmult_1_r lr) at 2. apply Rmult_le_compat_l; lra.
  - unfold polynomial. cbn [INR]. unfold Rdiv. rewrite Rmult_0_l, Rminus_0_r.
    replace (py_pow 1 p) with (Some 1); [now rewrite Rmult_1_r|].
    destruct p; cbn.
    + destruct (Rlt_dec 0 1); [|lra]. unfold Rpower. now rewrite ln_1, Rmult_0_r, exp_0.
    + now rewrite pow1.
  - intros i j r r' Hij Hj. unfold polynomial.
    destruct (py_pow_range _ p (frac_range m i Hm ltac:(lia)) Hp) as (x & Hx & _).
    destruct (py_pow_range _ p (frac_range m j Hm Hj) Hp) as (y & Hy & _).
    rewrite Hx, Hy. intros [= <-] [= <-].
    apply Rmult_le_compat_l; auto.
    eapply py_pow_mono; try eassumption.
    + split; [apply (frac_range m j); auto|]. now apply frac_mono.
    + apply (frac_range m i); auto. lia.
Qed.
Print Assumptions C22_polynomial_partial.

(** Beyond max_iter the claim fails: with a quadratic decay the rate grows again,
    and with a fractional power no (real) rate is returned at all. *)
Theorem C22_polynomial_refuted :
  (exists r r', polynomial 1 10 (PInt 2) 10 = Some r /\ polynomial 1 10 (PInt 2) 30 = Some r' /\
                r < 1 /\ 1 < r') /\
  polynomial 1 10 (PReal (1/2)) 11 = None.
Proof.
  split.
  - eexists. eexists. split; [reflexivity|]. split; [reflexivity|].
    cbn. split; lra.
  - unfold polynomial, py_pow.
    assert (1 - INR 11 / INR 10 < 0) by (cbn; lra).
    destruct (Rlt_dec 0 _); [lra|]. destruct (Req_EM_T _ 0); [lra|reflexivity].
Qed.
Print Assumptions C22_polynomial_refuted.

(** Cosine decay. *)
Lemma cos_arg m i : (0 < m)%nat -> (i <= m)%nat -> 0 <= INR i / INR m * PI <= PI.
Proof.
  intros Hm Hi. assert (H := frac_range m i Hm Hi). assert (0 < PI) by apply PI_RGT_0.
  split; [apply Rmult_le_pos; lra|].
  rewrite <- (Rmult_1_l PI) at 2. apply Rmult_le_compat_r; lra.
Qed.
Theorem C22_cosine_partial : forall init_lr max_iter,
  0 <= init_lr -> (0 < max_iter)%nat ->
  (forall i, 0 <= cosine init_lr max_iter i <= init_lr) /\
  cosine init_lr max_iter 0 = init_lr /\ cosine init_lr max_iter max_iter = 0 /\
  (forall i j, (i <= j)%nat -> (j <= max_iter)%nat ->
     cosine init_lr max_iter j <= cosine init_lr max_iter i).
Proof.
  intros lr m Hlr Hm. assert (0 < INR m) by (apply lt_0_INR; lia). unfold cosine. split; [|split; [|split]].
  - intros i. assert (H2 := COS_bound (INR i / INR m * PI)). split.
    + apply Rmult_le_pos; lra.
    + rewrite <- (Rmult_1_r lr) at 2. apply Rmult_le_compat_l; lra.
  - replace (INR 0 / INR m * PI) with 0 by (cbn [INR]; field; lra). rewrite cos_0. lra.
  - replace (INR m / INR m * PI) with PI by (field; lra). rewrite cos_PI. lra.
  - intros i j Hij Hj. apply Rmult_le_compat_l; auto.
    apply Rmult_le_compat_r; [lra|]. apply Rplus_le_compat_r.
    destruct (cos_arg m i Hm ltac:(lia)), (cos_arg m j Hm Hj).
    apply cos_decr_1; auto.
    apply Rmult_le_compat_r; [left; apply PI_RGT_0|].
    assert (Hf := frac_mono m i j Hm Hij). lra.
Qed.
Print Assumptions C22_cosine_partial.

(** Beyond max_iter the rate comes back to the initial one. *)
Theorem C22_cosine_refuted :
  cosine 1 10 10 = 0 /\ cosine 1 10 20 = 1.
Proof.
  unfold cosine. split.
  - replace (INR 10 / INR 10 * PI) with PI by (cbn; field). rewrite cos_PI. lra.
  - replace (INR 20 / INR 10 * PI) with (2 * PI) by (cbn; field). rewrite cos_2PI. lra.
Qed.
Print Assumptions C22_cosine_refuted.

(** Exponential decay: for every iteration. *)
Lemma pow_decr g m n : 0 <= g <= 1 -> (m <= n)%nat -> g ^ n <= g ^ m.
Proof.
  intros Hg H. replace n with (m + (n - m))%nat by lia. rewrite pow_add.
  rewrite <- (Rmult_1_r (g ^ m)) at 2. apply Rmult_le_compat_l; [apply pow_le; lra|].
  rewrite <- (pow1 (n - m)). apply pow_incr. lra.
Qed.
Theorem C22_exponential : forall init_lr gamma interval,
  0 <= init_lr -> 0 <= gamma <= 1 -> (0 < interval)%nat ->
  (forall i, 0 <= exponential init_lr gamma interval i <= init_lr) /\
  (forall i j, (i <= j)%nat ->
     exponential init_lr gamma interval j <= exponential init_lr gamma interval i) /\
  (forall i, (i < interval)%nat -> exponential init_lr gamma interval i = init_lr) /\
  (forall i, exponential init_lr gamma interval (i + interval) =
             gamma * exponential init_lr gamma interval i).
Proof.
  intros lr g n Hlr Hg Hn. unfold exponential.
  assert (M : forall i j, (i <= j)%nat -> lr * g ^ (j / n) <= lr * g ^ (i / n)).
  { intros i j H. apply Rmult_le_compat_l; auto. apply pow_decr; auto.
    apply Nat.div_le_mono; lia. }
  assert (Z : forall i, (i < n)%nat -> lr * g ^ (i / n) = lr).
  { intros i Hi. rewrite Nat.div_small by auto. cbn. ring. }
  split; [|split; [|split]]; auto.
  - intros i. split; [apply Rmult_le_pos; auto; apply pow_le; lra|].
    rewrite <- (Z 0%nat Hn) at 2. apply M. lia.
  - intros i. replace (i + n)%nat with (i + 1 * n)%nat by lia.
    rewrite Nat.div_add by lia. rewrite pow_add. ring.
Qed.
Print Assumptions C22_exponential.

(** Step decay: the initial rate times gamma to the number of steps reached. *)
Lemma step_value lr g steps i :
  step lr g steps i = lr * g ^ (List.length (filter (fun s => Nat.leb s i) steps)).
Proof.
  unfold step. revert lr. induction steps as [|s steps IH]; cbn; intros lr; [ring|].
  destruct (Nat.leb s i); cbn; rewrite IH; ring.
Qed.
Theorem C22_step : forall init_lr gamma steps,
  0 <= init_lr -> 0 <= gamma <= 1 ->
  (forall i, step init_lr gamma steps i =
             init_lr * gamma ^ List.length (filter (fun s => Nat.leb s i) steps)) /\
  (forall i, 0 <= step init_lr gamma steps i <= init_lr) /\
  (forall i j, (i <= j)%nat -> step init_lr gamma steps j <= step init_lr gamma steps i).
Proof.
  intros lr g steps Hlr Hg. split; [|split].
  - intros i. apply step_value.
  - intros i. rewrite step_value. split; [apply Rmult_le_pos; auto; apply pow_le; lra|].
    rewrite <- (Rmult_1_r lr) at 2. apply Rmult_le_compat_l; auto.
    rewrite <- (pow1 (List.length (filter (fun s => Nat.leb s i) steps))). apply pow_incr. lra.
  - intros i j H. rewrite !step_value. apply Rmult_le_compat_l; auto. apply pow_decr; auto.
    induction steps as [|s steps IH]; cbn; auto.
    destruct (Nat.leb_spec s i), (Nat.leb_spec s j); cbn; lia.
Qed.
Print Assumptions C22_step.

(** Warm-up over any scheduler with rates between 0 and init_lr: it stays in that
    range, never exceeds the scheduler, is the scheduler from iteration
    warmup_iter - 1 on, and rises linearly over a constant scheduler. *)
Theorem C22_warmup : forall sched init_lr w,
  (forall i, 0 <= sched i <= init_lr) ->
  (forall i, 0 <= warmup sched w i <= sched i) /\
  (forall i, (w <= i + 1)%nat -> warmup sched w i = sched i) /\
  (forall i j, (i <= j < w)%nat -> sched i <= sched j -> warmup sched w i <= warmup sched w j) /\
  (forall i, (i < w)%nat -> warmup sched w i = sched i * (INR (i + 1) / INR w)).
Proof.
  intros sched lr w Hs.
  assert (R : forall i, (i < w)%nat -> 0 <= INR (i + 1) / INR w <= 1).
  { intros i Hi. assert (0 < INR w) by (apply lt_0_INR; lia).
    assert (INR (i + 1) <= INR w) by (apply le_INR; lia).
    assert (0 <= INR (i + 1)) by apply pos_INR.
    split; [apply Rmult_le_pos; auto; left; now apply Rinv_0_lt_compat|].
    apply (Rmult_le_reg_r (INR w)); auto. unfold Rdiv. rewrite Rmult_assoc, Rinv_l; lra. }
  split; [|split; [|split]].
  - intros i. unfold warmup. destruct (Nat.ltb_spec i w) as [Hi|Hi].
    + specialize (R i Hi). specialize (Hs i). split; [apply Rmult_le_pos; lra|].
      rewrite <- (Rmult_1_r (sched i)) at 2. apply Rmult_le_compat_l; lra.
    + specialize (Hs i). lra.
  - intros i Hi. unfold warmup. destruct (Nat.ltb_spec i w) as [Hi'|]; auto.
    assert (E : (i + 1 = w)%nat) by lia. rewrite E. unfold Rdiv. rewrite Rinv_r; [ring|].
    apply not_0_INR. lia.
  - intros i j Hij Hle. unfold warmup.
    destruct (Nat.ltb_spec i w), (Nat.ltb_spec j w); try lia.
    assert (0 < INR w) by (apply lt_0_INR; lia).
    apply Rmult_le_compat; auto; try (apply Hs); try (apply R; lia).
    unfold Rdiv. apply Rmult_le_compat_r; [left; now apply Rinv_0_lt_compat|]. apply le_INR. lia.
  - intros i Hi. unfold warmup. destruct (Nat.ltb_spec i w); auto. lia.
Qed.
Print Assumptions C22_warmup.

(** Non-vacuity. *)
Example C22_example_step : step 1 (1/10) [3; 5]%nat 4 = 1/10 /\ step 1 (1/10) [3; 5]%nat 7 = 1/100.
Proof. unfold step; cbn. split; lra. Qed.
Example C22_example_poly : polynomial 2 10 (PInt 1) 5 = Some 1.
Proof. unfold polynomial; cbn. f_equal. lra. Qed.
Example C22_example_warm : warmup (fun _ => 1) 4 1 = 1/2.
Proof. unfold warmup; cbn. lra. Qed.
Example C22_example_exp : exponential 1 (1/2) 2 5 = 1/4.
Proof. unfold exponential; cbn. lra. Qed.
