(** Every function of one number: derivative and slopes. *)
From Coq Require Import Reals Ratan ZArith Bool Lra Lia Psatz.
From Verif Require Import ActSpec ActModel ActProofs1 ActProofs2.
Local Open Scope R_scope.

Lemma exp1_pos x : 0 < exp x + 1.
Proof. pose proof (exp_pos x). lra. Qed.
Lemma exp_neg_inv x : exp (- x) = / exp x.
Proof. apply exp_Ropp. Qed.
Lemma tanh_softplus x : tanh (ln (exp x + 1)) = (exp x * exp x + 2 * exp x) / (exp x * exp x + 2 * exp x + 2).
Proof.
  pose proof (exp_pos x). unfold tanh, sinh, cosh. rewrite exp_Ropp, exp_ln by lra. field; repeat split; nra.
Qed.

Ltac isgood g := apply (good_at _ _ g); [| intros dy; cbn [bwd fwd]].
Lemma good_acos x : -1 < x < 1 -> good ACos x.
Proof.
  intros H. isgood (-1 / sqrt (1 - Rsqr x)).
  - apply (derive_pt_eq_1 _ _ _ (derivable_pt_acos x H)). apply derive_pt_acos.
  - unfold Rsqr. field. apply Rgt_not_eq. apply sqrt_lt_R0. nra.
Qed.
Lemma good_asin x : -1 < x < 1 -> good ASin x.
Proof.
  intros H. isgood (1 / sqrt (1 - Rsqr x)).
  - apply (derive_pt_eq_1 _ _ _ (derivable_pt_asin x H)). apply derive_pt_asin.
  - unfold Rsqr. field. apply Rgt_not_eq. apply sqrt_lt_R0. nra.
Qed.
Lemma good_acosh x : 1 < x -> good ACosh x.
Proof.
  intros H. assert (P : 0 < x * x - 1) by nra. pose proof (sqrt_lt_R0 _ P) as S.
  isgood (/ sqrt (x * x - 1)); [| field; lra].
  unfold fwd, cacosh. derive; [exact P | lra |]. field. split; lra.
Qed.
Lemma good_atanh x : -1 < x < 1 -> good ATanh x.
Proof.
  intros H. isgood (/ (1 - x * x)); [| field; nra].
  unfold fwd, catanh. derive; [lra | apply Rdiv_lt_0_compat; lra |]. unfold Rsqr. field. repeat split; try lra. nra.
Qed.
Lemma good_gelu x : good GELU x.
Proof.
  isgood ((1 / 2) * (1 + tanh (gelu_in x)) + (1 / 2) * x * (1 - tanh (gelu_in x) ^ 2) * sqrt (2 / PI) * (1 + (134145 / 1000000) * x ^ 2)); [| ring].
  unfold fwd, gelu_in. derive; [lra |]. cbn [INR pred]. unfold Rsqr. field.
Qed.
Lemma good_log_sigmoid x : good LogSigmoid x.
Proof.
  pose proof (exp_pos x) as P. pose proof (exp1_pos x) as P1. pose proof (exp1_pos (- x)) as P2.
  isgood (/ (exp x + 1)); [| field; lra].
  assert (A : derivable_pt_lim (fun y => - ln (exp (- y) + 1)) x (/ (exp x + 1))) by (derive; [exact P2 |]; rewrite exp_Ropp; field; split; lra).
  assert (B : derivable_pt_lim (fun y => y - ln (exp y + 1)) x (/ (exp x + 1))) by (derive; [exact P1 |]; field; lra).
  assert (E : forall y, - ln (exp (- y) + 1) = y - ln (exp y + 1)).
  { intros y. pose proof (exp_pos y). replace (exp (- y) + 1) with ((exp y + 1) * exp (- y)) by (rewrite exp_Ropp; field; lra). rewrite ln_mult by (try apply exp_pos; lra). rewrite ln_exp. ring. }
  apply (near_ext _ (fun y => y - ln (exp y + 1))); [| exact B]. intros y. cbn [fwd]. destruct (Rlt_dec 0 y); [apply E | reflexivity].
Qed.
Lemma good_mish x : good Mish x.
Proof.
  pose proof (exp_pos x) as P. pose proof (exp1_pos x) as P1.
  isgood (exp x * (4 * (x + 1) + 4 * exp (2 * x) + exp (3 * x) + exp x * (4 * x + 6)) / (2 * exp x + exp (2 * x) + 2) ^ 2).
  - unfold fwd. derive; [exact P1 |]. rewrite tanh_softplus.
    replace (exp (3 * x)) with (exp x * exp x * exp x) by (rewrite <- !exp_plus; f_equal; ring). replace (exp (2 * x)) with (exp x * exp x) by (rewrite <- exp_plus; f_equal; ring).
    field. repeat split; nra.
  - field. pose proof (exp_pos (2 * x)). lra.
Qed.
Lemma good_pow a x : domain (PowScalar a) x -> good (PowScalar a) x.
Proof.
  intros H. isgood (a * cpow x (a - 1)); [| ring].
  assert (D : derivable_pt_lim (fun y => cpow y a) x (a * cpow x (a - 1))) by (destruct H as [P | (n & -> & K)]; [apply D_cpow_pos; exact P | apply D_cpow_int; exact K]).
  unfold fwd. destruct (Req_EM_T a (1 / 2)) as [-> | N]; [| exact D].
  apply (lim_near _ (fun y => cpow y (1 / 2))); [| exact D]. destruct H as [P | (n & E & K)].
  - apply (near_above _ _ 0); [exact P |]. intros y Hy. rewrite cpow_pos by exact Hy. replace (1 / 2) with (/ 2) by lra. symmetry. apply Rpower_sqrt. exact Hy.
  - exfalso. assert (T : 1 = IZR (2 * n)) by (rewrite mult_IZR; lra). apply (eq_IZR 1) in T. lia.
Qed.
Lemma good_rpow a x : 0 < a -> good (RPowScalar a) x.
Proof.
  intros P. isgood (cpow a x * ln a); [| ring]. rewrite cpow_pos by exact P.
  apply (near_ext _ (fun y => exp (y * ln a))); [intros y; cbn [fwd]; rewrite cpow_pos by exact P; reflexivity |]. derive. unfold Rpower. ring.
Qed.
Lemma good_sinc x : good Sinc x.
Proof.
  destruct (Req_EM_T x 0) as [-> | N].
  - isgood 0; [exact sinc_zero |]. destruct (Req_EM_T 0 0); [ring | contradiction].
  - isgood ((cos x - sin x / x) / x); [| cases; field; exact N].
    apply (lim_near _ (fun y => sin y / y)).
    + destruct (Rdichotomy x 0 N) as [Q | Q]; [apply (near_below _ _ 0); [exact Q |] | apply (near_above _ _ 0); [exact Q |]]; intros y Hy; cbn [fwd]; cases; reflexivity.
    + derive; [exact N |]. unfold Rsqr. field. exact N.
Qed.
Lemma good_softplus a x : a <> 0 -> good (SoftPlus a) x.
Proof.
  intros N. pose proof (exp1_pos (x * a)) as P1. pose proof (exp_pos (x * a)) as P.
  isgood (/ (1 + exp (- a * x))); [| field; pose proof (exp_pos (- a * x)); lra].
  apply (near_ext _ (fun y => ln (exp (y * a) + 1) / a)).
  - intros y. cbn [fwd]. destruct (Rlt_dec 0 y); [| reflexivity]. pose proof (exp_pos (y * a)).
    replace (exp (- y * a) + 1) with ((exp (y * a) + 1) * exp (- (y * a))) by (replace (- y * a) with (- (y * a)) by ring; rewrite exp_Ropp; field; lra). rewrite ln_mult by (try apply exp_pos; lra). rewrite ln_exp. field. exact N.
  - derive; [exact P1 | exact N |]. replace (- a * x) with (- (x * a)) by ring. rewrite exp_Ropp. unfold Rsqr. field. repeat split; try lra.
Qed.
Lemma good_softsign x : good SoftSign x.
Proof.
  pose proof (Rabs_pos x) as A. isgood (1 / (1 + Rabs x) ^ 2); [| field; lra]. unfold fwd.
  destruct (Rtotal_order x 0) as [Q | [-> | Q]].
  - apply (lim_near _ (fun y => y / (1 - y))); [apply (near_below _ _ 0); [exact Q |]; intros y Hy; rewrite Rabs_left by exact Hy; reflexivity |]. derive; [lra |]. rewrite Rabs_left by exact Q. unfold Rsqr. field. lra.
  - rewrite Rabs_R0. apply (lim_pieces _ (fun y => y / (1 - y)) (fun y => y / (1 + y))).
    + apply left_always. intros y Hy. rewrite Rabs_left1 by exact Hy. reflexivity.
    + apply right_always. intros y Hy. rewrite Rabs_pos_eq by exact Hy. reflexivity.
    + derive; [lra |]. unfold Rsqr. field.
    + derive; [lra |]. unfold Rsqr. field.
  - apply (lim_near _ (fun y => y / (1 + y))); [apply (near_above _ _ 0); [exact Q |]; intros y Hy; rewrite Rabs_pos_eq by lra; reflexivity |]. derive; [lra |]. rewrite Rabs_pos_eq by lra. unfold Rsqr. field. lra.
Qed.
(** Functions made of pieces: away from the places where they meet. *)
Ltac above a := apply (near_above _ _ a); [lra | let y := fresh in intros y ?; cbn [fwd]; cases; try reflexivity; try lra].
Ltac below a := apply (near_below _ _ a); [lra | let y := fresh in intros y ?; cbn [fwd]; cases; try reflexivity; try lra].
Ltac between a b := apply (near_between _ _ a b); [lra | let y := fresh in intros y ?; cbn [fwd]; cases; try reflexivity; try lra].
Lemma good_all f x : domain f x -> ~ kink f x -> good f x.
Proof.
  destruct f; cbn [domain kink]; intros H K; try contradiction.
  - (* Abs *) destruct (Rdichotomy x 0 K) as [Q | Q].
    + isgood (-1); [| cases; ring]. apply (lim_near _ (fun y => - y)); [apply (near_below _ _ 0); [exact Q | intros y Hy; apply Rabs_left; exact Hy] | derive; ring].
    + isgood 1; [| cases; ring]. apply (lim_near _ (fun y => y)); [apply (near_above _ _ 0); [exact Q | intros y Hy; apply Rabs_pos_eq; lra] | derive; ring].
  - apply good_acos. exact H.
  - apply good_acosh. exact H.
  - isgood 1; [unfold fwd; derive; ring | ring].
  - apply good_asin. exact H.
  - isgood (/ sqrt (x ^ 2 + 1)); [apply derivable_pt_lim_arcsinh |]. replace (x ^ 2) with (x * x) by ring. reflexivity.
  - isgood (/ (1 + x ^ 2)); [apply derivable_pt_lim_atan |]. replace (x ^ 2) with (x * x) by ring. reflexivity.
  - apply good_atanh. exact H.
  - isgood (- sin x); [unfold fwd; derive; ring | ring].
  - isgood (sinh x); [unfold fwd; derive; ring | ring].
  - (* ELU *) destruct (Rtotal_order x 0) as [Q | [Q | Q]].
    + isgood (a * exp x); [| cases; ring]. apply (lim_near _ (fun y => a * (exp y - 1))); [below 0 | derive; ring].
    + subst x. isgood 1; [| cases; ring]. assert (a = 1) by (destruct (Req_EM_T a 1); [assumption | exfalso; apply K; auto]). subst a.
      apply (lim_pieces _ (fun y => 1 * (exp y - 1)) (fun y => y)); [apply left_always | apply right_always | |].
      * intros y Hy. cbn [fwd]. destruct (Rle_dec 0 y); [| reflexivity]. assert (y = 0) by lra. subst y. rewrite exp_0. ring.
      * intros y Hy. cbn [fwd]. cases. reflexivity.
      * derive. rewrite exp_0. ring.
      * derive. ring.
    + isgood 1; [| cases; ring]. apply (lim_near _ (fun y => y)); [above 0 | derive; ring].
  - isgood (exp x); [unfold fwd; derive; ring | ring].
  - apply good_gelu.
  - (* HardSigmoid *) destruct (Rtotal_order x (5 / 2)) as [Q | [Q | Q]]; [destruct (Rtotal_order x (-5 / 2)) as [Q' | [Q' | Q']] | |]; [| exfalso; apply K; auto | | exfalso; apply K; auto |].
    + isgood 0; [| cases; ring]. apply (lim_near _ (fun _ => 0)); [below (-5 / 2) | derive; ring].
    + isgood (1 / 5); [| cases; ring]. apply (lim_near _ (fun y => 1 / 5 * y + 1 / 2)); [between (-5 / 2) (5 / 2) |]. eapply D_eq; [apply (D_plus (fun y => 1 / 5 * y) (fun _ => 1 / 2)); [apply (D_mult (fun _ => 1 / 5) (fun y => y)); [apply D_const | apply D_id] | apply D_const] | ring].
    + isgood 0; [| cases; ring]. apply (lim_near _ (fun _ => 1)); [above (5 / 2) | derive; ring].
  - (* HardTanh *) destruct (Rtotal_order x 1) as [Q | [Q | Q]]; [destruct (Rtotal_order x (-1)) as [Q' | [Q' | Q']] | |]; [| exfalso; apply K; auto | | exfalso; apply K; auto |].
    + isgood 0; [| cases; ring]. apply (lim_near _ (fun _ => -1)); [below (-1) | derive; ring].
    + isgood 1; [| cases; ring]. apply (lim_near _ (fun y => y)); [between (-1) 1 | derive; ring].
    + isgood 0; [| cases; ring]. apply (lim_near _ (fun _ => 1)); [above 1 | derive; ring].
  - (* LeakyReLU *) destruct (Rtotal_order x 0) as [Q | [Q | Q]].
    + isgood a.
      * apply (lim_near _ (fun y => a * y)); [below 0 | derive; ring].
      * destruct (Rlt_dec 0 x); [lra |]. destruct (Rle_dec 0 a); [| destruct (Rlt_dec 0 x); [lra | ring]]. destruct (Rlt_dec 0 (a * x)); [exfalso; nra | ring].
    + subst x. assert (a = 1) by (destruct (Req_EM_T a 1); [assumption | exfalso; apply K; auto]). subst a. isgood 1; [| cases; ring].
      apply (near_ext _ (fun y => y)); [intros y; cbn [fwd]; cases; ring | derive; ring].
    + isgood 1; [| cases; ring]. apply (lim_near _ (fun y => y)); [above 0 | derive; ring].
  - isgood (/ x); [unfold fwd; derive; [exact H | field; lra] | reflexivity].
  - apply good_log_sigmoid.
  - (* MaximumScalar *) destruct (Rdichotomy x a K) as [Q | Q].
    + isgood 0; [| cases; ring]. apply (lim_near _ (fun _ => a)); [below a | derive; ring].
    + isgood 1; [| cases; ring]. apply (lim_near _ (fun y => y)); [above a | derive; ring].
  - (* MinimumScalar *) destruct (Rdichotomy x a K) as [Q | Q].
    + isgood 1; [| cases; ring]. apply (lim_near _ (fun y => y)); [below a | derive; ring].
    + isgood 0; [| cases; ring]. apply (lim_near _ (fun _ => a)); [above a | derive; ring].
  - apply good_mish.
  - isgood a; [unfold fwd; derive; ring | ring].
  - apply good_pow. exact H.
  - isgood (- a / (x * x)); [| reflexivity]. unfold fwd. derive; [exact H |]. unfold Rsqr. field. exact H.
  - apply good_rpow. exact H.
  - isgood (-1); [unfold fwd; derive; ring | ring].
  - (* ReLU *) destruct (Rdichotomy x 0 K) as [Q | Q].
    + isgood 0; [| rewrite Rmax_left by lra; cases; ring]. apply (lim_near _ (fun _ => 0)); [apply (near_below _ _ 0); [exact Q | intros y Hy; cbn [fwd]; apply Rmax_left; lra] | derive; ring].
    + isgood 1; [| rewrite Rmax_right by lra; cases; ring]. apply (lim_near _ (fun y => y)); [apply (near_above _ _ 0); [exact Q | intros y Hy; cbn [fwd]; apply Rmax_right; lra] | derive; ring].
  - (* ReLU6 *) destruct (Rtotal_order x 6) as [Q | [Q | Q]]; [destruct (Rtotal_order x 0) as [Q' | [Q' | Q']] | |]; [| exfalso; apply K; auto | | exfalso; apply K; auto |].
    + isgood 0; [| cases; ring]. apply (lim_near _ (fun _ => 0)); [apply (near_below _ _ 0); [exact Q' | intros y Hy; cbn [fwd]; rewrite Rmax_right, Rmin_left; lra] | derive; ring].
    + isgood 1; [| cases; ring]. apply (lim_near _ (fun y => y)); [apply (near_between _ _ 0 6); [lra | intros y Hy; cbn [fwd]; rewrite Rmax_left, Rmin_left; lra] | derive; ring].
    + isgood 0; [| cases; ring]. apply (lim_near _ (fun _ => 6)); [apply (near_above _ _ 6); [exact Q | intros y Hy; cbn [fwd]; rewrite Rmax_left, Rmin_right; lra] | derive; ring].
  - (* SELU *) destruct (Rtotal_order x 0) as [Q | [Q | Q]].
    + isgood (alpha * scale * exp x); [| cases; ring]. apply (lim_near _ (fun y => alpha * scale * (exp y - 1))); [below 0 | derive; ring].
    + subst x. assert (E : scale = alpha * scale) by (destruct (Req_EM_T scale (alpha * scale)); [assumption | exfalso; apply K; auto]). isgood scale; [| rewrite exp_0; cases; rewrite <- E; ring].
      apply (lim_pieces _ (fun y => alpha * scale * (exp y - 1)) (fun y => scale * y)); [apply left_always | apply right_always | |].
      * intros y Hy. cbn [fwd]. destruct (Rlt_dec 0 y); [lra | reflexivity].
      * intros y Hy. cbn [fwd]. destruct (Rlt_dec 0 y); [reflexivity |]. assert (y = 0) by lra. subst y. rewrite exp_0. ring.
      * derive. rewrite exp_0. lra.
      * derive. ring.
    + isgood scale; [| cases; ring]. apply (lim_near _ (fun y => scale * y)); [above 0 | derive; ring].
  - (* Sigmoid *) pose proof (exp_pos (- x)). isgood (1 / (1 + exp (- x)) * (1 - 1 / (1 + exp (- x)))); [| ring]. unfold fwd. derive; [lra |]. unfold Rsqr. field. lra.
  - isgood (cos x); [unfold fwd; derive; ring | ring].
  - apply good_sinc.
  - isgood (cosh x); [unfold fwd; derive; ring | ring].
  - apply good_softplus. exact H.
  - apply good_softsign.
  - (* Swish *) pose proof (exp_pos (- x)). isgood (x / (1 + exp (- x)) + 1 / (1 + exp (- x)) * (1 - x / (1 + exp (- x)))); [| ring]. unfold fwd. derive; [lra |]. unfold Rsqr. field. lra.
  - isgood (1 / (cos x * cos x)); [unfold fwd; derive; [exact H | ring] |]. field. exact H.
  - isgood (1 - tanh x * tanh x); [unfold fwd; derive; ring | ring].
  - isgood (tanh x * tanh x); [unfold fwd; derive; ring | ring].
Qed.

(** At the places where the pieces meet. *)
Definition fair (f : act) (x : R) : Prop := exists g, slope (fwd f) x g /\ forall dy, bwd f dy x (fwd f x) = dy * g.
Lemma fair_at f x g : slope (fwd f) x g -> (forall dy, bwd f dy x (fwd f x) = dy * g) -> fair f x.
Proof. intros D B. exists g. auto. Qed.
Ltac isfair g := apply (fair_at _ _ g); [| intros dy; cbn [bwd fwd]].
Lemma fair_all f x : domain f x -> kink f x -> fair f x.
Proof.
  destruct f; cbn [domain kink]; intros H K; try contradiction.
  - subst x. isfair 1; [| cases; ring]. apply (slope_pieces _ (fun y => - y) (fun y => y) 0 (-1) 1); [apply left_always; intros y Hy; apply Rabs_left1; exact Hy | apply right_always; intros y Hy; apply Rabs_pos_eq; exact Hy | derive; ring | derive; ring | lra].
  - destruct K as (-> & N). isfair 1; [| cases; ring]. apply (slope_pieces _ (fun y => a * (exp y - 1)) (fun y => y) 0 a 1).
    + apply left_always. intros y Hy. cbn [fwd]. destruct (Rle_dec 0 y); [| reflexivity]. assert (y = 0) by lra. subst y. rewrite exp_0. ring.
    + apply right_always. intros y Hy. cbn [fwd]. cases. reflexivity.
    + derive. rewrite exp_0. ring.
    + derive. ring.
    + lra.
  - destruct K as [-> | ->].
    + isfair (1 / 5); [| cases; ring]. apply (slope_pieces _ (fun y => y / 5 + 1 / 2) (fun _ => 1) (5 / 2) (1 / 5) 0).
      * exists 1. split; [lra |]. intros y Hy. cbn [fwd]. cases. field.
      * apply right_always. intros y Hy. cbn [fwd]. cases; lra.
      * derive; try lra. unfold Rsqr. field.
      * derive. ring.
      * lra.
    + isfair (1 / 5); [| cases; ring]. apply (slope_pieces _ (fun _ => 0) (fun y => y / 5 + 1 / 2) (-5 / 2) 0 (1 / 5)).
      * apply left_always. intros y Hy. cbn [fwd]. cases; lra.
      * exists 1. split; [lra |]. intros y Hy. cbn [fwd]. cases. field.
      * derive. ring.
      * derive; try lra. unfold Rsqr. field.
      * lra.
  - destruct K as [-> | ->].
    + isfair 1; [| cases; ring]. apply (slope_pieces _ (fun y => y) (fun _ => 1) 1 1 0); [exists 1; split; [lra |]; intros y Hy; cbn [fwd]; cases; lra | apply right_always; intros y Hy; cbn [fwd]; cases; lra | derive; ring | derive; ring | lra].
    + isfair 1; [| cases; ring]. apply (slope_pieces _ (fun _ => -1) (fun y => y) (-1) 0 1); [apply left_always; intros y Hy; cbn [fwd]; cases; lra | exists 1; split; [lra |]; intros y Hy; cbn [fwd]; cases; lra | derive; ring | derive; ring | lra].
  - destruct K as (-> & N). isfair a; [| destruct (Rlt_dec 0 0); [lra |]; rewrite Rmult_0_r; cases; ring].
    apply (slope_pieces _ (fun y => a * y) (fun y => y) 0 a 1); [apply left_always; intros y Hy; cbn [fwd]; cases; lra | apply right_always; intros y Hy; cbn [fwd]; destruct (Rlt_dec 0 y); [reflexivity | replace y with 0 by lra; ring] | derive; ring | derive; ring | lra].
  - subst x. isfair 0; [| cases; ring]. apply (slope_pieces _ (fun _ => a) (fun y => y) a 0 1); [apply left_always; intros y Hy; cbn [fwd]; cases; lra | apply right_always; intros y Hy; cbn [fwd]; cases; lra | derive; ring | derive; ring | lra].
  - subst x. isfair 0; [| cases; ring]. apply (slope_pieces _ (fun y => y) (fun _ => a) a 1 0); [apply left_always; intros y Hy; cbn [fwd]; cases; lra | apply right_always; intros y Hy; cbn [fwd]; cases; lra | derive; ring | derive; ring | lra].
  - subst x. isfair 0; [| rewrite Rmax_left by lra; cases; ring]. apply (slope_pieces _ (fun _ => 0) (fun y => y) 0 0 1); [apply left_always; intros y Hy; apply Rmax_left; exact Hy | apply right_always; intros y Hy; apply Rmax_right; exact Hy | derive; ring | derive; ring | lra].
  - destruct K as [-> | ->].
    + isfair 0; [| cases; ring]. apply (slope_pieces _ (fun _ => 0) (fun y => y) 0 0 1); [apply left_always; intros y Hy; cbn [fwd]; rewrite Rmax_right, Rmin_left; lra | exists 1; split; [lra |]; intros y Hy; cbn [fwd]; rewrite Rmax_left, Rmin_left; lra | derive; ring | derive; ring | lra].
    + isfair 0; [| cases; ring]. apply (slope_pieces _ (fun y => y) (fun _ => 6) 6 1 0); [exists 1; split; [lra |]; intros y Hy; cbn [fwd]; rewrite Rmax_left, Rmin_left; lra | apply right_always; intros y Hy; cbn [fwd]; rewrite Rmax_left, Rmin_right; lra | derive; ring | derive; ring | lra].
  - destruct K as (-> & N). isfair (alpha * scale); [| rewrite exp_0; cases; ring].
    apply (slope_pieces _ (fun y => alpha * scale * (exp y - 1)) (fun y => scale * y) 0 (alpha * scale) scale); [apply left_always; intros y Hy; cbn [fwd]; cases; reflexivity | apply right_always; intros y Hy; cbn [fwd]; destruct (Rlt_dec 0 y); [reflexivity | replace y with 0 by lra; rewrite exp_0; ring] | derive; rewrite exp_0; ring | derive; ring | lra].
Qed.
