(** The functions of two numbers: slopes in both arguments. *)
From Coq Require Import Reals Ratan ZArith Bool Lra Lia Psatz.
From Verif Require Import ActSpec ActModel ActProofs1 ActProofs2 ActProofs3.
Local Open Scope R_scope.

(** The slope is the derivative if there is one. *)
Lemma right_unique f x r r' : right_slope f x r -> right_slope f x r' -> r = r'.
Proof.
  intros A B. apply cond_eq. intros eps P. destruct (A (eps / 2)) as (d & Hd & HA); [lra |]. destruct (B (eps / 2)) as (d' & Hd' & HB); [lra |].
  assert (M : 0 < Rmin d d') by (apply Rmin_pos; assumption). pose proof (Rmin_l d d'). pose proof (Rmin_r d d').
  specialize (HA (Rmin d d' / 2) ltac:(lra)). specialize (HB (Rmin d d' / 2) ltac:(lra)). set (q := (f (x + Rmin d d' / 2) - f x) / (Rmin d d' / 2)) in *.
  replace (r - r') with ((q - r') - (q - r)) by ring. eapply Rle_lt_trans; [apply Rabs_triang |]. rewrite Rabs_Ropp. lra.
Qed.
Lemma left_unique f x r r' : left_slope f x r -> left_slope f x r' -> r = r'.
Proof.
  intros A B. apply cond_eq. intros eps P. destruct (A (eps / 2)) as (d & Hd & HA); [lra |]. destruct (B (eps / 2)) as (d' & Hd' & HB); [lra |].
  assert (M : 0 < Rmin d d') by (apply Rmin_pos; assumption). pose proof (Rmin_l d d'). pose proof (Rmin_r d d').
  specialize (HA (Rmin d d' / 2) ltac:(lra)). specialize (HB (Rmin d d' / 2) ltac:(lra)). set (q := (f x - f (x - Rmin d d' / 2)) / (Rmin d d' / 2)) in *.
  replace (r - r') with ((q - r') - (q - r)) by ring. eapply Rle_lt_trans; [apply Rabs_triang |]. rewrite Rabs_Ropp. lra.
Qed.
Lemma slope_derivative f x g d : slope f x g -> derivable_pt_lim f x d -> g = d.
Proof.
  intros (l & r & L & Rr & B) D. assert (l = d) by (eapply left_unique; [exact L | apply lim_left; exact D]). assert (r = d) by (eapply right_unique; [exact Rr | apply lim_right; exact D]).
  subst l r. rewrite Rmin_left, Rmax_left in B by lra. lra.
Qed.
(** Slopes of a function of the difference. *)
Lemma slope_shift (E : R -> R) c x m : slope E (x - c) m -> slope (fun u => E (u - c)) x m.
Proof.
  intros (l & r & L & Rr & B). exists l, r. split; [| split; [| exact B]].
  - intros eps P. destruct (L eps P) as (d & Hd & H). exists d. split; [exact Hd |]. intros h Hh. replace (x - h - c) with (x - c - h) by ring. apply H. exact Hh.
  - intros eps P. destruct (Rr eps P) as (d & Hd & H). exists d. split; [exact Hd |]. intros h Hh. replace (x + h - c) with (x - c + h) by ring. apply H. exact Hh.
Qed.
Lemma slope_flip (E : R -> R) c x m : slope E (c - x) m -> slope (fun u => E (c - u)) x (- m).
Proof.
  intros (l & r & L & Rr & B). exists (- r), (- l). split; [| split].
  - intros eps P. destruct (Rr eps P) as (d & Hd & H). exists d. split; [exact Hd |]. intros h Hh. replace (c - (x - h)) with (c - x + h) by ring. specialize (H h Hh).
    replace ((E (c - x) - E (c - x + h)) / h - - r) with (- ((E (c - x + h) - E (c - x)) / h - r)) by (field; lra). rewrite Rabs_Ropp. exact H.
  - intros eps P. destruct (L eps P) as (d & Hd & H). exists d. split; [exact Hd |]. intros h Hh. replace (c - (x + h)) with (c - x - h) by ring. specialize (H h Hh).
    replace ((E (c - x - h) - E (c - x)) / h - - l) with (- ((E (c - x) - E (c - x - h)) / h - l)) by (field; lra). rewrite Rabs_Ropp. exact H.
  - revert B. unfold Rmin, Rmax. destruct (Rle_dec l r), (Rle_dec (- r) (- l)); lra.
Qed.
Lemma slope_near f g x m : near f g x -> derivable_pt_lim g x m -> slope f x m.
Proof. intros N D. apply slope_lim. eapply lim_near; eassumption. Qed.
Lemma slope_ext f g x m : (forall y, f y = g y) -> slope g x m -> slope f x m.
Proof.
  intros E (l & r & L & Rr & B). exists l, r. split; [| split; [| exact B]].
  - apply (left_ext f g); [apply left_always; intros; apply E | exact L].
  - apply (right_ext f g); [apply right_always; intros; apply E | exact Rr].
Qed.

(** ** Losses of a difference *)
Definition abs_slope (z : R) : R := if Rlt_dec 0 z then 1 else -1.
Lemma slope_abs z : slope Rabs z (abs_slope z).
Proof.
  unfold abs_slope. destruct (Rtotal_order z 0) as [Q | [-> | Q]]; cases.
  - apply (slope_near _ (fun y => - y)); [apply (near_below _ _ 0); [exact Q | intros y Hy; apply Rabs_left; exact Hy] | derive; ring].
  - apply (slope_pieces _ (fun y => - y) (fun y => y) 0 (-1) 1); [apply left_always; intros y Hy; apply Rabs_left1; exact Hy | apply right_always; intros y Hy; apply Rabs_pos_eq; exact Hy | derive; ring | derive; ring | lra].
  - apply (slope_near _ (fun y => y)); [apply (near_above _ _ 0); [exact Q | intros y Hy; apply Rabs_pos_eq; lra] | derive; ring].
Qed.
Definition eps_loss (a z : R) : R := if Rlt_dec a (Rabs z) then Rabs z - a else 0.
Definition eps_slope (a z : R) : R := if Rlt_dec a z then 1 else if Rlt_dec z (- a) then -1 else 0.
Lemma eps_forms a z : 0 <= a -> (a <= z -> eps_loss a z = z - a) /\ (z <= - a -> eps_loss a z = - z - a) /\ (- a <= z <= a -> eps_loss a z = 0).
Proof.
  intros P. unfold eps_loss. repeat split; intros H.
  - rewrite Rabs_pos_eq by lra. cases; lra.
  - rewrite Rabs_left1 by lra. cases; lra.
  - destruct (Rlt_dec a (Rabs z)) as [Q |]; [| reflexivity]. exfalso. revert Q. unfold Rabs. destruct (Rcase_abs z); lra.
Qed.
Lemma slope_eps a z : 0 <= a -> slope (eps_loss a) z (eps_slope a z).
Proof.
  intros P. assert (F : forall z, (a <= z -> eps_loss a z = z - a) /\ (z <= - a -> eps_loss a z = - z - a) /\ (- a <= z <= a -> eps_loss a z = 0)) by (intros; apply eps_forms; exact P).
  unfold eps_slope. destruct (Rtotal_order z a) as [Q | [Q | Q]]; [destruct (Rtotal_order z (- a)) as [Q' | [Q' | Q']] | |]; cases.
  - apply (slope_near _ (fun y => - y - a)); [apply (near_below _ _ (- a)); [exact Q' | intros y Hy; apply F; lra] | derive; ring].
  - subst z. destruct (Req_EM_T a 0) as [-> | N]; [lra |]. apply (slope_pieces _ (fun y => - y - a) (fun _ => 0) (- a) (-1) 0); [apply left_always; intros y Hy; apply F; lra | exists a; split; [lra |]; intros y Hy; apply F; lra | derive; ring | derive; ring | lra].
  - apply (slope_near _ (fun _ => 0)); [apply (near_between _ _ (- a) a); [lra | intros y Hy; apply F; lra] | derive; ring].
  - subst z. destruct (Req_EM_T a 0) as [-> | N].
    + apply (slope_pieces _ (fun y => - y - 0) (fun y => y - 0) 0 (-1) 1); [apply left_always; intros y Hy; apply F; lra | apply right_always; intros y Hy; apply F; lra | derive; ring | derive; ring | lra].
    + apply (slope_pieces _ (fun _ => 0) (fun y => y - a) a 0 1); [exists a; split; [lra |]; intros y Hy; apply F; lra | apply right_always; intros y Hy; apply F; lra | derive; ring | derive; ring | lra].
  - apply (slope_near _ (fun y => y - a)); [apply (near_above _ _ a); [exact Q | intros y Hy; apply F; lra] | derive; ring].
Qed.
Definition huber (a z : R) : R := if Rlt_dec (Rabs z) a then Rabs z * Rabs z else a * (2 * Rabs z - a).
Definition huber_slope (a z : R) : R := 2 * (if Rlt_dec (Rabs z) a then z else (if Rlt_dec 0 z then 1 else -1) * a).
Lemma huber_forms a z : ((0 <= z -> a <= z -> huber a z = a * (2 * z - a)) /\ (z <= 0 -> z <= - a -> huber a z = a * (-2 * z - a)) /\ (- a <= z <= a -> huber a z = z * z)).
Proof.
  unfold huber. repeat split.
  - intros A B. rewrite Rabs_pos_eq by lra. destruct (Rlt_dec z a); [lra | reflexivity].
  - intros A B. rewrite Rabs_left1 by lra. destruct (Rlt_dec (- z) a); [lra | ring].
  - intros H. unfold Rabs. destruct (Rcase_abs z).
    + destruct (Rlt_dec (- z) a); [ring |]. assert (z = - a) by lra. subst z. ring.
    + destruct (Rlt_dec z a); [ring |]. assert (z = a) by lra. subst z. ring.
Qed.
Lemma slope_huber a z : slope (huber a) z (huber_slope a z).
Proof.
  pose proof (fun z => proj1 (huber_forms a z)) as F1. pose proof (fun z => proj1 (proj2 (huber_forms a z))) as F2. pose proof (fun z => proj2 (proj2 (huber_forms a z))) as F3.
  unfold huber_slope. destruct (Rle_dec a 0) as [N | P].
  - assert (A : ~ Rabs z < a) by (pose proof (Rabs_pos z); lra). destruct (Rlt_dec (Rabs z) a); [contradiction |].
    destruct (Rtotal_order z 0) as [Q | [Q | Q]]; cases.
    + apply (slope_near _ (fun y => a * (-2 * y - a))); [apply (near_below _ _ 0); [exact Q | intros y Hy; apply F2; lra] | derive; ring].
    + subst z. apply (slope_pieces _ (fun y => a * (-2 * y - a)) (fun y => a * (2 * y - a)) 0 (-2 * a) (2 * a)); [apply left_always; intros y Hy; apply F2; lra | apply right_always; intros y Hy; apply F1; lra | derive; ring | derive; ring | lra].
    + apply (slope_near _ (fun y => a * (2 * y - a))); [apply (near_above _ _ 0); [exact Q | intros y Hy; apply F1; lra] | derive; ring].
  - destruct (Rtotal_order z a) as [Q | [Q | Q]]; [destruct (Rtotal_order z (- a)) as [Q' | [Q' | Q']] | |].
    + rewrite Rabs_left by lra. cases. apply (slope_near _ (fun y => a * (-2 * y - a))); [apply (near_below _ _ (- a)); [exact Q' | intros y Hy; apply F2; lra] | derive; ring].
    + subst z. rewrite Rabs_left by lra. cases. apply (slope_pieces _ (fun y => a * (-2 * y - a)) (fun y => y * y) (- a) (-2 * a) (-2 * a)); [apply left_always; intros y Hy; apply F2; lra | exists a; split; [lra |]; intros y Hy; apply F3; lra | derive; ring | derive; ring | lra].
    + destruct (Rlt_dec (Rabs z) a) as [_ | B]; [| exfalso; apply B; unfold Rabs; destruct (Rcase_abs z); lra]. apply (slope_near _ (fun y => y * y)); [apply (near_between _ _ (- a) a); [lra | intros y Hy; apply F3; lra] | derive; ring].
    + subst z. rewrite Rabs_pos_eq by lra. cases. apply (slope_pieces _ (fun y => y * y) (fun y => a * (2 * y - a)) a (2 * a) (2 * a)); [exists a; split; [lra |]; intros y Hy; apply F3; lra | apply right_always; intros y Hy; apply F1; lra | derive; ring | derive; ring | lra].
    + rewrite Rabs_pos_eq by lra. cases. apply (slope_near _ (fun y => a * (2 * y - a))); [apply (near_above _ _ a); [exact Q | intros y Hy; apply F1; lra] | derive; ring].
Qed.

(** ** The angle *)
Lemma atan2_up a v : 0 < a -> catan2 a v = PI / 2 - atan (v / a).
Proof.
  intros P. unfold catan2. destruct (Rtotal_order v 0) as [Q | [-> | Q]].
  - cases. replace (a / v) with (- / (- v / a)) by (field; lra). rewrite atan_opp, atan_inv by (apply Rdiv_lt_0_compat; lra). replace (- v / a) with (- (v / a)) by (field; lra). rewrite atan_opp. field.
  - cases. unfold Rdiv. rewrite Rmult_0_l, atan_0. ring.
  - cases. replace (a / v) with (/ (v / a)) by (field; lra). apply atan_inv. apply Rdiv_lt_0_compat; lra.
Qed.
Lemma atan2_down a v : a < 0 -> catan2 a v = - (PI / 2) - atan (v / a).
Proof.
  intros P. unfold catan2. destruct (Rtotal_order v 0) as [Q | [-> | Q]].
  - cases. replace (a / v) with (/ (v / a)) by (field; lra). rewrite atan_inv by (replace (v / a) with (- v / - a) by (field; lra); apply Rdiv_lt_0_compat; lra). field.
  - cases. unfold Rdiv. rewrite Rmult_0_l, atan_0. ring.
  - cases. replace (a / v) with (- / (- v / a)) by (field; lra). rewrite atan_opp, atan_inv by (replace (- v / a) with (v / - a) by (field; lra); apply Rdiv_lt_0_compat; lra). replace (- v / a) with (- (v / a)) by (field; lra). rewrite atan_opp. ring.
Qed.
Lemma atan2_D0 a b : ~ (a = 0 /\ b <= 0) -> derivable_pt_lim (fun u => catan2 u b) a (b / (a * a + b * b)).
Proof.
  intros N. assert (D : forall c, b <> 0 -> derivable_pt_lim (fun u => atan (u / b) + c) a (b / (a * a + b * b))).
  { intros c B. derive; [exact B |]. unfold Rsqr. cbn [pow]. field. split; nra. }
  destruct (Rtotal_order b 0) as [Q | [-> | Q]].
  - destruct (Rtotal_order a 0) as [Q' | [Q' | Q']]; [| exfalso; apply N; lra |].
    + apply (lim_near _ (fun u => atan (u / b) + - PI)); [| apply D; lra]. apply (near_below _ _ 0); [exact Q' |]. intros y Hy. unfold catan2. cases. ring.
    + apply (lim_near _ (fun u => atan (u / b) + PI)); [| apply D; lra]. apply (near_above _ _ 0); [exact Q' |]. intros y Hy. unfold catan2. cases. ring.
  - destruct (Rtotal_order a 0) as [Q' | [Q' | Q']]; [| exfalso; apply N; lra |].
    + apply (lim_near _ (fun _ => - (PI / 2))); [apply (near_below _ _ 0); [exact Q' |]; intros y Hy; unfold catan2; cases; ring | derive; field; nra].
    + apply (lim_near _ (fun _ => PI / 2)); [apply (near_above _ _ 0); [exact Q' |]; intros y Hy; unfold catan2; cases; ring | derive; field; nra].
  - apply (near_ext _ (fun u => atan (u / b) + 0)); [| apply D; lra]. intros y. unfold catan2. cases. ring.
Qed.
Lemma atan2_D1 a b : ~ (a = 0 /\ b <= 0) -> derivable_pt_lim (fun v => catan2 a v) b (- a / (a * a + b * b)).
Proof.
  intros N. destruct (Rtotal_order a 0) as [Q | [-> | Q]].
  - apply (near_ext _ (fun v => - (PI / 2) - atan (v / a))); [intros v; apply atan2_down; exact Q |]. eapply D_eq; [apply (D_minus (fun _ => - (PI / 2)) (fun v => atan (v / a))); [apply D_const | dlim; lra] |]. cbv beta. unfold Rsqr. cbn [pow]. field. split; nra.
  - assert (0 < b) by (destruct (Rlt_dec 0 b); [assumption | exfalso; apply N; lra]). apply (lim_near _ (fun _ => 0)); [apply (near_above _ _ 0); [assumption |]; intros v Hv; unfold catan2; cases; unfold Rdiv; rewrite Rmult_0_l; apply atan_0 | derive; field; nra].
  - apply (near_ext _ (fun v => PI / 2 - atan (v / a))); [intros v; apply atan2_up; exact Q |]. eapply D_eq; [apply (D_minus (fun _ => PI / 2) (fun v => atan (v / a))); [apply D_const | dlim; lra] |]. cbv beta. unfold Rsqr. cbn [pow]. field. split; nra.
Qed.

(** ** All functions *)
Lemma sce_plain x l : fwd2 SigmoidCrossEntropy x l = ln (exp x + 1) - l * x.
Proof.
  cbn [fwd2]. unfold num. destruct (Rle_dec 0 x) as [P | N].
  - replace (x - 2 * x * 1) with (- x) by ring. pose proof (exp_pos x). replace (1 + exp (- x)) with ((exp x + 1) * exp (- x)) by (rewrite exp_Ropp; field; lra). rewrite ln_mult by (try apply exp_pos; lra). rewrite ln_exp. ring.
  - replace (x - 2 * x * 0) with x by ring. replace (1 + exp x) with (exp x + 1) by ring. ring.
Qed.
Lemma fair0 f x0 x1 : domain2 f x0 x1 -> exists g, slope (fun u => fwd2 f u x1) x0 g /\ forall dy, bwd0 f dy x0 x1 (fwd2 f x0 x1) = dy * g.
Proof.
  destruct f; cbn [domain2]; intros H.
  - exists (abs_slope (x0 - x1)). split; [apply (slope_shift Rabs x1 x0), slope_abs |]. intros dy. cbn [bwd0]. unfold abs_slope. cases; ring.
  - exists (x1 / (x0 * x0 + x1 * x1)). split; [apply slope_lim, atan2_D0; exact H |]. intros dy. cbn [bwd0]. unfold Rdiv. ring.
  - exists 1. split; [apply slope_lim; cbn [fwd2]; derive; ring | intros dy; cbn [bwd0]; ring].
  - destruct H as (M & H). assert (X : 0 < x0 < 1) by nra. assert (A : least < x0) by nra. assert (B : x0 < 1 - least) by nra.
    exists ((x0 - x1) / (x0 - x0 * x0)). split; [| intros dy; cbn [bwd0]; rewrite Rmax_left by exact H; unfold Rdiv; ring].
    apply (slope_near _ (fun u => - (x1 * ln u + (1 - x1) * ln (1 - u)))).
    + apply (near_between _ _ least (1 - least)); [lra |]. intros y Hy. cbn [fwd2]. rewrite !Rmax_left by lra. reflexivity.
    + eapply D_eq; [apply (D_opp (fun u => x1 * ln u + (1 - x1) * ln (1 - u))), (D_plus (fun u => x1 * ln u) (fun u => (1 - x1) * ln (1 - u))); [apply (D_mult (fun _ => x1) ln); [apply D_const | apply derivable_pt_lim_ln; lra] | apply (D_mult (fun _ => 1 - x1) (fun u => ln (1 - u))); [apply D_const | dlim; lra]] |].
      cbv beta. field. repeat split; nra.
  - exists (/ x1). split; [apply slope_lim; cbn [fwd2]; derive; [exact H | unfold Rsqr; field; exact H] | reflexivity].
  - exists (eps_slope a (x0 - x1)). split; [apply (slope_shift (eps_loss a) x1 x0), slope_eps; exact H |]. intros dy. cbn [bwd0]. unfold eps_slope. cases; ring.
  - exists (huber_slope a (x0 - x1)). split; [apply (slope_shift (huber a) x1 x0), slope_huber |]. intros dy. cbn [bwd0]. unfold huber_slope. ring.
  - destruct (Rtotal_order x0 x1) as [Q | [Q | Q]].
    + exists 0. split; [apply (slope_near _ (fun _ => x1)); [apply (near_below _ _ x1); [exact Q |]; intros y Hy; cbn [fwd2]; cases; reflexivity | derive; ring] | intros dy; cbn [bwd0]; unfold num; cases; ring].
    + subst x1. exists 0. split; [| intros dy; cbn [bwd0]; unfold num; cases; ring]. apply (slope_pieces _ (fun _ => x0) (fun y => y) x0 0 1); [apply left_always; intros y Hy; cbn [fwd2]; cases; lra | apply right_always; intros y Hy; cbn [fwd2]; cases; lra | derive; ring | derive; ring | lra].
    + exists 1. split; [apply (slope_near _ (fun y => y)); [apply (near_above _ _ x1); [exact Q |]; intros y Hy; cbn [fwd2]; cases; reflexivity | derive; ring] | intros dy; cbn [bwd0]; unfold num; cases; ring].
  - destruct (Rtotal_order x0 x1) as [Q | [Q | Q]].
    + exists 1. split; [apply (slope_near _ (fun y => y)); [apply (near_below _ _ x1); [exact Q |]; intros y Hy; cbn [fwd2]; cases; reflexivity | derive; ring] | intros dy; cbn [bwd0]; unfold num; cases; ring].
    + subst x1. exists 0. split; [| intros dy; cbn [bwd0]; unfold num; cases; ring]. apply (slope_pieces _ (fun y => y) (fun _ => x0) x0 1 0); [apply left_always; intros y Hy; cbn [fwd2]; cases; lra | apply right_always; intros y Hy; cbn [fwd2]; cases; lra | derive; ring | derive; ring | lra].
    + exists 0. split; [apply (slope_near _ (fun _ => x1)); [apply (near_above _ _ x1); [exact Q |]; intros y Hy; cbn [fwd2]; cases; reflexivity | derive; ring] | intros dy; cbn [bwd0]; unfold num; cases; ring].
  - exists x1. split; [apply slope_lim; cbn [fwd2]; derive; ring | intros dy; cbn [bwd0]; ring].
  - exists (x1 * cpow x0 (x1 - 1)). split; [apply slope_lim, D_cpow_pos; exact H | intros dy; cbn [bwd0]; ring].
  - exists (1 / (1 + exp (- x0)) - x1). split; [| intros dy; cbn [bwd0]; ring]. pose proof (exp_pos x0).
    apply (slope_ext _ (fun u => ln (exp u + 1) - x1 * u)); [intros y; apply sce_plain |]. apply slope_lim. derive; [lra |]. rewrite exp_Ropp. field. split; lra.
  - exists (2 * (x0 - x1)). split; [apply slope_lim; cbn [fwd2]; derive; ring | intros dy; cbn [bwd0]; ring].
  - exists 1. split; [apply slope_lim; cbn [fwd2]; derive; ring | intros dy; cbn [bwd0]; ring].
Qed.
Lemma fair1 f x0 x1 : f <> SigmoidCrossEntropy -> domain2 f x0 x1 -> exists g, slope (fun u => fwd2 f x0 u) x1 g /\ forall dy, bwd1 f dy x0 x1 (fwd2 f x0 x1) = dy * g.
Proof.
  intros NS. destruct f; cbn [domain2]; intros H; try contradiction.
  - exists (- abs_slope (x0 - x1)). split; [apply (slope_flip Rabs x0 x1), slope_abs |]. intros dy. cbn [bwd1]. unfold abs_slope. cases; ring.
  - exists (- x0 / (x0 * x0 + x1 * x1)). split; [apply slope_lim, atan2_D1; exact H |]. intros dy. cbn [bwd1]. unfold Rdiv. ring.
  - exists 1. split; [apply slope_lim; cbn [fwd2]; derive; ring | intros dy; cbn [bwd1]; ring].
  - exists (ln (Rmax (1 - x0) least) - ln (Rmax x0 least)). split; [apply slope_lim; cbn [fwd2]; derive; ring | intros dy; cbn [bwd1]; ring].
  - exists (- x0 / (x1 * x1)). split; [apply slope_lim; cbn [fwd2]; derive; [exact H | unfold Rsqr; field; exact H] | intros dy; cbn [bwd1]; field; exact H].
  - exists (- eps_slope a (x0 - x1)). split; [apply (slope_flip (eps_loss a) x0 x1), slope_eps; exact H |]. intros dy. cbn [bwd1]. unfold eps_slope. cases; ring.
  - exists (- huber_slope a (x0 - x1)). split; [apply (slope_flip (huber a) x0 x1), slope_huber |]. intros dy. cbn [bwd1]. unfold huber_slope. ring.
  - destruct (Rtotal_order x1 x0) as [Q | [Q | Q]].
    + exists 0. split; [apply (slope_near _ (fun _ => x0)); [apply (near_below _ _ x0); [exact Q |]; intros y Hy; cbn [fwd2]; cases; reflexivity | derive; ring] | intros dy; cbn [bwd1]; unfold num; cases; ring].
    + subst x1. exists 1. split; [| intros dy; cbn [bwd1]; unfold num; cases; ring]. apply (slope_pieces _ (fun _ => x0) (fun y => y) x0 0 1); [apply left_always; intros y Hy; cbn [fwd2]; cases; lra | apply right_always; intros y Hy; cbn [fwd2]; cases; lra | derive; ring | derive; ring | lra].
    + exists 1. split; [apply (slope_near _ (fun y => y)); [apply (near_above _ _ x0); [exact Q |]; intros y Hy; cbn [fwd2]; cases; reflexivity | derive; ring] | intros dy; cbn [bwd1]; unfold num; cases; ring].
  - destruct (Rtotal_order x1 x0) as [Q | [Q | Q]].
    + exists 1. split; [apply (slope_near _ (fun y => y)); [apply (near_below _ _ x0); [exact Q |]; intros y Hy; cbn [fwd2]; cases; reflexivity | derive; ring] | intros dy; cbn [bwd1]; unfold num; cases; ring].
    + subst x1. exists 1. split; [| intros dy; cbn [bwd1]; unfold num; cases; ring]. apply (slope_pieces _ (fun y => y) (fun _ => x0) x0 1 0); [apply left_always; intros y Hy; cbn [fwd2]; cases; lra | apply right_always; intros y Hy; cbn [fwd2]; cases; lra | derive; ring | derive; ring | lra].
    + exists 0. split; [apply (slope_near _ (fun _ => x0)); [apply (near_above _ _ x0); [exact Q |]; intros y Hy; cbn [fwd2]; cases; reflexivity | derive; ring] | intros dy; cbn [bwd1]; unfold num; cases; ring].
  - exists x0. split; [apply slope_lim; cbn [fwd2]; derive; ring | intros dy; cbn [bwd1]; ring].
  - exists (ln x0 * cpow x0 x1). split; [| intros dy; cbn [bwd1]; ring]. apply (slope_ext _ (fun u => exp (u * ln x0))); [intros y; cbn [fwd2]; rewrite cpow_pos by exact H; reflexivity |]. apply slope_lim. derive. rewrite cpow_pos by exact H. unfold Rpower. ring.
  - exists (-2 * (x0 - x1)). split; [apply slope_lim; cbn [fwd2]; derive; ring | intros dy; cbn [bwd1]; ring].
  - exists (-1). split; [apply slope_lim; cbn [fwd2]; derive; ring | intros dy; cbn [bwd1]; ring].
Qed.
