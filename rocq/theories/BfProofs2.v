(** What holds near a number, and the chain rule for functions of two numbers. *)
From Coq Require Import Reals Ratan ZArith Bool List Lra Lia Psatz.
From Verif Require Import ActModel ActSpec ActProofs1 ActProofs2 ActProofs4 BfModel BfSpec.
Import ListNotations.
Local Open Scope R_scope.

(** * Near a number *)
Definition nearby (P : R -> Prop) (x : R) : Prop := exists delta, 0 < delta /\ forall u, Rabs (u - x) < delta -> P u.
Lemma nearby_all (P : R -> Prop) x : (forall u, P u) -> nearby P x.
Proof. intros H. exists 1. split; [lra | auto]. Qed.
Lemma nearby_at (P : R -> Prop) x : nearby P x -> P x.
Proof. intros (d & D & H). apply H. rewrite Rminus_eq_0, Rabs_R0. exact D. Qed.
Lemma nearby_imp (P Q : R -> Prop) x : (forall u, P u -> Q u) -> nearby P x -> nearby Q x.
Proof. intros I (d & D & H). exists d. split; [exact D | auto]. Qed.
Lemma nearby_and (P Q : R -> Prop) x : nearby P x -> nearby Q x -> nearby (fun u => P u /\ Q u) x.
Proof.
  intros (d & D & H) (d' & D' & H'). exists (Rmin d d'). split; [apply Rmin_pos; assumption |]. intros u Hu.
  pose proof (Rmin_l d d'). pose proof (Rmin_r d d'). split; [apply H | apply H']; lra.
Qed.
Lemma nearby_imp2 (P Q S' : R -> Prop) x : (forall u, P u -> Q u -> S' u) -> nearby P x -> nearby Q x -> nearby S' x.
Proof. intros I A B. apply (nearby_imp (fun u => P u /\ Q u)); [intros u (a & b); auto | apply nearby_and; assumption]. Qed.
Lemma nearby_lt a b x : a < x < b -> nearby (fun u => a < u < b) x.
Proof.
  intros H. exists (Rmin (x - a) (b - x)). split; [apply Rmin_pos; lra |]. intros u Hu. apply Rabs_def2 in Hu.
  pose proof (Rmin_l (x - a) (b - x)). pose proof (Rmin_r (x - a) (b - x)). lra.
Qed.
Lemma nearby_near f g x : nearby (fun u => f u = g u) x -> near f g x.
Proof. intros (d & D & H). exists d. split; [exact D |]. intros y Hy. apply H. apply Rabs_def1; lra. Qed.
(** Values of a function with a derivative stay close. *)
Lemma D_close f x l eps : derivable_pt_lim f x l -> 0 < eps -> nearby (fun u => Rabs (f u - f x) < eps) x.
Proof.
  intros D E. assert (C : continuity_pt f x) by (apply derivable_continuous_pt; exists l; exact D).
  destruct (C eps E) as (d & Dp & H). exists d. split; [exact Dp |]. intros u Hu. destruct (Req_EM_T u x) as [-> | N].
  - rewrite Rminus_eq_0, Rabs_R0. exact E.
  - apply H. split; [split; [exact I | congruence] | exact Hu].
Qed.
Lemma D_nearby f x l (P : R -> Prop) : derivable_pt_lim f x l -> nearby P (f x) -> nearby (fun u => P (f u)) x.
Proof. intros D (d & Dp & H). eapply nearby_imp; [| apply (D_close f x l d D Dp)]. intros u Hu. apply H. exact Hu. Qed.
Lemma D_lt f g x l m : derivable_pt_lim f x l -> derivable_pt_lim g x m -> f x < g x -> nearby (fun u => f u < g u) x.
Proof.
  intros F G H. pose proof (D_nearby _ _ _ (fun v => 0 < v) (D_minus g f x m l G F)) as N.
  eapply nearby_imp; [| apply N].
  - intros u Hu. cbv beta in Hu. lra.
  - cbv beta. apply (nearby_imp (fun v => 0 < v < g x - f x + 1)); [intros u Hu; lra | apply nearby_lt; lra].
Qed.
Lemma D_ne f g x l m : derivable_pt_lim f x l -> derivable_pt_lim g x m -> f x <> g x -> nearby (fun u => f u <> g u) x.
Proof.
  intros F G H. destruct (Rdichotomy _ _ H) as [L | L].
  - eapply nearby_imp; [| exact (D_lt f g x l m F G L)]. intros u Hu. cbv beta in Hu. lra.
  - eapply nearby_imp; [| exact (D_lt g f x m l G F L)]. intros u Hu. cbv beta in Hu. lra.
Qed.
Lemma D_steady f x c : nearby (fun u => f u = c) x -> derivable_pt_lim f x 0.
Proof. intros N. apply (lim_near f (fun _ => c)); [apply nearby_near, N | apply D_const]. Qed.

(** * Losses of a difference *)
Lemma D_abs z : z <> 0 -> derivable_pt_lim Rabs z (abs_slope z).
Proof.
  intros N. unfold abs_slope. destruct (Rlt_dec 0 z) as [P | P].
  - apply (lim_near _ (fun y => y)); [apply (near_above _ _ 0); [exact P | intros y Hy; apply Rabs_pos_eq; lra] | apply D_id].
  - apply (lim_near _ (fun y => - y)); [apply (near_below _ _ 0); [lra | intros y Hy; apply Rabs_left; lra] |]. derive. ring.
Qed.
Lemma D_eps a z : 0 <= a -> Rabs z <> a -> derivable_pt_lim (eps_loss a) z (eps_slope a z).
Proof.
  intros P N. pose proof (fun z => eps_forms a z P) as F. unfold eps_slope.
  destruct (Rlt_dec a z) as [A | A]; [| destruct (Rlt_dec z (- a)) as [B | B]].
  - apply (lim_near _ (fun y => y - a)); [apply (near_above _ _ a); [exact A | intros y Hy; apply F; lra] | derive; ring].
  - apply (lim_near _ (fun y => - y - a)); [apply (near_below _ _ (- a)); [exact B | intros y Hy; apply F; lra] | derive; ring].
  - assert (z <> a) by (intros ->; apply N, Rabs_pos_eq; lra). assert (z <> - a) by (intros ->; apply N; rewrite Rabs_Ropp; apply Rabs_pos_eq; lra).
    apply (lim_near _ (fun _ => 0)); [apply (near_between _ _ (- a) a); [lra | intros y Hy; apply F; lra] | derive; ring].
Qed.
Lemma D_huber a z : 0 < a -> derivable_pt_lim (huber a) z (huber_slope a z).
Proof.
  intros P. pose proof (fun z => proj1 (huber_forms a z)) as F1. pose proof (fun z => proj1 (proj2 (huber_forms a z))) as F2. pose proof (fun z => proj2 (proj2 (huber_forms a z))) as F3.
  unfold huber_slope. destruct (Rtotal_order z a) as [Q | [Q | Q]]; [destruct (Rtotal_order z (- a)) as [Q' | [Q' | Q']] | |].
  - rewrite Rabs_left by lra. cases. apply (lim_near _ (fun y => a * (-2 * y - a))); [apply (near_below _ _ (- a)); [exact Q' | intros y Hy; apply F2; lra] | derive; ring].
  - subst z. rewrite Rabs_left by lra. cases. apply (lim_pieces _ (fun y => a * (-2 * y - a)) (fun y => y * y)); [apply left_always; intros y Hy; apply F2; lra | exists a; split; [lra |]; intros y Hy; apply F3; lra | derive; ring | derive; ring].
  - destruct (Rlt_dec (Rabs z) a) as [_ | B]; [| exfalso; apply B; unfold Rabs; destruct (Rcase_abs z); lra]. apply (lim_near _ (fun y => y * y)); [apply (near_between _ _ (- a) a); [lra | intros y Hy; apply F3; lra] | derive; ring].
  - subst z. rewrite Rabs_pos_eq by lra. cases. apply (lim_pieces _ (fun y => y * y) (fun y => a * (2 * y - a))); [exists a; split; [lra |]; intros y Hy; apply F3; lra | apply right_always; intros y Hy; apply F1; lra | derive; ring | derive; ring].
  - rewrite Rabs_pos_eq by lra. cases. apply (lim_near _ (fun y => a * (2 * y - a))); [apply (near_above _ _ a); [exact Q | intros y Hy; apply F1; lra] | derive; ring].
Qed.

(** * The chain rule *)
Lemma chain2 f (a b : R -> R) x a' b' : smooth2 1 f (a x) (b x) -> derivable_pt_lim a x a' -> derivable_pt_lim b x b' -> (labelled f = true -> b' = 0) ->
  exists l, derivable_pt_lim (fun u => fwd2 f (a u) (b u)) x l /\
  forall dy, bwd0 f dy (a x) (b x) (fwd2 f (a x) (b x)) * a' + bwd1 f dy (a x) (b x) (fwd2 f (a x) (b x)) * b' = dy * l.
Proof.
  intros (Dm & K) A B L. pose proof (D_minus a b x a' b' A B) as AB.
  destruct f; cbn [domain2 labelled] in *; cbn [bwd0 bwd1].
  - exists (abs_slope (a x - b x) * (a' - b')). split; [apply (D_comp (fun u => a u - b u) Rabs); [exact AB | apply D_abs; lra] |]. intros dy. unfold abs_slope. cases; ring.
  - destruct (Rlt_dec 0 (b x)) as [P | P]; [| assert (N0 : a x <> 0) by (intros E; apply Dm; split; [exact E | lra]); destruct (Rdichotomy _ _ N0) as [Q | Q]].
    + exists (/ (1 + (a x / b x) ^ 2) * ((a' * b x - b' * a x) / Rsqr (b x))). split.
      * apply (lim_near _ (fun u => atan (a u / b u))).
        { apply nearby_near. eapply nearby_imp; [| exact (D_lt (fun _ => 0) b x 0 b' (D_const 0 x) B P)]. intros u Hu. cbv beta in Hu. cbn [fwd2]. unfold catan2. cases. reflexivity. }
        apply (D_atan (fun u => a u / b u)), (D_div a b); [exact A | exact B | lra].
      * intros dy. unfold Rsqr. field. split; nra.
    + exists (- (/ (1 + (b x / a x) ^ 2) * ((b' * a x - a' * b x) / Rsqr (a x)))). split.
      * apply (lim_near _ (fun u => - (PI / 2) - atan (b u / a u))).
        { apply nearby_near. eapply nearby_imp; [| exact (D_lt a (fun _ => 0) x a' 0 A (D_const 0 x) Q)]. intros u Hu. cbv beta in Hu. cbn [fwd2]. apply atan2_down. exact Hu. }
        eapply D_eq; [apply (D_minus (fun _ => - (PI / 2)) (fun u => atan (b u / a u))); [apply D_const | apply (D_atan (fun u => b u / a u)), (D_div b a); [exact B | exact A | exact N0]] |]. ring.
      * intros dy. unfold Rsqr. field. split; nra.
    + exists (- (/ (1 + (b x / a x) ^ 2) * ((b' * a x - a' * b x) / Rsqr (a x)))). split.
      * apply (lim_near _ (fun u => PI / 2 - atan (b u / a u))).
        { apply nearby_near. eapply nearby_imp; [| exact (D_lt (fun _ => 0) a x 0 a' (D_const 0 x) A Q)]. intros u Hu. cbv beta in Hu. cbn [fwd2]. apply atan2_up. exact Hu. }
        eapply D_eq; [apply (D_minus (fun _ => PI / 2) (fun u => atan (b u / a u))); [apply D_const | apply (D_atan (fun u => b u / a u)), (D_div b a); [exact B | exact A | exact N0]] |]. ring.
      * intros dy. unfold Rsqr. field. split; nra.
  - exists (a' + b'). split; [apply (D_plus a b); assumption | intros dy; ring].
  - destruct Dm as (M & H). specialize (L eq_refl). subst b'. assert (X : 0 < a x < 1) by nra. assert (Lo : least < a x) by nra. assert (Hi : a x < 1 - least) by nra.
    exists ((a x - b x) / (a x - a x * a x) * a'). split; [| intros dy; rewrite Rmax_left by exact H; unfold Rdiv; ring].
    apply (lim_near _ (fun u => - (b u * ln (a u) + (1 - b u) * ln (1 - a u)))).
    + apply nearby_near. eapply nearby_imp; [| exact (D_nearby a x a' (fun v => least < v < 1 - least) A (nearby_lt _ _ _ (conj Lo Hi)))]. intros u Hu. cbv beta in Hu. cbn [fwd2]. rewrite !Rmax_left by lra. reflexivity.
    + eapply D_eq.
      * apply (D_opp (fun u => b u * ln (a u) + (1 - b u) * ln (1 - a u))), (D_plus (fun u => b u * ln (a u)) (fun u => (1 - b u) * ln (1 - a u))).
        { apply (D_mult b (fun u => ln (a u))); [exact B | apply D_ln; [exact A | lra]]. }
        { apply (D_mult (fun u => 1 - b u) (fun u => ln (1 - a u))); [apply (D_minus (fun _ => 1) b); [apply D_const | exact B] | apply (D_ln (fun u => 1 - a u)); [apply (D_minus (fun _ => 1) a); [apply D_const | exact A] | lra]]. }
      * cbv beta. field. repeat split; nra.
  - exists ((a' * b x - b' * a x) / Rsqr (b x)). split; [apply (D_div a b); assumption |]. intros dy. unfold Rsqr. field. exact Dm.
  - destruct K as (K & _). exists (eps_slope a0 (a x - b x) * (a' - b')). split; [apply (D_comp (fun u => a u - b u) (eps_loss a0)); [exact AB | apply D_eps; assumption] |]. intros dy. unfold eps_slope. cases; ring.
  - destruct K as (K & _). exists (huber_slope a0 (a x - b x) * (a' - b')). split; [apply (D_comp (fun u => a u - b u) (huber a0)); [exact AB | apply D_huber; exact K] |]. intros dy. unfold huber_slope. ring.
  - destruct (Rdichotomy _ _ K) as [Q | Q].
    + exists b'. split; [| intros dy; unfold num; cases; ring]. apply (lim_near _ b); [| exact B]. apply nearby_near. eapply nearby_imp; [| exact (D_lt a b x a' b' A B Q)]. intros u Hu. cbv beta in Hu. cbn [fwd2]. cases. reflexivity.
    + exists a'. split; [| intros dy; unfold num; cases; ring]. apply (lim_near _ a); [| exact A]. apply nearby_near. eapply nearby_imp; [| exact (D_lt b a x b' a' B A Q)]. intros u Hu. cbv beta in Hu. cbn [fwd2]. cases. reflexivity.
  - destruct (Rdichotomy _ _ K) as [Q | Q].
    + exists a'. split; [| intros dy; unfold num; cases; ring]. apply (lim_near _ a); [| exact A]. apply nearby_near. eapply nearby_imp; [| exact (D_lt a b x a' b' A B Q)]. intros u Hu. cbv beta in Hu. cbn [fwd2]. cases. reflexivity.
    + exists b'. split; [| intros dy; unfold num; cases; ring]. apply (lim_near _ b); [| exact B]. apply nearby_near. eapply nearby_imp; [| exact (D_lt b a x b' a' B A Q)]. intros u Hu. cbv beta in Hu. cbn [fwd2]. cases. reflexivity.
  - exists (a' * b x + a x * b'). split; [apply (D_mult a b); assumption | intros dy; ring].
  - exists (exp (b x * ln (a x)) * (b' * ln (a x) + b x * (/ a x * a'))). split.
    + apply (lim_near _ (fun u => exp (b u * ln (a u)))).
      * apply nearby_near. eapply nearby_imp; [| exact (D_lt (fun _ => 0) a x 0 a' (D_const 0 x) A Dm)]. intros u Hu. cbv beta in Hu. cbn [fwd2]. rewrite cpow_pos by exact Hu. reflexivity.
      * apply (D_exp (fun u => b u * ln (a u))), (D_mult b (fun u => ln (a u))); [exact B | apply D_ln; assumption].
    + intros dy. rewrite !cpow_pos by exact Dm. unfold Rpower. replace ((b x - 1) * ln (a x)) with (b x * ln (a x) + - ln (a x)) by ring. rewrite exp_plus, exp_Ropp, exp_ln by exact Dm. field. lra.
  - specialize (L eq_refl). subst b'. pose proof (exp_pos (a x)). exists ((1 / (1 + exp (- a x)) - b x) * a'). split; [| intros dy; ring].
    apply (near_ext _ (fun u => ln (exp (a u) + 1) - b u * a u)); [intros y; apply sce_plain |].
    eapply D_eq; [apply (D_minus (fun u => ln (exp (a u) + 1)) (fun u => b u * a u)); [apply (D_ln (fun u => exp (a u) + 1)); [apply (D_plus (fun u => exp (a u)) (fun _ => 1)); [apply D_exp; exact A | apply D_const] | lra] | apply (D_mult b a); [exact B | exact A]] |].
    cbv beta. rewrite exp_Ropp. field. split; lra.
  - exists (2 * (a x - b x) * (a' - b')). split; [| intros dy; ring]. eapply D_eq; [apply (D_mult (fun u => a u - b u) (fun u => a u - b u)); exact AB |]. cbv beta. ring.
  - exists (a' - b'). split; [exact AB | intros dy; ring].
Qed.
