(** Update rules of the solvers: gradient descent and adaptive rates (C79), the family of Adam
    (C80), rates per layer and functions on gradients (C81). *)
From Coq Require Import List ZArith Lia Bool Reals Lra.
From Verif Require Import SmSpec UpdSpec UpdModel.
From Verif Require SmProofs1 UpdProofs1 UpdProofs2 UpdProofs3 UpdProofs4.
Import ListNotations.
Local Open Scope list_scope.
Local Open Scope Z_scope.

(** [g] are the gradients of the updates, for a parameter of n elements. *)
Definition gradients (n : Z) (g : Z -> list R) : Prop := 0 <= n /\ forall T, 0 <= T < counted -> len (g T) = n.
(** What holds before every update that is counted, and after all of them. *)
Definition throughout (P : Z -> Prop) : Prop := forall T, 0 <= T <= counted -> P T.
Definition each_step (P : Z -> Prop) : Prop := forall T, 0 <= T < counted -> P T.
Definition squares (f : Z -> R) : Z -> R := fun i => (f i * f i)%R.

(** * C79 *)
(** The counter of updates never overflows. *)
Theorem C79_counter : forall t, 0 <= t <= counted -> next_t t = Z.min (t + 1) counted.
Proof. intros t H. unfold next_t, counted in *. rewrite Z.mod_small by lia. lia. Qed.
(** ... unless it was loaded so. *)
Theorem C79_counter_refuted : ~ forall t, 0 <= t < 2 ^ 32 -> t <= next_t t.
Proof. intros H. specialize (H (2 ^ 32 - 1) ltac:(lia)). apply H. reflexivity. Qed.

Section Histories.
Context (n : Z) (g : Z -> list R) (G : gradients n g) (t : Z -> Z) (T0 : t 0 = 0) (x : Z -> list R) (Lx : len (x 0) = n).
Let f (e : Z) : Z -> R := fun i => at_pos (g i) e.

Theorem C79_sgd_partial : forall lr : Z -> R, updates (fun T => sgd_update (lr T) (g T)) (fun T => (t T, x T)) ->
  throughout (fun T => t T = T /\ forall e, 0 <= e < n -> at_pos (x T) e = (at_pos (x 0%Z) e - rsum T (fun i => lr i * f e i))%R).
Proof using G T0 Lx.
  intros lr U T HT. destruct G as (Hn & Lg). destruct (UpdProofs2.run0 n g (fun T => sgd_update (lr T) (g T)) (fun T g x => x - lr T * g)%R t x) as (A & B); auto.
  { intros T' t' x' HT' L. apply (UpdProofs2.sgd_does n Hn); auto. }
  split; [apply A; exact HT |]. intros e He. change at_pos with SmProofs1.el. rewrite (UpdProofs3.closed_sum (fun T => SmProofs1.el (x T) e) (fun i => - (lr i * SmProofs1.el (g i) e))%R).
  - rewrite (SmProofs1.rsum_ext _ _ (fun i => -1 * (lr i * SmProofs1.el (g i) e))%R) by (intros; ring). rewrite SmProofs1.rsum_scale. change (f e) with (fun i => SmProofs1.el (g i) e). cbn beta. ring.
  - intros T' HT'. rewrite B by assumption. ring.
  - exact HT.
Qed.

Section OneState.
Context (a : Z -> list R) (A0 : a 0 = zeros n).
Lemma La0 : SmProofs1.rlen (a 0) = n.
Proof using G A0. clear T0 Lx. destruct G as (Hn & _). rewrite A0. apply UpdProofs1.len_zeros. exact Hn. Qed.
Lemma at0 e : SmProofs1.el (a 0) e = 0%R.
Proof using A0. rewrite A0. apply UpdProofs1.el_zeros. Qed.
Definition LaR := La0.
(** Momentum: the velocity is the discounted sum of the scaled gradients. *)
Theorem C79_momentum_partial : forall (lr : Z -> R) mu, updates (fun T => momentum_update (lr T) mu (g T)) (fun T => (t T, a T, x T)) ->
  let velocity e := discounted mu (fun i => lr i * f e i)%R in
  throughout (fun T => t T = T /\ forall e, 0 <= e < n -> at_pos (a T) e = velocity e T /\ at_pos (x T) e = (at_pos (x 0%Z) e - rsum T (fun i => velocity e (i + 1)%Z))%R).
Proof using G T0 Lx A0.
  intros lr mu U velocity T HT. pose proof La0 as La. destruct G as (Hn & Lg).
  destruct (UpdProofs2.run1 n g _ _ t a x (fun T HT => UpdProofs2.momentum_does n Hn (g T) (Lg T HT) (lr T) mu) U T0 La Lx) as (A & B).
  split; [apply A; exact HT |]. intros e He. assert (V : forall T, 0 <= T <= counted -> SmProofs1.el (a T) e = velocity e T).
  { apply (UpdProofs3.closed_discounted (fun T => SmProofs1.el (a T) e)); [apply at0 |]. intros T' HT'. injection (B T' e HT' He) as E _. exact E. }
  split; [apply V; exact HT |]. change at_pos with SmProofs1.el. rewrite (UpdProofs3.closed_sum (fun T => SmProofs1.el (x T) e) (fun i => -1 * velocity e (i + 1)%Z)%R).
  - rewrite SmProofs1.rsum_scale. ring.
  - intros T' HT'. injection (B T' e HT' He) as E1 E2. rewrite E2. rewrite <- E1, V by lia. ring.
  - exact HT.
Qed.
(** Nesterov: the parameter is ahead of the position by the momentum of the velocity. *)
Theorem C79_nesterov_partial : forall (lr : Z -> R) mu, updates (fun T => nesterov_update (lr T) mu (g T)) (fun T => (t T, a T, x T)) ->
  let velocity e T := (- discounted mu (fun i => lr i * f e i) T)%R in
  let position e T := (at_pos (x 0%Z) e + rsum T (fun i => velocity e (i + 1)%Z))%R in
  throughout (fun T => t T = T /\ forall e, 0 <= e < n -> at_pos (a T) e = velocity e T /\ at_pos (x T) e = (position e T + mu * velocity e T)%R).
Proof using G T0 Lx A0.
  intros lr mu U velocity position T HT. pose proof La0 as La. destruct G as (Hn & Lg).
  destruct (UpdProofs2.run1 n g _ _ t a x (fun T HT => UpdProofs2.nesterov_does n Hn (g T) (Lg T HT) (lr T) mu) U T0 La Lx) as (A & B).
  split; [apply A; exact HT |]. intros e He. assert (V : forall T, 0 <= T <= counted -> SmProofs1.el (a T) e = velocity e T).
  { intros T' HT'. unfold velocity. rewrite <- (UpdProofs3.closed_discounted (fun T => - SmProofs1.el (a T) e)%R (fun i => lr i * f e i)%R mu); [ring | cbn beta; rewrite at0; ring | | exact HT']. intros k Hk. injection (B k e Hk He) as E _. rewrite E. change (f e k) with (SmProofs1.el (g k) e). ring. }
  split; [apply V; exact HT |]. change at_pos with SmProofs1.el. enough (E : (SmProofs1.el (x T) e - mu * SmProofs1.el (a T) e = position e T)%R) by (rewrite <- E, V by exact HT; ring).
  rewrite (UpdProofs3.closed_sum (fun T => SmProofs1.el (x T) e - mu * SmProofs1.el (a T) e)%R (fun i => velocity e (i + 1)%Z)).
  - unfold position. rewrite at0. change at_pos with SmProofs1.el. ring.
  - intros k Hk. rewrite <- V by lia. injection (B k e Hk He) as E1 E2. rewrite E2, E1. ring.
  - exact HT.
Qed.
(** SgdW: the weight decay is scaled by the learning rate over the initial one, not by momentum. *)
Theorem C79_sgdw_partial : forall lr0 (lr rate : Z -> R) mu, updates (fun T => sgdw_update lr0 (lr T) mu (rate T) (g T)) (fun T => (t T, a T, x T)) ->
  let velocity e := discounted mu (fun i => lr i * f e i)%R in
  each_step (fun T => t T = T /\ forall e, 0 <= e < n -> at_pos (a T) e = velocity e T /\
    at_pos (x (T + 1)) e = ((1 - lr T / lr0 * rate T) * at_pos (x T) e - velocity e (T + 1)%Z)%R).
Proof using G T0 Lx A0.
  intros lr0 lr rate mu U velocity T HT. pose proof La0 as La. destruct G as (Hn & Lg).
  destruct (UpdProofs2.run1 n g _ _ t a x (fun T HT => UpdProofs2.sgdw_does n Hn (g T) (Lg T HT) lr0 (lr T) mu (rate T)) U T0 La Lx) as (A & B).
  split; [apply A; lia |]. intros e He. assert (V : forall T, 0 <= T <= counted -> SmProofs1.el (a T) e = velocity e T).
  { apply (UpdProofs3.closed_discounted (fun T => SmProofs1.el (a T) e)); [apply at0 |]. intros T' HT'. injection (B T' e HT' He) as E _. exact E. }
  split; [apply V; lia |]. change at_pos with SmProofs1.el. rewrite <- V by lia. injection (B T e HT He) as E1 E2. rewrite E2, E1. ring.
Qed.
(** Lion: steps are the sign of an average, the state is another average. *)
Theorem C79_lion_partial : forall (lr rate : Z -> R) b1 b2, updates (fun T => lion_update (lr T) b1 b2 (rate T) (g T)) (fun T => (t T, a T, x T)) ->
  each_step (fun T => t T = T /\ forall e, 0 <= e < n -> at_pos (a T) e = average b2 (f e) T /\
    exists s, at_pos (x (T + 1)) e = (at_pos (x T) e - lr T * (s + rate T * at_pos (x T) e))%R /\
    let u := (b1 * average b2 (f e) T + (1 - b1) * f e T)%R in ((0 < u)%R -> s = 1%R) /\ (u = 0%R -> s = 0%R) /\ ((u < 0)%R -> s = (-1)%R)).
Proof using G T0 Lx A0.
  intros lr rate b1 b2 U T HT. pose proof La0 as La. destruct G as (Hn & Lg).
  destruct (UpdProofs2.run1 n g _ _ t a x (fun T HT => UpdProofs2.lion_does n Hn (g T) (Lg T HT) (lr T) b1 b2 (rate T)) U T0 La Lx) as (A & B).
  split; [apply A; lia |]. intros e He. assert (V : forall T, 0 <= T <= counted -> SmProofs1.el (a T) e = average b2 (f e) T).
  { apply (UpdProofs3.closed_average (fun T => SmProofs1.el (a T) e)); [apply at0 |]. intros T' HT'. injection (B T' e HT' He) as E _. rewrite E. unfold lerp. change (f e T') with (SmProofs1.el (g T') e). ring. }
  split; [apply V; lia |]. change at_pos with SmProofs1.el. exists (sign (lerp (SmProofs1.el (g T) e) (SmProofs1.el (a T) e) b1)). injection (B T e HT He) as _ E2. split; [exact E2 |]. cbv zeta.
  rewrite <- V by lia. change (f e T) with (SmProofs1.el (g T) e). replace (lerp (SmProofs1.el (g T) e) (SmProofs1.el (a T) e) b1) with (b1 * SmProofs1.el (a T) e + (1 - b1) * SmProofs1.el (g T) e)%R by (unfold lerp; ring).
  set (u := (b1 * SmProofs1.el (a T) e + (1 - b1) * SmProofs1.el (g T) e)%R). unfold sign. destruct (Rlt_dec 0 u), (Rlt_dec u 0); (split; [| split]); intros; lra.
Qed.
(** Adagrad: no step is larger than the learning rate. *)
Theorem C79_adagrad_partial : forall (lr : Z -> R) eps, updates (fun T => adagrad_update (lr T) eps (g T)) (fun T => (t T, a T, x T)) ->
  each_step (fun T => t T = T /\ forall e, 0 <= e < n -> at_pos (a T) e = rsum T (squares (f e)) /\
    at_pos (x (T + 1)) e = (at_pos (x T) e - lr T * f e T / (sqrt (rsum (T + 1) (squares (f e))) + eps))%R /\
    ((0 < eps)%R -> (Rabs (at_pos (x (T + 1)%Z) e - at_pos (x T) e) <= Rabs (lr T))%R)).
Proof using G T0 Lx A0.
  intros lr eps U T HT. pose proof La0 as La. destruct G as (Hn & Lg).
  destruct (UpdProofs2.run1 n g _ _ t a x (fun T HT => UpdProofs2.adagrad_does n Hn (g T) (Lg T HT) (lr T) eps) U T0 La Lx) as (A & B).
  split; [apply A; lia |]. intros e He. assert (V : forall T, 0 <= T <= counted -> SmProofs1.el (a T) e = rsum T (squares (f e))).
  { intros k Hk. rewrite (UpdProofs3.closed_sum (fun T => SmProofs1.el (a T) e) (squares (f e))); [rewrite at0; ring | | exact Hk]. intros T' HT'. injection (B T' e HT' He) as E _. exact E. }
  split; [apply V; lia |]. change at_pos with SmProofs1.el. rewrite <- V by lia. injection (B T e HT He) as E1 E2. rewrite E2. rewrite <- E1. change (f e T) with (SmProofs1.el (g T) e). split; [reflexivity |]. intros PE.
  replace (SmProofs1.el (x T) e - lr T * SmProofs1.el (g T) e / (sqrt (SmProofs1.el (a (T + 1)) e) + eps) - SmProofs1.el (x T) e)%R with (- lr T * (SmProofs1.el (g T) e / (sqrt (SmProofs1.el (a (T + 1)) e) + eps)))%R by (unfold Rdiv; ring).
  rewrite Rabs_mult, Rabs_Ropp. rewrite <- (Rmult_1_r (Rabs (lr T))) at 2. apply Rmult_le_compat_l; [apply Rabs_pos |]. rewrite <- Rinv_1. apply UpdProofs3.step_bound; [lra | exact PE |]. rewrite V by lia.
  replace (1 * 1 * (SmProofs1.el (g T) e * SmProofs1.el (g T) e))%R with (squares (f e) T) by (unfold squares; change (f e T) with (SmProofs1.el (g T) e); ring). apply UpdProofs3.rsum_last; [lia |]. intros i _. apply Rle_0_sqr.
Qed.
(** RMSprop: no step is larger than the learning rate over sqrt (1 - decay). *)
Theorem C79_rmsprop_partial : forall (lr : Z -> R) decay eps, updates (fun T => rmsprop_update (lr T) decay eps (g T)) (fun T => (t T, a T, x T)) ->
  each_step (fun T => t T = T /\ forall e, 0 <= e < n -> at_pos (a T) e = average decay (squares (f e)) T /\
    at_pos (x (T + 1)) e = (at_pos (x T) e - lr T * f e T / (sqrt (average decay (squares (f e)) (T + 1)) + eps))%R /\
    ((0 < eps)%R -> (0 <= decay < 1)%R -> (Rabs (at_pos (x (T + 1)%Z) e - at_pos (x T) e) <= Rabs (lr T) / sqrt (1 - decay))%R)).
Proof using G T0 Lx A0.
  intros lr decay eps U T HT. pose proof La0 as La. destruct G as (Hn & Lg).
  destruct (UpdProofs2.run1 n g _ _ t a x (fun T HT => UpdProofs2.rmsprop_does n Hn (g T) (Lg T HT) (lr T) decay eps) U T0 La Lx) as (A & B).
  split; [apply A; lia |]. intros e He. assert (V : forall T, 0 <= T <= counted -> SmProofs1.el (a T) e = average decay (squares (f e)) T).
  { apply (UpdProofs3.closed_average (fun T => SmProofs1.el (a T) e)); [apply at0 |]. intros T' HT'. injection (B T' e HT' He) as E _. rewrite E. unfold squares. change (f e T') with (SmProofs1.el (g T') e). ring. }
  split; [apply V; lia |]. change at_pos with SmProofs1.el. rewrite <- V by lia. injection (B T e HT He) as E1 E2. rewrite E2. rewrite <- E1. change (f e T) with (SmProofs1.el (g T) e). split; [unfold Rdiv; ring |]. intros PE PD.
  replace (SmProofs1.el (x T) e - lr T / (sqrt (SmProofs1.el (a (T + 1)) e) + eps) * SmProofs1.el (g T) e - SmProofs1.el (x T) e)%R with (- lr T * (SmProofs1.el (g T) e / (sqrt (SmProofs1.el (a (T + 1)) e) + eps)))%R by (unfold Rdiv; ring).
  rewrite Rabs_mult, Rabs_Ropp. unfold Rdiv at 2. apply Rmult_le_compat_l; [apply Rabs_pos |]. apply UpdProofs3.step_bound; [apply sqrt_lt_R0; lra | exact PE |]. rewrite sqrt_sqrt by lra. rewrite V, UpdProofs1.average_S by lia.
  assert (0 <= average decay (squares (f e)) T)%R by (apply UpdProofs3.average_nonneg; [lra | intros i _; apply Rle_0_sqr | lia]). unfold squares at 2. change (f e T) with (SmProofs1.el (g T) e).
  pose proof (Rmult_le_pos decay (average decay (squares (f e)) T) ltac:(lra) H). lra.
Qed.
End OneState.

Section TwoStates.
Context (a b : Z -> list R) (A0 : a 0 = zeros n) (B0 : b 0 = zeros n).
(** Adadelta: steps are the gradients times the ratio of the averages of earlier steps and gradients. *)
Theorem C79_adadelta_partial : forall (lr : Z -> R) decay eps, updates (fun T => adadelta_update (lr T) decay eps (g T)) (fun T => (t T, a T, b T, x T)) ->
  forall e, 0 <= e < n -> exists delta, each_step (fun T => t T = T /\ at_pos (a T) e = average decay (squares (f e)) T /\ at_pos (b T) e = average decay (squares delta) T /\
    delta T = (sqrt ((average decay (squares delta) T + eps) / (average decay (squares (f e)) (T + 1) + eps)) * f e T)%R /\
    at_pos (x (T + 1)) e = (at_pos (x T) e - lr T * delta T)%R).
Proof using G T0 Lx A0 B0.
  intros lr decay eps U e He. pose proof (La0 a A0) as La. pose proof (La0 b B0) as Lb. destruct G as (Hn & Lg).
  destruct (UpdProofs2.run2 n g _ _ t a b x (fun T HT => UpdProofs2.adadelta_does n Hn (g T) (Lg T HT) (lr T) decay eps) U T0 La Lb Lx) as (A & B).
  exists (fun T => sqrt ((SmProofs1.el (b T) e + eps) / (SmProofs1.el (a (T + 1)) e + eps)) * f e T)%R. set (delta := fun T => (sqrt ((SmProofs1.el (b T) e + eps) / (SmProofs1.el (a (T + 1)) e + eps)) * f e T)%R).
  assert (VA : forall T, 0 <= T <= counted -> SmProofs1.el (a T) e = average decay (squares (f e)) T).
  { apply (UpdProofs3.closed_average (fun T => SmProofs1.el (a T) e)); [apply (at0 a A0) |]. intros T' HT'. injection (B T' e HT' He) as E _ _. rewrite E. unfold squares. change (f e T') with (SmProofs1.el (g T') e). ring. }
  assert (VB : forall T, 0 <= T <= counted -> SmProofs1.el (b T) e = average decay (squares delta) T).
  { apply (UpdProofs3.closed_average (fun T => SmProofs1.el (b T) e)); [apply (at0 b B0) |]. intros T' HT'. injection (B T' e HT' He) as E1 E2 _. rewrite E2. rewrite <- E1. unfold squares, delta. change (f e T') with (SmProofs1.el (g T') e). ring. }
  intros T HT. split; [apply A; lia |]. split; [apply VA; lia |]. split; [apply VB; lia |]. split.
  - rewrite <- VA, <- VB by lia. reflexivity.
  - injection (B T e HT He) as E1 _ E3. change at_pos with SmProofs1.el. rewrite E3. rewrite <- E1. reflexivity.
Qed.
End TwoStates.
(** RMSprop by Graves: the root is that of a variance, which is never negative. *)
Theorem C79_graves_partial : forall (a b c : Z -> list R), a 0 = zeros n -> b 0 = zeros n -> c 0 = zeros n ->
  forall (lr : Z -> R) decay mu eps, updates (fun T => graves_update (lr T) decay mu eps (g T)) (fun T => (t T, a T, b T, c T, x T)) ->
  let variance e T := (average decay (squares (f e)) T - average decay (f e) T * average decay (f e) T)%R in
  let velocity e T := (- discounted mu (fun i => lr i * f e i / sqrt (variance e (i + 1)%Z + eps)) T)%R in
  throughout (fun T => t T = T /\ forall e, 0 <= e < n -> at_pos (c T) e = velocity e T /\ at_pos (x T) e = (at_pos (x 0%Z) e + rsum T (fun i => velocity e (i + 1)%Z))%R /\
    ((0 <= decay <= 1)%R -> (0 <= variance e T)%R)).
Proof using G T0 Lx.
  intros a b c A0 B0 C0 lr decay mu eps U variance velocity T HT. pose proof (La0 a A0) as La. pose proof (La0 b B0) as Lb. pose proof (La0 c C0) as Lc. destruct G as (Hn & Lg).
  destruct (UpdProofs2.run3 n g _ _ t a b c x (fun T HT => UpdProofs2.graves_does n Hn (g T) (Lg T HT) (lr T) decay mu eps) U T0 La Lb Lc Lx) as (A & B).
  split; [apply A; exact HT |]. intros e He.
  assert (VA : forall T, 0 <= T <= counted -> SmProofs1.el (a T) e = average decay (squares (f e)) T).
  { apply (UpdProofs3.closed_average (fun T => SmProofs1.el (a T) e)); [apply (at0 a A0) |]. intros T' HT'. injection (B T' e HT' He) as E _ _ _. rewrite E. unfold squares. change (f e T') with (SmProofs1.el (g T') e). ring. }
  assert (VB : forall T, 0 <= T <= counted -> SmProofs1.el (b T) e = average decay (f e) T).
  { apply (UpdProofs3.closed_average (fun T => SmProofs1.el (b T) e)); [apply (at0 b B0) |]. intros T' HT'. injection (B T' e HT' He) as _ E _ _. exact E. }
  assert (VC : forall T, 0 <= T <= counted -> SmProofs1.el (c T) e = velocity e T).
  { intros T' HT'. unfold velocity. rewrite <- (UpdProofs3.closed_discounted (fun T => - SmProofs1.el (c T) e)%R (fun i => lr i * f e i / sqrt (variance e (i + 1)%Z + eps))%R mu); [ring | cbn beta; rewrite (at0 c C0); ring | | exact HT'].
    intros k Hk. injection (B k e Hk He) as E1 E2 E3 _. rewrite E3. rewrite <- E1, <- E2. unfold variance. rewrite <- VA, <- VB by lia. change (f e k) with (SmProofs1.el (g k) e). unfold Rdiv. ring. }
  split; [apply VC; exact HT |]. change at_pos with SmProofs1.el. split.
  - apply (UpdProofs3.closed_sum (fun T => SmProofs1.el (x T) e)); [| exact HT]. intros k Hk. injection (B k e Hk He) as E1 E2 E3 E4. rewrite E4. rewrite <- E1, <- E2. rewrite <- E1, <- E2 in E3. rewrite <- E3, VC by lia. reflexivity.
  - intros D. apply UpdProofs3.average_jensen; [exact D | lia].
Qed.
End Histories.

(** * C80 *)
Section Family.
Context (n : Z) (g : Z -> list R) (G : gradients n g) (t : Z -> Z) (T0 : t 0 = 0) (x : Z -> list R) (Lx : len (x 0) = n).
Context (m v : Z -> list R) (M0 : m 0 = zeros n) (V0 : v 0 = zeros n).
Let f (e : Z) : Z -> R := fun i => at_pos (g i) e.

(** Adam moves along the corrected average of the gradients over the root of that of their squares. *)
Theorem C80_adam_partial : forall (alpha : Z -> R) b1 b2 eps, (0 <= b1 < 1)%R -> (0 <= b2 < 1)%R -> (0 < eps)%R ->
  updates (fun T => adam_update (alpha T) b1 b2 eps (g T)) (fun T => (t T, m T, v T, x T)) ->
  each_step (fun T => t T = T /\ forall e, 0 <= e < n -> at_pos (m T) e = average b1 (f e) T /\ at_pos (v T) e = average b2 (squares (f e)) T /\
    at_pos (x (T + 1)) e = (at_pos (x T) e - alpha T * unbiased b1 (f e) (T + 1) / (sqrt (unbiased b2 (squares (f e)) (T + 1)) + eps / sqrt (1 - power b2 (T + 1))))%R).
Proof using G T0 Lx M0 V0.
  intros alpha b1 b2 eps B1 B2 PE U T HT. pose proof (La0 n g G m M0) as Lm. pose proof (La0 n g G v V0) as Lv. destruct G as (Hn & Lg).
  destruct (UpdProofs2.run2 n g _ _ t m v x (fun T HT => UpdProofs2.adam_does n Hn (g T) (Lg T HT) (alpha T) b1 b2 eps) U T0 Lm Lv Lx) as (A & B).
  split; [apply A; lia |]. intros e He.
  assert (VM : forall T, 0 <= T <= counted -> SmProofs1.el (m T) e = average b1 (f e) T).
  { apply (UpdProofs3.closed_average (fun T => SmProofs1.el (m T) e)); [apply (at0 n m M0) |]. intros T' HT'. injection (B T' e HT' He) as E _ _. exact E. }
  assert (VV : forall T, 0 <= T <= counted -> SmProofs1.el (v T) e = average b2 (squares (f e)) T).
  { apply (UpdProofs3.closed_average (fun T => SmProofs1.el (v T) e)); [apply (at0 n v V0) |]. intros T' HT'. injection (B T' e HT' He) as _ E _. rewrite E. unfold squares. change (f e T') with (SmProofs1.el (g T') e). ring. }
  split; [apply VM; lia |]. split; [apply VV; lia |]. change at_pos with SmProofs1.el. injection (B T e HT He) as E1 E2 E3. rewrite E3. rewrite <- E1, <- E2, VM, VV by lia. rewrite UpdProofs4.corrected by (assumption || lia). reflexivity.
Qed.
(** With a constant gradient c the step is alpha c / |c| but for epsilon. *)
Theorem C80_adam_constant_partial : forall (alpha : Z -> R) b1 b2 eps, (0 <= b1 < 1)%R -> (0 <= b2 < 1)%R -> (0 < eps)%R ->
  updates (fun T => adam_update (alpha T) b1 b2 eps (g T)) (fun T => (t T, m T, v T, x T)) ->
  forall e c, 0 <= e < n -> (forall T, at_pos (g T) e = c) ->
  each_step (fun T => at_pos (x (T + 1)) e = (at_pos (x T) e - alpha T * c / (Rabs c + eps / sqrt (1 - power b2 (T + 1))))%R).
Proof using G T0 Lx M0 V0.
  intros alpha b1 b2 eps B1 B2 PE U e c He C T HT. destruct (C80_adam_partial alpha b1 b2 eps B1 B2 PE U T HT) as (_ & H). destruct (H e He) as (_ & _ & E). rewrite E. clear E H.
  pose proof (UpdProofs4.one_minus b1 (T + 1) B1 ltac:(lia)) as P1. pose proof (UpdProofs4.one_minus b2 (T + 1) B2 ltac:(lia)) as P2.
  replace (unbiased b1 (f e) (T + 1)) with c; [replace (sqrt (unbiased b2 (squares (f e)) (T + 1))) with (Rabs c); [reflexivity |] |].
  - rewrite <- sqrt_Rsqr_abs. f_equal. unfold unbiased, average. rewrite (UpdProofs3.discounted_ext b2 _ (fun _ => c * c)%R) by (intros i _; unfold squares, f; rewrite !C; reflexivity). fold (average b2 (fun _ => (c * c)%R) (T + 1)). rewrite UpdProofs3.average_const by lia. unfold Rsqr. field. lra.
  - unfold unbiased, average. rewrite (UpdProofs3.discounted_ext b1 _ (fun _ => c)) by (intros i _; apply C). fold (average b1 (fun _ => c) (T + 1)). rewrite UpdProofs3.average_const by lia. field. lra.
Qed.
(** AdamW: the same, and the decay scaled by the rate over the initial one. *)
Theorem C80_adamw_partial : forall alpha0 (alpha rate : Z -> R) b1 b2 eps, (0 <= b1 < 1)%R -> (0 <= b2 < 1)%R -> (0 < eps)%R ->
  updates (fun T => adamw_update alpha0 (alpha T) b1 b2 eps (rate T) (g T)) (fun T => (t T, m T, v T, x T)) ->
  each_step (fun T => t T = T /\ forall e, 0 <= e < n -> at_pos (m T) e = average b1 (f e) T /\ at_pos (v T) e = average b2 (squares (f e)) T /\
    at_pos (x (T + 1)) e = ((1 - alpha T / alpha0 * rate T) * at_pos (x T) e - alpha T * unbiased b1 (f e) (T + 1) / (sqrt (unbiased b2 (squares (f e)) (T + 1)) + eps / sqrt (1 - power b2 (T + 1))))%R).
Proof using G T0 Lx M0 V0.
  intros alpha0 alpha rate b1 b2 eps B1 B2 PE U T HT. pose proof (La0 n g G m M0) as Lm. pose proof (La0 n g G v V0) as Lv. destruct G as (Hn & Lg).
  destruct (UpdProofs2.run2 n g _ _ t m v x (fun T HT => UpdProofs2.adamw_does n Hn (g T) (Lg T HT) alpha0 (alpha T) b1 b2 eps (rate T)) U T0 Lm Lv Lx) as (A & B).
  split; [apply A; lia |]. intros e He.
  assert (VM : forall T, 0 <= T <= counted -> SmProofs1.el (m T) e = average b1 (f e) T).
  { apply (UpdProofs3.closed_average (fun T => SmProofs1.el (m T) e)); [apply (at0 n m M0) |]. intros T' HT'. injection (B T' e HT' He) as E _ _. exact E. }
  assert (VV : forall T, 0 <= T <= counted -> SmProofs1.el (v T) e = average b2 (squares (f e)) T).
  { apply (UpdProofs3.closed_average (fun T => SmProofs1.el (v T) e)); [apply (at0 n v V0) |]. intros T' HT'. injection (B T' e HT' He) as _ E _. rewrite E. unfold squares. change (f e T') with (SmProofs1.el (g T') e). ring. }
  split; [apply VM; lia |]. split; [apply VV; lia |]. change at_pos with SmProofs1.el. injection (B T e HT He) as E1 E2 E3. rewrite E3. rewrite <- E1, <- E2, VM, VV by lia. rewrite UpdProofs4.corrected by (assumption || lia). unfold unbiased. ring.
Qed.
(** Adamax: over the largest of the discounted magnitudes. *)
Theorem C80_adamax_partial : forall (alpha : Z -> R) b1 b2 eps, (0 <= b1 < 1)%R -> (0 <= b2)%R ->
  updates (fun T => adamax_update (alpha T) b1 b2 eps (g T)) (fun T => (t T, m T, v T, x T)) ->
  each_step (fun T => t T = T /\ forall e, 0 <= e < n -> at_pos (m T) e = average b1 (f e) T /\
    exists u, largest (fun i => power b2 (T - i) * Rabs (f e i))%R (T + 1) u /\ at_pos (v (T + 1)) e = u /\
    at_pos (x (T + 1)) e = (at_pos (x T) e - alpha T * unbiased b1 (f e) (T + 1) / (u + eps))%R).
Proof using G T0 Lx M0 V0.
  intros alpha b1 b2 eps B1 B2 U T HT. pose proof (La0 n g G m M0) as Lm. pose proof (La0 n g G v V0) as Lv. destruct G as (Hn & Lg).
  destruct (UpdProofs2.run2 n g _ _ t m v x (fun T HT => UpdProofs2.adamax_does n Hn (g T) (Lg T HT) (alpha T) b1 b2 eps) U T0 Lm Lv Lx) as (A & B).
  split; [apply A; lia |]. intros e He.
  assert (VM : forall T, 0 <= T <= counted -> SmProofs1.el (m T) e = average b1 (f e) T).
  { apply (UpdProofs3.closed_average (fun T => SmProofs1.el (m T) e)); [apply (at0 n m M0) |]. intros T' HT'. injection (B T' e HT' He) as E _ _. exact E. }
  assert (VU : forall T, 0 <= T <= counted -> 0 < T -> largest (fun i => power b2 (T - 1 - i) * Rabs (f e i))%R T (SmProofs1.el (v T) e)).
  { apply (UpdProofs2.history (fun T => 0 < T -> largest (fun i => power b2 (T - 1 - i) * Rabs (f e i))%R T (SmProofs1.el (v T) e))); [lia |]. intros k Hk IH _. injection (B k e Hk He) as _ E _. rewrite E. replace (k + 1 - 1) with k by lia.
    change (SmProofs1.el (g k) e) with (f e k). apply (UpdProofs4.largest_discounted b2 (fun i => Rabs (f e i)) k (SmProofs1.el (v k) e)); [lia | exact B2 | | intros; apply Rabs_pos | exact IH]. intros ->. apply (at0 n v V0). }
  split; [apply VM; lia |]. exists (SmProofs1.el (v (T + 1)) e). split; [pose proof (VU (T + 1) ltac:(lia) ltac:(lia)) as X; replace (T + 1 - 1) with T in X by lia; exact X |]. split; [reflexivity |].
  change at_pos with SmProofs1.el. injection (B T e HT He) as E1 E2 E3. rewrite E3. rewrite <- E1, <- E2, VM by lia. unfold unbiased, Rdiv. change pow_t with power. ring.
Qed.
(** AdaBound: a rate between bounds that close on the final rate. *)
Theorem C80_adabound_partial : forall alpha0 (alpha : Z -> R) b1 b2 eps final gamma,
  updates (fun T => adabound_update alpha0 (alpha T) b1 b2 eps final gamma (g T)) (fun T => (t T, m T, v T, x T)) ->
  each_step (fun T => t T = T /\ forall e, 0 <= e < n -> at_pos (m T) e = average b1 (f e) T /\ at_pos (v T) e = average b2 (squares (f e)) T /\
    let k := IZR (T + 1) in let last := (final * (alpha T / alpha0))%R in
    exists rate, rate = clamp (last * (1 - 1 / (gamma * k + 1))) (last * (1 + 1 / (gamma * k)))
      (alpha T * (sqrt (1 - power b2 (T + 1)) / (1 - power b1 (T + 1))) / (sqrt (average b2 (squares (f e)) (T + 1)) + eps)) /\
    at_pos (x (T + 1)) e = (at_pos (x T) e - rate * average b1 (f e) (T + 1))%R /\
    ((0 <= last)%R -> (0 < gamma)%R -> (Rabs (rate - last) <= last / (gamma * k))%R)).
Proof using G T0 Lx M0 V0.
  intros alpha0 alpha b1 b2 eps final gamma U T HT. pose proof (La0 n g G m M0) as Lm. pose proof (La0 n g G v V0) as Lv. destruct G as (Hn & Lg).
  destruct (UpdProofs2.run2 n g _ _ t m v x (fun T HT => UpdProofs2.adabound_does n Hn (g T) (Lg T HT) alpha0 (alpha T) b1 b2 eps final gamma) U T0 Lm Lv Lx) as (A & B).
  split; [apply A; lia |]. intros e He.
  assert (VM : forall T, 0 <= T <= counted -> SmProofs1.el (m T) e = average b1 (f e) T).
  { apply (UpdProofs3.closed_average (fun T => SmProofs1.el (m T) e)); [apply (at0 n m M0) |]. intros T' HT'. injection (B T' e HT' He) as E _ _. exact E. }
  assert (VV : forall T, 0 <= T <= counted -> SmProofs1.el (v T) e = average b2 (squares (f e)) T).
  { apply (UpdProofs3.closed_average (fun T => SmProofs1.el (v T) e)); [apply (at0 n v V0) |]. intros T' HT'. injection (B T' e HT' He) as _ E _. rewrite E. unfold squares. change (f e T') with (SmProofs1.el (g T') e). ring. }
  split; [apply VM; lia |]. split; [apply VV; lia |]. intros k last. eexists. split; [reflexivity |]. split.
  - change at_pos with SmProofs1.el. injection (B T e HT He) as E1 E2 E3. rewrite E3. rewrite <- E1, <- E2, VM, VV by lia. unfold clamp, bias_correction. change pow_t with power. fold last k. reflexivity.
  - intros PL PG. apply UpdProofs4.bounds_close; [exact PL | exact PG |]. apply (IZR_lt 0). lia.
Qed.

Section Third.
Context (h : Z -> list R) (H0 : h 0 = zeros n).
(** AMSGrad: over the root of the largest of the averages, which never shrinks. *)
Theorem C80_amsgrad_partial : forall (alpha : Z -> R) b1 b2 eps (correct : bool), (0 <= b1 < 1)%R -> (0 <= b2 < 1)%R -> (0 < eps)%R ->
  updates (fun T => amsgrad_update (alpha T) b1 b2 eps correct (g T)) (fun T => (t T, m T, v T, h T, x T)) ->
  each_step (fun T => t T = T /\ forall e, 0 <= e < n -> at_pos (m T) e = average b1 (f e) T /\ at_pos (v T) e = average b2 (squares (f e)) T /\
    exists u, largest (fun i => average b2 (squares (f e)) (i + 1)) (T + 1) u /\ at_pos (h (T + 1)) e = u /\ (at_pos (h T) e <= at_pos (h (T + 1)%Z) e)%R /\
    at_pos (x (T + 1)) e = (at_pos (x T) e - if correct then alpha T * unbiased b1 (f e) (T + 1) / ((sqrt u + eps) / sqrt (1 - power b2 (T + 1)))
                                             else alpha T * average b1 (f e) (T + 1) / (sqrt u + eps))%R).
Proof using G T0 Lx M0 V0 H0.
  intros alpha b1 b2 eps correct B1 B2 PE U T HT. pose proof (La0 n g G m M0) as Lm. pose proof (La0 n g G v V0) as Lv. pose proof (La0 n g G h H0) as Lh. destruct G as (Hn & Lg).
  destruct (UpdProofs2.run3 n g _ _ t m v h x (fun T HT => UpdProofs2.amsgrad_does n Hn (g T) (Lg T HT) (alpha T) b1 b2 eps correct) U T0 Lm Lv Lh Lx) as (A & B).
  split; [apply A; lia |]. intros e He.
  assert (VM : forall T, 0 <= T <= counted -> SmProofs1.el (m T) e = average b1 (f e) T).
  { apply (UpdProofs3.closed_average (fun T => SmProofs1.el (m T) e)); [apply (at0 n m M0) |]. intros T' HT'. injection (B T' e HT' He) as E _ _ _. exact E. }
  assert (VV : forall T, 0 <= T <= counted -> SmProofs1.el (v T) e = average b2 (squares (f e)) T).
  { apply (UpdProofs3.closed_average (fun T => SmProofs1.el (v T) e)); [apply (at0 n v V0) |]. intros T' HT'. injection (B T' e HT' He) as _ E _ _. rewrite E. unfold squares. change (f e T') with (SmProofs1.el (g T') e). ring. }
  assert (HS : forall k, 0 <= k < counted -> SmProofs1.el (h (k + 1)) e = Rmax (SmProofs1.el (h k) e) (average b2 (squares (f e)) (k + 1))).
  { intros k Hk. injection (B k e Hk He) as _ E2 E3 _. rewrite E3. rewrite <- E2, VV by lia. reflexivity. }
  assert (VH : forall T, 0 <= T <= counted -> 0 < T -> largest (fun i => average b2 (squares (f e)) (i + 1)) T (SmProofs1.el (h T) e)).
  { apply (UpdProofs2.history (fun T => 0 < T -> largest (fun i => average b2 (squares (f e)) (i + 1)) T (SmProofs1.el (h T) e))); [lia |]. intros k Hk IH _. apply (UpdProofs3.largest_S _ k (SmProofs1.el (h k) e)); [lia | | exact IH | apply HS; exact Hk].
    intros ->. rewrite (at0 n h H0). apply UpdProofs3.average_nonneg; [lra | intros; apply Rle_0_sqr | lia]. }
  split; [apply VM; lia |]. split; [apply VV; lia |]. exists (SmProofs1.el (h (T + 1)) e). split; [apply VH; lia |]. split; [reflexivity |]. change at_pos with SmProofs1.el. split; [rewrite HS by exact HT; apply Rmax_l |].
  injection (B T e HT He) as E1 E2 E3 E4. rewrite E4. rewrite <- E1, <- E2 in *. rewrite <- E3, VM by lia. destruct correct; [rewrite UpdProofs4.corrected_root by (assumption || lia); reflexivity | unfold Rdiv; ring].
Qed.
(** AMSBound: the rates are clamped, above by a bound that does not close on the final rate. *)
Theorem C80_amsbound_partial : forall alpha0 (alpha : Z -> R) b1 b2 eps final gamma (correct : bool), (0 <= b2 < 1)%R ->
  updates (fun T => amsbound_update alpha0 (alpha T) b1 b2 eps final gamma correct (g T)) (fun T => (t T, m T, v T, h T, x T)) ->
  each_step (fun T => t T = T /\ forall e, 0 <= e < n -> at_pos (m T) e = average b1 (f e) T /\ at_pos (v T) e = average b2 (squares (f e)) T /\
    let k := IZR (T + 1) in let last := (final * (alpha T / alpha0))%R in
    exists u, largest (fun i => average b2 (squares (f e)) (i + 1)) (T + 1) u /\ at_pos (h (T + 1)) e = u /\
    at_pos (x (T + 1)) e = (at_pos (x T) e - clamp (last * (1 - 1 / (gamma * k + 1))) (last * (1 + k / gamma))
      (alpha T * (if correct then sqrt (1 - power b2 (T + 1)) / (1 - power b1 (T + 1)) else 1) / (sqrt u + eps)) * average b1 (f e) (T + 1))%R).
Proof using G T0 Lx M0 V0 H0.
  intros alpha0 alpha b1 b2 eps final gamma correct B2 U T HT. pose proof (La0 n g G m M0) as Lm. pose proof (La0 n g G v V0) as Lv. pose proof (La0 n g G h H0) as Lh. destruct G as (Hn & Lg).
  destruct (UpdProofs2.run3 n g _ _ t m v h x (fun T HT => UpdProofs2.amsbound_does n Hn (g T) (Lg T HT) alpha0 (alpha T) b1 b2 eps final gamma correct) U T0 Lm Lv Lh Lx) as (A & B).
  split; [apply A; lia |]. intros e He.
  assert (VM : forall T, 0 <= T <= counted -> SmProofs1.el (m T) e = average b1 (f e) T).
  { apply (UpdProofs3.closed_average (fun T => SmProofs1.el (m T) e)); [apply (at0 n m M0) |]. intros T' HT'. injection (B T' e HT' He) as E _ _ _. exact E. }
  assert (VV : forall T, 0 <= T <= counted -> SmProofs1.el (v T) e = average b2 (squares (f e)) T).
  { apply (UpdProofs3.closed_average (fun T => SmProofs1.el (v T) e)); [apply (at0 n v V0) |]. intros T' HT'. injection (B T' e HT' He) as _ E _ _. rewrite E. unfold squares. change (f e T') with (SmProofs1.el (g T') e). ring. }
  assert (HS : forall k, 0 <= k < counted -> SmProofs1.el (h (k + 1)) e = Rmax (SmProofs1.el (h k) e) (average b2 (squares (f e)) (k + 1))).
  { intros k Hk. injection (B k e Hk He) as _ E2 E3 _. rewrite E3. rewrite <- E2, VV by lia. reflexivity. }
  assert (VH : forall T, 0 <= T <= counted -> 0 < T -> largest (fun i => average b2 (squares (f e)) (i + 1)) T (SmProofs1.el (h T) e)).
  { apply (UpdProofs2.history (fun T => 0 < T -> largest (fun i => average b2 (squares (f e)) (i + 1)) T (SmProofs1.el (h T) e))); [lia |]. intros k Hk IH _. apply (UpdProofs3.largest_S _ k (SmProofs1.el (h k) e)); [lia | | exact IH | apply HS; exact Hk].
    intros ->. rewrite (at0 n h H0). apply UpdProofs3.average_nonneg; [lra | intros; apply Rle_0_sqr | lia]. }
  split; [apply VM; lia |]. split; [apply VV; lia |]. intros k last. exists (SmProofs1.el (h (T + 1)) e). split; [apply VH; lia |]. split; [reflexivity |]. change at_pos with SmProofs1.el.
  injection (B T e HT He) as E1 E2 E3 E4. rewrite E4. rewrite <- E1, <- E2 in *. rewrite <- E3, VM by lia. unfold clamp, bias_correction. change pow_t with power. fold last k. replace (k / gamma)%R with (1 / gamma * k)%R by (unfold Rdiv; ring). reflexivity.
Qed.
(** AdaBelief: over the discounted sum of the squared differences to the average, and of epsilon. *)
Theorem C80_adabelief_partial : forall (alpha rate : Z -> R) b1 b2 eps (fused fixed : bool),
  updates (fun T => adabelief_update (alpha T) b1 b2 eps (rate T) false fused fixed false (g T)) (fun T => (t T, m T, v T, h T, x T)) ->
  each_step (fun T => t T = T /\ forall e, 0 <= e < n -> at_pos (m T) e = average b1 (f e) T /\
    let belief T := discounted b2 (fun i => (1 - b2) * ((f e i - average b1 (f e) (i + 1)%Z) * (f e i - average b1 (f e) (i + 1)%Z)) + eps)%R T in
    at_pos (v T) e = belief T /\
    at_pos (x (T + 1)) e = ((1 - if fused then (if fixed then rate T else rate T * alpha T) else 0) * at_pos (x T) e -
      alpha T * unbiased b1 (f e) (T + 1) / (sqrt (belief (T + 1)%Z) / sqrt (1 - power b2 (T + 1)) + eps))%R).
Proof using G T0 Lx M0 V0 H0.
  intros alpha rate b1 b2 eps fused fixed U T HT. pose proof (La0 n g G m M0) as Lm. pose proof (La0 n g G v V0) as Lv. pose proof (La0 n g G h H0) as Lh. destruct G as (Hn & Lg).
  destruct (UpdProofs2.run3 n g _ _ t m v h x (fun T HT => UpdProofs2.adabelief_does n Hn (g T) (Lg T HT) (alpha T) b1 b2 eps (rate T) false fused fixed false) U T0 Lm Lv Lh Lx) as (A & B).
  split; [apply A; lia |]. intros e He.
  assert (VM : forall T, 0 <= T <= counted -> SmProofs1.el (m T) e = average b1 (f e) T).
  { apply (UpdProofs3.closed_average (fun T => SmProofs1.el (m T) e)); [apply (at0 n m M0) |]. intros T' HT'. injection (B T' e HT' He) as E _ _ _. exact E. }
  split; [apply VM; lia |]. intros belief.
  assert (VV : forall T, 0 <= T <= counted -> SmProofs1.el (v T) e = belief T).
  { apply (UpdProofs3.closed_discounted (fun T => SmProofs1.el (v T) e)); [apply (at0 n v V0) |]. intros T' HT'. injection (B T' e HT' He) as E1 E2 _ _. rewrite E2. rewrite <- E1, VM by lia. change (f e T') with (SmProofs1.el (g T') e). ring. }
  split; [apply VV; lia |]. change at_pos with SmProofs1.el.
  injection (B T e HT He) as E1 E2 E3 E4. rewrite E4. rewrite <- E1 in *. rewrite <- E2, VM, VV by lia. unfold belief_alpha, sgd_step. cbn [andb]. change pow_t with power. unfold unbiased, Rdiv. destruct fused; [destruct fixed |]; ring.
Qed.
(** With rectification: plain steps along the average while the variance has no rate, and rates of at most alpha later. *)
Theorem C80_rectified_partial : forall (alpha : Z -> R) b1 b2 eps, (0 < b2 < 1)%R ->
  updates (fun T => adabelief_update (alpha T) b1 b2 eps 0 false false false true (g T)) (fun T => (t T, m T, v T, h T, x T)) ->
  each_step (fun T => let k := T + 1 in let rho_inf := (2 / (1 - b2) - 1)%R in let rho := (rho_inf - 2 * IZR k * power b2 k / (1 - power b2 k))%R in
    forall e, 0 <= e < n ->
    ((rho <= 4)%R -> at_pos (x k) e = (at_pos (x T) e - alpha T * average b1 (f e) k)%R) /\
    ((4 < rho)%R -> exists r, (r * r = (rho - 4) * (rho - 2) * rho_inf / ((rho_inf - 4) * (rho_inf - 2) * rho))%R /\ (0 < r <= 1)%R /\
      at_pos (x k) e = (at_pos (x T) e - alpha T * r * unbiased b1 (f e) k / (sqrt (at_pos (v k) e) / sqrt (1 - power b2 k) + eps))%R)).
Proof using G T0 Lx M0 V0 H0.
  intros alpha b1 b2 eps B2 U T HT. pose proof (La0 n g G m M0) as Lm. pose proof (La0 n g G v V0) as Lv. pose proof (La0 n g G h H0) as Lh. destruct G as (Hn & Lg).
  destruct (UpdProofs2.run3 n g _ _ t m v h x (fun T HT => UpdProofs2.adabelief_does n Hn (g T) (Lg T HT) (alpha T) b1 b2 eps 0%R false false false true) U T0 Lm Lv Lh Lx) as (A & B).
  intros k rho_inf rho e He.
  assert (VM : forall T, 0 <= T <= counted -> SmProofs1.el (m T) e = average b1 (f e) T).
  { apply (UpdProofs3.closed_average (fun T => SmProofs1.el (m T) e)); [apply (at0 n m M0) |]. intros T' HT'. injection (B T' e HT' He) as E _ _ _. exact E. }
  injection (B T e HT He) as E1 E2 E3 E4. rewrite <- E1 in E2, E4. rewrite <- E2 in E4. rewrite VM in E4 by lia. fold k in E4. change at_pos with SmProofs1.el. rewrite E4. unfold belief_alpha, sgd_step. cbn [andb]. change (rho_at b2 k) with rho. split.
  - intros Q. destruct (Rle_dec rho 4); [reflexivity | contradiction].
  - intros Q. destruct (Rle_dec rho 4) as [X | _]; [lra |]. exists (r_at b2 k). pose proof (UpdProofs4.r_bound b2 k B2 ltac:(unfold k; lia) Q) as Rb. split; [| split; [exact Rb |]].
    + unfold r_at. change (rho_at b2 k) with rho. change (UpdModel.rho_inf b2) with rho_inf. apply sqrt_sqrt. destruct (Rle_dec 0 ((rho - 4) * (rho - 2) * rho_inf / ((rho_inf - 4) * (rho_inf - 2) * rho))) as [X | X]; [exact X |]. exfalso.
      unfold r_at in Rb. change (rho_at b2 k) with rho in Rb. change (UpdModel.rho_inf b2) with rho_inf in Rb. rewrite sqrt_neg_0 in Rb by lra. lra.
    + change pow_t with power. unfold unbiased, Rdiv. ring.
Qed.
End Third.
End Family.

(** Histories exist: no update reads or writes outside the arrays. *)
Section Total.
Context (n : Z) (g : Z -> list R) (G : gradients n g) (x0 : list R) (Lx : len x0 = n).
Definition happens1 (U : Z -> Z * list R * list R -> option (Z * list R * list R)) : Prop := exists t a x, t 0 = 0 /\ a 0 = zeros n /\ x 0 = x0 /\ updates U (fun T => (t T, a T, x T)).
Definition happens2 (U : Z -> Z * list R * list R * list R -> option (Z * list R * list R * list R)) : Prop := exists t a b x, t 0 = 0 /\ a 0 = zeros n /\ b 0 = zeros n /\ x 0 = x0 /\ updates U (fun T => (t T, a T, b T, x T)).
Definition happens3 (U : Z -> Z * list R * list R * list R * list R -> option (Z * list R * list R * list R * list R)) : Prop :=
  exists t a b c x, t 0 = 0 /\ a 0 = zeros n /\ b 0 = zeros n /\ c 0 = zeros n /\ x 0 = x0 /\ updates U (fun T => (t T, a T, b T, c T, x T)).
Theorem C79_total : forall (p1 p2 p3 p4 p5 p6 p7 : Z -> R) (q1 q2 q3 q4 : bool),
  (exists t x, t 0 = 0 /\ x 0 = x0 /\ updates (fun T => sgd_update (p1 T) (g T)) (fun T => (t T, x T))) /\
  happens1 (fun T => momentum_update (p1 T) (p2 T) (g T)) /\ happens1 (fun T => nesterov_update (p1 T) (p2 T) (g T)) /\ happens1 (fun T => sgdw_update (p1 T) (p2 T) (p3 T) (p4 T) (g T)) /\
  happens1 (fun T => lion_update (p1 T) (p2 T) (p3 T) (p4 T) (g T)) /\ happens1 (fun T => adagrad_update (p1 T) (p2 T) (g T)) /\ happens1 (fun T => rmsprop_update (p1 T) (p2 T) (p3 T) (g T)) /\
  happens2 (fun T => adadelta_update (p1 T) (p2 T) (p3 T) (g T)) /\ happens3 (fun T => graves_update (p1 T) (p2 T) (p3 T) (p4 T) (g T)) /\
  happens2 (fun T => adam_update (p1 T) (p2 T) (p3 T) (p4 T) (g T)) /\ happens2 (fun T => adamw_update (p1 T) (p2 T) (p3 T) (p4 T) (p5 T) (p6 T) (g T)) /\
  happens2 (fun T => adamax_update (p1 T) (p2 T) (p3 T) (p4 T) (g T)) /\ happens3 (fun T => amsgrad_update (p1 T) (p2 T) (p3 T) (p4 T) q1 (g T)) /\
  happens2 (fun T => adabound_update (p1 T) (p2 T) (p3 T) (p4 T) (p5 T) (p6 T) (p7 T) (g T)) /\ happens3 (fun T => amsbound_update (p1 T) (p2 T) (p3 T) (p4 T) (p5 T) (p6 T) (p7 T) q1 (g T)) /\
  happens3 (fun T => adabelief_update (p1 T) (p2 T) (p3 T) (p4 T) (p5 T) q1 q2 q3 q4 (g T)).
Proof using G Lx.
  intros p1 p2 p3 p4 p5 p6 p7 q1 q2 q3 q4. destruct G as (Hn & Lg). split.
  { destruct (UpdProofs4.history_exists (fun '((_, x) : Z * list R) => SmProofs1.rlen x = n) (fun T => sgd_update (p1 T) (g T)) (0, x0)) as (s & E & H).
    - exact Lx.
    - intros T (t & x) HT L. destruct (UpdProofs2.sgd_does n Hn (g T) (Lg T HT) (p1 T) t x L) as (x' & E & L' & _). exists (next_t t, x'). auto.
    - exists (fun T => fst (s T)), (fun T => snd (s T)). rewrite E. split; [reflexivity |]. split; [reflexivity |]. intros T HT. specialize (H T HT). destruct (s T), (s (T + 1)). exact H. }
  split; [eapply (UpdProofs4.occurs1 n Hn g x0 Lx); intros T HT; apply (UpdProofs2.momentum_does n Hn (g T) (Lg T HT) (p1 T) (p2 T)) |].
  split; [eapply (UpdProofs4.occurs1 n Hn g x0 Lx); intros T HT; apply (UpdProofs2.nesterov_does n Hn (g T) (Lg T HT) (p1 T) (p2 T)) |].
  split; [eapply (UpdProofs4.occurs1 n Hn g x0 Lx); intros T HT; apply (UpdProofs2.sgdw_does n Hn (g T) (Lg T HT) (p1 T) (p2 T) (p3 T) (p4 T)) |].
  split; [eapply (UpdProofs4.occurs1 n Hn g x0 Lx); intros T HT; apply (UpdProofs2.lion_does n Hn (g T) (Lg T HT) (p1 T) (p2 T) (p3 T) (p4 T)) |].
  split; [eapply (UpdProofs4.occurs1 n Hn g x0 Lx); intros T HT; apply (UpdProofs2.adagrad_does n Hn (g T) (Lg T HT) (p1 T) (p2 T)) |].
  split; [eapply (UpdProofs4.occurs1 n Hn g x0 Lx); intros T HT; apply (UpdProofs2.rmsprop_does n Hn (g T) (Lg T HT) (p1 T) (p2 T) (p3 T)) |].
  split; [eapply (UpdProofs4.occurs2 n Hn g x0 Lx); intros T HT; apply (UpdProofs2.adadelta_does n Hn (g T) (Lg T HT) (p1 T) (p2 T) (p3 T)) |].
  split; [eapply (UpdProofs4.occurs3 n Hn g x0 Lx); intros T HT; apply (UpdProofs2.graves_does n Hn (g T) (Lg T HT) (p1 T) (p2 T) (p3 T) (p4 T)) |].
  split; [eapply (UpdProofs4.occurs2 n Hn g x0 Lx); intros T HT; apply (UpdProofs2.adam_does n Hn (g T) (Lg T HT) (p1 T) (p2 T) (p3 T) (p4 T)) |].
  split; [eapply (UpdProofs4.occurs2 n Hn g x0 Lx); intros T HT; apply (UpdProofs2.adamw_does n Hn (g T) (Lg T HT) (p1 T) (p2 T) (p3 T) (p4 T) (p5 T) (p6 T)) |].
  split; [eapply (UpdProofs4.occurs2 n Hn g x0 Lx); intros T HT; apply (UpdProofs2.adamax_does n Hn (g T) (Lg T HT) (p1 T) (p2 T) (p3 T) (p4 T)) |].
  split; [eapply (UpdProofs4.occurs3 n Hn g x0 Lx); intros T HT; apply (UpdProofs2.amsgrad_does n Hn (g T) (Lg T HT) (p1 T) (p2 T) (p3 T) (p4 T) q1) |].
  split; [eapply (UpdProofs4.occurs2 n Hn g x0 Lx); intros T HT; apply (UpdProofs2.adabound_does n Hn (g T) (Lg T HT) (p1 T) (p2 T) (p3 T) (p4 T) (p5 T) (p6 T) (p7 T)) |].
  split; [eapply (UpdProofs4.occurs3 n Hn g x0 Lx); intros T HT; apply (UpdProofs2.amsbound_does n Hn (g T) (Lg T HT) (p1 T) (p2 T) (p3 T) (p4 T) (p5 T) (p6 T) (p7 T) q1) |].
  eapply (UpdProofs4.occurs3 n Hn g x0 Lx); intros T HT; apply (UpdProofs2.adabelief_does n Hn (g T) (Lg T HT) (p1 T) (p2 T) (p3 T) (p4 T) (p5 T) q1 q2 q3 q4).
Qed.
End Total.

(** With amsgrad the state is not the maximum of what was there and the new value: epsilon is added to it in every update. *)
Theorem C80_adabelief_refuted :
  ~ forall alpha b1 b2 eps rate fused fixed rectify g t m s h x t' m' s' h' x', (0 < eps)%R ->
    adabelief_update alpha b1 b2 eps rate true fused fixed rectify [g] (t, [m], [s], [h], [x]) = Some (t', [m'], [s'], [h'], [x']) -> (h' <= Rmax h (s' + eps))%R.
Proof.
  intros H. assert (E : exists m' s' x', adabelief_update 1 0 0 1 0 true false false false [0%R] (1, [0%R], [0%R], [1%R], [0%R]) = Some (2, [m'], [s'], [(Rmax 1 s' + 1)%R], [x']) /\ s' = (0 * 0 + (1 - 0) * (0 - (0 * 0 + (1 - 0) * 0)) ^ 2)%R) by (do 3 eexists; split; reflexivity).
  destruct E as (m' & s' & x' & E & S). apply H in E; [| lra]. clear H. rename E into H. replace s' with 0%R in H by (rewrite S; ring). rewrite !Rmax_left in H by lra. lra.
Qed.
(** The rate of AMSBound exceeds the bound that AdaBound has. *)
Theorem C80_amsbound_refuted :
  ~ forall alpha0 alpha b1 b2 eps final gamma correct g t m v h x t' m' v' h' x', (0 < alpha0)%R -> (0 < alpha)%R -> (0 < eps)%R -> (0 < final)%R -> (0 < gamma)%R ->
    amsbound_update alpha0 alpha b1 b2 eps final gamma correct [g] (t, [m], [v], [h], [x]) = Some (t', [m'], [v'], [h'], [x']) ->
    (Rabs (x' - x) <= final * (alpha / alpha0) * (1 + 1 / (gamma * IZR t')) * Rabs m')%R.
Proof.
  intros H. assert (E : exists m' v' h' x', amsbound_update 1 1 0 0 1 (1 / 100) 1 false [1%R] (1, [0%R], [0%R], [0%R], [0%R]) = Some (2, [m'], [v'], [h'], [x']) /\ m' = (0 * 0 + (1 - 0) * 1)%R /\ v' = (0 * 0 + (1 - 0) * 1 * 1)%R /\ h' = Rmax 0 v' /\
    x' = (0 - Rmin (1 / 100 * (1 / 1) * (1 + 1 / 1 * 2)) (Rmax (1 * 1 / (sqrt h' + 1)) (1 / 100 * (1 / 1) * (1 - 1 / (1 * 2 + 1)))) * m')%R) by (do 4 eexists; split; [reflexivity |]; repeat split).
  destruct E as (m' & v' & h' & x' & E & M & V & Hh & X). apply H in E; [| lra ..]. clear H. rename E into H.
  replace m' with 1%R in * by (rewrite M; ring). replace v' with 1%R in * by (rewrite V; ring). rewrite Rmax_right in Hh by lra. rewrite Hh, sqrt_1 in X. rewrite Rmax_left in X by lra. rewrite Rmin_left in X by lra. rewrite X, Rabs_R1 in H. rewrite Rabs_left in H by lra. lra.
Qed.
Section Examples80.
Example C80_adam_example : exists m v x, adam_update 1 (1 / 2) (3 / 4) 1 [2%R] (0, [0%R], [0%R], [5%R]) = Some (1, [m], [v], [x]) /\ m = 1%R /\ v = 1%R /\ x = (5 - 1 / 2)%R.
Proof.
  do 3 eexists. split; [reflexivity |]. split; [lra |]. split; [lra |]. replace (3 / 4 * 0 + (1 - 3 / 4) * 2 * 2)%R with 1%R by lra. rewrite sqrt_1. replace (bias_correction (1 / 2) (3 / 4) (next_t 0)) with 1%R; [lra |].
  unfold bias_correction, pow_t. change (Z.to_nat (next_t 0)) with 1%nat. rewrite !pow_1. replace (1 - 3 / 4)%R with ((1 / 2) * (1 / 2))%R by lra. rewrite sqrt_square by lra. field.
Qed.
Example C80_adamax_example : exists m u x, adamax_update 1 (1 / 2) (1 / 2) 1 [2%R] (1, [0%R], [8%R], [5%R]) = Some (2, [m], [u], [x]) /\ u = 4%R /\ x = (5 - (4 / 3) / 5)%R.
Proof. do 3 eexists. split; [reflexivity |]. rewrite (Rabs_pos_eq 2) by lra. rewrite Rmax_left by lra. split; [lra |]. unfold pow_t. change (Z.to_nat (next_t 1)) with 2%nat. field. Qed.
Example C80_adabound_example : exists m v x, adabound_update 1 1 0 0 1 (1 / 10) 1 [1%R] (0, [0%R], [0%R], [5%R]) = Some (1, [m], [v], [x]) /\ x = (5 - 1 / 5)%R.
Proof.
  do 3 eexists. split; [reflexivity |]. unfold bias_correction, pow_t. change (Z.to_nat (next_t 0)) with 1%nat. change (next_t 0) with 1. rewrite !pow_1. replace (0 * 0 + (1 - 0) * 1 * 1)%R with 1%R by lra. replace (1 - 0)%R with 1%R by lra. rewrite sqrt_1.
  rewrite Rmax_left by lra. rewrite Rmin_left by lra. lra.
Qed.
Example C80_amsgrad_example : exists m v h x, amsgrad_update 1 0 0 1 false [1%R] (4, [0%R], [9%R], [9%R], [5%R]) = Some (5, [m], [v], [h], [x]) /\ v = 1%R /\ h = 9%R /\ x = (5 - 1 / 4)%R.
Proof. do 4 eexists. split; [reflexivity |]. replace (0 * 9 + (1 - 0) * 1 * 1)%R with 1%R by lra. split; [reflexivity |]. rewrite Rmax_left by lra. split; [reflexivity |]. replace (sqrt 9) with 3%R by (rewrite <- (sqrt_square 3) by lra; f_equal; lra). lra. Qed.
Example C80_adabelief_example : exists m s x, adabelief_update 1 0 0 1 0 false true false false [3%R] (0, [0%R], [0%R], [0%R], [5%R]) = Some (1, [m], [s], [0%R], [x]) /\ s = 1%R /\ x = (5 - 3 / 2)%R.
Proof.
  do 3 eexists. split; [reflexivity |]. unfold belief_alpha, sgd_step. cbn [andb]. unfold pow_t. change (Z.to_nat (next_t 0)) with 1%nat. rewrite !pow_1. split; [lra |].
  match goal with |- context [sqrt (?e + 1)] => replace (e + 1)%R with 1%R by lra end. replace (1 - 0)%R with 1%R by lra. rewrite sqrt_1. lra.
Qed.
(** The first updates are not rectified. *)
Example C80_rectified_example : sgd_step true (1 / 2) 1 = true.
Proof. unfold sgd_step. cbn [andb]. destruct (Rle_dec (rho_at (1 / 2) 1) 4) as [_ | H]; [reflexivity |]. exfalso. apply H. unfold rho_at, rho_inf, pow_t. change (Z.to_nat 1) with 1%nat. rewrite pow_1. lra. Qed.
End Examples80.

(** * C81 *)
Section Layers.
Context (n : Z) (Hn : 0 <= n).
(** LARS: momentum of the decayed gradients, scaled by the norm of the weights over those of gradients and decay. *)
Theorem C81_lars_partial : forall lr mu coef eps rate t v g x, len v = n -> len g = n -> len x = n -> (0 <= rate)%R -> (0 < eps)%R ->
  exists v' g' x', lars_update lr mu coef eps rate (t, v, g, x) = Some (next_t t, v', g', x') /\ len v' = n /\ len g' = n /\ len x' = n /\
  let q := (norm g + rate * norm x)%R in
  forall e, 0 <= e < n -> at_pos g' e = (at_pos g e + rate * at_pos x e)%R /\ at_pos x' e = (at_pos x e - at_pos v' e)%R /\
    ((eps <= norm x)%R -> (eps <= q)%R -> at_pos v' e = (mu * at_pos v e + lr * (coef * norm x / q) * at_pos g' e)%R) /\
    ((eps <= norm x)%R -> (q < eps)%R -> at_pos v' e = (mu * at_pos v e + lr * (coef * norm x / (q + eps)) * at_pos g' e)%R) /\
    ((norm x < eps)%R -> at_pos v' e = (mu * at_pos v e + lr * at_pos g' e)%R).
Proof using Hn.
  intros lr mu coef eps rate t v g x Lv Lg Lx R E. destruct (UpdProofs4.lars_ok n Hn lr mu coef eps rate t v g x Lv Lg Lx R) as (v' & g' & x' & Eq & L1 & L2 & L3 & V). exists v', g', x'. split; [exact Eq |]. do 3 (split; [assumption |]). intros q e He.
  destruct (V e He) as (V1 & V2 & V3). split; [exact V1 |]. split; [exact V3 |]. change at_pos with SmProofs1.el. rewrite V2. fold q. split; [| split].
  - intros A B. destruct (Rlt_dec (norm x) eps); [lra |]. destruct (Rlt_dec q eps); [lra |]. unfold Rdiv. ring.
  - intros A B. destruct (Rlt_dec (norm x) eps); [lra |]. destruct (Rlt_dec q eps); [| lra]. unfold Rdiv. ring.
  - intros A. destruct (Rlt_dec (norm x) eps); [| lra]. reflexivity.
Qed.
(** Without momentum the weights move by at most lr coef times their norm, whatever the gradients. *)
Theorem C81_lars_bound_partial : forall lr coef eps rate t v g x t' v' g' x', len v = n -> len g = n -> len x = n -> (0 <= rate)%R -> (0 < eps)%R -> (eps <= norm x)%R ->
  lars_update lr 0 coef eps rate (t, v, g, x) = Some (t', v', g', x') -> (distance x' x <= Rabs (lr * coef) * norm x)%R.
Proof using Hn.
  intros lr coef eps rate t v g x t' v' g' x' Lv Lg Lx R E Nx U. destruct (UpdProofs4.lars_ok n Hn lr 0%R coef eps rate t v g x Lv Lg Lx R) as (v2 & g2 & x2 & Eq & L1 & L2 & L3 & V). rewrite Eq in U. injection U as _ -> -> ->.
  set (q := (norm g + rate * norm x)%R) in *. destruct (Rlt_dec (norm x) eps); [lra |]. set (q' := if Rlt_dec q eps then (q + eps)%R else q) in *.
  pose proof (UpdProofs4.norm_pos g) as P1. pose proof (Rmult_le_pos _ _ R (UpdProofs4.norm_pos x)) as P2. assert (Q : (0 < q')%R /\ (q <= q')%R) by (unfold q'; destruct (Rlt_dec q eps); unfold q in *; lra).
  rewrite (UpdProofs4.distance_scaled n x' x g' (- (lr * coef * norm x / q'))%R L3 L2) by (intros e He; destruct (V e He) as (_ & V2 & V3); rewrite V3, V2; ring).
  assert (N : (norm g' <= q')%R). { apply Rle_trans with q; [| apply Q]. unfold q. rewrite <- (Rabs_pos_eq rate R) at 1. apply (UpdProofs4.norm_sum n g x g' rate Lg Lx L2). intros e He. apply V. exact He. }
  unfold Rdiv. rewrite Rabs_Ropp, !Rabs_mult. rewrite <- Rabs_mult. rewrite (Rabs_pos_eq (norm x)) by apply UpdProofs4.norm_pos. rewrite (Rabs_pos_eq (/ q')) by (left; apply Rinv_0_lt_compat; apply Q).
  rewrite Rmult_assoc. rewrite <- (Rmult_1_r (Rabs (lr * coef) * norm x)) at 2. apply Rmult_le_compat_l; [apply Rmult_le_pos; [apply Rabs_pos | apply UpdProofs4.norm_pos] |].
  apply Rmult_le_reg_l with q'; [apply Q |]. replace (q' * (/ q' * norm g'))%R with (norm g') by (field; lra). lra.
Qed.
(** Lamb: the corrected step of Adam, with decay, scaled to the clipped norm of the weights. *)
Theorem C81_lamb_partial : forall eta b1 b2 gl gu eps (correct : bool) rate g t m v w, len g = n -> len m = n -> len v = n -> len w = n ->
  let c b := (if correct then 1 - power b (next_t t) else 1)%R in
  exists m' v' r w', lamb_update eta b1 b2 gl gu eps correct rate g (t, m, v, w) = Some (next_t t, m', v', w') /\ len m' = n /\ len v' = n /\ len r = n /\ len w' = n /\
  (forall e, 0 <= e < n -> at_pos m' e = (b1 * at_pos m e + (1 - b1) * at_pos g e)%R /\ at_pos v' e = (b2 * at_pos v e + (1 - b2) * (at_pos g e * at_pos g e))%R /\
    at_pos r e = (at_pos m' e / c b1 / (sqrt (at_pos v' e / c b2) + eps) + rate * at_pos w e)%R) /\
  ((norm r <= eps)%R -> forall e, 0 <= e < n -> at_pos w' e = (at_pos w e - eta * at_pos r e)%R) /\
  ((eps < norm r)%R -> (gl <= gu)%R -> forall e, 0 <= e < n -> at_pos w' e = (at_pos w e - eta * (clamp gl gu (norm w) / norm r) * at_pos r e)%R) /\
  ((eps < norm r)%R -> (0 <= eps)%R -> (0 <= gl <= gu)%R -> distance w' w = (Rabs eta * clamp gl gu (norm w))%R).
Proof using Hn.
  intros eta b1 b2 gl gu eps correct rate g t m v w Lg Lm Lv Lw c. destruct (UpdProofs4.lamb_ok n Hn eta b1 b2 gl gu eps correct rate g t m v w Lg Lm Lv Lw) as (m' & v' & r & w' & E & L1 & L2 & L3 & L4 & V).
  set (phi := let v := if Rlt_dec (norm w) gl then gl else norm w in if Rlt_dec gu v then gu else v) in *. exists m', v', r, w'. split; [exact E |]. do 4 (split; [assumption |]). change at_pos with SmProofs1.el.
  assert (P : (gl <= gu)%R -> phi = clamp gl gu (norm w)).
  { intros H. unfold phi, clamp, Rmin, Rmax. destruct (Rlt_dec (norm w) gl), (Rle_dec (norm w) gl); try lra; cbv zeta; destruct (Rlt_dec gu _), (Rle_dec gu _); lra. }
  assert (W : (eps < norm r)%R -> (gl <= gu)%R -> forall e, 0 <= e < n -> SmProofs1.el w' e = (SmProofs1.el w e - eta * (clamp gl gu (norm w) / norm r) * SmProofs1.el r e)%R).
  { intros H I e He. destruct (V e He) as (_ & _ & _ & V4). destruct (Rlt_dec eps (norm r)); [| lra]. rewrite V4, P by exact I. reflexivity. }
  split; [intros e He; destruct (V e He) as (V1 & V2 & V3 & _); auto |]. split; [| split; [exact W |]].
  - intros H e He. destruct (V e He) as (_ & _ & _ & V4). destruct (Rlt_dec eps (norm r)); [lra |]. rewrite V4. ring.
  - intros H P0 I. rewrite (UpdProofs4.distance_scaled n w' w r (- (eta * (clamp gl gu (norm w) / norm r)))%R L4 L3) by (intros e He; rewrite (W H ltac:(lra) e He); ring).
    destruct (UpdProofs4.clamp_range gl gu (norm w) ltac:(lra)) as (C & _). rewrite Rabs_Ropp, Rabs_mult. rewrite (Rabs_pos_eq (_ / _)) by (apply Rmult_le_pos; [lra | left; apply Rinv_0_lt_compat; lra]). field. lra.
Qed.
(** Weights that are zero stay zero, while the gradients are not small, if the norm is not clipped from below (as is the default). *)
Theorem C81_lamb_moves_refuted :
  ~ forall eta b1 b2 gl gu eps correct rate g t w t' m' v' w', (0 < eta)%R -> (0 <= b1 < 1)%R -> (0 <= b2 < 1)%R -> (0 <= gl <= gu)%R -> (0 < gu)%R -> (0 < eps)%R -> g <> 0%R ->
    lamb_update eta b1 b2 gl gu eps correct rate [g] (t, [0%R], [0%R], [w]) = Some (t', m', v', [w']) -> w' <> w.
Proof.
  intros H. destruct (UpdProofs4.lamb_ok 1 ltac:(lia) 1%R 0%R 0%R 0%R 1%R (1 / 4)%R false 0%R [1%R] 0 [0%R] [0%R] [0%R] eq_refl eq_refl eq_refl eq_refl) as (m' & v' & r & w' & E & L1 & L2 & L3 & L4 & V).
  destruct (V 0 ltac:(lia)) as (V1 & V2 & V3 & V4). change (SmProofs1.el [0%R] 0) with 0%R in *. change (SmProofs1.el [1%R] 0) with 1%R in *.
  destruct w' as [| w1 [| ? ?]]; try (exfalso; cbn in L4; lia). change (SmProofs1.el [w1] 0) with w1 in V4. apply H in E; [| lra ..]. apply E. clear E H.
  replace (SmProofs1.el m' 0) with 1%R in V3 by (rewrite V1; ring). replace (SmProofs1.el v' 0) with 1%R in V3 by (rewrite V2; ring). replace (1 / 1)%R with 1%R in V3 by field. rewrite sqrt_1 in V3.
  assert (N : forall a, SmProofs1.rlen a = 1 -> norm a = Rabs (SmProofs1.el a 0)).
  { intros a La. rewrite (UpdProofs1.norm_is 1 a La). change 1 with (0 + 1). rewrite SmProofs1.rsum_S, SmProofs1.rsum_0 by lia. rewrite Rplus_0_l. apply sqrt_Rsqr_abs. }
  rewrite (N r L3), (N [0%R] eq_refl), V3 in V4. change (SmProofs1.el [0%R] 0) with 0%R in V4. rewrite Rabs_R0 in V4. cbv zeta in V4. rewrite (Rabs_pos_eq (1 / (1 + 1 / 4) + 0 * 0)) in V4 by lra.
  destruct (Rlt_dec (1 / 4) (1 / (1 + 1 / 4) + 0 * 0)); [| lra]. destruct (Rlt_dec 0 0); [lra |]. destruct (Rlt_dec 1 0); [lra |]. rewrite V4. unfold Rdiv. ring.
Qed.
(** Clipping: at most the limit, in the same direction; small gradients are kept. *)
Theorem C81_clip : forall c g, len g = n -> (0 < c)%R -> exists r, clip_grad_by_norm c g = Some r /\ len r = n /\ (norm r <= c)%R /\
  ((norm g <= c)%R -> r = g) /\ ((c < norm g)%R -> norm r = c /\ forall e, 0 <= e < n -> at_pos r e = (c / norm g * at_pos g e)%R).
Proof using Hn.
  intros c g L C. destruct (UpdProofs4.clip_ok n Hn c g L) as (r & E & Lr & A & B). exists r. split; [exact E |]. split; [exact Lr |]. rewrite (Rabs_pos_eq c) in * by lra.
  assert (D : (c < norm g)%R -> norm r = c /\ forall e, 0 <= e < n -> at_pos r e = (c / norm g * at_pos g e)%R).
  { intros H. specialize (B ltac:(lra) H). assert (S : forall e, 0 <= e < n -> at_pos r e = (c / norm g * at_pos g e)%R) by (intros e He; change at_pos with SmProofs1.el; rewrite B by exact He; unfold Rdiv; ring). split; [| exact S].
    rewrite (UpdProofs1.norm_is n r Lr). rewrite (SmProofs1.rsum_ext _ _ (fun e => (c / norm g * SmProofs1.el g e) * (c / norm g * SmProofs1.el g e))%R) by (intros e He; change SmProofs1.el with at_pos; rewrite S by exact He; reflexivity).
    rewrite UpdProofs3.norm_scaled, <- (UpdProofs1.norm_is n g L). rewrite Rabs_pos_eq by (apply Rmult_le_pos; [lra | left; apply Rinv_0_lt_compat; lra]). field. lra. }
  split; [| split; [intros H; apply A; right; exact H | exact D]]. destruct (Rle_dec (norm g) c) as [H | H]; [rewrite A by (right; exact H); exact H | destruct (D ltac:(lra)) as (-> & _); lra].
Qed.
(** A limit of zero does not limit. *)
Theorem C81_clip_refuted : ~ forall c g r, (0 <= c)%R -> clip_grad_by_norm c g = Some r -> (norm r <= c)%R.
Proof.
  intros H. assert (E : clip_grad_by_norm 0 [1%R] = Some [1%R]) by (unfold clip_grad_by_norm; destruct (Req_EM_T 0 0); [reflexivity | contradiction]). apply H in E; [| lra]. revert E.
  unfold norm. change (len [1%R]) with (0 + 1). rewrite SmProofs1.rsum_S, SmProofs1.rsum_0 by lia. change (at_pos [1%R] 0) with 1%R. replace (0 + 1 * 1)%R with 1%R by ring. rewrite sqrt_1. lra.
Qed.
Theorem C81_weight_decay : forall rate x g, len x = n -> len g = n -> exists r, weight_decay_cpu rate x g = Some r /\ len r = n /\ forall e, 0 <= e < n -> at_pos r e = (at_pos g e + rate * at_pos x e)%R.
Proof using Hn. intros rate x g Lx Lg. unfold weight_decay_cpu. change (sizeof x) with (len x). rewrite Lx. exact (UpdProofs1.transform_ok (fun x g => g + rate * x)%R n x g Hn Lx Lg). Qed.
Theorem C81_scale : forall scale x g, len x = n -> len g = n -> exists r, scale_grad_cpu scale x g = Some r /\ len r = n /\ forall e, 0 <= e < n -> at_pos r e = (scale * at_pos g e)%R.
Proof using Hn. intros scale x g Lx Lg. unfold scale_grad_cpu. change (sizeof x) with (len x). rewrite Lx. destruct (UpdProofs1.transform_ok (fun _ g => g * scale)%R n x g Hn Lx Lg) as (r & E & Lr & V). exists r. split; [exact E |]. split; [exact Lr |]. intros e He. change at_pos with SmProofs1.el. rewrite V by exact He. ring. Qed.
(** Decay of the gradient and SgdW without momentum: the same but for the factor lr0. *)
Theorem C81_decay_sgdw : forall lr0 lr rate t v x g, lr0 <> 0%R -> len v = n -> len x = n -> len g = n ->
  exists g' v' x1 x2, weight_decay_cpu rate x g = Some g' /\ sgd_update lr g' (t, x) = Some (next_t t, x1) /\
    sgdw_update lr0 lr 0 (rate * lr0) g (t, v, x) = Some (next_t t, v', x2) /\ len x1 = n /\ len x2 = n /\ forall e, 0 <= e < n -> at_pos x1 e = at_pos x2 e.
Proof using Hn.
  intros lr0 lr rate t v x g N Lv Lx Lg. destruct (C81_weight_decay rate x g Lx Lg) as (g' & E & Lg' & V). destruct (UpdProofs2.sgd_does n Hn g' Lg' lr t x Lx) as (x1 & E1 & L1 & V1).
  destruct (UpdProofs2.sgdw_does n Hn g Lg lr0 lr 0%R (rate * lr0)%R t v x Lv Lx) as (v' & x2 & E2 & Lv' & L2 & V2). exists g', v', x1, x2. split; [exact E |]. split; [exact E1 |]. split; [exact E2 |]. split; [exact L1 |]. split; [exact L2 |].
  intros e He. change at_pos with SmProofs1.el in *. injection (V2 e He) as _ X2. rewrite V1, V by exact He. rewrite X2. field. exact N.
Qed.
End Layers.
(** The header says that the rate divides by the norm of the decayed gradients; it divides by the sum of the norms. *)
Theorem C81_lars_header_refuted :
  ~ forall lr mu coef eps rate t v g x t' v' g' x', (0 < eps)%R -> (0 <= rate)%R -> (eps <= norm [x])%R -> (eps <= norm g')%R -> lars_update lr mu coef eps rate (t, [v], [g], [x]) = Some (t', v', g', x') ->
    at_pos v' 0 = (mu * v + lr * (coef * norm [x] / norm g') * at_pos g' 0)%R.
Proof.
  assert (N : forall a, SmProofs1.rlen a = 1 -> norm a = Rabs (SmProofs1.el a 0)).
  { intros a La. rewrite (UpdProofs1.norm_is 1 a La). change 1 with (0 + 1). rewrite SmProofs1.rsum_S, SmProofs1.rsum_0 by lia. rewrite Rplus_0_l. apply sqrt_Rsqr_abs. }
  intros H. destruct (C81_lars_partial 1 ltac:(lia) 1%R 0%R 1%R 1%R 1%R 0 [0%R] [(-2)%R] [1%R] eq_refl eq_refl eq_refl ltac:(lra) ltac:(lra)) as (v' & g' & x' & E & L1 & L2 & L3 & V).
  destruct (V 0 ltac:(lia)) as (V1 & _ & V2 & _). change (at_pos [(-2)%R] 0) with (-2)%R in V1. change (at_pos [1%R] 0) with 1%R in V1. change (at_pos [0%R] 0) with 0%R in V2.
  assert (A1 : norm [1%R] = 1%R) by (rewrite N by reflexivity; apply Rabs_R1). assert (A2 : norm [(-2)%R] = 2%R) by (rewrite N by reflexivity; change (SmProofs1.el [(-2)%R] 0) with (-2)%R; rewrite Rabs_left by lra; lra).
  assert (A3 : norm g' = 1%R) by (rewrite (N g' L2); change SmProofs1.el with at_pos; rewrite V1, Rabs_left by lra; lra).
  apply H in E; [| lra ..]. rewrite V2, V1, A1, A2, A3 in E by (rewrite ?A1, ?A2; lra). lra.
Qed.

Example C79_sgd_example : exists x y, sgd_update (1 / 2) [2%R; 4%R] (0, [5%R; 5%R]) = Some (1, [x; y]) /\ x = 4%R /\ y = 3%R.
Proof. do 2 eexists. split; [reflexivity |]. lra. Qed.
Example C79_momentum_example : exists v x, momentum_update 1 (1 / 2) [2%R] (0, [4%R], [5%R]) = Some (1, [v], [x]) /\ v = 4%R /\ x = 1%R.
Proof. do 2 eexists. split; [reflexivity |]. lra. Qed.
Example C79_nesterov_example : exists v x, nesterov_update 1 (1 / 2) [2%R] (0, [(-4)%R], [5%R]) = Some (1, [v], [x]) /\ v = (-4)%R /\ x = 1%R.
Proof. do 2 eexists. split; [reflexivity |]. lra. Qed.
Example C79_sgdw_example : exists v x, sgdw_update 1 (1 / 2) 0 (1 / 5) [2%R] (0, [0%R], [10%R]) = Some (1, [v], [x]) /\ v = 1%R /\ x = 8%R.
Proof. do 2 eexists. split; [reflexivity |]. lra. Qed.
Example C79_lion_example : exists m x, lion_update 1 (1 / 2) (1 / 4) 0 [2%R] (0, [(-8)%R], [5%R]) = Some (1, [m], [x]) /\ m = (- (1 / 2))%R /\ x = 6%R.
Proof. do 2 eexists. split; [reflexivity |]. unfold lerp, sign. destruct (Rlt_dec 0 (2 + 1 / 2 * (-8 - 2))); [lra |]. destruct (Rlt_dec (2 + 1 / 2 * (-8 - 2)) 0); lra. Qed.
Example C79_adagrad_example : exists v x, adagrad_update 1 1 [3%R] (0, [16%R], [5%R]) = Some (1, [v], [x]) /\ v = 25%R /\ x = (5 - 1 / 2)%R.
Proof. do 2 eexists. split; [reflexivity |]. split; [lra |]. replace (16 + 3 * 3)%R with (5 * 5)%R by lra. rewrite sqrt_square by lra. lra. Qed.
Example C79_rmsprop_example : exists v x, rmsprop_update 1 (1 / 2) 1 [3%R] (0, [9%R], [5%R]) = Some (1, [v], [x]) /\ v = 9%R /\ x = (5 - 3 / 4)%R.
Proof. do 2 eexists. split; [reflexivity |]. split; [lra |]. replace (9 * (1 / 2) + 3 * 3 * (1 - 1 / 2))%R with (3 * 3)%R by lra. rewrite sqrt_square by lra. lra. Qed.
Example C79_adadelta_example : exists e d x, adadelta_update 1 0 1 [1%R] (0, [7%R], [7%R], [5%R]) = Some (1, [e], [d], [x]) /\ e = 1%R /\ d = 4%R /\ x = 3%R.
Proof. do 3 eexists. split; [reflexivity |]. split; [lra |]. replace ((7 + 1) / (7 * 0 + 1 * 1 * (1 - 0) + 1))%R with (2 * 2)%R by lra. rewrite sqrt_square by lra. lra. Qed.
Example C79_graves_example : exists a b d x, graves_update 3 0 0 1 [3%R] (0, [0%R], [0%R], [0%R], [5%R]) = Some (1, [a], [b], [d], [x]) /\ a = 9%R /\ b = 3%R /\ x = (-4)%R.
Proof. do 4 eexists. split; [reflexivity |]. split; [lra |]. split; [lra |]. match goal with |- context [sqrt ?e] => replace e with 1%R by lra end. rewrite sqrt_1. lra. Qed.
Example C81_clip_example : exists r, clip_grad_by_norm 1 [3%R; 4%R] = Some r /\ at_pos r 0 = (3 / 5)%R.
Proof.
  destruct (UpdProofs4.clip_ok 2 ltac:(lia) 1%R [3%R; 4%R] eq_refl) as (r & E & _ & _ & V). exists r. split; [exact E |].
  assert (N : norm [3%R; 4%R] = 5%R). { unfold norm. change (len [3%R; 4%R]) with (0 + 1 + 1). rewrite !SmProofs1.rsum_S, SmProofs1.rsum_0 by lia. change (at_pos [3%R; 4%R] 0) with 3%R. change (at_pos [3%R; 4%R] (0 + 1)) with 4%R. replace (0 + 3 * 3 + 4 * 4)%R with (5 * 5)%R by lra. apply sqrt_square. lra. }
  change at_pos with SmProofs1.el. rewrite V; [| lra | rewrite N, Rabs_R1; lra | lia]. rewrite N. change (SmProofs1.el [3%R; 4%R] 0) with 3%R. lra.
Qed.
Example C81_decay_example : exists r, weight_decay_cpu (1 / 2) [4%R] [1%R] = Some [r] /\ r = 3%R.
Proof. eexists. split; [reflexivity |]. lra. Qed.
Example C81_lars_example : exists v g x, lars_update 1 (1 / 2) 1 1 1 (0, [2%R], [3%R], [0%R]) = Some (1, v, g, x) /\ at_pos v 0 = 4%R /\ at_pos x 0 = (-4)%R.
Proof.
  destruct (C81_lars_partial 1 ltac:(lia) 1%R (1 / 2)%R 1%R 1%R 1%R 0 [2%R] [3%R] [0%R] eq_refl eq_refl eq_refl ltac:(lra) ltac:(lra)) as (v & g & x & E & _ & _ & _ & V). exists v, g, x. split; [exact E |].
  destruct (V 0 ltac:(lia)) as (V1 & V2 & _ & _ & V3). change (at_pos [2%R] 0) with 2%R in *. change (at_pos [3%R] 0) with 3%R in *. change (at_pos [0%R] 0) with 0%R in *.
  assert (N : norm [0%R] = 0%R). { unfold norm. change (len [0%R]) with (0 + 1). rewrite SmProofs1.rsum_S, SmProofs1.rsum_0 by lia. change (at_pos [0%R] 0) with 0%R. replace (0 + 0 * 0)%R with 0%R by ring. apply sqrt_0. }
  rewrite V2, V3, V1 by (rewrite N; lra). lra.
Qed.

Print Assumptions C79_total.
Print Assumptions C79_graves_partial.
Print Assumptions C80_rectified_partial.
Print Assumptions C81_lamb_partial.
