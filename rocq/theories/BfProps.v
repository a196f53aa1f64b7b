(** Gradients computed by graphs of functions (nnabla.grad). *)
From Coq Require Import Reals Ratan ZArith Bool List Lra Lia Psatz.
From Verif Require Import ActModel ActSpec ActProofs1 ActProofs2 ActProofs4 BfModel BfSpec BfProofs1 BfProofs2 BfProofs3 BfProofs4 BfProofs5 BfProofs6.
Import ListNotations.
Local Open Scope R_scope.

(** * C82: the gradients in Python are those in C++ *)
Lemma back_weighted e j k : Nat.eqb j k = false -> depends e k = true -> back (Bi Mul2 e (In j)) (Con 1) k = back e (times (Con 1) (In j)) k.
Proof.
  intros N D. cbn [back depends]. rewrite N, D. cbn [orb].
  change (bk0 Mul2 (Con 1) (arg0 Mul2 e) (arg1 Mul2 (In j))) with (Got (times (Con 1) (In j))). change (bk1 Mul2 (Con 1) (arg0 Mul2 e) (arg1 Mul2 (In j))) with (Got (times (Con 1) e)).
  cbn [pass]. destruct (back e (times (Con 1) (In j)) k); reflexivity.
Qed.
Lemma weight j env : eval (times (Con 1) (In j)) env = env j.
Proof. unfold times. cbn [eval fwd2]. apply Rmult_1_l. Qed.
(** The input that is multiplied with the output stands for the gradient of the output. *)
Theorem C82_unary_partial f env : f <> Mish -> meets f (env 0%nat) ->
  exists g, grad (Bi Mul2 (Un f (In 0)) (In 1)) 0 = Some g /\ eval g env = bwd f (env 1%nat) (env 0%nat) (fwd f (env 0%nat)).
Proof.
  intros N M. destruct (agree f (times (Con 1) (In 1)) (In 0) env N) as (g & E & V). exists g. unfold grad. rewrite back_weighted by reflexivity.
  cbn [back depends Nat.eqb]. rewrite E. split; [reflexivity |]. rewrite (V M), weight. reflexivity.
Qed.
Theorem C82_first_partial f env : f <> BcAdd2 -> meets2 f (env 0%nat) (env 1%nat) ->
  exists g, grad (Bi Mul2 (Bi f (In 0) (In 1)) (In 2)) 0 = Some g /\ eval g env = bwd0 f (env 2%nat) (env 0%nat) (env 1%nat) (fwd2 f (env 0%nat) (env 1%nat)).
Proof.
  intros N M. destruct (agree0 f (times (Con 1) (In 2)) (In 0) (In 1) env N) as (g & E & V). exists g. unfold grad. rewrite back_weighted by reflexivity.
  assert (F : fine (bk1 f (times (Con 1) (In 2)) (arg0 f (In 0)) (arg1 f (In 1)))) by (apply bk1_sound; [destruct f; try congruence; reflexivity | split; reflexivity]).
  cbn [back depends Nat.eqb orb]. rewrite E. split; [| rewrite (V M), weight; reflexivity].
  destruct (bk1 f _ _ _); [contradiction | reflexivity | reflexivity].
Qed.
(** The label of BinaryCrossEntropy gets no gradient in Python. *)
Theorem C82_second_partial f env : f <> BcAdd2 -> (forall m, f <> BinaryCrossEntropy m) -> meets2 f (env 0%nat) (env 1%nat) ->
  exists g, grad (Bi Mul2 (Bi f (In 0) (In 1)) (In 2)) 1 = Some g /\ eval g env = bwd1 f (env 2%nat) (env 0%nat) (env 1%nat) (fwd2 f (env 0%nat) (env 1%nat)).
Proof.
  intros N L M. destruct (agree1 f (times (Con 1) (In 2)) (In 0) (In 1) env N L) as (r & E & V). unfold grad. rewrite back_weighted by reflexivity.
  assert (F : fine (bk0 f (times (Con 1) (In 2)) (arg0 f (In 0)) (arg1 f (In 1)))) by (apply bk0_sound; [destruct f; try congruence; reflexivity | split; reflexivity]).
  cbn [back depends Nat.eqb orb]. rewrite weight in V. specialize (V M). cbn [eval] in V. rewrite <- V.
  destruct (bk0 f _ _ _); [contradiction | |]; (destruct (bk1 f _ _ _) as [| | g]; cbn [value] in E; [discriminate | exists (Con 0); split; [reflexivity | cbn [eval]; congruence] | exists g; split; [reflexivity | congruence]]).
Qed.
Example C82_unary_1 : exists g, grad (Bi Mul2 (Un ReLU6 (In 0)) (In 1)) 0 = Some g /\ eval g (fun k => match k with O => 3 | _ => 7 end) = 7 /\ eval g (fun k => match k with O => 6 | _ => 7 end) = 0.
Proof. eexists. split; [reflexivity |]. ev. unfold num. split; cases; lra. Qed.
Example C82_first_1 : exists g, grad (Bi Mul2 (Bi Div2 (In 0) (In 1)) (In 2)) 0 = Some g /\ eval g (fun k => match k with O => 3 | 1%nat => 2 | _ => 7 end) = 7 / 2.
Proof. eexists. split; [reflexivity |]. ev. lra. Qed.
Example C82_second_1 : exists g, grad (Bi Mul2 (Bi Div2 (In 0) (In 1)) (In 2)) 1 = Some g /\ eval g (fun k => match k with O => 3 | 1%nat => 2 | _ => 7 end) = -21 / 4.
Proof. eexists. split; [reflexivity |]. ev. halves. rewrite cpow2. lra. Qed.
(** At the number where an ELU changes its form the gradients differ: C++ takes the slope of the right
    side, Python that of the left. *)
Theorem C82_elu_refuted : exists f x g, domain f x /\ grad (Un f (In 0)) 0 = Some g /\ eval g (fun _ => x) <> bwd f 1 x (fwd f x).
Proof. exists (ELU 2), 0. eexists. split; [exact I |]. split; [reflexivity |]. ev. cbn [bwd]. unfold num. cases. rewrite exp_0. lra. Qed.
(** The same for HardSigmoid: C++ takes the slope of the middle piece at both ends, Python 0. *)
Theorem C82_hard_sigmoid_refuted : exists f x g, domain f x /\ f <> ELU 2 /\ grad (Un f (In 0)) 0 = Some g /\ eval g (fun _ => x) <> bwd f 1 x (fwd f x).
Proof. exists HardSigmoid, (5 / 2). eexists. split; [exact I |]. split; [discriminate |]. split; [reflexivity |]. ev. cbn [bwd]. unfold num. cases. lra. Qed.
(** For equal arguments the gradient of AbsoluteError has the sign + in Python and - in C++. *)
Theorem C82_absolute_error_refuted : exists g, grad (Bi AbsoluteError (In 0) (In 1)) 0 = Some g /\
  eval g (fun _ => 5) = 1 /\ bwd0 AbsoluteError 1 5 5 (fwd2 AbsoluteError 5 5) = -1.
Proof. eexists. split; [reflexivity |]. ev. cbn [bwd0]. unfold num. cases. lra. Qed.
(** A label of BinaryCrossEntropy that is computed (a soft target) has a gradient in C++ and none in
    Python. *)
Theorem C82_label_refuted : exists m g, 0 < m < 1 / 4 /\ grad (Bi (BinaryCrossEntropy m) (In 0) (In 1)) 1 = Some g /\
  eval g (fun k => match k with O => 1 / 4 | _ => 1 end) = 0 /\ bwd1 (BinaryCrossEntropy m) 1 (1 / 4) 1 (fwd2 (BinaryCrossEntropy m) (1 / 4) 1) <> 0.
Proof.
  exists (1 / 8). eexists. split; [lra |]. split; [reflexivity |]. split; [reflexivity |]. cbn [bwd1]. rewrite !Rmax_left by lra.
  assert (ln (1 / 4) < ln (1 - 1 / 4)) by (apply ln_increasing; lra). lra.
Qed.

(** * C83: gradients of gradients *)
(** nnabla.grad applied once for every number of the list gives the partial derivative, and every
    function of the resulting graph has a finite value. *)
Theorem C83_derivatives_partial e ks env g : regular (length ks) e env -> grads e ks = Some g ->
  partials (eval e) ks env (eval g env) /\ regular 0 g env.
Proof.
  intros H E. split; [apply grads_partials; assumption |]. apply (grads_regular 0 e ks env g); [| exact E]. rewrite Nat.add_0_r. exact H.
Qed.
(** There is at most one such number. *)
Theorem C83_unique F ks env l l' : partials F ks env l -> partials F ks env l' -> l = l'.
Proof. apply partials_unique. Qed.
(** The gradients exist, of every order. *)
Theorem C83_exist e ks : supported e = true -> is_input e = false -> exists g, grads e ks = Some g.
Proof. intros A B. destruct (grads_sound e ks (conj A B)) as (g & E & _). exists g. exact E. Qed.
(** The regular case of one variable, where no argument is at a critical number: all orders. *)
Example C83_sin n : forall env, regular n (Un Sin (Bi Mul2 (In 0) (In 1))) env.
Proof. intros env. cbn. destruct n; cbn; tauto. Qed.
Example C83_1 : exists g, grads (Un Sin (In 0)) [0%nat; 0%nat; 0%nat] = Some g /\ forall env, eval g env = - cos (env 0%nat).
Proof. eexists. split; [reflexivity |]. intros env. ev. ring. Qed.
Example C83_2 : exists g, grads (Un Exp (Bi Mul2 (In 0) (In 1))) [1%nat; 0%nat] = Some g /\ forall env, eval g env = exp (env 0%nat * env 1%nat) * (1 + env 0%nat * env 1%nat).
Proof. eexists. split; [reflexivity |]. intros env. ev. ring. Qed.
Example C83_3 env : env 0%nat = 1 / 2 -> regular 5 (Un Tanh (Un (LeakyReLU 0) (In 0))) env /\ regular 3 (Un Tanh (In 0)) (fun _ => 0).
Proof. intros E. cbn. rewrite E. split; [| repeat split; auto]. destruct (Rlt_dec 0 (1 / 2)); [| lra]. repeat split; try lra; tauto. Qed.
(** The third derivative of x ** 2 at 0 is 0, but the graph of the gradient computes 0 times
    0 ** -1, which is not a number. *)
Theorem C83_square_refuted : exists g, grads (Un (PowScalar 2) (In 0)) [0%nat; 0%nat; 0%nat] = Some g /\
  partials (eval (Un (PowScalar 2) (In 0))) [0%nat; 0%nat; 0%nat] (fun _ => 0) 0 /\ ~ regular 0 g (fun _ => 0).
Proof.
  eexists. split; [reflexivity |]. split.
  - assert (P2 : forall env, eval (Un (PowScalar 2) (In 0)) env = env 0%nat * env 0%nat) by (intros env; ev; halves; apply cpow2).
    cbn [partials]. exists (fun _ => 2). split; [| apply D_const]. exists 1. split; [lra |]. intros u _. exists (fun u => 2 * u). split; [| unfold upd; cbn; derive; ring].
    exists 1. split; [lra |]. intros v _. exists (fun w => w * w). split; [| unfold upd; cbn; derive; ring]. exists 1. split; [lra |]. intros w _. rewrite P2. unfold upd. cbn. reflexivity.
  - cbn. intros H. repeat match goal with H : _ /\ _ |- _ => destruct H end.
    repeat match goal with H : pow_defined 0 ?a |- _ => first [assert (~ 0 <= a) by lra; destruct H as [H | [(_ & H) | (H & _)]]; [lra | contradiction | apply H; reflexivity] | clear H] end.
Qed.
(** The fourth derivative of tanh at 0: the same with tanh(x) ** 2. *)
Theorem C83_tanh_refuted : exists g, grads (Un Tanh (In 0)) [0%nat; 0%nat; 0%nat; 0%nat] = Some g /\ ~ regular 0 g (fun _ => 0).
Proof.
  eexists. split; [reflexivity |]. cbn. replace (tanh 0) with 0 by (unfold tanh, sinh; rewrite Ropp_0; field; generalize (cosh_pos 0); lra). intros H. repeat match goal with H : _ /\ _ |- _ => destruct H end.
  repeat match goal with H : pow_defined 0 ?a |- _ => first [assert (~ 0 <= a) by lra; destruct H as [H | [(_ & H) | (H & _)]]; [lra | contradiction | apply H; reflexivity] | clear H] end.
Qed.
(** The second gradient of sinc at 0: a division by 0. *)
Theorem C83_sinc_refuted : exists g, grads (Un Sinc (In 0)) [0%nat; 0%nat] = Some g /\ ~ regular 0 g (fun _ => 0).
Proof.
  eexists. split; [reflexivity |]. cbn. intros H. repeat match goal with H : _ /\ _ |- _ => destruct H end. congruence.
Qed.
(** A label of SigmoidCrossEntropy that is computed: its derivative is not 0. *)
Theorem C83_label_refuted : exists g, grads (Bi SigmoidCrossEntropy (In 0) (In 1)) [1%nat] = Some g /\
  eval g (fun k => match k with O => 1 | _ => 0 end) = 0 /\ ~ partials (eval (Bi SigmoidCrossEntropy (In 0) (In 1))) [1%nat] (fun k => match k with O => 1 | _ => 0 end) 0.
Proof.
  eexists. split; [reflexivity |]. split; [reflexivity |]. intros (f & (d & P & H) & D).
  assert (D' : derivable_pt_lim f 0 (-1)).
  { apply (lim_near _ (fun u => - u + (ln (1 + exp (-1)) + 1))); [| derive; ring]. exists d. split; [exact P |]. intros u U. assert (U2 : Rabs (u - 0) < d) by (apply Rabs_def1; lra). specialize (H u U2). cbn [partials] in H. rewrite <- H.
    cbn [eval]. unfold upd. cbn [Nat.eqb fwd2]. unfold num. cases. replace (1 - 2 * 1 * 1) with (-1) by lra. lra. }
  assert (E := uniqueness_limite _ _ _ _ D D'). lra.
Qed.
(** The gradient of an input by itself, and of a graph that is only an input, is refused. *)
Theorem C83_input_refuted : ~ (forall e k, supported e = true -> exists g, grad e k = Some g).
Proof. intros H. destruct (H (In 0) 0%nat eq_refl) as (g & E). discriminate E. Qed.
Print Assumptions C82_unary_partial. 
Print Assumptions C83_derivatives_partial. 
