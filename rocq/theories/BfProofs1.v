(** The gradient of every function in Python is the one in C++. *)
From Coq Require Import Reals Ratan ZArith Bool List Lra Lia Psatz.
From Verif Require Import ActModel ActSpec ActProofs1 ActProofs2 BfModel BfSpec.
Import ListNotations.
Local Open Scope R_scope.

Ltac ev := unfold neg, plus, minus, times, over, adds, muls, rsub, pows in *; cbn [eval fwd fwd2 compare] in *.
Lemma cpow2 x : cpow x 2 = x * x.
Proof. rewrite (cpow_int x 2). change (powerRZ x 2) with (x ^ 2). ring. Qed.
Lemma cpow3 x : cpow x 3 = x ^ 3.
Proof. rewrite (cpow_int x 3). reflexivity. Qed.
Lemma cpow_m2 x : cpow x (-2) = / (x ^ 2).
Proof. rewrite (cpow_int x (-2)). reflexivity. Qed.
Lemma cpow_root x : 0 < x -> cpow x (-1 / 2) = / sqrt x.
Proof.
  intros P. rewrite cpow_pos by exact P. replace (-1 / 2) with (- (1 / 2)) by field. rewrite Rpower_Ropp. f_equal.
  replace (1 / 2) with (/ 2) by field. apply Rpower_sqrt. exact P.
Qed.
Lemma root_cpow x : sqrt x = cpow x (1 / 2).
Proof.
  destruct (Rlt_dec 0 x) as [P | P]. { rewrite cpow_pos by exact P. replace (1 / 2) with (/ 2) by field. symmetry. apply Rpower_sqrt. exact P. }
  unfold cpow. destruct (Rlt_dec 0 x); [contradiction |]. destruct (Req_EM_T (1 / 2) (IZR (Int_part (1 / 2)))) as [E | E].
  - exfalso. set (z := Int_part (1 / 2)) in *. assert (F : IZR (2 * z) = IZR 1) by (rewrite mult_IZR; lra). apply eq_IZR in F. lia.
  - apply sqrt_neg_0. lra.
Qed.
Lemma not_half n : IZR n <> 1 / 2.
Proof. intros H. assert (E : IZR (2 * n) = IZR 1) by (rewrite mult_IZR; lra). apply eq_IZR in E. lia. Qed.
Ltac halves := repeat match goal with |- context [Req_EM_T ?a (1 / 2)] => destruct (Req_EM_T a (1 / 2)) as [?Hh | _]; [exfalso; lra |] end.
Lemma agree f dy x env : f <> Mish -> exists g,
  bk f dy (given (dep_x f) x) (given (dep_y f) (Un f x)) = Got g /\
  (meets f (eval x env) -> eval g env = bwd f (eval dy env) (eval x env) (fwd f (eval x env))).
Proof.
  intros NM. set (v := eval x env).
  destruct f; try congruence; try (eexists; split; [reflexivity |]; intros M; cbn [meets] in M; unfold num; ev; fold v; cbn [bwd fwd]; halves).
  all: try (unfold num; rewrite ?cpow2, ?cpow3, ?cpow_m2; solve [ring | unfold Rdiv; ring | cases; ring | unfold Rdiv; cases; ring]).
  - (* ACos *) rewrite cpow2, cpow_root by nra. unfold Rdiv. ring.
  - (* ACosh *) rewrite cpow2, cpow_root by nra. replace (v * v + -1) with (v * v - 1) by ring. unfold Rdiv. ring.
  - (* ASin *) rewrite cpow2, cpow_root by nra. unfold Rdiv. ring.
  - (* ASinh *) rewrite cpow2, cpow_root by nra. unfold Rdiv. ring.
  - (* ATan *) rewrite cpow2. f_equal. ring.
  - (* ELU *) unfold num. destruct M as [M | M]; [| subst a]; cases; try ring. replace v with 0 by lra. rewrite exp_0. ring.
  - (* GELU *) rewrite cpow3, !cpow2. unfold gelu_in. replace ((v + v ^ 3 * (44715 / 1000000)) * sqrt (2 / PI)) with (sqrt (2 / PI) * (v + 44715 / 1000000 * v ^ 3)) by ring. ring.
  - (* LeakyReLU *) cbn [bk dep_x dep_y]. destruct (Rle_dec 0 a) as [P | N]; (eexists; split; [reflexivity |]; intros _; ev; fold v; unfold num; cbn [bwd fwd]; cases; try ring; try (exfalso; nra)).
  - (* LogSigmoid *) rewrite exp_Ropp. pose proof (exp_pos v). field. split; lra.
  - (* PowScalar *) destruct (Req_EM_T (a - 1) (1 / 2)) as [E | E]; [rewrite E, root_cpow |]; reflexivity.
  - (* SoftPlus *) replace (- (v * a)) with (- a * v) by ring. unfold Rdiv. ring.
  - (* SoftSign *) rewrite cpow2. unfold Rdiv. replace ((1 + Rabs v) ^ 2) with ((Rabs v + 1) * (Rabs v + 1)) by ring. ring.
Qed.
(** A missing gradient counts as 0. *)
Definition value (r : res) (env : nat -> R) : option R :=
  match r with Raise => None | Nothing => Some 0 | Got g => Some (eval g env) end.
Lemma agree0 f dy x0 x1 env : f <> BcAdd2 -> exists g,
  bk0 f dy (arg0 f x0) (arg1 f x1) = Got g /\
  (meets2 f (eval x0 env) (eval x1 env) -> eval g env = bwd0 f (eval dy env) (eval x0 env) (eval x1 env) (fwd2 f (eval x0 env) (eval x1 env))).
Proof.
  intros NM. set (v := eval x0 env). set (w := eval x1 env).
  destruct f; try congruence; (eexists; split; [reflexivity |]; intros M; cbn [meets2] in M; unfold num, eps_graph, huber_graph; ev; fold v; fold w; cbn [bwd0]; unfold num; halves).
  all: try (rewrite ?cpow2; solve [ring | unfold Rdiv; ring | cases; ring]).
  - rewrite !cpow2. replace (w * w + v * v) with (v * v + w * w) by ring. reflexivity.
  - rewrite Rmax_left by exact M. f_equal. ring.
  - destruct (Rlt_dec w v); [rewrite Rabs_pos_eq by lra | rewrite Rabs_left1 by lra]; cases; ring.
  - replace (w + -1) with (w - 1) by ring. reflexivity.
Qed.
Lemma agree1 f dy x0 x1 env : f <> BcAdd2 -> (forall m, f <> BinaryCrossEntropy m) ->
  exists r, value (bk1 f dy (arg0 f x0) (arg1 f x1)) env = Some r /\
  (meets2 f (eval x0 env) (eval x1 env) -> r = bwd1 f (eval dy env) (eval x0 env) (eval x1 env) (fwd2 f (eval x0 env) (eval x1 env))).
Proof.
  intros NM NB. set (v := eval x0 env). set (w := eval x1 env).
  destruct f; try congruence; try (exfalso; eapply NB; reflexivity); (eexists; split; [reflexivity |]; intros M; cbn [meets2] in M; unfold num, eps_graph, huber_graph; ev; fold v; fold w; cbn [bwd1]; unfold num; halves).
  all: try (rewrite ?cpow2; solve [ring | unfold Rdiv; ring | cases; ring]).
  - rewrite !cpow2. replace (w * w + v * v) with (v * v + w * w) by ring. unfold Rdiv. ring.
  - destruct (Rlt_dec w v); [rewrite Rabs_pos_eq by lra | rewrite Rabs_left1 by lra]; cases; ring.
Qed.
