(** Graphs of gradients have gradients, of one order less; and so do graphs at numbers nearby. *)
From Coq Require Import Reals Ratan ZArith Bool List Lra Lia Psatz.
From Verif Require Import ActModel ActSpec ActProofs1 ActProofs2 BfModel BfSpec BfProofs1 BfProofs2 BfProofs3.
Import ListNotations.
Local Open Scope R_scope.

(** * Lower orders *)
Lemma domain_defined f x : domain f x -> defined f x.
Proof.
  destruct f; cbn [domain defined]; try tauto; try lra.
  - intros [P | (n & -> & Hn)]; [left; exact P |]. destruct (Req_EM_T x 0) as [-> | N]; [| right; right; split; [exact N | exists n; reflexivity]].
    right. left. split; [reflexivity |]. destruct Hn as [Hn | Hn]; [contradiction |]. apply IZR_le. lia.
  - intros H. left. exact H.
Qed.
Lemma domain_defined2 f x y : domain2 f x y -> defined2 f x y.
Proof. destruct f; cbn [domain2 defined2]; try tauto. intros H. left. exact H. Qed.
Lemma smooth_less m f x : smooth (S m) f x -> smooth m f x.
Proof.
  intros (D & K & Q). destruct m as [| m]; [apply domain_defined, D |]. split; [exact D |]. split; [exact K |].
  destruct f; cbn [reach] in *; try exact I; try (intros Z; specialize (Q Z); lia). intros Z. specialize (Q Z). rewrite S_INR in Q. lra.
Qed.
Lemma smooth2_less m f x y : smooth2 (S m) f x y -> smooth2 m f x y.
Proof.
  intros (D & K). destruct m as [| m]; [apply domain_defined2, D |]. split; [exact D |].
  destruct f; try exact K; try exact I.
  - intros Z. specialize (K Z). lia.
  - destruct K as (K1 & K2). split; [exact K1 |]. intros Z. specialize (K2 Z). lia.
  - destruct K as (K1 & K2). split; [exact K1 |]. intros Z. specialize (K2 Z). lia.
Qed.
Lemma regular_less m e env : regular (S m) e env -> regular m e env.
Proof.
  induction e as [j | c | f a IHa | f a IHa b IHb | a IHa b IHb | c a IHa b IHb | a IHa | c IHc a IHa b IHb]; cbn [regular]; try tauto.
  - intros (A & B). split; [auto | apply smooth_less, B].
  - intros (A & B & C & D). split; [auto |]. split; [auto |]. split; [apply smooth2_less, C |]. destruct D as [D | D]; [discriminate | auto].
  - intros (A & B & C). split; [auto |]. split; [auto |]. destruct C as [C | C]; [discriminate | auto].
  - intros (A & B). split; [auto |]. destruct B as [B | B]; [discriminate | auto].
  - intros (A & B & C & D). split; [auto |]. split; [destruct B as [B | B]; [discriminate | auto] |]. destruct m; [destruct (Req_EM_T (eval c env) 0) |]; auto.
Qed.
Lemma regular_to_one m e env : regular (S m) e env -> regular 1 e env.
Proof. induction m as [| m IH]; intros H; [exact H |]. apply IH, regular_less, H. Qed.

(** * Functions in graphs of gradients *)
Definition always (f : act) : bool :=
  match f with AddScalar _ | Cos | Cosh | Exp | LogSigmoid | MulScalar _ | RSubScalar _ | Sigmoid | Sin | Sinh | Swish => true | _ => false end.
Lemma always_smooth m f x : always f = true -> smooth m f x.
Proof. destruct f; cbn [always]; try discriminate; intros _; destruct m; cbn; tauto. Qed.
Definition always2 (f : act2) : bool := match f with BcAdd2 | Mul2 | SquaredError | Sub2 => true | _ => false end.
Lemma always_smooth2 m f x y : always2 f = true -> smooth2 m f x y.
Proof. destruct f; cbn [always2]; try discriminate; intros _; destruct m; cbn; tauto. Qed.
Lemma smooth_div m x y : y <> 0 -> smooth2 m Div2 x y.
Proof. intros H. destruct m; cbn; tauto. Qed.
Lemma smooth_rdiv m a x : x <> 0 -> smooth m (RDivScalar a) x.
Proof. intros H. destruct m; cbn; tauto. Qed.
Lemma smooth_rpow m a x : 0 < a -> smooth m (RPowScalar a) x.
Proof. intros H. destruct m; cbn; [left; exact H | tauto]. Qed.
Lemma smooth_log m x : 0 < x -> smooth m Log x.
Proof. intros H. destruct m; cbn; tauto. Qed.
Lemma smooth_pow2 m x y : 0 < x -> smooth2 m Pow2 x y.
Proof. intros H. destruct m; cbn; [left; exact H | tauto]. Qed.
Lemma smooth_abs m x : (x = 0 -> m = O) -> smooth m Abs x.
Proof. intros H. destruct m; cbn; [exact I |]. split; [exact I |]. split; [intros E; specialize (H E); discriminate | exact I]. Qed.
Lemma smooth_tanh m x : (x = 0 -> (m <= 3)%nat) -> smooth m Tanh x.
Proof. intros H. destruct m; cbn; tauto. Qed.
Lemma smooth_pow_pos m a x : 0 < x -> smooth m (PowScalar a) x.
Proof. intros H. destruct m; cbn; [left; exact H |]. split; [left; exact H |]. split; [tauto | lra]. Qed.
Lemma smooth_pow_ne m n x : x <> 0 -> smooth m (PowScalar (IZR n)) x.
Proof. intros H. destruct m; cbn; [right; right; split; [exact H | exists n; reflexivity] |]. split; [right; exists n; split; [reflexivity | left; exact H] |]. split; [tauto | intros E; contradiction]. Qed.
Lemma smooth_pow_int m n x : (x = 0 -> (Z.of_nat m <= n)%Z) -> smooth m (PowScalar (IZR n)) x.
Proof.
  intros H. destruct (Req_EM_T x 0) as [-> | N]; [| apply smooth_pow_ne, N]. specialize (H eq_refl). destruct m as [| m].
  - right. left. split; [reflexivity | apply IZR_le; lia].
  - split; [right; exists n; split; [reflexivity | right; lia] |]. split; [cbn; tauto |]. cbn [reach]. intros _. rewrite INR_IZR_INZ. apply IZR_le. exact H.
Qed.
Lemma smooth_sq m x : (x = 0 -> (m <= 2)%nat) -> smooth m (PowScalar 2) x.
Proof. intros H. apply (smooth_pow_int m 2). intros E. specialize (H E). lia. Qed.
Lemma smooth_cube m x : (x = 0 -> (m <= 3)%nat) -> smooth m (PowScalar 3) x.
Proof. intros H. apply (smooth_pow_int m 3). intros E. specialize (H E). lia. Qed.
Lemma zero_or m : m = O \/ (1 <= m)%nat.
Proof. lia. Qed.
Lemma tanh_zero x : tanh x = 0 -> x = 0.
Proof.
  unfold tanh. intros H. pose proof (cosh_pos x). assert (E : sinh x = 0) by (apply (Rmult_eq_compat_r (cosh x)) in H; unfold Rdiv in H; rewrite Rmult_assoc, Rinv_l, Rmult_1_r, Rmult_0_l in H; lra).
  unfold sinh in E. assert (F : exp x = exp (- x)) by lra. apply exp_inv in F. lra.
Qed.
Lemma gelu_zero x : (x + x ^ 3 * (44715 / 1000000)) * sqrt (2 / PI) = 0 -> x = 0.
Proof.
  intros H. assert (P : 0 < sqrt (2 / PI)) by (apply sqrt_lt_R0; apply Rdiv_lt_0_compat; [lra | apply PI_RGT_0]). apply Rmult_integral in H. destruct H as [H | H]; [| lra].
  replace (x + x ^ 3 * (44715 / 1000000)) with (x * (1 + x * x * (44715 / 1000000))) in H by ring. apply Rmult_integral in H. destruct H as [H | H]; [exact H | nra].
Qed.
Ltac facts :=
  first [assumption | exact I | reflexivity | right; reflexivity | right; left; reflexivity
        | apply always_smooth; reflexivity | apply always_smooth2; reflexivity ].
Ltac pieces_of := ev; cbn [regular flat andb closed labelled]; repeat match goal with |- _ /\ _ => split end; try facts; ev.
Ltac bound := let Z := fresh in intros Z; first [exfalso; lra | match goal with Q : _ = _ -> _ |- _ => specialize (Q Z); lia end].
Ltac mask := match goal with |- ?m = O \/ _ => destruct (zero_or m) as [? | ?]; [left; assumption | right; left; first [lra | let Z := fresh in intros Z; match goal with Q : _ = _ -> _ |- _ => specialize (Q Z); lia end]] end.
Lemma bk_regular m f d a env g :
  regular (S m) (Un f a) env -> regular m d env -> bk f d (given (dep_x f) a) (given (dep_y f) (Un f a)) = Got g -> regular m g env.
Proof.
  intros H Hd E. pose proof (regular_less _ _ _ H) as Hl. cbn [regular] in H, Hl. destruct H as (_ & D & K & Q). destruct Hl as (Ha & Sm).
  set (v := eval a env) in *.
  destruct f; cbn [domain kink reach] in D, K, Q; cbn [bk dep_x dep_y given reading] in E; try discriminate; try (injection E as <-; pieces_of; fold v); try contradiction; halves; rewrite ?cpow2, ?cpow3.
  all: try solve [mask | apply smooth_sq; bound | apply smooth_cube; bound | apply smooth_pow_pos; nra | apply smooth_div; nra].
  - apply smooth_tanh. intros Z. apply gelu_zero in Z. specialize (Q Z). lia.
  - apply smooth_tanh. intros Z. apply gelu_zero in Z. specialize (Q Z). lia.
  - apply smooth_sq. intros Z. apply tanh_zero, gelu_zero in Z. specialize (Q Z). lia.
  - assert (Mk : forall w, eval w env = v \/ (0 <= a0 /\ w = Un (LeakyReLU a0) a) -> m = O \/ eval w env <> 0 \/ off w env /\ Con 0 = Con 0).
    { intros w Hw. destruct (zero_or m) as [Z | Z]; [left; exact Z |]. right. assert (N : v <> 0) by (intros V; specialize (Q V); lia).
      destruct Hw as [Hw | (P & ->)]; [left; rewrite Hw; exact N |]. cbn [eval fwd off]. fold v. destruct (Rlt_dec 0 v); [left; exact N |].
      destruct (Req_EM_T a0 0) as [E0 | E0]; [right; split; [split; [exact E0 | lra] | reflexivity] | left; nra]. }
    destruct (Rle_dec 0 a0) as [P | P]; cbn [given reading] in E; injection E as <-; pieces_of; try (fold v; exact Sm); try (apply (Mk a); left; reflexivity); try (apply (Mk (Un (LeakyReLU a0) a)); right; auto).
  - destruct D as [P | (n & -> & Hn)]; [apply smooth_pow_pos; exact P |]. rewrite <- minus_IZR. apply smooth_pow_int. intros Z. specialize (Q Z). rewrite INR_IZR_INZ in Q. apply le_IZR in Q. lia.
  - destruct (Rdichotomy _ _ K) as [N | P]; [right; right; split; [exact N | reflexivity] | right; left; rewrite Rmax_right by lra; lra].
  - assert (Nz : v <> 0 -> forall x, smooth2 m Div2 x v) by (intros N x; apply smooth_div; exact N). destruct m as [| m].
    + destruct (Req_EM_T v 0) as [Z | Z]; destruct (Req_EM_T _ 0) as [Y | Y]; try exact I; try lra. pieces_of; apply Nz, Z.
    + assert (Z : v <> 0) by (intros Z; specialize (Q Z); lia). pieces_of; apply Nz, Z.
  - apply smooth_abs. intros Z. specialize (Q Z). lia.
  - apply smooth_pow_pos. pose proof (Rabs_pos v). lra.
  - apply smooth_rdiv. pose proof (Rabs_pos v). nra.
  - apply (smooth_pow_ne m (-2)). exact D.
  - apply smooth_sq. intros Z. apply tanh_zero in Z. specialize (Q Z). lia.
  - apply smooth_sq. intros Z. apply tanh_zero in Z. specialize (Q Z). lia.
Qed.

Lemma eps_regular m c a b env : regular m a env -> regular m b env -> (m = O \/ (eval a env <> eval b env /\ Rabs (eval a env - eval b env) <> c)) -> regular m (eps_graph c a b) env.
Proof.
  intros A B M. unfold eps_graph. pieces_of; try (apply smooth_abs; intros Z; destruct M as [M | (M & _)]; [exact M | exfalso; apply M; lra]); try tauto.
Qed.
Lemma huber_regular m c a b env : regular m a env -> regular m b env -> (m = O \/ (eval a env <> eval b env /\ Rabs (eval a env - eval b env) <> c)) -> regular m (huber_graph c a b) env.
Proof.
  intros A B M. unfold huber_graph. pieces_of; try (apply smooth_abs; intros Z; destruct M as [M | (M & _)]; [exact M | exfalso; apply M; lra]); try tauto.
Qed.
Lemma loss_mask m (x y c : R) : (x = y -> (S m <= 1)%nat) -> (Rabs (x - y) = c -> (S m <= 1)%nat) -> m = O \/ (x <> y /\ Rabs (x - y) <> c).
Proof. intros A B. destruct (zero_or m) as [Z | Z]; [left; exact Z |]. right. split; intros E; [specialize (A E) | specialize (B E)]; lia. Qed.
Lemma bk0_regular m f d a b env g :
  regular (S m) (Bi f a b) env -> regular m d env -> bk0 f d (arg0 f a) (arg1 f b) = Got g -> regular m g env.
Proof.
  intros H Hd E. pose proof (regular_less _ _ _ H) as Hl. cbn [regular] in H, Hl. destruct H as (_ & _ & (D & K) & Lb). destruct Hl as (Ha & Hb & Sm & _).
  set (v := eval a env) in *. set (w := eval b env) in *.
  destruct f; cbn [domain2] in D; cbn in E; try discriminate; injection E as <-; pieces_of; fold v; fold w; halves; rewrite ?cpow2.
  all: try solve [mask | apply smooth_div; nra | apply smooth_pow2; assumption | apply smooth_div; assumption].
  - apply smooth_sq. intros Z. assert (S m <= 3)%nat by (apply K; auto). lia.
  - apply smooth_sq. intros Z. assert (S m <= 3)%nat by (apply K; auto). lia.
  - destruct K as (K1 & K2). apply eps_regular; [exact Ha | exact Hb |]. apply loss_mask; [exact K2 | intros Z; contradiction].
  - destruct K as (K1 & K2). apply huber_regular; [exact Ha | exact Hb |]. apply loss_mask; intros Z; apply K2; auto.
Qed.
Lemma bk1_regular m f d a b env g :
  regular (S m) (Bi f a b) env -> regular m d env -> bk1 f d (arg0 f a) (arg1 f b) = Got g -> regular m g env.
Proof.
  intros H Hd E. pose proof (regular_less _ _ _ H) as Hl. cbn [regular] in H, Hl. destruct H as (_ & _ & (D & K) & Lb). destruct Hl as (Ha & Hb & Sm & _).
  set (v := eval a env) in *. set (w := eval b env) in *.
  destruct f; cbn [domain2] in D; cbn in E; try discriminate; injection E as <-; pieces_of; fold v; fold w; halves; rewrite ?cpow2.
  all: try solve [mask | apply smooth_div; nra | apply smooth_pow2; assumption | apply smooth_log; assumption | apply (smooth_pow_ne m 2); assumption].
  - apply smooth_sq. intros Z. assert (S m <= 3)%nat by (apply K; auto). lia.
  - apply smooth_sq. intros Z. assert (S m <= 3)%nat by (apply K; auto). lia.
  - destruct K as (K1 & K2). apply eps_regular; [exact Ha | exact Hb |]. apply loss_mask; [exact K2 | intros Z; contradiction].
  - destruct K as (K1 & K2). apply huber_regular; [exact Ha | exact Hb |]. apply loss_mask; intros Z; apply K2; auto.
Qed.

(** * The graph of a gradient *)
Lemma back_regular m e k env : regular (S m) e env -> forall d g, regular m d env -> back e d k = Got g -> regular m g env.
Proof.
  assert (J : forall r s g, (forall x, r = Got x -> regular m x env) -> (forall x, s = Got x -> regular m x env) -> join r s = Got g -> regular m g env).
  { intros r s g A B. destruct r as [| | x], s as [| | y]; cbn [join]; intros E; try discriminate; injection E as <-; auto. cbn [regular]. auto. }
  assert (Ps : forall r h g, (forall x, r = Got x -> forall y, h x = Got y -> regular m y env) -> pass r h = Got g -> regular m g env).
  { intros r h g A E. destruct r; cbn [pass] in E; try discriminate. eapply A; [reflexivity | exact E]. }
  induction e as [j | c | f a IHa | f a IHa b IHb | a IHa b IHb | c a IHa b IHb | a IHa | c IHc a IHa b IHb]; intros H d g Hd E; cbn [back] in E;
    match type of E with (if ?t then _ else _) = _ => destruct t; [| discriminate] end; try discriminate.
  - injection E as <-. exact Hd.
  - pose proof H as H'. cbn [regular] in H'. destruct H' as (Ha & _). revert E. apply Ps. intros x Ex y. apply (IHa Ha). exact (bk_regular _ _ _ _ _ _ H Hd Ex).
  - pose proof H as H'. cbn [regular] in H'. destruct H' as (Ha & Hb & _). revert E. apply J; intros g'; apply Ps; intros x Ex y; [apply (IHa Ha) | apply (IHb Hb)]; [exact (bk0_regular _ _ _ _ _ _ _ H Hd Ex) | exact (bk1_regular _ _ _ _ _ _ _ H Hd Ex)].
  - cbn [regular] in H. destruct H as (Ha & Hb). revert E. apply J; intros g' E; [exact (IHa Ha _ _ Hd E) | exact (IHb Hb _ _ Hd E)].
  - pose proof (regular_less _ _ _ H) as Hl. cbn [regular] in H, Hl. destruct H as (Hc & St & Ha & Hb). destruct Hl as (Hc' & _ & _). destruct St as [St | St]; [discriminate |].
    assert (W : regular m (Where c (Con 1) (Con 0)) env) by (cbn [regular]; split; [exact Hc' |]; split; [auto |]; destruct m; [destruct (Req_EM_T _ _) |]; auto).
    assert (Fl : flat (Where c (Con 1) (Con 0)) = true) by (cbn [flat]; rewrite St; reflexivity).
    revert E. apply J; intros g' E.
    + refine (IHa Ha _ _ _ E). unfold times. cbn [regular]. cbn [regular] in W. split; [exact Hd |]. split; [split; [exact W | auto] |]. split; [apply always_smooth2; reflexivity | auto].
    + refine (IHb Hb _ _ _ E). unfold times, rsub. cbn [regular]. cbn [regular] in W. split; [exact Hd |]. split; [split; [split; [exact W | apply always_smooth; reflexivity] | auto] |]. split; [apply always_smooth2; reflexivity | auto].
Qed.
Lemma grad_regular m e k env g : regular (S m) e env -> grad e k = Some g -> regular m g env.
Proof.
  intros H E. unfold grad in E. destruct e; try discriminate; (destruct (back _ (Con 1) k) as [| | x] eqn:B; [discriminate | injection E as <-; exact I | injection E as <-; exact (back_regular m _ k env H (Con 1) x I B)]).
Qed.
