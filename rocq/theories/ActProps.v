(** C70, C71, C72: what the elementwise functions compute, that their gradients are derivatives,
    and that the declared dependencies of the gradients are right. *)
From Coq Require Import Reals Ratan ZArith Bool Lra Lia Psatz.
From Verif Require Import ActSpec ActModel ActProofs1 ActProofs2 ActProofs3 ActProofs4.
Local Open Scope R_scope.

(** * C70: functions of one number *)
(** ** Values *)
Definition clip (lo hi x : R) : R := Rmax lo (Rmin hi x).
Theorem C70_values x :
  fwd HardSigmoid x = clip 0 1 (x / 5 + 1 / 2) /\ fwd HardTanh x = clip (-1) 1 x /\ fwd ReLU6 x = clip 0 6 x /\
  fwd ReLU x = Rmax x 0 /\ (forall a, fwd (MaximumScalar a) x = Rmax x a) /\ (forall a, fwd (MinimumScalar a) x = Rmin x a) /\
  (forall a, a <= 1 -> fwd (LeakyReLU a) x = Rmax x (a * x)) /\
  (forall a, fwd (ELU a) x = Rmax x 0 + a * (exp (Rmin x 0) - 1)) /\
  (forall s a, fwd (SELU s a) x = s * fwd (ELU a) x) /\
  fwd Sigmoid x = exp x / (exp x + 1) /\
  fwd LogSigmoid x = ln (fwd Sigmoid x) /\
  (forall a, a <> 0 -> fwd (SoftPlus a) x = ln (exp (a * x) + 1) / a) /\
  fwd Swish x = x * fwd Sigmoid x /\ fwd Mish x = x * tanh (fwd (SoftPlus 1) x) /\
  fwd TanhShrink x = x - fwd Tanh x /\ fwd Tanh x = 2 * fwd Sigmoid (2 * x) - 1 /\
  fwd Abs x = Rmax x (- x) /\ fwd (PowScalar (1 / 2)) x = sqrt x /\ (forall n : nat, fwd (PowScalar (IZR (Z.of_nat n))) x = x ^ n) /\
  fwd (Sign 0) x * Rabs x = x /\ (forall a, fwd (Sign a) 0 = a) /\
  fwd BinaryTanh x = 2 * fwd BinarySigmoid x - 1 /\ (0 < x -> fwd BinarySigmoid x = 1) /\ (x <= 0 -> fwd BinarySigmoid x = 0).
Proof.
  assert (Ex : forall u, 0 < exp u) by exact exp_pos. assert (Hs : fwd Sigmoid x = exp x / (exp x + 1)).
  { cbn [fwd]. pose proof (Ex x). rewrite exp_Ropp. field. split; lra. }
  split. { cbn [fwd]. unfold clip, Rmax, Rmin. repeat destruct (Rle_dec _ _); cases; lra. }
  split. { cbn [fwd]. unfold clip, Rmax, Rmin. repeat destruct (Rle_dec _ _); cases; lra. }
  split. { cbn [fwd]. unfold clip, Rmax, Rmin. repeat destruct (Rle_dec _ _); lra. }
  split. { cbn [fwd]. apply Rmax_comm. }
  split. { intros a. cbn [fwd]. unfold Rmax. destruct (Rle_dec x a), (Rlt_dec a x); lra. }
  split. { intros a. cbn [fwd]. unfold Rmin. destruct (Rle_dec x a), (Rlt_dec x a); lra. }
  split. { intros a A. cbn [fwd]. unfold Rmax. destruct (Rle_dec x (a * x)), (Rlt_dec 0 x); nra. }
  split. { intros a. cbn [fwd]. unfold Rmax, Rmin. destruct (Rle_dec 0 x), (Rle_dec x 0); try lra; try (assert (x = 0) by lra; subst x); rewrite ?exp_0; ring. }
  split. { intros s a. cbn [fwd]. destruct (Rlt_dec 0 x), (Rle_dec 0 x); try lra; try (assert (x = 0) by lra; subst x); rewrite ?exp_0; ring. }
  split; [exact Hs |].
  assert (Hl : fwd LogSigmoid x = ln (fwd Sigmoid x)).
  { rewrite Hs. pose proof (Ex x) as P. unfold Rdiv. rewrite ln_mult, ln_Rinv, ln_exp by (try apply Rinv_0_lt_compat; lra). cbn [fwd]. destruct (Rlt_dec 0 x); [| ring].
    rewrite exp_Ropp. replace (/ exp x + 1) with ((exp x + 1) * / exp x) by (field; lra). rewrite ln_mult, ln_Rinv, ln_exp by (try apply Rinv_0_lt_compat; lra). ring. }
  split; [exact Hl |].
  assert (Hp : forall a, a <> 0 -> fwd (SoftPlus a) x = ln (exp (a * x) + 1) / a).
  { intros a A. cbn [fwd]. destruct (Rlt_dec 0 x); [| rewrite (Rmult_comm a x); reflexivity]. pose proof (Ex (a * x)) as P.
    replace (- x * a) with (- (a * x)) by ring. rewrite exp_Ropp. replace (/ exp (a * x) + 1) with ((exp (a * x) + 1) * / exp (a * x)) by (field; lra). rewrite ln_mult, ln_Rinv, ln_exp by (try apply Rinv_0_lt_compat; lra). field. exact A. }
  split; [exact Hp |].
  split. { cbn [fwd]. field. pose proof (Ex (- x)). lra. }
  split. { rewrite Hp by lra. cbn [fwd]. rewrite Rmult_1_l. unfold Rdiv. rewrite Rinv_1, Rmult_1_r. reflexivity. }
  split; [reflexivity |].
  split. { cbn [fwd]. unfold tanh, sinh, cosh. replace (- (2 * x)) with (- x + - x) by ring. rewrite exp_plus, exp_Ropp. pose proof (Ex x). field. split; nra. }
  split. { cbn [fwd]. unfold Rabs, Rmax. destruct (Rcase_abs x), (Rle_dec x (- x)); lra. }
  split. { cbn [fwd]. destruct (Req_EM_T (1 / 2) (1 / 2)); [reflexivity | contradiction]. }
  split. { intros n. cbn [fwd]. destruct (Req_EM_T (IZR (Z.of_nat n)) (1 / 2)) as [E | _].
    - exfalso. assert (IZR (2 * Z.of_nat n) = IZR 1) by (rewrite mult_IZR; lra). apply eq_IZR in H. lia.
    - destruct (Req_EM_T x 0) as [-> | N].
      + unfold cpow. destruct (Rlt_dec 0 0) as [L | _]; [lra |]. rewrite Int_part_IZR. destruct (Req_EM_T (IZR (Z.of_nat n)) (IZR (Z.of_nat n))); [| contradiction]. rewrite <- pow_powerRZ. reflexivity.
      + rewrite cpow_int by exact N. rewrite <- pow_powerRZ. reflexivity. }
  split. { cbn [fwd]. unfold Rabs. destruct (Rcase_abs x); cases; lra. }
  split. { intros a. cbn [fwd]. cases. reflexivity. }
  split. { cbn [fwd]. destruct (Rlt_dec 0 x); ring. }
  split; intros; cbn [fwd]; cases; reflexivity.
Qed.
(** The inverse functions are inverse to the functions, on the right branch. *)
Theorem C70_inverse x :
  (-1 <= x <= 1 -> sin (fwd ASin x) = x /\ cos (fwd ACos x) = x) /\
  tan (fwd ATan x) = x /\ sinh (fwd ASinh x) = x /\
  (1 <= x -> cosh (fwd ACosh x) = x /\ 0 <= fwd ACosh x) /\ (-1 < x < 1 -> tanh (fwd ATanh x) = x) /\
  (0 < x -> exp (fwd Log x) = x) /\
  - (PI / 2) <= fwd ASin x <= PI / 2 /\ 0 <= fwd ACos x <= PI /\ - (PI / 2) < fwd ATan x < PI / 2.
Proof.
  cbn [fwd]. split; [intros H; split; [apply sin_asin | apply cos_acos]; exact H |]. split; [apply tan_atan |]. split; [apply sinh_arcsinh |].
  split.
  { intros H. unfold cacosh. assert (S0 : 0 <= sqrt (x * x - 1)) by apply sqrt_pos. assert (SS : sqrt (x * x - 1) * sqrt (x * x - 1) = x * x - 1) by (apply sqrt_sqrt; nra).
    split.
    - unfold cosh. rewrite exp_Ropp, exp_ln by lra. set (s := sqrt (x * x - 1)) in *. replace (/ (x + s)) with (x - s); [field |]. apply (Rmult_eq_reg_r (x + s)); [| lra]. rewrite Rinv_l by lra. nra.
    - destruct (Req_EM_T (x + sqrt (x * x - 1)) 1) as [-> | N]; [rewrite ln_1; lra |]. left. rewrite <- ln_1. apply ln_increasing; lra. }
  split.
  { intros H. unfold catanh. set (y := (1 + x) / (1 - x)). assert (Y : 0 < y) by (apply Rdiv_lt_0_compat; lra).
    unfold tanh, sinh, cosh. set (u := 1 / 2 * ln y). assert (U : exp u * exp u = y) by (rewrite <- exp_plus; unfold u; replace (1 / 2 * ln y + 1 / 2 * ln y) with (ln y) by field; apply exp_ln; exact Y).
    rewrite exp_Ropp. pose proof (exp_pos u) as P. replace ((exp u - / exp u) / 2 / ((exp u + / exp u) / 2)) with ((exp u * exp u - 1) / (exp u * exp u + 1)) by (field; split; nra). rewrite U. unfold y. field. split; lra. }
  split; [intros H; apply exp_ln; exact H |]. split; [apply asin_bound |]. split; [apply acos_bound |]. pose proof (atan_bound x). lra.
Qed.
(** Rounding down, up, and to the nearest integer, with halves away from zero. *)
Lemma floor_bounds x : cfloor x <= x < cfloor x + 1.
Proof. unfold cfloor. destruct (base_Int_part x). lra. Qed.
Theorem C70_rounding x :
  (exists n, fwd Floor x = IZR n /\ IZR n <= x < IZR n + 1) /\
  (exists n, fwd Ceil x = IZR n /\ IZR n - 1 < x <= IZR n) /\
  (exists n, fwd Round x = IZR n /\ Rabs (IZR n - x) <= 1 / 2 /\ (Rabs (IZR n - x) = 1 / 2 -> Rabs x < Rabs (IZR n))).
Proof.
  cbn [fwd]. split; [exists (Int_part x); split; [reflexivity | apply floor_bounds] |].
  split. { exists (- Int_part (- x))%Z. unfold cceil. pose proof (floor_bounds (- x)) as B. unfold cfloor in *. rewrite opp_IZR. split; [reflexivity | lra]. }
  unfold cround. destruct (Rle_dec 0 x) as [P | N].
  - exists (Int_part (x + 1 / 2)). pose proof (floor_bounds (x + 1 / 2)) as B. unfold cfloor in *. split; [reflexivity |]. set (n := IZR (Int_part (x + 1 / 2))) in *. split; [apply Rabs_le; lra |].
    intros E. assert (n = x + 1 / 2) by (revert E; unfold Rabs; destruct (Rcase_abs (n - x)); lra). rewrite (Rabs_pos_eq x), (Rabs_pos_eq n) by lra. lra.
  - exists (- Int_part (- (x - 1 / 2)))%Z. unfold cceil. pose proof (floor_bounds (- (x - 1 / 2))) as B. unfold cfloor in *. rewrite opp_IZR. split; [reflexivity |]. set (n := IZR (Int_part (- (x - 1 / 2)))) in *. split; [apply Rabs_le; lra |].
    intros E. assert (- n = x - 1 / 2) by (revert E; unfold Rabs; destruct (Rcase_abs (- n - x)); lra). rewrite (Rabs_left x), (Rabs_left (- n)) by lra. lra.
Qed.
Example C70_rounding_1 : fwd Round (5 / 2) = 3 /\ fwd Round (-5 / 2) = -3 /\ fwd Floor (-5 / 2) = -3 /\ fwd Ceil (-5 / 2) = -2.
Proof.
  destruct (C70_rounding (5 / 2)) as (_ & _ & n & -> & A & B). destruct (C70_rounding (-5 / 2)) as ((f & -> & F) & (c & -> & Cc) & r & -> & D & E).
  assert (forall a b, IZR a - 1 < b -> b < IZR a + 1 -> forall z, b = IZR z -> IZR a = b) as U.
  { intros a b L H z ->. f_equal. assert (IZR (a - 1) < IZR z) by (rewrite minus_IZR; exact L). assert (IZR z < IZR (a + 1)) by (rewrite plus_IZR; exact H). apply lt_IZR in H0, H1. lia. }
  assert (N : n = 2%Z \/ n = 3%Z). { assert (IZR 1 < IZR n) by (revert A; unfold Rabs; destruct (Rcase_abs _); lra). assert (IZR n < IZR 4) by (revert A; unfold Rabs; destruct (Rcase_abs _); lra). apply lt_IZR in H, H0. lia. }
  assert (Q : r = (-2)%Z \/ r = (-3)%Z). { assert (IZR (-4) < IZR r) by (revert D; unfold Rabs; destruct (Rcase_abs _); lra). assert (IZR r < IZR (-1)) by (revert D; unfold Rabs; destruct (Rcase_abs _); lra). apply lt_IZR in H, H0. lia. }
  split; [| split; [| split]].
  - destruct N as [-> | ->]; [| reflexivity]. exfalso. assert (Rabs (5 / 2) < Rabs 2) by (apply B; rewrite Rabs_left; lra). rewrite !Rabs_pos_eq in H by lra. lra.
  - destruct Q as [-> | ->]; [| reflexivity]. exfalso. assert (Rabs (-5 / 2) < Rabs (-2)) by (apply E; rewrite Rabs_pos_eq; lra). rewrite !Rabs_left in H by lra. lra.
  - apply (U f (-3)) with (z := (-3)%Z); [lra | lra | reflexivity].
  - apply (U c (-2)) with (z := (-2)%Z); [lra | lra | reflexivity].
Qed.

(** ** Gradients *)
(** Where there is a derivative, the gradient is the derivative times the gradient of the output. *)
Theorem C70_derivative f x :
  domain f x -> ~ kink f x ->
  exists g, derivable_pt_lim (fwd f) x g /\ forall dy, bwd f dy x (fwd f x) = dy * g.
Proof. apply good_all. Qed.
Lemma EM_or (a b c d : R) : {a = b} + {a <> b} -> {c = d} + {c <> d} -> (a = b \/ c = d) \/ ~ (a = b \/ c = d).
Proof. tauto. Qed.
Lemma EM_and (a b c d : R) : {a = b} + {a <> b} -> {c = d} + {c <> d} -> (a = b /\ c <> d) \/ ~ (a = b /\ c <> d).
Proof. tauto. Qed.
(** Where there is none, the gradient lies between the slopes from both sides. *)
Theorem C70_slope f x :
  domain f x -> exists g, slope (fwd f) x g /\ forall dy, bwd f dy x (fwd f x) = dy * g.
Proof.
  intros D. assert (K : kink f x \/ ~ kink f x).
  { destruct f; cbn [kink]; try (right; tauto); try (apply (EM_or (Req_EM_T _ _) (Req_EM_T _ _))); try (apply (EM_and (Req_EM_T _ _) (Req_EM_T _ _))); try (destruct (Req_EM_T x 0); tauto); destruct (Req_EM_T x a); tauto. }
  destruct K as [K | K]; [apply fair_all; assumption |]. destruct (good_all f x D K) as (g & G & B). exists g. split; [apply slope_lim; exact G | exact B].
Qed.
(** There is only one such number where there is a derivative. *)
Theorem C70_unique f x g d : slope f x g -> derivable_pt_lim f x d -> g = d.
Proof. apply slope_derivative. Qed.
(** Functions with steps get the gradient of the function they stand for: the identity, or a
    function with its ends cut off. *)
Theorem C70_straight dy x y :
  bwd Ceil dy x y = dy /\ bwd Floor dy x y = dy /\ bwd Round dy x y = dy /\ (forall a, bwd (Sign a) dy x y = dy) /\
  (exists g, slope (clip (-1) 1) x g /\ bwd BinaryTanh dy x y = dy * g) /\
  (exists g, slope (fun u => (clip (-1) 1 u + 1) / 2) x g /\ bwd BinarySigmoid dy x y = dy * g).
Proof.
  split; [reflexivity |]. split; [reflexivity |]. split; [reflexivity |]. split; [reflexivity |].
  assert (HiD : forall u, 1 <= u -> clip (-1) 1 u = 1) by (intros u H; unfold clip, Rmax, Rmin; repeat destruct (Rle_dec _ _); lra).
  assert (LoD : forall u, u <= -1 -> clip (-1) 1 u = -1) by (intros u H; unfold clip, Rmax, Rmin; repeat destruct (Rle_dec _ _); lra).
  assert (MidD : forall u, -1 <= u <= 1 -> clip (-1) 1 u = u) by (intros u H; unfold clip, Rmax, Rmin; repeat destruct (Rle_dec _ _); lra).
  assert (M : forall k c : R, 0 <= k -> exists g, slope (fun u => (clip (-1) 1 u + c) * k) x g /\ (if Rle_dec 1 (Rabs x) then 0 else dy * k) = dy * g).
  { intros k c Kp. destruct (Rle_dec 1 (Rabs x)) as [A | A].
    - exists 0. split; [| ring]. assert (C : 1 < x \/ x = 1 \/ x = -1 \/ x < -1) by (revert A; unfold Rabs; destruct (Rcase_abs x); lra). destruct C as [C | [-> | [-> | C]]].
      + apply (slope_near _ (fun _ => (1 + c) * k)); [apply (near_above _ _ 1); [exact C |]; intros u Hu; rewrite HiD by lra; reflexivity | derive; ring].
      + apply (slope_pieces _ (fun u => (u + c) * k) (fun _ => (1 + c) * k) 1 k 0); [exists 1; split; [lra |]; intros u Hu; rewrite MidD by lra; reflexivity | apply right_always; intros u Hu; rewrite HiD by lra; reflexivity | derive; ring | derive; ring | lra].
      + apply (slope_pieces _ (fun _ => (-1 + c) * k) (fun u => (u + c) * k) (-1) 0 k); [apply left_always; intros u Hu; rewrite LoD by lra; reflexivity | exists 1; split; [lra |]; intros u Hu; rewrite MidD by lra; reflexivity | derive; ring | derive; ring | lra].
      + apply (slope_near _ (fun _ => (-1 + c) * k)); [apply (near_below _ _ (-1)); [exact C |]; intros u Hu; rewrite LoD by lra; reflexivity | derive; ring].
    - exists k. split; [| ring]. assert (C : -1 < x < 1) by (revert A; unfold Rabs; destruct (Rcase_abs x); lra).
      apply (slope_near _ (fun u => (u + c) * k)); [apply (near_between _ _ (-1) 1); [exact C |]; intros u Hu; rewrite MidD by lra; reflexivity | derive; ring]. }
  split.
  - destruct (M 1 0 ltac:(lra)) as (g & S & B). exists g. split; [eapply slope_ext; [| exact S]; intros u; cbv beta; ring |]. rewrite <- B. cbn [bwd]. destruct (Rle_dec 1 (Rabs x)); ring.
  - destruct (M (1 / 2) 1 ltac:(lra)) as (g & S & B). exists g. split; [eapply slope_ext; [| exact S]; intros u; cbv beta; field |]. rewrite <- B. cbn [bwd]. reflexivity.
Qed.
Example C70_derivative_1 dy : bwd Tanh dy 0 (fwd Tanh 0) = dy /\ bwd Sigmoid dy 0 (fwd Sigmoid 0) = dy / 4 /\ bwd (PowScalar 3) dy 2 (fwd (PowScalar 3) 2) = 12 * dy.
Proof.
  split; [| split].
  - cbn [bwd fwd]. unfold tanh. rewrite sinh_0. unfold Rdiv. rewrite Rmult_0_l. ring.
  - cbn [bwd fwd]. rewrite Ropp_0, exp_0. field.
  - destruct (C70_derivative (PowScalar 3) 2) as (g & G & B); [left; lra | intros [] |]. rewrite B. assert (g = 12); [| subst g; ring].
    eapply (uniqueness_limite (fwd (PowScalar 3)) 2); [exact G |]. apply (near_ext _ (fun u => u ^ 3)); [intros u; exact (proj1 (proj2 (proj2 (proj2 (proj2 (proj2 (proj2 (proj2 (proj2 (proj2 (proj2 (proj2 (proj2 (proj2 (proj2 (proj2 (proj2 (proj2 (proj2 (C70_values u))))))))))))))))))) 3%nat) |].
    derive. cbn [pow]. cbn [INR Nat.pred pow]. ring.
Qed.
Example C70_slope_1 : exists g, slope (fwd ReLU) 0 g /\ forall dy, bwd ReLU dy 0 (fwd ReLU 0) = dy * g.
Proof. apply C70_slope. exact I. Qed.
(** The step functions have no slopes that the gradient lies between. *)
Example C70_straight_1 : bwd Round 1 0 (fwd Round 0) = 1 /\ slope (fwd Round) 0 0.
Proof.
  split; [reflexivity |]. apply (slope_near _ (fun _ => 0)); [| derive; ring]. apply (near_between _ _ (-1 / 2) (1 / 2)); [lra |]. intros u Hu.
  destruct (C70_rounding u) as (_ & _ & n & -> & A & B). f_equal. assert (IZR (-2) < IZR n /\ IZR n < IZR 2) as (L & H) by (revert A; unfold Rabs; destruct (Rcase_abs _); lra). apply lt_IZR in L, H.
  assert (Cs : n = (-1)%Z \/ n = 0%Z \/ n = 1%Z) by lia. destruct Cs as [-> | [-> | ->]]; [| reflexivity |]; exfalso; revert A; unfold Rabs; destruct (Rcase_abs _); lra.
Qed.

(** * C71: the declared dependencies *)
Theorem C71_unary f dy x y x' y' :
  (dep_y f = false -> bwd f dy x y = bwd f dy x y') /\ (dep_x f = false -> bwd f dy x y = bwd f dy x' y).
Proof.
  split; destruct f; cbn [dep_y dep_x bwd]; intros H; try discriminate; try reflexivity; destruct (Rle_dec 0 a); try discriminate; reflexivity.
Qed.
Theorem C71_binary f dy x0 x1 y x0' x1' y' :
  (dep_y2 f false = false -> bwd0 f dy x0 x1 y = bwd0 f dy x0 x1 y') /\ (dep_y2 f true = false -> bwd1 f dy x0 x1 y = bwd1 f dy x0 x1 y') /\
  (dep_x2 f false false = false -> bwd0 f dy x0 x1 y = bwd0 f dy x0' x1 y) /\ (dep_x2 f false true = false -> bwd0 f dy x0 x1 y = bwd0 f dy x0 x1' y) /\
  (dep_x2 f true false = false -> bwd1 f dy x0 x1 y = bwd1 f dy x0' x1 y) /\ (dep_x2 f true true = false -> bwd1 f dy x0 x1 y = bwd1 f dy x0 x1' y).
Proof. destruct f; cbn [dep_y2 dep_x2 bwd0 bwd1 negb orb]; repeat split; intros H; try discriminate; reflexivity. Qed.
(** Flags that are set and needed, and one that is not needed. *)
Example C71_1 : dep_y ReLU = true /\ bwd ReLU 1 0 1 <> bwd ReLU 1 0 0 /\ dep_x (LeakyReLU (-1)) = true /\ bwd (LeakyReLU (-1)) 1 1 0 <> bwd (LeakyReLU (-1)) 1 (-1) 0 /\
  dep_y GELU = true /\ forall dy x y y', bwd GELU dy x y = bwd GELU dy x y'.
Proof.
  split; [reflexivity |]. split; [cbn [bwd]; cases; lra |]. split; [cbn [dep_x]; cases; reflexivity |]. split; [cbn [bwd]; cases; lra |]. split; reflexivity.
Qed.

(** * C72: functions of two numbers *)
Theorem C72_values x0 x1 :
  fwd2 Maximum2 x0 x1 = Rmax x0 x1 /\ fwd2 Minimum2 x0 x1 = Rmin x0 x1 /\
  (forall a, 0 <= a -> fwd2 (EpsilonInsensitiveLoss a) x0 x1 = Rmax 0 (Rabs (x0 - x1) - a)) /\
  (forall a, 0 <= a -> Rabs (x0 - x1) <= a -> fwd2 (HuberLoss a) x0 x1 = (x0 - x1) ^ 2) /\
  (forall a, 0 <= a -> a <= Rabs (x0 - x1) -> fwd2 (HuberLoss a) x0 x1 = a ^ 2 + 2 * a * (Rabs (x0 - x1) - a)) /\
  (forall m, 0 < m -> m <= x0 <= 1 - m -> fwd2 (BinaryCrossEntropy m) x0 x1 = - (x1 * ln x0 + (1 - x1) * ln (1 - x0))) /\
  fwd2 SigmoidCrossEntropy x0 x1 = - (x1 * ln (fwd Sigmoid x0) + (1 - x1) * ln (1 - fwd Sigmoid x0)) /\
  fwd2 SquaredError x0 x1 = (x0 - x1) ^ 2 /\ (0 < x0 -> fwd2 Pow2 x0 x1 = exp (x1 * ln x0)) /\
  fwd2 BcAdd2 x0 x1 = x0 + x1 /\ fwd2 Sub2 x0 x1 = x0 - x1 /\ fwd2 Mul2 x0 x1 = x0 * x1 /\ (x1 <> 0 -> fwd2 Div2 x0 x1 * x1 = x0) /\ (fwd2 AbsoluteError x0 x1 = Rmax x0 x1 - Rmin x0 x1).
Proof.
  split. { cbn [fwd2]. unfold Rmax. destruct (Rle_dec x0 x1); cases; lra. }
  split. { cbn [fwd2]. unfold Rmin. destruct (Rle_dec x0 x1); cases; lra. }
  split. { intros a A. cbn [fwd2]. unfold Rmax. destruct (Rle_dec 0 (Rabs (x0 - x1) - a)); cases; lra. }
  split. { intros a A B. cbn [fwd2]. cases; unfold Rabs in *; destruct (Rcase_abs (x0 - x1)); nra. }
  split. { intros a A B. cbn [fwd2]. cases; nra. }
  split. { intros m M B. cbn [fwd2]. rewrite !Rmax_left by lra. reflexivity. }
  split. { rewrite sce_plain. pose proof (exp_pos x0) as P. assert (Hs : fwd Sigmoid x0 = exp x0 * / (exp x0 + 1)) by (cbn [fwd]; rewrite exp_Ropp; field; split; lra). rewrite Hs.
    replace (1 - exp x0 * / (exp x0 + 1)) with (/ (exp x0 + 1)) by (field; lra). rewrite ln_mult, ln_Rinv, ln_exp by (try apply Rinv_0_lt_compat; lra). ring. }
  split. { cbn [fwd2]. ring. }
  split. { intros P. cbn [fwd2]. rewrite cpow_pos by exact P. reflexivity. }
  split; [reflexivity |]. split; [reflexivity |]. split; [reflexivity |]. split; [intros N; cbn [fwd2]; field; exact N |].
  cbn [fwd2]. unfold Rabs, Rmax, Rmin. destruct (Rcase_abs (x0 - x1)), (Rle_dec x0 x1); lra.
Qed.
(** The angle of a point is the angle it was placed at. *)
Theorem C72_angle r t : 0 < r -> - PI < t <= PI -> fwd2 ATan2 (r * sin t) (r * cos t) = t.
Proof.
  intros P H. cbn [fwd2]. pose proof PI_RGT_0 as PP. assert (T : forall u, cos u <> 0 -> r * sin u / (r * cos u) = tan u) by (intros u N; unfold tan; field; split; [exact N | lra]).
  unfold catan2. destruct (Rtotal_order t (- (PI / 2))) as [L | [E | L]]; [| | destruct (Rtotal_order t (PI / 2)) as [Q | [E | Q]]].
  - assert (Cn : cos t < 0) by (rewrite <- cos_neg; apply cos_lt_0; lra). assert (Sn : sin t < 0) by (replace t with (- - t) by ring; rewrite sin_neg; pose proof (sin_gt_0 (- t)); lra).
    assert (r * cos t < 0) by nra. assert (r * sin t < 0) by nra. cases. rewrite T by lra. replace (tan t) with (tan (t + PI)) by (unfold tan; rewrite neg_sin, neg_cos; field; lra). rewrite atan_tan by lra. ring.
  - subst t. rewrite sin_neg, cos_neg, sin_PI2, cos_PI2. cases. reflexivity.
  - assert (Cp : 0 < cos t) by (apply cos_gt_0; lra). assert (0 < r * cos t) by nra. cases. rewrite T by lra. apply atan_tan. lra.
  - subst t. rewrite sin_PI2, cos_PI2. cases. reflexivity.
  - assert (Cn : cos t < 0) by (apply cos_lt_0; lra). assert (Sn : 0 <= sin t) by (apply sin_ge_0; lra).
    assert (r * cos t < 0) by nra. assert (0 <= r * sin t) by nra. cases. rewrite T by lra. replace (tan t) with (tan (t - PI)) by (replace t with (t - PI + PI) at 2 by ring; unfold tan; rewrite neg_sin, neg_cos; field; replace (cos (t - PI)) with (- cos t) by (replace t with (t - PI + PI) at 1 by ring; rewrite neg_cos; ring); lra). rewrite atan_tan by lra. ring.
Qed.
(** The gradients of both inputs are slopes in that input. *)
Theorem C72_first_partial f x0 x1 :
  domain2 f x0 x1 -> exists g, slope (fun u => fwd2 f u x1) x0 g /\ forall dy, bwd0 f dy x0 x1 (fwd2 f x0 x1) = dy * g.
Proof. apply fair0. Qed.
Theorem C72_second_partial f x0 x1 :
  f <> SigmoidCrossEntropy -> domain2 f x0 x1 -> exists g, slope (fun u => fwd2 f x0 u) x1 g /\ forall dy, bwd1 f dy x0 x1 (fwd2 f x0 x1) = dy * g.
Proof. apply fair1. Qed.
Example C72_first_1 dy : bwd0 SquaredError dy 3 1 4 = 4 * dy /\ bwd1 SquaredError dy 3 1 4 = -4 * dy /\ bwd0 (HuberLoss 1) dy 3 1 3 = 2 * dy /\ fwd2 (HuberLoss 1) 3 1 = 3 /\ domain2 (BinaryCrossEntropy (1 / 100)) (1 / 2) 1.
Proof.
  cbn [bwd0 bwd1 fwd2 domain2]. assert (A : Rabs (3 - 1) = 2) by (rewrite Rabs_pos_eq; lra). rewrite A. split; [ring |]. split; [ring |]. split; [cases; ring |]. split; [cases; ring | lra].
Qed.
(** Where the probability is below the smallest number it is cut off at, or above 1 minus it, the
    gradient is not the slope: of a prediction 0 for the label 0, whose loss grows with slope 1,
    it is 0. *)
Theorem C72_cut_off_refuted : exists m x0 x1, 0 < m < 1 /\
  ~ exists g, slope (fun u => fwd2 (BinaryCrossEntropy m) u x1) x0 g /\ forall dy, bwd0 (BinaryCrossEntropy m) dy x0 x1 (fwd2 (BinaryCrossEntropy m) x0 x1) = dy * g.
Proof.
  exists (1 / 4), 0, 0. split; [lra |]. intros (g & S & B). assert (g = 1).
  { apply (slope_derivative _ _ _ _ S). apply (lim_near _ (fun u => - ln (1 - u))).
    - apply (near_between _ _ (-1) (3 / 4)); [lra |]. intros u Hu. cbn [fwd2]. rewrite (Rmax_left (1 - u)) by lra. ring.
    - derive; [lra |]. field. }
  specialize (B 1). cbn [bwd0] in B. unfold Rdiv in B. replace (1 * (0 - 0)) with 0 in B by ring. rewrite Rmult_0_l in B. lra.
Qed.
(** With a negative epsilon, which is accepted, the gradient at equal inputs is not a slope of the
    function (both inputs differ by less than its absolute value). *)
Theorem C72_negative_refuted : exists a x0 x1,
  ~ exists g, slope (fun u => fwd2 (EpsilonInsensitiveLoss a) u x1) x0 g /\ forall dy, bwd0 (EpsilonInsensitiveLoss a) dy x0 x1 (fwd2 (EpsilonInsensitiveLoss a) x0 x1) = dy * g.
Proof.
  exists (-1), (-1 / 2), 0. intros (g & S & B). assert (g = -1).
  { apply (slope_derivative _ _ _ _ S). apply (lim_near _ (fun u => - u + 1)).
    - apply (near_below _ _ 0); [lra |]. intros u Hu. cbn [fwd2]. rewrite Rabs_left by lra. cases. ring.
    - derive. ring. }
  specialize (B 1). cbn [bwd0] in B. revert B. cases. lra.
Qed.
(** The label of SigmoidCrossEntropy gets no gradient although the loss depends on it. *)
Theorem C72_label_refuted : exists x0 x1, ~ exists g, slope (fun u => fwd2 SigmoidCrossEntropy x0 u) x1 g /\ forall dy, bwd1 SigmoidCrossEntropy dy x0 x1 (fwd2 SigmoidCrossEntropy x0 x1) = dy * g.
Proof.
  exists 1, 0. intros (g & S & B). assert (g = -1).
  { apply (slope_derivative _ _ _ _ S). apply (near_ext _ (fun u => ln (exp 1 + 1) - u * 1)); [intros u; apply sce_plain |]. eapply D_eq; [apply (D_minus (fun _ => ln (exp 1 + 1)) (fun u => u * 1)); [apply D_const | dlim] |]. cbv beta. ring. }
  specialize (B 1). cbn [bwd1] in B. lra.
Qed.

Print Assumptions C70_derivative.
Print Assumptions C72_first_partial.
