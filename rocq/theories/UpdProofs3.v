(** Closed forms of recurrences; bounds of steps. *)
From Coq Require Import List ZArith Lia Bool Reals Lra.
From Verif Require Import SmSpec SmProofs1 UpdSpec UpdModel UpdProofs1 UpdProofs2.
Import ListNotations.
Local Open Scope Z_scope.

Lemma closed_discounted (s f : Z -> R) b : s 0 = 0%R -> (forall T, 0 <= T < counted -> s (T + 1) = (b * s T + f T)%R) -> forall T, 0 <= T <= counted -> s T = discounted b f T.
Proof. intros S0 SS. apply history; [rewrite S0, discounted_0; reflexivity |]. intros T HT IH. rewrite SS, discounted_S, IH by lia. reflexivity. Qed.
Lemma closed_average (s f : Z -> R) b : s 0 = 0%R -> (forall T, 0 <= T < counted -> s (T + 1) = (b * s T + (1 - b) * f T)%R) -> forall T, 0 <= T <= counted -> s T = average b f T.
Proof. intros S0 SS. apply history; [rewrite S0, average_0; reflexivity |]. intros T HT IH. rewrite SS, average_S, IH by lia. reflexivity. Qed.
Lemma closed_sum (s f : Z -> R) : (forall T, 0 <= T < counted -> s (T + 1) = (s T + f T)%R) -> forall T, 0 <= T <= counted -> s T = (s 0%Z + rsum T f)%R.
Proof. intros SS. apply history; [rewrite rsum_0; ring |]. intros T HT IH. rewrite SS, rsum_S, IH by lia. ring. Qed.
Lemma discounted_nonneg b f T : (0 <= b)%R -> (forall i, 0 <= i < T -> (0 <= f i)%R) -> 0 <= T -> (0 <= discounted b f T)%R.
Proof.
  intros B F HT. revert F. apply (rsum_ind (fun T => (forall i, 0 <= i < T -> (0 <= f i)%R) -> (0 <= discounted b f T)%R)); [| | exact HT].
  - rewrite discounted_0. intros. lra.
  - intros k Hk IH F. rewrite discounted_S by exact Hk. pose proof (IH (fun i Hi => F i ltac:(lia))). pose proof (F k ltac:(lia)). pose proof (Rmult_le_pos b (discounted b f k) B H). lra.
Qed.
Lemma discounted_ext b f g T : (forall i, 0 <= i < T -> f i = g i) -> discounted b f T = discounted b g T.
Proof. intros H. apply rsum_ext. intros i Hi. rewrite H by exact Hi. reflexivity. Qed.
Lemma average_nonneg b f T : (0 <= b <= 1)%R -> (forall i, 0 <= i < T -> (0 <= f i)%R) -> 0 <= T -> (0 <= average b f T)%R.
Proof. intros B F HT. unfold average. apply Rmult_le_pos; [lra | apply discounted_nonneg; [lra | assumption..]]. Qed.
(** The mean of the squares is at least the square of the mean. *)
Lemma average_jensen b f T : (0 <= b <= 1)%R -> 0 <= T -> (0 <= average b (fun i => f i * f i) T - average b f T * average b f T)%R.
Proof.
  intros B. apply (rsum_ind (fun T => (0 <= average b (fun i => f i * f i) T - average b f T * average b f T)%R)); [rewrite !average_0; lra |]. intros k Hk IH. rewrite !average_S by exact Hk.
  set (q := average b (fun i => (f i * f i)%R) k) in *. set (a := average b f k) in *.
  replace (b * q + (1 - b) * (f k * f k) - (b * a + (1 - b) * f k) * (b * a + (1 - b) * f k))%R with (b * (q - a * a) + b * (1 - b) * ((a - f k) * (a - f k)))%R by ring.
  pose proof (Rle_0_sqr (a - f k)) as S. unfold Rsqr in S. pose proof (Rmult_le_pos b _ ltac:(lra) IH). pose proof (Rmult_le_pos (b * (1 - b)) _ ltac:(apply Rmult_le_pos; lra) S). lra.
Qed.
Lemma average_const b c T : 0 <= T -> average b (fun _ => c) T = (c * (1 - power b T))%R.
Proof.
  apply (rsum_ind (fun T => average b (fun _ => c) T = (c * (1 - power b T))%R)); [rewrite average_0, power_0; ring |]. intros k Hk IH. rewrite average_S, power_S, IH by exact Hk. ring.
Qed.
Lemma rsum_last n (f : Z -> R) : 0 <= n -> (forall i, 0 <= i < n + 1 -> (0 <= f i)%R) -> (f n <= rsum (n + 1) f)%R.
Proof.
  intros Hn P. rewrite rsum_S by exact Hn. assert (0 <= rsum n f)%R; [| lra]. revert P. apply (rsum_ind (fun n => (forall i, 0 <= i < n + 1 -> (0 <= f i)%R) -> (0 <= rsum n f)%R)); [rewrite rsum_0; intros; lra | | exact Hn].
  intros k Hk IH P. rewrite rsum_S by exact Hk. pose proof (IH (fun i Hi => P i ltac:(lia))). pose proof (P k ltac:(lia)). lra.
Qed.
(** |g| / (sqrt v + eps) <= 1 / c if c^2 g^2 <= v. *)
Lemma step_bound c g v eps : (0 < c)%R -> (0 < eps)%R -> (c * c * (g * g) <= v)%R -> (Rabs (g / (sqrt v + eps)) <= / c)%R.
Proof.
  intros C E H. assert (S : (c * Rabs g <= sqrt v)%R).
  { rewrite <- (sqrt_square (c * Rabs g)) by (apply Rmult_le_pos; [lra | apply Rabs_pos]). apply sqrt_le_1_alt. replace (c * Rabs g * (c * Rabs g))%R with (c * c * (Rabs g * Rabs g))%R by ring. rewrite <- Rabs_mult, Rabs_pos_eq; [exact H | apply Rle_0_sqr]. }
  pose proof (Rabs_pos g) as Pg. assert (P : (0 < sqrt v + eps)%R) by (pose proof (Rmult_le_pos c (Rabs g) ltac:(lra) Pg); lra).
  unfold Rdiv. rewrite Rabs_mult, (Rabs_pos_eq (/ _)) by (left; apply Rinv_0_lt_compat; exact P).
  apply Rmult_le_reg_r with (c * (sqrt v + eps))%R; [apply Rmult_lt_0_compat; assumption |]. replace (Rabs g * / (sqrt v + eps) * (c * (sqrt v + eps)))%R with (c * Rabs g)%R by (field; lra). replace (/ c * (c * (sqrt v + eps)))%R with (sqrt v + eps)%R by (field; lra). lra.
Qed.
Lemma largest_S (f : Z -> R) T v w : 0 <= T -> (T = 0 -> (v <= f 0%Z)%R) -> (0 < T -> largest f T v) -> w = Rmax v (f T) -> largest f (T + 1) w.
Proof.
  intros HT Z0 L ->. destruct (Z.eq_dec T 0) as [-> |].
  - split; [intros i Hi; replace i with 0 by lia; apply Rmax_r |]. exists 0. split; [lia |]. rewrite Rmax_right; [reflexivity | apply Z0; reflexivity].
  - destruct (L ltac:(lia)) as (A & k & Hk & E). split.
    + intros i Hi. destruct (Z.eq_dec i T) as [-> |]; [apply Rmax_r |]. apply Rle_trans with v; [apply A; lia | apply Rmax_l].
    + unfold Rmax. destruct (Rle_dec v (f T)); [exists T; split; [lia | reflexivity] | exists k; split; [lia | exact E]].
Qed.
(** ** Norms *)
Lemma rsum_squares n f : (0 <= rsum n (fun i => f i * f i))%R.
Proof. unfold rsum. induction (Z.to_nat n) as [| k IH]; cbn [rsum_nat]; [lra |]. pose proof (Rle_0_sqr (f (Z.of_nat k))) as S. unfold Rsqr in S. lra. Qed.
Lemma cauchy n f g : (rsum n (fun i => f i * g i) * rsum n (fun i => f i * g i) <= rsum n (fun i => f i * f i) * rsum n (fun i => g i * g i))%R.
Proof.
  set (a := rsum n (fun i => (f i * f i)%R)). set (b := rsum n (fun i => (f i * g i)%R)). set (c := rsum n (fun i => (g i * g i)%R)).
  assert (Q : forall s t, (0 <= s * s * a + 2 * s * t * b + t * t * c)%R).
  { intros s t. pose proof (rsum_squares n (fun i => s * f i + t * g i)%R) as H. cbn beta in H. replace (rsum n (fun i => ((s * f i + t * g i) * (s * f i + t * g i))%R)) with (s * s * a + 2 * s * t * b + t * t * c)%R in H; [exact H |].
    unfold a, b, c. rewrite <- !rsum_scale, <- !rsum_plus. apply rsum_ext. intros i Hi. ring. }
  assert (A0 : (0 <= a)%R) by apply rsum_squares. destruct (Req_dec a 0) as [Ea | Na].
  - assert (B0 : b = 0%R). { destruct (Req_dec b 0) as [E | N]; [exact E | exfalso]. pose proof (Q (- (c + 1) / (2 * b))%R 1%R) as H. rewrite Ea in H. replace (- (c + 1) / (2 * b) * (- (c + 1) / (2 * b)) * 0 + 2 * (- (c + 1) / (2 * b)) * 1 * b + 1 * 1 * c)%R with (-1)%R in H by (field; exact N). lra. }
    rewrite B0, Ea. lra.
  - pose proof (Q (- b)%R a) as H. replace (- b * - b * a + 2 * - b * a * b + a * a * c)%R with (a * (a * c - b * b))%R in H by ring. assert (0 < a)%R by lra.
    apply Rmult_le_reg_l with a; [assumption |]. lra.
Qed.
Lemma triangle n f g : (sqrt (rsum n (fun i => (f i + g i) * (f i + g i))) <= sqrt (rsum n (fun i => f i * f i)) + sqrt (rsum n (fun i => g i * g i)))%R.
Proof.
  pose proof (cauchy n f g) as C. pose proof (rsum_squares n f) as A. pose proof (rsum_squares n g) as G. set (a := rsum n (fun i => (f i * f i)%R)) in *. set (c := rsum n (fun i => (g i * g i)%R)) in *. set (b := rsum n (fun i => (f i * g i)%R)) in *.
  replace (rsum n (fun i => ((f i + g i) * (f i + g i))%R)) with (a + 2 * b + c)%R by (unfold a, b, c; rewrite <- rsum_scale, <- !rsum_plus; apply rsum_ext; intros; ring).
  pose proof (sqrt_pos a) as PA. pose proof (sqrt_pos c) as PC. rewrite <- (sqrt_square (sqrt a + sqrt c)) by lra. apply sqrt_le_1_alt.
  replace ((sqrt a + sqrt c) * (sqrt a + sqrt c))%R with (sqrt a * sqrt a + 2 * (sqrt a * sqrt c) + sqrt c * sqrt c)%R by ring. rewrite !sqrt_sqrt by assumption.
  assert (b <= sqrt a * sqrt c)%R; [| lra]. rewrite <- sqrt_mult by assumption. apply Rle_trans with (Rabs b); [apply Rle_abs |]. rewrite <- (sqrt_Rsqr_abs b). apply sqrt_le_1_alt. exact C.
Qed.
Lemma norm_scaled n f c : sqrt (rsum n (fun i => (c * f i) * (c * f i))%R) = (Rabs c * sqrt (rsum n (fun i => f i * f i)))%R.
Proof.
  rewrite (rsum_ext _ _ (fun i => (c * c) * (f i * f i))%R) by (intros; ring). rewrite rsum_scale, sqrt_mult by (try apply rsum_squares; apply Rle_0_sqr). f_equal. apply sqrt_Rsqr_abs.
Qed.
