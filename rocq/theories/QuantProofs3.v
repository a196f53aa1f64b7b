(** Quantization: powers of two. *)
From Coq Require Import List ZArith Lia Lqa Bool QArith Qcanon Qround Qpower.
From Verif Require Import IdxModel JoinModel ScanModel ReduceModel FindModel FindProofs1 NmsProofs1 QuantModel QuantSpec QuantProofs1 QuantProofs2.
Import ListNotations.
Local Open Scope list_scope.
Local Open Scope Qc_scope.

Lemma this_pow k : (this (pow2 k) == (2 # 1) ^ k)%Q.
Proof. apply Qred_correct. Qed.
Lemma pow2_0 : pow2 0 = 1.
Proof. reflexivity. Qed.
Lemma pow2_plus a b : pow2 (a + b) = pow2 a * pow2 b.
Proof. apply Qc_is_canon. rewrite this_mult, !this_pow. apply Qpower_plus. discriminate. Qed.
Lemma pow2_W k : (0 <= k)%Z -> pow2 k = whole_number (2 ^ k).
Proof. intros H. apply Qc_is_canon. rewrite this_pow, this_W. change (2 # 1)%Q with (inject_Z 2). symmetry. apply Zpower_Qpower. exact H. Qed.
Lemma pow2_pos k : 0 < pow2 k.
Proof. unfold Qclt. rewrite this_pow. change (this 0) with 0%Q. apply Qpower_0_lt. reflexivity. Qed.
Lemma inv_of a b : 0 < b -> a * b = 1 -> a = / b.
Proof. intros H E. apply (scale_inj _ _ b H). rewrite E. symmetry. apply Qcmult_inv_l. intros ->. qlra. Qed.
Lemma pow2_two k : pow2 k = two_to k.
Proof.
  unfold two_to. destruct (Z.ltb_spec k 0).
  - rewrite <- pow2_W by lia. apply inv_of; [apply pow2_pos |]. rewrite <- pow2_plus. replace (k + - k)%Z with 0%Z by lia. reflexivity.
  - apply pow2_W. assumption.
Qed.
Lemma pow2_S k : pow2 (k + 1) = pow2 k + pow2 k.
Proof. rewrite pow2_plus. change (pow2 1) with (1 + 1). ring. Qed.
Lemma pow2_ge1 k : (0 <= k)%Z -> 1 <= pow2 k.
Proof. intros H. rewrite pow2_W by exact H. apply (proj1 (W_le 1 _)). pose proof (Z.pow_pos_nonneg 2 k). lia. Qed.
Lemma pow2_le a b : (a <= b)%Z -> pow2 a <= pow2 b.
Proof.
  intros H. replace b with (a + (b - a))%Z by lia. rewrite pow2_plus. pose proof (pow2_pos a). pose proof (pow2_ge1 (b - a) ltac:(lia)). qnra.
Qed.
Lemma pow2_lt a b : (a < b)%Z -> pow2 a < pow2 b.
Proof. intros H. pose proof (pow2_le (a + 1) b ltac:(lia)) as L. rewrite pow2_S in L. pose proof (pow2_pos a). qlra. Qed.
Lemma pow2_lt_inv a b : pow2 a < pow2 b -> (a < b)%Z.
Proof. intros H. destruct (Z_lt_le_dec a b); [assumption |]. pose proof (pow2_le b a ltac:(lia)). exfalso. qlra. Qed.
Lemma pow2_sq k : pow2 k * pow2 k = pow2 (2 * k).
Proof. rewrite <- pow2_plus. f_equal. lia. Qed.

(** The rounded logarithm. *)
Lemma as_fraction x : x * whole_number (Zpos (Qden (this x))) = whole_number (Qnum (this x)).
Proof.
  apply Qc_is_canon. rewrite this_mult, !this_W. destruct (this x) as [p d]. cbn [Qnum Qden]. unfold Qeq, inject_Z, Qmult. cbn [Qnum Qden]. lia.
Qed.
Lemma log2_bounds z : (0 < z)%Z -> pow2 (Z.log2 z) <= whole_number z /\ whole_number z < pow2 (Z.log2 z + 1).
Proof.
  intros H. pose proof (Z.log2_spec z H) as [A B]. pose proof (Z.log2_nonneg z). rewrite !pow2_W by lia. split; [apply (proj1 (W_le _ _)); exact A | apply (proj1 (W_lt _ _)); exact B].
Qed.
Lemma log2_ok x : 0 < x -> let d := (Z.log2 (Qnum (this x)) - Z.log2 (Zpos (Qden (this x))))%Z in pow2 (d - 1) < x /\ x < pow2 (d + 1).
Proof.
  intros P d. pose proof (as_fraction x) as E.
  assert (N : (0 < Qnum (this x))%Z). { unfold Qclt, Qlt in P. cbn in P. lia. }
  destruct (log2_bounds _ N) as [N1 N2]. destruct (log2_bounds (Zpos (Qden (this x))) ltac:(lia)) as [D1 D2]. unfold d. clear d.
  revert E N1 N2 D1 D2. generalize (Z.log2 (Qnum (this x))) (Z.log2 (Zpos (Qden (this x)))). intros p r E N1 N2 D1 D2. rewrite <- E in N1, N2. clear E N. revert D1 D2 N1 N2. generalize (whole_number (Zpos (Qden (this x)))). intros t D1 D2 N1 N2.
  pose proof (pow2_pos r) as Pr. pose proof (pow2_pos (p - r - 1)) as P1. pose proof (pow2_pos (p - r + 1)) as P2. rewrite pow2_S in D2, N2.
  replace (pow2 p) with (pow2 (p - r - 1) * (pow2 r + pow2 r)) in N1, N2 by (rewrite <- pow2_S, <- pow2_plus; f_equal; lia).
  assert (X : pow2 (p - r + 1) = pow2 (p - r - 1) + pow2 (p - r - 1) + (pow2 (p - r - 1) + pow2 (p - r - 1))) by (rewrite <- !pow2_S; f_equal; lia). rewrite X in *. clear X.
  revert Pr P1 P2 D1 D2 N1 N2. generalize (pow2 r) (pow2 (p - r - 1)). intros u v Pr P1 _ D1 D2 N1 N2. split; apply Qcnot_le_lt; intros C.
  - assert (x * t <= v * t) by (apply scale_le; [qlra | exact C]). assert (v * t < v * (u + u)) by (clear - D2 P1; qnra). qlra.
  - assert ((v + v + (v + v)) * u <= x * t). { apply Qcle_trans with (x * u); [apply scale_le; assumption |]. clear - D1 C P1. qnra. }
    clear - H N2. qnra.
Qed.
Lemma round_log2_ok x : 0 < x -> pow2 (2 * round_log2 x - 1) <= x * x /\ x * x < pow2 (2 * round_log2 x + 1).
Proof.
  intros P. pose proof (log2_ok x P) as B. cbv zeta in B. unfold round_log2. revert B. generalize (Z.log2 (Qnum (this x)) - Z.log2 (Zpos (Qden (this x))))%Z. intros d [B1 B2]. cbv zeta.
  assert (E : let e := (if less x (pow2 d) then d - 1 else d)%Z in pow2 e <= x /\ x < pow2 (e + 1)).
  { cbv zeta. destruct (less x (pow2 d)) eqn:L.
    - apply less_true in L. replace (d - 1 + 1)%Z with d by lia. split; [qlra | exact L].
    - apply less_false in L. split; [exact L | exact B2]. }
  cbv zeta in E. revert E. generalize (if less x (pow2 d) then (d - 1)%Z else d). intros e [E1 E2].
  assert (S1 : pow2 (2 * e) <= x * x). { rewrite <- pow2_sq. pose proof (pow2_pos e). clear - E1 H. qnra. }
  assert (S2 : x * x < pow2 (2 * e + 2)). { replace (2 * e + 2)%Z with (2 * (e + 1))%Z by lia. rewrite <- pow2_sq. clear - E2 P. qnra. }
  destruct (less (x * x) (pow2 (2 * e + 1))) eqn:L.
  - apply less_true in L. split; [| exact L]. pose proof (pow2_le (2 * e - 1) (2 * e) ltac:(lia)). apply Qcle_trans with (pow2 (2 * e)); assumption.
  - apply less_false in L. replace (2 * (e + 1) - 1)%Z with (2 * e + 1)%Z by lia. split; [exact L |]. apply Qclt_trans with (pow2 (2 * e + 2)); [exact S2 | apply pow2_lt; lia].
Qed.

(** Factors. *)
Lemma div_le a b c d : 0 < b -> 0 < d -> a * d <= c * b -> a / b <= c / d.
Proof.
  intros B D H. pose proof (over_times a b B) as E1. pose proof (over_times c d D) as E2. revert E1 E2. generalize (a / b) (c / d). intros u v <- <-. apply Qcnot_lt_le. intros C.
  assert (X : v * (b * d) < u * (b * d)). { assert (0 < b * d) by (clear - B D; qnra). clear - H0 C. qnra. } replace (u * b * d) with (u * (b * d)) in H by ring. replace (v * d * b) with (v * (b * d)) in H by ring. qlra.
Qed.
Lemma div_lt a b c d : 0 < b -> 0 < d -> a * d < c * b -> a / b < c / d.
Proof.
  intros B D H. pose proof (over_times a b B) as E1. pose proof (over_times c d D) as E2. revert E1 E2. generalize (a / b) (c / d). intros u v <- <-. apply Qcnot_le_lt. intros C.
  assert (X : v * (b * d) <= u * (b * d)). { apply scale_le; [clear - B D; qnra | exact C]. } replace (u * b * d) with (u * (b * d)) in H by ring. replace (v * d * b) with (v * (b * d)) in H by ring. qlra.
Qed.
Lemma factor_ge a b : 0 < a -> 0 < b -> a / b <= factor a b /\ b / a <= factor a b.
Proof.
  intros A B. unfold factor. destruct (Qclt_le_dec a b) as [L | L]; split; try apply Qcle_refl; apply div_le; try assumption; qnra.
Qed.
Lemma factor_is a b : factor a b = a / b \/ factor a b = b / a.
Proof. unfold factor. destruct (Qclt_le_dec a b); auto. Qed.
Lemma power_near lo hi a : 0 < a -> (lo <= hi)%Z -> nearest_power lo hi a (pow2 (Z.max lo (Z.min hi (round_log2 a)))).
Proof.
  intros A LH. destruct (round_log2_ok a A) as [R1 R2]. set (k0 := round_log2 a) in *. set (k := Z.max lo (Z.min hi k0)). assert (K : (lo <= k <= hi)%Z) by (unfold k; lia).
  exists k. split; [exact K |]. split; [apply pow2_two |]. intros j J. rewrite <- pow2_two.
  pose proof (pow2_pos k) as Pk. pose proof (pow2_pos j) as Pj. destruct (factor_ge a (pow2 j) A Pj) as [F1 F2].
  destruct (Z.lt_trichotomy j k) as [L | [-> | L]].
  - split; [| intros; lia]. assert (Q : pow2 (k + j) <= a * a). { apply Qcle_trans with (pow2 (2 * k0 - 1)); [apply pow2_le; unfold k in *; lia | exact R1]. } rewrite pow2_plus in Q.
    pose proof (pow2_le j k ltac:(lia)) as Q'.
    apply Qcle_trans with (a / pow2 j); [| exact F1]. destruct (factor_is a (pow2 k)) as [-> | ->]; apply div_le; try assumption. clear - Q' A. qnra.
  - split; [apply Qcle_refl | intros; lia].
  - assert (Q : a * a < pow2 (k + j)). { apply Qclt_le_trans with (pow2 (2 * k0 + 1)); [exact R2 | apply pow2_le; unfold k in *; lia]. } rewrite pow2_plus in Q.
    pose proof (pow2_lt k j L) as Q'.
    assert (S : factor a (pow2 k) < pow2 j / a). { destruct (factor_is a (pow2 k)) as [-> | ->]; apply div_lt; try assumption; clear - Q Q' A; qnra. }
    split; [qlra |]. intros E. exfalso. rewrite E in S. qlra.
Qed.
