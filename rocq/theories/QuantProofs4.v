(** Quantization: Pow2Quantize. *)
From Coq Require Import List ZArith Lia Lqa Bool QArith Qcanon Qround Qpower.
From Verif Require Import IdxModel IdxProofs1 JoinModel ScanModel ScanProofs1 ReduceModel ReduceProofs1 ConvModel BinProofs3 FindModel FindProofs1 NmsProofs1 QuantModel QuantSpec QuantProofs1 QuantProofs2 QuantProofs3.
Import ListNotations.
Local Open Scope list_scope.
Local Open Scope Qc_scope.

Definition clipped (with_zero : bool) (p_max p_min a : Qc) : Qc :=
  let q := pow2_near a in
  if more q p_max then p_max
  else if less q p_min && with_zero then (if below a p_min then 0 else p_min)
  else if less q p_min then p_min else q.
Lemma below_true a p : below a p = true <-> (1 + 1) * (a * a) < p * p.
Proof. unfold below. rewrite less_true. change (of_Z 2) with (1 + 1). tauto. Qed.
Lemma pow2_near_0 : pow2_near 0 = 0.
Proof. unfold pow2_near. rewrite (proj2 (same_true 0 0) eq_refl). reflexivity. Qed.
Lemma pow2_near_pos a : 0 < a -> pow2_near a = pow2 (round_log2 a).
Proof. intros H. unfold pow2_near. rewrite (proj2 (same_false a 0)); [reflexivity |]. intros ->. qlra. Qed.
Lemma clipped_pos with_zero lo hi a : 0 < a -> (lo <= hi)%Z -> clipped with_zero (pow2 hi) (pow2 lo) a =
  if with_zero && (round_log2 a <? lo)%Z then 0 else pow2 (Z.max lo (Z.min hi (round_log2 a))).
Proof.
  intros A LH. unfold clipped. cbv zeta. rewrite (pow2_near_pos a A). destruct (round_log2_ok a A) as [_ R]. set (k := round_log2 a) in *.
  destruct (more (pow2 k) (pow2 hi)) eqn:M.
  - apply more_true in M. apply pow2_lt_inv in M. rewrite (proj2 (Z.ltb_ge k lo)) by lia. rewrite andb_false_r. f_equal. lia.
  - apply more_false in M. assert (K : (k <= hi)%Z). { destruct (Z_lt_le_dec hi k) as [C |]; [| assumption]. apply pow2_lt in C. exfalso. qlra. }
    destruct (less (pow2 k) (pow2 lo)) eqn:L.
    + apply less_true in L. apply pow2_lt_inv in L. rewrite (proj2 (Z.ltb_lt k lo)) by lia. destruct with_zero; cbn [andb].
      * rewrite (proj2 (below_true _ _)); [reflexivity |]. rewrite pow2_sq. replace (2 * lo)%Z with (2 * lo - 1 + 1)%Z by lia. rewrite pow2_S. pose proof (pow2_le (2 * k + 1) (2 * lo - 1) ltac:(lia)). qlra.
      * f_equal. lia.
    + apply less_false in L. assert (K' : (lo <= k)%Z). { destruct (Z_lt_le_dec k lo) as [C |]; [| assumption]. apply pow2_lt in C. exfalso. qlra. }
      rewrite (proj2 (Z.ltb_ge k lo)) by lia. rewrite andb_false_r. cbn [andb]. f_equal. lia.
Qed.
Lemma clipped_0 with_zero lo hi : clipped with_zero (pow2 hi) (pow2 lo) 0 = if with_zero then 0 else pow2 lo.
Proof.
  unfold clipped. cbv zeta. rewrite pow2_near_0. pose proof (pow2_pos lo) as P. pose proof (pow2_pos hi) as P'.
  rewrite (proj2 (more_false 0 (pow2 hi))) by qlra. rewrite (proj2 (less_true 0 (pow2 lo))) by exact P. destruct with_zero; cbn [andb]; [| reflexivity].
  rewrite (proj2 (below_true _ _)); [reflexivity |]. clear - P. qnra.
Qed.
Lemma clipped_ok with_zero lo hi a : 0 <= a -> (lo <= hi)%Z -> power_value with_zero lo hi a (clipped with_zero (pow2 hi) (pow2 lo) a).
Proof.
  intros A LH. unfold power_value. rewrite <- !pow2_two. destruct (Qc_eq_dec a 0) as [-> | NE].
  - rewrite clipped_0. pose proof (pow2_pos lo) as P. destruct with_zero; split; intros H; auto; exfalso; [clear - H P; qnra | qlra].
  - assert (A' : 0 < a) by qlra. rewrite clipped_pos by assumption. destruct (round_log2_ok a A') as [R1 R2]. pose proof (power_near lo hi a A' LH) as PN.
    destruct with_zero; cbn [andb]; [| split; [intros; contradiction | intros; exact PN]].
    rewrite pow2_sq. replace (2 * lo)%Z with (2 * lo - 1 + 1)%Z by lia. rewrite pow2_S. split; intros H.
    + rewrite (proj2 (Z.ltb_lt _ _)); [reflexivity |]. assert (Q : pow2 (2 * round_log2 a - 1) < pow2 (2 * lo - 1)) by qlra. apply pow2_lt_inv in Q. lia.
    + rewrite (proj2 (Z.ltb_ge _ _)); [exact PN |]. assert (Q : pow2 (2 * lo - 1) < pow2 (2 * round_log2 a + 1)) by qlra. apply pow2_lt_inv in Q. lia.
Qed.
Lemma pow2_setup_ok sign with_zero n m : (0 < exponent_bits sign with_zero n < 31)%Z ->
  pow2_setup sign with_zero n m = Some (pow2 m, pow2 (least_exponent sign with_zero n m)).
Proof.
  intros B. unfold pow2_setup, least_exponent. set (b := exponent_bits sign with_zero n) in *.
  replace (if with_zero then ((if sign then n - 1 else n) - 1)%Z else (if sign then n - 1 else n)%Z) with b by (unfold b, exponent_bits; destruct sign, with_zero; lia).
  assert (N : (0 < n)%Z) by (unfold b, exponent_bits in B; destruct sign, with_zero; lia).
  cbv zeta. rewrite (proj2 (Z.ltb_lt 0 n)), (proj2 (Z.ltb_lt 0 b)), (proj2 (Z.leb_gt 31 b)) by lia. reflexivity.
Qed.
Lemma pow2_setup_bad sign with_zero n m : (exponent_bits sign with_zero n <= 0)%Z -> pow2_setup sign with_zero n m = None.
Proof.
  intros B. unfold pow2_setup. set (b := exponent_bits sign with_zero n) in *.
  replace (if with_zero then ((if sign then n - 1 else n) - 1)%Z else (if sign then n - 1 else n)%Z) with b by (unfold b, exponent_bits; destruct sign, with_zero; lia).
  cbv zeta. rewrite (proj2 (Z.ltb_ge 0 b)) by lia. destruct (negb _); reflexivity.
Qed.
Lemma least_le sign with_zero n m : (0 < exponent_bits sign with_zero n)%Z -> (least_exponent sign with_zero n m <= m)%Z.
Proof. intros H. unfold least_exponent. pose proof (Z.pow_pos_nonneg 2 (exponent_bits sign with_zero n)). lia. Qed.
Lemma pow2_value_ok (sign with_zero : bool) lo hi x : (lo <= hi)%Z ->
  exists q, power_value with_zero lo hi (mag x) q /\
  pow2_value sign with_zero (pow2 hi) (pow2 lo) x = if Qclt_le_dec x 0 then (if sign then - q else if with_zero then 0 else two_to lo) else q.
Proof.
  intros LH. exists (clipped with_zero (pow2 hi) (pow2 lo) (mag x)). split; [apply clipped_ok; [apply mag_0 | exact LH] |].
  unfold pow2_value. cbv zeta. rewrite qabs_mag. fold (clipped with_zero (pow2 hi) (pow2 lo) (mag x)). rewrite <- pow2_two. change (less x 0) with (if Qclt_le_dec x 0 then true else false). destruct (Qclt_le_dec x 0), sign, with_zero; reflexivity.
Qed.
Lemma pow2_factor_ok sign hi x : pow2_factor sign (pow2 hi) x =
  if Qclt_le_dec (mag x * mag x) (two_to (2 * hi + 1)) then (if sign then 1 else if Qclt_le_dec x 0 then 0 else 1) else 0.
Proof.
  unfold pow2_factor. rewrite qabs_mag, <- pow2_two. cbv zeta.
  assert (E : (if more (pow2_near (mag x)) (pow2 hi) then 0 else 1) = if Qclt_le_dec (mag x * mag x) (pow2 (2 * hi + 1)) then 1 else 0).
  { pose proof (mag_0 x) as M. revert M. generalize (mag x). intros a M. pose proof (pow2_pos hi) as P. pose proof (pow2_pos (2 * hi + 1)) as P'. destruct (Qc_eq_dec a 0) as [-> | NE].
    - rewrite pow2_near_0. rewrite (proj2 (more_false 0 (pow2 hi))) by qlra. destruct (Qclt_le_dec _ _); [reflexivity | exfalso; qlra].
    - assert (A : 0 < a) by qlra. rewrite (pow2_near_pos a A). destruct (round_log2_ok a A) as [R1 R2]. destruct (more _ _) eqn:Q.
      + apply more_true in Q. apply pow2_lt_inv in Q. destruct (Qclt_le_dec _ _); [| reflexivity]. exfalso. pose proof (pow2_le (2 * hi + 1) (2 * round_log2 a - 1) ltac:(lia)). qlra.
      + apply more_false in Q. destruct (Qclt_le_dec _ _); [reflexivity |]. exfalso. assert (X : pow2 (2 * hi + 1) < pow2 (2 * round_log2 a + 1)) by qlra. apply pow2_lt_inv in X. assert (Y : (hi < round_log2 a)%Z) by lia. apply pow2_lt in Y. qlra. }
  rewrite E. unfold less. destruct (Qclt_le_dec (mag x * mag x) _), sign, (Qclt_le_dec x 0); reflexivity.
Qed.
Lemma pow2_backward_ok sign with_zero n m fine accum x dy d0 : (0 < exponent_bits sign with_zero n < 31)%Z -> length dy = length x -> length d0 = length x ->
  exists d, pow2_backward sign with_zero n m fine accum x dy d0 = Some d /\ length d = length x /\
  forall i, (i < length x)%nat -> nth i d 0 = (if accum then nth i d0 0 else 0) + (if fine then pow2_factor sign (pow2 m) (nth i x 0) else 1) * nth i dy 0.
Proof.
  intros B L1 L2. unfold pow2_backward. rewrite pow2_setup_ok by exact B. cbn [obind].
  apply (pass_ok (fun v e old => (if accum then old else 0) + (if fine then pow2_factor sign (pow2 m) v else 1) * e)); [exact L1 | exact L2 |].
  intros i d Hi Ld U. rewrite !get_ok by (unfold within, qlen; lia). cbn [obind]. rewrite (U i) by lia. cbv zeta. destruct fine, accum; f_equal; ring.
Qed.
