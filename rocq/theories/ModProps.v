(** Properties of the remainder. *)
From Coq Require Import List ZArith Lia Bool QArith Qcanon Qround Field.
From Verif Require Import ReduceModel QuantSpec QuantProofs1 ModModel.
Local Open Scope Z_scope.

(** * C137 *)
(** The remainder that has the sign of the divisor (numpy.mod), and the one with the sign of the
    dividend (numpy.fmod). *)
Definition floored (x0 x1 r : Z) : Prop := (exists q, x0 = q * x1 + r) /\ Z.abs r < Z.abs x1 /\ 0 <= r * x1.
Definition truncated (x0 x1 r : Z) : Prop := (exists q, x0 = q * x1 + r) /\ Z.abs r < Z.abs x1 /\ 0 <= r * x0.
Theorem C137_mod : forall least x0 x1, x1 <> 0 -> ~ (x0 = least /\ x1 = -1) -> exists r, integer_mod least x0 x1 = Some r /\ floored x0 x1 r.
Proof.
  intros least x0 x1 N M. unfold integer_mod. destruct (Z.eqb_spec x1 0); [contradiction |]. destruct (Z.eqb_spec x0 least); destruct (Z.eqb_spec x1 (-1)); cbn [orb andb]; try (exfalso; apply M; split; assumption);
  (eexists; split; [reflexivity |]; pose proof (Z.quot_rem x0 x1 N) as QR; pose proof (Z.rem_bound_abs x0 x1 N) as B; set (r := Z.rem x0 x1) in *;
   destruct (Z.ltb_spec 0 r); destruct (Z.ltb_spec x1 0); destruct (Z.ltb_spec r 0); destruct (Z.ltb_spec 0 x1); cbn [orb andb]; unfold floored; (split; [first [exists (Z.quot x0 x1); lia | exists (Z.quot x0 x1 - 1); lia] | split; [lia | first [exfalso; lia | apply Z.mul_nonneg_nonneg; lia | apply Z.mul_nonpos_nonpos; lia]]])).
Qed.
Lemma multiple_small a x b : a * x = b -> Z.abs b < Z.abs x -> b = 0.
Proof. intros <- B. rewrite Z.abs_mul in B. destruct (Z.eq_dec a 0) as [-> | N]; [reflexivity |]. exfalso. assert (1 <= Z.abs a) by lia. pose proof (Z.mul_le_mono_nonneg_r 1 (Z.abs a) (Z.abs x) ltac:(lia) ltac:(lia)). lia. Qed.
Lemma same_sign a b x : x <> 0 -> 0 <= a * x -> 0 <= b * x -> 0 <= a /\ 0 <= b \/ a <= 0 /\ b <= 0.
Proof.
  intros N A B. destruct (Z_lt_le_dec 0 x) as [P | P].
  - left. split; [apply (Z.mul_nonneg_cancel_r a x P); exact A | apply (Z.mul_nonneg_cancel_r b x P); exact B].
  - right. assert (Q : x < 0) by lia. split; [destruct (Z_lt_le_dec 0 a) as [H | H] | destruct (Z_lt_le_dec 0 b) as [H | H]]; try exact H; exfalso; [pose proof (Z.mul_pos_neg a x H Q) | pose proof (Z.mul_pos_neg b x H Q)]; lia.
Qed.
Theorem C137_mod_unique : forall x0 x1 r r', floored x0 x1 r -> floored x0 x1 r' -> r = r'.
Proof.
  intros x0 x1 r r' ((q & E) & B & S) ((q' & E') & B' & S'). assert (D : (q - q') * x1 = r' - r) by lia. assert (N : x1 <> 0) by lia. pose proof (same_sign r r' x1 N S S') as SG. pose proof (multiple_small _ _ _ D ltac:(lia)). lia.
Qed.
(** It is undefined exactly for zero, and for the least integer by -1. *)
Theorem C137_undefined : forall least x0 x1, integer_mod least x0 x1 = None <-> x1 = 0 \/ (x0 = least /\ x1 = -1).
Proof.
  intros least x0 x1. unfold integer_mod. destruct (Z.eqb_spec x1 0); destruct (Z.eqb_spec x0 least); destruct (Z.eqb_spec x1 (-1)); cbn [orb andb]; split; intros H; try discriminate; try reflexivity; try lia; auto; destruct H as [H | (H & H')]; contradiction.
Qed.
(** Beyond 2^53 the double is the nearest with 53 bits, and of two as near the one whose last bit is 0. *)
Theorem C137_double : forall x, 2 ^ 53 < Z.abs x -> exists q e, 0 <= e /\ 2 ^ 52 <= q <= 2 ^ 53 /\ 2 ^ (52 + e) <= Z.abs x < 2 ^ (53 + e) /\
  to_double x = Z.sgn x * (q * 2 ^ e) /\ 2 * Z.abs (x - to_double x) <= 2 ^ e /\ (2 * Z.abs (x - to_double x) = 2 ^ e -> Z.even q = true).
Proof.
  intros x B. unfold to_double. set (a := Z.abs x) in *. assert (A0 : 0 < a) by lia. destruct (Z.log2_spec a A0) as (L1 & L2).
  assert (L53 : 53 <= Z.log2 a) by (apply Z.log2_le_pow2; lia). set (k := Z.log2 a) in *. set (e := Z.max 0 (k - 52)). assert (E : e = k - 52) by (unfold e; lia). clearbody e.
  replace k with (52 + e) in L1, L2 by lia. replace (Z.succ (52 + e)) with (53 + e) in L2 by lia.
  assert (P0 : 0 < 2 ^ e) by (apply Z.pow_pos_nonneg; lia). pose proof L1 as L1'. pose proof L2 as L2'. rewrite Z.pow_add_r in L1', L2' by lia.
  pose proof (Z.div_mod a (2 ^ e) ltac:(lia)) as DM. pose proof (Z.mod_pos_bound a (2 ^ e) P0) as MB.
  assert (Q1 : 2 ^ 52 <= a / 2 ^ e) by (apply Z.div_le_lower_bound; [lia | rewrite Z.mul_comm; exact L1']). assert (Q2 : a / 2 ^ e < 2 ^ 53) by (apply Z.div_lt_upper_bound; [lia | rewrite Z.mul_comm; exact L2']).
  set (q := a / 2 ^ e) in *. set (r := a mod 2 ^ e) in *. set (P := 2 ^ e) in *.
  assert (D : forall t, Z.abs (x - Z.sgn x * t) = Z.abs (a - t)). { intros t. unfold a. destruct (Z.abs_spec x) as [(X & ->) | (X & ->)]; [rewrite Z.sgn_pos by lia | rewrite Z.sgn_neg by lia]; lia. }
  exists (if (P <? 2 * r) || ((P =? 2 * r) && Z.odd q) then q + 1 else q), e. rewrite D. fold P. rewrite <- Z.negb_odd.
  destruct (Z.ltb_spec P (2 * r)); cbn [orb]; [| destruct (Z.eqb_spec P (2 * r)); cbn [andb]; [destruct (Z.odd q) eqn:O |]].
  - replace (a - (q + 1) * P) with (r - P) by lia. repeat split; try lia.
  - replace (a - (q + 1) * P) with (r - P) by lia. repeat split; try lia. intros _. rewrite Z.add_1_r, Z.odd_succ, <- Z.negb_odd, O. reflexivity.
  - replace (a - q * P) with r by lia. repeat split; try lia. intros _. rewrite O. reflexivity.
  - replace (a - q * P) with r by lia. repeat split; try lia.
Qed.
Example double_works : to_double (2 ^ 53 + 1) = 2 ^ 53 /\ to_double (2 ^ 53 + 3) = 2 ^ 53 + 4 /\ to_double (- (2 ^ 54 + 3)) = - (2 ^ 54 + 4).
Proof. vm_compute. auto. Qed.
(** Integers up to 2^53 are doubles. *)
Lemma to_double_exact x : Z.abs x <= 2 ^ 53 -> to_double x = x.
Proof.
  intros B. unfold to_double. destruct (Z.eq_dec (Z.abs x) (2 ^ 53)) as [E | N].
  - rewrite E. destruct (Z.abs_eq_or_opp x) as [S | S]; rewrite E in S; [assert (x = 2 ^ 53) by lia | assert (x = - 2 ^ 53) by lia]; subst x; vm_compute; reflexivity.
  - assert (L : Z.log2 (Z.abs x) <= 52). { destruct (Z.eq_dec (Z.abs x) 0) as [E | NZ]; [rewrite E; cbn; lia |]. apply Z.lt_succ_r. change (Z.succ 52) with 53. apply Z.log2_lt_pow2; lia. }
    rewrite Z.max_l by lia. change (2 ^ 0) with 1. rewrite Z.div_1_r, Z.mod_1_r. cbn [Z.mul Z.ltb Z.compare Z.eqb orb andb]. rewrite Z.mul_1_r. apply Z.sgn_abs || (rewrite Z.mul_comm; apply Z.abs_sgn).
Qed.
Theorem C137_fmod : forall x0 x1, x1 <> 0 -> Z.abs x0 <= 2 ^ 53 -> Z.abs x1 <= 2 ^ 53 -> exists r, integer_fmod x0 x1 = Some r /\ truncated x0 x1 r.
Proof.
  intros x0 x1 N B0 B1. unfold integer_fmod. rewrite !to_double_exact by assumption. destruct (Z.eqb_spec x1 0); [contradiction |]. eexists. split; [reflexivity |].
  pose proof (Z.quot_rem x0 x1 N) as QR. pose proof (Z.rem_bound_abs x0 x1 N) as B. pose proof (Z.rem_sign_mul x0 x1 N) as S. split; [exists (Z.quot x0 x1); lia |]. split; [exact B | exact S].
Qed.
Theorem C137_fmod_unique : forall x0 x1 r r', truncated x0 x1 r -> truncated x0 x1 r' -> r = r'.
Proof.
  intros x0 x1 r r' ((q & E) & B & S) ((q' & E') & B' & S'). assert (D : (q - q') * x1 = r' - r) by lia. destruct (Z.eq_dec x0 0) as [Z0 | NZ].
  - pose proof (multiple_small (- q) x1 r ltac:(lia) B). pose proof (multiple_small (- q') x1 r' ltac:(lia) B'). lia.
  - pose proof (same_sign r r' x0 NZ S S') as SG. pose proof (multiple_small _ _ _ D ltac:(lia)). lia.
Qed.
(** Refuted above: with fmod, integers that are not doubles are rounded first. *)
Theorem C137_fmod_refuted : integer_fmod 9007199254740993 2 = Some 0 /\ truncated 9007199254740993 2 1.
Proof. split; [vm_compute; reflexivity |]. split; [exists 4503599627370496; reflexivity | split; reflexivity || discriminate]. Qed.
(** Floating-point numbers: the rest after as many divisors as fit, with the sign of the dividend. *)
Lemma truncate_ok q : (0 <= q -> inject_Z (truncate q) <= q /\ q < inject_Z (truncate q) + 1)%Q /\ (q <= 0 -> q <= inject_Z (truncate q) /\ inject_Z (truncate q) - 1 < q)%Q.
Proof.
  unfold truncate. destruct (Qle_bool 0 q) eqn:B.
  - apply Qle_bool_iff in B. split.
    + intros _. split; [apply Qfloor_le |]. pose proof (Qlt_floor q) as H. rewrite inject_Z_plus in H. exact H.
    + intros H. assert (E : (q == 0)%Q) by (apply Qle_antisym; assumption). rewrite (Qfloor_comp _ _ E). change (inject_Z (Qfloor 0)) with 0%Q. rewrite E. split; [apply Qle_refl | reflexivity].
  - assert (N : (q < 0)%Q) by (apply Qnot_le_lt; intros H; apply Qle_bool_iff in H; congruence). split; [intros H; exfalso; exact (Qlt_not_le _ _ N H) |]. intros _. split; [apply Qle_ceiling |].
    pose proof (Qceiling_lt q) as H. unfold Z.sub in H. rewrite inject_Z_plus in H. exact H.
Qed.
Theorem C137_float : forall x0 x1, x1 <> 0%Qc -> exists r n, float_mod x0 x1 = Some r /\ x0 = (whole_number n * x1 + r)%Qc /\
  exists f, r = (f * x1)%Qc /\ ((0 <= x0 / x1 -> 0 <= f /\ f < 1) /\ (x0 / x1 <= 0 -> f <= 0 /\ - (1) < f))%Qc.
Proof.
  intros x0 x1 N. unfold float_mod. destruct (Qc_eq_dec x1 0); [contradiction |]. set (t := truncate (this (x0 / x1)%Qc)). exists (x0 - x1 * of_Z t)%Qc, t. split; [reflexivity |]. change (of_Z t) with (whole_number t). split; [ring |].
  exists (x0 / x1 - whole_number t)%Qc. split; [field; exact N |]. pose proof (truncate_ok (this (x0 / x1)%Qc)) as (H1 & H2). fold t in H1, H2.
  assert (W : (this (whole_number t) == inject_Z t)%Q) by (unfold whole_number; cbn [this Q2Qc]; apply Qred_correct). set (v := (x0 / x1)%Qc) in *.
  assert (S : (this (v - whole_number t)%Qc == this v - inject_Z t)%Q). { unfold Qcminus, Qcplus, Qcopp, Q2Qc. cbn [this]. rewrite !Qred_correct. rewrite W. reflexivity. }
  assert (M1 : (this (- (1))%Qc == - (1))%Q) by reflexivity. assert (P1 : (this 1%Qc == 1)%Q) by reflexivity. assert (Z0 : (this 0%Qc == 0)%Q) by reflexivity.
  split; intros H.
  - unfold Qcle in H. rewrite Z0 in H. destruct (H1 H) as (A & B). unfold Qcle, Qclt. rewrite S, Z0, P1. split.
    + apply Qle_minus_iff in A. exact A.
    + apply Qlt_minus_iff in B. apply Qlt_minus_iff. setoid_replace (1 + - (this v - inject_Z t))%Q with (inject_Z t + 1 + - this v)%Q by ring. exact B.
  - unfold Qcle in H. rewrite Z0 in H. destruct (H2 H) as (A & B). unfold Qcle, Qclt. rewrite S, Z0, M1. split.
    + apply Qle_minus_iff in A. apply Qle_minus_iff. setoid_replace (0 + - (this v - inject_Z t))%Q with (inject_Z t + - this v)%Q by ring. exact A.
    + apply Qlt_minus_iff in B. apply Qlt_minus_iff. setoid_replace (this v - inject_Z t + - - (1))%Q with (this v + - (inject_Z t - 1))%Q by ring. exact B.
Qed.
(** Which remainder is used. *)
Theorem C137_used : forall fmod least a b x y, mod2 false least (Integer a) (Integer b) = option_map Integer (integer_mod least a b) /\ mod2 true least (Integer a) (Integer b) = option_map Integer (integer_fmod a b) /\ mod2 fmod least (Float x) (Float y) = option_map Float (float_mod x y).
Proof. repeat split. Qed.
Theorem C137_by_zero : forall least x0, integer_mod least x0 0 = None /\ integer_fmod x0 0 = None /\ forall x, float_mod x 0 = None.
Proof. repeat split. Qed.
Example mod_works : (integer_mod (-128) 7 3, integer_mod (-128) (-7) 3, integer_mod (-128) 7 (-3), integer_mod (-128) (-7) (-3), integer_mod (-128) 6 (-3)) = (Some 1, Some 2, Some (-2), Some (-1), Some 0) /\
  (integer_fmod 7 3, integer_fmod (-7) 3, integer_fmod 7 (-3), integer_fmod (-7) (-3)) = (Some 1, Some (-1), Some 1, Some (-1)).
Proof. split; vm_compute; reflexivity. Qed.
Example float_works : option_map this (float_mod (Q2Qc (-7 # 2)) (Q2Qc 1)) = Some (-1 # 2)%Q.
Proof. vm_compute. reflexivity. Qed.
Print Assumptions C137_mod.
Print Assumptions C137_fmod.
Print Assumptions C137_float.
Print Assumptions C137_double.
