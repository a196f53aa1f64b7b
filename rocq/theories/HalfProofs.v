(** Conversions between half and float. *)
From Coq Require Import ZArith Bool List Lia.
From Verif Require Import HalfModel HalfSpec.
Import ListNotations.
Local Open Scope Z_scope.

(** ** Bits as arithmetic *)
Lemma lor_add a y k : 0 <= k -> 0 <= y < 2 ^ k -> Z.lor (a * 2 ^ k) y = a * 2 ^ k + y.
Proof.
  intros Hk Hy.
  assert (L : Z.land (a * 2 ^ k) y = 0).
  { apply Z.bits_inj'. intros i Hi. rewrite Z.land_spec, Z.bits_0.
    destruct (Z.lt_ge_cases i k).
    - now rewrite Z.mul_pow2_bits_low.
    - rewrite <- (Z.mod_small y (2 ^ k)) by lia. rewrite Z.mod_pow2_bits_high by lia. apply andb_false_r. }
  rewrite <- Z.lxor_lor by exact L. symmetry. apply Z.add_nocarry_lxor. exact L.
Qed.
Lemma land_mask x k : 0 <= k -> Z.land x (2 ^ k - 1) = x mod 2 ^ k.
Proof.
  intros H. replace (2 ^ k - 1) with (Z.ones k) by (rewrite Z.ones_equiv; lia). now apply Z.land_ones.
Qed.
Lemma land_bit x k : 0 <= k -> Z.land x (2 ^ k) = ((x / 2 ^ k) mod 2) * 2 ^ k.
Proof.
  intros H. rewrite <- Z.bit0_mod, <- Z.shiftr_div_pow2, Z.shiftr_spec by lia. cbn [Z.add].
  apply Z.bits_inj'. intros i Hi. rewrite Z.land_spec, Z.pow2_bits_eqb by lia.
  destruct (Z.testbit x k) eqn:B; cbn [Z.b2z].
  - rewrite Z.mul_1_l, Z.pow2_bits_eqb by lia. destruct (Z.eqb_spec k i) as [<-|]; [now rewrite B|apply andb_false_r].
  - rewrite Z.mul_0_l, Z.bits_0. destruct (Z.eqb_spec k i) as [<-|]; [now rewrite B|apply andb_false_r].
Qed.

(** ** float -> half on the fields *)
Definition rne (x : Z) : Z := if x mod 2 ^ 14 =? 2 ^ 12 then x / 2 ^ 13 else (x + 2 ^ 12) / 2 ^ 13.
Definition dmag (e m : Z) : Z :=
  if e =? 255 then (if m =? 0 then 31744 else 31744 + Z.max 1 (m / 2 ^ 13))
  else if 142 <? e then 31744
  else if e <? 103 then 0
  else if 113 <=? e then (e - 112) * 1024 + rne m
  else rne ((2 ^ 23 + m) / 2 ^ (113 - e)).

Lemma rne_bounds x b : 0 <= x <= b * 2 ^ 13 -> 0 <= rne x <= b.
Proof.
  intros H. unfold rne. destruct (Z.eqb_spec (x mod 2 ^ 14) (2 ^ 12)).
  - split; [apply Z.div_pos; lia|]. apply Z.div_le_upper_bound; lia.
  - split; [apply Z.div_pos; lia|]. assert ((x + 2 ^ 12) / 2 ^ 13 < b + 1); [|lia]. apply Z.div_lt_upper_bound; lia.
Qed.

Lemma round_rne x : 0 <= x < 2 ^ 31 -> Z.shiftr (round_ties_to_even Float Half x) 13 = rne x.
Proof.
  intros H. unfold round_ties_to_even, rne.
  change (Z.shiftl 1 (diff_sig Float Half + 1) - 1) with (2 ^ 14 - 1).
  change (Z.shiftl 1 (diff_sig Float Half - 1)) with (2 ^ 12). rewrite land_mask by lia.
  rewrite Z.shiftr_div_pow2 by lia. destruct (_ =? _); [reflexivity|].
  unfold wrap. change (n Float) with 32. rewrite Z.mod_small by lia. reflexivity.
Qed.

Lemma half_of_float_fields s e m : 0 <= s <= 1 -> 0 <= e < 256 -> 0 <= m < 2 ^ 23 ->
  half_of_float (s * 2 ^ 31 + e * 2 ^ 23 + m) = s * 2 ^ 15 + dmag e m.
Proof.
  intros Hs He Hm. set (bits := s * 2 ^ 31 + e * 2 ^ 23 + m). unfold half_of_float, downconvert.
  assert (E1 : significand Float bits = m).
  { unfold significand. change (sig_mask Float) with (2 ^ 23 - 1). rewrite land_mask by lia. unfold bits.
    replace (s * 2 ^ 31 + e * 2 ^ 23 + m) with (m + (s * 2 ^ 8 + e) * 2 ^ 23) by lia.
    rewrite Z.mod_add, Z.mod_small; lia. }
  assert (E2 : signed_exponent Float bits = e - 127).
  { unfold signed_exponent. change (exp_mask Float) with (2 ^ 8 - 1). rewrite land_mask by lia.
    rewrite Z.shiftr_div_pow2 by (cbn; lia). change (nsig Float) with 23. change (exp_bias Float) with 127. unfold bits.
    replace (s * 2 ^ 31 + e * 2 ^ 23 + m) with (m + (s * 2 ^ 8 + e) * 2 ^ 23) by lia.
    rewrite Z.div_add, Z.div_small by lia. replace (0 + (s * 2 ^ 8 + e)) with (e + s * 2 ^ 8) by lia.
    rewrite Z.mod_add, Z.mod_small; lia. }
  assert (E3 : sign_bit_of Float Half bits = s * 2 ^ 15).
  { unfold sign_bit_of. change (sign_mask Half) with (2 ^ 15). rewrite land_bit by lia.
    change (n Float - n Half) with 16. rewrite Z.shiftr_div_pow2 by lia. rewrite Z.div_div by lia.
    change (2 ^ 16 * 2 ^ 15) with (2 ^ 31). unfold bits.
    replace (s * 2 ^ 31 + e * 2 ^ 23 + m) with ((e * 2 ^ 23 + m) + s * 2 ^ 31) by lia.
    rewrite Z.div_add by lia. rewrite (Z.div_small (e * 2 ^ 23 + m)) by lia.
    rewrite Z.mod_small; lia. }
  rewrite E1, E2, E3. clearbody bits. clear E1 E2 E3.
  change (exp_max Float + 1) with 128. change (exp_max Half) with 15. change (exp_min Half) with (-14).
  change (nsig Half) with 10. change (inf_bits Half) with 31744. change (diff_sig Float Half) with 13.
  change (-14 - 10) with (-24). unfold dmag.
  destruct (Z.eqb_spec (e - 127) 128) as [X1|X1], (Z.eqb_spec e 255) as [X2|X2]; try lia.
  { destruct (Z.eqb_spec m 0) as [X3|X3]; [rewrite lor_add; lia|].
    rewrite Z.shiftr_div_pow2 by lia. assert (0 <= m / 2 ^ 13 < 1024) by (split; [apply Z.div_pos; lia|apply Z.div_lt_upper_bound; lia]).
    unfold wrap. change (n Half) with 16. rewrite Z.mod_small by lia. rewrite <- Z.lor_assoc.
    change 31744 with (31 * 2 ^ 10). destruct (Z.eqb_spec (m / 2 ^ 13) 0) as [Z0|Z0].
    - rewrite Z0. rewrite (lor_add 31) by lia. rewrite lor_add; lia.
    - rewrite (lor_add 31) by lia. rewrite lor_add by lia. lia. }
  rewrite Z.gtb_ltb. destruct (Z.ltb_spec 15 (e - 127)), (Z.ltb_spec 142 e); try lia.
  { rewrite lor_add; lia. }
  destruct (Z.ltb_spec (e - 127) (-24)), (Z.ltb_spec e 103); try lia.
  rewrite Z.geb_leb. destruct (Z.leb_spec (-14) (e - 127)), (Z.leb_spec 113 e); try lia.
  - rewrite round_rne by lia. assert (B := rne_bounds m 1024 ltac:(lia)).
    unfold wrap, signed_exp_to_bits, wrap. change (n Half) with 16. change (exp_bias Half) with 15. change (nsig Half) with 10.
    rewrite Z.shiftl_mul_pow2 by lia. rewrite !Z.mod_small by lia. rewrite lor_add by lia. lia.
  - change (implied_bit Float) with (1 * 2 ^ 23). rewrite (Z.lor_comm m), (lor_add 1) by lia.
    replace (- (e - 127) + -14) with (113 - e) by lia. rewrite (Z.shiftr_div_pow2 (1 * 2 ^ 23 + m)) by lia.
    assert (0 <= (1 * 2 ^ 23 + m) / 2 ^ (113 - e) <= 1024 * 2 ^ 13).
    { assert (P : 2 ^ 1 <= 2 ^ (113 - e)) by (apply Z.pow_le_mono_r; lia).
      split; [apply Z.div_pos; lia|]. assert ((1 * 2 ^ 23 + m) / 2 ^ (113 - e) < 2 ^ 23); [|lia].
      apply Z.div_lt_upper_bound; nia. }
    rewrite round_rne by lia. rewrite Z.mul_1_l in *. assert (B := rne_bounds _ _ H5).
    unfold wrap. change (n Half) with 16. rewrite Z.mod_small by lia. rewrite lor_add by lia. reflexivity.
Qed.

(** Every float has these fields. *)
Lemma float_fields x : float_bits x ->
  let s := sign_of 8 23 x in let e := exponent_of 8 23 x in let m := fraction_of 23 x in
  x = s * 2 ^ 31 + e * 2 ^ 23 + m /\ 0 <= s <= 1 /\ 0 <= e < 256 /\ 0 <= m < 2 ^ 23.
Proof.
  unfold float_bits, sign_of, exponent_of, fraction_of. intros H. cbn zeta.
  change (2 ^ (8 + 23)) with (2 ^ 31). change (2 ^ 8) with 256.
  assert (A := Z.div_mod x (2 ^ 23) ltac:(lia)). assert (B := Z.div_mod (x / 2 ^ 23) 256 ltac:(lia)).
  rewrite Z.div_div in B by lia. change (2 ^ 23 * 256) with (2 ^ 31) in B.
  assert (C := Z.mod_pos_bound x (2 ^ 23) ltac:(lia)). assert (D := Z.mod_pos_bound (x / 2 ^ 23) 256 ltac:(lia)).
  assert (0 <= x / 2 ^ 31 < 2) by (split; [apply Z.div_pos; lia|apply Z.div_lt_upper_bound; lia]).
  lia.
Qed.
Lemma half_fields x : half_bits x ->
  let s := sign_of 5 10 x in let e := exponent_of 5 10 x in let m := fraction_of 10 x in
  x = s * 2 ^ 15 + e * 2 ^ 10 + m /\ 0 <= s <= 1 /\ 0 <= e < 32 /\ 0 <= m < 2 ^ 10.
Proof.
  unfold half_bits, sign_of, exponent_of, fraction_of. intros H. cbn zeta.
  change (2 ^ (5 + 10)) with (2 ^ 15). change (2 ^ 5) with 32.
  assert (A := Z.div_mod x (2 ^ 10) ltac:(lia)). assert (B := Z.div_mod (x / 2 ^ 10) 32 ltac:(lia)).
  rewrite Z.div_div in B by lia. change (2 ^ 10 * 32) with (2 ^ 15) in B.
  assert (C := Z.mod_pos_bound x (2 ^ 10) ltac:(lia)). assert (D := Z.mod_pos_bound (x / 2 ^ 10) 32 ltac:(lia)).
  assert (0 <= x / 2 ^ 15 < 2) by (split; [apply Z.div_pos; lia|apply Z.div_lt_upper_bound; lia]).
  lia.
Qed.
(** ... and only these. *)
Lemma half_fields_of s e m : 0 <= s <= 1 -> 0 <= e < 32 -> 0 <= m < 2 ^ 10 ->
  let x := s * 2 ^ 15 + e * 2 ^ 10 + m in
  sign_of 5 10 x = s /\ exponent_of 5 10 x = e /\ fraction_of 10 x = m /\ half_bits x.
Proof.
  intros Hs He Hm x. unfold sign_of, exponent_of, fraction_of, half_bits.
  assert (A : x = m + (s * 32 + e) * 2 ^ 10) by (unfold x; lia).
  assert (B : x = (e * 2 ^ 10 + m) + s * 2 ^ 15) by (unfold x; lia).
  change (2 ^ (5 + 10)) with (2 ^ 15). change (2 ^ 5) with 32.
  split; [rewrite B, Z.div_add, Z.div_small; lia|].
  split; [rewrite A, Z.div_add, Z.div_small by lia; replace (0 + (s * 32 + e)) with (e + s * 32) by lia;
          rewrite Z.mod_add, Z.mod_small; lia|].
  split; [rewrite A, Z.mod_add, Z.mod_small; lia|unfold x; lia].
Qed.

(** The magnitude of the half with the lower 15 bits [k]. *)
Definition hmag (k : Z) : Z := if k <? 1024 then k else (1024 + k mod 1024) * 2 ^ (k / 1024 - 1).

Lemma half_value_mag s k : 0 <= s <= 1 -> 0 <= k < 2 ^ 15 ->
  half_value (s * 2 ^ 15 + k) = (if s =? 0 then hmag k else - hmag k) * 2 ^ 125 /\
  exponent_of 5 10 (s * 2 ^ 15 + k) = k / 1024 /\ fraction_of 10 (s * 2 ^ 15 + k) = k mod 1024 /\
  half_bits (s * 2 ^ 15 + k) /\ sign_of 5 10 (s * 2 ^ 15 + k) = s.
Proof.
  intros Hs Hk. assert (A := Z.div_mod k 1024 ltac:(lia)). assert (C := Z.mod_pos_bound k 1024 ltac:(lia)).
  assert (0 <= k / 1024 < 32) by (split; [apply Z.div_pos; lia|apply Z.div_lt_upper_bound; lia]).
  destruct (half_fields_of s (k / 1024) (k mod 1024) Hs H ltac:(lia)) as (F1 & F2 & F3 & F4).
  replace (s * 2 ^ 15 + k / 1024 * 2 ^ 10 + k mod 1024) with (s * 2 ^ 15 + k) in * by lia.
  split; [|auto]. unfold half_value, number, magnitude. rewrite F1, F2, F3. unfold hmag.
  destruct (Z.eqb_spec (k / 1024) 0), (Z.ltb_spec k 1024); try lia; [|reflexivity].
  replace (k mod 1024) with k by lia. reflexivity.
Qed.

Lemma hmag_normal E r : 1 <= E -> 0 <= r <= 1024 -> hmag (E * 1024 + r) = (1024 + r) * 2 ^ (E - 1).
Proof.
  intros HE Hr. unfold hmag. destruct (Z.ltb_spec (E * 1024 + r) 1024); [lia|].
  destruct (Z.eq_dec r 1024) as [->|].
  - replace (E * 1024 + 1024) with (0 + (E + 1) * 1024) by lia. rewrite Z.mod_add, Z.div_add by lia. cbn [Z.add Z.modulo Z.div].
    replace (0 / 1024 + (E + 1) - 1) with (E - 1 + 1) by (change (0 / 1024) with 0; lia). rewrite Z.pow_add_r by lia.
    change (0 mod 1024) with 0. lia.
  - replace (E * 1024 + r) with (r + E * 1024) by lia. rewrite Z.mod_add, Z.div_add, Z.mod_small, Z.div_small by lia.
    f_equal.
Qed.

Lemma hmag_mono_step k : 0 <= k -> hmag k < hmag (k + 1).
Proof.
  intros Hk. destruct (Z.lt_ge_cases k 1023).
  - unfold hmag. destruct (Z.ltb_spec k 1024), (Z.ltb_spec (k + 1) 1024); lia.
  - destruct (Z.eq_dec k 1023) as [->|]; [reflexivity|].
    assert (A := Z.div_mod k 1024 ltac:(lia)). assert (C := Z.mod_pos_bound k 1024 ltac:(lia)).
    assert (1 <= k / 1024) by (apply Z.div_le_lower_bound; lia).
    replace (k + 1) with (k / 1024 * 1024 + (k mod 1024 + 1)) by lia.
    rewrite (hmag_normal _ _ H0) by lia.
    replace k with (k / 1024 * 1024 + k mod 1024) at 1 by lia. rewrite (hmag_normal _ _ H0) by lia.
    apply Z.mul_lt_mono_pos_r; [apply Z.pow_pos_nonneg; lia|lia].
Qed.
Lemma hmag_mono a b : 0 <= a < b -> hmag a < hmag b.
Proof.
  intros [Ha Hb]. replace b with (a + 1 + Z.of_nat (Z.to_nat (b - a - 1))) by lia.
  induction (Z.to_nat (b - a - 1)) as [|k IH].
  - rewrite Nat2Z.inj_0, Z.add_0_r. now apply hmag_mono_step.
  - eapply Z.lt_trans; [exact IH|]. replace (a + 1 + Z.of_nat (S k)) with (a + 1 + Z.of_nat k + 1) by lia.
    apply hmag_mono_step. lia.
Qed.
Lemma hmag_mono_le a b : 0 <= a <= b -> hmag a <= hmag b.
Proof. intros H. destruct (Z.eq_dec a b) as [->|]; [lia|]. apply Z.lt_le_incl, hmag_mono. lia. Qed.
Lemma hmag_inj a b : 0 <= a -> 0 <= b -> hmag a = hmag b -> a = b.
Proof.
  intros Ha Hb H. destruct (Z.lt_trichotomy a b) as [K|[K|K]]; auto.
  - assert (X := hmag_mono a b). lia.
  - assert (X := hmag_mono b a). lia.
Qed.

(** Rounding to a multiple of 2^13. *)
Lemma rne_spec x : 0 <= x -> forall r, 
  Z.abs (rne x * 2 ^ 13 - x) <= Z.abs (r * 2 ^ 13 - x) /\
  (r <> rne x -> Z.abs (rne x * 2 ^ 13 - x) = Z.abs (r * 2 ^ 13 - x) -> Z.even (rne x) = true).
Proof.
  intros Hx r. unfold rne.
  assert (A := Z.div_mod x (2 ^ 13) ltac:(lia)). assert (C := Z.mod_pos_bound x (2 ^ 13) ltac:(lia)).
  assert (A2 := Z.div_mod x (2 ^ 14) ltac:(lia)). assert (C2 := Z.mod_pos_bound x (2 ^ 14) ltac:(lia)).
  destruct (Z.eqb_spec (x mod 2 ^ 14) (2 ^ 12)) as [E|E].
  - assert (D : x / 2 ^ 13 = 2 * (x / 2 ^ 14)).
    { symmetry. apply Z.div_unique with (2 ^ 12); [lia|]. lia. }
    split; [rewrite D; lia|]. intros _ _. rewrite D. now rewrite Z.even_mul.
  - assert (A3 := Z.div_mod (x + 2 ^ 12) (2 ^ 13) ltac:(lia)). assert (C3 := Z.mod_pos_bound (x + 2 ^ 12) (2 ^ 13) ltac:(lia)).
    set (q := (x + 2 ^ 12) / 2 ^ 13) in *. split; [lia|]. intros Hr He.
    (* a tie: x = q * 2^13 - 2^12 with q even, since the other tie was excluded *)
    assert (T : x = q * 2 ^ 13 - 2 ^ 12) by lia.
    destruct (Z.Even_or_Odd q) as [[k Hk]|[k Hk]]; [rewrite Hk, Z.even_mul; reflexivity|].
    exfalso. apply E. rewrite T, Hk. replace ((2 * k + 1) * 2 ^ 13 - 2 ^ 12) with (2 ^ 12 + k * 2 ^ 14) by lia.
    rewrite Z.mod_add by lia. reflexivity.
Qed.
