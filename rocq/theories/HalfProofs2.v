(** Rounding and order of the conversion from float to half; the conversion
    of halfs to floats. *)
From Coq Require Import ZArith Bool List Lia.
From Verif Require Import HalfModel HalfSpec HalfProofs.
Import ListNotations.
Local Open Scope Z_scope.

(** ** Half to float on the fields; subnormal halfs by checking all of them *)
Fixpoint allb (P : Z -> bool) (k : nat) (x : Z) : bool :=
  match k with
  | O => P x
  | S k' => allb P k' (2 * x) && allb P k' (2 * x + 1)
  end.
Lemma allb_spec P k : forall x, allb P k x = true ->
  forall i, x * 2 ^ Z.of_nat k <= i < (x + 1) * 2 ^ Z.of_nat k -> P i = true.
Proof.
  induction k as [|k IH]; intros x H i Hi.
  - cbn in *. now replace i with x by lia.
  - cbn [allb] in H. apply andb_prop in H as [H1 H2].
    rewrite Nat2Z.inj_succ, Z.pow_succ_r in Hi by lia.
    destruct (Z.lt_ge_cases i ((2 * x + 1) * 2 ^ Z.of_nat k)).
    + apply (IH _ H1). lia.
    + apply (IH _ H2). lia.
Qed.

Definition norm_ok (m : Z) : bool :=
  (m =? 0) ||
  (let k := Z.log2 m in
   let '(sig, texp) := normalize 10 Half Float (wrap Half (Z.shiftl m 1)) 112 in
   (texp =? 103 + k) && (significand Half sig =? (m - 2 ^ k) * 2 ^ (10 - k))).
Lemma all_norm_ok : allb norm_ok 10 0 = true.
Proof. vm_compute. reflexivity. Qed.

(** Exponent and fraction of the float, as one number. *)
Definition umag (e m : Z) : Z :=
  if e =? 31 then 255 * 2 ^ 23 + m * 2 ^ 13
  else if e =? 0 then
    if m =? 0 then 0 else (103 + Z.log2 m) * 2 ^ 23 + (m - 2 ^ Z.log2 m) * 2 ^ (23 - Z.log2 m)
  else (e + 112) * 2 ^ 23 + m * 2 ^ 13.

Lemma log2_frac m : 0 < m < 2 ^ 10 -> let k := Z.log2 m in
  0 <= k <= 9 /\ 0 <= (m - 2 ^ k) * 2 ^ (23 - k) < 2 ^ 23 /\ 2 ^ 23 + (m - 2 ^ k) * 2 ^ (23 - k) = m * 2 ^ (23 - k) /\
  (m - 2 ^ k) * 2 ^ (23 - k) = (m - 2 ^ k) * 2 ^ (10 - k) * 2 ^ 13.
Proof.
  intros H k. assert (L := Z.log2_spec m ltac:(lia)). fold k in L.
  assert (K0 : 0 <= k) by apply Z.log2_nonneg. assert (K9 : k < 10) by (apply Z.log2_lt_pow2; lia).
  rewrite Z.pow_succ_r in L by lia. clearbody k.
  assert (E : 2 ^ k * 2 ^ (23 - k) = 2 ^ 23) by (rewrite <- Z.pow_add_r by lia; f_equal; lia).
  assert (P : 0 < 2 ^ (23 - k)) by (apply Z.pow_pos_nonneg; lia).
  assert (F : (m - 2 ^ k) * 2 ^ (23 - k) = (m - 2 ^ k) * 2 ^ (10 - k) * 2 ^ 13).
  { rewrite <- Z.mul_assoc, <- Z.pow_add_r by lia. do 2 f_equal. lia. }
  assert (G : (m - 2 ^ k) * 2 ^ (23 - k) = m * 2 ^ (23 - k) - 2 ^ 23) by (rewrite Z.mul_sub_distr_r, E; reflexivity).
  assert (2 ^ k * 2 ^ (23 - k) <= m * 2 ^ (23 - k)) by (apply Z.mul_le_mono_nonneg_r; lia).
  assert (m * 2 ^ (23 - k) < (2 * 2 ^ k) * 2 ^ (23 - k)) by (apply Z.mul_lt_mono_pos_r; lia).
  split; [lia|]. split; [lia|]. split; [lia|exact F].
Qed.

Lemma umag_bounds e m : 0 <= e < 32 -> 0 <= m < 2 ^ 10 -> 0 <= umag e m < 2 ^ 31 /\ umag e m mod 2 ^ 13 = 0.
Proof.
  intros He Hm. unfold umag. destruct (Z.eqb_spec e 31).
  { split; [lia|]. replace (255 * 2 ^ 23 + m * 2 ^ 13) with ((255 * 2 ^ 10 + m) * 2 ^ 13) by lia. now apply Z.mod_mul. }
  destruct (Z.eqb_spec e 0).
  { destruct (Z.eqb_spec m 0); [split; [lia|reflexivity]|].
    destruct (log2_frac m ltac:(lia)) as (K & B & _ & F). cbn zeta in *. split; [lia|]. rewrite F.
    set (q := (m - 2 ^ Z.log2 m) * 2 ^ (10 - Z.log2 m)). replace ((103 + Z.log2 m) * 2 ^ 23 + q * 2 ^ 13) with (((103 + Z.log2 m) * 2 ^ 10 + q) * 2 ^ 13) by lia.
    now apply Z.mod_mul. }
  split; [lia|]. replace ((e + 112) * 2 ^ 23 + m * 2 ^ 13) with (((e + 112) * 2 ^ 10 + m) * 2 ^ 13) by lia. now apply Z.mod_mul.
Qed.

Lemma upconvert_fields s e m : 0 <= s <= 1 -> 0 <= e < 32 -> 0 <= m < 2 ^ 10 ->
  upconvert_bits Half Float (s * 2 ^ 15 + e * 2 ^ 10 + m) = s * 2 ^ 31 + umag e m.
Proof.
  intros Hs He Hm. set (bits := s * 2 ^ 15 + e * 2 ^ 10 + m). unfold upconvert_bits.
  assert (E1 : significand Half bits = m).
  { unfold significand. change (sig_mask Half) with (2 ^ 10 - 1). rewrite land_mask by lia. unfold bits.
    replace (s * 2 ^ 15 + e * 2 ^ 10 + m) with (m + (s * 2 ^ 5 + e) * 2 ^ 10) by lia.
    rewrite Z.mod_add, Z.mod_small; lia. }
  assert (E2 : signed_exponent Half bits = e - 15).
  { unfold signed_exponent. change (exp_mask Half) with (2 ^ 5 - 1). rewrite land_mask by lia.
    rewrite Z.shiftr_div_pow2 by (cbn; lia). change (nsig Half) with 10. change (exp_bias Half) with 15. unfold bits.
    replace (s * 2 ^ 15 + e * 2 ^ 10 + m) with (m + (s * 2 ^ 5 + e) * 2 ^ 10) by lia.
    rewrite Z.div_add, Z.div_small by lia. replace (0 + (s * 2 ^ 5 + e)) with (e + s * 2 ^ 5) by lia.
    rewrite Z.mod_add, Z.mod_small; lia. }
  assert (E3 : sign_bit_from Float Half bits = s * 2 ^ 31).
  { unfold sign_bit_from. change (sign_mask Float) with (2 ^ 31). rewrite land_bit by lia.
    change (n Float - n Half) with 16. rewrite Z.shiftl_mul_pow2 by lia.
    assert (D : bits * 2 ^ 16 / 2 ^ 31 = s) by (symmetry; apply Z.div_unique with ((e * 2 ^ 10 + m) * 2 ^ 16); unfold bits; lia).
    rewrite D, Z.mod_small; lia. }
  rewrite E1, E2, E3. clearbody bits. clear E1 E2 E3.
  change (exp_max Half + 1) with 16. change (exp_min Half - 1) with (-15). change (diff_sig Float Half) with 13.
  change (nsig Float) with 23. change (inf_bits Float) with (255 * 2 ^ 23). change (exp_bias Float) with 127.
  change (Z.to_nat (nsig Half)) with 10%nat. change (127 - exp_bias Half) with 112. unfold umag.
  assert (SM : Z.shiftl m 13 = m * 2 ^ 13) by (apply Z.shiftl_mul_pow2; lia).
  destruct (Z.eqb_spec (e - 15) 16), (Z.eqb_spec e 31); try lia.
  { rewrite SM. rewrite <- Z.lor_assoc, (lor_add 255) by lia. rewrite lor_add by lia. lia. }
  destruct (Z.eqb_spec (e - 15) (-15)), (Z.eqb_spec e 0); try lia.
  - destruct (Z.eqb_spec m 0) as [M0|M0]; [lia|].
    assert (X := allb_spec norm_ok 10 0 all_norm_ok m). change (0 * 2 ^ Z.of_nat 10) with 0 in X.
    change ((0 + 1) * 2 ^ Z.of_nat 10) with (2 ^ 10) in X. specialize (X Hm). unfold norm_ok in X.
    destruct (normalize 10 Half Float (wrap Half (Z.shiftl m 1)) 112) as [sig texp].
    destruct (Z.eqb_spec m 0); [lia|]. cbn [orb] in X. cbn zeta in X. apply andb_prop in X as [X1 X2].
    apply Z.eqb_eq in X1, X2. rewrite X1, X2. destruct (log2_frac m ltac:(lia)) as (K & B & _ & F). cbn zeta in *.
    rewrite !Z.shiftl_mul_pow2 by lia. rewrite <- F. rewrite <- Z.lor_assoc, (lor_add (103 + Z.log2 m)) by lia.
    rewrite lor_add by lia. lia.
  - rewrite SM. replace (e - 15 + 127) with (e + 112) by lia. rewrite Z.shiftl_mul_pow2 by lia.
    rewrite <- Z.lor_assoc, (lor_add (e + 112)) by lia. rewrite lor_add by lia. lia.
Qed.

Lemma nearest_float_exact x : 0 <= x < 2 ^ 32 -> x mod 2 ^ 13 = 0 -> nearest_float_of_uint x = x.
Proof.
  intros H M. unfold nearest_float_of_uint. change (nsig Float) with 23. destruct (Z.leb_spec (Z.log2 x - 23) 0) as [L|L]; [reflexivity|].
  assert (X0 : 0 < x) by (destruct (Z.eq_dec x 0) as [->|]; [cbn in L; lia|lia]).
  assert (K : Z.log2 x < 32) by (apply Z.log2_lt_pow2; lia).
  set (k := Z.log2 x - 23) in *. assert (Hk : 0 < k <= 8) by (unfold k; lia). clearbody k.
  assert (P : 0 < 2 ^ k) by (apply Z.pow_pos_nonneg; lia).
  assert (D : x mod 2 ^ k = 0).
  { apply Z.mod_divide; [lia|]. apply Z.mod_divide in M; [|lia]. eapply Z.divide_trans; [|exact M].
    exists (2 ^ (13 - k)). rewrite <- Z.pow_add_r by lia. f_equal. lia. }
  assert (Q : x = Z.shiftr x k * 2 ^ k) by (rewrite Z.shiftr_div_pow2 by lia; rewrite (Z.div_mod x (2 ^ k)) at 1 by lia; lia).
  rewrite !Z.shiftl_mul_pow2 by lia. rewrite <- Q. rewrite Z.sub_diag.
  assert (0 < 2 ^ (k - 1)) by (apply Z.pow_pos_nonneg; lia).
  destruct (Z.ltb_spec (2 ^ (k - 1)) 0); [lia|]. destruct (Z.eqb_spec 0 (2 ^ (k - 1))); [lia|]. cbn [orb andb]. now symmetry.
Qed.

Lemma float_of_half_fields s e m : 0 <= s <= 1 -> 0 <= e < 32 -> 0 <= m < 2 ^ 10 ->
  float_of_half (s * 2 ^ 15 + e * 2 ^ 10 + m) = s * 2 ^ 31 + umag e m.
Proof.
  intros Hs He Hm. destruct (umag_bounds e m He Hm) as [B D]. unfold float_of_half. rewrite upconvert_fields by assumption.
  rewrite nearest_float_exact; [|lia|].
  - unfold wrap. change (n Float) with 32. apply Z.mod_small. lia.
  - replace (s * 2 ^ 31 + umag e m) with (umag e m + s * 2 ^ 18 * 2 ^ 13) by lia. now rewrite Z.mod_add.
Qed.

Lemma float_fields_of s e m : 0 <= s <= 1 -> 0 <= e < 256 -> 0 <= m < 2 ^ 23 ->
  let x := s * 2 ^ 31 + (e * 2 ^ 23 + m) in
  sign_of 8 23 x = s /\ exponent_of 8 23 x = e /\ fraction_of 23 x = m /\ float_bits x.
Proof.
  intros Hs He Hm x. unfold sign_of, exponent_of, fraction_of, float_bits.
  assert (A : x = m + (s * 256 + e) * 2 ^ 23) by (unfold x; lia).
  assert (B : x = (e * 2 ^ 23 + m) + s * 2 ^ 31) by (unfold x; lia).
  change (2 ^ (8 + 23)) with (2 ^ 31). change (2 ^ 8) with 256.
  split; [rewrite B, Z.div_add, Z.div_small; lia|].
  split; [rewrite A, Z.div_add, Z.div_small by lia; replace (0 + (s * 256 + e)) with (e + s * 256) by lia;
          rewrite Z.mod_add, Z.mod_small; lia|].
  split; [rewrite A, Z.mod_add, Z.mod_small; lia|unfold x; lia].
Qed.

Lemma rne_exact m : 0 <= m -> rne (m * 2 ^ 13) = m.
Proof.
  intros H. unfold rne. replace (m * 2 ^ 13 + 2 ^ 12) with (2 ^ 12 + m * 2 ^ 13) by lia.
  rewrite Z.div_add, Z.div_mul by lia. destruct (_ =? _); reflexivity.
Qed.

(** The fields of the float, with everything that follows for the value and for
    the way back. *)
Lemma umag_fields e m : 0 <= e < 32 -> 0 <= m < 2 ^ 10 -> exists E M,
  umag e m = E * 2 ^ 23 + M /\ 0 <= E < 256 /\ 0 <= M < 2 ^ 23 /\ dmag E M = e * 2 ^ 10 + m /\
  (e = 31 -> E = 255 /\ (m = 0 <-> M = 0)) /\
  (e <> 31 -> E <> 255 /\ (if E =? 0 then M else (2 ^ 23 + M) * 2 ^ (E - 1)) =
                          (if e =? 0 then m else (2 ^ 10 + m) * 2 ^ (e - 1)) * 2 ^ 125).
Proof.
  intros He Hm. unfold umag. destruct (Z.eqb_spec e 31) as [E31|E31].
  { exists 255, (m * 2 ^ 13). split; [reflexivity|]. split; [lia|]. split; [lia|]. split; [|lia].
    unfold dmag. change (255 =? 255) with true. cbv iota. rewrite Z.div_mul by lia. destruct (Z.eqb_spec (m * 2 ^ 13) 0); lia. }
  destruct (Z.eqb_spec e 0) as [E0|E0].
  { destruct (Z.eqb_spec m 0) as [M0|M0].
    { exists 0, 0. subst. repeat split; try lia; try reflexivity. }
    destruct (log2_frac m ltac:(lia)) as (K & B & F & _). cbn zeta in *. set (k := Z.log2 m) in *. clearbody k.
    exists (103 + k), ((m - 2 ^ k) * 2 ^ (23 - k)). split; [reflexivity|]. split; [lia|]. split; [lia|].
    split; [|split; [lia|intros _; split; [lia|]]].
    - unfold dmag. destruct (Z.eqb_spec (103 + k) 255); [lia|]. destruct (Z.ltb_spec 142 (103 + k)); [lia|].
      destruct (Z.ltb_spec (103 + k) 103); [lia|]. destruct (Z.leb_spec 113 (103 + k)); [lia|]. rewrite F.
      replace (m * 2 ^ (23 - k)) with (m * 2 ^ 13 * 2 ^ (113 - (103 + k))).
      + rewrite Z.div_mul by (assert (0 < 2 ^ (113 - (103 + k))) by (apply Z.pow_pos_nonneg; lia); lia).
        rewrite rne_exact by lia. lia.
      + rewrite <- Z.mul_assoc, <- Z.pow_add_r by lia. do 2 f_equal. lia.
    - destruct (Z.eqb_spec (103 + k) 0); [lia|]. rewrite F, <- Z.mul_assoc, <- Z.pow_add_r by lia. do 2 f_equal. lia. }
  exists (e + 112), (m * 2 ^ 13). split; [reflexivity|]. split; [lia|]. split; [lia|].
  split; [|split; [lia|intros _; split; [lia|]]].
  - unfold dmag. destruct (Z.eqb_spec (e + 112) 255); [lia|]. destruct (Z.ltb_spec 142 (e + 112)); [lia|].
    destruct (Z.ltb_spec (e + 112) 103); [lia|]. destruct (Z.leb_spec 113 (e + 112)); [|lia]. rewrite rne_exact; lia.
  - destruct (Z.eqb_spec (e + 112) 0); [lia|]. replace (e + 112 - 1) with ((e - 1) + 112) by lia.
    rewrite Z.pow_add_r by lia. change (2 ^ 125) with (2 ^ 13 * 2 ^ 112). set (a := 2 ^ (e - 1)). lia.
Qed.

Lemma up_spec h : half_bits h ->
  let x := float_of_half h in
  float_bits x /\ sign_of 8 23 x = sign_of 5 10 h /\
  (half_finite h -> float_finite x /\ float_value x = half_value h) /\
  (infinite 5 10 h -> infinite 8 23 x) /\ (nan 5 10 h -> nan 8 23 x) /\
  half_of_float x = h /\ upconvert_bits Half Float h = x.
Proof.
  intros H. destruct (half_fields h H) as (Eh & Hs & He & Hm). cbn zeta in *.
  unfold half_finite, float_finite, finite, infinite, nan, float_value, half_value, number, magnitude.
  set (s := sign_of 5 10 h) in *. set (e := exponent_of 5 10 h) in *. set (m := fraction_of 10 h) in *. clearbody s e m.
  rewrite Eh. rewrite float_of_half_fields, upconvert_fields by assumption.
  destruct (umag_fields e m He Hm) as (E & M & -> & HE & HM & D & I & F).
  destruct (float_fields_of s E M Hs HE HM) as (F1 & F2 & F3 & F4). rewrite F1, F2, F3.
  change (2 ^ 5 - 1) with 31. change (2 ^ 8 - 1) with 255.
  split; [exact F4|]. split; [reflexivity|]. split.
  { intros N. destruct (F N) as [A B]. split; [exact A|]. rewrite B. destruct (s =? 0); lia. }
  split; [tauto|]. split; [tauto|]. split; [|reflexivity].
  rewrite Z.add_assoc, half_of_float_fields by assumption. lia.
Qed.

(** ** Nearest magnitudes *)
Definition nearest_mag (X k : Z) : Prop :=
  0 <= k < 31744 /\
  forall k', 0 <= k' < 31744 ->
    Z.abs (hmag k * 2 ^ 125 - X) <= Z.abs (hmag k' * 2 ^ 125 - X) /\
    (k' <> k -> Z.abs (hmag k * 2 ^ 125 - X) = Z.abs (hmag k' * 2 ^ 125 - X) -> Z.even k = true).

Lemma hmag_pos k : 0 <= k -> 0 <= hmag k.
Proof. intros H. assert (X := hmag_mono_le 0 k). change (hmag 0) with 0 in X. lia. Qed.

Lemma even_sign s k : Z.even (s * 2 ^ 15 + k) = Z.even k.
Proof. rewrite Z.even_add, Z.even_mul. cbn [Z.even Z.pow Z.pow_pos Pos.iter Z.mul Pos.mul]. rewrite orb_true_r. now destruct (Z.even k). Qed.

Lemma half_split h : half_bits h -> exists s k, h = s * 2 ^ 15 + k /\ 0 <= s <= 1 /\ 0 <= k < 2 ^ 15 /\
  (half_finite h -> k < 31744).
Proof.
  intros H. destruct (half_fields h H) as (E & Hs & He & Hm). cbn zeta in *.
  exists (sign_of 5 10 h), (exponent_of 5 10 h * 2 ^ 10 + fraction_of 10 h).
  split; [lia|]. split; [exact Hs|]. split; [lia|]. unfold half_finite, finite. intros F. lia.
Qed.

Lemma nearest_signed s X k : 0 <= s <= 1 -> 0 <= X -> nearest_mag X k ->
  nearest_half (if s =? 0 then X else - X) (s * 2 ^ 15 + k).
Proof.
  intros Hs HX (Hk & N). destruct (half_value_mag s k Hs ltac:(lia)) as (V & E & F & B & _).
  split; [exact B|]. split.
  { unfold half_finite, finite. rewrite E. intros K. change (2 ^ 5 - 1) with 31 in K.
    assert (31744 <= k); [|lia]. assert (A := Z.div_mod k 1024 ltac:(lia)). assert (C := Z.mod_pos_bound k 1024 ltac:(lia)). lia. }
  intros h' Hb' Hf'. destruct (half_split h' Hb') as (s' & k' & -> & Hs' & Hk' & Hfin). specialize (Hfin Hf').
  destruct (half_value_mag s' k' Hs' Hk') as (V' & _). rewrite V, V', even_sign. clear V V' E F B Hb' Hf'.
  assert (Z0 : hmag 0 = 0) by reflexivity.
  assert (P := hmag_pos k ltac:(lia)). assert (P' := hmag_pos k' ltac:(lia)).
  destruct (N k' ltac:(lia)) as [N1 N2]. destruct (N 0 ltac:(lia)) as [N3 N4]. rewrite Z0 in N3, N4.
  assert (Q : 0 < 2 ^ 125) by lia. set (U := 2 ^ 125) in *. clearbody U.
  assert (PU : 0 <= hmag k * U) by nia. assert (PU' : 0 <= hmag k' * U) by nia.
  assert (INJ : hmag k' = hmag k -> k' = k) by (apply hmag_inj; lia).
  assert (INJ0 : hmag k = 0 -> k = 0) by (intros K; apply hmag_inj; [lia|lia|rewrite K; reflexivity]).
  destruct (Z.eqb_spec s 0) as [S|S], (Z.eqb_spec s' 0) as [S'|S'].
  - split; [exact N1|]. intros D T. apply N2; [|exact T]. intros ->. now apply D.
  - split; [lia|]. intros D T.
    assert (hmag k' * U = 0) by lia. apply N4; [|lia]. intros K. subst k. rewrite Z0 in *. lia.
  - split; [lia|]. intros D T.
    assert (hmag k' * U = 0) by lia. apply N4; [|lia]. intros K. subst k. rewrite Z0 in *. lia.
  - split; [lia|]. intros D T. apply N2; [|lia]. intros ->. now apply D.
Qed.

Lemma nearest_normal e m : 113 <= e <= 142 -> 0 <= m < 2 ^ 23 -> dmag e m < 31744 ->
  nearest_mag ((2 ^ 23 + m) * 2 ^ (e - 1)) (dmag e m).
Proof.
  intros He Hm Hfin. set (E := e - 112).
  assert (D : dmag e m = E * 1024 + rne m).
  { unfold dmag. destruct (Z.eqb_spec e 255); [lia|]. destruct (Z.ltb_spec 142 e); [lia|].
    destruct (Z.ltb_spec e 103); [lia|]. destruct (Z.leb_spec 113 e); [reflexivity|lia]. }
  assert (R := rne_bounds m 1024 ltac:(lia)). rewrite D in *. 
  assert (HE : 1 <= E) by lia.
  set (S := 2 ^ (e - 1)). assert (Spos : 0 < S) by (apply Z.pow_pos_nonneg; lia).
  assert (Sc : forall r, 0 <= r <= 1024 -> hmag (E * 1024 + r) * 2 ^ 125 = (2 ^ 23 + r * 2 ^ 13) * S).
  { intros r Hr. rewrite hmag_normal by lia. unfold S. replace (e - 1) with ((E - 1) + 112) by lia.
    rewrite Z.pow_add_r by lia. change (2 ^ 125) with (2 ^ 112 * 2 ^ 13). change (2 ^ 23) with (1024 * 2 ^ 13). ring. }
  assert (Di : forall r, 0 <= r <= 1024 -> Z.abs (hmag (E * 1024 + r) * 2 ^ 125 - (2 ^ 23 + m) * S) = Z.abs (r * 2 ^ 13 - m) * S).
  { intros r Hr. rewrite Sc by exact Hr. replace ((2 ^ 23 + r * 2 ^ 13) * S - (2 ^ 23 + m) * S) with ((r * 2 ^ 13 - m) * S) by ring.
    rewrite Z.abs_mul. rewrite (Z.abs_eq S) by lia. reflexivity. }
  assert (EV : Z.even (E * 1024 + rne m) = Z.even (rne m)).
  { rewrite Z.even_add, Z.even_mul. change (Z.even 1024) with true. rewrite orb_true_r. now destruct (Z.even (rne m)). }
  split; [lia|]. intros k' Hk'. rewrite EV.
  assert (Main : forall r, 0 <= r <= 1024 ->
    Z.abs (hmag (E * 1024 + rne m) * 2 ^ 125 - (2 ^ 23 + m) * S) <= Z.abs (hmag (E * 1024 + r) * 2 ^ 125 - (2 ^ 23 + m) * S) /\
    (E * 1024 + r <> E * 1024 + rne m ->
     Z.abs (hmag (E * 1024 + rne m) * 2 ^ 125 - (2 ^ 23 + m) * S) = Z.abs (hmag (E * 1024 + r) * 2 ^ 125 - (2 ^ 23 + m) * S) ->
     Z.even (rne m) = true)).
  { intros r Hr. rewrite !Di by lia. destruct (rne_spec m ltac:(lia) r) as [A B]. split; [nia|].
    intros K T. apply B; [lia|]. apply Z.mul_reg_r in T; lia. }
  destruct (Z.lt_ge_cases k' (E * 1024)) as [Lo|Lo]; [|destruct (Z.lt_ge_cases ((E + 1) * 1024) k') as [Hi|Hi]].
  - assert (L := hmag_mono k' (E * 1024) ltac:(lia)). destruct (Main 0 ltac:(lia)) as [A _].
    assert (S0 := Sc 0 ltac:(lia)). rewrite Z.add_0_r in *.
    assert (hmag k' * 2 ^ 125 < hmag (E * 1024) * 2 ^ 125) by (apply Z.mul_lt_mono_pos_r; lia).
    assert (hmag (E * 1024) * 2 ^ 125 <= (2 ^ 23 + m) * S) by (rewrite S0; apply Z.mul_le_mono_nonneg_r; lia).
    split; lia.
  - assert (L := hmag_mono ((E + 1) * 1024) k' ltac:(lia)). destruct (Main 1024 ltac:(lia)) as [A _].
    assert (S0 := Sc 1024 ltac:(lia)). replace (E * 1024 + 1024) with ((E + 1) * 1024) in * by lia.
    assert (hmag ((E + 1) * 1024) * 2 ^ 125 < hmag k' * 2 ^ 125) by (apply Z.mul_lt_mono_pos_r; lia).
    assert ((2 ^ 23 + m) * S <= hmag ((E + 1) * 1024) * 2 ^ 125) by (rewrite S0; apply Z.mul_le_mono_nonneg_r; lia).
    split; lia.
  - specialize (Main (k' - E * 1024) ltac:(lia)). replace (E * 1024 + (k' - E * 1024)) with k' in Main by lia. exact Main.
Qed.

(** Below 2^-14. *)
Lemma hmag_small k : 0 <= k <= 1024 -> hmag k = k.
Proof. intros H. destruct (Z.eq_dec k 1024) as [->|]; [reflexivity|]. unfold hmag. destruct (Z.ltb_spec k 1024); lia. Qed.

Lemma dmag_small e m : e < 113 -> 0 <= e -> 0 <= m < 2 ^ 23 -> 103 <= e ->
  let y := (2 ^ 23 + m) / 2 ^ (113 - e) in
  dmag e m = rne y /\ 0 <= y < 2 ^ 23 /\ 0 <= rne y <= 1024 /\
  y * 2 ^ 112 <= (2 ^ 23 + m) * 2 ^ (e - 1) < (y + 1) * 2 ^ 112.
Proof.
  intros H1 H2 Hm H3 y. assert (P : 2 ^ 1 <= 2 ^ (113 - e)) by (apply Z.pow_le_mono_r; lia).
  assert (Y : 0 <= y < 2 ^ 23) by (unfold y; split; [apply Z.div_pos; lia|apply Z.div_lt_upper_bound; nia]).
  split; [|split; [exact Y|split; [apply rne_bounds; lia|]]].
  - unfold dmag. destruct (Z.eqb_spec e 255); [lia|]. destruct (Z.ltb_spec 142 e); [lia|].
    destruct (Z.ltb_spec e 103); [lia|]. destruct (Z.leb_spec 113 e); [lia|]. reflexivity.
  - assert (A := Z.div_mod (2 ^ 23 + m) (2 ^ (113 - e)) ltac:(lia)).
    assert (C := Z.mod_pos_bound (2 ^ 23 + m) (2 ^ (113 - e)) ltac:(lia)). fold y in A.
    assert (Q : 2 ^ 112 = 2 ^ (113 - e) * 2 ^ (e - 1)) by (rewrite <- Z.pow_add_r by lia; f_equal; lia).
    rewrite Q. assert (0 < 2 ^ (e - 1)) by (apply Z.pow_pos_nonneg; lia).
    set (a := 2 ^ (113 - e)) in *. set (b := 2 ^ (e - 1)) in *. clearbody a b. split; nia.
Qed.

Lemma nearest_subnormal e m : 103 <= e < 113 -> 0 <= m < 2 ^ 23 ->
  (2 ^ 23 + m) mod 2 ^ (113 - e) = 0 ->
  nearest_mag ((2 ^ 23 + m) * 2 ^ (e - 1)) (dmag e m).
Proof.
  intros He Hm Ex. destruct (dmag_small e m ltac:(lia) ltac:(lia) Hm ltac:(lia)) as (D & Y & R & _).
  set (y := (2 ^ 23 + m) / 2 ^ (113 - e)) in *. rewrite D.
  assert (P : 0 < 2 ^ (113 - e)) by (apply Z.pow_pos_nonneg; lia).
  assert (X : (2 ^ 23 + m) * 2 ^ (e - 1) = y * 2 ^ 112).
  { assert (A := Z.div_mod (2 ^ 23 + m) (2 ^ (113 - e)) ltac:(lia)). rewrite Ex in A. fold y in A.
    replace (2 ^ 112) with (2 ^ (113 - e) * 2 ^ (e - 1)) by (rewrite <- Z.pow_add_r by lia; f_equal; lia).
    rewrite A at 1. ring. }
  rewrite X. split; [lia|]. intros k' Hk'.
  assert (Main : forall r, 0 <= r <= 1024 ->
    Z.abs (hmag (rne y) * 2 ^ 125 - y * 2 ^ 112) <= Z.abs (hmag r * 2 ^ 125 - y * 2 ^ 112) /\
    (r <> rne y -> Z.abs (hmag (rne y) * 2 ^ 125 - y * 2 ^ 112) = Z.abs (hmag r * 2 ^ 125 - y * 2 ^ 112) -> Z.even (rne y) = true)).
  { intros r Hr. rewrite !hmag_small by lia. destruct (rne_spec y ltac:(lia) r) as [A B].
    split; [lia|]. intros K T. apply B; [exact K|]. lia. }
  destruct (Z.le_gt_cases k' 1024) as [Lo|Hi]; [apply Main; lia|].
  assert (L := hmag_mono 1024 k' ltac:(lia)). destruct (Main 1024 ltac:(lia)) as [A _].
  change (hmag 1024) with 1024 in *. split; lia.
Qed.

(** ** Order *)
Lemma rne_mono x y : 0 <= x <= y -> rne x <= rne y.
Proof.
  intros H. destruct (Z.eq_dec x y) as [->|]; [lia|].
  assert (A : forall z, 0 <= z -> Z.abs (rne z * 2 ^ 13 - z) <= 2 ^ 12).
  { intros z Hz. destruct (rne_spec z Hz ((z + 2 ^ 12) / 2 ^ 13)) as [B _].
    assert (A3 := Z.div_mod (z + 2 ^ 12) (2 ^ 13) ltac:(lia)). assert (C3 := Z.mod_pos_bound (z + 2 ^ 12) (2 ^ 13) ltac:(lia)). lia. }
  assert (A1 := A x ltac:(lia)). assert (A2 := A y ltac:(lia)). lia.
Qed.

(** Lexicographic order of exponent and fraction, infinity included. *)
Lemma dmag_mono e m e' m' : 0 <= e -> 0 <= m < 2 ^ 23 -> 0 <= m' < 2 ^ 23 -> e' <= 255 ->
  (e = 255 -> m = 0) -> (e' = 255 -> m' = 0) -> e < e' \/ (e = e' /\ m <= m') ->
  0 <= dmag e m <= dmag e' m' /\ dmag e' m' <= 31744.
Proof.
  intros He Hm Hm' He' I I' L.
  assert (Top : forall e m, 0 <= e <= 255 -> 0 <= m < 2 ^ 23 -> (e = 255 -> m = 0) -> 0 <= dmag e m <= 31744).
  { intros e0 m0 A B C. unfold dmag. destruct (Z.eqb_spec e0 255).
    - destruct (Z.eqb_spec m0 0); lia.
    - destruct (Z.ltb_spec 142 e0); [lia|]. destruct (Z.ltb_spec e0 103); [lia|].
      destruct (Z.leb_spec 113 e0).
      + assert (R := rne_bounds m0 1024 ltac:(lia)). lia.
      + assert (0 <= rne ((2 ^ 23 + m0) / 2 ^ (113 - e0)) <= 1024); [|lia].
        destruct (dmag_small e0 m0 ltac:(lia) ltac:(lia) B ltac:(lia)) as (_ & _ & R & _). exact R. }
  assert (T := Top e m ltac:(lia) Hm I). assert (T' := Top e' m' ltac:(lia) Hm' I').
  split; [|lia]. split; [lia|].
  destruct (Z.le_gt_cases 143 e') as [G'|G'].
  { assert (dmag e' m' = 31744); [|lia]. unfold dmag. destruct (Z.eqb_spec e' 255).
    - destruct (Z.eqb_spec m' 0); lia.
    - destruct (Z.ltb_spec 142 e'); lia. }
  destruct (Z.lt_ge_cases e 103) as [G|G].
  { assert (dmag e m = 0); [|lia]. unfold dmag. destruct (Z.eqb_spec e 255); [lia|].
    destruct (Z.ltb_spec 142 e); [lia|]. destruct (Z.ltb_spec e 103); lia. }
  destruct (Z.lt_ge_cases e' 113) as [N'|N'].
  - destruct (dmag_small e m ltac:(lia) ltac:(lia) Hm ltac:(lia)) as (-> & Y & _).
    destruct (dmag_small e' m' ltac:(lia) ltac:(lia) Hm' ltac:(lia)) as (-> & Y' & _).
    apply rne_mono. split; [lia|]. destruct L as [L|[-> L]].
    + assert (P : 0 < 2 ^ (113 - e)) by (apply Z.pow_pos_nonneg; lia).
      assert (P' : 0 < 2 ^ (113 - e')) by (apply Z.pow_pos_nonneg; lia).
      assert (Q : 2 ^ (113 - e) = 2 ^ (113 - e') * 2 * 2 ^ (e' - e - 1)).
      { change 2 with (2 ^ 1) at 3. rewrite <- !Z.pow_add_r by lia. f_equal. lia. }
      assert (P2 : 1 <= 2 ^ (e' - e - 1)) by (assert (0 < 2 ^ (e' - e - 1)) by (apply Z.pow_pos_nonneg; lia); lia).
      apply Z.div_le_lower_bound; [exact P'|].
      assert (A := Z.mul_div_le (2 ^ 23 + m) (2 ^ (113 - e)) P). 
      set (q := (2 ^ 23 + m) / 2 ^ (113 - e)) in *.
      assert (2 * (2 ^ (113 - e') * q) <= 2 ^ (113 - e) * q) ; [|lia].
      rewrite Q. clear - Y P' P2. clearbody q. set (a := 2 ^ (113 - e')) in *. set (b := 2 ^ (e' - e - 1)) in *. clearbody a b.
      assert (0 <= a * q) by nia. nia.
    + apply Z.div_le_mono; [apply Z.pow_pos_nonneg; lia|lia].
  - assert (D' : dmag e' m' = (e' - 112) * 1024 + rne m').
    { unfold dmag. destruct (Z.eqb_spec e' 255); [lia|]. destruct (Z.ltb_spec 142 e'); [lia|].
      destruct (Z.ltb_spec e' 103); [lia|]. destruct (Z.leb_spec 113 e'); [reflexivity|lia]. }
    assert (R' := rne_bounds m' 1024 ltac:(lia)). rewrite D'.
    destruct (Z.lt_ge_cases e 113) as [N|N].
    + destruct (dmag_small e m ltac:(lia) ltac:(lia) Hm ltac:(lia)) as (-> & _ & R & _). lia.
    + assert (D : dmag e m = (e - 112) * 1024 + rne m).
      { unfold dmag. destruct (Z.eqb_spec e 255); [lia|]. destruct (Z.ltb_spec 142 e); [lia|].
        destruct (Z.ltb_spec e 103); [lia|]. destruct (Z.leb_spec 113 e); [reflexivity|lia]. }
      assert (R := rne_bounds m 1024 ltac:(lia)). rewrite D. destruct L as [L|[-> L]]; [lia|].
      assert (X := rne_mono m m' ltac:(lia)). lia.
Qed.

(** Magnitudes of floats are ordered as their fields. *)
Lemma float_mag_lt e m e' m' : 0 <= e -> 0 <= m < 2 ^ 23 -> 0 <= m' < 2 ^ 23 -> e < e' \/ (e = e' /\ m < m') ->
  (if e =? 0 then m else (2 ^ 23 + m) * 2 ^ (e - 1)) < (if e' =? 0 then m' else (2 ^ 23 + m') * 2 ^ (e' - 1)).
Proof.
  intros He Hm Hm' L. destruct (Z.eqb_spec e 0) as [E|E], (Z.eqb_spec e' 0) as [E'|E']; cbv iota; try lia.
  assert (0 < 2 ^ (e - 1)) by (apply Z.pow_pos_nonneg; lia). destruct L as [L|[<- L]]; [|apply Z.mul_lt_mono_pos_r; lia].
    replace (e' - 1) with ((e - 1) + 1 + (e' - e - 1)) by lia. rewrite !Z.pow_add_r by lia.
    assert (1 <= 2 ^ (e' - e - 1)) by (assert (0 < 2 ^ (e' - e - 1)) by (apply Z.pow_pos_nonneg; lia); lia).
    change (2 ^ 1) with 2. set (a := 2 ^ (e - 1)) in *. set (b := 2 ^ (e' - e - 1)) in *. clearbody a b.
    assert ((2 ^ 23 + m) * a < 2 ^ 24 * a) by (apply Z.mul_lt_mono_pos_r; lia).
    assert (a * 1 <= a * b) by (apply Z.mul_le_mono_nonneg_l; lia).
    assert (2 ^ 23 * (a * 2 * b) <= (2 ^ 23 + m') * (a * 2 * b)) by (apply Z.mul_le_mono_nonneg_r; lia). lia.
Qed.
