(** Comparisons. *)
From Coq Require Import ZArith Bool List Lia.
From Verif Require Import HalfModel HalfSpec HalfProofs HalfProofs2.
Import ListNotations.
Local Open Scope Z_scope.

(** ** Floats *)
Definition signed (s k : Z) : Z := if s =? 0 then k else - k.
Lemma float_key x : float_bits x ->
  order_key Float x = signed (sign_of 8 23 x) (exponent_of 8 23 x * 2 ^ 23 + fraction_of 23 x).
Proof.
  intros H. destruct (float_fields x H) as (E & Hs & He & Hm). cbn zeta in *.
  set (s := sign_of 8 23 x) in *. set (e := exponent_of 8 23 x) in *. set (m := fraction_of 23 x) in *.
  clearbody s e m. unfold order_key. change (sign_mask Float) with (2 ^ 31). rewrite land_mask, land_bit by lia.
  assert (D : x / 2 ^ 31 = s) by (symmetry; apply Z.div_unique with (e * 2 ^ 23 + m); lia).
  assert (M : x mod 2 ^ 31 = e * 2 ^ 23 + m) by (symmetry; apply Z.mod_unique with s; lia).
  rewrite D, M, (Z.mod_small s 2) by lia. unfold signed.
  destruct (Z.eqb_spec (s * 2 ^ 31) 0), (Z.eqb_spec s 0); try lia; reflexivity.
Qed.

(** Odd extensions of increasing functions. *)
Lemma signed_order (f : Z -> Z) s k s' k' : f 0 = 0 -> (forall a b, 0 <= a < b -> f a < f b) -> 0 <= k -> 0 <= k' ->
  (signed s k < signed s' k' <-> signed s (f k) < signed s' (f k')) /\
  (signed s k = signed s' k' <-> signed s (f k) = signed s' (f k')).
Proof.
  intros F0 Fm Hk Hk'. assert (M1 := Fm k k'). assert (M2 := Fm k' k). assert (M3 := Fm 0 k). assert (M4 := Fm 0 k').
  assert (E : k = k' -> f k = f k') by (intros ->; reflexivity).
  assert (E0 : k = 0 -> f k = 0) by (intros ->; exact F0). assert (E0' : k' = 0 -> f k' = 0) by (intros ->; exact F0).
  unfold signed. destruct (s =? 0), (s' =? 0); lia.
Qed.

Definition fmag (k : Z) : Z :=
  if k / 2 ^ 23 =? 0 then k mod 2 ^ 23 else (2 ^ 23 + k mod 2 ^ 23) * 2 ^ (k / 2 ^ 23 - 1).
Lemma fmag_mono a b : 0 <= a < b -> fmag a < fmag b.
Proof.
  intros H. unfold fmag.
  assert (A := Z.div_mod a (2 ^ 23) ltac:(lia)). assert (C := Z.mod_pos_bound a (2 ^ 23) ltac:(lia)).
  assert (A' := Z.div_mod b (2 ^ 23) ltac:(lia)). assert (C' := Z.mod_pos_bound b (2 ^ 23) ltac:(lia)).
  apply float_mag_lt; [apply Z.div_pos; lia|lia|lia|].
  destruct (Z.lt_trichotomy (a / 2 ^ 23) (b / 2 ^ 23)) as [K|[K|K]]; [now left|right; lia|].
  exfalso. assert ((b / 2 ^ 23) <= (a / 2 ^ 23) - 1) by lia. lia.
Qed.
Lemma float_number x : float_bits x ->
  number 8 23 x = signed (sign_of 8 23 x) (fmag (exponent_of 8 23 x * 2 ^ 23 + fraction_of 23 x)).
Proof.
  intros H. destruct (float_fields x H) as (_ & Hs & He & Hm). cbn zeta in *. unfold number, magnitude, signed, fmag.
  set (e := exponent_of 8 23 x) in *. set (m := fraction_of 23 x) in *. clearbody e m.
  replace (e * 2 ^ 23 + m) with (m + e * 2 ^ 23) by lia. rewrite Z.div_add, Z.mod_add, Z.div_small, Z.mod_small by lia.
  rewrite Z.add_0_l. reflexivity.
Qed.
Lemma float_key_order x y : float_bits x -> float_bits y ->
  (order_key Float x < order_key Float y <-> number 8 23 x < number 8 23 y) /\
  (order_key Float x = order_key Float y <-> number 8 23 x = number 8 23 y).
Proof.
  intros Hx Hy. rewrite (float_key x Hx), (float_key y Hy), (float_number x Hx), (float_number y Hy).
  destruct (float_fields x Hx) as (_ & _ & He & Hm). destruct (float_fields y Hy) as (_ & _ & He' & Hm'). cbn zeta in *.
  apply signed_order; [reflexivity|exact fmag_mono|lia|lia].
Qed.
Lemma float_nan x : float_bits x -> (is_nan Float x = true <-> nan 8 23 x).
Proof.
  intros H. destruct (float_fields x H) as (E & Hs & He & Hm). cbn zeta in *.
  assert (E1 : significand Float x = fraction_of 23 x).
  { unfold significand. change (sig_mask Float) with (2 ^ 23 - 1). rewrite land_mask by lia. reflexivity. }
  assert (E2 : signed_exponent Float x = exponent_of 8 23 x - 127).
  { unfold signed_exponent. change (exp_mask Float) with (2 ^ 8 - 1). rewrite land_mask by lia.
    rewrite Z.shiftr_div_pow2 by (cbn; lia). reflexivity. }
  unfold is_nan, nan. rewrite E1, E2. change (exp_max Float + 1) with 128. change (2 ^ 8 - 1) with 255.
  destruct (Z.eqb_spec (exponent_of 8 23 x - 127) 128), (Z.eqb_spec (fraction_of 23 x) 0); cbn; split; try discriminate; lia.
Qed.

(** ** Halfs *)
Lemma half_number h s k : h = s * 2 ^ 15 + k -> 0 <= s <= 1 -> 0 <= k < 2 ^ 15 -> number 5 10 h = signed s (hmag k).
Proof.
  intros -> Hs Hk. destruct (half_value_mag s k Hs Hk) as (V & _). unfold half_value in V. unfold signed.
  apply Z.mul_reg_r in V; [exact V|lia].
Qed.

Definition okey (h : Z) : Z := order_key Float (float_of_half h).
(** Exponent and fraction of the float for the lower 15 bits of the half; beyond
    the largest half continued by a straight line. *)
Definition umag' (k : Z) : Z :=
  if k <? 1024 then umag 0 k
  else if k <? 31744 then 112 * 2 ^ 23 + k * 2 ^ 13 else 255 * 2 ^ 23 + (k - 31744) * 2 ^ 13.
Lemma umag_low : allb (fun k => umag 0 k <? umag' (k + 1)) 10 0 = true.
Proof. vm_compute. reflexivity. Qed.
Lemma umag_mono a b : 0 <= a < b -> umag' a < umag' b.
Proof.
  intros [Ha Hb]. assert (Step : forall k, 0 <= k -> umag' k < umag' (k + 1)).
  { intros k Hk. destruct (Z.lt_ge_cases k 1024) as [L|L].
    - assert (X := allb_spec _ 10 0 umag_low k). change (0 * 2 ^ Z.of_nat 10) with 0 in X.
      change ((0 + 1) * 2 ^ Z.of_nat 10) with 1024 in X. specialize (X (conj Hk L)). apply Z.ltb_lt in X.
      unfold umag' at 1. destruct (Z.ltb_spec k 1024); [exact X|lia].
    - unfold umag'. destruct (Z.ltb_spec k 1024), (Z.ltb_spec (k + 1) 1024); try lia.
      destruct (Z.ltb_spec k 31744), (Z.ltb_spec (k + 1) 31744); lia. }
  replace b with (a + 1 + Z.of_nat (Z.to_nat (b - a - 1))) by lia.
  induction (Z.to_nat (b - a - 1)) as [|j IH].
  - rewrite Nat2Z.inj_0, Z.add_0_r. now apply Step.
  - eapply Z.lt_trans; [exact IH|]. replace (a + 1 + Z.of_nat (S j)) with (a + 1 + Z.of_nat j + 1) by lia. apply Step. lia.
Qed.
Lemma half_key h s k : h = s * 2 ^ 15 + k -> 0 <= s <= 1 -> 0 <= k < 2 ^ 15 -> okey h = signed s (umag' k).
Proof.
  intros -> Hs Hk. assert (A := Z.div_mod k 1024 ltac:(lia)). assert (C := Z.mod_pos_bound k 1024 ltac:(lia)).
  assert (Hd : 0 <= k / 1024 < 32) by (split; [apply Z.div_pos; lia|apply Z.div_lt_upper_bound; lia]).
  set (e := k / 1024) in *. set (m := k mod 1024) in *. clearbody e m.
  unfold okey. replace (s * 2 ^ 15 + k) with (s * 2 ^ 15 + e * 2 ^ 10 + m) by lia. rewrite float_of_half_fields by lia.
  assert (U : umag' k = umag e m).
  { unfold umag'. destruct (Z.ltb_spec k 1024); [f_equal; lia|]. unfold umag.
    destruct (Z.ltb_spec k 31744), (Z.eqb_spec e 31); try lia. destruct (Z.eqb_spec e 0); lia. }
  rewrite U. destruct (umag_fields e m ltac:(lia) ltac:(lia)) as (E & M & -> & HE & HM & _).
  destruct (float_fields_of s E M Hs HE HM) as (F1 & F2 & F3 & F4). rewrite (float_key _ F4), F1, F2, F3. reflexivity.
Qed.
Lemma half_key_order a b : half_bits a -> half_bits b ->
  (okey a < okey b <-> number 5 10 a < number 5 10 b) /\ (okey a = okey b <-> number 5 10 a = number 5 10 b).
Proof.
  intros Ha Hb. destruct (half_split a Ha) as (s & k & E & Hs & Hk & _). destruct (half_split b Hb) as (s' & k' & E' & Hs' & Hk' & _).
  rewrite (half_key a s k E Hs Hk), (half_key b s' k' E' Hs' Hk'), (half_number a s k E Hs Hk), (half_number b s' k' E' Hs' Hk').
  destruct (signed_order umag' s k s' k' eq_refl umag_mono ltac:(lia) ltac:(lia)) as [A1 A2].
  destruct (signed_order hmag s k s' k' eq_refl hmag_mono ltac:(lia) ltac:(lia)) as [B1 B2].
  tauto.
Qed.
Lemma half_nan h : half_bits h -> (is_nan Float (float_of_half h) = true <-> nan 5 10 h).
Proof.
  intros H. destruct (up_spec h H) as (B & _ & F & I & N & _). cbn zeta in *. rewrite (float_nan _ B). split; [|exact N].
  intros [E1 E2]. unfold half_finite, float_finite, finite, infinite, nan in *.
  destruct (Z.eq_dec (exponent_of 5 10 h) (2 ^ 5 - 1)) as [K|K].
  - split; [exact K|]. intros Z. destruct (I (conj K Z)). contradiction.
  - destruct (F K). contradiction.
Qed.
Lemma half_lt_spec a b : half_bits a -> half_bits b ->
  (half_lt a b = true <-> ~ nan 5 10 a /\ ~ nan 5 10 b /\ number 5 10 a < number 5 10 b).
Proof.
  intros Ha Hb. unfold half_lt, float_lt. rewrite !andb_true_iff, !negb_true_iff, <- !not_true_iff_false.
  rewrite (half_nan a Ha), (half_nan b Hb), Z.ltb_lt. destruct (half_key_order a b Ha Hb) as [K _]. unfold okey in K. tauto.
Qed.
