(** C41-C43: the half precision type. *)
From Coq Require Import ZArith Bool List Lia.
From Verif Require Import HalfModel HalfSpec HalfProofs HalfProofs2 HalfProofs3.
Import ListNotations.
Local Open Scope Z_scope.

(** ** C41: every half is exactly represented as a float and comes back unchanged.
    Numbers keep their value, infinities their sign, and what is not a number its
    bits. *)
Theorem C41_to_float_and_back : forall h, half_bits h ->
  let x := float_of_half h in
  float_bits x /\ sign_of 8 23 x = sign_of 5 10 h /\
  (half_finite h -> float_finite x /\ float_value x = half_value h) /\
  (infinite 5 10 h -> infinite 8 23 x) /\
  (nan 5 10 h -> nan 8 23 x) /\
  half_of_float x = h.
Proof. intros h H. destruct (up_spec h H) as (A & B & C & D & E & F & _). auto 7. Qed.
Print Assumptions C41_to_float_and_back.

(** The detour through a number of type float (upconvert_to returns a float, not
    its bits) loses nothing. *)
Theorem C41_detour : forall h, half_bits h -> float_of_half h = upconvert_bits Half Float h.
Proof. intros h H. symmetry. apply up_spec. exact H. Qed.
Print Assumptions C41_detour.

Example C41_example :
  float_of_half 0x3C00 = 0x3F800000 /\ float_of_half 0xC500 = 0xC0A00000 /\
  float_of_half 0x0001 = 0x33800000 /\ float_of_half 0x7BFF = 0x477FE000 /\
  float_of_half 0xFC00 = 0xFF800000 /\ float_of_half 0x7E01 = 0x7FC02000 /\ float_of_half 0x8000 = 0x80000000.
Proof. vm_compute. auto 10. Qed.

(** ** C42: conversion of a float to half *)

Lemma float_value_fields x : float_bits x ->
  let e := exponent_of 8 23 x in let m := fraction_of 23 x in
  float_value x = (if sign_of 8 23 x =? 0 then (if e =? 0 then m else (2 ^ 23 + m) * 2 ^ (e - 1))
                   else - (if e =? 0 then m else (2 ^ 23 + m) * 2 ^ (e - 1))) /\
  half_of_float x = sign_of 8 23 x * 2 ^ 15 + dmag e m /\ 0 <= sign_of 8 23 x <= 1 /\ 0 <= e < 256 /\ 0 <= m < 2 ^ 23.
Proof.
  intros H. destruct (float_fields x H) as (E & Hs & He & Hm). cbn zeta in *.
  split; [reflexivity|]. split; [|auto]. rewrite E at 1. now apply half_of_float_fields.
Qed.

(** At least 2^-14 (the smallest normal half) and less than 65520 (half way from
    the largest half to the next power of two): the nearest half, ties to even.
    65520 and more, and infinity: infinity of the same sign. *)
Theorem C42_normal_partial : forall x, float_bits x -> float_finite x ->
  2 ^ 135 <= Z.abs (float_value x) ->
  (Z.abs (float_value x) < 65520 * 2 ^ 149 -> nearest_half (float_value x) (half_of_float x)) /\
  (65520 * 2 ^ 149 <= Z.abs (float_value x) ->
   infinite 5 10 (half_of_float x) /\ sign_of 5 10 (half_of_float x) = sign_of 8 23 x).
Proof.
  intros x H Hf Hn. destruct (float_value_fields x H) as (V & D & Hs & He & Hm). cbn zeta in *.
  unfold float_finite, finite in Hf. change (2 ^ 8 - 1) with 255 in Hf.
  set (s := sign_of 8 23 x) in *. set (e := exponent_of 8 23 x) in *. set (m := fraction_of 23 x) in *. clearbody s e m.
  set (X := if e =? 0 then m else (2 ^ 23 + m) * 2 ^ (e - 1)) in *.
  assert (PX : 0 <= X).
  { unfold X. destruct (Z.eqb_spec e 0); [lia|]. assert (0 < 2 ^ (e - 1)) by (apply Z.pow_pos_nonneg; lia).
    apply Z.mul_nonneg_nonneg; lia. }
  assert (AX : Z.abs (float_value x) = X) by (rewrite V; destruct (s =? 0); lia).
  rewrite AX in *.
  assert (He1 : 113 <= e).
  { destruct (Z.le_gt_cases 113 e) as [K|K]; [exact K|]. exfalso.
    assert (X < (if 113 =? 0 then 0 else (2 ^ 23 + 0) * 2 ^ (113 - 1))) by (apply float_mag_lt; lia).
    change (if 113 =? 0 then 0 else (2 ^ 23 + 0) * 2 ^ (113 - 1)) with (2 ^ 135) in H0. lia. }
  assert (EX : X = (2 ^ 23 + m) * 2 ^ (e - 1)) by (unfold X; destruct (Z.eqb_spec e 0); [lia|reflexivity]).
  assert (Thr : dmag e m < 31744 <-> X < 65520 * 2 ^ 149).
  { assert (TX : 65520 * 2 ^ 149 = (if 142 =? 0 then 2 ^ 23 - 2 ^ 12 else (2 ^ 23 + (2 ^ 23 - 2 ^ 12)) * 2 ^ (142 - 1))) by reflexivity.
    assert (Dn : e <= 142 -> dmag e m = (e - 112) * 1024 + rne m).
    { intros K. unfold dmag. destruct (Z.eqb_spec e 255); [lia|]. destruct (Z.ltb_spec 142 e); [lia|].
      destruct (Z.ltb_spec e 103); [lia|]. destruct (Z.leb_spec 113 e); [reflexivity|lia]. }
    assert (R := rne_bounds m 1024 ltac:(lia)).
    assert (Rt : rne (2 ^ 23 - 2 ^ 12) = 1024) by reflexivity.
    destruct (Z.lt_trichotomy e 142) as [K|[K|K]].
    - split; [intros _|rewrite Dn; lia]. rewrite TX. apply float_mag_lt; lia.
    - rewrite Dn by lia. rewrite K in *. split.
      + intros L. rewrite TX. unfold X. apply float_mag_lt; try lia. right. split; [first [reflexivity|exact K]|].
        destruct (Z.lt_ge_cases m (2 ^ 23 - 2 ^ 12)) as [|G]; [assumption|].
        assert (Y := rne_mono (2 ^ 23 - 2 ^ 12) m ltac:(lia)). lia.
      + intros L. assert (Lm : m < 2 ^ 23 - 2 ^ 12).
        { destruct (Z.lt_ge_cases m (2 ^ 23 - 2 ^ 12)) as [|G]; [assumption|]. exfalso.
          change (65520 * 2 ^ 149) with ((2 ^ 23 + (2 ^ 23 - 2 ^ 12)) * 2 ^ (142 - 1)) in L. rewrite EX in L.
          apply Z.mul_lt_mono_pos_r in L; [lia|reflexivity]. }
        assert (rne m <= 1023); [|lia].
        destruct (rne_spec m ltac:(lia) 1023) as [Q1 _]. lia.
    - assert (dmag e m = 31744).
      { unfold dmag. destruct (Z.eqb_spec e 255); [lia|]. destruct (Z.ltb_spec 142 e); lia. }
      split; [lia|]. intros L. exfalso.
      assert (65520 * 2 ^ 149 < X); [|lia]. rewrite TX. apply float_mag_lt; lia. }
  assert (Top : 0 <= dmag e m <= 31744) by (destruct (dmag_mono e m e m) as [? ?]; lia).
  split.
  - intros L. apply Thr in L. rewrite V, D.
    assert (e <= 142).
    { destruct (Z.le_gt_cases e 142) as [K|K]; [exact K|]. exfalso. unfold dmag in L.
      destruct (Z.eqb_spec e 255); [lia|]. destruct (Z.ltb_spec 142 e); lia. }
    apply nearest_signed; [exact Hs|exact PX|]. rewrite EX. apply nearest_normal; lia.
  - intros G. assert (DD : dmag e m = 31744) by lia. rewrite D, DD.
    destruct (half_value_mag s 31744 Hs ltac:(lia)) as (_ & F1 & F2 & _ & F3).
    split; [split; [rewrite F1; reflexivity|rewrite F2; reflexivity]|exact F3].
Qed.
Print Assumptions C42_normal_partial.

(** Less than 2^-14: the error is less than the distance 2^-24 of two halfs, the
    sign is kept, and multiples of 2^-37 from 2^-24 on are rounded to the nearest
    half, ties to even.  Missing: the nearest half for all other floats (see the
    refutations). *)
Theorem C42_subnormal_partial : forall x, float_bits x -> Z.abs (float_value x) < 2 ^ 135 ->
  half_bits (half_of_float x) /\ half_finite (half_of_float x) /\
  sign_of 5 10 (half_of_float x) = sign_of 8 23 x /\
  Z.abs (half_value (half_of_float x) - float_value x) < 2 ^ 125 /\
  (2 ^ 125 <= Z.abs (float_value x) -> float_value x mod 2 ^ 112 = 0 ->
   nearest_half (float_value x) (half_of_float x)).
Proof.
  intros x H Hn. destruct (float_value_fields x H) as (V & D & Hs & He & Hm). cbn zeta in *.
  set (s := sign_of 8 23 x) in *. set (e := exponent_of 8 23 x) in *. set (m := fraction_of 23 x) in *. clearbody s e m.
  set (X := if e =? 0 then m else (2 ^ 23 + m) * 2 ^ (e - 1)) in *.
  assert (PX : 0 <= X).
  { unfold X. destruct (Z.eqb_spec e 0); [lia|]. assert (0 < 2 ^ (e - 1)) by (apply Z.pow_pos_nonneg; lia).
    apply Z.mul_nonneg_nonneg; lia. }
  assert (AX : Z.abs (float_value x) = X) by (rewrite V; destruct (s =? 0); lia).
  rewrite AX in *.
  assert (He1 : e < 113).
  { destruct (Z.lt_ge_cases e 113) as [K|K]; [exact K|]. exfalso.
    assert (2 ^ 135 <= X); [|lia]. destruct (Z.eq_dec e 113) as [->|].
    - unfold X. change (113 =? 0) with false. cbv iota. change (2 ^ 135) with (2 ^ 23 * 2 ^ (113 - 1)).
      apply Z.mul_le_mono_nonneg_r; lia.
    - apply Z.lt_le_incl. change (2 ^ 135) with (if 113 =? 0 then 0 else (2 ^ 23 + 0) * 2 ^ (113 - 1)). apply float_mag_lt; lia. }
  assert (Small : 0 <= dmag e m <= 1024 /\ Z.abs (dmag e m * 2 ^ 125 - X) < 2 ^ 125 /\
          (2 ^ 125 <= X -> 103 <= e)).
  { destruct (Z.lt_ge_cases e 103) as [K|K].
    - assert (D0 : dmag e m = 0).
      { unfold dmag. destruct (Z.eqb_spec e 255); [lia|]. destruct (Z.ltb_spec 142 e); [lia|]. destruct (Z.ltb_spec e 103); lia. }
      assert (X < 2 ^ 125).
      { change (2 ^ 125) with (if 103 =? 0 then 0 else (2 ^ 23 + 0) * 2 ^ (103 - 1)). apply float_mag_lt; lia. }
      rewrite D0. lia.
    - destruct (dmag_small e m He1 ltac:(lia) Hm K) as (-> & Y & R & B).
      assert (EX : X = (2 ^ 23 + m) * 2 ^ (e - 1)) by (unfold X; destruct (Z.eqb_spec e 0); [lia|reflexivity]).
      rewrite <- EX in B. set (y := (2 ^ 23 + m) / 2 ^ (113 - e)) in *.
      destruct (rne_spec y ltac:(lia) ((y + 2 ^ 12) / 2 ^ 13)) as [Q _].
      assert (A3 := Z.div_mod (y + 2 ^ 12) (2 ^ 13) ltac:(lia)). assert (C3 := Z.mod_pos_bound (y + 2 ^ 12) (2 ^ 13) ltac:(lia)).
      lia. }
  destruct Small as (R & Er & E103).
  destruct (half_value_mag s (dmag e m) Hs ltac:(lia)) as (HV & F1 & F2 & F3 & F4). rewrite <- D in *.
  rewrite hmag_small in HV by lia.
  split; [exact F3|]. split.
  { unfold half_finite, finite. rewrite F1. change (2 ^ 5 - 1) with 31. intros K.
    assert (dmag e m / 1024 < 2) by (apply Z.div_lt_upper_bound; lia). lia. }
  split; [exact F4|]. split.
  { rewrite HV, V. destruct (s =? 0); lia. }
  intros Hl Hd. rewrite V, D. apply nearest_signed; [exact Hs|exact PX|].
  specialize (E103 Hl). assert (EX : X = (2 ^ 23 + m) * 2 ^ (e - 1)) by (unfold X; destruct (Z.eqb_spec e 0); [lia|reflexivity]).
  rewrite EX. apply nearest_subnormal; [lia|exact Hm|].
  assert (XM : X mod 2 ^ 112 = 0).
  { destruct (Z.eqb_spec s 0); rewrite V in Hd; [exact Hd|]. apply Z.mod_opp_l_z in Hd; [|lia]. now rewrite Z.opp_involutive in Hd. }
  rewrite EX in XM. replace (2 ^ 112) with (2 ^ (113 - e) * 2 ^ (e - 1)) in XM by (rewrite <- Z.pow_add_r by lia; f_equal; lia).
  assert (0 < 2 ^ (e - 1)) by (apply Z.pow_pos_nonneg; lia). assert (0 < 2 ^ (113 - e)) by (apply Z.pow_pos_nonneg; lia).
  rewrite Z.mul_mod_distr_r in XM by lia. apply Z.mul_eq_0 in XM. lia.
Qed.
Print Assumptions C42_subnormal_partial.

(** What is not finite. *)
Theorem C42_special : forall x, float_bits x ->
  (infinite 8 23 x -> infinite 5 10 (half_of_float x)) /\ (nan 8 23 x -> nan 5 10 (half_of_float x)) /\
  sign_of 5 10 (half_of_float x) = sign_of 8 23 x /\ half_bits (half_of_float x).
Proof.
  intros x H. destruct (float_value_fields x H) as (_ & D & Hs & He & Hm). cbn zeta in *.
  unfold infinite, nan. change (2 ^ 8 - 1) with 255. change (2 ^ 5 - 1) with 31.
  set (s := sign_of 8 23 x) in *. set (e := exponent_of 8 23 x) in *. set (m := fraction_of 23 x) in *. clearbody s e m.
  assert (M : 0 <= m / 2 ^ 13 < 1024) by (split; [apply Z.div_pos; lia|apply Z.div_lt_upper_bound; lia]).
  assert (R : 0 <= dmag e m < 2 ^ 15 /\ (e = 255 -> (m = 0 -> dmag e m = 31744) /\ (m <> 0 -> 31744 < dmag e m < 32768))).
  { destruct (Z.eq_dec e 255) as [->|].
    - unfold dmag. change (255 =? 255) with true. cbv iota. destruct (Z.eqb_spec m 0); lia.
    - split; [|lia]. destruct (dmag_mono e m e m) as [? ?]; lia. }
  destruct R as [R1 R2]. destruct (half_value_mag s (dmag e m) Hs ltac:(lia)) as (_ & F1 & F2 & F3 & F4).
  rewrite <- D in *. rewrite F1, F2. split; [|split; [|auto]].
  - intros [E M0]. destruct (R2 E) as [K _]. rewrite (K M0). split; reflexivity.
  - intros [E M0]. destruct (R2 E) as [_ K]. specialize (K M0).
    assert (A := Z.div_mod (dmag e m) 1024 ltac:(lia)). assert (C := Z.mod_pos_bound (dmag e m) 1024 ltac:(lia)). lia.
Qed.
Print Assumptions C42_special.

(** The conversion respects the order of the numbers, infinities included. *)
Theorem C42_monotone : forall x y, float_bits x -> float_bits y -> ~ nan 8 23 x -> ~ nan 8 23 y ->
  number 8 23 x <= number 8 23 y -> number 5 10 (half_of_float x) <= number 5 10 (half_of_float y).
Proof.
  intros x y Hx Hy Nx Ny L.
  destruct (float_value_fields x Hx) as (V & D & Hs & He & Hm). destruct (float_value_fields y Hy) as (V' & D' & Hs' & He' & Hm').
  cbn zeta in *. unfold float_value in V, V'. unfold nan in Nx, Ny. change (2 ^ 8 - 1) with 255 in *.
  set (s := sign_of 8 23 x) in *. set (e := exponent_of 8 23 x) in *. set (m := fraction_of 23 x) in *.
  set (s' := sign_of 8 23 y) in *. set (e' := exponent_of 8 23 y) in *. set (m' := fraction_of 23 y) in *.
  clearbody s e m s' e' m'.
  assert (Mo : forall e m e' m', 0 <= e < 256 -> 0 <= m < 2 ^ 23 -> 0 <= e' < 256 -> 0 <= m' < 2 ^ 23 ->
     ~ (e = 255 /\ m <> 0) -> ~ (e' = 255 /\ m' <> 0) ->
     (if e =? 0 then m else (2 ^ 23 + m) * 2 ^ (e - 1)) <= (if e' =? 0 then m' else (2 ^ 23 + m') * 2 ^ (e' - 1)) ->
     0 <= dmag e m <= dmag e' m' /\ dmag e' m' <= 31744).
  { clear. intros e m e' m' He Hm He' Hm' N N' L. apply dmag_mono; try lia.
    destruct (Z.lt_trichotomy e e') as [K|[K|K]]; [now left| |].
    - right. split; [exact K|]. destruct (Z.le_gt_cases m m') as [|G]; [assumption|].
      assert (X := float_mag_lt e' m' e m ltac:(lia) Hm' Hm ltac:(right; lia)). lia.
    - assert (X := float_mag_lt e' m' e m ltac:(lia) Hm' Hm ltac:(left; lia)). lia. }
  assert (Zero : forall e m, 0 <= e < 256 -> 0 <= m < 2 ^ 23 -> 0 <= (if e =? 0 then m else (2 ^ 23 + m) * 2 ^ (e - 1))).
  { clear. intros e m He Hm. destruct (Z.eqb_spec e 0); [lia|]. assert (0 < 2 ^ (e - 1)) by (apply Z.pow_pos_nonneg; lia).
    apply Z.mul_nonneg_nonneg; lia. }
  assert (B1 : 0 <= dmag e m <= 31744) by (destruct (Mo e m e m); try assumption; lia).
  assert (B2 : 0 <= dmag e' m' <= 31744) by (destruct (Mo e' m' e' m'); try assumption; lia).
  rewrite (half_number _ s (dmag e m) D Hs) by lia. rewrite (half_number _ s' (dmag e' m') D' Hs') by lia.
  rewrite V, V' in L. unfold signed.
  assert (Z1 := Zero e m He Hm). assert (Z2 := Zero e' m' He' Hm').
  assert (P1 := hmag_pos (dmag e m) ltac:(lia)). assert (P2 := hmag_pos (dmag e' m') ltac:(lia)).
  destruct (Z.eqb_spec s 0), (Z.eqb_spec s' 0).
  - apply hmag_mono_le. apply (Mo e m e' m'); assumption.
  - (* both are zero *)
    assert (A : (if e =? 0 then m else (2 ^ 23 + m) * 2 ^ (e - 1)) <= (if 0 =? 0 then 0 else (2 ^ 23 + 0) * 2 ^ (0 - 1))) by (cbn [Z.eqb]; lia).
    assert (A' : (if e' =? 0 then m' else (2 ^ 23 + m') * 2 ^ (e' - 1)) <= (if 0 =? 0 then 0 else (2 ^ 23 + 0) * 2 ^ (0 - 1))) by (cbn [Z.eqb]; lia).
    destruct (Mo e m 0 0 He Hm ltac:(lia) ltac:(lia) Nx ltac:(lia) A) as [G _].
    destruct (Mo e' m' 0 0 He' Hm' ltac:(lia) ltac:(lia) Ny ltac:(lia) A') as [G' _].
    change (dmag 0 0) with 0 in *. replace (dmag e m) with 0 by lia. replace (dmag e' m') with 0 by lia. reflexivity.
  - lia.
  - assert (hmag (dmag e' m') <= hmag (dmag e m)); [|lia]. apply hmag_mono_le. apply (Mo e' m' e m); try assumption. lia.
Qed.
Print Assumptions C42_monotone.

Example C42_example :
  (* 1/3; the tie 2049 -> 2048; the tie 2051 -> 2052; 65519.996 and 65520; 1.5 * 2^-24 *)
  half_of_float 0x3EAAAAAB = 0x3555 /\ half_of_float 0x45001000 = 0x6800 /\ half_of_float 0x45003000 = 0x6802 /\
  half_of_float 0x477FEFFF = 0x7BFF /\ half_of_float 0x477FF000 = 0x7C00 /\ half_of_float 0x33C00000 = 0x0002 /\
  half_of_float 0xFFC00001 = 0xFE00 /\ half_of_float 0x7F800001 = 0x7C01.
Proof. vm_compute. auto 10. Qed.

(** Between 2^-24 and 2^-14 the bits shifted out first are forgotten before
    rounding: 2.5000002 * 2^-24 becomes 2 * 2^-24, although 3 * 2^-24 is nearer. *)
Theorem C42_sticky_refuted : exists x h', float_bits x /\ float_finite x /\ half_bits h' /\ half_finite h' /\
  Z.abs (half_value h' - float_value x) < Z.abs (half_value (half_of_float x) - float_value x).
Proof.
  exists 0x34200001, 3. unfold float_bits, half_bits, float_finite, half_finite, finite.
  repeat (split; [vm_compute; intuition discriminate|]). vm_compute. reflexivity.
Qed.
Print Assumptions C42_sticky_refuted.

(** More than half of the smallest half becomes zero: 1.75 * 2^-25. *)
Theorem C42_underflow_refuted : exists x, float_bits x /\ float_finite x /\ half_of_float x = 0 /\
  Z.abs (half_value 1 - float_value x) < Z.abs (half_value 0 - float_value x).
Proof.
  exists 0x33600000. unfold float_bits, float_finite, finite.
  repeat (split; [vm_compute; intuition discriminate|]). vm_compute. reflexivity.
Qed.
Print Assumptions C42_underflow_refuted.

(** ** C43: comparisons *)

(** [<] and [>] compare the numbers; nothing is less than what is not a number. *)
Theorem C43_less : forall a b, half_bits a -> half_bits b ->
  (half_lt a b = true <-> ~ nan 5 10 a /\ ~ nan 5 10 b /\ number 5 10 a < number 5 10 b) /\
  (half_gt a b = true <-> ~ nan 5 10 a /\ ~ nan 5 10 b /\ number 5 10 b < number 5 10 a).
Proof.
  intros a b Ha Hb. split; [now apply half_lt_spec|]. unfold half_gt. rewrite (half_lt_spec b a Hb Ha). tauto.
Qed.
Print Assumptions C43_less.

(** [<=], [>=] compare the numbers if both are numbers; [==] and [!=] if moreover
    they are not both zero. *)
Theorem C43_order_partial : forall a b, half_bits a -> half_bits b -> ~ nan 5 10 a -> ~ nan 5 10 b ->
  (half_le a b = true <-> number 5 10 a <= number 5 10 b) /\
  (half_ge a b = true <-> number 5 10 b <= number 5 10 a) /\
  (number 5 10 a <> 0 -> (half_eq a b = true <-> number 5 10 a = number 5 10 b) /\
                         (half_ne a b = true <-> number 5 10 a <> number 5 10 b)).
Proof.
  intros a b Ha Hb Na Nb. split; [|split].
  - unfold half_le, half_gt. rewrite negb_true_iff, <- not_true_iff_false, (half_lt_spec b a Hb Ha), <- Z.nlt_ge. tauto.
  - unfold half_ge. rewrite negb_true_iff, <- not_true_iff_false, (half_lt_spec a b Ha Hb), <- Z.nlt_ge. tauto.
  - intros N0. assert (K : a = b <-> number 5 10 a = number 5 10 b).
    { split; [now intros ->|]. intros E.
      destruct (half_split a Ha) as (s & k & Ea & Hs & Hk & _). destruct (half_split b Hb) as (s' & k' & Eb & Hs' & Hk' & _).
      rewrite (half_number a s k Ea Hs Hk) in *. rewrite (half_number b s' k' Eb Hs' Hk') in *. unfold signed in *.
      assert (P1 := hmag_pos k ltac:(lia)). assert (P2 := hmag_pos k' ltac:(lia)).
      destruct (Z.eqb_spec s 0), (Z.eqb_spec s' 0).
      - assert (k = k') by (apply hmag_inj; lia). lia.
      - lia.
      - lia.
      - assert (k = k') by (apply hmag_inj; lia). lia. }
    unfold half_ne, half_eq. rewrite negb_true_iff, <- not_true_iff_false, Z.eqb_eq. tauto.
Qed.
Print Assumptions C43_order_partial.

(** A half and a float are compared as numbers. *)
Theorem C43_mixed : forall a x, half_bits a -> float_bits x -> half_finite a -> float_finite x ->
  (half_float_lt a x = true <-> half_value a < float_value x) /\
  (half_float_eq a x = true <-> half_value a = float_value x).
Proof.
  intros a x Ha Hx Fa Fx. destruct (up_spec a Ha) as (B & _ & F & _). cbn zeta in *. destruct (F Fa) as [F1 F2].
  assert (N1 : is_nan Float (float_of_half a) = false).
  { apply not_true_iff_false. rewrite (float_nan _ B). intros [K _]. contradiction. }
  assert (N2 : is_nan Float x = false).
  { apply not_true_iff_false. rewrite (float_nan _ Hx). intros [K _]. contradiction. }
  unfold half_float_lt, half_float_eq, float_lt, float_eq. rewrite N1, N2. cbn [negb andb].
  rewrite Z.ltb_lt, Z.eqb_eq. destruct (float_key_order _ _ B Hx) as [K1 K2].
  rewrite K1, K2. fold (float_value (float_of_half a)) (float_value x). rewrite F2. tauto.
Qed.
Print Assumptions C43_mixed.

Example C43_example :
  half_lt 0xBC00 0x3C00 = true /\ half_lt 0x8000 0x0000 = false /\ half_lt 0xFC00 0xFBFF = true /\
  half_le 0x3C00 0x3C00 = true /\ half_lt 0x7E00 0x3C00 = false /\ half_eq 0x3C00 0x3C00 = true /\
  half_float_eq 0x8000 0x00000000 = true.
Proof. vm_compute. auto 10. Qed.

(** [==] of two halfs compares bits: the two zeros are different, though each
    equals 0.0f, and not-a-number equals itself. *)
Theorem C43_zero_refuted : exists a b, half_bits a /\ half_bits b /\ ~ nan 5 10 a /\ ~ nan 5 10 b /\
  number 5 10 a = number 5 10 b /\ half_eq a b = false /\ half_float_eq a 0 = true /\ half_float_eq b 0 = true.
Proof. exists 0x8000, 0. unfold half_bits, nan. repeat split; try reflexivity; vm_compute; intuition discriminate. Qed.
Print Assumptions C43_zero_refuted.
Theorem C43_nan_refuted : exists a, half_bits a /\ nan 5 10 a /\ half_eq a a = true /\
  half_float_eq a (float_of_half a) = false /\ half_le a 0 = true /\ half_ge a 0 = true.
Proof. exists 0x7E00. unfold half_bits, nan. repeat split; try reflexivity; vm_compute; intuition discriminate. Qed.
Print Assumptions C43_nan_refuted.

(** numeric_limits<Half>: min() is the smallest positive normal half, but max() is
    not the largest half. *)
Theorem C43_limits_refuted :
  half_value half_min = 2 ^ 135 /\
  exists h, half_bits h /\ half_finite h /\ half_value half_max < half_value h.
Proof.
  split; [vm_compute; reflexivity|]. exists 0x7BFF. unfold half_bits, half_finite, finite.
  repeat (split; [vm_compute; intuition discriminate|]). vm_compute. reflexivity.
Qed.
Print Assumptions C43_limits_refuted.
