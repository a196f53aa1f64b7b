(** Warping by a grid: slopes of the borders. *)
From Coq Require Import List ZArith Lia Lqa Bool QArith Qcanon Qround.
From Verif Require Import IdxModel JoinModel ScanModel ReduceModel ReduceProofs1 ConvModel NmsProofs1 QuantModel QuantSpec QuantProofs1 ItpModel ItpSpec ItpProofs1 WgModel WgSpec WgProofs1 WgGradModel WgGradSpec.
Import ListNotations.
Local Open Scope list_scope.
Local Open Scope Qc_scope.

Lemma part_open d len n : (0 < len)%Z -> (0 <= n)%Z -> whole_number n * whole_number len < d -> d < whole_number (n + 1) * whole_number len ->
  Z.quot (Qnum (d / of_Z len)%Qc) (Zpos (Qden (d / of_Z len)%Qc)) = n.
Proof.
  intros L N D1 D2. assert (P : 0 < whole_number len) by (apply W_pos; lia). set (v := d / of_Z len). assert (E : v * whole_number len = d) by (unfold v; change (of_Z len) with (whole_number len); apply div_mul; exact P).
  assert (NN : 0 <= whole_number n) by (apply W_nn; lia). rewrite W_step in D2. assert (V1 : whole_number n < v). { clearbody v. subst d. apply Qcnot_le_lt. intros V. qnra. } assert (V2 : v < whole_number n + 1). { clearbody v. subst d. apply Qcnot_le_lt. intros V. qnra. }
  change (to_int v = n). rewrite to_int_floor by qlra. destruct (floor_ok v) as (F1 & F2). set (k := Qfloor (this v)) in *. clearbody k. assert (n <= k)%Z by (apply between; qlra). assert (k <= n)%Z by (apply between; qlra). lia.
Qed.
Lemma rem_even n : (0 <= n)%Z -> (Z.rem n 2 =? 0)%Z = Z.even n.
Proof. intros N. rewrite Z.rem_mod_nonneg by lia. rewrite Zeven_mod. unfold Zeq_bool. rewrite Z.eqb_compare. reflexivity. Qed.
Definition folded (L len : Qc) (k : Z) (s : Qc) : Qc := if Z.even k then s - whole_number k * len else L + L + whole_number (k + 1) * len - s.
Definition sign (k : Z) : Qc := if Z.even k then 1 else - (1).
Lemma strip_ok s L U k (len := whole_number U - whole_number L) : (L < U)%Z -> whole_number L + whole_number k * len < s -> s < whole_number L + whole_number (k + 1) * len ->
  reflect s L U = Some (folded (whole_number L) len k s) /\ reflect_coef s L U = Some (sign k).
Proof.
  intros LU S1 S2. unfold reflect, reflect_coef, folded, sign. cbv zeta. change (of_Z L) with (whole_number L). change (of_Z U) with (whole_number U). assert (NZ : (U - L =? 0)%Z = false) by (apply Z.eqb_neq; lia).
  assert (LN : whole_number (U - L) = len) by apply W_minus. assert (PL : 0 < len) by (rewrite <- LN; apply W_pos; lia). assert (EU : whole_number U = whole_number L + len) by (unfold len; ring). clearbody len.
  destruct (Z_lt_le_dec k 0) as [K | K]; [| destruct (Z.eq_dec k 0) as [-> | K0]].
  - assert (W (* k+1 <= 0 *) : whole_number (k + 1) <= 0) by (rewrite <- W0; apply (proj1 (W_le _ _)); lia). assert (SL : s < whole_number L) by (set (a := whole_number (k + 1)) in *; clearbody a; qnra).
    assert (E1 : less s (whole_number L) = true) by (apply less_true; exact SL). rewrite E1, NZ.
    rewrite (part_open (whole_number L - s) (U - L) (- k - 1)); [| lia | lia | rewrite LN; replace (- k - 1)%Z with (- (k + 1))%Z by ring; rewrite W_neg; qlra | rewrite LN; replace (- k - 1 + 1)%Z with (- k)%Z by ring; rewrite W_neg; qlra].
    rewrite rem_even by lia. replace (- k - 1)%Z with (- (k + 1))%Z by ring. rewrite Z.even_opp, Z.even_add. change (of_Z (- (k + 1))) with (whole_number (- (k + 1))). change (of_Z (U - L)) with (whole_number (U - L)). rewrite LN, W_neg, EU, W_step.
    change (Z.even 1) with false; destruct (Z.even k); cbn [Bool.eqb]; split; try reflexivity; f_equal; ring.
  - rewrite W0 in S1. change (0 + 1)%Z with 1%Z in S2. rewrite W1 in S2. assert (E1 : less s (whole_number L) = false) by (apply less_false; qlra). assert (E2 : less (whole_number U) s = false) by (apply less_false; qlra). rewrite E1, E2. cbn [Z.even]. split; [f_equal; rewrite W0; ring | reflexivity].
  - assert (W : 1 <= whole_number k) by (rewrite <- W1; apply (proj1 (W_le _ _)); lia). assert (SU : whole_number U < s) by (rewrite EU; set (a := whole_number k) in *; clearbody a; qnra).
    assert (E1 : less s (whole_number L) = false) by (apply less_false; qlra). assert (E2 : less (whole_number U) s = true) by (apply less_true; exact SU). rewrite E1, E2, NZ.
    rewrite W_step in S2. rewrite (part_open (s - whole_number U) (U - L) (k - 1)); [| lia | lia | rewrite LN, W_minus, W1; qlra | rewrite LN; replace (k - 1 + 1)%Z with k by ring; qlra].
    rewrite rem_even by lia. rewrite Z.even_sub. change (of_Z (k - 1)) with (whole_number (k - 1)). change (of_Z (U - L)) with (whole_number (U - L)). rewrite LN, W_minus, W1, W_step, EU.
    change (Z.even 1) with false; destruct (Z.even k); cbn [Bool.eqb]; split; try reflexivity; f_equal; ring.
Qed.
Lemma folded_moves L len k s t : folded L len k t - folded L len k s = sign k * (t - s).
Proof. unfold folded, sign. destruct (Z.even k); ring. Qed.
Lemma reflect_coef_total s L U : (L < U)%Z -> exists c, reflect_coef s L U = Some c.
Proof. intros LU. unfold reflect_coef. cbv zeta. replace (U - L =? 0)%Z with false by (symmetry; apply Z.eqb_neq; lia). destruct (less s (of_Z L)); [eexists; reflexivity |]. destruct (less (of_Z U) s); eexists; reflexivity. Qed.
(** Moving a place to the nearest pixel. *)
Lemma held_moves n s t : (0 < n)%Z -> one_side n s t -> repeat_pad t n - repeat_pad s n = repeat_coef s n * (t - s).
Proof.
  intros N O. assert (P : 0 <= whole_number (n - 1)) by (apply W_nn; lia). unfold repeat_pad, repeat_coef, less. change (of_Z (n - 1)) with (whole_number (n - 1)).
  destruct O as [(A & B) | [((A & B) & (C & D)) | (A & B)]]; destruct (Qclt_le_dec s 0), (Qclt_le_dec t 0), (Qclt_le_dec (whole_number (n - 1)) s), (Qclt_le_dec (whole_number (n - 1)) t); try (exfalso; qlra); ring.
Qed.
Lemma double_strip n s t : one_strip (- one_half) (whole_number n - one_half) s t ->
  exists k, (whole_number (-1) + whole_number k * (whole_number (2 * n - 1) - whole_number (-1)) < two * s /\ two * s < whole_number (-1) + whole_number (k + 1) * (whole_number (2 * n - 1) - whole_number (-1))) /\
            (whole_number (-1) + whole_number k * (whole_number (2 * n - 1) - whole_number (-1)) < two * t /\ two * t < whole_number (-1) + whole_number (k + 1) * (whole_number (2 * n - 1) - whole_number (-1))).
Proof.
  intros (k & (A & B) & C & D). exists k. rewrite two_is. pose proof half_half as HH. rewrite (W_minus (2 * n) 1), W_twice, W_step in *. change (whole_number (-1)) with (- whole_number 1). rewrite W1.
  set (a := whole_number k * (whole_number n - one_half - - one_half)) in *. replace ((whole_number k + 1) * (whole_number n - one_half - - one_half)) with (a + whole_number n) in B, D by (unfold a; ring).
  assert (E : whole_number k * (whole_number n + whole_number n - 1 - - (1)) = a + a) by (unfold a; ring). replace ((whole_number k + 1) * (whole_number n + whole_number n - 1 - - (1))) with (a + a + whole_number n + whole_number n) by (rewrite <- E; ring). rewrite E. clearbody a. clear E.
  split; split; qlra.
Qed.
Lemma half_mirrored n v r : mirrored (whole_number (-1)) (whole_number (2 * n - 1)) (two * v) r -> mirrored (- one_half) (whole_number n - one_half) v (r * half).
Proof.
  change half with one_half. intros (A & B & k & C). pose proof half_half as HH. pose proof two_half as TH. rewrite two_is in *. rewrite (W_minus (2 * n) 1), (W_twice n), W1 in *. change (whole_number (-1)) with (- whole_number 1) in *. rewrite W1 in *.
  assert (OP : 0 < one_half) by reflexivity. assert (RH : r * one_half + r * one_half = r) by (replace (r * one_half + r * one_half) with (r * (one_half + one_half)) by ring; rewrite HH; ring). split; [qlra |]. split; [qlra |]. exists k.
  destruct C as [C | C]; [left | right]; rewrite C.
  - replace (((1 + 1) * v + whole_number (2 * k) * (whole_number n + whole_number n - 1 - - (1))) * one_half) with ((one_half + one_half) * (v + whole_number (2 * k) * whole_number n)) by ring. rewrite HH. ring.
  - replace ((- (1) + - (1) - (1 + 1) * v + whole_number (2 * k) * (whole_number n + whole_number n - 1 - - (1))) * one_half) with ((one_half + one_half) * (- (1) - v + whole_number (2 * k) * whole_number n)) by ring. rewrite HH. assert (E : - (1) = - one_half + - one_half) by (rewrite <- HH; ring). rewrite E. ring.
Qed.
(** The slope of a border on one of its pieces. *)
Lemma coef_ok m align n s t r r' : fine m align n -> one_piece (border_of m) align n s t -> findex m align s n = Some r -> findex m align t n = Some r' ->
  exists c, pad_coef m align s n = Some c /\ r' - r = c * (t - s).
Proof.
  intros (N & R) O E E'. destruct m; cbn [border_of one_piece findex pad_coef] in *.
  - inversion E; subst r. inversion E'; subst r'. exists 1. split; [reflexivity | ring].
  - inversion E; subst r. inversion E'; subst r'. exists (repeat_coef s n). split; [reflexivity | apply held_moves; assumption].
  - destruct align.
    + specialize (R eq_refl eq_refl). destruct O as (k & (A & B) & C & D). rewrite <- W0 in A, B, C, D.
      destruct (strip_ok s 0 (n - 1) k ltac:(lia) A B) as (E1 & E2). destruct (strip_ok t 0 (n - 1) k ltac:(lia) C D) as (E3 & _). rewrite E1 in E. rewrite E3 in E'. inversion E; subst r. inversion E'; subst r'. exists (sign k). split; [exact E2 | apply folded_moves].
    + destruct O as (O & M). destruct (double_strip n s t O) as (k & (A & B) & C & D).
      destruct (strip_ok (two * s) (-1) (2 * n - 1) k ltac:(lia) A B) as (E1 & E2). destruct (strip_ok (two * t) (-1) (2 * n - 1) k ltac:(lia) C D) as (E3 & _).
      destruct (reflect_ok (two * s) (-1) (2 * n - 1) ltac:(lia)) as (z & F1 & F2). destruct (reflect_ok (two * t) (-1) (2 * n - 1) ltac:(lia)) as (z' & F3 & F4). rewrite F1 in E1, E. rewrite F3 in E3, E'. inversion E1 as [Z1]. inversion E3 as [Z3]. cbn [obind] in E, E'. inversion E; subst r. inversion E'; subst r'.
      apply half_mirrored in F2. apply half_mirrored in F4. specialize (M _ _ F2 F4). rewrite E2, F1. cbn [obind]. eexists. split; [reflexivity |]. rewrite (held_moves n _ _ N M).
      replace (z' * half - z * half) with ((z' - z) * half) by ring. rewrite Z1, Z3, folded_moves. change half with one_half. rewrite two_is. pose proof half_half as HH.
      replace (sign k * ((1 + 1) * t - (1 + 1) * s) * one_half) with (sign k * (t - s) * (one_half + one_half)) by ring. rewrite HH. ring.
Qed.
Lemma pad_coef_total m align v n (s := place_of align v n) : (0 < n)%Z -> exists c, pad_coef m align s n = Some c.
Proof.
  intros N. destruct m; cbn [pad_coef]; [eexists; reflexivity | eexists; reflexivity |]. destruct align.
  - destruct (Z.eq_dec n 1) as [-> |]; [| apply reflect_coef_total; lia]. assert (Z0 : s = 0) by (unfold s, place_of; change (whole_number (1 - 1)) with 0; apply Qcmult_0_r). rewrite Z0. eexists. reflexivity.
  - destruct (reflect_coef_total (two * s) (-1) (2 * n - 1) ltac:(lia)) as (c & ->). destruct (reflect_ok (two * s) (-1) (2 * n - 1) ltac:(lia)) as (r & -> & _). eexists. reflexivity.
Qed.
