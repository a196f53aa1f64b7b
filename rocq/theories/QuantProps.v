(** FixedPointQuantize (C96), Pow2Quantize (C97), QuantizeLinear and DequantizeLinear (C98),
    MinMaxQuantize (C99) and Prune (C100). *)
From Coq Require Import List ZArith Lia Lqa Bool QArith Qcanon Qround.
From Verif Require Import NdSpec NdModel NdProofs IdxModel JoinSpec JoinModel ScanSpec ScanModel ScanProofs1 ReduceSpec ReduceModel ConvSpec ConvModel MatSpec MatModel SortSpec SortProofs3 BinSpec BinModel BfaModel BfaSpec BfaProofs1 BfaProofs2 FindModel FindProofs1 NmsProofs1 QuantModel QuantSpec QuantProofs1 QuantProofs2 QuantProofs3 QuantProofs4 QuantProofs5 QuantProofs6 QuantProofs7.
Import ListNotations.
Local Open Scope list_scope.
Local Open Scope Qc_scope.

Definition qs (l : list Q) : list Qc := map Q2Qc l.
Definition shown (r : option (list Qc)) : option (list Q) := option_map (map this) r.

(** * FixedPointQuantize *)

(** Partial: rational numbers instead of floats here and below.  For numbers of bits that are
    refuted below to work, nothing is said.  With at most 31 bits for the size of numbers, each output is the multiple of the step in the
    range of the integers with these bits that is nearest to the input. *)
Theorem C96_values_partial : forall sign n delta x y0, 0 < delta -> (0 < bits sign n <= 31)%Z -> length y0 = length x ->
  exists y, fixed_forward sign n delta x y0 = Some y /\ length y = length x /\
  forall i, (i < length x)%nat -> on_grid delta (if sign then - (2 ^ bits sign n - 1) else 0) (2 ^ bits sign n - 1) (nth i x 0) (nth i y 0).
Proof.
  intros sign n delta x y0 D B L. unfold fixed_forward. rewrite fixed_setup_ok by (try assumption; lia). cbn [obind].
  assert (T : (0 <= 2 ^ bits sign n - 1 <= 2147483647)%Z). { pose proof (Z.pow_le_mono_r 2 (bits sign n) 31 ltac:(lia) ltac:(lia)). pose proof (Z.pow_pos_nonneg 2 (bits sign n)). change (2 ^ 31)%Z with 2147483648%Z in *. lia. }
  destruct (each_ok (fixed_value delta (of_Z (2 ^ bits sign n - 1) * delta) (if sign then - (of_Z (2 ^ bits sign n - 1) * delta) else 0)) x y0 L) as (y & E & LY & V).
  { intros v _ C. destruct (fixed_value_ok sign delta _ v D T) as (w & F & _). congruence. }
  exists y. split; [exact E |]. split; [exact LY |]. intros i Hi. specialize (V i Hi). destruct (fixed_value_ok sign delta _ (nth i x 0) D T) as (w & F & G). rewrite F in V. injection V as ->. exact G.
Qed.
Example C96_values_works :
  shown (fixed_forward true 3 (Q2Qc (1 # 2)) (qs [5; -5; 1 # 4; - (1 # 4); 3 # 4; -1; 6 # 5; - (1 # 5)]%Q) (repeat 0 8)) = Some [3 # 2; - (3) # 2; 1 # 2; - (1) # 2; 1; -1; 1; 0]%Q /\
  shown (fixed_forward false 2 (Q2Qc (1 # 2)) (qs [5; -5; 1 # 4; - (1 # 4); 3 # 4; 6 # 5]%Q) (repeat 0 6)) = Some [3 # 2; 0; 1 # 2; 0; 1; 1]%Q.
Proof. split; vm_compute; reflexivity. Qed.
(** Quantized numbers stay the same. *)
Lemma mag_zero v : mag v <= 0 -> v = 0.
Proof. destruct (mag_cases v) as [[S1 ->] | [S1 ->]]; intros; qlra. Qed.
Lemma grid_fixed delta lo hi x y z : on_grid delta lo hi x y -> on_grid delta lo hi y z -> z = y.
Proof.
  intros (k & K & E & _) (j & J & F & B). destruct (B k K) as [M _]. rewrite <- E in M. replace (y - y) with 0 in M by ring. rewrite (mag_pos 0) in M by apply Qcle_refl. apply mag_zero in M. qlra.
Qed.
Theorem C96_idempotent : forall sign n delta x y0 y, 0 < delta -> (0 < bits sign n <= 31)%Z -> length y0 = length x ->
  fixed_forward sign n delta x y0 = Some y -> forall z0, length z0 = length y -> fixed_forward sign n delta y z0 = Some y.
Proof.
  intros sign n delta x y0 y D B L E z0 LZ. destruct (C96_values_partial sign n delta x y0 D B L) as (y' & E' & LY & V). assert (y' = y) by congruence. subst y'.
  destruct (C96_values_partial sign n delta y z0 D B LZ) as (z & EZ & LZ' & VZ). rewrite EZ. f_equal. apply (nth_ext _ _ 0 0); [exact LZ' |]. intros i Hi. apply (grid_fixed delta (if sign then - (2 ^ bits sign n - 1) else 0)%Z (2 ^ bits sign n - 1) (nth i x 0)); [apply V; lia | apply VZ; lia].
Qed.
Example C96_idempotent_works : shown (fixed_forward true 3 (Q2Qc (1 # 2)) (qs [3 # 2; -1; 0]%Q) (repeat 0 3)) = Some [3 # 2; -1; 0]%Q.
Proof. vm_compute. reflexivity. Qed.
(** No bits for the size of numbers, or a step that is not positive, is an error. *)
Theorem C96_errors : forall sign n delta x y0, delta <= 0 \/ (bits sign n <= 0)%Z -> fixed_forward sign n delta x y0 = None.
Proof. intros sign n delta x y0 H. unfold fixed_forward. rewrite fixed_setup_bad by exact H. reflexivity. Qed.
Example C96_errors_works : fixed_forward true 1 1 [] [] = None /\ fixed_forward false 1 1 [] [] = Some [].
Proof. split; reflexivity. Qed.
(** The gradient is passed on; with fine_grained, it is not for inputs outside of the range. *)
Theorem C96_gradient : forall sign n delta (fine accum : bool) x dy d0, 0 < delta -> (0 < bits sign n)%Z -> length dy = length x -> length d0 = length x ->
  exists d, fixed_backward sign n delta fine accum x dy d0 = Some d /\ length d = length x /\
  forall i, (i < length x)%nat -> let top := whole_number (2 ^ bits sign n - 1) * delta in
    ((fine = false \/ ((if sign then - top else 0) <= nth i x 0 /\ nth i x 0 <= top)) -> nth i d 0 = (if accum then nth i d0 0 else 0) + nth i dy 0) /\
    (fine = true -> (nth i x 0 < (if sign then - top else 0) \/ top < nth i x 0) -> nth i d 0 = if accum then nth i d0 0 else 0).
Proof.
  intros sign n delta fine accum x dy d0 D B L1 L2. unfold fixed_backward. rewrite fixed_setup_ok by assumption. cbn [obind].
  destruct (fixed_grad_ok fine (of_Z (2 ^ bits sign n - 1) * delta) (if sign then - (of_Z (2 ^ bits sign n - 1) * delta) else 0) accum x dy d0 L1 L2) as (d & E & L & V).
  exists d. split; [exact E |]. split; [exact L |]. intros i Hi. rewrite (V i Hi). change (of_Z (2 ^ bits sign n - 1)) with (whole_number (2 ^ bits sign n - 1)). set (top := whole_number (2 ^ bits sign n - 1) * delta) in *. split.
  - intros [-> | [H1 H2]]; [reflexivity |]. rewrite (proj2 (more_false _ _) H2), (proj2 (QuantProofs1.less_false _ _) H1). rewrite andb_false_r. reflexivity.
  - intros -> [H | H]; [rewrite (proj2 (QuantProofs1.less_true _ _) H), orb_true_r | rewrite (proj2 (more_true _ _) H)]; cbn [orb andb]; ring.
Qed.
Example C96_gradient_works : shown (fixed_backward true 3 (Q2Qc (1 # 2)) true true (qs [5; 3 # 2; -2]%Q) (qs [1; 2; 3]%Q) (qs [10; 20; 30]%Q)) = Some [10; 22; 30]%Q /\
  shown (fixed_backward true 3 (Q2Qc (1 # 2)) true false (qs [5; 3 # 2; -2]%Q) (qs [1; 2; 3]%Q) (qs [10; 20; 30]%Q)) = Some [0; 2; 0]%Q /\
  shown (fixed_backward true 3 (Q2Qc (1 # 2)) false false (qs [5; 3 # 2; -2]%Q) (qs [1; 2; 3]%Q) (qs [10; 20; 30]%Q)) = Some [1; 2; 3]%Q.
Proof. repeat split; vm_compute; reflexivity. Qed.
(** Any positive number of bits is accepted, but from 32 bits on, the cast of a quotient to int
    overflows for numbers in the range. *)
Definition C96_wide_statement : Prop := forall sign n delta x y0, 0 < delta -> (0 < bits sign n)%Z -> length y0 = length x -> exists y, fixed_forward sign n delta x y0 = Some y.
Theorem C96_wide_refuted : ~ C96_wide_statement.
Proof.
  intros H. destruct (H false 32%Z 1 [whole_number 3000000000] [0] ltac:(reflexivity) ltac:(reflexivity) eq_refl) as (y & E). vm_compute in E. discriminate.
Qed.

(** * Pow2Quantize *)

(** With at most 30 bits for exponents: each output is the power of two nearest by factor to the
    size of the input, with the sign of the input.  Unsigned numbers below 0 become the least
    value. *)
Theorem C97_values_partial : forall sign with_zero n m x y0, (0 < exponent_bits sign with_zero n < 31)%Z -> length y0 = length x ->
  exists y, pow2_forward sign with_zero n m x y0 = Some y /\ length y = length x /\
  forall i, (i < length x)%nat -> let lo := least_exponent sign with_zero n m in exists q, power_value with_zero lo m (mag (nth i x 0)) q /\
    nth i y 0 = if Qclt_le_dec (nth i x 0) 0 then (if sign then - q else if with_zero then 0 else two_to lo) else q.
Proof.
  intros sign with_zero n m x y0 B L. unfold pow2_forward. rewrite pow2_setup_ok by exact B. cbn [obind].
  destruct (each_ok (fun v => Some (pow2_value sign with_zero (pow2 m) (pow2 (least_exponent sign with_zero n m)) v)) x y0 L) as (y & E & LY & V); [discriminate |].
  exists y. split; [exact E |]. split; [exact LY |]. intros i Hi. cbv zeta. specialize (V i Hi). injection V as <-. apply pow2_value_ok. apply least_le. lia.
Qed.
Example C97_values_works :
  shown (pow2_forward true true 4 1 (qs [5; -5; 1 # 4; - (1 # 3); 3 # 2; 1 # 7; 0; 7 # 5]%Q) (repeat 0 8)) = Some [2; -2; 1 # 4; - (1) # 4; 2; 0; 0; 1]%Q /\
  shown (pow2_forward false false 2 1 (qs [5; -5; 1 # 4; 3 # 2; 1 # 9; 0]%Q) (repeat 0 6)) = Some [2; 1 # 4; 1 # 4; 2; 1 # 4; 1 # 4]%Q.
Proof. split; vm_compute; reflexivity. Qed.
Theorem C97_errors : forall sign with_zero n m x y0, (exponent_bits sign with_zero n <= 0)%Z -> pow2_forward sign with_zero n m x y0 = None.
Proof. intros sign with_zero n m x y0 H. unfold pow2_forward. rewrite pow2_setup_bad by exact H. reflexivity. Qed.
Example C97_errors_works : pow2_forward true true 2 1 [] [] = None /\ pow2_forward true true 3 1 [] [] = Some [].
Proof. split; reflexivity. Qed.
(** The gradient is passed on; with fine_grained, it is not for inputs rounded to more than the
    greatest value, nor for unsigned inputs below 0. *)
Theorem C97_gradient : forall sign with_zero n m (fine accum : bool) x dy d0, (0 < exponent_bits sign with_zero n < 31)%Z -> length dy = length x -> length d0 = length x ->
  exists d, pow2_backward sign with_zero n m fine accum x dy d0 = Some d /\ length d = length x /\
  forall i, (i < length x)%nat -> let a := mag (nth i x 0) in
    ((fine = false \/ (a * a < two_to (2 * m + 1) /\ (sign = true \/ 0 <= nth i x 0))) -> nth i d 0 = (if accum then nth i d0 0 else 0) + nth i dy 0) /\
    (fine = true -> (two_to (2 * m + 1) <= a * a \/ (sign = false /\ nth i x 0 < 0)) -> nth i d 0 = if accum then nth i d0 0 else 0).
Proof.
  intros sign with_zero n m fine accum x dy d0 B L1 L2. destruct (pow2_backward_ok sign with_zero n m fine accum x dy d0 B L1 L2) as (d & E & L & V).
  exists d. split; [exact E |]. split; [exact L |]. intros i Hi a. rewrite (V i Hi), pow2_factor_ok. fold a. split.
  - intros [-> | [H1 H2]]; [ring |]. destruct (Qclt_le_dec _ _) as [_ | C]; [| exfalso; qlra]. destruct fine; [| ring]. destruct H2 as [-> | H2]; [ring |]. destruct sign; [ring |]. destruct (Qclt_le_dec _ _) as [C | _]; [exfalso; qlra | ring].
  - intros -> [H | [-> H]]; [destruct (Qclt_le_dec _ _) as [C | _]; [exfalso; qlra | ring] |]. destruct (Qclt_le_dec (a * a) _); [| ring]. destruct (Qclt_le_dec _ _) as [_ | C]; [ring | exfalso; qlra].
Qed.
Example C97_gradient_works : shown (pow2_backward true true 4 1 true true (qs [5; -5; -2; 14 # 5]%Q) (qs [1; 2; 3; 4]%Q) (qs [10; 20; 30; 40]%Q)) = Some [10; 20; 33; 44]%Q /\
  shown (pow2_backward false true 4 1 true false (qs [5; -1; 2; 14 # 5]%Q) (qs [1; 2; 3; 4]%Q) (qs [10; 20; 30; 40]%Q)) = Some [0; 0; 3; 4]%Q.
Proof. split; vm_compute; reflexivity. Qed.
(** The documentation of the unsigned case has 2^int(log2 |x|), the power of two not greater than
    the input, in place of the nearest one. *)
Definition C97_unsigned_statement : Prop := forall n m x y0 y, (0 < n)%Z -> length y0 = length x -> pow2_forward false false n m x y0 = Some y ->
  forall i k, (i < length x)%nat -> (m - (2 ^ n - 1) <= k < m)%Z -> two_to k <= nth i x 0 -> nth i x 0 < two_to (k + 1) -> nth i y 0 = two_to k.
Theorem C97_unsigned_refuted : ~ C97_unsigned_statement.
Proof.
  intros H. assert (E : exists y, pow2_forward false false 2 1 [Q2Qc (3 # 2)] [0] = Some y /\ map this y = [2]%Q) by (eexists; split; [vm_compute; reflexivity | reflexivity]).
  destruct E as (y & E & S). pose proof (H 2%Z 1%Z [Q2Qc (3 # 2)] [0] y ltac:(reflexivity) eq_refl E 0%nat 0%Z ltac:(cbn; lia) ltac:(cbn; lia) ltac:(discriminate) ltac:(reflexivity)) as C.
  destruct y as [| v [|]]; try discriminate. cbn [nth] in C. rewrite C in S. discriminate.
Qed.

(** * QuantizeLinear and DequantizeLinear *)

(** Each output is round(x / scale) + zero_point, brought into the range of the type; the zero
    point used (and left in its array) is rounded and brought into the range before. *)
Theorem C98_quantize_partial : forall junk even narrow dtype lo hi A B D x s z, dtype_range narrow dtype lo hi -> widens B A -> widens D A -> above A ->
  has_size x (size A) -> has_size s (size B) -> has_size z (size D) ->
  exists y z', quantize_linear junk even narrow dtype (A, x) (B, s) (D, z) = Some ((A, y), (D, z')) /\ has_size y (size A) /\ has_size z' (size D) /\
  (forall d, inside d D -> exists k, rounds_to even (qelem z D d) k /\ qelem z' D d = whole_number (into lo hi k)) /\
  (forall c, inside c A -> exists k kz, rounds_to even (qelem x A c / qelem s B (picked B c)) k /\ qelem z' D (picked D c) = whole_number kz /\ qelem y A c = whole_number (into lo hi (k + kz))).
Proof. exact quantize_linear_ok. Qed.
Definition shown2 (r : option (nd * nd)) : option (list Q * list Q) := option_map (fun r => (map this (snd (fst r)), map this (snd (snd r)))) r.
Example C98_quantize_works :
  shown2 (quantize_linear 0 false false 1 ([2; 3]%Z, qs [1; 3; 1000; -1; -3; -1000]%Q) ([1; 1]%Z, qs [2]%Q) ([2; 1]%Z, qs [1; 5 # 2]%Q)) = Some ([2; 3; 127; 2; 1; -128]%Q, [1; 3]%Q) /\
  shown2 (quantize_linear 0 true true 2 ([2; 3]%Z, qs [1; 3; 1000; -1; -3; -1000]%Q) ([1; 1]%Z, qs [2]%Q) ([2; 1]%Z, qs [0; 5 # 2]%Q)) = Some ([1; 3; 255; 2; 1; 1]%Q, [1; 2]%Q).
Proof. split; vm_compute; reflexivity. Qed.
Theorem C98_dequantize : forall junk A B D x s z, widens B A -> widens D A -> above A -> has_size x (size A) -> has_size s (size B) -> has_size z (size D) ->
  exists y, dequantize_linear junk (A, x) (B, s) (D, z) = Some (A, y) /\ has_size y (size A) /\
  forall c, inside c A -> qelem y A c = (qelem x A c - qelem z D (picked D c)) * qelem s B (picked B c).
Proof. exact dequantize_linear_ok. Qed.
Example C98_dequantize_works : option_map (fun y => map this (snd y)) (dequantize_linear 0 ([2; 2]%Z, qs [1; 3; 5; 7]%Q) ([1; 2]%Z, qs [2; 3]%Q) ([2; 1]%Z, qs [1; 2]%Q)) = Some [0; 6; 6; 15]%Q.
Proof. vm_compute. reflexivity. Qed.
(** Dequantizing what was quantized gives the input up to half a step, if it was not brought to an
    end of the range. *)
Theorem C98_round_trip_partial : forall junk even narrow dtype lo hi A B D x s z y z' w, dtype_range narrow dtype lo hi -> widens B A -> widens D A -> above A ->
  has_size x (size A) -> has_size s (size B) -> has_size z (size D) ->
  quantize_linear junk even narrow dtype (A, x) (B, s) (D, z) = Some (y, z') -> dequantize_linear junk y (B, s) z' = Some w ->
  forall c, inside c A -> let sc := qelem s B (picked B c) in 0 < sc -> whole_number lo < qelem (snd y) A c -> qelem (snd y) A c < whole_number hi ->
  mag (qelem x A c - qelem (snd w) A c) + mag (qelem x A c - qelem (snd w) A c) <= sc.
Proof.
  intros junk even narrow dtype lo hi A B D x s z y z' w R WB WD P LX LS LZ E F c I sc SP Y1 Y2.
  destruct (quantize_linear_ok junk even narrow dtype lo hi A B D x s z R WB WD P LX LS LZ) as (y1 & z1 & E1 & L1 & L2 & _ & V). rewrite E1 in E. injection E as <- <-.
  destruct (dequantize_linear_ok junk A B D y1 s z1 WB WD P L1 LS L2) as (w1 & E2 & _ & VW). rewrite E2 in F. injection F as <-. cbn [snd] in *.
  destruct (V c I) as (k & kz & RO & EZ & EY). rewrite (VW c I), EZ. fold sc. rewrite EY in *. apply W_lt in Y1, Y2. assert (IN : into lo hi (k + kz) = (k + kz)%Z) by (unfold into in *; lia). rewrite IN, W_plus.
  apply rounds_half in RO. fold sc in RO. replace (qelem x A c - (whole_number k + whole_number kz - whole_number kz) * sc) with ((qelem x A c / sc - whole_number k) * sc).
  - rewrite mag_scale by exact SP. pose proof this_h. qnra.
  - replace ((qelem x A c / sc - whole_number k) * sc) with (qelem x A c / sc * sc - whole_number k * sc) by ring. rewrite over_times by exact SP. ring.
Qed.
Example C98_round_trip_works : option_map (fun y => map this (snd y)) (obind (quantize_linear 0 false false 1 ([2; 2]%Z, qs [1; 10; - (7 # 2); 6]%Q) ([1; 1]%Z, qs [3]%Q) ([1; 1]%Z, qs [5]%Q)) (fun '(y, z) => dequantize_linear 0 y ([1; 1]%Z, qs [3]%Q) z)) = Some [0; 9; -3; 6]%Q.
Proof. vm_compute. reflexivity. Qed.
(** Scale and zero point must have as many axes as x, with the same extents or 1. *)
Theorem C98_shapes : forall junk even narrow dtype x s z, ~ (widens (fst s) (fst x) /\ widens (fst z) (fst x)) -> quantize_linear junk even narrow dtype x s z = None /\ dequantize_linear junk x s z = None.
Proof. exact linear_bad_shapes. Qed.
Example C98_shapes_works : quantize_linear 0 false false 1 ([2; 3]%Z, qs [1; 3; 1000; -1; -3; -1000]%Q) ([1]%Z, qs [2]%Q) ([2; 1]%Z, qs [1; 2]%Q) = None.
Proof. reflexivity. Qed.
(** The gradient of x: the gradient of the output over (times) the scale. *)
Theorem C98_gradients : forall junk (accum : bool) A B s dy d, widens B A -> above A -> has_size s (size B) -> has_size dy (size A) -> has_size d (size A) ->
  (exists d', linear_backward div_op junk accum (B, s) (A, dy) (A, d) = Some (A, d') /\ has_size d' (size A) /\
   forall c, inside c A -> qelem d' A c = (if accum then qelem d A c else 0) + qelem dy A c / qelem s B (picked B c)) /\
  (exists d', linear_backward mul_op junk accum (B, s) (A, dy) (A, d) = Some (A, d') /\ has_size d' (size A) /\
   forall c, inside c A -> qelem d' A c = (if accum then qelem d A c else 0) + qelem dy A c * qelem s B (picked B c)).
Proof. intros junk accum A B s dy d W P LS LY LD. split; apply linear_backward_ok; assumption. Qed.
Example C98_gradients_works : option_map (fun y => map this (snd y)) (linear_backward div_op 0 true ([1; 2]%Z, qs [2; 5]%Q) ([2; 2]%Z, qs [1; 2; 3; 4]%Q) ([2; 2]%Z, qs [10; 20; 30; 40]%Q)) = Some [21 # 2; 102 # 5; 63 # 2; 204 # 5]%Q.
Proof. vm_compute. reflexivity. Qed.
(** QuantizeLinear should not change its inputs.  It changes the zero point. *)
Definition C98_inputs_statement : Prop := forall junk even narrow dtype x s z y z', quantize_linear junk even narrow dtype x s z = Some (y, z') -> z' = z.
Theorem C98_inputs_refuted : ~ C98_inputs_statement.
Proof.
  intros H. assert (E : exists y z', quantize_linear 0 false false 1 ([1]%Z, [0]) ([1]%Z, [1]) ([1]%Z, [whole_number 200]) = Some (y, z') /\ map this (snd z') = [127]%Q) by (eexists; eexists; split; [vm_compute; reflexivity | reflexivity]).
  destruct E as (y & z' & E & S). apply H in E. subst. discriminate.
Qed.
(** Other types than BYTE and UBYTE are accepted by setup, but the range is not set for them. *)
Definition C98_types_statement : Prop := forall junk even narrow dtype A x s z, above A -> has_size x (size A) -> has_size s (size A) -> has_size z (size A) -> quantize_linear junk even narrow dtype (A, x) (A, s) (A, z) <> None.
Theorem C98_types_refuted : ~ C98_types_statement.
Proof. intros H. apply (H 0 false false 3%Z [1]%Z [0] [1] [0]); try reflexivity. constructor; [lia | constructor]. Qed.

(** * MinMaxQuantize *)

(** For levels that are integers: the limits of the range are as documented, and each output is the
    number of one of the levels nearest to the input.  Level zp stands for 0, and neighbours are
    apart by the scale. *)
Theorem C99_values_partial : forall A B (l h : list Z -> Z) lmin lmax, widens B A -> above A -> (length A <= 8)%nat -> has_size lmin (size B) -> has_size lmax (size B) ->
  (forall b, inside b B -> qelem lmin B b = whole_number (l b) /\ qelem lmax B b = whole_number (h b) /\ (l b < h b)%Z) ->
  forall junk decay eps x_min_max ema x qmin qmax, 0 < eps -> has_size x (size A) -> has_size qmin (size B) -> has_size qmax (size B) -> (x_min_max = true -> of_moderate_size A x) ->
  exists y r0 r1, min_max_quantize junk decay eps x_min_max ema (A, x) (B, qmin) (B, qmax) (B, lmin) (B, lmax) = Some ((A, y), (B, r0), (B, r1)) /\
  has_size y (size A) /\ has_size r0 (size B) /\ has_size r1 (size B) /\
  (forall b, inside b B -> limit_of x_min_max ema decay (qelem qmin B b) (qelem r0 B b) (least_at A B x b) /\
    exists t, limit_of x_min_max ema decay (qelem qmax B b) t (greatest_at A B x b) /\ kept_apart eps (qelem r0 B b) t (qelem r1 B b)) /\
  forall c, inside c A -> let b := picked B c in let s := (qelem r1 B b - qelem r0 B b) / (whole_number (h b) - whole_number (l b)) in
    0 < s /\ exists zp q, zero_level (l b) (h b) (whole_number (l b) - qelem r0 B b / s) zp /\ nearest_level (l b) (h b) zp s (qelem x A c) (qelem y A c) q.
Proof. exact min_max_quantize_ok. Qed.
Definition shown3 (r : option (nd * nd * nd)) : option (list Q * list Q * list Q) := option_map (fun '(a, b, c) => (map this (snd a), map this (snd b), map this (snd c))) r.
Example C99_values_works :
  shown3 (min_max_quantize 0 (Q2Qc (1 # 2)) (Q2Qc (1 # 10)) false false ([2; 2]%Z, qs [5; 1 # 3; 2 # 5; -2]%Q) ([1; 1]%Z, qs [-1]%Q) ([1; 1]%Z, qs [2]%Q) ([1; 1]%Z, qs [0]%Q) ([1; 1]%Z, qs [4]%Q)) = Some ([9 # 4; 0; 3 # 4; - (3) # 4]%Q, [-1]%Q, [2]%Q) /\
  shown3 (min_max_quantize 0 (Q2Qc (1 # 2)) (Q2Qc (1 # 10)) true true ([2; 2]%Z, qs [5; 1 # 3; 2 # 5; -2]%Q) ([2; 1]%Z, qs [-1; -2]%Q) ([2; 1]%Z, qs [3; 2]%Q) ([2; 1]%Z, qs [0; 0]%Q) ([2; 1]%Z, qs [4; 3]%Q)) =
    Some ([13 # 3; 0; 0; - (32) # 15]%Q, [- (1) # 3; -2]%Q, [4; 6 # 5]%Q).
Proof. split; vm_compute; reflexivity. Qed.
(** The number 0 is kept. *)
Lemma zero_kept l h zf zp s y q : (l < h)%Z -> zero_level l h zf zp -> nearest_level l h zp s 0 y q -> y = 0.
Proof.
  intros LH (k & _ & ->) (_ & _ & B). destruct (B (into l h k)) as [M _]; [unfold into; lia |]. rewrite Z.sub_diag in M. change (whole_number 0) with 0 in M. replace (0 - 0 * s) with 0 in M by ring. rewrite (mag_pos 0) in M by apply Qcle_refl. apply mag_zero in M. qlra.
Qed.
Theorem C99_zero_partial : forall A B (l h : list Z -> Z) lmin lmax, widens B A -> above A -> (length A <= 8)%nat -> has_size lmin (size B) -> has_size lmax (size B) ->
  (forall b, inside b B -> qelem lmin B b = whole_number (l b) /\ qelem lmax B b = whole_number (h b) /\ (l b < h b)%Z) ->
  forall junk decay eps x_min_max ema x qmin qmax y r0 r1, 0 < eps -> has_size x (size A) -> has_size qmin (size B) -> has_size qmax (size B) -> (x_min_max = true -> of_moderate_size A x) ->
  min_max_quantize junk decay eps x_min_max ema (A, x) (B, qmin) (B, qmax) (B, lmin) (B, lmax) = Some (y, r0, r1) ->
  forall c, inside c A -> qelem x A c = 0 -> qelem (snd y) A c = 0.
Proof.
  intros A B l h lmin lmax W P N8 L1 L2 LV junk decay eps xm ema x q0 q1 y r0 r1 EP LX L3 L4 BD E c I Z0.
  destruct (min_max_quantize_ok A B l h lmin lmax W P N8 L1 L2 LV junk decay eps xm ema x q0 q1 EP LX L3 L4 BD) as (y' & a & b & E' & _ & _ & _ & _ & V). rewrite E' in E. injection E as <- <- <-. cbn [snd].
  destruct (V c I) as (_ & zp & q & ZL & NL). rewrite Z0 in NL. apply (zero_kept _ _ _ _ _ _ _ (proj2 (proj2 (LV (picked B c) (widens_inside B A c W I)))) ZL NL).
Qed.
Example C99_zero_works : shown3 (min_max_quantize 0 (Q2Qc (1 # 2)) (Q2Qc (1 # 10)) false false ([3]%Z, qs [0; 1; 2]%Q) ([1]%Z, qs [1]%Q) ([1]%Z, qs [2]%Q) ([1]%Z, qs [0]%Q) ([1]%Z, qs [4]%Q)) = Some ([0; 1; 1]%Q, [1]%Q, [2]%Q).
Proof. vm_compute. reflexivity. Qed.
(** Inputs between the numbers of the first and the last level change by half the scale at most. *)
Theorem C99_error : forall l h zp s x y q, (l < h)%Z -> 0 < s -> nearest_level l h zp s x y q -> whole_number (l - zp) * s <= x -> x <= whole_number (h - zp) * s -> mag (x - y) + mag (x - y) <= s.
Proof.
  intros l h zp s x y q LH S0 (_ & _ & B) X1 X2. set (lo := whole_number (l - zp) * s) in *. pose proof (over_times (x - lo) s S0) as E. revert E. generalize ((x - lo) / s). intros t E.
  assert (LEV : forall j, whole_number (j - zp) * s = lo + whole_number (j - l) * s). { intros j. unfold lo. replace (j - zp)%Z with (j - l + (l - zp))%Z by lia. rewrite (W_plus (j - l)). ring. }
  rewrite LEV in X2. assert (T0 : 0 <= t) by (apply Qcnot_lt_le; intros C; qnra). assert (TH : t <= whole_number (h - l)) by (apply Qcnot_lt_le; intros C; qnra).
  pose proof (near_0 t T0) as K0. pose proof (near_le t _ TH) as KH. destruct (B (l + near t)%Z ltac:(lia)) as [M _]. rewrite LEV in M. replace (l + near t - l)%Z with (near t) in M by lia.
  replace (x - (lo + whole_number (near t) * s)) with ((t - whole_number (near t)) * s) in M by (replace x with (t * s + lo) by qlra; ring). rewrite mag_scale in M by exact S0.
  assert (H : mag (t - whole_number (near t)) <= half). { destruct (near_ok t) as [A1 A2]. pose proof this_h. revert A1 A2. generalize (near t). intros k A1 A2. destruct (mag_cases (t - whole_number k)) as [[_ ->] | [_ ->]]; qlra. }
  pose proof this_h. qnra.
Qed.
Example C99_error_works : mag (Q2Qc (2 # 5) - Q2Qc (3 # 4)) + mag (Q2Qc (2 # 5) - Q2Qc (3 # 4)) <= Q2Qc (3 # 4).
Proof. vm_compute. discriminate. Qed.
(** Gradients: that of x is passed on, with fine_grained for inputs in the nudged range only.
    Unless the range is taken from x or averages, the gradients of inputs below (above) the range are
    added to the gradient of qr_min (qr_max). *)
Theorem C99_gradients_partial : forall A B (l h : list Z -> Z) lmin lmax, widens B A -> above A -> (length A <= 8)%nat -> has_size lmin (size B) -> has_size lmax (size B) ->
  (forall b, inside b B -> qelem lmin B b = whole_number (l b) /\ qelem lmax B b = whole_number (h b) /\ (l b < h b)%Z) ->
  forall junk x_min_max ema (fine : bool) x m s dy (a : bool) d (a0 : bool) d0 (a1 : bool) d1, has_size x (size A) -> has_size m (size B) -> has_size s (size B) -> has_size dy (size A) -> has_size d (size A) -> has_size d0 (size B) -> has_size d1 (size B) ->
  exists g g0 g1, min_max_backward junk x_min_max ema fine (A, x) (B, m) (B, lmin) (B, lmax) (B, s) (A, dy) (Some (a, (A, d))) (Some (a0, (B, d0))) (Some (a1, (B, d1))) = Some (Some (A, g), Some (B, g0), Some (B, g1)) /\
  has_size g (size A) /\ has_size g0 (size B) /\ has_size g1 (size B) /\
  (x_min_max || ema = true -> g0 = d0 /\ g1 = d1) /\
  exists zp, (forall b, inside b B -> zero_level (l b) (h b) (whole_number (l b) - qelem m B b / qelem s B b) (zp b)) /\
  let lo := fun b => whole_number (l b - zp b) * qelem s B b in let hi := fun b => whole_number (h b - zp b) * qelem s B b in
  (forall c, inside c A -> let v := qelem x A c in let b := picked B c in
    ((fine = false \/ (lo b <= v /\ v <= hi b)) -> qelem g A c = (if a then qelem d A c else 0) + qelem dy A c) /\
    (fine = true -> (v < lo b \/ hi b < v) -> qelem g A c = if a then qelem d A c else 0)) /\
  (x_min_max || ema = false -> forall b, inside b B ->
    qelem g0 B b = (if a0 then qelem d0 B b else 0) + total (used_at B A b) (fun c => if Qclt_le_dec (qelem x A c) (lo b) then qelem dy A c else 0) /\
    qelem g1 B b = (if a1 then qelem d1 B b else 0) + total (used_at B A b) (fun c => if Qclt_le_dec (hi b) (qelem x A c) then qelem dy A c else 0)).
Proof.
  intros A B l h lmin lmax W P N8 L1 L2 LV junk xm ema fine x m s dy a d a0 d0 a1 d1 LX LM LS LY LD LD0 LD1.
  destruct (min_max_backward_ok A B l h lmin lmax W P N8 L1 L2 LV junk xm ema fine x m s dy a d a0 d0 a1 d1 LX LM LS LY LD LD0 LD1) as (g & g0 & g1 & E & LG & LG0 & LG1 & K & zp & ZL & VG & VS).
  exists g, g0, g1. repeat (split; [assumption |]). exists zp. split; [exact ZL |]. cbv zeta in *.
  assert (WM : forall i j, whole_number i - whole_number j = whole_number (i - j)) by (intros; unfold Z.sub; rewrite W_plus, W_opp; ring). split.
  - intros c I. rewrite (VG c I), !WM. split.
    + intros [-> | [H1 H2]]; [reflexivity |]. rewrite (proj2 (more_false _ _) H2), (proj2 (QuantProofs1.less_false _ _) H1), andb_false_r. reflexivity.
    + intros -> [H | H]; [rewrite (proj2 (QuantProofs1.less_true _ _) H) | rewrite (proj2 (more_true _ _) H), orb_true_r]; cbn [orb andb]; ring.
  - intros X b I. destruct (VS X b I) as [S1 S2]. rewrite !WM in S1, S2. rewrite S1, S2. unfold less, more. split; f_equal; unfold total; f_equal; apply map_ext; intros c; destruct (Qclt_le_dec _ _); reflexivity.
Qed.
Example C99_gradients_works : option_map (fun '(a, b, c) => (option_map (fun a => map this (snd a)) a, option_map (fun a => map this (snd a)) b, option_map (fun a => map this (snd a)) c))
  (min_max_backward 0 false false true ([2; 2]%Z, qs [5; 1 # 3; 2 # 5; -2]%Q) ([1; 1]%Z, qs [-1]%Q) ([1; 1]%Z, qs [0]%Q) ([1; 1]%Z, qs [4]%Q) ([1; 1]%Z, qs [3 # 4]%Q) ([2; 2]%Z, qs [1; 2; 3; 4]%Q) (Some (true, ([2; 2]%Z, qs [10; 20; 30; 40]%Q))) (Some (false, ([1; 1]%Z, qs [100]%Q))) (Some (true, ([1; 1]%Z, qs [100]%Q)))) =
  Some (Some [10; 22; 33; 40]%Q, Some [4]%Q, Some [101]%Q).
Proof. vm_compute. reflexivity. Qed.
(** qr_max should be modified only when x_min_max is true.  It is also if the range is small. *)
Definition C99_range_kept_statement : Prop := forall junk decay eps ema x qmin qmax lmin lmax y r0 r1, min_max_quantize junk decay eps false ema x qmin qmax lmin lmax = Some (y, r0, r1) -> r1 = qmax.
Theorem C99_range_kept_refuted : ~ C99_range_kept_statement.
Proof.
  intros H. assert (E : exists y r0 r1, min_max_quantize 0 1 (Q2Qc (1 # 100)) false false ([1]%Z, [0]) ([1]%Z, [0]) ([1]%Z, [0]) ([1]%Z, [0]) ([1]%Z, [1]) = Some (y, r0, r1) /\ map this (snd r1) = [1 # 100]%Q) by (eexists; eexists; eexists; split; [vm_compute; reflexivity | reflexivity]).
  destruct E as (y & r0 & r1 & E & S). apply H in E. subst. discriminate.
Qed.
(** The documentation has outputs between ql_min - zp * scale and ql_max - zp * scale; the
    difference should be multiplied by the scale. *)
Definition C99_documented_range_statement : Prop := forall junk decay eps x qmin qmax l h zp y r0 r1, 0 < eps -> eps <= qmax - qmin -> (l < h)%Z ->
  min_max_quantize junk decay eps false false ([1]%Z, [x]) ([1]%Z, [qmin]) ([1]%Z, [qmax]) ([1]%Z, [whole_number l]) ([1]%Z, [whole_number h]) = Some (y, r0, r1) ->
  let s := (qmax - qmin) / (whole_number h - whole_number l) in zero_level l h (whole_number l - qmin / s) zp ->
  whole_number l - whole_number zp * s <= nth 0 (snd y) 0 /\ nth 0 (snd y) 0 <= whole_number h - whole_number zp * s.
Theorem C99_documented_range_refuted : ~ C99_documented_range_statement.
Proof.
  intros H. assert (E : exists y r0 r1, min_max_quantize 0 1 (Q2Qc (1 # 100)) false false ([1]%Z, [whole_number 20]) ([1]%Z, [0]) ([1]%Z, [whole_number 10]) ([1]%Z, [0]) ([1]%Z, [1]) = Some (y, r0, r1) /\ map this (snd y) = [10]%Q) by (eexists; eexists; eexists; split; [vm_compute; reflexivity | reflexivity]).
  destruct E as (y & r0 & r1 & E & S). specialize (H 0 1 (Q2Qc (1 # 100)) (whole_number 20) 0 (whole_number 10) 0%Z 1%Z 0%Z y r0 r1 ltac:(reflexivity) ltac:(discriminate) ltac:(lia) E). cbv zeta in H.
  destruct H as [_ H].
  - exists (away (whole_number 0 - 0 / ((whole_number 10 - 0) / (whole_number 1 - whole_number 0)))). split; [apply away_rounds | reflexivity].
  - destruct (snd y) as [| v [|]]; try discriminate. cbn [nth] in H. injection S as S. unfold Qcle in H. rewrite S in H. vm_compute in H. apply H. reflexivity.
Qed.

(** * Prune *)

(** Elements smaller in size than the threshold become 0, others stay.  The threshold is the size of
    an element.  With rate < 1, at most (size - 1) * rate elements are smaller than it, and more than
    this number are not greater; with rate 1, all elements that are not greater than the threshold (the
    greatest size) become 0. *)
Theorem C100_values_partial : forall std_sort, sorting std_sort -> forall rate x y0, 0 <= rate -> rate <= 1 -> x <> [] -> length y0 = length x ->
  exists t y (i : nat), prune std_sort rate x y0 = Some y /\ length y = length x /\ (exists e, In e x /\ t = mag e) /\ (smaller t x <= i < not_greater t x)%nat /\
  whole_number (Z.of_nat i) <= whole_number (Z.of_nat (length x) - 1) * rate /\ whole_number (Z.of_nat (length x) - 1) * rate < whole_number (Z.of_nat i) + 1 /\
  forall k, (k < length x)%nat -> nth k y 0 = if Qclt_le_dec (mag (nth k x 0)) (t + if Qc_eq_dec rate 1 then 1 else 0) then 0 else nth k x 0.
Proof. exact prune_ok. Qed.
Example C100_values_works : shown (prune isort (Q2Qc (1 # 2)) (qs [5; -1; 3; -3; 2]%Q) (repeat 0 5)) = Some [5; 0; 3; -3; 0]%Q /\
  shown (prune isort 1 (qs [5; -1; 3; -3; 2]%Q) (repeat 0 5)) = Some [0; 0; 0; 0; 0]%Q /\ shown (prune isort 0 (qs [5; 0; 3]%Q) (repeat 0 3)) = Some [5; 0; 3]%Q.
Proof. repeat split; vm_compute; reflexivity. Qed.
(** With rate 1 everything becomes 0. *)
Theorem C100_all : forall std_sort, sorting std_sort -> forall x y0, x <> [] -> length y0 = length x -> prune std_sort 1 x y0 = Some (map (fun _ => 0) x).
Proof.
  intros std SORT x y0 NE L. destruct (prune_ok std SORT 1 x y0 ltac:(discriminate) (Qcle_refl 1) NE L) as (t & y & i & E & LY & _ & (_ & NG) & _ & I2 & V).
  rewrite E. f_equal. assert (LI : (length x <= S i)%nat). { replace (whole_number (Z.of_nat (length x) - 1) * 1) with (whole_number (Z.of_nat (length x) - 1)) in I2 by ring. apply between in I2. lia. }
  assert (ALL : forall v, In v x -> mag v <= t).
  { assert (Q : length (filter (fun v => if Qclt_le_dec t (mag v) then false else true) x) = length x). { pose proof (QuantProofs7.filter_le (fun v => if Qclt_le_dec t (mag v) then false else true) x). unfold not_greater in NG. lia. }
    clear - Q. intros v Iv. induction x as [| u x IH]; [contradiction |]. cbn [filter] in Q. pose proof (QuantProofs7.filter_le (fun v => if Qclt_le_dec t (mag v) then false else true) x). destruct (Qclt_le_dec t (mag u)); cbn [length] in Q; [lia |]. destruct Iv as [<- | Iv]; [assumption | apply IH; [lia | exact Iv]]. }
  apply (nth_ext _ _ 0 0); [rewrite map_length; exact LY |]. intros k Hk. rewrite LY in Hk. rewrite (V k Hk). replace (nth k (map (fun _ => 0) x) 0) with 0 by (symmetry; apply (map_nth (fun _ : Qc => 0) x 0 k)).
  destruct (Qclt_le_dec _ _) as [| C]; [reflexivity |]. exfalso. destruct (Qc_eq_dec 1 1) as [_ | N]; [| contradiction]. specialize (ALL (nth k x 0) (nth_In x 0 Hk)). qlra.
Qed.
Example C100_all_works : shown (prune isort 1 (qs [5; -7]%Q) (repeat 0 2)) = Some [0; 0]%Q.
Proof. vm_compute. reflexivity. Qed.
Theorem C100_gradient : forall accum dy d0, length dy = length d0 ->
  exists d, prune_backward accum dy d0 = Some d /\ length d = length d0 /\ forall i, (i < length d0)%nat -> nth i d 0 = (if accum then nth i d0 0 else 0) + nth i dy 0.
Proof. exact prune_backward_ok. Qed.
Example C100_gradient_works : shown (prune_backward true (qs [1; 2]%Q) (qs [10; 20]%Q)) = Some [11; 22]%Q /\ shown (prune_backward false (qs [1; 2]%Q) (qs [10; 20]%Q)) = Some [1; 2]%Q.
Proof. split; vm_compute; reflexivity. Qed.
(** An array without elements should stay as it is.  The threshold is read outside of it. *)
Definition C100_empty_statement : Prop := forall std_sort, sorting std_sort -> forall rate, 0 <= rate -> rate <= 1 -> prune std_sort rate [] [] = Some [].
Theorem C100_empty_refuted : ~ C100_empty_statement.
Proof. intros H. specialize (H isort isort_sorting 0 (Qcle_refl 0) ltac:(discriminate)). vm_compute in H. discriminate. Qed.
(** The documented threshold, an element's size, would keep the greatest elements for rate 1. *)
Definition C100_documented_statement : Prop := forall std_sort, sorting std_sort -> forall rate x y0 y, 0 <= rate -> rate <= 1 -> length y0 = length x -> prune std_sort rate x y0 = Some y ->
  exists t, (exists e, In e x /\ t = mag e) /\ forall k, (k < length x)%nat -> nth k y 0 = if Qclt_le_dec (mag (nth k x 0)) t then 0 else nth k x 0.
Theorem C100_documented_refuted : ~ C100_documented_statement.
Proof.
  intros H. assert (E : exists y, prune isort 1 [1] [0] = Some y /\ map this y = [0]%Q) by (eexists; split; [vm_compute; reflexivity | reflexivity]). destruct E as (y & E & S).
  destruct (H isort isort_sorting 1 [1] [0] y ltac:(discriminate) (Qcle_refl 1) eq_refl E) as (t & (e & [<- | []] & ->) & V). specialize (V 0%nat ltac:(cbn; lia)). cbn [nth] in V. destruct (Qclt_le_dec (mag 1) (mag 1)) as [C |]; [exfalso; qlra |].
  destruct y as [| v [|]]; try discriminate. cbn [nth] in V. rewrite V in S. discriminate.
Qed.

Print Assumptions C96_values_partial.
Print Assumptions C97_values_partial.
Print Assumptions C98_quantize_partial.
Print Assumptions C98_round_trip_partial.
Print Assumptions C99_values_partial.
Print Assumptions C99_zero_partial.
Print Assumptions C99_gradients_partial.
Print Assumptions C100_values_partial.
Print Assumptions C100_all.
