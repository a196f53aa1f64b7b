(** Quantization: rounding to integers; QuantizeLinear and DequantizeLinear. *)
From Coq Require Import List ZArith Lia Lqa Bool QArith Qcanon Qround.
From Verif Require Import NdSpec NdProofs IdxModel IdxProofs1 JoinModel ScanSpec ScanModel ScanProofs1 ReduceSpec ReduceModel ReduceProofs1 ConvSpec ConvModel MatSpec MatModel BinSpec BinModel BinProofs3 BfaModel BfaSpec BfaProofs1 BfaProofs2 FindModel FindProofs1 NmsProofs1 QuantModel QuantSpec QuantProofs1 QuantProofs2.
From Verif Require BinProps.
Import ListNotations.
Local Open Scope list_scope.
Local Open Scope Qc_scope.

Definition away (v : Qc) : Z := (if less v 0 then - near (mag v) else near (mag v))%Z.
Lemma std_round_is v : std_round v = whole_number (away v).
Proof. unfold std_round, away, near. rewrite qabs_mag. cbv zeta. rewrite of_W. destruct (less v 0); [rewrite W_opp |]; reflexivity. Qed.
Lemma away_half v : mag (v - whole_number (away v)) <= half.
Proof.
  unfold away. pose proof this_h as HH. destruct (near_ok (mag v)) as [A B]. destruct (less v 0) eqn:L.
  - apply less_true in L. rewrite (mag_neg v) in * by qlra. rewrite W_opp. revert A B. generalize (near (- v)). intros k A B. destruct (mag_cases (v - - whole_number k)) as [[_ ->] | [_ ->]]; qlra.
  - apply less_false in L. rewrite (mag_pos v) in * by exact L. revert A B. generalize (near v). intros k A B. destruct (mag_cases (v - whole_number k)) as [[_ ->] | [_ ->]]; qlra.
Qed.
Lemma away_best v j : mag (v - whole_number (away v)) <= mag (v - whole_number j) /\ (mag (v - whole_number (away v)) = mag (v - whole_number j) -> (Z.abs j <= Z.abs (away v))%Z).
Proof.
  unfold away. destruct (less v 0) eqn:L.
  - apply less_true in L. rewrite (mag_neg v) by qlra. destruct (near_far (- v) (- j) ltac:(qlra)) as [B C]. pose proof (near_0 (- v) ltac:(qlra)).
    assert (E : forall i, mag (v - whole_number i) = mag (- v - whole_number (- i))) by (intros i; rewrite W_opp; rewrite <- (mag_opp (v - whole_number i)); f_equal; ring).
    rewrite (E (- near (- v))%Z), (E j). rewrite Z.opp_involutive. split; [exact B |]. intros Q. apply C in Q. lia.
  - apply less_false in L. rewrite (mag_pos v) by exact L. destruct (near_far v j L) as [B C]. pose proof (near_0 v L). split; [exact B |]. intros Q. apply C in Q. lia.
Qed.
Lemma away_rounds v : rounds_to false v (away v).
Proof.
  intros j. destruct (away_best v j) as [B C]. split; [exact B |]. intros NE E. specialize (C E). destruct (Z.eq_dec (Z.abs j) (Z.abs (away v))) as [EA |]; [| lia]. exfalso.
  assert (J : j = (- away v)%Z) by lia. rewrite J, W_opp in E. set (k := away v) in *.
  assert (V : v * whole_number k = 0).
  { destruct (mag_cases (v - whole_number k)) as [[_ M] | [_ M]], (mag_cases (v - - whole_number k)) as [[_ M'] | [_ M']]; rewrite M, M' in E; clear - E; try (assert (whole_number k = 0) as -> by qlra; ring); assert (v = 0) as -> by qlra; ring. }
  apply Qcmult_integral in V as [V | V].
  - assert (K0 : k = 0%Z). { unfold k. rewrite V. reflexivity. } lia.
  - change 0 with (whole_number 0) in V. apply W_inj in V. lia.
Qed.
Lemma mode_rounds even v : exists k, round_mode even v = whole_number k /\ rounds_to even v k.
Proof.
  unfold round_mode. cbv zeta. rewrite !std_round_is, qabs_mag. pose proof this_h as HH. pose proof (away_half v) as HV. destruct even; cbn [andb]; [| exists (away v); split; [reflexivity | apply away_rounds]].
  destruct (same (mag (v - whole_number (away v))) half) eqn:T.
  - apply same_true in T. exists (away (v * half) * 2)%Z. split; [rewrite W_mult; reflexivity |].
    assert (M : mag (v - whole_number (away (v * half) * 2)) = half).
    { pose proof (away_half (v * half)) as R. revert R. generalize (away (v * half)). intros r R. revert T. generalize (away v). intros k T.
      assert (W2 : whole_number (r * 2) = whole_number r + whole_number r) by (rewrite <- W_plus; f_equal; lia). rewrite W2.
      assert (D : whole_number (k - 2 * r) = whole_number k - (whole_number r + whole_number r)). { replace (k - 2 * r)%Z with (k + - (r + r))%Z by lia. rewrite W_plus, W_opp, W_plus. ring. }
      assert (R' : - (1) <= v - (whole_number r + whole_number r) /\ v - (whole_number r + whole_number r) <= 1). { destruct (mag_cases (v * half - whole_number r)) as [[G M] | [G M]]; rewrite M in R; split; qnra. } destruct R' as [R1 R2].
      assert (N1 : whole_number (-1) = - (1)) by reflexivity. assert (N2 : whole_number 1 = 1) by reflexivity.
      assert (LT : (-2 < k - 2 * r < 2)%Z). { assert (X : whole_number (-2) = - (1) - 1) by reflexivity. assert (Y : whole_number 2 = 1 + 1) by reflexivity. split; apply W_lt; rewrite D; rewrite ?X, ?Y; destruct (mag_cases (v - whole_number k)) as [[_ M] | [_ M]]; rewrite M in T; qlra. }
      destruct (Z.eq_dec (k - 2 * r) 0) as [E0 | E0]; [rewrite E0 in D; change (whole_number 0) with 0 in D; replace (whole_number r + whole_number r) with (whole_number k) by qlra; exact T |].
      assert (E1 : (k - 2 * r = 1 \/ k - 2 * r = -1)%Z) by lia. destruct E1 as [E1 | E1]; rewrite E1 in D; rewrite ?N1, ?N2 in D; destruct (mag_cases (v - whole_number k)) as [[_ M] | [_ M]]; rewrite M in T; destruct (mag_cases (v - (whole_number r + whole_number r))) as [[SG ->] | [SG ->]]; qlra. }
    intros j. rewrite M. split; [rewrite <- T; apply away_best |]. intros _ _. exists (away (v * half)). apply Z.mul_comm.
  - apply same_false in T. exists (away v). split; [reflexivity |]. intros j. destruct (away_best v j) as [B _]. split; [exact B |]. intros NE E. exfalso.
    assert (HL : mag (v - whole_number (away v)) < half) by (apply Qcnot_le_lt; intros C; apply T; apply Qcle_antisym; assumption). assert (HJ : mag (v - whole_number j) < half) by (rewrite <- E; exact HL).
    revert NE E HL HJ. generalize (away v). intros k NE E HL HJ. apply NE.
    destruct (mag_cases (v - whole_number k)) as [[S1 M] | [S1 M]]; rewrite M in HL; destruct (mag_cases (v - whole_number j)) as [[S2 M'] | [S2 M']]; rewrite M' in HJ; apply Z.le_antisymm; apply between; qlra.
Qed.
Lemma saturate_into lo hi k : (lo <= hi)%Z -> saturate (of_Z lo) (of_Z hi) (whole_number k) = whole_number (into lo hi k).
Proof.
  intros H. unfold saturate, into. change (of_Z lo) with (whole_number lo). change (of_Z hi) with (whole_number hi). destruct (less (whole_number k) (whole_number lo)) eqn:L.
  - apply less_true, W_lt in L. f_equal. lia.
  - apply less_false, W_le in L. destruct (more (whole_number k) (whole_number hi)) eqn:M.
    + apply more_true, W_lt in M. f_equal. lia.
    + apply more_false, W_le in M. f_equal. lia.
Qed.

(** Functions of an array and one repeated to its shape. *)
Lemma picked_self A c : inside c A -> picked A c = c.
Proof. induction 1 as [| i n c A H _ IH]; cbn [picked]; [reflexivity |]. rewrite IH. destruct (Z.eqb_spec n 1); f_equal; lia. Qed.
Lemma wide_joined A B : widens B A -> joined A B A.
Proof. induction 1 as [| b a B A [-> | ->] _ IH]; constructor; assumption. Qed.
Lemma wide_fit A B : widens B A -> above A -> BinProps.fit A B A.
Proof.
  intros W P. split; [apply wide_joined; exact W |]. unfold unmixed. revert P. induction W as [| b a B A H _ IH]; intros P; [constructor |]. inversion P; subst. constructor; [destruct H; lia | apply IH; assumption].
Qed.
Lemma wide_sizes A B : widens B A -> above A -> sizes B.
Proof. intros W P. induction W as [| b a B A H _ IH]; [constructor |]. inversion P; subst. constructor; [destruct H; lia | apply IH; assumption]. Qed.
Lemma wide_call2 junk op A B x s : widens B A -> above A -> has_size x (size A) -> has_size s (size B) ->
  exists y, call2 junk op (A, x) (B, s) = Some (A, y) /\ has_size y (size A) /\ forall c, inside c A -> qelem y A c = op (qelem x A c) (qelem s B (picked B c)).
Proof.
  intros W P LX LS. destruct (BfaProofs1.call2_ok junk op A B A x s (wide_joined _ _ W) P LX LS) as (y & E & L & V). exists y. split; [exact E |]. split; [exact L |]. intros c I. rewrite (V c I). rewrite (picked_self A c I). reflexivity.
Qed.
Lemma wide_into op A B x s : widens B A -> above A -> has_size x (size A) -> has_size s (size B) ->
  exists y, call_into false op (A, x) (B, s) = Some (A, y) /\ has_size y (size A) /\ forall c, inside c A -> qelem y A c = op (qelem x A c) (qelem s B (picked B c)).
Proof.
  intros W P LX LS. destruct (BinProps.call_into_ok false op (A, x) (B, s)) as (y & E & L & V); [apply wide_fit; assumption | apply above_sizes; exact P | exact LX | exact LS | discriminate |].
  exists y. split; [exact E |]. split; [exact L |]. intros c I. cbn [fst snd] in V. rewrite (V c I). rewrite (picked_self A c I). reflexivity.
Qed.
Lemma wide_add A B x s : widens B A -> above A -> has_size x (size A) -> has_size s (size B) ->
  exists y, add_into false (A, x) (B, s) = Some (A, y) /\ has_size y (size A) /\ forall c, inside c A -> qelem y A c = qelem x A c + qelem s B (picked B c).
Proof.
  intros W P LX LS. destruct (BinProps.add_into_ok false (A, x) (B, s)) as (y & E & L & V); [apply wide_fit; assumption | apply above_sizes; exact P | exact LX | exact LS | discriminate |].
  exists y. split; [exact E |]. split; [exact L |]. intros c I. cbn [fst snd] in V. rewrite (V c I). rewrite (picked_self A c I). reflexivity.
Qed.
Lemma scalar_ok op A x : sizes A -> has_size x (size A) -> exists y, scalar_into op (A, x) = Some (A, y) /\ has_size y (size A) /\ forall c, inside c A -> qelem y A c = op (qelem x A c).
Proof. intros P L. exact (BinProps.scalar_into_ok op (A, x) P L). Qed.
Lemma ones_or_same_ok A B : ones_or_same A B = true <-> widens B A.
Proof.
  revert B. induction A as [| a A IH]; intros [| b B]; cbn [ones_or_same]; split; intros H; try discriminate; try (inversion H; fail); try constructor.
  - apply andb_true_iff in H as [H _]. apply orb_true_iff in H as [H | H]; apply Z.eqb_eq in H; auto.
  - apply andb_true_iff in H as [_ H]. apply IH. exact H.
  - inversion H as [| ? ? ? ? H1 H2]; subst. apply andb_true_iff. split; [| apply IH; exact H2]. apply orb_true_iff. destruct H1 as [-> | ->]; [right | left]; apply Z.eqb_refl.
Qed.

(** QuantizeLinear. *)
Lemma ranges_ok narrow dtype lo hi : dtype_range narrow dtype lo hi -> ranges narrow dtype = Some (of_Z lo, of_Z hi) /\ (lo <= hi)%Z.
Proof. intros [(-> & -> & ->) | (-> & -> & ->)]; destruct narrow; (split; [reflexivity | lia]). Qed.
Lemma quantize_linear_ok junk even narrow dtype lo hi A B D x s z : dtype_range narrow dtype lo hi -> widens B A -> widens D A -> above A ->
  has_size x (size A) -> has_size s (size B) -> has_size z (size D) ->
  exists y z', quantize_linear junk even narrow dtype (A, x) (B, s) (D, z) = Some ((A, y), (D, z')) /\ has_size y (size A) /\ has_size z' (size D) /\
  (forall d, inside d D -> exists k, rounds_to even (qelem z D d) k /\ qelem z' D d = whole_number (into lo hi k)) /\
  (forall c, inside c A -> exists k kz, rounds_to even (qelem x A c / qelem s B (picked B c)) k /\ qelem z' D (picked D c) = whole_number kz /\ qelem y A c = whole_number (into lo hi (k + kz))).
Proof.
  intros R WB WD P LX LS LZ. destruct (ranges_ok _ _ _ _ R) as [RE LH]. pose proof (wide_sizes _ _ WD P) as SD. pose proof (above_sizes _ P) as SA.
  unfold quantize_linear. cbn [fst snd]. rewrite (proj2 (ones_or_same_ok A B) WB), (proj2 (ones_or_same_ok A D) WD). cbn [andb negb]. rewrite RE. cbn [obind].
  destruct (wide_call2 junk div_op A B x s WB P LX LS) as (y1 & E1 & L1 & V1). rewrite E1. cbn [obind].
  destruct (scalar_ok (round_mode even) A y1 SA L1) as (y2 & E2 & L2 & V2). rewrite E2. cbn [obind].
  destruct (scalar_ok (round_mode even) D z SD LZ) as (z1 & E3 & L3 & V3). rewrite E3. cbn [obind].
  destruct (scalar_ok (saturate (of_Z lo) (of_Z hi)) D z1 SD L3) as (z2 & E4 & L4 & V4). rewrite E4. cbn [obind].
  destruct (wide_add A D y2 z2 WD P L2 L4) as (y3 & E5 & L5 & V5). rewrite E5. cbn [obind].
  destruct (scalar_ok (saturate (of_Z lo) (of_Z hi)) A y3 SA L5) as (y4 & E6 & L6 & V6). rewrite E6. cbn [obind].
  assert (ZV : forall d, inside d D -> exists k, rounds_to even (qelem z D d) k /\ qelem z2 D d = whole_number (into lo hi k)).
  { intros d I. destruct (mode_rounds even (qelem z D d)) as (k & M & RO). exists k. split; [exact RO |]. rewrite (V4 d I), (V3 d I), M. apply saturate_into. exact LH. }
  exists y4, z2. split; [reflexivity |]. split; [exact L6 |]. split; [exact L4 |]. split; [exact ZV |].
  intros c I. destruct (mode_rounds even (qelem x A c / qelem s B (picked B c))) as (k & M & RO). destruct (ZV (picked D c)) as (kz & _ & Z2); [apply (widens_inside D A); assumption |].
  exists k, (into lo hi kz). split; [exact RO |]. split; [exact Z2 |]. rewrite (V6 c I), (V5 c I), (V2 c I), (V1 c I), Z2. unfold div_op. rewrite M, <- W_plus. apply saturate_into. exact LH.
Qed.
Lemma linear_bad_shapes junk even narrow dtype x s z : ~ (widens (fst s) (fst x) /\ widens (fst z) (fst x)) -> quantize_linear junk even narrow dtype x s z = None /\ dequantize_linear junk x s z = None.
Proof.
  intros H. assert (E : ones_or_same (fst x) (fst s) && ones_or_same (fst x) (fst z) = false).
  { destruct (_ && _) eqn:E; [| reflexivity]. apply andb_true_iff in E as [E1 E2]. exfalso. apply H. split; apply ones_or_same_ok; assumption. }
  unfold quantize_linear, dequantize_linear. rewrite E. split; reflexivity.
Qed.
Lemma dequantize_linear_ok junk A B D x s z : widens B A -> widens D A -> above A -> has_size x (size A) -> has_size s (size B) -> has_size z (size D) ->
  exists y, dequantize_linear junk (A, x) (B, s) (D, z) = Some (A, y) /\ has_size y (size A) /\
  forall c, inside c A -> qelem y A c = (qelem x A c - qelem z D (picked D c)) * qelem s B (picked B c).
Proof.
  intros WB WD P LX LS LZ. unfold dequantize_linear. cbn [fst snd]. rewrite (proj2 (ones_or_same_ok A B) WB), (proj2 (ones_or_same_ok A D) WD). cbn [andb negb].
  destruct (wide_call2 junk sub_op A D x z WD P LX LZ) as (y1 & E1 & L1 & V1). rewrite E1. cbn [obind].
  destruct (wide_into mul_op A B y1 s WB P L1 LS) as (y2 & E2 & L2 & V2). rewrite E2. exists y2. split; [reflexivity |]. split; [exact L2 |]. intros c I. rewrite (V2 c I), (V1 c I). reflexivity.
Qed.
Lemma linear_backward_ok op junk (accum : bool) A B s dy d : widens B A -> above A -> has_size s (size B) -> has_size dy (size A) -> has_size d (size A) ->
  exists d', linear_backward op junk accum (B, s) (A, dy) (A, d) = Some (A, d') /\ has_size d' (size A) /\
  forall c, inside c A -> qelem d' A c = (if accum then qelem d A c else 0) + op (qelem dy A c) (qelem s B (picked B c)).
Proof.
  intros W P LS LY LD. unfold linear_backward. destruct (wide_call2 junk op A B dy s W P LY LS) as (y1 & E1 & L1 & V1). rewrite E1. cbn [obind]. destruct accum.
  - destruct (wide_add A A d y1) as (y2 & E2 & L2 & V2); try assumption; [clear; induction A; constructor; auto |]. rewrite E2. exists y2. split; [reflexivity |]. split; [exact L2 |]. intros c I. rewrite (V2 c I). rewrite (picked_self A c I), (V1 c I). reflexivity.
  - exists y1. split; [reflexivity |]. split; [exact L1 |]. intros c I. rewrite (V1 c I). ring.
Qed.
(** Errors of a round trip. *)
Lemma rounds_half even v k : rounds_to even v k -> mag (v - whole_number k) <= half.
Proof. intros H. destruct (H (away v)) as [B _]. eapply Qcle_trans; [exact B | apply away_half]. Qed.
