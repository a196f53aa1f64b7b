(** Quantization: MinMaxQuantize. *)
From Coq Require Import List ZArith Lia Lqa Bool QArith Qcanon Qround.
From Verif Require Import NdSpec NdModel NdProofs IdxModel IdxProofs1 IdxProofs2 JoinSpec JoinModel ScanSpec ScanModel ScanProofs1 ReduceSpec ReduceModel ReduceProofs1 ConvSpec ConvModel MatSpec MatModel PoolProofs3 BinSpec BinModel BinProofs3 BfaModel BfaSpec BfaProofs1 BfaProofs2 FindModel FindProofs1 NmsProofs1 QuantModel QuantSpec QuantProofs1 QuantProofs2 QuantProofs5.
From Verif Require BinProps ReduceProps MatProps.
Import ListNotations.
Local Open Scope list_scope.
Local Open Scope Qc_scope.

(** * One element *)
Section element.
Variables (l h : Z) (m0 s : Qc).
Hypothesis LH : (l < h)%Z.
Hypothesis S0 : 0 < s.
Let zf := whole_number l - m0 / s.
Definition zero_is : Z := into l h (away zf).
Lemma zero_ok : zero_level l h zf zero_is.
Proof. exists (away zf). split; [apply away_rounds | reflexivity]. Qed.
Lemma away_le v k : v <= whole_number k -> (away v <= k)%Z.
Proof.
  intros H. pose proof (away_half v) as A. pose proof this_h as HH. destruct (Z_lt_le_dec k (away v)) as [C |]; [| assumption]. exfalso.
  destruct (away_best v k) as [B T]. apply W_step in C. destruct (mag_cases (v - whole_number (away v))) as [[S1 M] | [S1 M]]; rewrite M in *; [qlra |]. rewrite (mag_neg (v - whole_number k)) in B by qlra. qlra.
Qed.
Lemma away_ge v k : whole_number k <= v -> (k <= away v)%Z.
Proof.
  intros H. destruct (Z_lt_le_dec (away v) k) as [C |]; [| assumption]. exfalso.
  destruct (away_best v k) as [B T]. apply W_step in C. destruct (mag_cases (v - whole_number (away v))) as [[S1 M] | [S1 M]]; rewrite M in *; [| qlra]. rewrite (mag_pos (v - whole_number k)) in B by qlra. qlra.
Qed.
Lemma zero_nudged_is : zero_nudged (whole_number l) (whole_number h) m0 s = whole_number zero_is.
Proof.
  unfold zero_nudged, zero_is, into. fold zf. cbv zeta. destruct (more zf (whole_number l)) eqn:M; cbn [negb].
  - apply more_true in M. destruct (less zf (whole_number h)) eqn:L; cbn [negb].
    + apply less_true in L. rewrite std_round_is. f_equal. pose proof (away_le zf h ltac:(qlra)). pose proof (away_ge zf l ltac:(qlra)). lia.
    + apply less_false in L. f_equal. pose proof (away_ge zf h L). lia.
  - apply more_false in M. f_equal. pose proof (away_le zf l M). lia.
Qed.
Variable zp : Z.
Definition level_value (x : Qc) : Qc :=
  let lo := (whole_number l - whole_number zp) * s in
  let hi := (whole_number h - whole_number zp) * s in
  std_round ((min_op (max_op x lo) hi - lo) / s) * s + lo.
Lemma qgt_true a b : qgt a b = true -> b < a.
Proof. apply BinProps.qgt_iff. Qed.
Lemma qgt_false a b : qgt a b = false -> a <= b.
Proof. intros H. apply Qcnot_lt_le. intros C. apply BinProps.qgt_iff in C. congruence. Qed.
Lemma over_same a : a * s / s = a.
Proof. apply (scale_inj _ _ s S0). apply over_times. exact S0. Qed.
Lemma std_round_W k : std_round (whole_number k) = whole_number k.
Proof. rewrite std_round_is. f_equal. pose proof (away_le (whole_number k) k (Qcle_refl _)). pose proof (away_ge (whole_number k) k (Qcle_refl _)). lia. Qed.
Lemma level_value_ok x : exists q, nearest_level l h zp s x (level_value x) q.
Proof.
  unfold level_value. cbv zeta. set (lo := (whole_number l - whole_number zp) * s). set (hi := (whole_number h - whole_number zp) * s).
  assert (LEV : forall j, whole_number (j - zp) * s = lo + whole_number (j - l) * s).
  { intros j. unfold lo. replace (j - zp)%Z with (j - l + (l + - zp))%Z by lia. rewrite (W_plus (j - l)), (W_plus l), W_opp. ring. }
  assert (HI : hi = lo + whole_number (h - l) * s). { rewrite <- LEV. unfold hi, lo. unfold Z.sub. rewrite W_plus, W_opp. ring. }
  unfold max_op. destruct (qgt x lo) eqn:G.
  - apply qgt_true in G. unfold min_op. destruct (qgt hi x) eqn:G'.
    + apply qgt_true in G'. pose proof (over_times (x - lo) s S0) as E. revert E. generalize ((x - lo) / s). intros t E.
      assert (T0 : 0 <= t) by (apply Qcnot_lt_le; intros C; qnra). assert (TH : t <= whole_number (h - l)) by (apply Qcnot_lt_le; intros C; qnra).
      assert (R : std_round t = whole_number (near t)). { rewrite std_round_is. unfold away. rewrite (proj2 (less_false t 0) T0). rewrite mag_pos by exact T0. reflexivity. }
      rewrite R. pose proof (near_0 t T0) as K0. pose proof (near_le t _ TH) as KH. exists (l + near t)%Z. split; [lia |]. split; [rewrite LEV; replace (l + near t - l)%Z with (near t) by lia; ring |].
      intros j J. rewrite LEV. replace (x - (whole_number (near t) * s + lo)) with ((t - whole_number (near t)) * s) by (replace x with (t * s + lo) by qlra; ring).
      replace (x - (lo + whole_number (j - l) * s)) with ((t - whole_number (j - l)) * s) by (replace x with (t * s + lo) by qlra; ring).
      rewrite !mag_scale by exact S0. destruct (near_best t (j - l)) as [B C]. split; [apply scale_le; assumption |]. intros Q. apply (scale_inj _ _ _ S0) in Q. apply C in Q. lia.
    + apply qgt_false in G'. replace (hi - lo) with (whole_number (h - l) * s) by (rewrite HI; ring). rewrite over_same, std_round_W. exists h. split; [lia |]. split; [rewrite LEV; ring |].
      intros j J. rewrite LEV. assert (Q : whole_number (j - l) * s <= whole_number (h - l) * s) by (apply scale_le; [exact S0 | apply (proj1 (W_le _ _)); lia]).
      rewrite !mag_pos by qlra. split; [qlra | intros; lia].
  - apply qgt_false in G. assert (P : 0 < whole_number (h - l) * s). { assert (0 < whole_number (h - l)) by (apply (proj1 (W_lt 0 _)); lia). clear - H S0. qnra. }
    unfold min_op. destruct (qgt hi lo) eqn:G'; [clear G' | apply qgt_false in G'; exfalso; qlra].
    replace (lo - lo) with (whole_number 0 * s) by (change (whole_number 0) with 0; ring). rewrite over_same, std_round_W. exists l. split; [lia |]. split; [rewrite LEV; rewrite Z.sub_diag; ring |].
    intros j J. rewrite LEV. change (whole_number 0) with 0. assert (Q : 0 <= whole_number (j - l)) by (apply (proj1 (W_le 0 _)); lia).
    assert (Q' : 0 <= whole_number (j - l) * s) by (clear - Q S0; qnra). rewrite !mag_neg by qlra. split; [qlra |]. intros E.
    assert (E' : whole_number (j - l) * s = 0 * s) by qlra. apply (scale_inj _ _ _ S0) in E'. change 0 with (whole_number 0) in E'. apply W_inj in E'. lia.
Qed.
End element.

(** * Arrays *)
Lemma narrow_length B A : widens B A -> length A = length (narrow B).
Proof. intros W. unfold narrow. rewrite map_length. symmetry. apply widens_length. exact W. Qed.
Lemma group_in B A c : widens B A -> inside c A -> forall j, In j (group (narrow B) A c) <-> inside j A /\ picked B j = picked B c.
Proof.
  intros W I j. rewrite (narrow_group B A c W I). unfold used_at. rewrite filter_In. destruct (list_eq_dec Z.eq_dec (picked B j) (picked B c)) as [E | E]; split; intros (H & H'); try discriminate; try contradiction; split; auto; apply indices_in; exact H.
Qed.
Lemma call_min_ok junk B A x : widens B A -> above A -> has_size x (size A) -> of_moderate_size A x ->
  exists y, call_best min_forward junk (ones_from 0 B) (A, x) = Some (B, y) /\ has_size y (size B) /\ forall b, inside b B -> least_at A B x b (qelem y B b).
Proof.
  intros W P L BD. pose proof (narrow_length B A W) as LN. pose proof (wide_sizes A B W P) as SB. pose proof (fresh_size junk B SB) as FS.
  destruct (ReduceProps.C49_shape (ones_from 0 B) (narrow B) true A (ones_chosen B) LN) as (f & E). rewrite (narrow_shape B A W) in E.
  destruct (ReduceProps.C49_min_partial (ones_from 0 B) (narrow B) true A f x (fresh junk B) (map (fun _ => 0%Z) (fresh junk B)) (ones_chosen B) LN P) as (y & ind & Y & LY & _ & V).
  { rewrite (narrow_shape B A W). exact E. }
  { exact L. }
  { rewrite (narrow_shape B A W). exact FS. }
  { rewrite (narrow_shape B A W), map_length. exact FS. }
  exists y. unfold call_best. cbn [fst snd]. rewrite E. cbn [obind]. rewrite Y. split; [reflexivity |]. split; [unfold has_size in *; congruence |].
  intros b Ib. destruct (ReduceProps.C49_onto true (narrow B) A b LN P) as (c & Ic & <-); [rewrite narrow_shape; assumption |].
  specialize (V c Ic). cbv zeta in V. rewrite (narrow_shape B A W), (narrow_index B A c W Ic) in V. rewrite (narrow_index B A c W Ic).
  destruct V as (i & _ & VE & Hi & MIN & _).
  { exists (qelem x A c). split; [apply in_map; apply (group_in B A c W Ic); auto | apply BD; exact Ic]. }
  rewrite VE. unfold elems in *. rewrite map_length in Hi. split.
  - exists (nth i (group (narrow B) A c) []). assert (IN : In (nth i (group (narrow B) A c) []) (group (narrow B) A c)) by (apply nth_In; exact Hi). apply (group_in B A c W Ic) in IN as (I1 & I2). split; [exact I1 |]. split; [exact I2 |].
    rewrite (nth_indep _ 0 (qelem x A [])) by (rewrite map_length; exact Hi). rewrite map_nth. reflexivity.
  - intros j Ij Ej. assert (IN : In (qelem x A j) (map (qelem x A) (group (narrow B) A c))) by (apply in_map; apply (group_in B A c W Ic); auto). apply (In_nth _ _ 0) in IN as (n & Hn & <-). apply MIN. exact Hn.
Qed.
Lemma call_max_ok junk B A x : widens B A -> above A -> has_size x (size A) -> of_moderate_size A x ->
  exists y, call_best max_forward junk (ones_from 0 B) (A, x) = Some (B, y) /\ has_size y (size B) /\ forall b, inside b B -> greatest_at A B x b (qelem y B b).
Proof.
  intros W P L BD. pose proof (narrow_length B A W) as LN. pose proof (wide_sizes A B W P) as SB. pose proof (fresh_size junk B SB) as FS.
  destruct (ReduceProps.C49_shape (ones_from 0 B) (narrow B) true A (ones_chosen B) LN) as (f & E). rewrite (narrow_shape B A W) in E.
  destruct (ReduceProps.C49_max_partial (ones_from 0 B) (narrow B) true A f x (fresh junk B) (map (fun _ => 0%Z) (fresh junk B)) (ones_chosen B) LN P) as (y & ind & Y & LY & _ & V).
  { rewrite (narrow_shape B A W). exact E. }
  { exact L. }
  { rewrite (narrow_shape B A W). exact FS. }
  { rewrite (narrow_shape B A W), map_length. exact FS. }
  exists y. unfold call_best. cbn [fst snd]. rewrite E. cbn [obind]. rewrite Y. split; [reflexivity |]. split; [unfold has_size in *; congruence |].
  intros b Ib. destruct (ReduceProps.C49_onto true (narrow B) A b LN P) as (c & Ic & <-); [rewrite narrow_shape; assumption |].
  specialize (V c Ic). cbv zeta in V. rewrite (narrow_shape B A W), (narrow_index B A c W Ic) in V. rewrite (narrow_index B A c W Ic).
  destruct V as (i & _ & VE & Hi & MIN & _).
  { exists (qelem x A c). split; [apply in_map; apply (group_in B A c W Ic); auto | apply BD; exact Ic]. }
  rewrite VE. unfold elems in *. rewrite map_length in Hi. split.
  - exists (nth i (group (narrow B) A c) []). assert (IN : In (nth i (group (narrow B) A c) []) (group (narrow B) A c)) by (apply nth_In; exact Hi). apply (group_in B A c W Ic) in IN as (I1 & I2). split; [exact I1 |]. split; [exact I2 |].
    rewrite (nth_indep _ 0 (qelem x A [])) by (rewrite map_length; exact Hi). rewrite map_nth. reflexivity.
  - intros j Ij Ej. assert (IN : In (qelem x A j) (map (qelem x A) (group (narrow B) A c))) by (apply in_map; apply (group_in B A c W Ic); auto). apply (In_nth _ _ 0) in IN as (n & Hn & <-). apply MIN. exact Hn.
Qed.
Lemma widens_refl A : widens A A.
Proof. induction A; constructor; auto. Qed.
Lemma wide_above A B : widens B A -> above A -> above B.
Proof. intros W P. induction W as [| b a B A H _ IH]; [constructor |]. inversion P; subst. constructor; [destruct H; lia | apply IH; assumption]. Qed.
Lemma tracked_ok forward (best : list Z -> Qc -> Prop) junk decay x_min_max ema B A x qr : widens B A -> above A -> has_size x (size A) -> has_size qr (size B) ->
  (x_min_max = true -> exists y, call_best forward junk (ones_from 0 B) (A, x) = Some (B, y) /\ has_size y (size B) /\ forall b, inside b B -> best b (qelem y B b)) ->
  exists r, tracked forward junk decay x_min_max ema (A, x) (B, qr) = Some (B, r) /\ has_size r (size B) /\ forall b, inside b B -> limit_of x_min_max ema decay (qelem qr B b) (qelem r B b) (best b).
Proof.
  intros W P LX LQ CB. unfold tracked, limit_of. cbn [fst]. pose proof (wide_above A B W P) as PB. pose proof (above_sizes B PB) as SB. destruct x_min_max.
  - destruct (CB eq_refl) as (y & E & LY & V). rewrite E. cbn [obind]. destruct ema.
    + destruct (scalar_ok (fun v => v * (1 - decay)) B y SB LY) as (y1 & E1 & L1 & V1). rewrite E1. cbn [obind].
      destruct (scalar_ok (fun v => v * decay) B qr SB LQ) as (y2 & E2 & L2 & V2). rewrite E2. cbn [obind].
      destruct (wide_add B B y2 y1 (widens_refl B) PB L2 L1) as (y3 & E3 & L3 & V3). rewrite E3. exists y3. split; [reflexivity |]. split; [exact L3 |]. intros b I. exists (qelem y B b). split; [apply V; exact I |].
      rewrite (V3 b I), (picked_self B b I), (V2 b I), (V1 b I). ring.
    + exists y. split; [reflexivity |]. split; [exact LY |]. intros b I. exists (qelem y B b). split; [apply V; exact I | reflexivity].
  - exists qr. split; [reflexivity |]. split; [exact LQ |]. reflexivity.
Qed.
Lemma nudge_range_ok eps B a b : sizes B -> has_size a (size B) -> has_size b (size B) ->
  exists y, nudge_range eps (B, a) (B, b) = Some (B, y) /\ has_size y (size B) /\
  forall c, inside c B -> qelem y B c = if less (qelem b B c - qelem a B c) eps then qelem a B c + eps else qelem b B c.
Proof.
  intros P LA LB. unfold nudge_range. cbn [fst snd]. unfold has_size in *. rewrite prod_size.
  destruct (each_written (fun i hi => obind (get a i) (fun a => obind (get hi i) (fun b => if less (b - a) eps then put hi i (a + eps) else Some hi))) (fun i => if less (qat b i - qat a i) eps then qat a i + eps else qat b i) (size B) b) as (y & E & L & V & _).
  - unfold qlen. pose proof (size_nonneg B P). lia.
  - intros i y Hi Ly U. rewrite !get_ok by (unfold within, qlen; lia). cbn [obind]. rewrite (U i) by lia. destruct (less _ eps); [reflexivity |]. rewrite <- (U i) by lia. symmetry. apply put_same. lia.
  - rewrite E. exists y. split; [reflexivity |]. split; [congruence |]. intros c I. rewrite !MatProps.qelem_off by exact I. apply V. apply off_bound. exact I.
Qed.
Lemma nudged_ok junk B ql lmin lmax m s : sizes B -> has_size ql (size B) -> has_size lmin (size B) -> has_size lmax (size B) -> has_size m (size B) -> has_size s (size B) ->
  exists y, nudged junk (B, ql) (B, lmin) (B, lmax) (B, m) (B, s) = Some (B, y) /\ has_size y (size B) /\
  forall c, inside c B -> qelem y B c = (qelem ql B c - zero_nudged (qelem lmin B c) (qelem lmax B c) (qelem m B c) (qelem s B c)) * qelem s B c.
Proof.
  intros P L1 L2 L3 L4 L5. unfold nudged. cbn [fst snd]. pose proof (fresh_size junk B P) as FS. unfold has_size in *. rewrite prod_size.
  match goal with |- context [loop ?st _ _] => destruct (each_written st (fun i => (qat ql i - zero_nudged (qat lmin i) (qat lmax i) (qat m i) (qat s i)) * qat s i) (size B) (fresh junk B)) as (y & E & L & V & _) end.
  - unfold qlen. pose proof (size_nonneg B P). lia.
  - intros i y Hi Ly U. rewrite !get_ok by (unfold within, qlen; lia). reflexivity.
  - rewrite E. exists y. split; [reflexivity |]. split; [congruence |]. intros c I. rewrite !MatProps.qelem_off by exact I. apply V. apply off_bound. exact I.
Qed.
