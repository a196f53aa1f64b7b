(** Quantization: one pass over the elements, and FixedPointQuantize. *)
From Coq Require Import List ZArith Lia Lqa Bool QArith Qcanon Qround.
From Verif Require Import IdxModel IdxProofs1 JoinModel ScanModel ScanProofs1 ReduceModel ReduceProofs1 ConvModel ConvProofs3 MatModel MatProofs2 BinProofs3 JoinProofs FindModel FindProofs1 NmsProofs1 QuantModel QuantSpec QuantProofs1.
Import ListNotations.
Local Open Scope list_scope.
Local Open Scope Qc_scope.

Lemma qat_nth (l : list Qc) i : qat l (Z.of_nat i) = nth i l 0.
Proof. unfold qat. rewrite Nat2Z.id. reflexivity. Qed.
Lemma each_ok f x y0 : length y0 = length x -> (forall v, In v x -> f v <> None) ->
  exists y, each f (Z.of_nat (length x)) x y0 = Some y /\ length y = length x /\ forall i, (i < length x)%nat -> f (nth i x 0) = Some (nth i y 0).
Proof.
  intros L D. unfold each.
  destruct (each_written (fun s y => obind (get x s) (fun v => obind (f v) (fun w => put y s w))) (fun i => match f (qat x i) with Some w => w | None => 0 end) (Z.of_nat (length x)) y0) as (y & E & LY & V & _).
  - unfold qlen. lia.
  - intros i y Hi _ _. rewrite get_ok by (unfold within, qlen; lia). cbn [obind].
    destruct (f (qat x i)) eqn:F; [reflexivity |]. exfalso. apply (D (qat x i)); [apply nth_In; lia | exact F].
  - exists y. split; [exact E |]. split; [congruence |]. intros i Hi. specialize (V (Z.of_nat i) ltac:(lia)). rewrite !qat_nth in V. rewrite V.
    destruct (f (nth i x 0)) eqn:F; [reflexivity |]. exfalso. apply (D (nth i x 0)); [apply nth_In; lia | exact F].
Qed.

Lemma mag_scale v d : 0 < d -> mag (v * d) = mag v * d.
Proof.
  intros D. destruct (mag_cases v) as [[H ->] | [H ->]].
  - apply mag_pos. qnra.
  - rewrite mag_neg by qnra. ring.
Qed.
Lemma scale_le a b d : 0 < d -> a <= b -> a * d <= b * d.
Proof. intros. apply Qcmult_le_compat_r; [assumption | apply Qclt_le_weak; assumption]. Qed.
Lemma scale_inj a b d : 0 < d -> a * d = b * d -> a = b.
Proof. intros H E. assert (X : (a - b) * d = 0) by (replace ((a - b) * d) with (a * d - b * d) by ring; rewrite E; ring). apply Qcmult_integral in X as [X | X]; [qlra | exfalso; qlra]. Qed.
Lemma over_times a d : 0 < d -> a / d * d = a.
Proof. intros H. rewrite Qcmult_comm. apply Qcmult_div_r. intros ->. qlra. Qed.
(** The rounded size is at least as near as any integer. *)
Lemma near_far a j : 0 <= a -> mag (a - whole_number (near a)) <= mag (a - whole_number j) /\ (mag (a - whole_number (near a)) = mag (a - whole_number j) -> (Z.abs j <= near a)%Z).
Proof.
  intros A. destruct (near_best a j) as [B C]. split; [exact B |]. intros E. destruct (Z_lt_le_dec j 0) as [N | N]; [| rewrite Z.abs_eq by exact N; exact (C E)].
  destruct (near_best a (- j)) as [B' C']. rewrite Z.abs_neq by lia. apply C'. apply Qcle_antisym; [exact B' |]. rewrite E. rewrite W_opp.
  assert (whole_number j < 0) by (apply (W_lt j 0); exact N). rewrite (mag_pos (a - whole_number j)) by qlra.
  destruct (mag_cases (a - - whole_number j)) as [[_ ->] | [_ ->]]; qlra.
Qed.
Lemma cast_ok v k : (k <= 2147483647)%Z -> 0 <= v -> v <= whole_number k -> cast_int (v + half) = Some (near v).
Proof.
  intros K P L. unfold cast_int. fold (near v). pose proof (near_le v k L). rewrite (proj2 (Z.leb_le _ _)) by lia. reflexivity.
Qed.
Lemma grid_high delta lo hi x : 0 < delta -> (lo <= hi)%Z -> (0 <= hi)%Z -> whole_number hi * delta < x -> on_grid delta lo hi x (whole_number hi * delta).
Proof.
  intros D H P X. exists hi. split; [lia |]. split; [reflexivity |]. intros j J.
  assert (Q : whole_number j * delta <= whole_number hi * delta) by (apply scale_le; [exact D | apply (proj1 (W_le _ _)); lia]).
  rewrite !mag_pos by qlra. split; [qlra |]. intros E. assert (E' : whole_number hi * delta = whole_number j * delta) by qlra. apply (scale_inj _ _ _ D) in E'. apply W_inj in E'. subst. lia.
Qed.
Lemma grid_low delta lo hi x : 0 < delta -> (lo <= hi)%Z -> (lo <= 0)%Z -> x < whole_number lo * delta -> on_grid delta lo hi x (whole_number lo * delta).
Proof.
  intros D H P X. exists lo. split; [lia |]. split; [reflexivity |]. intros j J.
  assert (Q : whole_number lo * delta <= whole_number j * delta) by (apply scale_le; [exact D | apply (proj1 (W_le _ _)); lia]).
  rewrite !mag_neg by qlra. split; [qlra |]. intros E. assert (E' : whole_number lo * delta = whole_number j * delta) by qlra. apply (scale_inj _ _ _ D) in E'. apply W_inj in E'. subst. lia.
Qed.
Lemma grid_in delta lo hi x : 0 < delta -> (lo <= 0 <= hi)%Z -> whole_number lo * delta <= x -> x <= whole_number hi * delta -> (lo = 0 \/ lo = - hi)%Z ->
  on_grid delta lo hi x (if less x 0 then - (whole_number (near (mag x / delta)) * delta) else whole_number (near (mag x / delta)) * delta).
Proof.
  intros D R L U S. pose proof (over_times (mag x) delta D) as AE. revert AE. generalize (mag x / delta). intros a AE. pose proof (mag_0 x) as M0.
  assert (A : 0 <= a) by (apply Qcnot_lt_le; intros C; qnra).
  pose proof (near_0 a A) as K0.
  destruct (less x 0) eqn:X.
  - apply less_true in X. assert (M : mag x = - x) by (apply mag_neg; qlra). rewrite M in AE.
    destruct S as [-> | S]; [exfalso; change (whole_number 0) with 0 in L; qlra |].
    assert (KH : (near a <= hi)%Z).
    { apply near_le. apply Qcnot_lt_le. intros C. subst lo. rewrite W_opp in L. qnra. }
    exists (- near a)%Z. split; [lia |]. split; [rewrite W_opp; ring |]. intros j J. destruct (near_far a (- j) A) as [B C]. rewrite W_opp in B, C.
    replace (x - - (whole_number (near a) * delta)) with (- ((a - whole_number (near a)) * delta)) by (replace x with (- (a * delta)) by (rewrite AE; ring); ring).
    replace (x - whole_number j * delta) with (- ((a - - whole_number j) * delta)) by (replace x with (- (a * delta)) by (rewrite AE; ring); ring).
    rewrite !mag_opp, !mag_scale by exact D. split; [apply scale_le; assumption |]. intros E. apply (scale_inj _ _ _ D) in E. apply C in E. lia.
  - apply less_false in X. assert (M : mag x = x) by (apply mag_pos; exact X). rewrite M in AE.
    assert (KH : (near a <= hi)%Z).
    { apply near_le. apply Qcnot_lt_le. intros C. qnra. }
    exists (near a). split; [lia |]. split; [reflexivity |]. intros j J. destruct (near_far a j A) as [B C].
    replace (x - whole_number (near a) * delta) with ((a - whole_number (near a)) * delta) by (rewrite <- AE; ring).
    replace (x - whole_number j * delta) with ((a - whole_number j) * delta) by (rewrite <- AE; ring).
    rewrite !mag_scale by exact D. split; [apply scale_le; assumption |]. intros E. apply (scale_inj _ _ _ D) in E. apply C in E. lia.
Qed.
(** The values of FixedPointQuantize. *)
Lemma fixed_value_ok (sign : bool) delta top x : 0 < delta -> (0 <= top <= 2147483647)%Z ->
  exists y, fixed_value delta (of_Z top * delta) (if sign then - (of_Z top * delta) else 0) x = Some y /\ on_grid delta (if sign then - top else 0) top x y.
Proof.
  intros D T. unfold fixed_value. rewrite !of_W. assert (ML : (if sign then - (whole_number top * delta) else 0) = whole_number (if sign then - top else 0) * delta).
  { destruct sign; [rewrite W_opp; ring | change (whole_number 0) with 0; ring]. }
  rewrite ML. set (lo := (if sign then (- top)%Z else 0%Z)). assert (LO : (lo <= 0)%Z /\ (lo = 0 \/ lo = - top)%Z) by (unfold lo; destruct sign; lia).
  destruct (more x (whole_number top * delta)) eqn:H.
  { apply more_true in H. eexists. split; [reflexivity |]. apply grid_high; try assumption; lia. }
  apply more_false in H. destruct (less x (whole_number lo * delta)) eqn:G.
  { apply less_true in G. eexists. split; [reflexivity |]. apply grid_low; try assumption; lia. }
  apply less_false in G. rewrite qabs_mag.
  pose proof (over_times (mag x) delta D) as AE. pose proof (grid_in delta lo top x D ltac:(lia) G H (proj2 LO)) as GI. revert AE GI. generalize (mag x / delta). intros a AE GI. pose proof (mag_0 x) as M0.
  assert (A : 0 <= a) by (apply Qcnot_lt_le; intros C; qnra).
  assert (AH : a <= whole_number top).
  { apply Qcnot_lt_le. intros C. destruct (mag_cases x) as [[_ M] | [N M]]; rewrite M in AE; [qnra |]. destruct (proj2 LO) as [E | E]; rewrite E in G; [change (whole_number 0) with 0 in G; qnra |]. rewrite W_opp in G. qnra. }
  rewrite (cast_ok a top) by (try assumption; lia). cbn [obind]. eexists. split; [reflexivity |]. rewrite of_W. exact GI.
Qed.
Lemma fixed_setup_ok sign n delta : 0 < delta -> (0 < bits sign n)%Z ->
  fixed_setup sign n delta = Some (of_Z (2 ^ bits sign n - 1) * delta, if sign then - (of_Z (2 ^ bits sign n - 1) * delta) else 0).
Proof.
  intros D B. unfold fixed_setup. fold (bits sign n). rewrite (proj2 (more_true _ _) D). rewrite (proj2 (Z.ltb_lt _ _) B).
  assert (N : (0 < n)%Z) by (unfold bits in B; destruct sign; lia). rewrite (proj2 (Z.ltb_lt _ _) N). reflexivity.
Qed.
Lemma fixed_setup_bad sign n delta : delta <= 0 \/ (bits sign n <= 0)%Z -> fixed_setup sign n delta = None.
Proof.
  unfold fixed_setup. fold (bits sign n). intros [D | B].
  - rewrite (proj2 (more_false _ _) D). rewrite andb_false_r. reflexivity.
  - rewrite (proj2 (Z.ltb_ge 0 (bits sign n)) B). destruct (negb _); reflexivity.
Qed.
(** One pass with the gradient. *)
Lemma pass_ok (F : Qc -> Qc -> Qc -> Qc) (step : Z -> list Qc -> option (list Qc)) x dy d0 : length dy = length x -> length d0 = length x ->
  (forall i d, (0 <= i < Z.of_nat (length x))%Z -> length d = length x -> (forall j, (i <= j)%Z -> qat d j = qat d0 j) -> step i d = put d i (F (qat x i) (qat dy i) (qat d0 i))) ->
  exists d, loop step (upto (Z.of_nat (length x))) d0 = Some d /\ length d = length x /\ forall i, (i < length x)%nat -> nth i d 0 = F (nth i x 0) (nth i dy 0) (nth i d0 0).
Proof.
  intros L1 L2 H. destruct (each_written step (fun i => F (qat x i) (qat dy i) (qat d0 i)) (Z.of_nat (length x)) d0) as (d & E & L & V & _).
  - unfold qlen. lia.
  - intros i d Hi Ld U. apply H; [exact Hi | congruence | exact U].
  - exists d. split; [exact E |]. split; [congruence |]. intros i Hi. specialize (V (Z.of_nat i) ltac:(lia)). rewrite !qat_nth in V. exact V.
Qed.
Lemma put_same (d : list Qc) i : (0 <= i < Z.of_nat (length d))%Z -> put d i (qat d i) = Some d.
Proof.
  intros H. destruct (put_ok d i (qat d i)) as (d' & E & L & V & _); [unfold within, qlen; lia |]. rewrite E. f_equal. apply (nth_ext _ _ 0 0); [exact L |]. intros n Hn.
  specialize (V (Z.of_nat n) ltac:(lia)). rewrite !qat_nth in V. rewrite V. destruct (Z.eqb_spec (Z.of_nat n) i) as [<- |]; [apply qat_nth | reflexivity].
Qed.
Lemma fixed_grad_ok fine max min accum x dy d0 : length dy = length x -> length d0 = length x ->
  exists d, fixed_grad fine max min accum x dy d0 = Some d /\ length d = length x /\
  forall i, (i < length x)%nat -> nth i d 0 = (if accum then nth i d0 0 else 0) + (if fine && (more (nth i x 0) max || less (nth i x 0) min) then 0 else nth i dy 0).
Proof.
  intros L1 L2. unfold fixed_grad. apply (pass_ok (fun v e old => (if accum then old else 0) + (if fine && (more v max || less v min) then 0 else e))); [exact L1 | exact L2 |].
  intros i d Hi Ld U. rewrite !get_ok by (unfold within, qlen; lia). cbn [obind]. rewrite (U i) by lia.
  destruct (fine && _), accum; cbn [negb].
  - replace (qat d0 i + 0) with (qat d i) by (rewrite U by lia; ring). rewrite put_same; [reflexivity | lia].
  - f_equal; ring.
  - reflexivity.
  - f_equal; ring.
Qed.
