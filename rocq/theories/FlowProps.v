(** Properties of warping by a flow. *)
From Coq Require Import List Arith ZArith Lia Bool QArith Qcanon Qround.
From Verif Require Import ReduceModel QuantSpec QuantProofs1 ItpProofs1 FlipProps FlowModel FlowSpec.
Import ListNotations.
Local Open Scope list_scope.
Local Open Scope Qc_scope.

Lemma floor_parts v : exists a, v = whole_number (floor_of v) + a /\ 0 <= a /\ a < 1.
Proof.
  exists (v - whole_number (floor_of v)). split; [ring |]. unfold floor_of. set (k := Qfloor (this v)).
  assert (Wk : (this (whole_number k) == inject_Z k)%Q) by (unfold whole_number; cbn [this Q2Qc]; apply Qred_correct).
  assert (S : (this (v - whole_number k) == this v - inject_Z k)%Q) by (unfold Qcminus, Qcplus, Qcopp, Q2Qc; cbn [this]; rewrite !Qred_correct, Wk; reflexivity).
  pose proof (Qfloor_le (this v)) as A. pose proof (Qlt_floor (this v)) as B. fold k in A, B. rewrite inject_Z_plus in B. unfold Qcle, Qclt. rewrite S. change (this 0) with 0%Q. change (this 1) with 1%Q. split.
  - apply Qle_minus_iff in A. exact A.
  - apply Qlt_minus_iff in B. apply Qlt_minus_iff. setoid_replace (1 + - (this v - inject_Z k))%Q with (inject_Z k + inject_Z 1 + - this v)%Q by (change (inject_Z 1) with 1%Q; ring). exact B.
Qed.
Lemma clamp_border size i : (0 < size)%Z -> clamp_to_index i (size - 1) = border size i.
Proof. intros P. unfold clamp_to_index, border. destruct (Z_lt_le_dec i 0); destruct (Z_lt_le_dec i size); lia. Qed.
Lemma edge size f : (0 < size)%Z -> border size (f + 1) = border size f \/ border size f = f /\ border size (f + 1) = (f + 1)%Z.
Proof. intros P. unfold border. destruct (Z_lt_le_dec f 0), (Z_lt_le_dec f size), (Z_lt_le_dec (f + 1) 0), (Z_lt_le_dec (f + 1) size); lia. Qed.
Lemma W1 f : whole_number (f + 1) = whole_number f + 1.
Proof. rewrite W_plus. reflexivity. Qed.

(** * C139: values *)
Lemma warp_between s data base px py : (0 < W s)%nat -> (0 < H s)%nat ->
  between (fun j i => at_ data (corner s base (border (Z.of_nat (H s)) j) (border (Z.of_nat (W s)) i))) px py (warp s data base (corners_at s px py)).
Proof.
  intros PW PH. destruct (floor_parts px) as (a & EA & A0 & A1). destruct (floor_parts py) as (b & EB & B0 & B1). exists (floor_of px), (floor_of py), a, b. repeat (split; [assumption |]).
  unfold warp, corners_at. cbn [xf yf xl xr yt yb]. rewrite !clamp_border by lia. change of_Z with whole_number. clear A0 A1 B0 B1. revert EA EB. generalize (floor_of px) as f, (floor_of py) as g. intros f g -> ->.
  destruct (edge (Z.of_nat (W s)) f ltac:(lia)) as [X | (X & X')]; destruct (edge (Z.of_nat (H s)) g ltac:(lia)) as [Y | (Y & Y')].
  - rewrite X, Y. ring.
  - rewrite X, Y', Y. ring.
  - rewrite Y, X', X. ring.
  - rewrite X', Y', X, Y. ring.
Qed.
Lemma position_in s n c y x : In (n, c, y, x) (positions s) <-> (n < N s /\ c < C s /\ y < H s /\ x < W s)%nat.
Proof.
  unfold positions. rewrite in_flat_map. split.
  - intros (n' & I1 & I). apply in_flat_map in I. destruct I as (c' & I2 & I). apply in_flat_map in I. destruct I as (y' & I3 & I). apply in_map_iff in I. destruct I as (x' & E & I4). injection E as <- <- <- <-. apply in_seq in I1, I2, I3, I4. lia.
  - intros (A & B & D & E). exists n. split; [apply in_seq; lia |]. apply in_flat_map. exists c. split; [apply in_seq; lia |]. apply in_flat_map. exists y. split; [apply in_seq; lia |]. apply in_map_iff. exists x. split; [reflexivity | apply in_seq; lia].
Qed.
Lemma flat_length {A} (f : nat -> list A) m n a : (forall i, length (f i) = m) -> length (flat_map f (seq a n)) = (n * m)%nat.
Proof. intros L. revert a. induction n as [| n IH]; intros a; [reflexivity |]. cbn [seq flat_map]. rewrite app_length, L, IH. reflexivity. Qed.
Lemma position_at s n c y x : (n < N s)%nat -> (c < C s)%nat -> (y < H s)%nat -> (x < W s)%nat -> nth_error (positions s) (n * (C s * (H s * W s)) + (c * (H s * W s) + (y * W s + x))) = Some (n, c, y, x).
Proof.
  intros A B D E. unfold positions.
  assert (L1 : forall n c y, length (map (fun x => (n, c, y, x) : nat * nat * nat * nat) (seq 0 (W s))) = W s) by (intros; rewrite map_length, seq_length; reflexivity).
  assert (L2 : forall n c, length (flat_map (fun y => map (fun x => (n, c, y, x) : nat * nat * nat * nat) (seq 0 (W s))) (seq 0 (H s))) = (H s * W s)%nat) by (intros; apply flat_length; intros; apply L1).
  assert (L3 : forall n, length (flat_map (fun c => flat_map (fun y => map (fun x => (n, c, y, x) : nat * nat * nat * nat) (seq 0 (W s))) (seq 0 (H s))) (seq 0 (C s))) = (C s * (H s * W s))%nat) by (intros; apply flat_length; intros; apply L2).
  assert (B1 : (y * W s + x < H s * W s)%nat) by nia. assert (B2 : (c * (H s * W s) + (y * W s + x) < C s * (H s * W s))%nat) by nia.
  rewrite (flat_at _ (C s * (H s * W s))) by (auto; lia). rewrite (flat_at _ (H s * W s)) by (auto; lia). rewrite (flat_at _ (W s)) by (auto; lia). cbn [plus].
  rewrite nth_error_map. rewrite (nth_error_nth' _ 0%nat) by (rewrite seq_length; exact E). rewrite seq_nth by exact E. reflexivity.
Qed.
(** Each output is between the four pixels around the place to which the flow points, in the image
    of its sample and channel, continued beyond the border. *)
Theorem C139_values : forall s data flow n c y x, (n < N s)%nat -> (c < C s)%nat -> (y < H s)%nat -> (x < W s)%nat -> exists v,
  nth_error (flow_forward s data flow) (n * (C s * (H s * W s)) + (c * (H s * W s) + (y * W s + x))) = Some v /\
  between (fun j i => nth (Z.to_nat (Z.of_nat (n * C s + c) * (Z.of_nat (H s) * Z.of_nat (W s)) + (border (Z.of_nat (H s)) j * Z.of_nat (W s) + border (Z.of_nat (W s)) i))) data 0)
    (whole_number (Z.of_nat x) + nth ((n * 2) * (H s * W s) + (y * W s + x)) flow 0) (whole_number (Z.of_nat y) + nth ((n * 2 + 1) * (H s * W s) + (y * W s + x)) flow 0) v.
Proof.
  intros s data flow n c y x A B D E. unfold flow_forward. rewrite nth_error_map, position_at by assumption. cbn [option_map]. eexists. split; [reflexivity |].
  unfold moved. replace (at_ flow (place_x s n y x)) with (nth ((n * 2) * (H s * W s) + (y * W s + x)) flow 0) by (unfold at_, place_x; rewrite Nat2Z.id; f_equal; ring). replace (at_ flow (place_y s n y x)) with (nth ((n * 2 + 1) * (H s * W s) + (y * W s + x)) flow 0) by (unfold at_, place_y; rewrite Nat2Z.id; f_equal; ring).
  change of_Z with whole_number. pose proof (warp_between s data (plane s n c) (whole_number (Z.of_nat x) + nth ((n * 2) * (H s * W s) + (y * W s + x)) flow 0) (whole_number (Z.of_nat y) + nth ((n * 2 + 1) * (H s * W s) + (y * W s + x)) flow 0) ltac:(lia) ltac:(lia)) as R.
  destruct R as (i & j & a & b & R1 & R2 & R3 & R4 & R5 & R6 & R7). exists i, j, a, b. repeat (split; [assumption |]). rewrite R7. unfold at_, corner, plane. rewrite !Nat2Z.inj_mul. replace (Z.of_nat (H s) * Z.of_nat (W s) * Z.of_nat (n * C s + c))%Z with (Z.of_nat (n * C s + c) * (Z.of_nat (H s) * Z.of_nat (W s)))%Z by ring. reflexivity.
Qed.

(** * C140: gradients *)
Lemma add_at_length i v : forall l, length (add_at i v l) = length l.
Proof. revert i. intros i l. revert i. induction l as [| a l IH]; intros [| i]; cbn [add_at length]; auto. Qed.
Lemma add_at_dot v : forall l i d, length l = length d -> (i < length l)%nat -> dot (add_at i v l) d = dot l d + v * nth i d 0.
Proof. induction l as [| a l IH]; intros [| i] [| b d] L I; cbn [add_at dot nth length] in *; try discriminate; try lia; [ring |]. rewrite IH by lia. ring. Qed.
Definition total (s : sizes) : nat := (N s * C s * (H s * W s))%nat.
Lemma border_in size i : (0 < size)%Z -> (0 <= border size i < size)%Z.
Proof. intros P. unfold border. destruct (Z_lt_le_dec i 0), (Z_lt_le_dec i size); lia. Qed.
Lemma corner_in s n c yy xx : (n < N s)%nat -> (c < C s)%nat -> (0 <= yy < Z.of_nat (H s))%Z -> (0 <= xx < Z.of_nat (W s))%Z -> (Z.to_nat (corner s (plane s n c) yy xx) < total s)%nat.
Proof.
  intros A B Y X. unfold corner, plane, total. apply Nat2Z.inj_lt. rewrite Z2Nat.id by nia. assert (P : (yy * Z.of_nat (W s) + xx < Z.of_nat (H s * W s))%Z) by nia. assert (Q : (n * C s + c + 1 <= N s * C s)%nat) by nia.
  assert (R : (H s * W s * (n * C s + c) + H s * W s <= N s * C s * (H s * W s))%nat). { replace (H s * W s * (n * C s + c) + H s * W s)%nat with ((n * C s + c + 1) * (H s * W s))%nat by ring. apply Nat.mul_le_mono_r. exact Q. } lia.
Qed.
Lemma data_step_dot s flow g n c y x grad d : (n < N s)%nat -> (c < C s)%nat -> (y < H s)%nat -> (x < W s)%nat -> length g = total s -> length d = total s ->
  length (data_step s flow g (n, c, y, x, grad)) = total s /\ dot (data_step s flow g (n, c, y, x, grad)) d = dot g d + grad * warp s d (plane s n c) (moved s flow n y x).
Proof.
  intros A B D E LG LD. unfold data_step. split; [rewrite !add_at_length; exact LG |]. unfold moved. set (k := corners_at s _ _).
  assert (IN : (0 <= yt k < Z.of_nat (H s) /\ 0 <= yb k < Z.of_nat (H s) /\ 0 <= xl k < Z.of_nat (W s) /\ 0 <= xr k < Z.of_nat (W s))%Z).
  { unfold k, corners_at. cbn [xl xr yt yb]. rewrite !clamp_border by lia. repeat split; apply border_in; lia. }
  destruct IN as (I1 & I2 & I3 & I4). rewrite !add_at_dot by (rewrite ?add_at_length; try congruence; rewrite LG; apply corner_in; assumption). unfold warp, at_. cbv zeta. ring.
Qed.
Lemma zeroed_dot accum l d : dot (zeroed accum l) d = if accum then dot l d else 0.
Proof. destruct accum; [reflexivity |]. unfold zeroed. revert d. induction l as [| a l IH]; intros [| b d]; cbn [map dot]; try reflexivity. rewrite IH. ring. Qed.
Lemma zeroed_length accum l : length (zeroed accum l) = length l.
Proof. destruct accum; [reflexivity | apply map_length]. Qed.
(** The gradient of the data: forward is linear in the data, and backward is its transpose. *)
Theorem C140_data : forall s accum gdata flow grads d, length gdata = total s -> length d = total s ->
  dot (backward_data s accum gdata flow grads) d = (if accum then dot gdata d else 0) + dot grads (flow_forward s d flow).
Proof.
  intros s accum gdata flow grads d LG LD. rewrite <- zeroed_dot. unfold backward_data, flow_forward. assert (LZ : length (zeroed accum gdata) = total s) by (rewrite zeroed_length; exact LG).
  assert (IN : forall n c y x, In (n, c, y, x) (positions s) -> (n < N s /\ c < C s /\ y < H s /\ x < W s)%nat) by (intros n c y x; apply position_in). revert LZ IN. generalize (zeroed accum gdata). revert grads. generalize (positions s).
  induction l as [| (((n, c), y), x) l IH]; intros grads g LZ IN; cbn [combine fold_left map].
  - destruct grads; cbn [dot]; ring.
  - destruct grads as [| gr grads]; cbn [combine fold_left dot]; [ring |]. destruct (IN n c y x (or_introl eq_refl)) as (A & B & D & E). destruct (data_step_dot s flow g n c y x gr d A B D E LZ LD) as (L1 & L2).
    rewrite IH by (auto; intros; apply IN; right; assumption). rewrite L2. ring.
Qed.
(** The slopes are the derivatives by the place, as long as the pixels around it stay the same. *)
Theorem C140_slopes : forall s data base px py h, (0 < W s)%nat -> (0 < H s)%nat ->
  (floor_of (px + h) = floor_of px -> warp s data base (corners_at s (px + h) py) - warp s data base (corners_at s px py) = h * slope_x s data base (corners_at s px py)) /\
  (floor_of (py + h) = floor_of py -> warp s data base (corners_at s px (py + h)) - warp s data base (corners_at s px py) = h * slope_y s data base (corners_at s px py)).
Proof.
  intros s data base px py h PW PH. unfold warp, slope_x, slope_y, corners_at. cbn [xf yf xl xr yt yb]. rewrite !clamp_border by lia. change of_Z with whole_number. split; intros ->.
  - destruct (edge (Z.of_nat (H s)) (floor_of py) ltac:(lia)) as [Y | (Y & Y')]; [rewrite Y; ring | rewrite Y', Y, W1; ring].
  - destruct (edge (Z.of_nat (W s)) (floor_of px) ltac:(lia)) as [X | (X & X')]; [rewrite X; ring | rewrite X', X, W1; ring].
Qed.
(** The gradient of the flow: at each place the slopes of all channels, times the gradients of the
    outputs. *)
Definition flow_total (s : sizes) : nat := (N s * 2 * (H s * W s))%nat.
Lemma flow_place_in s n y x : (n < N s)%nat -> (y < H s)%nat -> (x < W s)%nat -> (Z.to_nat (place_x s n y x) < flow_total s /\ Z.to_nat (place_y s n y x) < flow_total s)%nat.
Proof.
  intros A D E. unfold place_x, place_y, flow_total. rewrite !Nat2Z.id. assert (P : (y * W s + x < H s * W s)%nat) by nia. set (m := (H s * W s)%nat) in *. assert (R : (m * (n * 2 + 1) + m <= N s * 2 * m)%nat). { replace (m * (n * 2 + 1) + m)%nat with ((n * 2 + 2) * m)%nat by ring. apply Nat.mul_le_mono_r. lia. } split; lia.
Qed.
Theorem C140_flow : forall s accum gflow data flow grads e, length gflow = flow_total s -> length e = flow_total s ->
  dot (backward_flow s accum gflow data flow grads) e = (if accum then dot gflow e else 0) +
  dot grads (map (fun '(n, c, y, x) => slope_x s data (plane s n c) (moved s flow n y x) * at_ e (place_x s n y x) + slope_y s data (plane s n c) (moved s flow n y x) * at_ e (place_y s n y x)) (positions s)).
Proof.
  intros s accum gflow data flow grads e LG LE. rewrite <- zeroed_dot. unfold backward_flow. assert (LZ : length (zeroed accum gflow) = flow_total s) by (rewrite zeroed_length; exact LG).
  assert (IN : forall n c y x, In (n, c, y, x) (positions s) -> (n < N s /\ c < C s /\ y < H s /\ x < W s)%nat) by (intros n c y x; apply position_in). revert LZ IN. generalize (zeroed accum gflow). revert grads. generalize (positions s).
  induction l as [| (((n, c), y), x) l IH]; intros grads g LZ IN; cbn [combine fold_left map].
  - destruct grads; cbn [dot]; ring.
  - destruct grads as [| gr grads]; cbn [combine fold_left dot]; [ring |]. destruct (IN n c y x (or_introl eq_refl)) as (A & B & D & E). destruct (flow_place_in s n y x A D E) as (P1 & P2).
    rewrite IH by (try (unfold flow_step; rewrite !add_at_length; exact LZ); intros; apply IN; right; assumption). unfold flow_step. rewrite !add_at_dot by (rewrite ?add_at_length; try congruence; rewrite LZ; assumption). unfold at_. ring.
Qed.

(** * Examples *)
Definition q (k : Z) : Qc := Q2Qc (inject_Z k).
Definition half : Qc := Q2Qc (1 # 2).
Definition small : sizes := Sizes 1 1 2 2.
Example warp_works : map this (flow_forward small [q 0; q 2; q 4; q 6] [half; half; q (-5); q 9; half; q 0; q 9; half]) = map this [q 3; q 2; q 4; q 6].
Proof. vm_compute. reflexivity. Qed.
Example data_works : map this (backward_data small true [q 1; q 1; q 1; q 1] [half; half; q (-5); q 9; half; q 0; q 9; half] [q 4; q 0; q 1; q 0]) = map this [q 2; q 2; q 3; q 2].
Proof. vm_compute. reflexivity. Qed.
Example flow_works : map this (backward_flow small false [q 1; q 1; q 1; q 1; q 1; q 1; q 1; q 1] [q 0; q 2; q 4; q 6] [half; half; q (-5); q 9; half; q 0; q 9; half] [q 1; q 1; q 1; q 1]) = map this [q 2; q 0; q 0; q 0; q 4; q 4; q 0; q 0].
Proof. vm_compute. reflexivity. Qed.
Print Assumptions C139_values.
Print Assumptions C140_data.
Print Assumptions C140_slopes.
Print Assumptions C140_flow.
