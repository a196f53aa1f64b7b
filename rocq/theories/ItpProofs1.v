(** Interpolation: one axis. *)
From Coq Require Import List ZArith Lia Lqa Bool QArith Qcanon Qround.
From Verif Require Import NdSpec ScanModel ScanProofs1 ReduceModel ReduceProofs1 ConvModel ConvSpec ConvProofs3 ScatProofs1 NmsProofs1 QuantModel QuantSpec QuantProofs1 ItpModel ItpSpec.
Import ListNotations.
Local Open Scope list_scope.
Local Open Scope Qc_scope.

Definition r_of (align half : bool) (n m o : Z) : Qc := atleast 0 (used (rule_of align half) n m o).

Lemma W0 : whole_number 0 = 0.
Proof. reflexivity. Qed.
Lemma W1 : whole_number 1 = 1.
Proof. reflexivity. Qed.
Lemma W_minus a b : whole_number (a - b) = whole_number a - whole_number b.
Proof. unfold Z.sub. rewrite W_plus, W_opp. reflexivity. Qed.
Lemma W_pos n : (0 < n)%Z -> 0 < whole_number n.
Proof. intros H. apply (proj1 (W_lt 0 n)). exact H. Qed.
Lemma W_nn n : (0 <= n)%Z -> 0 <= whole_number n.
Proof. intros H. apply (proj1 (W_le 0 n)). exact H. Qed.
Lemma pos_ne v : 0 < v -> v <> 0.
Proof. intros H E. rewrite E in H. qlra. Qed.
Lemma oh_half : one_half = half.
Proof. reflexivity. Qed.
Lemma div_mul a b : 0 < b -> a / b * b = a.
Proof. intros H. apply pos_ne in H. field. exact H. Qed.
Lemma atleast_0 v : 0 <= v -> atleast 0 v = v.
Proof. intros H. unfold atleast. destruct (Qclt_le_dec v 0); [exfalso; qlra | reflexivity]. Qed.
Lemma atleast_nn v : 0 <= atleast 0 v.
Proof. unfold atleast. destruct (Qclt_le_dec v 0); qlra. Qed.

Lemma index_ok align h n m o : align && h = false -> (0 < n)%Z -> (0 <= o < m)%Z ->
  get_src_index (compute_scale n m align) o h = r_of align h n m o.
Proof.
  intros AH N O. unfold get_src_index, compute_scale, r_of, used. destruct (Z.leb_spec m 1) as [M | M].
  - assert (m = 1%Z) as -> by lia. assert (o = 0%Z) as -> by lia. cbn [Z.eqb Pos.eqb]. rewrite atleast_0 by qlra. destruct h.
    + cbv zeta. destruct (less 0 _) eqn:E; [| reflexivity]. apply less_true in E. exfalso. pose proof this_h. assert (X : 0 * (of_Z 0 + half) - half = - half) by ring. rewrite X in E. qlra.
    + ring.
  - destruct (Z.eqb_spec m 1); [lia |]. pose proof (W_pos m ltac:(lia)) as MP. pose proof (W_pos (m - 1) ltac:(lia)) as MP1. pose proof (W_nn o ltac:(lia)) as OP. pose proof (W_pos n N) as NP. pose proof (W_nn (n - 1) ltac:(lia)) as NP1.
    change of_Z with whole_number. destruct align, h; try discriminate; cbn [rule_of documented].
    + rewrite atleast_0; [field; apply pos_ne; assumption |]. pose proof (div_mul (whole_number o * whole_number (n - 1)) _ MP1). set (q := whole_number o * whole_number (n - 1) / whole_number (m - 1)) in *. clearbody q.
      destruct (Qclt_le_dec q 0); [| assumption]. exfalso. assert (q * whole_number (m - 1) < 0) by qnra. assert (0 <= whole_number o * whole_number (n - 1)) by qnra. rewrite H in H0. qlra.
    + rewrite oh_half. cbv zeta. replace (whole_number n / whole_number m * (whole_number o + half) - half) with ((whole_number o + half) * whole_number n / whole_number m - half) by (field; apply pos_ne; assumption).
      set (v := _ - half). unfold atleast. destruct (less 0 v) eqn:E; [apply less_true in E | apply less_false in E]; destruct (Qclt_le_dec v 0); try reflexivity; [exfalso; qlra | apply Qcle_antisym; assumption].
    + rewrite atleast_0; [field; apply pos_ne; assumption |]. pose proof (div_mul (whole_number o * whole_number n) _ MP). set (q := whole_number o * whole_number n / whole_number m) in *. clearbody q.
      destruct (Qclt_le_dec q 0); [| assumption]. exfalso. assert (q * whole_number m < 0) by qnra. assert (0 <= whole_number o * whole_number n) by qnra. rewrite H in H0. qlra.
Qed.
Lemma documented_lt r n m o : (0 < n)%Z -> (0 <= o < m)%Z -> m <> 1%Z -> documented r n m o < whole_number n.
Proof.
  intros N O M. pose proof (W_pos m ltac:(lia)) as MP. pose proof (W_pos (m - 1) ltac:(lia)) as MP1. pose proof (W_nn o ltac:(lia)) as OP. pose proof (W_pos n N) as NP. pose proof (W_nn (n - 1) ltac:(lia)) as NP1.
  assert (OM : whole_number o + 1 <= whole_number m). { change 1 with (whole_number 1). rewrite <- W_plus. apply (proj1 (W_le _ _)). lia. }
  pose proof (W_minus n 1) as EN. pose proof (W_minus m 1) as EM. rewrite W1 in EN, EM. destruct r; cbn [documented].
  - pose proof (div_mul (whole_number o * whole_number (n - 1)) _ MP1) as D. set (q := _ / _) in *. clearbody q. rewrite EN, EM in *. set (A := whole_number n) in *. set (B := whole_number m) in *. set (C := whole_number o) in *. clearbody A B C.
    destruct (Qclt_le_dec q A); [assumption |]. exfalso. assert (A * (B - 1) <= q * (B - 1)) by qnra. rewrite D in H. assert (C * (A - 1) <= (B - 1) * (A - 1)) by qnra. assert (A * (B - 1) = (B - 1) * (A - 1) + (B - 1)) by ring. qlra.
  - rewrite oh_half. pose proof this_h. pose proof (div_mul ((whole_number o + half) * whole_number n) _ MP) as D. set (q := _ / _) in *. clearbody q. set (A := whole_number n) in *. set (B := whole_number m) in *. set (C := whole_number o) in *. clearbody A B C.
    destruct (Qclt_le_dec (q - half) A); [assumption |]. exfalso. assert (A * B < q * B) by qnra. rewrite D in H0. assert ((C + half) * A <= B * A) by qnra. assert (A * B = B * A) by ring. qlra.
  - pose proof (div_mul (whole_number o * whole_number n) _ MP) as D. set (q := _ / _) in *. clearbody q. set (A := whole_number n) in *. set (B := whole_number m) in *. set (C := whole_number o) in *. clearbody A B C.
    destruct (Qclt_le_dec q A); [assumption |]. exfalso. assert (A * B <= q * B) by qnra. rewrite D in H. assert (C * A <= (B - 1) * A) by qnra. assert (A * B = (B - 1) * A + A) by ring. qlra.
Qed.
Lemma r_bounds align h n m o : (0 < n)%Z -> (0 <= o < m)%Z -> 0 <= r_of align h n m o /\ r_of align h n m o < whole_number n.
Proof.
  intros N O. split; [apply atleast_nn |]. pose proof (W_pos n N). unfold r_of, used. destruct (Z.eqb_spec m 1); unfold atleast.
  - destruct (Qclt_le_dec 0 0); assumption.
  - destruct (Qclt_le_dec (documented _ _ _ _) 0); [assumption |]. apply documented_lt; assumption.
Qed.
Lemma to_int_floor v : 0 <= v -> to_int v = Qfloor (this v).
Proof.
  intros NN. unfold to_int. destruct (this v) as [p d] eqn:T. unfold Qcle in NN. rewrite T in NN. unfold Qle in NN. cbn in NN. cbn [Qnum Qden Qfloor]. apply Z.quot_div_nonneg; lia.
Qed.
Lemma floor_bounds v n : 0 <= v -> v < whole_number n -> (0 <= Qfloor (this v) < n)%Z.
Proof.
  intros H0 Hn. destruct (floor_ok v) as [F1 F2]. split.
  - apply between. rewrite W0. qlra.
  - apply W_lt. qlra.
Qed.
Lemma distance_cases a b : (a <= b /\ distance a b = b - a) \/ (b <= a /\ distance a b = a - b).
Proof. unfold distance. destruct (Qclt_le_dec a b); [left | right]; split; auto. qlra. Qed.
Lemma hat_in f i d : distance f (whole_number i) = d -> d <= 1 -> hat f i = 1 - d.
Proof. intros E H. unfold hat. rewrite E, atleast_0 by qlra. reflexivity. Qed.
Lemma hat_out f i : 1 <= distance f (whole_number i) -> hat f i = 0.
Proof. intros H. unfold hat, atleast. destruct (Qclt_le_dec _ 0); [reflexivity | qlra]. Qed.
Lemma zsum_two n p q (f : Z -> Qc) : (0 <= p < n)%Z -> (0 <= q < n)%Z -> p <> q -> (forall i, (0 <= i < n)%Z -> i <> p -> i <> q -> f i = 0) -> zsum n f = f p + f q.
Proof.
  intros P Q N Z0. rewrite (zsum_ext n f (fun i => (if (i =? p)%Z then f i else 0) + (if (i =? q)%Z then f i else 0))).
  - rewrite zsum_plus, !zsum_one by assumption. reflexivity.
  - intros i Hi. destruct (Z.eqb_spec i p) as [A | A], (Z.eqb_spec i q) as [B | B]; try ring; [congruence |]. rewrite Z0 by assumption. ring.
Qed.
Lemma W_step i : whole_number (i + 1) = whole_number i + 1.
Proof. rewrite W_plus. reflexivity. Qed.

(** The two pixels of an axis. *)
Lemma pair_ok align h n m o : align && h = false -> (0 < n)%Z -> (0 <= o < m)%Z ->
  let t := pair_of n (compute_scale n m align) h o in
  (0 <= p1 t < n)%Z /\ (0 <= p2 t < n)%Z /\ back_pair_of n (compute_scale n m align) h o = t /\
  forall g : Z -> Qc, l0 t * g (p1 t) + l1 t * g (p2 t) = zsum n (fun i => hat (held n (used (rule_of align h) n m o)) i * g i).
Proof.
  intros AH N O t. unfold t, pair_of, back_pair_of, held. rewrite (index_ok align h n m o) by assumption. fold (r_of align h n m o). destruct (r_bounds align h n m o N O) as [R0 RN].
  set (r := r_of align h n m o) in *. clearbody r. rewrite (to_int_floor r R0). pose proof (floor_bounds r n R0 RN) as FB. destruct (floor_ok r) as [F1 F2]. set (k := Qfloor (this r)) in *. clearbody k. cbn [p1 p2 l0 l1]. change of_Z with whole_number.
  split; [lia |]. split; [lia |]. split.
  { f_equal. destruct (Z.ltb_spec k (n - 1)); lia. }
  intros g. destruct (Z.eq_dec k (n - 1)) as [E | E].
  - rewrite Z.min_r by lia. replace (n - 1)%Z with k by lia.
    assert (HE : atmost (whole_number k) r = whole_number k). { unfold atmost. destruct (Qclt_le_dec (whole_number k) r); [reflexivity |]. apply Qcle_antisym; assumption. }
    rewrite HE. rewrite (zsum_only n k) by (first [lia | intros i Hi Ni; rewrite hat_out; [ring |]; destruct (distance_cases (whole_number k) (whole_number i)) as [[D ->] | [D ->]]; [apply W_le in D; assert (X : (k + 1 <= i)%Z) by lia | apply W_le in D; assert (X : (i + 1 <= k)%Z) by lia]; apply (proj1 (W_le _ _)) in X; rewrite W_step in X; qlra]).
    rewrite (hat_in _ _ 0); [ring | | qlra]. destruct (distance_cases (whole_number k) (whole_number k)) as [[_ ->] | [_ ->]]; ring.
  - rewrite Z.min_l by lia. assert (KN : (k + 1 <= n - 1)%Z) by lia. apply (proj1 (W_le _ _)) in KN. rewrite W_step in KN.
    assert (HE : atmost (whole_number (n - 1)) r = r). { unfold atmost. destruct (Qclt_le_dec (whole_number (n - 1)) r); [exfalso; qlra | reflexivity]. }
    rewrite HE. rewrite (zsum_two n k (k + 1)); try lia.
    + rewrite (hat_in r k (r - whole_number k)), (hat_in r (k + 1) (whole_number k + 1 - r)); try qlra.
      * destruct (distance_cases r (whole_number (k + 1))) as [[D ->] | [D ->]]; rewrite W_step in *; [reflexivity | exfalso; qlra].
      * destruct (distance_cases r (whole_number k)) as [[D ->] | [D ->]]; [assert (r = whole_number k) as -> by (apply Qcle_antisym; assumption); ring | reflexivity].
    + intros i Hi N1 N2. rewrite hat_out; [ring |]. assert (X : (i + 1 <= k)%Z \/ (k + 2 <= i)%Z) by lia. destruct X as [X | X]; apply (proj1 (W_le _ _)) in X.
      * rewrite W_step in X. destruct (distance_cases r (whole_number i)) as [[D ->] | [D ->]]; qlra.
      * replace (k + 2)%Z with (k + 1 + 1)%Z in X by lia. rewrite !W_step in X. destruct (distance_cases r (whole_number i)) as [[D ->] | [D ->]]; qlra.
Qed.
(** The pixel of an axis. *)
Lemma old_ok n m o : (0 < n)%Z -> (0 <= o < m)%Z -> let v := documented_old n m o in of_Z n / of_Z m * (of_Z o + half) = v /\ 0 < v /\ v < whole_number n.
Proof.
  intros N O v. pose proof (W_pos m ltac:(lia)) as MP. pose proof (W_nn o ltac:(lia)) as OP. pose proof (W_pos n N) as NP. pose proof this_h as TH.
  assert (OM : whole_number o + 1 <= whole_number m). { change 1 with (whole_number 1). rewrite <- W_plus. apply (proj1 (W_le _ _)). lia. }
  split; [| split].
  - change of_Z with whole_number. unfold v, documented_old. rewrite oh_half. field. apply pos_ne. assumption.
  - pose proof (div_mul ((whole_number o + half) * whole_number n) _ MP) as D. unfold v, documented_old. rewrite oh_half. set (q := _ / _) in *. clearbody q. set (A := whole_number n) in *. set (B := whole_number m) in *. set (C := whole_number o) in *. clearbody A B C. clear v.
    destruct (Qclt_le_dec 0 q); [assumption |]. exfalso. assert (q * B <= 0) by qnra. rewrite D in H. assert (0 < (C + half) * A) by qnra. qlra.
  - pose proof (div_mul ((whole_number o + half) * whole_number n) _ MP) as D. unfold v, documented_old. rewrite oh_half. set (q := _ / _) in *. clearbody q. set (A := whole_number n) in *. set (B := whole_number m) in *. set (C := whole_number o) in *. clearbody A B C. clear v.
    destruct (Qclt_le_dec q A); [assumption |]. exfalso. assert (A * B <= q * B) by qnra. rewrite D in H. assert (X : (C + half) * A < B * A) by qnra. assert (A * B = B * A) by ring. qlra.
Qed.
Lemma pixel_ok align h nn n m o : align && h = false -> (0 < n)%Z -> (0 <= o < m)%Z ->
  let p := pixel_of n (compute_scale_for_nn n m align nn) h nn o in
  (0 <= p < n)%Z /\ p = cut n (nn_rule align h nn n m o).
Proof.
  intros AH N O p. unfold p, pixel_of, compute_scale_for_nn, get_src_index_for_nn, nn_rule, cut. destruct nn.
  - destruct (old_ok n m o N O) as (E & V0 & VN). rewrite E. rewrite to_int_floor, atleast_0 by qlra. pose proof (floor_bounds _ n (Qclt_le_weak _ _ V0) VN). split; [lia | reflexivity].
  - rewrite index_ok by assumption. destruct (r_bounds align h n m o N O) as [R0 RN]. rewrite to_int_floor by assumption. pose proof (floor_bounds _ n R0 RN). split; [lia | reflexivity].
Qed.
