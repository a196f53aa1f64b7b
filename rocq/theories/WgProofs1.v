(** Warping by a grid: coordinates and weights. *)
From Coq Require Import List ZArith Lia Lqa Bool QArith Qcanon Qround.
From Verif Require Import NdSpec NdProofs IdxModel IdxProofs1 IdxProofs2 IdxProofs3 JoinModel JoinProofs ScanSpec ScanModel ScanProofs1 ReduceModel ReduceProofs1 ConvModel ConvSpec ConvProofs1 ConvProofs3 ScatProofs1 NmsProofs1 QuantModel QuantSpec QuantProofs1 ItpModel ItpSpec ItpProofs1 WgModel WgSpec.
Import ListNotations.
Local Open Scope list_scope.
Local Open Scope Qc_scope.

Definition border_of (m : padding_mode) : border := match m with Zero => Zeros | Repeat => Nearest_pixel | Reflect => Mirrored end.
Lemma two_is : two = 1 + 1.
Proof. apply Qc_is_canon; reflexivity. Qed.
Lemma half_two v : v / two = v * one_half.
Proof. unfold Qcdiv. f_equal. Qed.
Lemma two_half : two * one_half = 1.
Proof. apply Qc_is_canon; reflexivity. Qed.
Lemma half_half : one_half + one_half = 1.
Proof. apply Qc_is_canon; reflexivity. Qed.
Lemma unnormalize_ok align v n : unnormalize align v n = place_of align v n.
Proof.
  unfold unnormalize, place_of. rewrite !half_two. change (of_Z n) with (whole_number n). destruct align.
  - rewrite W_minus, W1. ring.
  - ring.
Qed.
Lemma repeat_ok s n : repeat_pad s n = held n s \/ (n <= 0)%Z.
Proof.
  destruct (Z_le_gt_dec n 0); [right; assumption | left]. assert (P : 0 <= whole_number (n - 1)) by (apply W_nn; lia). change (of_Z (n - 1)) with (whole_number (n - 1)) in *.
  unfold repeat_pad, held, atmost, atleast, less. change (of_Z (n - 1)) with (whole_number (n - 1)).
  destruct (Qclt_le_dec s 0); [destruct (Qclt_le_dec (whole_number (n - 1)) 0); [exfalso; qlra | reflexivity] |]. destruct (Qclt_le_dec (whole_number (n - 1)) s); reflexivity.
Qed.
Lemma mod_even n : (0 <= n)%Z -> (Z.rem n 2 =? 0 = true)%Z -> exists k, n = (2 * k)%Z.
Proof. intros N E. apply Z.eqb_eq in E. exists (Z.quot n 2). rewrite (Z.quot_rem' n 2) at 1. lia. Qed.
Lemma mod_odd n : (0 <= n)%Z -> (Z.rem n 2 =? 0 = false)%Z -> exists k, n = (2 * k + 1)%Z.
Proof. intros N E. apply Z.eqb_neq in E. exists (Z.quot n 2). pose proof (Z.rem_bound_pos n 2 N ltac:(lia)). rewrite (Z.quot_rem' n 2) at 1. lia. Qed.
(** The rest of a division. *)
Lemma part_ok d len : 0 <= d -> (0 < len)%Z -> let n := Z.quot (Qnum (d / of_Z len)%Qc) (Zpos (Qden (d / of_Z len)%Qc)) in
  (0 <= n)%Z /\ 0 <= d - whole_number n * whole_number len /\ d - whole_number n * whole_number len <= whole_number len.
Proof.
  intros D L n. assert (P : 0 < whole_number len) by (apply W_pos; lia). set (v := d / of_Z len) in *. assert (E : v * whole_number len = d) by (unfold v; change (of_Z len) with (whole_number len); apply div_mul; exact P).
  assert (V : 0 <= v) by (clearbody v; subst d; qnra). change n with (to_int v). rewrite (to_int_floor v V). destruct (floor_ok v) as (F1 & F2). set (k := Qfloor (this v)) in *.
  assert (K : (0 <= k)%Z) by (assert (whole_number 0 < whole_number k + 1) by (rewrite W0; qlra); apply between; assumption).
  split; [exact K |]. rewrite <- E. split; qnra.
Qed.
Lemma W_twice k : whole_number (2 * k) = whole_number k + whole_number k.
Proof. replace (2 * k)%Z with (k + k)%Z by ring. apply W_plus. Qed.
Lemma W_neg k : whole_number (- k) = - whole_number k.
Proof. replace (- k)%Z with (0 - k)%Z by ring. rewrite W_minus, W0. ring. Qed.
Lemma reflect_ok s L U : (L < U)%Z -> exists r, reflect s L U = Some r /\ mirrored (whole_number L) (whole_number U) s r.
Proof.
  intros LU. unfold reflect. cbv zeta. change (of_Z L) with (whole_number L). change (of_Z U) with (whole_number U).
  assert (LN : whole_number (U - L) = whole_number U - whole_number L) by apply W_minus. assert (PL : 0 < whole_number (U - L)) by (apply W_pos; lia).
  assert (NZ : (U - L =? 0)%Z = false) by (apply Z.eqb_neq; lia).
  destruct (less s (whole_number L)) eqn:E1; [| destruct (less (whole_number U) s) eqn:E2].
  - apply less_true in E1. rewrite NZ. destruct (part_ok (whole_number L - s) (U - L)) as (N & R0 & R1); [qlra | lia |]. set (n := Z.quot _ _) in *. clearbody n. change (of_Z n) with (whole_number n). change (of_Z (U - L)) with (whole_number (U - L)).
    rewrite LN in *. eexists. split; [reflexivity |]. unfold mirrored. destruct (Z.rem n 2 =? 0)%Z eqn:M.
    + apply mod_even in M; [| exact N]. destruct M as (k & ->). split; [qlra |]. split; [qlra |]. exists (- k)%Z. right. replace (2 * - k)%Z with (- (2 * k))%Z by ring. rewrite W_neg. ring.
    + apply mod_odd in M; [| exact N]. destruct M as (k & ->). split; [qlra |]. split; [qlra |]. exists (k + 1)%Z. left. rewrite !W_twice, W_step, !W_plus, W_twice, ?W1. ring.
  - apply less_false in E1. apply less_true in E2. rewrite NZ. destruct (part_ok (s - whole_number U) (U - L)) as (N & R0 & R1); [qlra | lia |]. set (n := Z.quot _ _) in *. clearbody n. change (of_Z n) with (whole_number n). change (of_Z (U - L)) with (whole_number (U - L)).
    rewrite LN in *. eexists. split; [reflexivity |]. unfold mirrored. destruct (Z.rem n 2 =? 0)%Z eqn:M.
    + apply mod_even in M; [| exact N]. destruct M as (k & ->). split; [qlra |]. split; [qlra |]. exists (k + 1)%Z. right. rewrite !W_twice, W_step. ring.
    + apply mod_odd in M; [| exact N]. destruct M as (k & ->). split; [qlra |]. split; [qlra |]. exists (- (k + 1))%Z. left. replace (2 * - (k + 1))%Z with (- (2 * (k + 1)))%Z by ring. rewrite W_neg, !W_twice, W_step, !W_plus, W_twice, ?W1. ring.
  - apply less_false in E1, E2. exists s. split; [reflexivity |]. split; [exact E1 |]. split; [exact E2 |]. exists 0%Z. left. rewrite Z.mul_0_r, W0. ring.
Qed.
(** Reflection gives one place only. *)
Lemma mirrored_unique lo hi s a b : lo < hi -> mirrored lo hi s a -> mirrored lo hi s b -> a = b.
Proof.
  assert (H : forall k x y d, 0 < d -> 0 <= x -> x <= d -> 0 <= y -> y <= d -> x - y = whole_number (2 * k) * d -> x = y).
  { intros k x y d D X0 X1 Y0 Y1 E. destruct (Z.eq_dec k 0) as [-> | N]; [rewrite Z.mul_0_r, W0 in E; qlra |]. exfalso.
    destruct (Z_lt_ge_dec k 0).
    - assert (whole_number (2 * k) <= whole_number (- 2)) by (apply (proj1 (W_le _ _)); lia). assert (whole_number (-2) = - (1 + 1)) by (apply Qc_is_canon; reflexivity). qnra.
    - assert (whole_number 2 <= whole_number (2 * k)) by (apply (proj1 (W_le _ _)); lia). assert (whole_number 2 = 1 + 1) by (apply Qc_is_canon; reflexivity). qnra. }
  assert (H2 : forall k x y d, 0 < d -> 0 <= x -> x <= d -> 0 <= y -> y <= d -> x + y = whole_number (2 * k) * d -> x = y).
  { intros k x y d D X0 X1 Y0 Y1 E. destruct (Z.eq_dec k 0) as [-> | N]; [rewrite Z.mul_0_r, W0 in E; qlra |].
    destruct (Z_lt_ge_dec k 0).
    - exfalso. assert (whole_number (2 * k) <= whole_number (- 2)) by (apply (proj1 (W_le _ _)); lia). assert (whole_number (-2) = - (1 + 1)) by (apply Qc_is_canon; reflexivity). qnra.
    - assert (whole_number 2 <= whole_number (2 * k)) by (apply (proj1 (W_le _ _)); lia). assert (whole_number 2 = 1 + 1) by (apply Qc_is_canon; reflexivity). assert ((1 + 1) * d <= x + y) by (rewrite E; qnra). qlra. }
  intros D (A0 & A1 & k & EA) (B0 & B1 & j & EB). assert (SUB : whole_number (2 * (k - j)) = whole_number (2 * k) - whole_number (2 * j)) by (rewrite <- W_minus; f_equal; ring).
  assert (ADD : whole_number (2 * (k + j)) = whole_number (2 * k) + whole_number (2 * j)) by (rewrite <- W_plus; f_equal; ring).
  assert (G : a - lo = b - lo); [| qlra]. destruct EA as [EA | EA], EB as [EB | EB].
  1, 4: apply (H (k - j)%Z _ _ (hi - lo)); try qlra; rewrite SUB, EA, EB; ring.
  all: apply (H2 (k + j)%Z _ _ (hi - lo)); try qlra; rewrite ADD, EA, EB; ring.
Qed.
Definition fine (m : padding_mode) (align : bool) (n : Z) : Prop := (0 < n)%Z /\ (m = Reflect -> align = true -> (1 < n)%Z).
Lemma findex_ok m align n s : fine m align n -> exists r, findex m align s n = Some r /\ taken (border_of m) align n s r.
Proof.
  intros (N & F). destruct m; cbn [findex border_of taken].
  - exists s. split; reflexivity.
  - exists (repeat_pad s n). split; [reflexivity |]. destruct (repeat_ok s n); [assumption | lia].
  - destruct align.
    + destruct (reflect_ok s 0 (n - 1)) as (r & E & M); [specialize (F eq_refl eq_refl); lia |]. exists r. split; [exact E |]. rewrite W0 in M. exact M.
    + destruct (reflect_ok (two * s) (-1) (2 * n - 1)) as (r & E & M); [lia |]. rewrite E. cbn [obind]. exists (repeat_pad (r * half) n). split; [reflexivity |]. exists (r * half). split.
      * destruct M as (M0 & M1 & k & M2). rewrite <- oh_half. pose proof half_half as HH. assert (E1 : whole_number (-1) = - (1)) by (apply Qc_is_canon; reflexivity). assert (E2 : whole_number (2 * n - 1) = whole_number n + whole_number n - 1) by (rewrite W_minus, W_twice, W1; reflexivity).
        rewrite E1, E2 in *. rewrite two_is in M2. assert (H1 : r * one_half + r * one_half = r) by (rewrite <- Qcmult_plus_distr_r, HH; ring).
        split; [qlra |]. split; [qlra |]. exists k. destruct M2 as [-> | ->]; [left | right].
        -- assert (T : forall v, (v + v) * one_half = v) by (intros v; rewrite Qcmult_plus_distr_l, <- Qcmult_plus_distr_r, HH; ring).
           replace ((1 + 1) * s + whole_number (2 * k) * (whole_number n + whole_number n - 1 - - (1))) with ((s + whole_number (2 * k) * whole_number n) + (s + whole_number (2 * k) * whole_number n)) by ring. rewrite T.
           replace (whole_number n - one_half - - one_half) with (whole_number n) by ring. reflexivity.
        -- assert (T : forall v, (v + v) * one_half = v) by (intros v; rewrite Qcmult_plus_distr_l, <- Qcmult_plus_distr_r, HH; ring).
           replace (- (1) + - (1) - (1 + 1) * s + whole_number (2 * k) * (whole_number n + whole_number n - 1 - - (1))) with ((- (1) - s + whole_number (2 * k) * whole_number n) + (- (1) - s + whole_number (2 * k) * whole_number n)) by ring. rewrite T.
           replace (whole_number n - one_half - - one_half) with (whole_number n) by ring. replace (- one_half + - one_half) with (- (one_half + one_half)) by ring. rewrite HH. reflexivity.
      * destruct (repeat_ok (r * half) n); [assumption | lia].
Qed.

(** * Weights *)
Lemma hat_is f i : let k := Qfloor (this f) in hat f i = if (i =? k)%Z then 1 - (f - whole_number k) else if (i =? k + 1)%Z then f - whole_number k else 0.
Proof.
  cbv zeta. destruct (floor_ok f) as (F1 & F2). set (k := Qfloor (this f)) in *. clearbody k. destruct (distance_cases f (whole_number i)) as [(C1 & C2) | (C1 & C2)].
  - destruct (Z.eqb_spec i k) as [-> |]; [apply hat_in; [| qlra]; rewrite C2; qlra |]. destruct (Z.eqb_spec i (k + 1)) as [-> |].
    + rewrite W_step in *. rewrite (hat_in f (k + 1) (whole_number k + 1 - f)); [ring | rewrite W_step; exact C2 | qlra].
    + apply hat_out. rewrite C2. assert (K : (k + 2 <= i)%Z) by (assert (whole_number k < whole_number i + 1) by qlra; assert (k <= i)%Z by (apply between; assumption); lia). assert (K2 : whole_number (k + 2) <= whole_number i) by (apply (proj1 (W_le _ _)); lia).
      replace (k + 2)%Z with (k + 1 + 1)%Z in K2 by ring. rewrite !W_step in K2. qlra.
  - destruct (Z.eqb_spec i k) as [-> |]; [apply hat_in; [exact C2 | qlra] |]. destruct (Z.eqb_spec i (k + 1)) as [-> |].
    + rewrite W_step in *. exfalso. qlra.
    + apply hat_out. rewrite C2. assert (K : (i + 1 <= k)%Z) by (assert (whole_number i < whole_number k + 1) by qlra; assert (i <= k)%Z by (apply between; assumption); lia). assert (K2 : whole_number (i + 1) <= whole_number k) by (apply (proj1 (W_le _ _)); lia). rewrite W_step in K2. qlra.
Qed.
Definition in_range (n i : Z) : bool := ((0 <=? i) && (i <? n))%Z.
Lemma zsum_at n p (v : Z -> Qc) : zsum n (fun i => if (i =? p)%Z then v i else 0) = if in_range n p then v p else 0.
Proof.
  unfold in_range. destruct (Z.leb_spec 0 p), (Z.ltb_spec p n); cbn [andb]; try (apply zsum_zero; intros i I; destruct (Z.eqb_spec i p); [lia | reflexivity]). apply zsum_one. lia.
Qed.
Lemma hat_sum f n (g : Z -> Qc) : let k := Qfloor (this f) in
  zsum n (fun i => hat f i * g i) = (1 - (f - whole_number k)) * (if in_range n k then g k else 0) + (f - whole_number k) * (if in_range n (k + 1) then g (k + 1)%Z else 0).
Proof.
  intros k. rewrite (zsum_ext n _ (fun i => (if (i =? k)%Z then (1 - (f - whole_number k)) * g i else 0) + (if (i =? k + 1)%Z then (f - whole_number k) * g i else 0))).
  - rewrite zsum_plus, !zsum_at. destruct (in_range n k), (in_range n (k + 1)); ring.
  - intros i _. rewrite hat_is. cbv zeta. fold k. destruct (Z.eqb_spec i k) as [-> |]; [destruct (Z.eqb_spec k (k + 1)); [lia | ring] |]. destruct (Z.eqb_spec i (k + 1)); ring.
Qed.
