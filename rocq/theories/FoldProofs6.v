(** The opposite direction for Deconvolution: sums over all axes but one. *)
From Coq Require Import List ZArith Bool QArith Qcanon Lia.
From Verif Require Import NdSpec ScanSpec ReduceSpec ConvSpec NdProofs ConvProofs3 ConvProofs7 ScatProofs1 PoolProofs3 IdxModel FoldModel FoldSpec FoldProofs1 FoldProofs2 FoldProofs3 FoldProofs4.
Import ListNotations.
Local Open Scope list_scope.
Local Open Scope Z_scope.

Lemma kept_one red K : forall l st, (forall a, (st <= a < st + length l)%nat -> red a = negb (Nat.eqb a K)) ->
  kept red st l = if (st <=? K)%nat && (K <? st + length l)%nat then [nth (K - st) l 0] else [].
Proof.
  induction l as [| x l IH]; intros st R; cbn [kept length].
  - destruct (Nat.leb_spec st K), (Nat.ltb_spec K (st + 0)); cbn [andb]; try reflexivity. lia.
  - rewrite (R st) by (cbn; lia). rewrite IH by (intros a A; apply R; cbn; lia). destruct (Nat.eqb_spec st K) as [-> | N]; cbn [negb].
    + destruct (Nat.leb_spec (S K) K); [lia |]. cbn [andb]. destruct (Nat.leb_spec K K), (Nat.ltb_spec K (K + S (length l))); cbn [andb]; try lia. rewrite Nat.sub_diag. reflexivity.
    + destruct (Nat.leb_spec (S st) K), (Nat.leb_spec st K); try lia; cbn [andb]; [| reflexivity]. replace (S st + length l)%nat with (st + S (length l))%nat by lia. destruct (Nat.ltb_spec K (st + S (length l))); [| reflexivity].
      replace (K - st)%nat with (S (K - S st)) by lia. reflexivity.
Qed.
Lemma sum_axis red a K n : nth_error (sh a) K = Some n -> 0 <= n -> (forall x, (x < length (sh a))%nat -> red x = negb (Nat.eqb x K)) ->
  let r := np_sum red a in valued r [n] /\ forall o, 0 <= o < n -> np_at r [o] = total (indices (sh a)) (fun j => if nth K j 0 =? o then np_at a j else 0%Qc).
Proof.
  intros E P R r. assert (LK : (K < length (sh a))%nat) by (apply nth_error_Some; congruence).
  assert (KP : forall l, length l = length (sh a) -> kept red 0 l = [nth K l 0]).
  { intros l L. rewrite (kept_one red K) by (intros x X; apply R; lia). rewrite L. destruct (Nat.leb_spec 0 K), (Nat.ltb_spec K (0 + length (sh a))); cbn [andb]; try lia. rewrite Nat.sub_0_r. reflexivity. }
  unfold r, np_sum. rewrite KP by reflexivity. rewrite (nth_error_nth _ _ 0 E). split; [apply build_valued; constructor; [exact P | constructor] |]. intros o I. rewrite at_build by (constructor; [exact I | constructor]).
  rewrite filter_total, ndindex_indices. apply total_ext. intros j J. apply indices_in in J. rewrite KP by (apply inside_length; exact J). unfold same_shape. destruct (list_eq_dec Z.eq_dec [nth K j 0] [o]) as [Q | Q], (Z.eqb_spec (nth K j 0) o); try reflexivity; congruence.
Qed.
Lemma opposite_deconv_ok root (last : bool) w b s O C : let K := if last then (length (sh w) - 1)%nat else 1%nat in
  (1 < length (sh w))%nat -> nth_error (sh w) 0 = Some C -> nth_error (sh w) K = Some O -> Forall (fun n => 0 <= n) (sh w) -> valued_stats s K (length (sh w)) C -> valued b [O] ->
  exists w' b', fold_layer_opposite root Deconvolution last w b s = Some (w', b') /\ valued w' (sh w) /\ valued b' [O] /\
  (forall i, inside i (sh w) -> value w' i = (factor root s (nth 0 i 0%Z) * value w i)%Qc) /\
  forall o, 0 <= o < O -> channel b' o = (total (indices (sh w)) (fun i => if (nth K i 0%Z =? o)%Z then value w' i * summand root s (nth 0 i 0%Z) else 0) + channel b o)%Qc.
Proof.
  intros K LW E0 EK P VS (Eb & Lb). assert (KB : (K < length (sh w))%nat) by (unfold K; destruct last; lia). unfold fold_layer_opposite, folded_opposite, reshape_bn_opposite.
  assert (PP : forall k n, nth_error (sh w) k = Some n -> 0 <= n) by (intros k n N; apply nth_error_In in N; exact (proj1 (Forall_forall _ _) P _ N)). pose proof (PP _ _ E0) as PC. pose proof (PP _ _ EK) as PO.
  destruct (switch_axes_ok last s (length (sh w)) C KB PC VS) as (s' & -> & VS' & EE & EC). cbn [obind].
  assert (FX : forall c, 0 <= c < C -> factor root s' c = factor root s c /\ summand root s' c = summand root s c) by (intros c Ic; apply factor_ext; [exact EE | apply EC; exact Ic]).
  destruct (scale_shift_ok root s' 0 (length (sh w)) C ltac:(lia) PC VS') as (c0 & c1 & -> & V0 & V1 & A). cbn [obind fst snd].
  destruct (scale_weights root s' c0 w 0 C ltac:(lia) V0 E0 P (fun c I => proj1 (A c I))) as (w' & -> & VW & AW). cbn [obind].
  assert (E1 : sh c1 = stat_shape 0 (length (sh w)) C) by apply V1. assert (EW : sh w' = sh w) by apply VW.
  destruct (op_right Qcmult w' c1) as (p & -> & VP & AP); [rewrite E1, EW; apply stat_fits; exact E0 | rewrite EW; exact P |]. cbn [obind].
  assert (EP : sh p = sh w) by (rewrite (proj1 VP), EW; reflexivity). rewrite EW.
  destruct (sum_axis (reduced_axes Deconvolution last (length (sh w))) p K O) as (VR & AR); [rewrite EP; exact EK | exact PO | |].
  { rewrite EP. intros x X. unfold reduced_axes, K. destruct last; [| reflexivity]. destruct (Nat.ltb_spec x (length (sh w) - 1)), (Nat.eqb_spec x (length (sh w) - 1)); cbn [negb]; try reflexivity; lia. }
  set (r := np_sum _ p) in *. unfold np_iop.
  destruct (op_same Qcplus r b [O] (proj1 VR) Eb ltac:(constructor; [exact PO | constructor])) as (b' & -> & VB & AB). cbn [obind]. rewrite (proj1 VR), (proj1 VB), same_shape_refl. cbn [obind fst snd].
  unfold created. rewrite EW, Eb, (proj1 VB), !same_shape_refl. cbn [obind]. exists w', b'. split; [reflexivity |]. split; [exact VW |]. split; [exact VB |].
  assert (I0 : forall i, inside i (sh w) -> 0 <= nth 0 i 0 < C) by (intros i Ii; exact (nth_inside 0 i _ _ Ii E0)). split.
  { intros i Ii. rewrite AW by exact Ii. rewrite (proj1 (FX _ (I0 i Ii))). reflexivity. }
  intros o I. assert (CH : forall a, sh a = [O] -> np_at a [o] = channel a o). { intros a Ea. unfold np_at, channel. rewrite Ea. cbn [ravel fold_right]. do 2 f_equal. lia. }
  rewrite <- (CH b' (proj1 VB)), AB, AR, (CH b Eb) by (first [exact I | constructor; [exact I | constructor]]). f_equal. rewrite EP. apply total_ext. intros i Ii. apply indices_in in Ii. destruct (nth K i 0 =? o); [| reflexivity].
  rewrite AP by (rewrite EW; exact Ii). rewrite at_value by (rewrite EW; exact Ii). f_equal. rewrite E1, pick_stat.
  - rewrite (unit_at c1 0 (length (sh w)) C _ ltac:(lia) E1 (I0 i Ii)). rewrite <- (proj2 (FX _ (I0 i Ii))). apply A. apply I0. exact Ii.
  - apply inside_length. exact Ii.
  - intros ->. specialize (I0 i Ii). lia.
Qed.
