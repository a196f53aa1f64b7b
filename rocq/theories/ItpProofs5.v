(** Interpolation: weights and coordinates. *)
From Coq Require Import List ZArith Lia Lqa Bool QArith Qcanon Qround.
From Verif Require Import NdSpec NdProofs IdxModel IdxProofs1 IdxProofs2 JoinModel JoinProofs ScanSpec ReduceSpec ScanModel ScanProofs1 ReduceModel ReduceProofs1 ConvModel ConvSpec ConvProofs3 ConvProofs7 PoolProofs3 FoldProofs3 FoldProofs4 ScatProofs1 NmsProofs1 QuantModel QuantSpec QuantProofs1 ItpModel ItpSpec ItpProofs1 ItpProofs2 ItpProofs3 ItpProofs4.
Import ListNotations.
Local Open Scope list_scope.
Local Open Scope Qc_scope.

Definition positive (l : list Z) : Prop := Forall (fun n => 0 < n)%Z l.
Lemma held_bounds n f : (0 < n)%Z -> 0 <= held n f /\ held n f <= whole_number (n - 1).
Proof. intros N. pose proof (W_nn (n - 1) ltac:(lia)). pose proof (atleast_nn f). unfold held, atmost. destruct (Qclt_le_dec (whole_number (n - 1)) (atleast 0 f)); split; try assumption; qlra. Qed.
(** The weights of one axis add up to 1. *)
Lemma axis_weights n f : (0 < n)%Z -> 0 <= f -> f <= whole_number (n - 1) -> zsum n (hat f) = 1.
Proof.
  intros N F0 FN. assert (FL : f < whole_number n). { rewrite W_minus, W1 in FN. qlra. }
  pose proof (floor_bounds f n F0 FL) as FB. destruct (floor_ok f) as [F1 F2]. set (k := Qfloor (this f)) in *. clearbody k. destruct (Z.eq_dec k (n - 1)) as [E | E].
  - assert (f = whole_number k) as -> by (apply Qcle_antisym; [rewrite E; assumption | assumption]). rewrite (zsum_only n k); [| lia |].
    + rewrite (hat_in _ _ 0); [ring | | qlra]. destruct (distance_cases (whole_number k) (whole_number k)) as [[_ ->] | [_ ->]]; ring.
    + intros i Hi Ni. apply hat_out. destruct (distance_cases (whole_number k) (whole_number i)) as [[D ->] | [D ->]]; [apply W_le in D; assert (X : (k + 1 <= i)%Z) by lia | apply W_le in D; assert (X : (i + 1 <= k)%Z) by lia]; apply (proj1 (W_le _ _)) in X; rewrite W_step in X; qlra.
  - rewrite (zsum_two n k (k + 1)); try lia.
    + rewrite (hat_in f k (f - whole_number k)), (hat_in f (k + 1) (whole_number k + 1 - f)); try qlra.
      * destruct (distance_cases f (whole_number (k + 1))) as [[D ->] | [D ->]]; rewrite W_step in *; [reflexivity | exfalso; qlra].
      * destruct (distance_cases f (whole_number k)) as [[D ->] | [D ->]]; [assert (f = whole_number k) as -> by (apply Qcle_antisym; assumption); ring | reflexivity].
    + intros i Hi N1 N2. apply hat_out. assert (X : (i + 1 <= k)%Z \/ (k + 2 <= i)%Z) by lia. destruct X as [X | X]; apply (proj1 (W_le _ _)) in X.
      * rewrite W_step in X. destruct (distance_cases f (whole_number i)) as [[D ->] | [D ->]]; qlra.
      * replace (k + 2)%Z with (k + 1 + 1)%Z in X by lia. rewrite !W_step in X. destruct (distance_cases f (whole_number i)) as [[D ->] | [D ->]]; qlra.
Qed.
Lemma hats_nn c : forall ns ms o i, 0 <= hats c ns ms o i.
Proof.
  induction ns as [| n ns IH]; intros [| m ms] [| o os] [| i is]; cbn [hats]; try (apply Qclt_le_weak; reflexivity). pose proof (IH ms os is) as H. assert (H0 : 0 <= hat (held n (c n m o)) i) by apply atleast_nn.
  set (a := hat (held n (c n m o)) i) in *. set (b := hats c ns ms os is) in *. clearbody a b. qnra.
Qed.
Lemma hats_sum c : forall ns ms o, positive ns -> length ns = length ms -> inside o ms -> total (indices ns) (hats c ns ms o) = 1.
Proof.
  induction ns as [| n ns IH]; intros ms o PN LE I; destruct ms as [| m ms]; try discriminate; inversion I; subst.
  - reflexivity.
  - rewrite total_indices_cons. cbn [hats]. rewrite (total_ext _ _ (fun i => hat (held n (c n m x)) i)).
    + rewrite total_range. inversion PN; subst. destruct (held_bounds n (c n m x)); [assumption |]. apply axis_weights; assumption.
    + intros i _. rewrite total_scale, IH; [apply Qcmult_1_r | inversion PN; assumption | injection LE as LE; assumption | assumption].
Qed.
(** Coordinates that are pixels. *)
Fixpoint points (c : Z -> Z -> Z -> Qc) (ns ms o p : list Z) : Prop :=
  match ns, ms, o, p with
  | [], [], [], [] => True
  | n :: ns, m :: ms, o :: os, p :: ps => ((0 <= p < n)%Z /\ c n m o = whole_number p) /\ points c ns ms os ps
  | _, _, _, _ => False
  end.
Lemma held_point n p : (0 <= p < n)%Z -> held n (whole_number p) = whole_number p.
Proof.
  intros H. unfold held. rewrite atleast_0 by (apply W_nn; lia). unfold atmost. destruct (Qclt_le_dec (whole_number (n - 1)) (whole_number p)) as [X | X]; [| reflexivity]. apply W_lt in X. lia.
Qed.
Lemma hat_point p i : hat (whole_number p) i = if (i =? p)%Z then 1 else 0.
Proof.
  destruct (Z.eqb_spec i p) as [-> | NE].
  - rewrite (hat_in _ _ 0); [ring | | qlra]. destruct (distance_cases (whole_number p) (whole_number p)) as [[_ ->] | [_ ->]]; ring.
  - apply hat_out. destruct (distance_cases (whole_number p) (whole_number i)) as [[D ->] | [D ->]]; [apply W_le in D; assert (X : (p + 1 <= i)%Z) by lia | apply W_le in D; assert (X : (i + 1 <= p)%Z) by lia]; apply (proj1 (W_le _ _)) in X; rewrite W_step in X; qlra.
Qed.
Lemma point_value c : forall ns ms o p (g : list Z -> Qc), points c ns ms o p -> total (indices ns) (fun i => hats c ns ms o i * g i) = g p.
Proof.
  induction ns as [| n ns IH]; intros [| m ms] [| o os] [| p ps] g H; cbn [points] in H; try contradiction.
  - unfold total. cbn [indices map lsum fold_right hats]. ring.
  - destruct H as [[B E] H]. rewrite total_indices_cons. cbn [hats]. rewrite E, held_point by exact B. rewrite (total_range_only n p); [| exact B |].
    + rewrite hat_point, Z.eqb_refl. rewrite <- (IH ms os ps (fun i => g (p :: i)) H). apply total_ext. intros i _. rewrite Qcmult_1_l. reflexivity.
    + intros i Hi NE. apply total_none. intros j _. rewrite hat_point. destruct (Z.eqb_spec i p); [contradiction |]. generalize (hats c ns ms os j) (g (i :: j)). intros. ring.
Qed.
Lemma cut_point n p : (0 <= p < n)%Z -> cut n (whole_number p) = p.
Proof.
  intros H. unfold cut. rewrite atleast_0 by (apply W_nn; lia). assert (Qfloor (this (whole_number p)) = p) as ->; [| lia]. rewrite (Qfloor_comp _ _ (this_W p)). apply Qfloor_Z.
Qed.
Lemma cuts_point c : forall ns ms o p, points c ns ms o p -> cuts c ns ms o = p.
Proof.
  induction ns as [| n ns IH]; intros [| m ms] [| o os] [| p ps] H; cbn [points] in H; try contradiction; [reflexivity |]. destruct H as [[B E] H]. cbn [cuts]. rewrite E, cut_point by exact B. f_equal. apply IH. exact H.
Qed.
(** Same sizes. *)
Lemma W_ne n : (0 < n)%Z -> whole_number n <> 0.
Proof. intros H. apply pos_ne. apply W_pos. exact H. Qed.
Lemma used_same r n o : (0 <= o < n)%Z -> used r n n o = whole_number o.
Proof.
  intros H. unfold used. destruct (Z.eqb_spec n 1) as [-> | NE]; [assert (o = 0%Z) as -> by lia; reflexivity |]. pose proof (W_ne n ltac:(lia)). pose proof (W_ne (n - 1) ltac:(lia)). destruct r; cbn [documented]; field; assumption.
Qed.
Lemma points_same r : forall ns o, inside o ns -> points (used r) ns ns o o.
Proof. intros ns o H. induction H as [| i n o ns Hi _ IH]; cbn [points]; [exact I |]. split; [split; [exact Hi | apply used_same; exact Hi] | exact IH]. Qed.
Lemma old_same n o : (0 <= o < n)%Z -> cut n (documented_old n n o) = o.
Proof.
  intros H. unfold cut, documented_old. replace ((whole_number o + one_half) * whole_number n / whole_number n) with (whole_number o + half) by (rewrite oh_half; field; apply W_ne; lia).
  pose proof this_h. pose proof (W_nn o ltac:(lia)). rewrite atleast_0 by qlra. destruct (floor_ok (whole_number o + half)) as [F1 F2]. set (k := Qfloor _) in *. clearbody k.
  assert (k = o); [| lia]. assert (X : whole_number k < whole_number o + 1) by qlra. apply between in X. assert (Y : whole_number o < whole_number k + 1) by qlra. apply between in Y. lia.
Qed.
Lemma cuts_same align h nn : forall ns o, inside o ns -> cuts (nn_rule align h nn) ns ns o = o.
Proof.
  intros ns o H. induction H as [| i n o ns Hi _ IH]; cbn [cuts]; [reflexivity |]. rewrite IH. f_equal. unfold nn_rule. destruct nn; [apply old_same; exact Hi |]. rewrite used_same by exact Hi. apply cut_point. exact Hi.
Qed.
(** Corners. *)
Fixpoint corner (ns ms o p : list Z) : Prop :=
  match ns, ms, o, p with
  | [], [], [], [] => True
  | n :: ns, m :: ms, o :: os, p :: ps => (2 <= m)%Z /\ ((o = 0 /\ p = 0)%Z \/ (o = m - 1 /\ p = n - 1)%Z) /\ corner ns ms os ps
  | _, _, _, _ => False
  end.
Lemma corner_points : forall ns ms o p, positive ns -> corner ns ms o p -> points (used Corners) ns ms o p.
Proof.
  induction ns as [| n ns IH]; intros [| m ms] [| o os] [| p ps] PN H; cbn [corner] in H; try contradiction; [exact I |]. destruct H as (M & C & H). inversion PN; subst. cbn [points]. split; [| apply IH; assumption].
  unfold used. destruct (Z.eqb_spec m 1); [lia |]. cbn [documented]. destruct C as [[-> ->] | [-> ->]]; (split; [lia |]); rewrite ?W0; field; apply W_ne; lia.
Qed.
(** Documented coordinates. *)
Lemma used_documented r n m o : (0 < n)%Z -> (0 <= o < m)%Z -> (r = Half_pixels -> m = 1 -> n = 1)%Z -> used r n m o = documented r n m o.
Proof.
  intros N O H. unfold used. destruct (Z.eqb_spec m 1) as [-> | NE]; [| reflexivity]. assert (o = 0%Z) as -> by lia. destruct r; cbn [documented].
  - change (whole_number (1 - 1)) with 0. rewrite W0. unfold Qcdiv. ring.
  - rewrite (H eq_refl eq_refl), W0, W1. field. discriminate.
  - rewrite W0, W1. field. discriminate.
Qed.
Lemma hats_documented r : forall ns ms o i, positive ns -> no_single r ns ms -> inside o ms -> inside i ns -> hats (used r) ns ms o i = hats (documented r) ns ms o i.
Proof.
  induction ns as [| n ns IH]; intros [| m ms] o i PN NS IO II; inversion IO; inversion II; subst; cbn [hats]; try reflexivity. inversion PN; subst. rewrite used_documented; [| assumption | assumption |].
  - rewrite IH; try assumption; [reflexivity |]. intros R. specialize (NS R). inversion NS; assumption.
  - intros R. specialize (NS R). inversion NS; subst. assumption.
Qed.
Lemma cuts_documented r : forall ns ms o, positive ns -> length ns = length ms -> no_single r ns ms -> inside o ms -> cuts (used r) ns ms o = cuts (documented r) ns ms o.
Proof.
  induction ns as [| n ns IH]; intros [| m ms] o PN LE NS IO; try discriminate; inversion IO; subst; cbn [cuts]; try reflexivity. inversion PN; subst. rewrite used_documented; [| assumption | assumption |].
  - rewrite IH; try assumption; [reflexivity | injection LE as LE; assumption |]. intros R. specialize (NS R). inversion NS; assumption.
  - intros R. specialize (NS R). inversion NS; subst. assumption.
Qed.
(** The old mode takes a nearest pixel. *)
Lemma old_nearest n m o : (0 < n)%Z -> (0 <= o < m)%Z -> nearest_pixel one_half n (documented_old n m o) (cut n (documented_old n m o)).
Proof.
  intros N O. destruct (old_ok n m o N O) as (_ & V0 & VN). unfold cut. rewrite atleast_0 by (apply Qclt_le_weak; assumption). set (v := documented_old n m o) in *. clearbody v. pose proof (floor_bounds v n (Qclt_le_weak _ _ V0) VN) as FB. destruct (floor_ok v) as [F1 F2].
  set (k := Qfloor (this v)) in *. clearbody k. rewrite Z.min_l by lia. split; [exact FB |]. intros i Hi. rewrite oh_half. pose proof this_h.
  assert (K : distance (whole_number k + half) v <= half) by (destruct (distance_cases (whole_number k + half) v) as [[_ ->] | [_ ->]]; qlra).
  destruct (Z.eq_dec i k) as [-> | NE]; [apply Qcle_refl |]. assert (X : (i + 1 <= k)%Z \/ (k + 1 <= i)%Z) by lia. destruct X as [X | X]; apply (proj1 (W_le _ _)) in X; rewrite W_step in X;
    destruct (distance_cases (whole_number i + half) v) as [[D ->] | [D ->]]; qlra.
Qed.
(** Convex combinations. *)
Lemma total_le {T} (L : list T) f g : (forall a, In a L -> f a <= g a) -> total L f <= total L g.
Proof.
  induction L as [| a L IH]; intros H; [apply Qcle_refl |]. rewrite !total_cons. apply Qcplus_le_compat; [apply H; left; reflexivity | apply IH; intros b B; apply H; right; exact B].
Qed.
Lemma mean_range c ns ms o (g : list Z -> Qc) lo hi : positive ns -> length ns = length ms -> inside o ms -> (forall i, inside i ns -> lo <= g i /\ g i <= hi) ->
  lo <= total (indices ns) (fun i => hats c ns ms o i * g i) /\ total (indices ns) (fun i => hats c ns ms o i * g i) <= hi.
Proof.
  intros PN LE IO B. pose proof (hats_sum c ns ms o PN LE IO) as S. split.
  - replace lo with (lo * total (indices ns) (hats c ns ms o)) by (rewrite S; ring). rewrite <- total_scale. apply total_le. intros i I. apply indices_in in I. destruct (B i I) as [B1 _]. pose proof (hats_nn c ns ms o i) as NN. set (w := hats c ns ms o i) in *. set (v := g i) in *. clearbody w v. clear - B1 NN. qnra.
  - replace hi with (hi * total (indices ns) (hats c ns ms o)) by (rewrite S; ring). rewrite <- total_scale. apply total_le. intros i I. apply indices_in in I. destruct (B i I) as [_ B1]. pose proof (hats_nn c ns ms o i) as NN. set (w := hats c ns ms o i) in *. set (v := g i) in *. clearbody w v. clear - B1 NN. qnra.
Qed.
