(** Quantization: rounding, and grids. *)
From Coq Require Import List ZArith Lia Lqa Bool QArith Qcanon Qround.
From Verif Require Import ScanModel ScanProofs1 ReduceModel ReduceProofs1 ConvModel ConvProofs3 BinProofs3 JoinProofs FindModel FindProofs1 NmsProofs1 QuantModel QuantSpec.
Import ListNotations.
Local Open Scope list_scope.
Local Open Scope Qc_scope.

Lemma this_Z k : (this (of_Z k) == inject_Z k)%Q.
Proof. apply Qred_correct. Qed.
Lemma this_W k : (this (whole_number k) == inject_Z k)%Q.
Proof. apply Qred_correct. Qed.
Lemma this_h : (this half == 1 # 2)%Q.
Proof. apply Qred_correct. Qed.
Lemma less_true a b : less a b = true <-> a < b.
Proof. unfold less. destruct (Qclt_le_dec a b); split; intros; auto; try discriminate. exfalso. qlra. Qed.
Lemma less_false a b : less a b = false <-> b <= a.
Proof. unfold less. destruct (Qclt_le_dec a b); split; intros; auto; try discriminate. exfalso. qlra. Qed.
Lemma W_le a b : (a <= b)%Z <-> whole_number a <= whole_number b.
Proof. unfold Qcle. rewrite !this_W. rewrite Zle_Qle. tauto. Qed.
Lemma W_lt a b : (a < b)%Z <-> whole_number a < whole_number b.
Proof. unfold Qclt. rewrite !this_W. rewrite Zlt_Qlt. tauto. Qed.
Lemma W_plus a b : whole_number (a + b) = whole_number a + whole_number b.
Proof. apply Qc_is_canon. rewrite this_plus, !this_W. rewrite inject_Z_plus. reflexivity. Qed.
Lemma W_opp a : whole_number (- a) = - whole_number a.
Proof. apply Qc_is_canon. rewrite this_opp, !this_W. rewrite inject_Z_opp. reflexivity. Qed.
Lemma W_mult a b : whole_number (a * b) = whole_number a * whole_number b.
Proof. apply Qc_is_canon. rewrite this_mult, !this_W. rewrite inject_Z_mult. reflexivity. Qed.
Lemma W_inj a b : whole_number a = whole_number b -> a = b.
Proof. intros H. apply Z.le_antisymm; apply W_le; rewrite H; apply Qcle_refl. Qed.
Lemma of_W k : of_Z k = whole_number k.
Proof. reflexivity. Qed.
Lemma floor_ok v : whole_number (Qfloor (this v)) <= v /\ v < whole_number (Qfloor (this v)) + 1.
Proof.
  unfold Qcle, Qclt. rewrite this_plus, this_W, this_1. split; [apply Qfloor_le |]. pose proof (Qlt_floor (this v)) as H. rewrite inject_Z_plus in H. exact H.
Qed.
Lemma mag_pos v : 0 <= v -> mag v = v.
Proof. unfold mag. destruct (Qclt_le_dec v 0); intros; [exfalso; qlra | reflexivity]. Qed.
Lemma mag_neg v : v <= 0 -> mag v = - v.
Proof. unfold mag. destruct (Qclt_le_dec v 0); intros; [reflexivity | qlra]. Qed.
Lemma mag_0 v : 0 <= mag v.
Proof. unfold mag. destruct (Qclt_le_dec v 0); qlra. Qed.
Lemma mag_opp v : mag (- v) = mag v.
Proof. unfold mag. destruct (Qclt_le_dec v 0), (Qclt_le_dec (- v) 0); try reflexivity; qlra. Qed.
Lemma mag_cases v : (0 <= v /\ mag v = v) \/ (v < 0 /\ mag v = - v).
Proof. unfold mag. destruct (Qclt_le_dec v 0); auto. Qed.
Lemma qabs_mag v : qabs v = mag v.
Proof. unfold qabs, less, mag. destruct (Qclt_le_dec v 0); reflexivity. Qed.

(** Half up rounding of numbers that are not negative. *)
Definition near (v : Qc) : Z := Qfloor (this (v + half)).
Lemma near_ok v : whole_number (near v) - half <= v /\ v < whole_number (near v) + half.
Proof. unfold near. destruct (floor_ok (v + half)) as [H1 H2]. revert H1 H2. generalize (Qfloor (this (v + half))). intros k H1 H2. pose proof this_h. split; qlra. Qed.
Lemma near_0 v : 0 <= v -> (0 <= near v)%Z.
Proof. intros H. destruct (near_ok v) as [_ N]. pose proof this_h. assert (L : whole_number (-1) < whole_number (near v)) by (assert (this (whole_number (-1)) == - (1))%Q by reflexivity; qlra). apply W_lt in L. lia. Qed.
Lemma between (a b : Z) : whole_number a < whole_number b + 1 -> (a <= b)%Z.
Proof. intros H. apply Z.lt_succ_r. apply W_lt. unfold Z.succ. rewrite W_plus. exact H. Qed.
Lemma near_le v k : v <= whole_number k -> (near v <= k)%Z.
Proof. intros H. apply between. destruct (near_ok v). pose proof this_h. qlra. Qed.
Lemma near_ge v k : whole_number k <= v -> (k <= near v)%Z.
Proof. intros H. apply between. destruct (near_ok v). pose proof this_h. qlra. Qed.
Lemma W_step a b : (a < b)%Z -> whole_number a + 1 <= whole_number b.
Proof. intros H. change 1 with (whole_number 1). rewrite <- W_plus. apply (proj1 (W_le _ _)). lia. Qed.
(** The rounded number is the nearest integer. *)
Lemma near_best v j : mag (v - whole_number (near v)) <= mag (v - whole_number j) /\ (mag (v - whole_number (near v)) = mag (v - whole_number j) -> (j <= near v)%Z).
Proof.
  destruct (near_ok v) as [A B]. pose proof this_h as HH. revert A B. generalize (near v). intros k A B.
  destruct (Z_lt_le_dec j k) as [L | L].
  - assert (Q : whole_number j + 1 <= whole_number k) by (apply W_step; lia).
    rewrite (mag_pos (v - whole_number j)) by qlra. split; [| intros; lia]. destruct (mag_cases (v - whole_number k)) as [[_ ->] | [_ ->]]; qlra.
  - destruct (Z.eq_dec j k) as [-> | NE]; [split; [apply Qcle_refl | intros; lia] |].
    assert (Q : whole_number k + 1 <= whole_number j) by (apply W_step; lia).
    rewrite (mag_neg (v - whole_number j)) by qlra. split; [| intros E; exfalso; destruct (mag_cases (v - whole_number k)) as [[_ M] | [_ M]]; rewrite M in E; qlra].
    destruct (mag_cases (v - whole_number k)) as [[_ ->] | [_ ->]]; qlra.
Qed.
