(** Non-maximum suppression: ratios of areas. *)
From Coq Require Import List ZArith Lia Lqa Bool QArith Qcanon.
From Verif Require Import ReduceModel FindModel FindProofs1 NmsModel NmsSpec.
Import ListNotations.
Local Open Scope list_scope.
Local Open Scope Qc_scope.

Lemma this_plus a b : (this (a + b) == this a + this b)%Q.
Proof. apply Qred_correct. Qed.
Lemma this_mult a b : (this (a * b) == this a * this b)%Q.
Proof. apply Qred_correct. Qed.
Lemma this_opp a : (this (- a) == - this a)%Q.
Proof. apply Qred_correct. Qed.
Lemma this_minus a b : (this (a - b) == this a - this b)%Q.
Proof. unfold Qcminus. rewrite this_plus, this_opp. reflexivity. Qed.
Lemma this_0 : (this 0 == 0)%Q.
Proof. reflexivity. Qed.
Lemma this_1 : (this 1 == 1)%Q.
Proof. reflexivity. Qed.
Lemma this_half a : (this (a / Q2Qc 2) == this a * (1 # 2))%Q.
Proof. unfold Qcdiv. rewrite this_mult. reflexivity. Qed.
Lemma canon (a b : Qc) : (this a == this b)%Q <-> a = b.
Proof. split; [apply Qc_is_canon|intros ->; reflexivity]. Qed.
Ltac down := repeat match goal with
  | H : ?a <> ?b :> Qc |- _ => rewrite <- canon in H
  | H : ?a = ?b :> Qc |- _ => rewrite <- canon in H
  | |- ?a = ?b :> Qc => rewrite <- canon
  | |- ?a <> ?b :> Qc => rewrite <- canon
  end; unfold Qclt, Qcle, two in *; repeat (rewrite ?this_half, ?this_plus, ?this_minus, ?this_opp, ?this_mult, ?this_0, ?this_1 in * ).
Ltac qlra := down; lra.
Ltac qnra := down; nra.

Lemma qmin_ok a b t : t <= qmin a b <-> t <= a /\ t <= b.
Proof. unfold qmin, less. destruct (Qclt_le_dec b a); split; intros; repeat split; try qlra. Qed.
Lemma qmax_ok a b t : qmax a b <= t <-> a <= t /\ b <= t.
Proof. unfold qmax, less. destruct (Qclt_le_dec a b); split; intros; repeat split; try qlra. Qed.
Lemma qmin_le a b : qmin a b <= a /\ qmin a b <= b.
Proof. apply qmin_ok. apply Qcle_refl. Qed.
Lemma qmax_ge a b : a <= qmax a b /\ b <= qmax a b.
Proof. apply qmax_ok. apply Qcle_refl. Qed.
Lemma more_true a b : more a b = true <-> b < a.
Proof. unfold more. destruct (Qclt_le_dec b a); split; intros; auto; try discriminate. exfalso. qlra. Qed.
Lemma more_false a b : more a b = false <-> a <= b.
Proof. unfold more. destruct (Qclt_le_dec b a); split; intros; auto; try discriminate. exfalso. qlra. Qed.

Section ratio.
Variables a b : rect.
Let w := qmin (right_ a) (right_ b) - qmax (left_ a) (left_ b).
Let h := qmin (high a) (high b) - qmax (low a) (low b).
Let c := {| left_ := qmax (left_ a) (left_ b); right_ := qmin (right_ a) (right_ b); low := qmax (low a) (low b); high := qmin (high a) (high b) |}.
Lemma covers_c u v : covers c u v <-> covers a u v /\ covers b u v.
Proof. unfold covers, c. cbn [left_ right_ low high]. rewrite !qmin_ok, !qmax_ok. tauto. Qed.
Lemma common_pos d : common a b d -> 0 < w /\ 0 < h.
Proof.
  intros (L & H & C). unfold w, h.
  assert (C1 : covers d (left_ d) (low d)) by (repeat split; qlra). assert (C2 : covers d (right_ d) (high d)) by (repeat split; qlra).
  apply C in C1 as [(A1 & A2 & A3 & A4) (A5 & A6 & A7 & A8)]. apply C in C2 as [(B1 & B2 & B3 & B4) (B5 & B6 & B7 & B8)].
  assert (X1 : right_ d <= qmin (right_ a) (right_ b)) by (apply qmin_ok; auto). assert (X2 : qmax (left_ a) (left_ b) <= left_ d) by (apply qmax_ok; auto).
  assert (X3 : high d <= qmin (high a) (high b)) by (apply qmin_ok; auto). assert (X4 : qmax (low a) (low b) <= low d) by (apply qmax_ok; auto).
  split; qlra.
Qed.
Lemma ratio_ok : iou_is a b (ratio w h (right_ a - left_ a) (high a - low a) (right_ b - left_ b) (high b - low b)).
Proof.
  unfold ratio. destruct (more w 0) eqn:W; [destruct (more h 0) eqn:H|]; cbn [negb orb].
  - apply more_true in W, H. left. exists c. split; [|reflexivity]. split; [unfold w in W; cbn; qlra|]. split; [unfold h in H; cbn; qlra|]. exact covers_c.
  - right. split; [|auto]. intros d D. apply common_pos in D as [_ D]. apply more_false in H. qlra.
  - right. split; [|auto]. intros d D. apply common_pos in D as [D _]. apply more_false in W. qlra.
Qed.
End ratio.

(** The intersection is unique. *)
Lemma common_unique a b c d : common a b c -> common a b d -> c = d.
Proof.
  intros (L & H & C) (L' & H' & D).
  assert (E : forall u v, covers c u v <-> covers d u v) by (intros; rewrite C, D; tauto).
  assert (C1 : covers c (left_ c) (low c)) by (repeat split; qlra). assert (C2 : covers c (right_ c) (high c)) by (repeat split; qlra).
  assert (D1 : covers d (left_ d) (low d)) by (repeat split; qlra). assert (D2 : covers d (right_ d) (high d)) by (repeat split; qlra).
  apply E in C1 as (A1 & A2 & A3 & A4). apply E in C2 as (A5 & A6 & A7 & A8). apply E in D1 as (B1 & B2 & B3 & B4). apply E in D2 as (B5 & B6 & B7 & B8).
  destruct c as [l r lo hi], d as [l' r' lo' hi']. cbn [left_ right_ low high] in *.
  assert (l = l') by qlra. assert (r = r') by qlra. assert (lo = lo') by qlra. assert (hi = hi') by qlra. subst. auto.
Qed.
Lemma iou_unique a b q r : iou_is a b q -> iou_is a b r -> q = r.
Proof.
  intros [(c & C & ->)|[N ->]] [(d & D & ->)|[N' ->]]; auto.
  - rewrite (common_unique _ _ _ _ C D). auto.
  - destruct (N' _ C).
  - destruct (N _ D).
Qed.
Lemma common_sym a b c : common a b c -> common b a c.
Proof. intros (L & H & C). split; [auto|]. split; [auto|]. intros u v. rewrite C. tauto. Qed.
Lemma iou_sym a b q : iou_is a b q -> iou_is b a q.
Proof.
  intros [(c & C & ->)|[N ->]]; [left; exists c; split; [apply common_sym; auto|]|right; split; [|auto]].
  - f_equal. ring.
  - intros c C. apply (N c), common_sym. auto.
Qed.
Lemma overlapping_sym t a b : overlapping t a b -> overlapping t b a.
Proof. intros (q & Q & L). exists q. split; [apply iou_sym|]; auto. Qed.
Lemma this_pos_div a b : 0 < b -> (this (a / b) == this a / this b)%Q.
Proof. intros H. unfold Qcdiv. rewrite this_mult. unfold Qcinv. cbn. rewrite Qred_correct. reflexivity. Qed.
Lemma common_area a b c : common a b c -> 0 < area c /\ area c <= area a /\ area c <= area b.
Proof.
  intros CC. pose proof CC as (L & H & C).
  assert (C1 : covers c (left_ c) (low c)) by (repeat split; qlra). assert (C2 : covers c (right_ c) (high c)) by (repeat split; qlra).
  apply C in C1 as [(A1 & A2 & A3 & A4) (A5 & A6 & A7 & A8)]. apply C in C2 as [(B1 & B2 & B3 & B4) (B5 & B6 & B7 & B8)].
  unfold area. split; [qnra|]. split; qnra.
Qed.
Lemma iou_bounds a b q : iou_is a b q -> 0 <= q /\ q <= 1.
Proof.
  intros [(c & C & ->)|[N ->]]; [|split; discriminate].
  destruct (common_area _ _ _ C) as (P & A & B). set (U := area a + area b - area c). assert (PU : 0 < U) by (unfold U; qlra). assert (LU : area c <= U) by (unfold U; qlra).
  clearbody U. unfold Qcle. rewrite this_pos_div by auto. unfold Qcle, Qclt in *. split.
  - apply Qle_shift_div_l; [exact PU|]. rewrite this_0 in *. lra.
  - apply Qle_shift_div_r; [exact PU|]. rewrite this_1. lra.
Qed.
Lemma iou_same a : left_ a < right_ a -> low a < high a -> iou_is a a 1.
Proof.
  intros L H. left. exists a. split; [split; [auto|]; split; [auto|]; tauto|].
  assert (P : 0 < area a) by (unfold area; qnra). replace (area a + area a - area a) with (area a) by ring. unfold Qcdiv. rewrite Qcmult_inv_r; [auto|]. intros E. rewrite E in P. discriminate.
Qed.

(** The functions of the code. *)
Definition rect_of (b : Qc * Qc * Qc * Qc) : rect := let '(x, y, w, h) := b in centered x y w h.
Lemma iou_ok a b : iou_is (rect_of a) (rect_of b) (calculate_iou a b).
Proof.
  destruct a as [[[x1 y1] w1] h1], b as [[[x2 y2] w2] h2]. cbn [rect_of calculate_iou].
  pose proof (ratio_ok (centered x1 y1 w1 h1) (centered x2 y2 w2 h2)) as R. unfold centered in R |- *. cbn [left_ right_ low high] in R.
  fold two in R |- *. unfold overlap.
  replace (x1 + w1 / two - (x1 - w1 / two)) with w1 in R by qlra. replace (y1 + h1 / two - (y1 - h1 / two)) with h1 in R by qlra.
  replace (x2 + w2 / two - (x2 - w2 / two)) with w2 in R by qlra. replace (y2 + h2 / two - (y2 - h2 / two)) with h2 in R by qlra. exact R.
Qed.
Definition rect_of_corners (b : Qc * Qc * Qc * Qc) : rect := let '(y1, x1, y2, x2) := b in cornered y1 x1 y2 x2.
Lemma minmax_ok a b : minmax a b = (smaller a b, larger a b).
Proof.
  unfold minmax, smaller, larger, less. destruct (Qclt_le_dec b a), (Qclt_le_dec a b); auto; try (exfalso; qlra).
  assert (a = b) by qlra. subst. auto.
Qed.
Lemma onnx_iou_ok center a b : center = 0%Z \/ center = 1%Z -> exists q, onnx_iou center a b = Some q /\
  (if (center =? 0)%Z then iou_is (rect_of_corners a) (rect_of_corners b) q else iou_is (rect_of a) (rect_of b) q).
Proof.
  intros C. destruct a as [[[a0 a1] a2] a3], b as [[[b0 b1] b2] b3]. unfold onnx_iou. destruct C as [-> | ->]; cbn [Z.eqb].
  - rewrite !minmax_ok. eexists. split; [reflexivity|]. cbn [rect_of_corners]. apply (ratio_ok (cornered a0 a1 a2 a3) (cornered b0 b1 b2 b3)).
  - eexists. split; [reflexivity|]. exact (iou_ok (a0, a1, a2, a3) (b0, b1, b2, b3)).
Qed.
