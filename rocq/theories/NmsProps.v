(** The intersection over union of boxes (C92), NmsDetection2d (C93, C94) and
    ONNXNonMaxSuppression (C95). *)
From Coq Require Import List ZArith Lia Bool Permutation QArith Qcanon.
From Verif Require Import NdSpec NdProofs IdxModel IdxSpec JoinSpec JoinProofs ScanModel ScanSpec ScanProofs1 ReduceModel SortSpec SortProofs2 SortProofs3 FindModel FindSpec FindProofs1 NmsModel NmsSpec NmsProofs1 NmsProofs2 NmsProofs3 NmsProofs4 NmsProofs5 NmsProofs6.
Import ListNotations.
Local Open Scope list_scope.
Local Open Scope Z_scope.

Definition len {T : Type} (l : list T) : Z := Z.of_nat (length l).

(** * Intersection over union *)

(** For boxes given by center and size, the overlap of a pair is the area of the intersection
    over that of the union, and 0 if the boxes have no more than a line in common. *)
Theorem C92_centered : forall x1 y1 w1 h1 x2 y2 w2 h2,
  iou_is (centered x1 y1 w1 h1) (centered x2 y2 w2 h2) (calculate_iou (x1, y1, w1, h1) (x2, y2, w2, h2)).
Proof. intros. exact (iou_ok (x1, y1, w1, h1) (x2, y2, w2, h2)). Qed.
(** The same for ONNX: two opposite corners, in any order, or center and size. *)
Theorem C92_onnx : forall a0 a1 a2 a3 b0 b1 b2 b3,
  (exists q, onnx_iou 0 (a0, a1, a2, a3) (b0, b1, b2, b3) = Some q /\ iou_is (cornered a0 a1 a2 a3) (cornered b0 b1 b2 b3) q) /\
  (exists q, onnx_iou 1 (a0, a1, a2, a3) (b0, b1, b2, b3) = Some q /\ iou_is (centered a0 a1 a2 a3) (centered b0 b1 b2 b3) q).
Proof.
  intros. split.
  - destruct (onnx_iou_ok 0 (a0, a1, a2, a3) (b0, b1, b2, b3) (or_introl eq_refl)) as (q & E & I). exists q. split; [exact E|exact I].
  - destruct (onnx_iou_ok 1 (a0, a1, a2, a3) (b0, b1, b2, b3) (or_intror eq_refl)) as (q & E & I). exists q. split; [exact E|exact I].
Qed.
(** The intersection over union is one number from 0 to 1, the same for both orders of the
    boxes, and 1 for a box and itself. *)
Theorem C92_number : forall a b q r, iou_is a b q -> (iou_is a b r -> q = r) /\ iou_is b a q /\ (0 <= q /\ q <= 1)%Qc.
Proof. intros a b q r I. split; [intros J; exact (iou_unique a b q r I J)|]. split; [exact (iou_sym a b q I)|exact (iou_bounds a b q I)]. Qed.
Theorem C92_same : forall a, (left_ a < right_ a)%Qc -> (low a < high a)%Qc -> iou_is a a 1%Qc.
Proof. exact iou_same. Qed.
(** It is 1 only for a box and itself. *)
Theorem C92_one : forall a b, iou_is a b 1%Qc -> a = b.
Proof. exact iou_one. Qed.
(** Other numbers for the format of boxes are refused when two boxes are compared. *)
Theorem C92_formats : forall center a b, center <> 0%Z -> center <> 1%Z -> onnx_iou center a b = None.
Proof. intros center [[[a0 a1] a2] a3] [[[b0 b1] b2] b3] N0 N1. unfold onnx_iou. destruct (Z.eqb_spec center 0), (Z.eqb_spec center 1); try contradiction. reflexivity. Qed.
Example C92_works :
  calculate_iou (Q2Qc 0, Q2Qc 0, Q2Qc 2, Q2Qc 1) (Q2Qc 1, Q2Qc 0, Q2Qc 2, Q2Qc 1) = Q2Qc (1 # 3) /\
  calculate_iou (Q2Qc 0, Q2Qc 0, Q2Qc 2, Q2Qc 1) (Q2Qc 2, Q2Qc 0, Q2Qc 2, Q2Qc 1) = 0%Qc /\
  onnx_iou 0 (Q2Qc 1, Q2Qc 3, Q2Qc 0, Q2Qc 0) (Q2Qc 0, Q2Qc 2, Q2Qc 1, Q2Qc 5) = Some (Q2Qc (1 # 5)) /\
  onnx_iou 2 (Q2Qc 1, Q2Qc 3, Q2Qc 0, Q2Qc 0) (Q2Qc 0, Q2Qc 2, Q2Qc 1, Q2Qc 5) = None.
Proof. repeat split; apply f_equal || idtac; try (apply Qc_is_canon; reflexivity); reflexivity. Qed.

(** * NmsDetection2d per class *)

(** The boxes are copied and the objectness is cut at the threshold.  For each image and class,
    the boxes are gone through in an order of falling scores.  The score of a box is kept if it is
    not under the threshold and the box does not overlap one that was kept before; else it is 0. *)
Theorem C93_classes_partial : forall std_sort, sorting std_sort -> forall t nms B N D x y0, 0 <= B -> 0 <= N -> 5 < D ->
  len x = size [B; N; D] -> len y0 = size [B; N; D] ->
  exists y, nms_detection std_sort true t nms [B; N; D] x y0 = Some y /\ len y = size [B; N; D] /\
  (forall b a, 0 <= b < B -> 0 <= a < N ->
    (forall j, 0 <= j < 4 -> qelem y [B; N; D] [b; a; j] = qelem x [B; N; D] [b; a; j]) /\
    qelem y [B; N; D] [b; a; 4] = objectness_at t x [B; N; D] b a) /\
  forall b k, 0 <= b < B -> 0 <= k < D - 5 -> exists order (kept : Z -> bool),
    ranking N (score_at t x [B; N; D] b k) order /\
    selection order (fun a => score_at t x [B; N; D] b k a <> 0%Qc) (fun a a' => overlapping nms (box_at x [B; N; D] b a) (box_at x [B; N; D] b a')) (fun a => In a order /\ kept a = true) /\
    forall a, 0 <= a < N -> qelem y [B; N; D] [b; a; 5 + k] = if kept a then score_at t x [B; N; D] b k a else 0%Qc.
Proof.
  intros std_sort STD t nms B N D x y0 HB HN HD LX LY. cbn [size fold_right] in LX, LY |- *.
  replace (B * (N * (D * 1))) with (B * N * D) in * by ring.
  destruct (per_class_ok std_sort STD t nms B N D x HN HD LX y0 LY) as (y & E & L & V & C). exists y. split; [|split; [exact L|]].
  - unfold nms_detection. destruct (Z.ltb_spec 5 D); [exact E|lia].
  - split.
    + intros b a Hb Ha. split.
      * intros j J. rewrite <- (V b a j Hb Ha ltac:(lia)) || idtac. pose proof (V b a j Hb Ha ltac:(lia)) as X. unfold fill in X. destruct (Z.ltb_spec j 4); [exact X|lia].
      * rewrite <- (fill_objectness t B N D x). exact (V b a 4 Hb Ha ltac:(lia)).
    + intros b k Hb Hk. destruct (C b k Hb Hk) as (order & f & R & S & W). exists order, f. split; [|split].
      * apply (ranking_ext N (fun a => fill t D x (b * N + a) (5 + k))); [|exact R]. intros i I. apply fill_score. lia.
      * destruct S as [S1 S2 S3]. constructor.
        -- intros a K. destruct (S1 a K) as [I P]. split; [exact I|]. rewrite <- fill_score by lia. exact P.
        -- exact S2.
        -- intros j J P K. rewrite <- fill_score in P by lia. exact (S3 j J P K).
      * intros a Ha. rewrite <- fill_score by lia. exact (W a Ha).
Qed.
(** Three boxes in a row: the second overlaps the first and the third; the second is dropped and
    so the third is kept. *)
Definition row3 : list Qc := map Q2Qc [0; 0; 2; 1; 1; 9 # 10; 1; 0; 2; 1; 1; 8 # 10; 2; 0; 2; 1; 1; 7 # 10]%Q.
Example C93_classes_works : sorting (@isort Z) /\
  option_map (map this) (nms_detection isort true (Q2Qc (1 # 2)) (Q2Qc (1 # 4)) [1; 3; 6] row3 row3) =
    Some [0; 0; 2; 1; 1; 9 # 10; 1; 0; 2; 1; 1; 0; 2; 0; 2; 1; 1; 7 # 10]%Q /\
  option_map (map this) (nms_detection isort true (Q2Qc (3 # 4)) (Q2Qc (1 # 4)) [1; 3; 6] row3 row3) =
    Some [0; 0; 2; 1; 1; 9 # 10; 1; 0; 2; 1; 1; 0; 2; 0; 2; 1; 1; 0]%Q.
Proof. split; [exact isort_sorting|]. split; reflexivity. Qed.
(** If no two boxes have the same score other than 0, the outputs do not depend on how std::sort
    orders equal scores. *)
Theorem C93_order_free_partial : forall sort1 sort2, sorting sort1 -> sorting sort2 -> forall t nms B N D x y1 y2, 0 <= B -> 0 <= N -> 5 < D ->
  len x = size [B; N; D] -> len y1 = size [B; N; D] -> len y2 = size [B; N; D] ->
  (forall b k a a', 0 <= b < B -> 0 <= k < D - 5 -> 0 <= a < N -> 0 <= a' < N -> score_at t x [B; N; D] b k a <> 0%Qc -> score_at t x [B; N; D] b k a = score_at t x [B; N; D] b k a' -> a = a') ->
  nms_detection sort1 true t nms [B; N; D] x y1 = nms_detection sort2 true t nms [B; N; D] x y2.
Proof.
  intros sort1 sort2 S1 S2 t nms B N D x y1 y2 HB HN HD LX L1 L2 DIST.
  destruct (C93_classes_partial sort1 S1 t nms B N D x y1 HB HN HD LX L1) as (z1 & E1 & M1 & F1 & C1). destruct (C93_classes_partial sort2 S2 t nms B N D x y2 HB HN HD LX L2) as (z2 & E2 & M2 & F2 & C2).
  rewrite E1, E2. f_equal. cbn [size] in M1, M2. apply (same_list z1 z2 B N D); try lia; [unfold glen, len in *; rewrite M1; ring|unfold glen, len in *; rewrite M2; ring|].
  intros b a j Hb Ha Hj. destruct (F1 b a Hb Ha) as [X1 Y1], (F2 b a Hb Ha) as [X2 Y2]. unfold qelem in *. rewrite !(position_pos B N D) in *.
  destruct (Z_lt_ge_dec j 4) as [J|J]; [specialize (X1 j ltac:(lia)); specialize (X2 j ltac:(lia)); rewrite !(position_pos B N D) in *; unfold gat; congruence|].
  destruct (Z.eq_dec j 4) as [->|]; [unfold gat; congruence|].
  destruct (C1 b (j - 5) Hb ltac:(lia)) as (o1 & f1 & R1 & K1 & V1), (C2 b (j - 5) Hb ltac:(lia)) as (o2 & f2 & R2 & K2 & V2).
  specialize (V1 a Ha). specialize (V2 a Ha). unfold qelem in V1, V2. rewrite !(position_pos B N D) in V1, V2. replace (5 + (j - 5)) with j in V1, V2 by ring. unfold gat. rewrite V1, V2.
  assert (DEC : forall (o : list Z) (f : Z -> bool) c, (In c o /\ f c = true) \/ ~ (In c o /\ f c = true)) by (intros o f c; destruct (in_dec Z.eq_dec c o), (f c); intuition congruence).
  assert (KS : (In a o1 /\ f1 a = true) <-> (In a o2 /\ f2 a = true)).
  { apply (keep_same N (score_at t x [B; N; D] b (j - 5)) (fun a => score_at t x [B; N; D] b (j - 5) a <> 0%Qc) (fun a a' => overlapping nms (box_at x [B; N; D] b a) (box_at x [B; N; D] b a')) HN) with (o := o1) (o' := o2)
      (keep := fun a => In a o1 /\ f1 a = true) (keep' := fun a => In a o2 /\ f2 a = true); auto. intros c d Cb Db P _ E. apply (DIST b (j - 5)); auto. lia. }
  assert (I1 : In a o1) by (apply (ranking_in _ _ _ a HN R1); auto). assert (I2 : In a o2) by (apply (ranking_in _ _ _ a HN R2); auto).
  destruct (f1 a), (f2 a); try reflexivity; exfalso; destruct KS as [KS1 KS2]; [destruct (KS1 (conj I1 eq_refl))|destruct (KS2 (conj I2 eq_refl))]; discriminate.
Qed.
Example C93_order_free_works : score_at (Q2Qc (1 # 2)) row3 [1; 3; 6] 0 0 0 = Q2Qc (9 # 10) /\ score_at (Q2Qc (3 # 4)) row3 [1; 3; 6] 0 0 2 = 0%Qc.
Proof. split; apply Qc_is_canon; reflexivity. Qed.
(** Equal scores: which of two equal boxes is kept depends on std::sort. *)
Definition C93_ties_statement : Prop := forall sort1 sort2, sorting sort1 -> sorting sort2 -> forall t nms B N D x y, 0 <= B -> 0 <= N -> 5 < D ->
  len x = size [B; N; D] -> len y = size [B; N; D] ->
  nms_detection sort1 true t nms [B; N; D] x y = nms_detection sort2 true t nms [B; N; D] x y.
Definition rsort (R : Z -> Z -> bool) (l : list Z) : list Z := isort R (rev l).
Lemma rsort_sorting : sorting rsort.
Proof.
  intros R l W. destruct (isort_sorting R (rev l) W) as [P S]. split; [|exact S]. unfold rsort. eapply Permutation_trans; [exact P|]. apply Permutation_sym, Permutation_rev.
Qed.
Theorem C93_ties_refuted : ~ C93_ties_statement.
Proof.
  intros H. set (x := map Q2Qc [0; 0; 2; 1; 1; 1; 0; 0; 2; 1; 1; 1]%Q).
  specialize (H isort rsort isort_sorting rsort_sorting (Q2Qc (1 # 2)) (Q2Qc (1 # 4)) 1 2 6 x x ltac:(lia) ltac:(lia) ltac:(lia) eq_refl eq_refl).
  apply (f_equal (option_map (fun y => this (nth 5 y 0%Qc)))) in H. vm_compute in H. discriminate.
Qed.
(** The documentation says that all pairs of boxes are compared and the box of lower score is
    suppressed (functions.yaml:7851-7854).  A box that has been suppressed suppresses no other. *)
Definition C93_pairs_statement : Prop := forall std_sort, sorting std_sort -> forall t nms B N D x y0 y, 0 <= B -> 0 <= N -> 5 < D ->
  len x = size [B; N; D] -> len y0 = size [B; N; D] -> nms_detection std_sort true t nms [B; N; D] x y0 = Some y ->
  forall b k a a', 0 <= b < B -> 0 <= k < D - 5 -> 0 <= a < N -> 0 <= a' < N ->
  (score_at t x [B; N; D] b k a < score_at t x [B; N; D] b k a')%Qc -> overlapping nms (box_at x [B; N; D] b a) (box_at x [B; N; D] b a') ->
  qelem y [B; N; D] [b; a; 5 + k] = 0%Qc.
Theorem C93_pairs_refuted : ~ C93_pairs_statement.
Proof.
  intros H. remember (nms_detection isort true (Q2Qc (1 # 2)) (Q2Qc (1 # 4)) [1; 3; 6] row3 row3) as r eqn:E.
  assert (O : option_map (fun y => this (qelem y [1; 3; 6] [0; 2; 5])) r = Some (7 # 10)%Q) by (rewrite E; reflexivity). destruct r as [y|]; [|discriminate].
  specialize (H isort isort_sorting (Q2Qc (1 # 2)) (Q2Qc (1 # 4)) 1 3 6 row3 row3 y ltac:(lia) ltac:(lia) ltac:(lia) eq_refl eq_refl (eq_sym E) 0 0 2 1 ltac:(lia) ltac:(lia) ltac:(lia) ltac:(lia)).
  cbn [option_map] in O. change (5 + 0) with 5 in H. rewrite H in O; [discriminate|reflexivity|].
  eexists. split; [apply (iou_ok (Q2Qc 2, Q2Qc 0, Q2Qc 2, Q2Qc 1) (Q2Qc 1, Q2Qc 0, Q2Qc 2, Q2Qc 1))|reflexivity].
Qed.
(** The documentation says that only the class probabilities change (functions.yaml:7847-7850).
    The objectness of a box is 0 in the output if it is under the threshold. *)
Definition C93_copied_statement : Prop := forall std_sort, sorting std_sort -> forall t nms B N D x y0 y, 0 <= B -> 0 <= N -> 5 < D ->
  len x = size [B; N; D] -> len y0 = size [B; N; D] -> nms_detection std_sort true t nms [B; N; D] x y0 = Some y ->
  forall b a j, 0 <= b < B -> 0 <= a < N -> 0 <= j <= 4 -> qelem y [B; N; D] [b; a; j] = qelem x [B; N; D] [b; a; j].
Theorem C93_copied_refuted : ~ C93_copied_statement.
Proof.
  intros H. set (x := map Q2Qc [0; 0; 2; 1; 1 # 4; 1]%Q). remember (nms_detection isort true (Q2Qc (1 # 2)) (Q2Qc (1 # 4)) [1; 1; 6] x x) as r eqn:E.
  assert (O : option_map (fun y => this (qelem y [1; 1; 6] [0; 0; 4])) r = Some 0%Q) by (rewrite E; reflexivity). destruct r as [y|]; [|discriminate].
  specialize (H isort isort_sorting (Q2Qc (1 # 2)) (Q2Qc (1 # 4)) 1 1 6 x x y ltac:(lia) ltac:(lia) ltac:(lia) eq_refl eq_refl (eq_sym E) 0 0 4 ltac:(lia) ltac:(lia) ltac:(lia)).
  cbn [option_map] in O. rewrite H in O. discriminate.
Qed.
(** Other shapes are refused. *)
Theorem C93_refused : forall std_sort flag t nms s x y,
  nms_detection std_sort flag t nms s x y <> None -> exists B N D, s = [B; N; D] /\ 5 < D.
Proof.
  intros std_sort flag t nms s x y H. destruct s as [|B [|N [|D [|e s]]]]; try (exfalso; apply H; reflexivity). exists B, N, D. split; [reflexivity|].
  unfold nms_detection in H. destruct (Z.ltb_spec 5 D); [assumption|]. exfalso. apply H. reflexivity.
Qed.

(** * NmsDetection2d by objectness *)

(** For each image, the boxes are taken in an order of falling objectness.  A box is dropped, its
    objectness and all its scores become 0, if it overlaps an earlier one, dropped or not. *)
Theorem C94_boxes_partial : forall std_sort, sorting std_sort -> forall t nms B N D x y0, 0 <= B -> 0 <= N -> 5 < D ->
  len x = size [B; N; D] -> len y0 = size [B; N; D] ->
  exists y, nms_detection std_sort false t nms [B; N; D] x y0 = Some y /\ len y = size [B; N; D] /\
  (forall b a j, 0 <= b < B -> 0 <= a < N -> 0 <= j < 4 -> qelem y [B; N; D] [b; a; j] = qelem x [B; N; D] [b; a; j]) /\
  forall b, 0 <= b < B -> exists order (dropped : Z -> bool),
    ranking N (objectness_at t x [B; N; D] b) order /\
    (forall a, 0 <= a < N -> dropped a = true <-> exists a', earlier order a' a /\ overlapping nms (box_at x [B; N; D] b a) (box_at x [B; N; D] b a')) /\
    forall a, 0 <= a < N ->
      qelem y [B; N; D] [b; a; 4] = (if dropped a then 0%Qc else objectness_at t x [B; N; D] b a) /\
      forall k, 0 <= k < D - 5 -> qelem y [B; N; D] [b; a; 5 + k] = if dropped a then 0%Qc else score_at t x [B; N; D] b k a.
Proof.
  intros std_sort STD t nms B N D x y0 HB HN HD LX LY. cbn [size] in LX, LY |- *.
  replace (B * (N * (D * 1))) with (B * N * D) in * by ring.
  destruct (by_box_ok std_sort STD t nms B N D x HN HD LX y0 LY) as (y & E & L & V & C). exists y. split; [|split; [exact L|]].
  - unfold nms_detection. destruct (Z.ltb_spec 5 D); [exact E|lia].
  - split.
    + intros b a j Hb Ha J. pose proof (V b a j Hb Ha J) as X. unfold fill in X. destruct (Z.ltb_spec j 4); [exact X|lia].
    + intros b Hb. destruct (C b Hb) as (order & R & W). pose proof (ranking_len _ _ _ HN R) as LO.
      assert (PL : forall a, 0 <= a < N -> exists i, 0 <= i < N /\ gat 0 order i = a).
      { intros a Ha. apply (ranking_in _ _ _ a HN R) in Ha. apply In_nth with (d := 0) in Ha as (i & I & <-). exists (Z.of_nat i). split; [lia|]. unfold gat. rewrite Nat2Z.id. reflexivity. }
      pose proof (ranking_nodup _ _ _ R) as ND.
      exists order, (fun a => existsb (fun i => (gat 0 order i =? a) && beaten t nms N D x b order i) (upto N)). split; [|split].
      * apply (ranking_ext N (fun a => fill t D x (b * N + a) 4)); [|exact R]. intros i I. apply fill_objectness.
      * intros a Ha. rewrite existsb_exists. split.
        -- intros (i & I & K). apply upto_in in I. apply andb_true_iff in K as [K1 K2]. apply Z.eqb_eq in K1. unfold beaten in K2. apply existsb_exists in K2 as (j & J & O). rewrite <- in_rev in J. apply upto_in in J.
           rewrite K1 in O. apply (over_ok t nms B N D x) in O. exists (gat 0 order j). split; [|exact O]. exists (Z.to_nat j), (Z.to_nat i). split; [lia|]. split; [reflexivity|exact K1].
        -- intros (a' & (j & i & JI & Ej & Ei) & O). exists (Z.of_nat i). split; [apply upto_in; lia|]. unfold gat. rewrite Nat2Z.id, Ei, Z.eqb_refl. cbn [andb]. unfold beaten. apply existsb_exists. exists (Z.of_nat j). split; [rewrite <- in_rev; apply upto_in; lia|].
           unfold gat. rewrite !Nat2Z.id, Ei, Ej. apply (over_ok t nms B N D x). exact O.
      * intros a Ha. destruct (PL a Ha) as (i & I & EA).
        assert (DR : existsb (fun i => (gat 0 order i =? a) && beaten t nms N D x b order i) (upto N) = beaten t nms N D x b order i).
        { destruct (beaten t nms N D x b order i) eqn:Bt.
          - apply existsb_exists. exists i. split; [apply upto_in; auto|]. rewrite EA, Z.eqb_refl, Bt. reflexivity.
          - destruct (existsb _ _) eqn:X; [|reflexivity]. apply existsb_exists in X as (i' & I' & K). apply upto_in in I'. apply andb_true_iff in K as [K1 K2]. apply Z.eqb_eq in K1.
            assert (i = i'). { rewrite <- EA in K1. unfold gat in K1. apply NoDup_nth in K1; auto; lia. } congruence. }
        rewrite DR. specialize (W i I). unfold done in W. rewrite EA in W. split.
        -- rewrite <- (fill_objectness t B N D x). exact (W 4 ltac:(lia)).
        -- intros k Hk. rewrite <- fill_score by lia. exact (W (5 + k) ltac:(lia)).
Qed.
Example C94_boxes_works :
  option_map (map this) (nms_detection isort false (Q2Qc (1 # 2)) (Q2Qc (1 # 4)) [1; 3; 6]
    (map Q2Qc [0; 0; 2; 1; 9 # 10; 1; 1; 0; 2; 1; 1; 1; 2; 0; 2; 1; 8 # 10; 1]%Q) row3) =
    Some [0; 0; 2; 1; 0; 0; 1; 0; 2; 1; 1; 1; 2; 0; 2; 1; 0; 0]%Q.
Proof. reflexivity. Qed.
(** As documented: of two boxes that overlap, the one of lower objectness is dropped. *)
Theorem C94_pairs_partial : forall std_sort, sorting std_sort -> forall t nms B N D x y0 y, 0 <= B -> 0 <= N -> 5 < D ->
  len x = size [B; N; D] -> len y0 = size [B; N; D] -> nms_detection std_sort false t nms [B; N; D] x y0 = Some y ->
  forall b a a', 0 <= b < B -> 0 <= a < N -> 0 <= a' < N ->
  (objectness_at t x [B; N; D] b a < objectness_at t x [B; N; D] b a')%Qc -> overlapping nms (box_at x [B; N; D] b a) (box_at x [B; N; D] b a') ->
  forall j, 4 <= j < D -> qelem y [B; N; D] [b; a; j] = 0%Qc.
Proof.
  intros std_sort STD t nms B N D x y0 y HB HN HD LX LY E b a a' Hb Ha Ha' L O j J.
  destruct (C94_boxes_partial std_sort STD t nms B N D x y0 HB HN HD LX LY) as (y' & E' & _ & _ & C). rewrite E in E'. injection E' as <-.
  destruct (C b Hb) as (order & dr & R & DR & V). destruct (V a Ha) as [V4 V5].
  assert (X : dr a = true) by (apply DR; [exact Ha|]; exists a'; split; [apply (ranking_before N (objectness_at t x [B; N; D] b)); auto|exact O]). rewrite X in V4, V5.
  destruct (Z.eq_dec j 4) as [->|]; [exact V4|]. replace j with (5 + (j - 5)) by ring. apply V5. lia.
Qed.
(** A box is kept if none of the same or higher objectness overlaps it. *)
Theorem C94_kept_partial : forall std_sort, sorting std_sort -> forall t nms B N D x y0 y, 0 <= B -> 0 <= N -> 5 < D ->
  len x = size [B; N; D] -> len y0 = size [B; N; D] -> nms_detection std_sort false t nms [B; N; D] x y0 = Some y ->
  forall b a, 0 <= b < B -> 0 <= a < N ->
  (forall a', 0 <= a' < N -> a' <> a -> (objectness_at t x [B; N; D] b a <= objectness_at t x [B; N; D] b a')%Qc -> ~ overlapping nms (box_at x [B; N; D] b a) (box_at x [B; N; D] b a')) ->
  qelem y [B; N; D] [b; a; 4] = objectness_at t x [B; N; D] b a /\
  forall k, 0 <= k < D - 5 -> qelem y [B; N; D] [b; a; 5 + k] = score_at t x [B; N; D] b k a.
Proof.
  intros std_sort STD t nms B N D x y0 y HB HN HD LX LY E b a Hb Ha NO.
  destruct (C94_boxes_partial std_sort STD t nms B N D x y0 HB HN HD LX LY) as (y' & E' & _ & _ & C). rewrite E in E'. injection E' as <-.
  destruct (C b Hb) as (order & dr & R & DR & V). destruct (V a Ha) as [V4 V5].
  assert (X : dr a = false).
  { destruct (dr a) eqn:X; [|reflexivity]. apply DR in X as (a' & EA & O); [|exact Ha]. exfalso. apply (NO a').
    - apply (ranking_in _ _ _ a' HN R). apply (earlier_in order a' a EA).
    - apply (earlier_ne order a' a (ranking_nodup _ _ _ R) EA).
    - apply (earlier_score _ _ _ a' a R EA).
    - exact O. }
  rewrite X in V4, V5. split; [exact V4|exact V5].
Qed.
Example C94_overlapping_means : overlapping (Q2Qc (1 # 4)) (box_at row3 [1; 3; 6] 0 0) (box_at row3 [1; 3; 6] 0 1) /\ ~ overlapping (Q2Qc (1 # 4)) (box_at row3 [1; 3; 6] 0 0) (box_at row3 [1; 3; 6] 0 2).
Proof.
  split.
  - eexists. split; [apply (iou_ok (Q2Qc 0, Q2Qc 0, Q2Qc 2, Q2Qc 1) (Q2Qc 1, Q2Qc 0, Q2Qc 2, Q2Qc 1))|reflexivity].
  - intros (q & I & L). rewrite (iou_unique _ _ _ _ I (iou_ok (Q2Qc 0, Q2Qc 0, Q2Qc 2, Q2Qc 1) (Q2Qc 2, Q2Qc 0, Q2Qc 2, Q2Qc 1))) in L. discriminate.
Qed.

(** * ONNXNonMaxSuppression *)

Definition onnx_box (center : Z) (boxes : list Qc) (sh : list Z) (b a : Z) : rect :=
  (if center =? 0 then cornered else centered) (qelem boxes sh [b; a; 0]) (qelem boxes sh [b; a; 1]) (qelem boxes sh [b; a; 2]) (qelem boxes sh [b; a; 3]).
(** The rows of the output are image, class and box, in this order; for each image and class, they
    have the first boxes of the selection, at most [limit]. *)
Theorem C95_selected_partial : forall std_sort, sorting std_sort -> forall center limit thr sthr B N C boxes scores,
  center = 0 \/ center = 1 -> 0 <= limit -> 0 <= B -> 0 <= N -> 0 <= C -> len boxes = size [B; N; 4] -> len scores = size [B; C; N] ->
  exists sel, onnx_setup std_sort center limit thr sthr [B; N; 4] [B; C; N] boxes scores =
    Some ([len (flat_map (fun b => flat_map (sel b) (upto C)) (upto B)); 3], flat_map (fun b => flat_map (fun k => flat_map (fun a => [b; k; a]) (sel b k)) (upto C)) (upto B)) /\
  forall b k, 0 <= b < B -> 0 <= k < C -> exists order kept, ranking N (fun a => qelem scores [B; C; N] [b; k; a]) order /\
    selection order (fun a => (sthr <= qelem scores [B; C; N] [b; k; a])%Qc) (fun a a' => overlapping thr (onnx_box center boxes [B; N; 4] b a) (onnx_box center boxes [B; N; 4] b a')) (fun a => In a order /\ kept a = true) /\
    sel b k = firstn (Z.to_nat limit) (filter kept order).
Proof.
  intros std_sort STD center limit thr sthr B N C boxes scores HC HL HB HN HK LB LS. cbn [size] in LB, LS.
  destruct (onnx_setup_ok std_sort STD center limit thr sthr B N C boxes scores) as (sel & E & S); auto; try lia.
  all: unfold glen, qlen, len in *; try lia.
  exists sel. split; [exact E|]. intros b k Hb Hk. destruct (S b k Hb Hk) as (order & f & R & S1 & S2). exists order, f. split; [exact R|]. split; [|exact S2]. 
  assert (X : forall a, shape4 center N boxes b a = onnx_box center boxes [B; N; 4] b a).
  { intros a. unfold shape4, onnx_box, box4, qelem. cbn [position]. rewrite Z.mul_0_l, Z.add_0_l, Z.add_0_r. destruct (center =? 0); reflexivity. }
  destruct S1 as [A1 A2 A3]. constructor.
  - exact A1.
  - intros i j I K1 K2. rewrite <- !X. exact (A2 i j I K1 K2).
  - intros j J P K. destruct (A3 j J P K) as (i & I1 & I2 & I3). exists i. rewrite <- !X. auto.
Qed.
Example C95_selected_works :
  onnx_setup isort 1 2 (Q2Qc (1 # 4)) (Q2Qc (1 # 2)) [1; 4; 4] [1; 2; 4] (map Q2Qc [0; 0; 2; 1; 1; 0; 2; 1; 2; 0; 2; 1; 5; 5; 1; 1]%Q)
    (map Q2Qc [7 # 10; 8 # 10; 9 # 10; 6 # 10; 0; 1; 0; 9 # 10]%Q) = Some ([4; 3], [0; 0; 2; 0; 0; 0; 0; 1; 1; 0; 1; 3]) /\
  onnx_setup isort 1 0 (Q2Qc (1 # 4)) (Q2Qc (1 # 2)) [1; 1; 4] [1; 1; 1] (map Q2Qc [0; 0; 2; 1]%Q) (map Q2Qc [1]%Q) = Some ([0; 3], []) /\
  onnx_setup isort 2 0 (Q2Qc (1 # 4)) (Q2Qc (1 # 2)) [1; 1; 4] [1; 1; 1] (map Q2Qc [0; 0; 2; 1]%Q) (map Q2Qc [1]%Q) = None.
Proof. split; [reflexivity|]. split; reflexivity. Qed.
(** Other shapes are refused. *)
Theorem C95_refused : forall std_sort center limit thr sthr s1 s2 boxes scores,
  onnx_setup std_sort center limit thr sthr s1 s2 boxes scores <> None ->
  (exists B N C, s1 = [B; N; 4] /\ s2 = [B; C; N]) /\ 0 <= center <= 1 /\ 0 <= limit.
Proof.
  intros std_sort center limit thr sthr s1 s2 boxes scores H. unfold onnx_setup in H.
  destruct s1 as [|B [|N [|d [|? ?]]]]; try (exfalso; apply H; reflexivity). destruct s2 as [|B' [|C [|N' [|? ?]]]]; try (exfalso; apply H; reflexivity).
  destruct (Z.eqb_spec d 4) as [->|]; cbn [negb] in H; [|exfalso; apply H; reflexivity]. destruct (Z.eqb_spec B' B) as [->|]; cbn [negb] in H; [|exfalso; apply H; reflexivity].
  destruct (Z.eqb_spec N' N) as [->|]; cbn [negb] in H; [|exfalso; apply H; reflexivity]. destruct (Z.leb_spec 0 center); cbn [andb negb] in H; [|exfalso; apply H; reflexivity].
  destruct (Z.leb_spec center 1); cbn [negb] in H; [|exfalso; apply H; reflexivity]. destruct (Z.leb_spec 0 limit); cbn [negb] in H; [|exfalso; apply H; reflexivity].
  split; [exists B, N, C; auto|]. lia.
Qed.
(** A forward pass should select among its inputs.  It keeps what was selected among the inputs
    when the function was set up. *)
Definition C95_forward_statement : Prop := forall std_sort, sorting std_sort -> forall center limit thr sthr s1 s2 boxes0 scores0 boxes scores,
  len boxes = len boxes0 -> len scores = len scores0 ->
  obind (onnx_setup std_sort center limit thr sthr s1 s2 boxes0 scores0) (onnx_forward boxes scores) = onnx_setup std_sort center limit thr sthr s1 s2 boxes scores.
Theorem C95_forward_refuted : ~ C95_forward_statement.
Proof.
  intros H. specialize (H isort isort_sorting 1 5 (Q2Qc (1 # 4)) (Q2Qc (1 # 2)) [1; 1; 4] [1; 1; 1] (map Q2Qc [0; 0; 2; 1]%Q) (map Q2Qc [1]%Q) (map Q2Qc [0; 0; 2; 1]%Q) (map Q2Qc [0]%Q) eq_refl eq_refl).
  vm_compute in H. discriminate.
Qed.
(** In [selection], what is kept is determined by the order. *)
Theorem C95_determined : forall n score order pass over keep keep', 0 <= n -> ranking n score order ->
  selection order pass over keep -> selection order pass over keep' -> (forall a, keep a \/ ~ keep a) -> (forall a, keep' a \/ ~ keep' a) ->
  forall a, keep a <-> keep' a.
Proof.
  intros n score order pass over keep keep' HN R S1 S2 D1 D2.
  pose proof (ranking_nodup _ _ _ R) as ND.
  assert (G : forall m i, (i < m)%nat -> (i < length order)%nat -> keep (nth i order 0) <-> keep' (nth i order 0)).
  { induction m as [|m IH]; intros i Hm I; [lia|]. split; intros K.
    - destruct (D2 (nth i order 0)) as [|NK]; [assumption|]. destruct (s_pass _ _ _ _ S1 _ K) as [_ P]. destruct (s_reason _ _ _ _ S2 i I P NK) as (j & J & KJ & O).
      apply (IH j) in KJ; [|lia|lia]. exfalso. apply (s_apart _ _ _ _ S1 j i); auto.
    - destruct (D1 (nth i order 0)) as [|NK]; [assumption|]. destruct (s_pass _ _ _ _ S2 _ K) as [_ P]. destruct (s_reason _ _ _ _ S1 i I P NK) as (j & J & KJ & O).
      apply (IH j) in KJ; [|lia|lia]. exfalso. apply (s_apart _ _ _ _ S2 j i); auto. }
  intros a. split; intros K.
  - destruct (s_pass _ _ _ _ S1 _ K) as [I _]. apply In_nth with (d := 0) in I as (i & I & <-). apply (G (S i)) in K; auto.
  - destruct (s_pass _ _ _ _ S2 _ K) as [I _]. apply In_nth with (d := 0) in I as (i & I & <-). apply (G (S i)); auto.
Qed.
Example C95_determined_works : selection [2; 0; 1] (fun a => a <> 1) (fun a b => a = 2) (fun a => a = 2).
Proof.
  constructor.
  - intros a ->. split; [left; reflexivity|discriminate].
  - intros i j I E1 E2. exfalso. destruct i as [|[|[|i]]], j as [|[|[|j]]]; cbn in *; try discriminate; lia.
  - intros j J P K. destruct j as [|[|[|j]]]; cbn in *; [exfalso; apply K; reflexivity|exists 0%nat; repeat split; lia|exfalso; apply P; reflexivity|lia].
Qed.

Print Assumptions C92_centered.
Print Assumptions C92_onnx.
Print Assumptions C92_number.
Print Assumptions C92_same.
Print Assumptions C92_one.
Print Assumptions C93_classes_partial.
Print Assumptions C93_order_free_partial.
Print Assumptions C93_ties_refuted.
Print Assumptions C93_pairs_refuted.
Print Assumptions C93_copied_refuted.
Print Assumptions C93_refused.
Print Assumptions C94_boxes_partial.
Print Assumptions C94_pairs_partial.
Print Assumptions C94_kept_partial.
Print Assumptions C95_selected_partial.
Print Assumptions C95_refused.
Print Assumptions C95_forward_refuted.
Print Assumptions C95_determined.
