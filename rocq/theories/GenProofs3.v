(** Proofs about Tile: the map of indices, and the values. *)
From Coq Require Import List ZArith Bool Lia QArith Qcanon.
From Verif Require Import NdSpec NdModel NdProofs IdxModel IdxProofs1 IdxProofs2 IdxProofs3 IdxProofs6 JoinModel JoinSpec JoinProofs ScanSpec ScanModel ScanProofs1 ReduceModel ReduceProofs1 ConvSpec ConvModel ConvProofs1 ConvProofs3 MatModel BinSpec BinModel BinProofs3 PoolProofs3 GenModel GenSpec GenProofs1 GenProofs2.
Import ListNotations.
Local Open Scope list_scope.
Local Open Scope Z_scope.

Lemma size_max (l : list Z) : positive l -> size (map (Z.max 1) l) = size l.
Proof. induction 1 as [| n l H P IH]; [reflexivity |]. cbn [map size]. rewrite IH. f_equal. lia. Qed.
Lemma size_part A B : positive (A ++ B) -> size A <= size (A ++ B).
Proof. intros P. apply Forall_app in P as (PA & PB). rewrite size_app. pose proof (size_pos A PA). pose proof (size_pos B PB). nia. Qed.

Section setup.
Variables (src rp st : list Z) (fuel : nat).
Hypothesis LEN : length src = length rp.
Hypothesis PS : positive src.
Hypothesis UR : ones_up rp.
Let M := times src rp.
Hypothesis SM : size M < 2147483648.
Hypothesis ST : strides M = Some st.
Hypothesis FU : size src <= Z.of_nat fuel.

Let step := fun (axis : Z) (s : list Z * list Z) => let '(src_index, idx) := s in do_while fuel src (axis - 1) (tile_block st M axis (nth (Z.to_nat axis) rp 0)) src_index idx.

Lemma axes_done n : forall idx, (S n < length src)%nat -> tiled_from src rp (firstn (S n) src) (skipn (S n) src) idx ->
  exists idx', loop step (rev (from_1 (Z.of_nat (S n)))) (zeros src, idx) = Some (zeros src, idx') /\ tiled_from src rp (firstn 1 src) (skipn 1 src) idx'.
Proof using LEN PS UR SM ST FU.
  induction n as [| n IH]; intros idx L T; [exists idx; split; [reflexivity | exact T] |].
  unfold from_1. replace (Z.of_nat (S (S n)) - 1) with (Z.of_nat (S n)) by lia. rewrite upto_S, map_app, rev_app_distr. cbn [map rev app loop].
  set (P := firstn (S n) src) in *. assert (LP : length P = S n) by (unfold P; rewrite firstn_length; lia).
  destruct (skipn (S n) src) as [| s R] eqn:SK; [apply (f_equal (@length Z)) in SK; rewrite skipn_length in SK; cbn in SK; lia |].
  assert (E : src = P ++ s :: R) by (rewrite <- SK; symmetry; apply firstn_skipn).
  assert (F2 : firstn (S (S n)) src = P ++ [s]). { rewrite E. rewrite firstn_app, LP, firstn_all2 by lia. replace (S (S n) - S n)%nat with 1%nat by lia. reflexivity. }
  assert (S2 : skipn (S (S n)) src = R). { rewrite E. rewrite skipn_app, LP, skipn_all2 by lia. replace (S (S n) - S n)%nat with 1%nat by lia. reflexivity. }
  rewrite F2, S2 in T. destruct (block_done src rp st LEN PS UR SM ST P s R idx E T) as (idx' & EL & T').
  assert (PP : positive P) by (pose proof PS as Q; rewrite E in Q; apply Forall_app in Q; apply Q).
  replace (step (1 + Z.of_nat n) (zeros src, idx)) with (Some (zeros src, idx')).
  - cbn [obind]. destruct (IH idx' ltac:(lia)) as (idx2 & E2 & T2).
    + try fold P; try rewrite SK; exact T'.
    + exists idx2. split; [| exact T2]. unfold from_1 in E2. replace (Z.of_nat (S n) - 1) with (Z.of_nat n) in E2 by lia. exact E2.
  - symmetry. unfold step. replace (1 + Z.of_nat n) with (Z.of_nat (length P)) by lia. rewrite Nat2Z.id. rewrite E at 1 2. rewrite do_while_ok.
    + unfold M. rewrite EL. cbn [obind]. rewrite <- E. reflexivity.
    + intros C. rewrite C in LP. discriminate.
    + exact PP.
    + unfold norm_axis. destruct (Z.ltb_spec (Z.of_nat (length P) - 1) 0); lia.
    + assert (size P <= size src) by (pose proof PS as Q; rewrite E in Q |- *; apply size_part; exact Q). lia.
Qed.

Lemma all_done idx0 : (2 <= length src)%nat -> zlen idx0 = size M ->
  exists iota i2 idx idx', do_while fuel src (-2) (tile_row st (last src 0) (last rp 0)) (zeros src) (0, idx0) = Some (zeros src, (iota, idx)) /\
    loop step (rev (from_1 (Z.of_nat (length rp) - 1))) (zeros src, idx) = Some (i2, idx') /\ tiled_from src rp (firstn 1 src) (skipn 1 src) idx'.
Proof using LEN PS UR SM ST FU.
  intros L2 L0. destruct (exists_last (l := src)) as (P & l & E); [destruct src; [cbn in L2; lia | discriminate] |]. assert (LP : length src = S (length P)) by (rewrite E, app_length; cbn [length]; lia).
  destruct (rows_done src rp st LEN PS UR SM ST P l idx0 E L0) as (iota & idx & EL & T).
  assert (PP : positive P) by (pose proof PS as Q; rewrite E in Q; apply Forall_app in Q; apply Q).
  destruct (axes_done (length P - 1) idx) as (idx' & E2 & T2).
  - lia.
  - replace (S (length P - 1)) with (length P) by lia. rewrite E at 2 3. rewrite (firstn_app_len P [l] _ eq_refl), (skipn_app_len P [l] _ eq_refl). exact T.
  - exists iota, (zeros src), idx, idx'. split; [| split; [| exact T2]].
    + rewrite E at 1 3. rewrite do_while_ok.
      * rewrite EL. cbn [obind]. rewrite <- E. reflexivity.
      * intros C. rewrite C in LP. cbn in LP. lia.
      * exact PP.
      * unfold norm_axis. destruct (Z.ltb_spec (-2) 0); [| lia]. rewrite app_length. cbn [length]. lia.
      * assert (size P <= size src) by (pose proof PS as Q; rewrite E in Q |- *; apply size_part; exact Q). lia.
    + replace (Z.of_nat (length rp) - 1) with (Z.of_nat (S (length P - 1))) by lia. exact E2.
Qed.
End setup.

Lemma lengthened_length n s : (length s <= n)%nat -> length (lengthened n s) = n.
Proof. intros H. unfold lengthened. rewrite app_length, repeat_length. lia. Qed.
Lemma lengthened_S n s : (length s <= n)%nat -> lengthened (S n) s = 1 :: lengthened n s.
Proof. intros H. unfold lengthened. replace (S n - length s)%nat with (S (n - length s)) by lia. reflexivity. Qed.
Lemma lengthened_positive n s : positive s -> positive (lengthened n s).
Proof. intros H. apply Forall_app. split; [apply Forall_forall; intros x Hx; apply repeat_spec in Hx; lia | exact H]. Qed.
Lemma lengthened_ones n s : ones_up s -> ones_up (lengthened n s).
Proof. intros H. apply Forall_app. split; [apply Forall_forall; intros x Hx; apply repeat_spec in Hx; lia | exact H]. Qed.
Lemma lengthened_size n s : size (lengthened n s) = size s.
Proof. unfold lengthened. rewrite size_app. replace (size (repeat 1 (n - length s))) with 1; [ring |]. induction (n - length s)%nat as [| k IH]; [reflexivity |]. cbn [repeat size]. rewrite <- IH. reflexivity. Qed.
Lemma zeros_repeat s : zeros s = repeat 0 (length s).
Proof. induction s as [| n s IH]; [reflexivity |]. cbn [zeros map length repeat]. f_equal. exact IH. Qed.

Lemma tile_setup_ok junk reps shape : positive shape -> ones_up reps -> (0 < axes_of shape reps)%nat ->
  let n := axes_of shape reps in let s := lengthened n shape in let o := times s (lengthened n reps) in size o < 2147483648 ->
  exists idx, tile_setup junk reps shape = Some (o, idx) /\ zlen idx = size o /\ forall c, inside c o -> zat idx (off c o) = off (folded c s) s.
Proof.
  intros PS UR NZ n s o SO. unfold tile_setup.
  assert (LS : (length shape <= n)%nat) by (unfold n, axes_of; lia). assert (LR : (length reps <= n)%nat) by (unfold n, axes_of; lia).
  assert (EX : existsb (fun r => r <? 1) reps = false). { apply not_true_iff_false. intros C. apply existsb_exists in C as (r & Hr & C). apply Z.ltb_lt in C. pose proof (proj1 (Forall_forall _ _) UR r Hr). cbn in *. lia. }
  rewrite EX. change (multiply shape reps) with o. cbv zeta.
  assert (LO : length o = n) by (unfold o; rewrite times_length; unfold s; rewrite !lengthened_length by assumption; reflexivity).
  assert (E1 : expand reps (S (length o)) 1 = 1 :: lengthened n reps) by (rewrite LO; apply lengthened_S; exact LR). rewrite E1.
  assert (L1 : length (1 :: lengthened n reps) = S n) by (cbn [length]; rewrite lengthened_length by exact LR; reflexivity). rewrite L1.
  assert (E2 : expand o (S n) 1 = 1 :: o). { unfold expand. rewrite LO. replace (S n - n)%nat with 1%nat by lia. reflexivity. } rewrite E2.
  assert (E3 : expand shape (S n) 1 = 1 :: s) by (apply lengthened_S; exact LS). rewrite E3.
  rewrite <- zeros_repeat. set (fuel := Datatypes.S (Z.to_nat (prod (map (Z.max 1) (1 :: s))))).
  assert (PS' : positive (1 :: s)) by (constructor; [lia | apply lengthened_positive; exact PS]). assert (UR' : ones_up (1 :: lengthened n reps)) by (constructor; [lia | apply lengthened_ones; exact UR]).
  assert (LEN : length (1 :: s) = length (1 :: lengthened n reps)) by (cbn [length]; unfold s; rewrite !lengthened_length by assumption; reflexivity).
  assert (ST : strides (1 :: o) = Some (sfx o)) by apply strides_sfx. rewrite ST. cbn [obind].
  assert (PO : positive o) by (apply times_positive; [unfold s; rewrite !lengthened_length by assumption; reflexivity | apply lengthened_positive; exact PS | apply lengthened_ones; exact UR]).
  pose proof (size_pos o PO) as HO. assert (M1 : times (1 :: s) (1 :: lengthened n reps) = 1 :: o) by reflexivity. assert (S1 : size (1 :: o) = size o) by (cbn [size]; ring).
  destruct (all_done (1 :: s) (1 :: lengthened n reps) (sfx o) fuel LEN PS' UR') with (idx0 := repeat junk (Z.to_nat (prod (1 :: o)))) as (iota & i2 & idx & idx' & R1 & R2 & T).
  - rewrite M1, S1. exact SO.
  - rewrite M1. exact ST.
  - unfold fuel. rewrite prod_size, size_max by exact PS'. pose proof (size_pos _ PS'). lia.
  - rewrite LEN, L1. lia.
  - rewrite M1. unfold zlen. rewrite repeat_length, prod_size, S1. lia.
  - rewrite R1. cbn [obind]. rewrite L1 in R2. rewrite M1 in R2. rewrite R2. cbn [obind]. exists idx'. split; [reflexivity |].
    destruct T as (PM & RM & EM & LM & LI & V). rewrite M1 in EM, LI. cbn [firstn length skipn] in LM, V. destruct PM as [| a [|]]; try discriminate. injection EM as <- <-.
    split; [congruence |]. intros c Ic. specialize (V [0] c ltac:(constructor; [lia | constructor]) Ic). cbn [off size app] in V. rewrite !Z.mul_1_r, !Z.mul_0_l, !Z.add_0_l in V. exact V.
Qed.
