(** Proofs about Tile, Trilu and EyeLike: the values. *)
From Coq Require Import List ZArith Bool Lia QArith Qcanon.
From Verif Require Import NdSpec NdModel NdProofs IdxModel IdxProofs1 IdxProofs2 IdxProofs3 IdxProofs6 JoinModel JoinSpec JoinProofs ScanSpec ScanModel ScanProofs1 ReduceModel ReduceProofs1 ConvSpec ConvModel ConvProofs1 ConvProofs3 MatModel BinSpec BinModel BinProofs3 BfaProofs1 PoolProofs3 GenModel GenSpec GenProofs1 GenProofs2 GenProofs3.
From Verif Require MatProps.
Import ListNotations.
Local Open Scope list_scope.
Local Open Scope Z_scope.

Lemma qat_zeroed (x : list Qc) p : qat (map (fun _ => 0%Qc) x) p = 0%Qc.
Proof. unfold qat. generalize (Z.to_nat p) as n. induction x as [| a x IH]; intros [| n]; cbn [map nth]; auto. Qed.
(** * Tile *)
Section tile.
Variables (junk : Z) (reps shape : list Z).
Hypothesis PS : positive shape.
Hypothesis UR : ones_up reps.
Hypothesis NZ : (0 < axes_of shape reps)%nat.
Let n := axes_of shape reps.
Let s := lengthened n shape.
Let o := times s (lengthened n reps).
Hypothesis SO : size o < 2147483648.

Lemma sr_length : length s = length (lengthened n reps).
Proof using NZ. unfold s. rewrite !lengthened_length by (unfold n, axes_of; lia). reflexivity. Qed.
Lemma o_positive : positive o.
Proof using PS UR NZ. apply times_positive; [exact sr_length | apply lengthened_positive; exact PS | apply lengthened_ones; exact UR]. Qed.
Lemma idx_bound (idx : list Z) i : (forall c, inside c o -> zat idx (off c o) = off (folded c s) s) -> 0 <= i < size o -> 0 <= zat idx i < size shape.
Proof using PS UR NZ.
  intros V Hi. destruct (unoff_inside o i (positive_nonneg o o_positive) Hi) as (I & O). rewrite <- O, V by exact I.
  pose proof (off_bound _ _ (folded_inside _ s (lengthened n reps) sr_length (lengthened_positive n shape PS) I)) as B. assert (Z1 : size s = size shape) by apply lengthened_size. rewrite Z1 in B. exact B.
Qed.
Lemma tile_ok new x : has_size x (size shape) ->
  exists y, tile junk new reps (shape, x) = Some (o, y) /\ has_size y (size o) /\ forall c, inside c o -> qelem y o c = qelem x s (folded c s).
Proof using PS UR NZ SO.
  intros LX. unfold tile. cbn [fst snd]. destruct (tile_setup_ok junk reps shape PS UR NZ SO) as (idx & E & L & V). rewrite E. cbn [obind]. fold n s o in L, V |- *. clear E.
  pose proof (positive_nonneg o o_positive) as NO. pose proof (size_nonneg o NO) as HO. pose proof (fresh_size new o NO) as LF. unfold has_size in *. unfold zlen in L.
  destruct (each_written (fun i y => obind (get idx i) (fun j => obind (get x j) (fun v => put y i v))) (fun i => qat x (zat idx i)) (size o) (fresh new o)) as (y & E & LY & VY & _).
  - unfold qlen. lia.
  - intros i y Hi _ _. rewrite zget by (unfold zlen; lia). cbn [obind]. pose proof (idx_bound idx i V Hi). rewrite get_ok by (unfold within, qlen; lia). reflexivity.
  - unfold tile_forward. rewrite L, E. cbn [obind]. exists y. split; [reflexivity |]. split; [lia |]. intros c I. pose proof (off_bound _ _ I). rewrite MatProps.qelem_off by exact I.
    rewrite MatProps.qelem_off by (apply (folded_inside _ s (lengthened n reps) sr_length (lengthened_positive n shape PS) I)). rewrite VY by assumption. rewrite V by exact I. reflexivity.
Qed.
Lemma tile_backward_ok accum dy dx : has_size dy (size o) -> has_size dx (size shape) ->
  exists d, tile_backward junk reps shape accum dy dx = Some d /\ has_size d (size shape) /\
  forall a, inside a s -> qelem d s a = ((if accum then qelem dx s a else 0) + total (copies s o a) (qelem dy o))%Qc.
Proof using PS UR NZ SO.
  intros LY LX. unfold tile_backward. destruct (tile_setup_ok junk reps shape PS UR NZ SO) as (idx & E & L & V). rewrite E. cbn [obind]. fold n s o in L, V |- *. clear E.
  pose proof (positive_nonneg o o_positive) as NO. pose proof (size_nonneg o NO) as HO. unfold has_size in *. unfold zlen in L. set (d0 := if accum then dx else map (fun _ => 0%Qc) dx). assert (L0 : length d0 = length dx) by (unfold d0; destruct accum; [reflexivity | apply map_length]).
  destruct (each_added (fun i dx => obind (get idx i) (fun j => obind (get dy i) (fun e => obind (get dx j) (fun old => put dx j (old + e)%Qc)))) (zat idx) (qat dy) (size o) d0 HO) as (d & E & LD & VD).
  - intros i Hi. pose proof (idx_bound idx i V Hi). unfold within, qlen. lia.
  - intros i d Hi _. rewrite zget by (unfold zlen; lia). cbn [obind]. rewrite (get_ok dy) by (unfold within, qlen; lia). reflexivity.
  - rewrite L, E. exists d. split; [reflexivity |]. split; [lia |]. intros a I. pose proof (off_bound _ _ I). rewrite !MatProps.qelem_off by exact I. rewrite VD by lia. f_equal.
    + unfold d0. destruct accum; [reflexivity |]. apply qat_zeroed.
    + unfold copies. rewrite total_filter. symmetry. apply total_indices; [exact NO |]. intros c Ic. rewrite V by exact Ic. pose proof (folded_inside _ s (lengthened n reps) sr_length (lengthened_positive n shape PS) Ic) as IF.
      destruct (list_eq_dec Z.eq_dec (folded c s) a) as [<- | NE].
      * rewrite Z.eqb_refl. apply MatProps.qelem_off. exact Ic.
      * destruct (Z.eqb_spec (off (folded c s) s) (off a s)) as [C |]; [| reflexivity]. destruct NE. apply (off_inj s); auto. apply positive_nonneg, lengthened_positive. exact PS.
Qed.
End tile.
Lemma tile_wrong junk new reps x : Exists (fun r => r < 1) reps -> tile junk new reps x = None.
Proof.
  intros H. unfold tile, tile_setup. replace (existsb (fun r => r <? 1) reps) with true; [reflexivity |]. symmetry. apply existsb_exists. apply Exists_exists in H as (r & I & H). exists r. split; [exact I |]. apply Z.ltb_lt. exact H.
Qed.

(** * Trilu *)
Section trilu.
Variables (A : list Z) (rows cols : Z).
Hypothesis PA : nonneg A.
Hypothesis HR : 0 < rows.
Hypothesis HC : 0 < cols.
Let sh := A ++ [rows; cols].
Lemma sh_nonneg : nonneg sh.
Proof using PA HR HC. apply Forall_app. split; [exact PA |]. repeat constructor; lia. Qed.
Lemma sh_size : size sh = size A * (rows * cols).
Proof using. unfold sh. rewrite size_app. cbn [size]. ring. Qed.

Lemma matrices_ok body a : matrices body sh a = loop (fun q => body q ((q / cols) mod rows) (q mod cols)) (upto (size sh)) a.
Proof using PA HR HC.
  unfold matrices, sh. rewrite rev_app_distr. cbn [rev app]. rewrite prod_size. fold sh. unfold divide. destruct (Z.eqb_spec (cols * rows) 0); [nia |]. cbn [obind].
  replace (Z.quot (size sh) (cols * rows)) with (size A) by (rewrite sh_size, (Z.mul_comm rows cols), Z.quot_mul by nia; reflexivity).
  assert (N3 : nonneg [size A; rows; cols]) by (pose proof (size_nonneg A PA); repeat constructor; lia).
  replace (size sh) with (size [size A; rows; cols]) by (rewrite sh_size; cbn [size]; ring). rewrite (loop_indices _ [size A; rows; cols] a N3). rewrite loop_cons. apply loop_ext. intros b t Hb. apply upto_in in Hb. rewrite loop_cons. apply loop_ext. intros i t' Hi. apply upto_in in Hi. rewrite loop_cons.
  apply loop_ext. intros j t2 Hj. apply upto_in in Hj. cbn [indices loop off size obind].
  replace (b * (rows * (cols * 1)) + (i * (cols * 1) + (j * 1 + 0))) with (b * rows * cols + i * cols + j) by ring.
  assert (D : (b * rows * cols + i * cols + j) / cols = b * rows + i) by (symmetry; apply (Z.div_unique_pos _ _ _ j); [exact Hj | ring]).
  assert (E1 : (b * rows * cols + i * cols + j) mod cols = j) by (symmetry; apply (Z.mod_unique_pos _ _ (b * rows + i)); [exact Hj | ring]).
  assert (E2 : (b * rows + i) mod rows = i) by (symmetry; apply (Z.mod_unique_pos _ _ b); [exact Hi | ring]).
  rewrite D, E1, E2. destruct (body _ i j t2); reflexivity.
Qed.

Definition retained (upper : bool) (k i j : Z) : bool := (upper && (i - j <=? - k)) || (negb upper && (- k <=? i - j)).
Definition weight (upper : bool) (k i j : Z) : Qc := if retained upper k i j then 1%Qc else 0%Qc.
Lemma retained_kept upper k i j : retained upper k i j = true <-> kept_part upper k i j.
Proof using. unfold retained, kept_part. destruct upper; cbn [andb negb orb]; rewrite ?orb_false_r; rewrite Z.leb_le; lia. Qed.
Lemma mask_ok junk k upper : exists m, trilu_mask junk k upper sh = Some m /\ has_size m (size sh) /\ forall q, 0 <= q < size sh -> qat m q = weight upper k ((q / cols) mod rows) (q mod cols).
Proof using PA HR HC.
  unfold trilu_mask. rewrite matrices_ok. pose proof (fresh_size junk sh sh_nonneg) as LF. pose proof (size_nonneg sh sh_nonneg). unfold has_size in *.
  destruct (each_written (fun q m => put m q (weight upper k ((q / cols) mod rows) (q mod cols))) (fun q => weight upper k ((q / cols) mod rows) (q mod cols)) (size sh) (fresh junk sh)) as (m & E & L & V & _).
  - unfold qlen. lia.
  - reflexivity.
  - exists m. split; [exact E |]. split; [lia | exact V].
Qed.
Lemma place b i j : inside b A -> 0 <= i < rows -> 0 <= j < cols -> let q := off (b ++ [i; j]) sh in inside (b ++ [i; j]) sh /\ (q / cols) mod rows = i /\ q mod cols = j.
Proof using.
  intros Ib Hi Hj q. assert (I2 : inside [i; j] [rows; cols]) by (constructor; [exact Hi | constructor; [exact Hj | constructor]]).
  split; [apply inside_app; assumption |]. assert (Q : q = (off b A * rows + i) * cols + j) by (unfold q, sh; rewrite off_app by assumption; cbn [off size]; ring).
  assert (D : q / cols = off b A * rows + i) by (symmetry; apply (Z.div_unique_pos _ _ _ j); [exact Hj | rewrite Q; ring]). rewrite D. split.
  - symmetry. apply (Z.mod_unique_pos _ _ (off b A)); [exact Hi | ring].
  - symmetry. apply (Z.mod_unique_pos _ _ (off b A * rows + i)); [exact Hj | rewrite Q; ring].
Qed.
Lemma trilu_ok junk k upper x : has_size x (size sh) ->
  exists y, trilu junk k upper (sh, x) = Some (sh, y) /\ has_size y (size sh) /\
  forall b i j, inside b A -> 0 <= i < rows -> 0 <= j < cols -> qelem y sh (b ++ [i; j]) = (qelem x sh (b ++ [i; j]) * weight upper k i j)%Qc.
Proof using PA HR HC.
  intros LX. unfold trilu. cbn [fst snd]. destruct (mask_ok junk k upper) as (m & E & LM & VM). rewrite E. cbn [obind]. pose proof (fresh_size junk sh sh_nonneg) as LF. pose proof (size_nonneg sh sh_nonneg). unfold has_size in *. rewrite LM.
  destruct (each_written (fun i y => obind (get x i) (fun v => obind (get m i) (fun w => put y i (v * w)%Qc))) (fun q => (qat x q * qat m q)%Qc) (size sh) (fresh junk sh)) as (y & EY & LY & VY & _).
  - unfold qlen. lia.
  - intros i y Hi _ _. repeat (rewrite get_ok by (unfold within, qlen; lia); cbn [obind]). reflexivity.
  - rewrite EY. cbn [obind]. exists y. split; [reflexivity |]. split; [lia |]. intros b i j Ib Hi Hj. destruct (place b i j Ib Hi Hj) as (I & P1 & P2). pose proof (off_bound _ _ I). rewrite !MatProps.qelem_off by exact I.
    rewrite VY, VM by assumption. rewrite P1, P2. reflexivity.
Qed.
Lemma trilu_backward_ok junk k upper accum dy dx : has_size dy (size sh) -> has_size dx (size sh) ->
  exists d, trilu_backward junk k upper sh accum dy dx = Some d /\ has_size d (size sh) /\
  forall b i j, inside b A -> 0 <= i < rows -> 0 <= j < cols -> qelem d sh (b ++ [i; j]) = ((if accum then qelem dx sh (b ++ [i; j]) else 0) + qelem dy sh (b ++ [i; j]) * weight upper k i j)%Qc.
Proof using PA HR HC.
  intros LY LX. unfold trilu_backward. destruct (mask_ok junk k upper) as (m & E & LM & VM). rewrite E. cbn [obind]. rewrite matrices_ok. pose proof (size_nonneg sh sh_nonneg). unfold has_size in *.
  match goal with |- context [loop ?f (upto (size sh)) dx] => destruct (each_written f (fun q => (if accum then qat dx q else 0) + qat dy q * qat m q)%Qc (size sh) dx) as (d & ED & LD & VD & _) end.
  - unfold qlen. lia.
  - intros i d Hi Ld Vd. repeat (rewrite get_ok by (unfold within, qlen; lia); cbn [obind]). rewrite Vd by lia. reflexivity.
  - exists d. split; [exact ED |]. split; [lia |]. intros b i j Ib Hi Hj. destruct (place b i j Ib Hi Hj) as (I & P1 & P2). pose proof (off_bound _ _ I). rewrite !MatProps.qelem_off by exact I.
    rewrite VD, VM by assumption. rewrite P1, P2. reflexivity.
Qed.
End trilu.

(** * EyeLike *)
Lemma eye_like_ok k rows cols : 0 <= rows -> 0 <= cols ->
  exists y, eye_like k [rows; cols] = Some ([rows; cols], y) /\ has_size y (size [rows; cols]) /\
  forall i j, 0 <= i < rows -> 0 <= j < cols -> qelem y [rows; cols] [i; j] = if j =? i + k then 1%Qc else 0%Qc.
Proof.
  intros HR HC. unfold eye_like. set (sh := [rows; cols]). assert (SZ : size sh = rows * cols) by (unfold sh; cbn [size]; ring).
  assert (NN : nonneg sh) by (repeat constructor; lia). pose proof (fresh_size 0%Qc sh NN) as LF. unfold has_size in *.
  set (se := if 0 <=? k then (0, Z.min rows (cols - k)) else (Z.abs k, Z.abs k + Z.min (rows - Z.abs k) cols)). 
  assert (SE : exists a e, se = (a, e) /\ 0 <= a /\ 0 <= a + k /\ (a = 0 \/ a + k = 0) /\ (e = rows \/ e + k = cols) /\ e <= rows /\ e + k <= cols).
  { unfold se. destruct (Z.leb_spec 0 k); eexists; eexists; (split; [reflexivity |]); lia. }
  destruct SE as (a & e & -> & A0 & A1 & A2 & E0 & E1 & E2). rewrite <- (loop_map (fun i y => put y (i * cols + i + k) 1%Qc) (Z.add a)).
  assert (PL : forall i j, 0 <= i < rows -> 0 <= j < cols -> inside [i; j] sh /\ off [i; j] sh = i * cols + j).
  { intros i j Hi Hj. split; [constructor; [exact Hi | constructor; [exact Hj | constructor]] |]. unfold sh. cbn [off size]. ring. }
  destruct (Z_lt_le_dec (e - a) 0) as [NEG | POS].
  { replace (upto (e - a)) with (@nil Z) by (unfold upto; replace (Z.to_nat (e - a)) with 0%nat by lia; reflexivity). cbn [loop obind]. eexists. split; [reflexivity |]. split; [exact LF |].
    intros i j Hi Hj. destruct (PL i j Hi Hj) as (I & O). rewrite MatProps.qelem_off by exact I. destruct (Z.eqb_spec j (i + k)); [lia |]. unfold fresh, qat. apply nth_repeat. }
  destruct (loop_inv (fun m y => Z.of_nat (length y) = rows * cols /\ forall i j, 0 <= i < rows -> 0 <= j < cols -> qat y (i * cols + j) = if (j =? i + k) && (i <? a + m) then 1%Qc else 0%Qc)
    (fun m y => put y ((a + m) * cols + (a + m) + k) 1%Qc) (e - a) POS) with (s := fresh 0%Qc sh) as (y & E & L & V).
  - intros m y Hm (L & V). destruct (put_ok y ((a + m) * cols + (a + m) + k) 1%Qc) as (y' & E & L' & V' & _); [unfold within, qlen; nia |].
    exists y'. split; [exact E |]. split; [lia |]. intros i j Hi Hj. rewrite V' by nia. rewrite V by assumption.
    destruct (Z.eqb_spec (i * cols + j) ((a + m) * cols + (a + m) + k)) as [C | C].
    + assert (i = a + m) by nia. assert (j = i + k) by nia. destruct (Z.eqb_spec j (i + k)); [| lia]. destruct (Z.ltb_spec i (a + (m + 1))); [reflexivity | lia].
    + destruct (Z.eqb_spec j (i + k)) as [J |]; [| reflexivity]. assert (i <> a + m) by (intros ->; apply C; lia). destruct (Z.ltb_spec i (a + m)), (Z.ltb_spec i (a + (m + 1))); try lia; reflexivity.
  - split; [lia |]. intros i j Hi Hj. destruct (Z.eqb_spec j (i + k)); [destruct (Z.ltb_spec i (a + 0)); [lia |] |]; unfold fresh, qat; apply nth_repeat.
  - rewrite E. cbn [obind]. exists y. split; [reflexivity |]. split; [lia |]. intros i j Hi Hj. destruct (PL i j Hi Hj) as (I & O). rewrite MatProps.qelem_off by exact I. rewrite O, V by assumption.
    destruct (Z.eqb_spec j (i + k)); [| reflexivity]. destruct (Z.ltb_spec i (a + (e - a))); [reflexivity | lia].
Qed.
