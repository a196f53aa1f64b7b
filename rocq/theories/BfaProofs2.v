(** Proofs about BfaModel: broadcasting back and gradients of reductions. *)
From Coq Require Import List ZArith Bool Lia QArith Qcanon.
From Verif Require Import NdSpec NdModel NdProofs IdxSpec IdxModel IdxProofs1 IdxProofs2 IdxProofs3 IdxProofs6 JoinSpec JoinModel JoinProofs ScanSpec ScanModel ScanProofs1 ReduceSpec ReduceModel ReduceProofs1 ReduceProofs2 ReduceProofs3 ReduceProofs4 ReduceProofs5 ConvSpec ConvModel MatSpec MatModel MatProofs2 PoolProofs3 BinSpec BinModel BinProofs1 BinProofs2 BinProofs3 BfaModel BfaSpec BfaProofs1.
From Verif Require ReduceProps BinProps MatProps.
Import ListNotations.
Local Open Scope list_scope.
Local Open Scope Z_scope.

Lemma picked_amap A : forall c, amap (bc_fs A) c = picked A c.
Proof. induction A as [| n A IH]; intros [| i c]; cbn [bc_fs amap picked]; try reflexivity. rewrite IH. reflexivity. Qed.
Lemma widens_inside A C c : widens A C -> inside c C -> inside (picked A c) A.
Proof.
  intros W. revert c. induction W as [| a n A C H _ IH]; intros c I; inversion I as [| i ? r ? Hi Hr]; subst; cbn [picked]; constructor; [| apply IH; exact Hr]. destruct (Z.eqb_spec a 1); lia.
Qed.
Lemma broadcast_ok junk A C x : widens A C -> sizes C -> (length C <= 8)%nat -> has_size x (size A) ->
  exists y, py_broadcast junk C (A, x) = Some (C, y) /\ has_size y (size C) /\ forall c, inside c C -> qelem y C c = qelem x A (picked A c).
Proof.
  intros W P N L. destruct (bc_strides_ok A C W (cstrides A) (cstrides_length A)) as (st & E & LS & D).
  unfold py_broadcast, bc_pairs. cbn [fst snd]. pose proof (widens_length A C W) as LA.
  destruct (Nat.leb_spec (length A) (length C)); [| lia]. destruct (Nat.leb_spec (length C) 8); [| lia]. cbn [andb].
  replace (expand_shape A (length C)) with A by (unfold expand_shape; replace (length C - length A)%nat with 0%nat by lia; reflexivity).
  rewrite E. cbn [obind]. pose proof (fresh_size junk C P) as FS.
  assert (SI : forall c, inside c C -> strided_index (off c C) C st = off (picked A c) A).
  { intros c I. unfold strided_index. pose proof (strided_dot C st c 0 I LS ltac:(lia)) as Q. rewrite Z.mul_0_l, Z.add_0_l in Q. rewrite Q, D, picked_amap by exact I. apply dot_cstrides. apply (widens_inside A C); assumption. }
  destruct (copyq_ok (map (fun i => (i, strided_index i C st)) (upto (prod C))) x (fresh junk C)) as (y & Y & LY & V & _).
  { intros p Ip. apply in_map_iff in Ip as (i & <- & Ii). apply upto_in in Ii. rewrite prod_size in Ii. cbn [fst snd]. unfold within, qlen. unfold has_size in *. rewrite FS, L. split; [exact Ii |].
    destruct (unoff_inside C i P Ii) as (I & O). rewrite <- O, SI by exact I. apply off_bound. apply (widens_inside A C); assumption. }
  { rewrite map_map. cbn [fst]. rewrite map_id. apply upto_nodup. }
  exists y. rewrite Y. split; [reflexivity |]. split; [unfold has_size in *; congruence |]. intros c I. pose proof (widens_inside A C c W I) as I'.
  rewrite !MatProps.qelem_off by assumption. apply V. apply in_map_iff. exists (off c C). split; [rewrite SI by exact I; reflexivity |]. apply upto_in. rewrite prod_size. apply off_bound. exact I.
Qed.

(** * Axes *)
Definition listed (mask : list bool) : list Z := map Z.of_nat (select true mask (seq 0 (length mask))).
Lemma select_seq mask : forall k m, In m (select true mask (seq k (length mask))) <-> (k <= m)%nat /\ nth (m - k) mask false = true.
Proof.
  induction mask as [| b mask IH]; intros k m; cbn [length seq select]; [cbn [In]; split; [tauto |]; intros (_ & H); destruct (m - k)%nat; discriminate |].
  assert (Q : (k <= m)%nat /\ nth (m - k) (b :: mask) false = true <-> (m = k /\ b = true) \/ ((S k <= m)%nat /\ nth (m - S k) mask false = true)).
  { destruct (Nat.eq_dec m k) as [-> | NE]; [rewrite Nat.sub_diag; cbn [nth]; split; [intros (_ & ->); auto |]; intros [(_ & ->) | (H & _)]; [auto | lia] |].
    split; [intros (H & H'); right; split; [lia |]; replace (m - k)%nat with (S (m - S k)) in H' by lia; exact H' |]. intros [(H & _) | (H & H')]; [lia |]. split; [lia |]. replace (m - k)%nat with (S (m - S k)) by lia. exact H'. }
  rewrite Q. destruct b; cbn [Bool.eqb In]; rewrite IH; intuition congruence.
Qed.
Lemma listed_member mask k : member (Z.of_nat k) (listed mask) = nth k mask false.
Proof.
  unfold member. destruct (nth k mask false) eqn:E.
  - apply existsb_exists. exists (Z.of_nat k). split; [| apply Z.eqb_refl]. unfold listed. apply in_map. apply select_seq. rewrite Nat.sub_0_r. split; [lia | exact E].
  - apply not_true_iff_false. intros H. apply existsb_exists in H as (z & I & Q). apply Z.eqb_eq in Q. subst z. unfold listed in I. apply in_map_iff in I as (m & M & I). apply Nat2Z.inj in M. subst m. apply select_seq in I as (_ & I). rewrite Nat.sub_0_r in I. congruence.
Qed.
Lemma chosen_listed axes mask : chosen axes mask -> map (fun a => if 0 <=? a then a else a + Z.of_nat (length mask)) axes = listed mask.
Proof.
  unfold chosen, listed. intros H. assert (B : Forall (fun k => (k < length mask)%nat) (select true mask (seq 0 (length mask)))).
  { apply Forall_forall. intros k I. apply select_seq in I as (_ & I). rewrite Nat.sub_0_r in I. destruct (Nat.lt_ge_cases k (length mask)); [assumption |]. rewrite nth_overflow in I by lia. discriminate. }
  revert B. induction H as [| a k axes ks D H IH]; intros B; cbn [map]; [reflexivity |]. inversion B; subst. rewrite IH by assumption. f_equal. unfold denotes in D. destruct (Z.leb_spec 0 a); lia.
Qed.
Lemma chosen_front axes mask : chosen axes mask -> Forall (fun a => 0 <= a) axes -> axes = listed mask.
Proof.
  intros H F. rewrite <- (chosen_listed axes mask H). clear H. induction F as [| a axes Ha F IH]; cbn [map]; [reflexivity |]. rewrite <- IH. destruct (Z.leb_spec 0 a); [reflexivity | lia].
Qed.
Lemma flattened_by axes : forall mask X k, length X = length mask -> (forall j, member (Z.of_nat (k + j)) axes = nth j mask false) -> flattened (Z.of_nat k) axes X = out_shape true mask X.
Proof.
  unfold out_shape. induction mask as [| b mask IH]; intros [| n X] k L H; try discriminate; cbn [flattened out]; [reflexivity |].
  pose proof (H 0%nat) as H0. rewrite Nat.add_0_r in H0. rewrite H0. cbn [nth]. replace (Z.of_nat k + 1) with (Z.of_nat (S k)) by lia. rewrite (IH X (S k)); [destruct b; reflexivity | cbn in L; lia |].
  intros j. specialize (H (S j)). replace (k + S j)%nat with (S k + j)%nat in H by lia. exact H.
Qed.
Lemma reduced_by axes : forall mask X k, length X = length mask -> (forall j, member (Z.of_nat (k + j)) axes = nth j mask false) -> reduced (Z.of_nat k) axes X = size (select true mask X).
Proof.
  induction mask as [| b mask IH]; intros [| n X] k L H; try discriminate; cbn [reduced select]; [reflexivity |].
  pose proof (H 0%nat) as H0. rewrite Nat.add_0_r in H0. rewrite H0. cbn [nth]. replace (Z.of_nat k + 1) with (Z.of_nat (S k)) by lia. rewrite (IH X (S k)); [destruct b; cbn [Bool.eqb size]; lia | cbn in L; lia |].
  intros j. specialize (H (S j)). replace (k + S j)%nat with (S k + j)%nat in H by lia. exact H.
Qed.
Lemma flattened_ok mask X : length X = length mask -> flattened 0 (listed mask) X = out_shape true mask X.
Proof. intros L. apply (flattened_by _ mask X 0 L). intros j. apply listed_member. Qed.
Lemma reduced_ok mask X : length X = length mask -> reduced 0 (listed mask) X = size (select true mask X).
Proof. intros L. apply (reduced_by _ mask X 0 L). intros j. apply listed_member. Qed.

(** * Spreading *)
Lemma out_widens mask : forall X, length X = length mask -> widens (out_shape true mask X) X.
Proof. unfold out_shape, widens. induction mask as [| b mask IH]; intros [| n X] L; try discriminate; cbn [out]; [constructor |]. destruct b; constructor; auto. Qed.
Lemma out_picked mask : forall X c, length X = length mask -> inside c X -> picked (out_shape true mask X) c = out_index true mask c.
Proof.
  unfold out_shape, out_index. induction mask as [| b mask IH]; intros [| n X] c L I; try discriminate; inversion I as [| i ? r ? Hi Hr]; subst; cbn [out picked]; [reflexivity |].
  destruct b; cbn [picked]; rewrite IH by (cbn in L; auto); [reflexivity |]. destruct (Z.eqb_spec n 1); [f_equal; lia | reflexivity].
Qed.
Lemma spread_ok junk mask keep X v : length X = length mask -> above X -> (length X <= 8)%nat -> has_size v (size (out_shape keep mask X)) ->
  exists e, spread junk (listed mask) keep X (out_shape keep mask X, v) = Some (X, e) /\ has_size e (size X) /\ forall idx, inside idx X -> qelem e X idx = qat v (off (select false mask idx) (select false mask X)).
Proof.
  intros L P N S. assert (SZ : forall k, size (out_shape k mask X) = size (select false mask X)) by (intros k; apply out_size; exact L).
  destruct (broadcast_ok junk (out_shape true mask X) X v (out_widens mask X L) (above_sizes X P) N) as (e & E & LE & V); [rewrite SZ; rewrite SZ in S; exact S |].
  exists e. split; [| split; [exact LE |]].
  - unfold spread. destruct keep; [exact E |]. rewrite flattened_ok by exact L. unfold py_reshape. cbn [fst snd]. rewrite !prod_size, !SZ, Z.eqb_refl. exact E.
  - intros idx I. rewrite V by exact I. rewrite out_picked by assumption. unfold qelem. rewrite (out_at mask X L) by exact I. reflexivity.
Qed.
Lemma listed_chosen mask : chosen (listed mask) mask.
Proof. unfold chosen, listed. generalize (select true mask (seq 0 (length mask))) as l. intros l. generalize (length mask) as m. intros m. induction l as [| k l IH]; cbn [map]; constructor; [left; reflexivity | exact IH]. Qed.
Lemma joined_refl A : joined A A A.
Proof. induction A; constructor; assumption. Qed.
Lemma widens_joined A C : widens A C -> joined A C C.
Proof. induction 1 as [| a c A C H _ IH]; [constructor |]. destruct H as [-> | ->]; constructor; exact IH. Qed.
Lemma widens_refl A : widens A A.
Proof. unfold widens. induction A; constructor; auto. Qed.
Lemma out_above keep mask : forall X, above X -> above (out_shape keep mask X).
Proof. unfold out_shape. induction mask as [| b mask IH]; intros [| n X] P; cbn [out]; try constructor. inversion P; subst. destruct b, keep; try (constructor; [lia |]); apply IH; assumption. Qed.
Lemma out_inside keep mask : forall X c, inside c X -> inside (out_index keep mask c) (out_shape keep mask X).
Proof.
  unfold out_shape, out_index. induction mask as [| b mask IH]; intros X c I; inversion I as [| i n r X' Hi Hr]; subst; cbn [out]; try constructor. destruct b, keep; try (constructor; [unfold within in *; lia |]); apply IH; exact Hr.
Qed.
(** * Gradients *)
Section reduction.
Variables (mask : list bool) (keep : bool) (X : list Z) (junk : Qc).
Hypothesis LEN : length X = length mask.
Hypothesis POS : above X.
Hypothesis DIM : (length X <= 8)%nat.
Let f := the_reduction mask X.
Let O := out_shape keep mask X.
Lemma O_size : size O = size (select false mask X).
Proof using LEN. apply out_size. exact LEN. Qed.
Lemma eq_backward r e d0 (v : list Z -> Qc) : (exists r', r = Some r' /\ length r' = length d0 /\ forall idx, inside idx X -> qelem r' X idx = (0 + v idx)%Qc) ->
  has_size d0 (size X) -> has_size e (size X) -> (forall idx, inside idx X -> qelem e X idx = v idx) -> r = Some e.
Proof using POS.
  intros (r' & -> & LR & V) L0 LE W. f_equal. apply (list_by X); [apply above_sizes; exact POS | unfold has_size in *; congruence | exact LE |]. intros a I. rewrite V, W by exact I. ring.
Qed.
Lemma sum_grad_ok axes dy d0 : chosen axes mask -> has_size dy (size O) -> has_size d0 (size X) ->
  exists e, py_sum_grad junk axes keep X (O, dy) = Some (X, e) /\ sum_backward f X false dy d0 = Some e.
Proof using LEN POS DIM.
  intros C L L0. unfold py_sum_grad. rewrite LEN, (chosen_listed axes mask C). destruct (spread_ok junk mask keep X dy LEN POS DIM L) as (e & E & LE & V).
  exists e. split; [exact E |]. apply (eq_backward _ e d0 (fun idx => qat dy (off (select false mask idx) (select false mask X)))); try assumption.
  apply (ReduceProofs4.sum_backward_ok mask X LEN POS false dy d0); [unfold has_size in L; unfold qlen; rewrite L; apply O_size | exact L0].
Qed.
Lemma mean_grad_ok dy d0 : has_size dy (size O) -> has_size d0 (size X) ->
  exists e, py_mean_grad junk (listed mask) keep X (O, dy) = Some (X, e) /\ mean_backward f X false dy d0 = Some e.
Proof using LEN POS DIM.
  intros L L0. unfold py_mean_grad. destruct (spread_ok junk mask keep X dy LEN POS DIM L) as (e & E & LE & V). fold O in E. rewrite E. cbn [obind]. rewrite reduced_ok by exact LEN.
  assert (NZ : of_Z (size (select true mask X)) <> 0%Qc) by (apply (of_Z_nonzero mask X LEN); apply (SB mask X POS)).
  unfold number_op. destruct (Qc_eq_dec (of_Z (size (select true mask X))) 0); [contradiction |]. cbn [obind].
  destruct (call1_ok junk (fun u => u * (1 / of_Z (size (select true mask X))))%Qc X e (above_sizes X POS) LE) as (e' & E' & LE' & V'). exists e'. split; [exact E' |].
  apply (eq_backward _ e' d0 (fun idx => qat dy (off (select false mask idx) (select false mask X)) / of_Z (size (select true mask X)))%Qc); try assumption.
  - apply (ReduceProofs4.mean_backward_ok mask X LEN POS false dy d0); [unfold has_size in L; unfold qlen; rewrite L; apply O_size | exact L0].
  - intros idx I. rewrite V', V by exact I. field. exact NZ.
Qed.
Lemma prod_grad_ok x y dy d0 : has_size x (size X) -> has_size dy (size O) -> has_size d0 (size X) -> (forall idx, inside idx X -> qelem x X idx <> 0%Qc) ->
  prod_forward f X x (fresh junk O) = Some y ->
  exists e, py_prod_grad junk (listed mask) keep (X, x) (O, dy) = Some (X, e) /\ prod_backward f X false x y dy d0 = Some e.
Proof using LEN POS DIM.
  intros LX L L0 NZ F. unfold py_prod_grad, py_prod, call_red. cbn [fst snd]. rewrite (setup_the (listed mask) mask keep X (listed_chosen mask) LEN). fold f O. cbn [obind]. rewrite F. cbn [obind].
  assert (PO : above O) by (apply out_above; exact POS). assert (LY : has_size y (size O)).
  { unfold prod_forward in F. destruct (rows_ok mask X LEN POS keep (fun _ => prod_row) x (fresh junk O)) as (y' & F' & LY & _); [exact LX | apply fresh_size; apply above_sizes; exact PO |].
    assert (Q : Some y = Some y') by (rewrite <- F; exact F'). injection Q as <-. pose proof (fresh_size junk O (above_sizes O PO)). unfold has_size in *. congruence. }
  destruct (call2_ok junk mul_op O O O dy y (joined_refl O) PO L LY) as (p & E & LP & V). rewrite E. cbn [obind].
  set (O' := out_shape true mask X). assert (SO : size O' = size O) by (unfold O', O; rewrite !out_size by exact LEN; reflexivity).
  assert (R : (if keep then @Some nd (O, p) else py_reshape (flattened 0 (listed mask) X) (O, p)) = Some (O', p)).
  { unfold O, O', py_reshape. destruct keep; [reflexivity |]. rewrite flattened_ok by exact LEN. cbn [fst snd]. rewrite !prod_size, !out_size, Z.eqb_refl by exact LEN. reflexivity. }
  rewrite R. cbn [obind]. destruct (call2_ok junk div_op O' X X p x (widens_joined O' X (out_widens mask X LEN)) POS) as (d & E2 & LD & V2); [rewrite SO; exact LP | exact LX |].
  rewrite E2. cbn [obind]. destruct (broadcast_ok junk X X d (widens_refl X) (above_sizes X POS) DIM LD) as (e & E3 & LE & V3). exists e. split; [exact E3 |].
  destruct (arranged_ok mask X LEN POS x LX) as (xt & EX & LT & W).
  apply (eq_backward _ e d0 (fun idx => if Qc_eq_dec (qelem x X idx) 0%Qc then 0%Qc else (qat dy (off (select false mask idx) (select false mask X)) * qat y (off (select false mask idx) (select false mask X)) / qelem x X idx)%Qc)); try assumption.
  - apply (ReduceProofs4.prod_backward_ok mask X LEN POS false x xt y dy d0); try assumption; unfold has_size in L, LY; unfold qlen; [rewrite LY | rewrite L]; apply O_size.
  - intros idx I. rewrite V3 by exact I. rewrite picked_same, V2 by exact I. unfold O'. rewrite out_picked, picked_same by assumption. unfold div_op. destruct (Qc_eq_dec (qelem x X idx) 0%Qc) as [Q | _]; [destruct (NZ idx I Q) |]. f_equal.
    assert (G : forall v, qelem v O (out_index keep mask idx) = qat v (off (select false mask idx) (select false mask X))) by (intros v; unfold qelem, O; rewrite (out_at mask X LEN) by exact I; reflexivity).
    assert (G' : qelem p (out_shape true mask X) (out_index true mask idx) = qelem p O (out_index keep mask idx)) by (rewrite G; unfold qelem; rewrite (out_at mask X LEN) by exact I; reflexivity).
    rewrite G', V; [rewrite !picked_same; [unfold mul_op; rewrite !G; reflexivity | ..] |]; apply out_inside; assumption.
Qed.
(** Max and Min: every element equal to the output gets the gradient. *)
Lemma best_grad_ok x y dy : has_size x (size X) -> has_size y (size O) -> has_size dy (size O) ->
  exists e, py_best_grad junk (listed mask) keep (X, x) (O, y) (O, dy) = Some (X, e) /\ has_size e (size X) /\
  forall idx, inside idx X -> qelem e X idx = if Qc_eq_dec (qelem x X idx) (qelem y O (out_index keep mask idx)) then qelem dy O (out_index keep mask idx) else 0%Qc.
Proof using LEN POS DIM.
  intros LX LY L. unfold py_best_grad. cbn [fst snd]. destruct (spread_ok junk mask keep X y LEN POS DIM LY) as (y' & EY & LY' & VY). destruct (spread_ok junk mask keep X dy LEN POS DIM L) as (d & ED & LD & VD).
  fold O in EY, ED. rewrite EY, ED. cbn [obind]. destruct (call2_ok junk eq_op X X X x y' (joined_refl X) POS LX LY') as (m & EM & LM & VM). rewrite EM. cbn [obind].
  destruct (call2_ok junk mul_op X X X d m (joined_refl X) POS LD LM) as (e & E & LE & V). exists e. split; [exact E |]. split; [exact LE |]. intros idx I.
  assert (G : forall v, qelem v O (out_index keep mask idx) = qat v (off (select false mask idx) (select false mask X))) by (intros v; unfold qelem, O; rewrite (out_at mask X LEN) by exact I; reflexivity).
  rewrite V by exact I. rewrite !picked_same, VM by exact I. rewrite !picked_same, VY, VD, !G by exact I. unfold mul_op, eq_op. destruct (Qc_eq_dec _ _); ring.
Qed.
End reduction.
