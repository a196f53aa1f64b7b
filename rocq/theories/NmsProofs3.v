(** Non-maximum suppression: ONNXNonMaxSuppression. *)
From Coq Require Import List ZArith Lia Bool Permutation QArith Qcanon.
From Verif Require Import NdModel NdSpec NdProofs IdxModel IdxSpec IdxProofs1 IdxProofs2 IdxProofs3 JoinModel JoinProofs ScanModel ScanSpec ScanProofs1 ReduceModel ReduceProofs1 SortSpec SortProofs1 SortProofs2 SortProofs3 FindModel FindSpec FindProofs1 FindProofs4 FindProofs6 NmsModel NmsSpec NmsProofs1 NmsProofs2.
Import ListNotations.
Local Open Scope list_scope.
Local Open Scope Z_scope.

Lemma four_ok y o : 0 <= o -> o + 4 <= qlen y -> four y o = Some (qat y o, qat y (o + 1), qat y (o + 2), qat y (o + 3)).
Proof. intros H1 H2. unfold four. rewrite !get_ok by (unfold within; lia). reflexivity. Qed.
Lemma put_map {T} (d : T) (f : Z -> T) n b v : 0 <= b < n -> put (map f (upto n)) b v = Some (map (fun c => if c =? b then v else f c) (upto n)).
Proof.
  intros B. destruct (put_gen d (map f (upto n)) b v) as (r & E & L & V); [rewrite map_length; unfold upto; rewrite map_length, seq_length; lia|]. rewrite E. f_equal.
  rewrite map_length in L. assert (LU : length (upto n) = Z.to_nat n) by (unfold upto; rewrite map_length, seq_length; auto).
  apply nth_ext with (d := d) (d' := d); [rewrite map_length; auto|]. intros k Hk. specialize (V (Z.of_nat k) ltac:(lia)). rewrite Nat2Z.id in V. rewrite V.
  pose proof (gat_upto d (fun c => if c =? b then v else f c) n (Z.of_nat k) ltac:(lia)) as G. unfold gat in G. rewrite Nat2Z.id in G. rewrite G.
  destruct (Z.of_nat k =? b); [auto|]. pose proof (gat_upto d f n (Z.of_nat k) ltac:(lia)) as G'. unfold gat in G'. rewrite Nat2Z.id in G'. auto.
Qed.
Lemma get_map {T} (d : T) (f : Z -> T) n b : 0 <= b < n -> get (map f (upto n)) b = Some (f b).
Proof.
  intros B. rewrite (gget_ok d); [rewrite gat_upto by auto; auto|]. unfold within, glen. rewrite map_length. unfold upto. rewrite map_length, seq_length. lia.
Qed.
Lemma append_loop {A B} (F : A -> option (list B)) (G : A -> list B) L : (forall a, In a L -> F a = Some (G a)) ->
  forall acc, loop (fun a acc => obind (F a) (fun l => Some (acc ++ l))) L acc = Some (acc ++ flat_map G L).
Proof.
  induction L as [|a L IH]; intros H acc; cbn [loop flat_map]; [rewrite app_nil_r; auto|]. rewrite H by (left; auto). cbn [obind]. rewrite IH by (intros; apply H; right; auto). rewrite app_assoc. auto.
Qed.

Section nms.
Variable std_sort : (Z -> Z -> bool) -> list Z -> list Z.
Hypothesis STD : sorting std_sort.
Lemma index_sort_ok y from n stride : ranking n (fun i => nth (Z.to_nat (from + i * stride)) y 0%Qc) (index_sort std_sort y from n stride).
Proof.
  unfold index_sort. destruct (STD (fun i j => more (nth (Z.to_nat (from + i * stride)) y 0%Qc) (nth (Z.to_nat (from + j * stride)) y 0%Qc)) (upto n) (weak_on more _ more_weak)) as [P O].
  split; [rewrite <- upto_range; auto|]. intros i j H. specialize (O 0 i j H). apply more_false in O. exact O.
Qed.
Lemma ranking_ext n f g l : (forall i, 0 <= i < n -> f i = g i) -> ranking n f l -> ranking n g l.
Proof.
  intros E [P O]. split; [auto|]. intros i j H. rewrite <- !E; [apply O; auto| |]; rewrite <- upto_in, upto_range; apply (Permutation_in _ P), nth_In; lia.
Qed.

Lemma onnx_fill_ok n f max : forall l count, (forall a, In a l -> 0 <= a < n) -> count < max ->
  onnx_fill l (map f (upto n)) count max = Some (firstn (Z.to_nat (max - count)) (filter f l)).
Proof.
  induction l as [|a l IH]; intros count H C; cbn [onnx_fill filter]; [rewrite firstn_nil; auto|].
  rewrite (get_map false) by (apply H; left; auto). cbn [obind]. destruct (f a) eqn:F.
  - destruct (Z.leb_spec max (count + 1)).
    + replace (Z.to_nat (max - count)) with 1%nat by lia. reflexivity.
    + rewrite IH by (auto; try lia; intros; apply H; right; auto). cbn [obind]. replace (Z.to_nat (max - count)) with (S (Z.to_nat (max - (count + 1)))) by lia. reflexivity.
  - apply IH; auto. intros. apply H. right. auto.
Qed.

Section onnx.
Variables (center max : Z) (thr sthr : Qc) (B N C : Z) (boxes scores : list Qc).
Hypothesis CP : center = 0 \/ center = 1.
Hypothesis NB : 0 <= B.
Hypothesis NN : 0 <= N.
Hypothesis NC : 0 <= C.
Hypothesis LB : qlen boxes = B * N * 4.
Hypothesis LS : qlen scores = B * C * N.
Definition box4 (b a : Z) : Qc * Qc * Qc * Qc := let o := (b * N + a) * 4 in (qat boxes o, qat boxes (o + 1), qat boxes (o + 2), qat boxes (o + 3)).
Definition over4 (b a a' : Z) : bool := match onnx_iou center (box4 b a) (box4 b a') with Some q => more q thr | None => false end.
Definition score4 (b k a : Z) : Qc := qat scores ((b * C + k) * N + a).
Definition shape4 (b a : Z) : rect := (if center =? 0 then rect_of_corners else rect_of) (box4 b a).
Lemma over4_ok b a a' : over4 b a a' = true <-> overlapping thr (shape4 b a) (shape4 b a').
Proof.
  unfold over4, shape4, overlapping. destruct (onnx_iou_ok center (box4 b a) (box4 b a') CP) as (q & E & I). rewrite E. rewrite more_true. destruct (center =? 0).
  - split; [intros L; exists q; auto|intros (r & R & L); rewrite (iou_unique _ _ _ _ I R); auto].
  - split; [intros L; exists q; auto|intros (r & R & L); rewrite (iou_unique _ _ _ _ I R); auto].
Qed.
Lemma box_get b a : 0 <= b < B -> 0 <= a < N -> four boxes ((b * N + a) * 4) = Some (box4 b a).
Proof. intros HB HA. assert (0 <= b * N + a < B * N) by nia. apply four_ok; lia. Qed.
Lemma onnx_class_ok b k : 0 <= b < B -> 0 <= k < C -> 0 < max -> exists order f, ranking N (score4 b k) order /\
  selection order (fun a => (sthr <= score4 b k a)%Qc) (fun a a' => overlapping thr (shape4 b a) (shape4 b a')) (fun a => In a order /\ f a = true) /\
  onnx_class std_sort center max thr sthr N C boxes scores b k = Some (map (fun a => (b, k, a)) (firstn (Z.to_nat max) (filter f order))).
Proof.
  intros HB HK M. unfold onnx_class. set (order := index_sort _ _ _ _ _). assert (R : ranking N (score4 b k) order).
  { apply (ranking_ext N (fun i => nth (Z.to_nat ((b * C + k) * N + i * 1)) scores 0%Qc)); [intros i I; unfold score4, qat; rewrite Z.mul_1_r; auto|]. apply index_sort_ok. }
  assert (HS : 0 <= b * C + k < B * C) by nia.
  assert (P : Permutation order (upto N)) by (rewrite upto_range; apply (proj1 R)).
  set (f0 := fun a => negb (less (score4 b k a) sthr)).
  rewrite (omap_some _ f0).
  2:{ intros i I. apply upto_in in I. rewrite get_ok; [reflexivity|]. unfold within. rewrite LS. nia. }
  cbn [obind].
  destruct (suppress_ok (list bool) N order onnx_test (onnx_step center thr boxes (b * N)) (over4 b) (fun f s => s = map f (upto N)) P NN) with (f0 := f0) (s := map f0 (upto N)) as (s & f & E & -> & S).
  - intros f s a -> A. unfold onnx_test. apply (get_map false). auto.
  - intros f s a a' -> A A'. unfold onnx_step. rewrite (get_map false) by auto. cbn [obind]. destruct (f a') eqn:F; cbn [negb].
    + rewrite !box_get by auto. cbn [obind]. unfold over4. destruct (onnx_iou_ok center (box4 b a) (box4 b a') CP) as (q & Eq & _). rewrite Eq. cbn [obind]. destruct (more q thr).
      * rewrite (put_map false) by auto. eexists. split; [reflexivity|]. apply map_ext. intros c. destruct (c =? a'); cbn [andb negb]; [rewrite andb_false_r|rewrite andb_true_r]; auto.
      * eexists. split; [reflexivity|]. apply map_ext. intros c. rewrite andb_false_r. cbn [negb]. rewrite andb_true_r. auto.
    + eexists. split; [reflexivity|]. apply map_ext. intros c. destruct (Z.eqb_spec c a'); [subst; rewrite F; auto|cbn [andb negb]; rewrite andb_true_r; auto].
  - reflexivity.
  - exists order, f. split; [auto|]. split.
    + destruct S as [S1 S2 S3]. assert (F0 : forall a, f0 a = true <-> (sthr <= score4 b k a)%Qc) by (intros a; unfold f0; rewrite negb_true_iff; apply less_false). constructor.
      * intros a H. rewrite <- F0. auto.
      * intros i j H H1 H2. rewrite <- over4_ok. auto.
      * intros j H H1 H2. rewrite <- F0 in H1. destruct (S3 j H H1 H2) as (i & I1 & I2 & I3). exists i. rewrite <- over4_ok. auto.
    + rewrite E. cbn [obind]. rewrite onnx_fill_ok; [|intros a Ha; rewrite <- upto_in; apply (Permutation_in _ P); auto|lia]. cbn [obind]. rewrite Z.sub_0_r. reflexivity.
Qed.
Lemma onnx_setup_ok : 0 <= max -> exists sel, onnx_setup std_sort center max thr sthr [B; N; 4] [B; C; N] boxes scores =
    Some ([Z.of_nat (length (flat_map (fun b => flat_map (sel b) (upto C)) (upto B))); 3], flat_map (fun b => flat_map (fun k => flat_map (fun a => [b; k; a]) (sel b k)) (upto C)) (upto B)) /\
  forall b k, 0 <= b < B -> 0 <= k < C -> exists order f, ranking N (score4 b k) order /\
    selection order (fun a => (sthr <= score4 b k a)%Qc) (fun a a' => overlapping thr (shape4 b a) (shape4 b a')) (fun a => In a order /\ f a = true) /\ sel b k = firstn (Z.to_nat max) (filter f order).
Proof.
  intros M. unfold onnx_setup. rewrite !Z.eqb_refl. cbn [negb Z.eqb Pos.eqb]. replace ((0 <=? center) && (center <=? 1)) with true by (destruct CP as [-> | ->]; reflexivity).
  replace (0 <=? max) with true by (symmetry; apply Z.leb_le; auto). cbn [negb]. unfold onnx_nms.
  set (sel := fun b k => if max =? 0 then [] else match onnx_class std_sort center max thr sthr N C boxes scores b k with Some l => map snd l | None => [] end).
  exists sel. split.
  2:{ intros b k HB HK. unfold sel. destruct (Z.eqb_spec max 0) as [->|NZ].
      - (* the selection without a limit exists as for 1 *)
        assert (X : exists order f, ranking N (score4 b k) order /\ selection order (fun a => (sthr <= score4 b k a)%Qc) (fun a a' => overlapping thr (shape4 b a) (shape4 b a')) (fun a => In a order /\ f a = true)).
        { set (order := index_sort std_sort scores ((b * C + k) * N) N 1). assert (R : ranking N (score4 b k) order).
          { apply (ranking_ext N (fun i => nth (Z.to_nat ((b * C + k) * N + i * 1)) scores 0%Qc)); [intros i I; unfold score4, qat; rewrite Z.mul_1_r; auto|]. apply index_sort_ok. }
          set (f0 := fun a => negb (less (score4 b k a) sthr)).
          exists order, (fun a => existsb (Z.eqb a) (kept (over4 b) f0 order)). split; [auto|].
          assert (P : Permutation order (upto N)) by (rewrite upto_range; apply (proj1 R)).
          assert (V : forall t, 0 <= t < N -> existsb (Z.eqb (gat 0 order t)) (kept (over4 b) f0 order) = good order (over4 b) f0 t t).
          { intros t T. pose proof (K_in N order (over4 b) P NN f0 N (gat 0 order t) ltac:(lia)) as KI. unfold K in KI. rewrite firstn_all2 in KI by (rewrite (Permutation_length P); unfold upto; rewrite map_length, seq_length; lia).
            destruct (good order (over4 b) f0 t t) eqn:G.
            - apply existsb_exists. exists (gat 0 order t). split; [|apply Z.eqb_refl]. apply KI. exists t. auto.
            - destruct (existsb _ _) eqn:EX; [|auto]. apply existsb_exists in EX as (c & Hc & Ec). apply Z.eqb_eq in Ec. subst c. apply KI in Hc as (t' & T' & E' & G').
              apply (order_inj N order P NN) in E'; [|lia|lia]. subst. congruence. }
          destruct (good_selection N order (over4 b) P NN f0 (fun a => existsb (Z.eqb a) (kept (over4 b) f0 order)) V) as [S1 S2 S3].
          assert (F0 : forall a, f0 a = true <-> (sthr <= score4 b k a)%Qc) by (intros a; unfold f0; rewrite negb_true_iff; apply less_false). constructor.
          * intros a H. rewrite <- F0. auto.
          * intros i j H H1 H2. rewrite <- over4_ok. auto.
          * intros j H H1 H2. rewrite <- F0 in H1. destruct (S3 j H H1 H2) as (i & I1 & I2 & I3). exists i. rewrite <- over4_ok. auto. }
        destruct X as (order & f & R & S). exists order, f. split; [auto|]. split; [auto|]. reflexivity.
      - destruct (onnx_class_ok b k HB HK ltac:(lia)) as (order & f & R & S & E). exists order, f. split; [auto|]. split; [auto|]. rewrite E, map_map. cbn [snd]. apply map_id. }
  destruct (Z.eqb_spec max 0) as [->|NZ].
  - cbn [obind]. unfold sel. cbn [Z.eqb]. 
    assert (F1 : forall {T} (L : list Z), flat_map (fun _ : Z => @nil T) L = []) by (intros T L; induction L; cbn; auto).
    assert (F2 : forall {T} (L L' : list Z), flat_map (fun _ : Z => flat_map (fun _ : Z => @nil T) L') L = []) by (intros T L L'; induction L as [|? L IH]; cbn [flat_map]; [auto|]; rewrite IH, F1; auto).
    cbn [flat_map]. rewrite !F2. reflexivity.
  - set (rows := fun b k => map (fun a => (b, k, a)) (sel b k)).
    assert (EC : forall b k, 0 <= b < B -> 0 <= k < C -> onnx_class std_sort center max thr sthr N C boxes scores b k = Some (rows b k)).
    { intros b k HB HK. destruct (onnx_class_ok b k HB HK ltac:(lia)) as (order & f & R & S & E). unfold rows, sel. destruct (Z.eqb_spec max 0); [lia|]. rewrite E. do 2 f_equal. rewrite map_map. cbn [snd]. rewrite map_id. auto. }
    assert (LL : forall L acc, (forall b, In b L -> 0 <= b < B) -> loop (fun b => loop (fun k sel => obind (onnx_class std_sort center max thr sthr N C boxes scores b k) (fun l => Some (sel ++ l))) (upto C)) L acc =
      Some (acc ++ flat_map (fun b => flat_map (rows b) (upto C)) L)).
    { induction L as [|b L IH]; intros acc H; cbn [loop flat_map]; [rewrite app_nil_r; auto|]. rewrite (append_loop _ (rows b)); [|intros k Hk; apply upto_in in Hk; apply EC; auto; apply H; left; auto].
      cbn [obind]. rewrite IH by (intros; apply H; right; auto). rewrite app_assoc. auto. }
    rewrite LL by (intros b; apply upto_in). cbn [app obind]. f_equal. f_equal.
    + f_equal. f_equal. induction (upto B) as [|b L IH]; cbn [flat_map]; [auto|]. rewrite !app_length, IH. f_equal. clear. induction (upto C) as [|k L IH]; cbn [flat_map]; [auto|]. rewrite !app_length, IH. f_equal. unfold rows. apply map_length.
    + assert (FF : forall {X Y W} (g : Y -> list W) (h : X -> list Y) L, flat_map g (flat_map h L) = flat_map (fun x => flat_map g (h x)) L).
      { intros X Y W g h L. induction L as [|x L IH]; cbn [flat_map]; [auto|]. rewrite flat_map_app, IH. auto. }
      rewrite FF. apply flat_map_ext. intros b. rewrite FF. apply flat_map_ext. intros k. unfold rows. rewrite flat_map_concat_map, map_map, <- flat_map_concat_map. auto.
Qed.
End onnx.
End nms.
