(** Sums, matrix products and folding. *)
From Coq Require Import List ZArith Lia Bool QArith Qcanon.
From Verif Require Import NdModel NdSpec NdProofs IdxModel IdxSpec IdxProofs1 IdxProofs2 IdxProofs3 IdxProofs6 JoinModel JoinSpec JoinProofs JoinProofs2 ScanModel ScanSpec ScanProofs1 ReduceModel ReduceSpec ReduceProofs1 SortProofs2 SortProofs3 ConvModel ConvSpec ConvProofs1 ConvProofs2.
Import ListNotations.
Local Open Scope list_scope.
Local Open Scope Z_scope.

Lemma loop_inv {T} (I : Z -> T -> Prop) (f : Z -> T -> option T) n : 0 <= n ->
  (forall i s, 0 <= i < n -> I i s -> exists s', f i s = Some s' /\ I (i + 1) s') ->
  forall s, I 0 s -> exists s', loop f (upto n) s = Some s' /\ I n s'.
Proof.
  intros Hn H s I0. rewrite <- (Z2Nat.id n) in H |- * by auto. induction (Z.to_nat n) as [|k IH]; [exists s; split; [reflexivity|exact I0]|].
  destruct IH as (s1 & E1 & O1); [intros; apply H; auto; lia|]. destruct (H (Z.of_nat k) s1) as (s2 & E2 & O2); [lia|auto|].
  exists s2. rewrite upto_S, loop_app, E1. cbn [obind loop]. rewrite E2. cbn [obind]. split; [reflexivity|].
  replace (Z.of_nat (S k)) with (Z.of_nat k + 1) by lia. exact O2.
Qed.

(** Sum of [f 0], ..., [f (n - 1)]. *)
Definition zsum (n : Z) (f : Z -> Qc) : Qc := qsum (Z.to_nat n) f.
Lemma zsum_0 f : zsum 0 f = 0%Qc.
Proof. reflexivity. Qed.
Lemma zsum_S n f : 0 <= n -> zsum (n + 1) f = (zsum n f + f n)%Qc.
Proof. intros H. unfold zsum. replace (Z.to_nat (n + 1)) with (S (Z.to_nat n)) by lia. cbn [qsum]. rewrite Z2Nat.id by auto. reflexivity. Qed.
Lemma zsum_neg n f : n <= 0 -> zsum n f = 0%Qc.
Proof. intros H. unfold zsum. replace (Z.to_nat n) with O by lia. reflexivity. Qed.
Lemma zsum_ext n f g : (forall i, 0 <= i < n -> f i = g i) -> zsum n f = zsum n g.
Proof. intros H. unfold zsum. apply qsum_ext. intros i Hi. apply H. lia. Qed.
Lemma zsum_plus n f g : zsum n (fun i => f i + g i)%Qc = (zsum n f + zsum n g)%Qc.
Proof. unfold zsum. induction (Z.to_nat n) as [|k IH]; cbn [qsum]; [ring|]. rewrite IH. ring. Qed.
Lemma zsum_scale n c f : zsum n (fun i => c * f i)%Qc = (c * zsum n f)%Qc.
Proof. apply qsum_scale. Qed.
Lemma zsum_scale_r n c f : zsum n (fun i => f i * c)%Qc = (zsum n f * c)%Qc.
Proof. rewrite Qcmult_comm, <- zsum_scale. apply zsum_ext. intros. ring. Qed.
Lemma zsum_zero n f : (forall i, 0 <= i < n -> f i = 0%Qc) -> zsum n f = 0%Qc.
Proof. intros H. apply qsum_zero. intros i Hi. apply H. lia. Qed.
Lemma zsum_swap n m f : zsum n (fun i => zsum m (fun j => f i j)) = zsum m (fun j => zsum n (fun i => f i j)).
Proof.
  unfold zsum at 1 4. induction (Z.to_nat n) as [|k IH]; cbn [qsum].
  - symmetry. apply zsum_zero. reflexivity.
  - rewrite IH, <- zsum_plus. reflexivity.
Qed.
Lemma zsum_add n m f : 0 <= n -> 0 <= m -> zsum (n + m) f = (zsum n f + zsum m (fun i => f (n + i)%Z))%Qc.
Proof.
  intros Hn Hm. rewrite <- (Z2Nat.id m) by auto. induction (Z.to_nat m) as [|k IH].
  - rewrite Z.add_0_r, zsum_0. ring.
  - rewrite Nat2Z.inj_succ. unfold Z.succ. rewrite Z.add_assoc, zsum_S, IH, zsum_S by lia. ring.
Qed.
Lemma zsum_mul n m f : 0 <= n -> 0 <= m -> zsum (n * m) f = zsum n (fun i => zsum m (fun j => f (i * m + j)%Z)).
Proof.
  intros Hn Hm. rewrite <- (Z2Nat.id n) by auto. induction (Z.to_nat n) as [|k IH]; [rewrite Z.mul_0_l; reflexivity|].
  rewrite Nat2Z.inj_succ. unfold Z.succ. rewrite Z.mul_add_distr_r, Z.mul_1_l, zsum_add, IH, (zsum_S (Z.of_nat k)) by nia. reflexivity.
Qed.
Lemma lsum_app a b : lsum (a ++ b) = (lsum a + lsum b)%Qc.
Proof. unfold lsum. induction a as [|x a IH]; cbn [app fold_right]; [ring|]. rewrite IH. ring. Qed.
Lemma total_upto n f : total (upto n) f = zsum n f.
Proof.
  unfold total, zsum, upto. induction (Z.to_nat n) as [|k IH]; [reflexivity|].
  rewrite seq_S, !map_app, lsum_app, IH. cbn [map lsum fold_right qsum plus]. ring.
Qed.
Lemma sum_list_lsum l : sum_list l = lsum l.
Proof.
  unfold sum_list. enough (G : forall a, fold_left Qcplus l a = (a + lsum l)%Qc) by (rewrite G; ring).
  induction l as [|x l IH]; intros a; cbn [fold_left lsum fold_right]; [ring|]. rewrite IH. unfold lsum. ring.
Qed.
Lemma total_indices sh (f : list Z -> Qc) (F : Z -> Qc) : nonneg sh -> (forall i, inside i sh -> f i = F (off i sh)) -> total (indices sh) f = zsum (size sh) F.
Proof.
  intros P H. rewrite <- total_upto, upto_indices by auto. unfold total. rewrite map_map. f_equal. apply map_ext_in. intros i Hi. apply H. apply indices_in. auto.
Qed.
Lemma qinner_zsum : forall u v, length u = length v -> qinner u v = zsum (qlen v) (fun i => qat u i * qat v i)%Qc.
Proof.
  induction u as [|a u IH]; intros [|b v]; cbn [length]; intros L; try discriminate; [reflexivity|].
  cbn [qinner]. rewrite IH by lia. unfold qlen. cbn [length]. rewrite Nat2Z.inj_succ. unfold Z.succ. rewrite Z.add_comm, zsum_add by lia.
  f_equal.
  - change 1 with (0 + 1). rewrite zsum_S, zsum_0 by lia. unfold qat. cbn. ring.
  - apply zsum_ext. intros i Hi. unfold qat. replace (Z.to_nat (1 + i)) with (S (Z.to_nat i)) by lia. reflexivity.
Qed.
Lemma qinner_comm : forall u v, qinner u v = qinner v u.
Proof. induction u as [|a u IH]; intros [|b v]; cbn [qinner]; auto. rewrite IH. ring. Qed.

(** * Folding *)
Lemma fold_vals (og : Z -> Z -> option Z) nx rows cols col xo x : 0 <= rows -> 0 <= cols -> 0 <= xo -> xo + nx <= qlen x -> qlen col = rows * cols ->
  (forall r q t, within rows r -> within cols q -> og r q = Some t -> within nx t) ->
  exists x', loop (fun r => loop (fun q => add_patch col xo (og r q) (r * cols + q)) (upto cols)) (upto rows) x = Some x' /\ length x' = length x /\
    forall u, qinner u x' = (qinner u x + zsum rows (fun r => zsum cols (fun q => qat col (r * cols + q) * val u xo (og r q))))%Qc.
Proof.
  intros HR HC XO XN LC B.
  destruct (loop_inv (fun r x' => length x' = length x /\ forall u, qinner u x' = (qinner u x + zsum r (fun r => zsum cols (fun q => qat col (r * cols + q)%Z * val u xo (og r q))))%Qc)
    (fun r => loop (fun q => add_patch col xo (og r q) (r * cols + q)) (upto cols)) rows) with (s := x) as (x' & E & L & M); auto.
  - intros r x1 Hr (L1 & M1).
    destruct (loop_inv (fun q x' => length x' = length x1 /\ forall u, qinner u x' = (qinner u x1 + zsum q (fun q => qat col (r * cols + q)%Z * val u xo (og r q)))%Qc)
      (fun q => add_patch col xo (og r q) (r * cols + q)) cols) with (s := x1) as (x2 & E2 & L2 & M2); auto.
    + intros q x2 Hq (L2 & M2). unfold add_patch. destruct (og r q) as [t|] eqn:Eo.
      * specialize (B r q t Hr Hq Eo). unfold within in B.
        assert (BC : within (qlen col) (r * cols + q)) by (unfold within; nia).
        assert (BX : within (qlen x2) (xo + t)) by (unfold within, qlen in *; lia).
        rewrite (get_ok col) by auto. rewrite (get_ok x2) by auto. cbn [obind].
        destruct (put_ok x2 (xo + t) (qat x2 (xo + t) + qat col (r * cols + q))%Qc BX) as (x3 & E3 & L3 & _ & I3). exists x3. split; [auto|split; [lia|]].
        intros u. rewrite I3, M2, zsum_S by lia. rewrite Eo. cbn [val]. ring.
      * exists x2. split; [auto|split; [auto|]]. intros u. rewrite M2, zsum_S by lia. rewrite Eo. cbn [val]. ring.
    + split; [auto|]. intros u. rewrite zsum_0. ring.
    + exists x2. split; [auto|split; [lia|]]. intros u. rewrite M2, M1, zsum_S by lia. ring.
  - split; [auto|]. intros u. rewrite zsum_0. ring.
  - exists x'. auto.
Qed.

(** * Matrix products *)
Lemma matmul_ok (accum : bool) N rows depth cols (a b : Z -> Z -> option Qc) (fa fb : Z -> Z -> Qc) base dst : 0 <= rows -> 0 <= cols -> 0 <= base -> base + rows * cols <= N ->
  (forall r k, 0 <= r < rows -> 0 <= k < depth -> a r k = Some (fa r k)) -> (forall k c, 0 <= k < depth -> 0 <= c < cols -> b k c = Some (fb k c)) -> qlen dst = N ->
  exists dst', matmul accum rows depth cols a b base dst = Some dst' /\ length dst' = length dst /\
    (forall r c, 0 <= r < rows -> 0 <= c < cols -> qat dst' (base + r * cols + c) = ((if accum then qat dst (base + r * cols + c) else 0) + zsum depth (fun k => fa r k * fb k c))%Qc) /\
    (forall q, 0 <= q -> ~ base <= q < base + rows * cols -> qat dst' q = qat dst q).
Proof.
  intros HR HC HB HN A B L. unfold matmul.
  apply (writes2 N rows cols base (fun r c old => (if accum then old else 0) + zsum depth (fun k => fa r k * fb k c))%Qc); auto.
  intros r c d Hr Hc Ld. rewrite (omap_some _ (fun k => fa r k * fb k c)%Qc).
  2:{ intros k Hk. apply upto_in in Hk. rewrite A, B by auto. reflexivity. }
  cbn [obind]. rewrite sum_list_lsum. change (lsum (map (fun k => fa r k * fb k c)%Qc (upto depth))) with (total (upto depth) (fun k => fa r k * fb k c)%Qc). rewrite total_upto.
  destruct accum.
  - rewrite get_ok; [reflexivity|]. unfold within. rewrite Ld. nia.
  - f_equal. ring.
Qed.
Lemma group_matmul (accum : bool) N G rows depth cols (a b : Z -> Z -> Z -> option Qc) (fa fb : Z -> Z -> Z -> Qc) base dst : 0 <= G -> 0 <= rows -> 0 <= cols -> 0 <= base -> base + G * rows * cols <= N ->
  (forall g r k, 0 <= g < G -> 0 <= r < rows -> 0 <= k < depth -> a g r k = Some (fa g r k)) ->
  (forall g k c, 0 <= g < G -> 0 <= k < depth -> 0 <= c < cols -> b g k c = Some (fb g k c)) -> qlen dst = N ->
  exists dst', loop (fun g => matmul accum rows depth cols (a g) (b g) (base + g * rows * cols)) (upto G) dst = Some dst' /\ length dst' = length dst /\
    (forall g r c, 0 <= g < G -> 0 <= r < rows -> 0 <= c < cols -> qat dst' (base + (g * rows + r) * cols + c) =
      ((if accum then qat dst (base + (g * rows + r) * cols + c) else 0) + zsum depth (fun k => fa g r k * fb g k c))%Qc) /\
    (forall q, 0 <= q -> ~ base <= q < base + G * rows * cols -> qat dst' q = qat dst q).
Proof.
  intros HG HR HC HB HN A B L. assert (RC : 0 <= rows * cols) by nia.
  destruct (loop_inv (fun i d => length d = length dst /\
    (forall g r c, 0 <= g < i -> 0 <= r < rows -> 0 <= c < cols -> qat d (base + (g * rows + r) * cols + c) =
      ((if accum then qat dst (base + (g * rows + r) * cols + c) else 0) + zsum depth (fun k => fa g r k * fb g k c))%Qc) /\
    (forall q, 0 <= q -> ~ base <= q < base + i * rows * cols -> qat d q = qat dst q))
    (fun g => matmul accum rows depth cols (a g) (b g) (base + g * rows * cols)) G) with (s := dst) as (d & E & L1 & V & F); auto.
  - intros g d Hg (L1 & V & F).
    assert (B1 : 0 <= g * rows * cols) by nia. assert (B2 : (g + 1) * rows * cols <= G * rows * cols) by nia.
    destruct (matmul_ok accum N rows depth cols (a g) (b g) (fa g) (fb g) (base + g * rows * cols) d) as (d' & E & L2 & V2 & F2); auto; try lia; try (unfold qlen in *; lia).
    exists d'. split; [auto|split; [lia|split]].
    + intros h r c Hh Hr Hc. assert (RCB : 0 <= r * cols + c < rows * cols) by nia. destruct (Z.eq_dec h g) as [->|Ne].
      * replace (base + (g * rows + r) * cols + c) with (base + g * rows * cols + r * cols + c) by ring. rewrite V2 by auto.
        destruct accum; [|reflexivity]. rewrite F; [reflexivity|lia|lia].
      * rewrite F2; [apply V; auto; lia| |].
        -- assert (0 <= (h * rows + r) * cols) by nia. lia.
        -- assert ((h + 1) * (rows * cols) <= g * (rows * cols)) by (apply Z.mul_le_mono_nonneg_r; lia).
           replace ((h * rows + r) * cols) with (h * (rows * cols) + r * cols) by ring. lia.
    + intros q Hq Nq. rewrite F2; [apply F; auto; lia|auto|lia].
  - split; [auto|split; [intros; lia|auto]].
  - exists d. auto.
Qed.
