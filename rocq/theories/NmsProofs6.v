(** Non-maximum suppression: what does not depend on the order of equal scores. *)
From Coq Require Import List ZArith Lia Bool Permutation QArith Qcanon.
From Verif Require Import NdModel NdSpec NdProofs IdxModel IdxSpec IdxProofs1 IdxProofs2 IdxProofs3 JoinModel JoinProofs ScanModel ScanSpec ScanProofs1 ReduceModel ReduceProofs1 SortSpec SortProofs1 SortProofs2 SortProofs3 ConvProofs3 FindModel FindSpec FindProofs1 FindProofs4 FindProofs6 FindProofs7 NmsModel NmsSpec NmsProofs1 NmsProofs2 NmsProofs3 NmsProofs4 NmsProofs5.
Import ListNotations.
Local Open Scope list_scope.
Local Open Scope Z_scope.

Lemma ranking_len n score l : 0 <= n -> ranking n score l -> Z.of_nat (length l) = n.
Proof. intros H [P _]. rewrite (Permutation_length P), range_length. lia. Qed.
Lemma ranking_in n score l a : 0 <= n -> ranking n score l -> (In a l <-> 0 <= a < n).
Proof. intros H [P _]. assert (R : In a l <-> In a (range 0 (Z.to_nat n))) by (split; apply Permutation_in; [auto|apply Permutation_sym; auto]). rewrite R, <- upto_range. apply upto_in. Qed.
Lemma ranking_nodup n score l : ranking n score l -> NoDup l.
Proof. intros [P _]. apply (Permutation_NoDup (Permutation_sym P)). rewrite <- upto_range. apply upto_nodup. Qed.
Lemma ranking_before n score l a b : 0 <= n -> ranking n score l -> 0 <= a < n -> 0 <= b < n -> (score b < score a)%Qc -> earlier l a b.
Proof.
  intros H R A Bb L. apply (ranking_in n score l a H R) in A. apply (ranking_in n score l b H R) in Bb. apply In_nth with (d := 0) in A as (i & I & <-), Bb as (j & J & <-).
  exists i, j. split; [|auto]. split; [|auto]. destruct (lt_eq_lt_dec i j) as [[G|E]|G]; [auto| |].
  - subst. exfalso. revert L. apply Qcle_not_lt, Qcle_refl.
  - exfalso. revert L. apply Qcle_not_lt. apply (proj2 R). lia.
Qed.
Lemma earlier_score n score l a b : ranking n score l -> earlier l a b -> (score b <= score a)%Qc.
Proof. intros R (i & j & I & <- & <-). apply (proj2 R). auto. Qed.
Lemma earlier_in l a b : earlier l a b -> In a l /\ In b l.
Proof. intros (i & j & I & <- & <-). split; apply nth_In; lia. Qed.
Lemma earlier_ne l a b : NoDup l -> earlier l a b -> a <> b.
Proof. intros ND (i & j & I & <- & <-) E. apply NoDup_nth in E; auto; lia. Qed.

Section order_free.
Variables (n : Z) (score : Z -> Qc) (pass : Z -> Prop) (over : Z -> Z -> Prop).
Hypothesis NN : 0 <= n.
Hypothesis DIST : forall a b, 0 <= a < n -> 0 <= b < n -> pass a -> pass b -> score a = score b -> a = b.
Lemma swap_order o o' a b : ranking n score o -> ranking n score o' -> pass a -> pass b -> earlier o a b -> earlier o' a b.
Proof.
  intros R R' PA PB E. pose proof (earlier_in _ _ _ E) as [IA IB]. apply (ranking_in n score o a NN R) in IA. apply (ranking_in n score o b NN R) in IB.
  apply (ranking_before n score o'); auto. destruct (Qcle_lt_or_eq _ _ (earlier_score n score o a b R E)) as [L|Q]; [auto|].
  exfalso. apply (earlier_ne o a b (ranking_nodup _ _ _ R) E). apply DIST; auto.
Qed.
Variables (o o' : list Z) (keep keep' : Z -> Prop).
Hypothesis RK : ranking n score o.
Hypothesis RK' : ranking n score o'.
Hypothesis SEL : selection o pass over keep.
Hypothesis SEL' : selection o' pass over keep'.
Hypothesis DEC : forall a, keep a \/ ~ keep a.
Hypothesis DEC' : forall a, keep' a \/ ~ keep' a.
Lemma apart_at l p k a b : selection l p over k -> k a -> k b -> earlier l a b -> ~ over a b.
Proof. intros S A Bb (i & j & I & <- & <-). apply (s_apart _ _ _ _ S); auto. Qed.
Lemma reason_at l p k b : selection l p over k -> In b l -> p b -> ~ k b -> exists a, earlier l a b /\ k a /\ over a b.
Proof.
  intros S I P K. apply In_nth with (d := 0) in I as (j & J & <-). destruct (s_reason _ _ _ _ S j J P K) as (i & L & KI & O). exists (nth i l 0). split; [exists i, j; split; [lia|auto]|auto].
Qed.
Lemma keep_same a : keep a <-> keep' a.
Proof.
  assert (IN : forall a, In a o <-> In a o') by (intros c; rewrite (ranking_in n score o c NN RK), (ranking_in n score o' c NN RK'); tauto).
  assert (G : forall m i, (i < m)%nat -> (i < length o)%nat -> keep (nth i o 0) <-> keep' (nth i o 0)).
  { induction m as [|m IH]; intros i Hm I; [lia|]. set (c := nth i o 0).
    assert (EARL : forall a, earlier o a c -> keep a <-> keep' a).
    { intros d (u & v & UV & <- & E). assert (v = i) by (apply (NoDup_nth o 0) in E; auto; [apply (ranking_nodup _ _ _ RK)|lia]). subst v. apply IH; lia. }
    assert (CO : In c o) by (apply nth_In; auto). split; intros K.
    - destruct (DEC' c) as [|NK]; [auto|]. destruct (s_pass _ _ _ _ SEL _ K) as [_ PC]. destruct (reason_at o' pass keep' c SEL' (proj1 (IN c) CO) PC NK) as (d & ED & KD & OD).
      destruct (s_pass _ _ _ _ SEL' _ KD) as [_ PD]. assert (ED' : earlier o d c) by (apply (swap_order o' o); auto). apply EARL in KD; [|auto]. exfalso. apply (apart_at o pass keep d c); auto.
    - destruct (DEC c) as [|NK]; [auto|]. destruct (s_pass _ _ _ _ SEL' _ K) as [_ PC]. destruct (reason_at o pass keep c SEL CO PC NK) as (d & ED & KD & OD).
      destruct (s_pass _ _ _ _ SEL _ KD) as [_ PD]. assert (ED' : earlier o' d c) by (apply (swap_order o o'); auto). apply EARL in KD; [|auto]. exfalso. apply (apart_at o' pass keep' d c); auto. }
  split; intros K.
  - destruct (s_pass _ _ _ _ SEL _ K) as [I _]. apply In_nth with (d := 0) in I as (i & I & <-). apply (G (S i)) in K; auto.
  - destruct (s_pass _ _ _ _ SEL' _ K) as [I _]. apply IN in I. apply In_nth with (d := 0) in I as (i & I & <-). apply (G (S i)); auto.
Qed.
End order_free.

Lemma same_list (y y' : list Qc) B N D : 0 <= B -> 0 <= N -> 0 < D -> glen y = B * N * D -> glen y' = B * N * D ->
  (forall b a j, 0 <= b < B -> 0 <= a < N -> 0 <= j < D -> gat 0%Qc y (pos N D b a j) = gat 0%Qc y' (pos N D b a j)) -> y = y'.
Proof.
  intros HB HN HD L L' V. apply nth_ext with (d := 0%Qc) (d' := 0%Qc); [unfold glen in *; lia|]. intros n H. set (q := Z.of_nat n). assert (Q : 0 <= q < B * N * D) by (unfold glen in *; lia).
  assert (N0 : 0 < N) by nia. pose proof (Z.div_mod q D ltac:(lia)) as E1. pose proof (Z.mod_pos_bound q D HD) as M1. pose proof (Z.div_mod (q / D) N ltac:(lia)) as E2. pose proof (Z.mod_pos_bound (q / D) N N0) as M2.
  assert (Q1 : 0 <= q / D < B * N) by nia. assert (Q2 : 0 <= q / D / N < B) by nia.
  specialize (V (q / D / N) ((q / D) mod N) (q mod D) Q2 M2 M1). unfold gat, pos in V. replace ((q / D / N * N + (q / D) mod N) * D + q mod D) with q in V by nia. unfold q in V. rewrite Nat2Z.id in V. auto.
Qed.

Local Open Scope Qc_scope.
Lemma within_same a c : left_ c < right_ c -> low c < high c -> left_ a <= left_ c -> right_ c <= right_ a -> low a <= low c -> high c <= high a -> area a = area c -> a = c.
Proof.
  intros L H A1 A2 A3 A4 E. unfold area in E. destruct a as [la ra wa ha], c as [lc rc wc hc]. cbn [left_ right_ low high] in *.
  assert (X : (ra - la) - (rc - lc) = 0).
  { set (p := ra - la) in *. set (q := rc - lc) in *. set (u := ha - wa) in *. set (v := hc - wc) in *.
    assert (0 < q) by (unfold q; qlra). assert (0 < v) by (unfold v; qlra). assert (q <= p) by (unfold p, q; qlra). assert (v <= u) by (unfold u, v; qlra).
    clearbody p q u v. clear - E H0 H1 H2 H3. qnra. }
  assert (Y : (ha - wa) - (hc - wc) = 0).
  { set (p := ra - la) in *. set (q := rc - lc) in *. set (u := ha - wa) in *. set (v := hc - wc) in *.
    assert (0 < q) by (unfold q; qlra). assert (p = q) by qlra. subst p. clear - E H0 H1. rewrite H1 in *. clearbody q u v. qnra. }
  assert (la = lc) by qlra. assert (ra = rc) by qlra. assert (wa = wc) by qlra. assert (ha = hc) by qlra. subst. reflexivity.
Qed.
Lemma iou_one a b : iou_is a b 1 -> a = b.
Proof.
  intros [(c & C & E)|[_ E]]; [|discriminate]. destruct (common_area a b c C) as (P & LA & LB).
  assert (D : 0 < area a + area b - area c) by qlra.
  assert (Q : area c = area a + area b - area c).
  { rewrite <- (Qcmult_1_l (area a + area b - area c)). rewrite E. unfold Qcdiv. rewrite <- Qcmult_assoc, (Qcmult_comm (/ _)), Qcmult_inv_r; [ring|]. intros Z. rewrite Z in D. discriminate. }
  assert (EA : area a = area c) by qlra. assert (EB : area b = area c) by qlra.
  pose proof C as (L & H & CC).
  assert (C1 : covers c (left_ c) (low c)) by (repeat split; qlra). assert (C2 : covers c (right_ c) (high c)) by (repeat split; qlra).
  apply CC in C1 as [(A1 & A2 & A3 & A4) (A5 & A6 & A7 & A8)]. apply CC in C2 as [(B1 & B2 & B3 & B4) (B5 & B6 & B7 & B8)].
  rewrite (within_same a c), (within_same b c); auto.
Qed.
