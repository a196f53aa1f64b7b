(** Windows of a pooling as lists of indices. *)
From Coq Require Import List ZArith Lia Bool QArith Qcanon.
From Verif Require Import NdModel NdSpec NdProofs IdxModel IdxSpec IdxProofs1 IdxProofs2 IdxProofs3 IdxProofs6 JoinModel JoinSpec JoinProofs JoinProofs2 ScanModel ScanSpec ScanProofs1 ReduceModel ReduceSpec ReduceProofs1 SortProofs2 SortProofs3 ConvModel ConvSpec ConvProofs1 ConvProofs2 ConvProofs3 ConvProofs5 ConvProofs6 ConvProofs7 PoolModel PoolSpec.
Import ListNotations.
Local Open Scope list_scope.
Local Open Scope Z_scope.

Lemma range_filter lo hi : forall n f, filter (fun i => (lo <=? i) && (i <? hi)) (range f n) = range (Z.max lo f) (Z.to_nat (Z.min hi (f + Z.of_nat n) - Z.max lo f)).
Proof.
  induction n as [| n IH]; intros f.
  - replace (Z.to_nat _) with 0%nat by lia. reflexivity.
  - cbn [range filter]. rewrite IH. destruct (lo <=? f) eqn:L; [apply Z.leb_le in L | apply Z.leb_gt in L]; cbn [andb].
    + destruct (f <? hi) eqn:H; [apply Z.ltb_lt in H | apply Z.ltb_ge in H].
      * replace (Z.to_nat (Z.min hi (f + Z.of_nat (S n)) - Z.max lo f)) with (S (Z.to_nat (Z.min hi (f + 1 + Z.of_nat n) - Z.max lo (f + 1)))) by lia.
        cbn [range]. replace (Z.max lo f) with f by lia. replace (Z.max lo (f + 1)) with (f + 1) by lia. reflexivity.
      * replace (Z.to_nat (Z.min hi (f + Z.of_nat (S n)) - Z.max lo f)) with 0%nat by lia.
        replace (Z.to_nat (Z.min hi (f + 1 + Z.of_nat n) - Z.max lo (f + 1))) with 0%nat by lia. reflexivity.
    + replace (Z.max lo (f + 1)) with (Z.max lo f) by lia. replace (f + 1 + Z.of_nat n) with (f + Z.of_nat (S n)) by lia. reflexivity.
Qed.
Lemma shifted_range a n : map (Z.add a) (upto n) = range a (Z.to_nat n).
Proof. rewrite upto_range, map_add_range, Z.add_0_r. reflexivity. Qed.
Lemma box_indices sh : box (map (pair 0) sh) = indices sh.
Proof. induction sh as [| n sh IH]; [reflexivity |]. cbn [map box indices]. rewrite shifted_range, Z.sub_0_r, IH. reflexivity. Qed.
Lemma filter_cons (g : Z -> bool) (h : list Z -> bool) L R : filter (fun i => match i with a :: r => g a && h r | [] => true end) (flat_map (fun i => map (cons i) L) R) =
  flat_map (fun i => map (cons i) (filter h L)) (filter g R).
Proof.
  induction R as [| a R IH]; [reflexivity |]. cbn [flat_map filter]. rewrite filter_app, IH.
  assert (E : filter (fun i => match i with a :: r => g a && h r | [] => true end) (map (cons a) L) = if g a then map (cons a) (filter h L) else []).
  { clear IH. induction L as [| b L IL]; cbn [map filter]; [destruct (g a); reflexivity |]. rewrite IL. destruct (g a); cbn [andb]; [destruct (h b); reflexivity | reflexivity]. }
  rewrite E. destruct (g a); reflexivity.
Qed.
(** The clipped windows contain exactly the places that the kernel covers, in the same order. *)
Lemma box_region : forall S St P K o, length St = length S -> length P = length S -> length K = length S -> length o = length S -> Forall (fun p => 0 <= p) P ->
  box (clips S (spans o St P K S)) = filter (covers St P K o) (indices S).
Proof.
  induction S as [| n S IH]; intros [| s St] [| p P] [| k K] [| o os] L1 L2 L3 L4 NP; try discriminate; [reflexivity |].
  injection L1; injection L2; injection L3; injection L4; intros. inversion NP; subst.
  cbn [spans]. unfold clips. cbn [combine map fst snd box]. fold (clips S (spans os St P K S)). rewrite IH by assumption. unfold clip, span. cbn [fst snd].
  cbn [indices]. rewrite (filter_ext (covers (s :: St) (p :: P) (k :: K) (o :: os)) (fun i => match i with a :: r => ((o * s - p <=? a) && (a <? o * s - p + k)) && covers St P K os r | [] => true end)) by (intros [| a r]; cbn [covers]; reflexivity).
  rewrite (filter_cons (fun a => (o * s - p <=? a) && (a <? o * s - p + k)) (covers St P K os)), range_filter, shifted_range. f_equal. f_equal. lia.
Qed.
Lemma regions_clips : forall S St P K o, length St = length S -> length P = length S -> length K = length S -> length o = length S -> Forall (fun p => 0 <= p) P ->
  regions o St P K S = clips S (spans o St P K S).
Proof.
  induction S as [| n S IH]; intros [| s St] [| p P] [| k K] [| o os] L1 L2 L3 L4 NP; try discriminate; [reflexivity |].
  injection L1; injection L2; injection L3; injection L4; intros. inversion NP; subst.
  cbn [spans regions]. unfold clips. cbn [combine map fst snd]. fold (clips S (spans os St P K S)). rewrite IH by assumption. unfold clip, span. cbn [fst snd].
  f_equal. f_equal; lia.
Qed.
Lemma box_length l : Forall (fun ab => fst ab <= snd ab) l -> Z.of_nat (length (box l)) = pool_size l.
Proof.
  intros H. assert (G : forall r, fold_left (fun r ab => r * (snd ab - fst ab)) l r = r * Z.of_nat (length (box l))).
  { induction H as [| [a b] l L _ IH]; intros r; cbn [fold_left box].
    - cbn [length]. lia.
    - rewrite IH. cbn [fst snd] in *. rewrite shifted_range.
      assert (E : forall m f, length (flat_map (fun i => map (cons i) (box l)) (range f m)) = (m * length (box l))%nat).
      { induction m as [| m IM]; intros f; [reflexivity |]. cbn [range flat_map]. rewrite app_length, map_length, IM. reflexivity. }
      rewrite E, Nat2Z.inj_mul, Z2Nat.id by lia. ring. }
  unfold pool_size. rewrite G. lia.
Qed.
Lemma flat_off : forall sh idx, inside idx sh -> sh <> [] -> flat idx (cstrides sh) = off idx sh.
Proof.
  induction sh as [| n sh IH]; intros idx H NE; [congruence |]. inversion H as [| i n' idx' sh' B F]; subst.
  rewrite cstrides_cons. destruct F as [| j m idx' sh' B' F].
  - cbn [flat off size]. lia.
  - change (flat (i :: j :: idx') (size (m :: sh') :: cstrides (m :: sh'))) with (i * size (m :: sh') + flat (j :: idx') (cstrides (m :: sh'))).
    rewrite IH; [reflexivity | constructor; assumption | discriminate].
Qed.
