(** The opposite direction: sums over the weights of an output channel. *)
From Coq Require Import List ZArith Bool QArith Qcanon Lia.
From Verif Require Import NdSpec ScanSpec ReduceSpec ConvSpec NdProofs ConvProofs3 ConvProofs7 ScatProofs1 PoolProofs3 IdxModel FoldModel FoldSpec FoldProofs1 FoldProofs2 FoldProofs3.
Import ListNotations.
Local Open Scope list_scope.
Local Open Scope Z_scope.

Lemma total_flat {T U} (L : list T) (h : T -> list U) f : total (flat_map h L) f = total L (fun a => total (h a) f).
Proof. induction L as [| a L IH]; [reflexivity |]. cbn [flat_map]. rewrite total_app, total_cons, IH. reflexivity. Qed.
Lemma total_indices_cons n s f : total (indices (n :: s)) f = total (range 0 (Z.to_nat n)) (fun i => total (indices s) (fun j => f (i :: j))).
Proof. cbn [indices]. rewrite total_flat. apply total_ext. intros i _. apply total_map. Qed.
Lemma filter_total {T} (L : list T) p f : fold_right Qcplus 0%Qc (map f (filter p L)) = total L (fun x => if p x then f x else 0%Qc).
Proof. induction L as [| a L IH]; [reflexivity |]. rewrite total_cons, <- IH. cbn [filter]. destruct (p a); cbn [map fold_right]; [reflexivity | ring]. Qed.
Lemma total_none {T} (L : list T) f : (forall a, In a L -> f a = 0%Qc) -> total L f = 0%Qc.
Proof. intros H. induction L as [| a L IH]; [reflexivity |]. rewrite total_cons, H, IH by (intros; try apply H; cbn; auto). ring. Qed.
Lemma total_range_only n p (f : Z -> Qc) : 0 <= p < n -> (forall i, 0 <= i < n -> i <> p -> f i = 0%Qc) -> total (range 0 (Z.to_nat n)) f = f p.
Proof. intros H G. rewrite ConvProofs7.total_range. apply ScatProofs1.zsum_only; assumption. Qed.
Lemma kept_rest l : forall k, (0 < k)%nat -> kept (fun a => negb (Nat.eqb a 0)) k l = [].
Proof. induction l as [| x l IH]; intros k H; cbn [kept]; [reflexivity |]. destruct (Nat.eqb_spec k 0); [lia |]. cbn [negb]. apply IH. lia. Qed.
Lemma sum_first a n rest : sh a = n :: rest -> 0 <= n ->
  let r := np_sum (fun a => negb (Nat.eqb a 0)) a in valued r [n] /\ forall o, 0 <= o < n -> np_at r [o] = total (indices rest) (fun j => np_at a (o :: j)).
Proof.
  intros E P r. assert (K : forall x l, kept (fun a => negb (Nat.eqb a 0)) 0 (x :: l) = [x]) by (intros; cbn [kept]; rewrite kept_rest by lia; reflexivity).
  unfold r, np_sum. rewrite E, K. split; [apply build_valued; constructor; [exact P | constructor] |]. intros o I. rewrite at_build by (constructor; [exact I | constructor]).
  rewrite filter_total, ndindex_indices, total_indices_cons. rewrite (total_range_only n o) by
    (first [exact I | intros i Ii N; apply total_none; intros j _; rewrite K; unfold same_shape; destruct (list_eq_dec Z.eq_dec [i] [o]); [congruence | reflexivity]]).
  apply total_ext. intros j _. rewrite K, same_shape_refl. reflexivity.
Qed.
Lemma opposite_ok root last w b s O C rest : sh w = O :: C :: rest -> Forall (fun n => 0 <= n) (sh w) -> valued_stats s 1 (length (sh w)) C -> valued b [O] ->
  exists w' b', fold_layer_opposite root Convolution last w b s = Some (w', b') /\ valued w' (sh w) /\ valued b' [O] /\
  (forall i, inside i (sh w) -> value w' i = (factor root s (nth 1 i 0%Z) * value w i)%Qc) /\
  forall o, 0 <= o < O -> channel b' o = (total (range 0 (Z.to_nat C)) (fun c => total (indices rest) (fun k => value w' (o :: c :: k) * summand root s c)) + channel b o)%Qc.
Proof.
  intros E P VS (Eb & Lb). unfold fold_layer_opposite, folded_opposite, reshape_bn_opposite. cbn [obind].
  assert (H : (1 < length (sh w))%nat) by (rewrite E; cbn; lia). assert (EK : nth_error (sh w) 1 = Some C) by (rewrite E; reflexivity).
  assert (PO : 0 <= O /\ 0 <= C) by (rewrite E in P; inversion P as [| ? ? ? P']; inversion P'; auto). destruct PO as [PO PC].
  destruct (scale_shift_ok root s 1 _ C H PC VS) as (c0 & c1 & -> & V0 & V1 & A). cbn [obind fst snd].
  destruct (scale_weights root s c0 w 1 C H V0 EK P (fun c I => proj1 (A c I))) as (w' & -> & VW & AW). cbn [obind].
  assert (E1 : sh c1 = stat_shape 1 (length (sh w)) C) by apply V1. assert (EW : sh w' = sh w) by apply VW.
  destruct (op_right Qcmult w' c1) as (p & -> & VP & AP); [rewrite E1, EW; apply stat_fits; exact EK | rewrite EW; exact P |]. cbn [obind].
  assert (EP : sh p = O :: C :: rest) by (rewrite (proj1 VP), EW; exact E).
  change (reduced_axes Convolution last (length (sh w'))) with (fun a => negb (Nat.eqb a 0)).
  destruct (sum_first p O (C :: rest) EP PO) as (VR & AR). set (r := np_sum _ p) in *. unfold np_iop.
  destruct (op_same Qcplus r b [O] (proj1 VR) Eb ltac:(constructor; [exact PO | constructor])) as (b' & -> & VB & AB). cbn [obind]. rewrite (proj1 VR), (proj1 VB), same_shape_refl. cbn [obind fst snd].
  unfold created. rewrite EW, Eb, (proj1 VB), !same_shape_refl. cbn [obind]. exists w', b'. split; [reflexivity |]. split; [exact VW |]. split; [exact VB |]. split; [exact AW |].
  intros o I. assert (CH : forall a, sh a = [O] -> np_at a [o] = channel a o). { intros a Ea. unfold np_at, channel. rewrite Ea. cbn [ravel fold_right]. do 2 f_equal. lia. }
  rewrite <- (CH b' (proj1 VB)), AB, AR, (CH b Eb) by (first [exact I | constructor; [exact I | constructor]]). f_equal. rewrite total_indices_cons. apply total_ext. intros c Ic. apply in_range in Ic.
  apply total_ext. intros k Ik. apply indices_in in Ik. assert (In3 : inside (o :: c :: k) (sh w)) by (rewrite E; repeat constructor; try lia; exact Ik).
  rewrite AP by (rewrite EW; exact In3). rewrite at_value by (rewrite EW; exact In3). f_equal. rewrite E1, pick_stat.
  - cbn [nth]. rewrite (unit_at c1 1 _ C c H E1 Ic). apply A. exact Ic.
  - apply inside_length. exact In3.
  - cbn [nth]. lia.
Qed.
