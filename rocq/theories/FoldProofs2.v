(** The folded parameters. *)
From Coq Require Import List ZArith Bool QArith Qcanon Lia Field.
From Verif Require Import NdSpec ScanSpec ReduceSpec ConvSpec NdProofs IdxModel FoldModel FoldSpec FoldProofs1.
Import ListNotations.
Local Open Scope list_scope.
Local Open Scope Z_scope.

(** The factor and the summand that batch normalization amounts to. *)
Definition factor (root : Qc -> Qc) (s : stats) (c : Z) : Qc := (channel (gamma s) c / root (channel (var s) c + eps s))%Qc.
Definition summand (root : Qc -> Qc) (s : stats) (c : Z) : Qc := (channel (beta s) c - channel (gamma s) c * channel (mean s) c / root (channel (var s) c + eps s))%Qc.
Lemma batch_norm_linear root s c y : root (channel (var s) c + eps s)%Qc <> 0%Qc -> batch_norm root s c y = (factor root s c * y + summand root s c)%Qc.
Proof. intros H. unfold batch_norm, normalized, factor, summand. field. exact H. Qed.
Lemma map_channel f a k n C c : (k < n)%nat -> valued a (stat_shape k n C) -> 0 <= c < C -> channel (np_map f a) c = f (channel a c).
Proof.
  intros H (_ & L) I. rewrite stat_size in L by exact H. unfold channel, np_map. cbn [el]. rewrite (nth_indep _ _ (f 0%Qc)) by (rewrite map_length; lia). apply map_nth.
Qed.
Lemma op_stat op a b k n C : (k < n)%nat -> 0 <= C -> valued a (stat_shape k n C) -> valued b (stat_shape k n C) ->
  exists r, np_op op a b = Some r /\ valued r (stat_shape k n C) /\ forall c, 0 <= c < C -> channel r c = op (channel a c) (channel b c).
Proof.
  intros H PC (Ea & _) (Eb & _). destruct (op_same op a b (stat_shape k n C) Ea Eb (stat_nonneg k n C PC)) as (r & R & V & A). exists r. split; [exact R |]. split; [exact V |].
  intros c I. destruct V as (Er & _). rewrite <- (unit_at r k n C c), <- (unit_at a k n C c), <- (unit_at b k n C c) by assumption. apply A, unit_inside. exact I.
Qed.
Lemma scale_shift_ok root s k n C : (k < n)%nat -> 0 <= C -> valued_stats s k n C -> exists c0 c1, scale_shift root s = Some (c0, c1) /\
  valued c0 (stat_shape k n C) /\ valued c1 (stat_shape k n C) /\ forall c, 0 <= c < C -> channel c0 c = factor root s c /\ channel c1 c = summand root s c.
Proof.
  intros H PC (VB & VG & VM & VV). unfold scale_shift. set (std := np_map _ (var s)).
  assert (VS : valued std (stat_shape k n C)) by (destruct VV as (E & L); split; [exact E |]; unfold std, np_map; cbn [el]; rewrite map_length; exact L).
  assert (CS : forall c, 0 <= c < C -> channel std c = root (channel (var s) c + eps s)%Qc) by (intros c I; exact (map_channel (fun v => root (v + eps s)%Qc) (var s) k n C c H VV I)).
  destruct (op_stat Qcdiv (gamma s) std k n C H PC VG VS) as (c0 & -> & V0 & A0). cbn [obind].
  destruct (op_stat Qcmult (gamma s) (mean s) k n C H PC VG VM) as (gm & -> & V1 & A1). cbn [obind].
  destruct (op_stat Qcdiv gm std k n C H PC V1 VS) as (q & -> & V2 & A2). cbn [obind].
  destruct (op_stat Qcminus (beta s) q k n C H PC VB V2) as (c1 & -> & V3 & A3). cbn [obind].
  exists c0, c1. split; [reflexivity |]. split; [exact V0 |]. split; [exact V3 |]. intros c I. rewrite A0, A3, A2, A1, CS by exact I. split; reflexivity.
Qed.
Lemma filter_none C k : forall m st, (k < st)%nat -> filter (fun n => negb (n =? 1)) (map (fun i => if Nat.eqb i k then C else 1) (seq st m)) = [].
Proof. induction m as [| m IH]; intros st L; cbn [seq map filter]; [reflexivity |]. destruct (Nat.eqb_spec st k); [lia |]. cbn. apply IH. lia. Qed.
Lemma squeeze_stat k n C : (k < n)%nat -> filter (fun n => negb (n =? 1)) (stat_shape k n C) = if C =? 1 then [] else [C].
Proof.
  intros H. unfold stat_shape. enough (G : forall m st, (st <= k < st + m)%nat -> filter (fun n => negb (n =? 1)) (map (fun i => if Nat.eqb i k then C else 1) (seq st m)) = if C =? 1 then [] else [C]) by (apply G; lia).
  induction m as [| m IH]; intros st L; [lia |]. cbn [seq map filter]. destruct (Nat.eqb_spec st k) as [-> | N].
  - destruct (Z.eqb_spec C 1); cbn [negb]; [apply filter_none; lia |]. rewrite filter_none by lia. reflexivity.
  - cbn. apply IH. lia.
Qed.
Lemma nth_inside k i s n : inside i s -> nth_error s k = Some n -> 0 <= nth k i 0 < n.
Proof. intros I. revert k. induction I as [| x m i s H F IH]; intros [| k] E; cbn in *; try discriminate; [injection E as <-; exact H | apply IH; exact E]. Qed.
(** Scaled weights. *)
Lemma scale_weights root s c0 w k C : (k < length (sh w))%nat -> valued c0 (stat_shape k (length (sh w)) C) -> nth_error (sh w) k = Some C -> Forall (fun n => 0 <= n) (sh w) ->
  (forall c, 0 <= c < C -> channel c0 c = factor root s c) ->
  exists w', np_op Qcmult c0 w = Some w' /\ valued w' (sh w) /\ forall i, inside i (sh w) -> value w' i = (factor root s (nth k i 0%Z) * value w i)%Qc.
Proof.
  intros H (E0 & _) EK P F. destruct (op_left Qcmult c0 w) as (w' & R & V & A); [rewrite E0; apply stat_fits; exact EK | exact P |].
  exists w'. split; [exact R |]. split; [exact V |]. intros i I. pose proof (nth_inside k i _ C I EK) as B.
  rewrite <- (at_value w'), A, E0, pick_stat, (unit_at c0 k (length (sh w)) C), F, at_value by (try exact I; try exact E0; try lia; try (apply inside_length; exact I); destruct V as (-> & _); exact I). reflexivity.
Qed.
Lemma folded_ok root kind last w b s s' k C : (k < length (sh w))%nat -> nth_error (sh w) k = Some C -> Forall (fun n => 0 <= n) (sh w) ->
  reshape_bn kind last s = Some s' -> valued_stats s' k (length (sh w)) C -> valued b [C] ->
  exists w' b', folded root kind last w (Some b) s = Some (w', b') /\ valued w' (sh w) /\ sh b' = (if C =? 1 then [] else [C]) /\ Z.of_nat (length (el b')) = C /\
  (forall i, inside i (sh w) -> value w' i = (factor root s' (nth k i 0%Z) * value w i)%Qc) /\
  forall c, 0 <= c < C -> channel b' c = (summand root s' c + factor root s' c * channel b c)%Qc.
Proof.
  intros H EK P ER VS (Eb & Lb). unfold folded. rewrite ER. cbn [obind].
  assert (PC : 0 <= C) by (apply (proj1 (Forall_forall _ _) P); eapply nth_error_In; exact EK).
  destruct (scale_shift_ok root s' k _ C H PC VS) as (c0 & c1 & -> & V0 & V1 & A). cbn [obind fst snd].
  destruct (scale_weights root s' c0 w k C H V0 EK P (fun c I => proj1 (A c I))) as (w' & -> & VW & AW). cbn [obind].
  pose proof V1 as (E1 & L1). unfold np_reshape. rewrite E1, !size_fold, stat_size, Eb by exact H. replace (fold_right Z.mul 1 [C]) with C by (cbn; lia). rewrite Z.eqb_refl. cbn [obind].
  set (b0 := {| sh := _; el := el b |}). assert (V2 : valued b0 (stat_shape k (length (sh w)) C)) by (split; [reflexivity |]; cbn [b0 el]; rewrite Lb, stat_size by exact H; cbn; lia).
  destruct (op_stat Qcmult c0 b0 k _ C H PC V0 V2) as (p & -> & V3 & A3). cbn [obind]. unfold np_iop.
  destruct (op_stat Qcplus c1 p k _ C H PC V1 V3) as (r & -> & V4 & A4). cbn [obind]. pose proof V4 as (E4 & L4). rewrite E1, E4, same_shape_refl. cbn [obind].
  exists w', (np_squeeze r). split; [reflexivity |]. split; [exact VW |]. split; [unfold np_squeeze; cbn [sh]; rewrite E4; apply squeeze_stat; exact H |].
  split; [unfold np_squeeze; cbn [el]; rewrite L4; apply stat_size; exact H |]. split; [exact AW |].
  intros c I. change (channel (np_squeeze r) c) with (channel r c). rewrite A4, A3 by exact I. destruct (A c I) as [-> ->]. reflexivity.
Qed.
Lemma fold_layer_ok root kind last w b s s' k C : (k < length (sh w))%nat -> nth_error (sh w) k = Some C -> Forall (fun n => 0 <= n) (sh w) -> C <> 1 ->
  reshape_bn kind last s = Some s' -> valued_stats s' k (length (sh w)) C -> valued b [C] ->
  exists w' b', fold_layer root kind last w b s = Some (w', b') /\ valued w' (sh w) /\ valued b' [C] /\
  (forall i, inside i (sh w) -> value w' i = (factor root s' (nth k i 0%Z) * value w i)%Qc) /\
  forall c, 0 <= c < C -> channel b' c = (summand root s' c + factor root s' c * channel b c)%Qc.
Proof.
  intros H EK P N1 ER VS VB. destruct (folded_ok root kind last w b s s' k C H EK P ER VS VB) as (w' & b' & E & VW & Eb & Lb & A & A').
  destruct (Z.eqb_spec C 1); [contradiction |]. exists w', b'. unfold fold_layer. rewrite E. cbn [obind fst snd]. unfold created. rewrite Eb, (proj1 VW), (proj1 VB), !same_shape_refl. cbn [obind].
  split; [reflexivity |]. split; [exact VW |]. split; [split; [exact Eb | cbn; lia] |]. split; assumption.
Qed.
(** Convolution: the parameters of the normalization are switched. *)
Lemma switch_axes_ok last s n C : let k := if last : bool then (n - 1)%nat else 1%nat in (k < n)%nat -> 0 <= C -> valued_stats s k n C ->
  exists s', switch_axes last s = Some s' /\ valued_stats s' 0 n C /\ eps s' = eps s /\
  forall c, 0 <= c < C -> channel (beta s') c = channel (beta s) c /\ channel (gamma s') c = channel (gamma s) c /\ channel (mean s') c = channel (mean s) c /\ channel (var s') c = channel (var s) c.
Proof.
  intros k H PC (VB & VG & VM & VV). unfold switch_axes. rewrite (proj1 VB), stat_length. rewrite switched_is by exact H. fold k. cbn [obind]. unfold on_stats.
  rewrite (proj1 VB), (proj1 VG), (proj1 VM), (proj1 VV), stat_length, map_length, seq_length, Nat.eqb_refl. cbn [obind].
  eexists. split; [reflexivity |]. cbn [beta gamma mean var eps].
  destruct (transpose_stat k n C _ H PC (proj1 VB)) as (T1 & T1'), (transpose_stat k n C _ H PC (proj1 VG)) as (T2 & T2'), (transpose_stat k n C _ H PC (proj1 VM)) as (T3 & T3'), (transpose_stat k n C _ H PC (proj1 VV)) as (T4 & T4').
  split; [unfold valued_stats; cbn [beta gamma mean var]; auto |]. split; [reflexivity |]. intros c I. auto.
Qed.
Lemma factor_ext root s s' c : eps s' = eps s -> channel (beta s') c = channel (beta s) c /\ channel (gamma s') c = channel (gamma s) c /\ channel (mean s') c = channel (mean s) c /\ channel (var s') c = channel (var s) c ->
  factor root s' c = factor root s c /\ summand root s' c = summand root s c.
Proof. intros E (E1 & E2 & E3 & E4). unfold factor, summand. rewrite E, E1, E2, E3, E4. split; reflexivity. Qed.
