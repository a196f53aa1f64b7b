(** Affine layers, and self folding. *)
From Coq Require Import List ZArith Bool QArith Qcanon Lia.
From Verif Require Import NdSpec ScanSpec ReduceSpec ConvSpec MatSpec BinSpec BinModel NdProofs IdxModel FoldModel FoldSpec FoldProofs1 FoldProofs2.
Import ListNotations.
Local Open Scope list_scope.
Local Open Scope Z_scope.

(** ** Affine *)
Lemma swap_extents_ok C a : valued a (stat_shape 1 2 C) -> exists a', swap_extents [] a = Some a' /\ valued a' (stat_shape 0 2 C) /\ el a' = el a.
Proof.
  intros (E & L). cbn in E. unfold swap_extents. rewrite E. unfold np_reshape. rewrite E. cbn [fold_right]. replace (C * (1 * 1)) with (1 * (C * 1)) by lia. rewrite Z.eqb_refl.
  eexists. split; [reflexivity |]. split; [split; [reflexivity |] | reflexivity]. cbn [el]. rewrite L, !stat_size by lia. reflexivity.
Qed.
Lemma reshape_affine last C s : valued_stats s 1 2 C -> exists s', reshape_bn Affine last s = Some s' /\ valued_stats s' 0 2 C /\ eps s' = eps s /\
  forall c, channel (beta s') c = channel (beta s) c /\ channel (gamma s') c = channel (gamma s) c /\ channel (mean s') c = channel (mean s) c /\ channel (var s') c = channel (var s) c.
Proof.
  intros (VB & VG & VM & VV). unfold reshape_bn, on_stats.
  destruct (swap_extents_ok C _ VB) as (b & -> & B1 & B2), (swap_extents_ok C _ VG) as (g & -> & G1 & G2), (swap_extents_ok C _ VM) as (m & -> & M1 & M2), (swap_extents_ok C _ VV) as (v & -> & V1 & V2).
  cbn [obind]. eexists. split; [reflexivity |]. split; [unfold valued_stats; cbn [beta gamma mean var]; auto |]. split; [reflexivity |]. intros c. unfold channel. cbn [beta gamma mean var]. rewrite B2, G2, M2, V2. auto.
Qed.
Lemma affine_refused root last w b s n C : 0 <= n -> 0 < C -> sh w = [n; C] -> valued b [C] -> valued_stats s 1 2 C -> n <> C \/ C = 1 -> fold_layer root Affine last w b s = None.
Proof.
  intros Pn PC Ew VB VS H. destruct (reshape_affine last C s VS) as (s' & R & VS' & _). destruct (Z.eq_dec n C) as [-> | N].
  - assert (C = 1) by tauto. subst C. destruct (folded_ok root Affine last w b s s' 0 1) as (w' & b' & E & VW & Eb & _); try (rewrite Ew); try assumption; try (cbn [length]; lia); try reflexivity; [repeat constructor; lia |].
    unfold fold_layer. rewrite E. cbn [obind fst snd]. unfold created. rewrite (proj1 VW), same_shape_refl. cbn [obind]. rewrite (proj1 VB), Eb. reflexivity.
  - unfold fold_layer, folded. rewrite R. cbn [obind]. destruct (scale_shift_ok root s' 0 2 C) as (c0 & c1 & -> & V0 & V1 & A); [lia | lia | exact VS' |]. cbn [obind fst snd].
    destruct V0 as (E0 & _). destruct V1 as (E1 & L1).
    assert (CASES : (exists w', np_op Qcmult c0 w = Some w' /\ sh w' <> [n; C]) \/ np_op Qcmult c0 w = None \/ C = 1).
    { unfold np_op. rewrite E0, Ew. unfold bshape. cbn [stat_shape seq map Nat.eqb rev app bshape_rev]. destruct (Z.eqb_spec 1 C) as [| NC]; [right; right; congruence |]. change (1 =? 1) with true. cbn [obind]. destruct (Z.eqb_spec C n); [exfalso; lia |]. destruct (Z.eqb_spec C 1); [right; right; assumption |]. destruct (Z.eqb_spec n 1) as [-> |]; [left | right; left; reflexivity].
      cbn [obind rev app]. eexists. split; [reflexivity |]. cbn [np_build sh]. congruence. }
    destruct CASES as [(w' & -> & NE) | [-> | ->]].
    + cbn [obind]. destruct (obind (np_reshape _ _) _); [| reflexivity]. cbn [obind fst snd]. unfold created. rewrite Ew. unfold same_shape at 1. destruct (list_eq_dec Z.eq_dec [n; C] (sh w')); [congruence | reflexivity].
    + reflexivity.
    + destruct (np_op Qcmult c0 w) as [w' |]; [| reflexivity]. cbn [obind].
      destruct (obind (np_reshape (sh c1) b) _) as [b' |] eqn:EB; [| reflexivity]. cbn [obind fst snd]. unfold created. destruct (same_shape (sh w) (sh w')); [| reflexivity]. cbn [obind]. rewrite (proj1 VB).
      enough (sh (np_squeeze b') = []) as -> by reflexivity. cbn [np_squeeze sh].
      destruct (np_reshape (sh c1) b) as [b0 |]; [| discriminate]. cbn [obind] in EB. destruct (np_op Qcmult c0 b0) as [p |]; [| discriminate]. cbn [obind] in EB. unfold np_iop in EB.
      destruct (np_op Qcplus c1 p) as [r |]; [| discriminate]. cbn [obind] in EB. destruct (same_shape (sh r) (sh c1)) eqn:ES; [| discriminate]. injection EB as <-. apply same_shape_eq in ES. rewrite ES, E1. apply (squeeze_stat 0 2 1). lia.
Qed.

(** ** Self folding *)
Lemma nth_range_indices s p : 0 <= p < size s -> Forall (fun n => 0 <= n) s -> let i := nth (Z.to_nat p) (indices s) [] in inside i s /\ off i s = p.
Proof.
  intros H P i. pose proof (indices_length s P) as L. split; [apply indices_in, nth_In; lia |].
  pose proof (indices_off s P) as E. apply (f_equal (fun l => nth (Z.to_nat p) l 0)) in E. rewrite range_nth in E by lia.
  rewrite (nth_indep (map _ _) 0 (off [] s)) in E by (rewrite map_length; lia). rewrite (map_nth (fun x => off x s)) in E. fold i in E. lia.
Qed.
Lemma op_flat op a b s : valued a s -> valued b s -> Forall (fun n => 0 <= n) s -> exists r, np_op op a b = Some r /\ valued r s /\
  forall p, 0 <= p < size s -> channel r p = op (channel a p) (channel b p).
Proof.
  intros (Ea & _) (Eb & _) P. destruct (op_same op a b s Ea Eb P) as (r & R & V & A). exists r. split; [exact R |]. split; [exact V |]. intros p H.
  destruct (nth_range_indices s p H P) as (I & O). specialize (A _ I). unfold np_at in A. rewrite Ea, Eb, (proj1 V), !ravel_off, O in A. exact A.
Qed.
Lemma scale_shift_flat root s S : Forall (fun n => 0 <= n) S -> valued (beta s) S -> valued (gamma s) S -> valued (mean s) S -> valued (var s) S -> exists c0 c1, scale_shift root s = Some (c0, c1) /\
  valued c0 S /\ valued c1 S /\ forall p, 0 <= p < size S -> channel c0 p = factor root s p /\ channel c1 p = summand root s p.
Proof.
  intros P VB VG VM VV. unfold scale_shift. set (std := np_map _ (var s)).
  assert (VS : valued std S) by (destruct VV as (E & L); split; [exact E |]; unfold std, np_map; cbn [el]; rewrite map_length; exact L).
  assert (CS : forall c, 0 <= c < size S -> channel std c = root (channel (var s) c + eps s)%Qc).
  { intros c I. unfold std, channel, np_map. cbn [el]. destruct VV as (_ & L). rewrite (nth_indep _ _ ((fun v => root (v + eps s)%Qc) 0%Qc)) by (rewrite map_length; lia). apply (map_nth (fun v => root (v + eps s)%Qc)). }
  destruct (op_flat Qcdiv (gamma s) std S VG VS P) as (c0 & -> & V0 & A0). cbn [obind].
  destruct (op_flat Qcmult (gamma s) (mean s) S VG VM P) as (gm & -> & V1 & A1). cbn [obind].
  destruct (op_flat Qcdiv gm std S V1 VS P) as (q & -> & V2 & A2). cbn [obind].
  destruct (op_flat Qcminus (beta s) q S VB V2 P) as (c1 & -> & V3 & A3). cbn [obind].
  exists c0, c1. split; [reflexivity |]. split; [exact V0 |]. split; [exact V3 |]. intros c I. rewrite A0, A3, A2, A1, CS by exact I. split; reflexivity.
Qed.
Lemma squeeze_size s : size (filter (fun n => negb (n =? 1)) s) = size s.
Proof. induction s as [| n s IH]; [reflexivity |]. cbn [filter size]. destruct (Z.eqb_spec n 1) as [-> |]; cbn [negb size]; rewrite IH; lia. Qed.
Lemma squeeze_valued a S : valued a S -> valued (np_squeeze a) (filter (fun n => negb (n =? 1)) S).
Proof. intros (E & L). split; [cbn [np_squeeze sh]; rewrite E; reflexivity |]. cbn [np_squeeze el]. rewrite squeeze_size. exact L. Qed.
Lemma self_folded_ok root s S : Forall (fun n => 0 <= n) S -> valued (beta s) S -> valued (gamma s) S -> valued (mean s) S -> valued (var s) S ->
  exists c0 c1, self_folded root s = Some (c0, c1) /\ valued c0 S /\ valued c1 S /\ forall p, 0 <= p < size S -> channel c0 p = factor root s p /\ channel c1 p = summand root s p.
Proof.
  intros P VB VG VM VV. unfold self_folded, on_stats. cbn [obind]. set (s' := {| beta := _; gamma := _; mean := _; var := _; eps := _ |}). set (Q := filter (fun n => negb (n =? 1)) S).
  assert (PQ : Forall (fun n => 0 <= n) Q) by (unfold Q; apply Forall_forall; intros n I; apply filter_In in I as (I & _); revert n I; apply Forall_forall; exact P).
  destruct (scale_shift_flat root s' Q PQ) as (c0 & c1 & -> & V0 & V1 & A); [apply squeeze_valued; exact VB | apply squeeze_valued; exact VG | apply squeeze_valued; exact VM | apply squeeze_valued; exact VV |]. cbn [obind fst snd].
  assert (SQ : size Q = size S) by apply squeeze_size. unfold np_reshape. rewrite (proj1 VB), (proj1 V0), (proj1 V1).
  assert (EQ : (fold_right Z.mul 1 S =? fold_right Z.mul 1 Q) = true) by (apply Z.eqb_eq; rewrite !size_fold; symmetry; exact SQ). rewrite EQ. cbn [obind].
  eexists _, _. split; [reflexivity |]. split; [split; [reflexivity |]; cbn [el]; rewrite (proj2 V0); exact SQ |]. split; [split; [reflexivity |]; cbn [el]; rewrite (proj2 V1); exact SQ |].
  intros p I. rewrite <- SQ in I. exact (A p I).
Qed.
