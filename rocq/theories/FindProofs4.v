(** The N-th place in every ranking; BinaryError. *)
From Coq Require Import List ZArith Lia Bool Permutation QArith Qcanon.
From Verif Require Import NdModel NdSpec NdProofs IdxModel IdxSpec IdxProofs1 IdxProofs2 IdxProofs3 IdxProofs6 JoinModel JoinSpec JoinProofs JoinProofs2 ScanModel ScanSpec ScanProofs1 ReduceModel ReduceSpec ReduceProofs1 ReduceProofs2 ReduceProofs5 SortModel SortSpec SortProofs1 SortProofs2 SortProofs3 ConvProofs1 FindModel FindSpec FindProofs1.
Import ListNotations.
Local Open Scope list_scope.
Local Open Scope Z_scope.

Lemma nth_first {T} (l : list T) d : forall k m, nth k (firstn m l) d = if Nat.ltb k m then nth k l d else d.
Proof.
  induction l as [|a l IH]; intros k m; [rewrite firstn_nil; destruct k; destruct (Nat.ltb _ m); auto|].
  destruct m as [|m]; [destruct k; auto|]. destruct k as [|k]; [auto|]. cbn [firstn nth]. rewrite IH. reflexivity.
Qed.
Lemma NoDup_first {T} (l : list T) m : NoDup l -> NoDup (firstn m l).
Proof. intros H. rewrite <- (firstn_skipn m l) in H. revert H. induction (firstn m l) as [|a f IH]; intros H; [constructor|]. inversion H; subst. constructor; [intros X; apply H2; apply in_or_app; auto|auto]. Qed.
Section place.
Variables (n : Z) (score : Z -> Qc) (label : Z).
Hypothesis HL : 0 <= label < n.
Let good := filter (fun c => negb (less (score c) (score label))) (upto n).
Lemma good_in c : In c good <-> 0 <= c < n /\ (score label <= score c)%Qc.
Proof. unfold good. rewrite filter_In, upto_in, negb_true_iff, less_false. tauto. Qed.
Lemma good_nodup : NoDup good.
Proof. apply NoDup_filter, upto_nodup. Qed.
Lemma ranking_facts l : ranking n score l -> NoDup l /\ forall c, In c l <-> 0 <= c < n.
Proof.
  intros [P _]. rewrite <- upto_range in P. split; [apply (Permutation_NoDup (Permutation_sym P)), upto_nodup|]. intros c. rewrite <- upto_in. split; apply Permutation_in; [|apply Permutation_sym]; auto.
Qed.
Lemma place_before N l : Z.of_nat (length good) <= N -> ranking n score l -> In label (firstn (Z.to_nat N) l).
Proof.
  intros C RK. destruct (ranking_facts l RK) as [ND IN]. destruct RK as [_ OR].
  destruct (In_nth l label 0 (proj2 (IN label) HL)) as (q & Hq & Eq).
  assert (INC : incl (firstn (S q) l) good).
  { intros c H. apply (In_nth _ _ 0) in H as (k & Hk & Ek). rewrite firstn_length in Hk. rewrite nth_first in Ek. destruct (Nat.ltb_spec k (S q)); [|lia].
    apply good_in. split; [apply IN; rewrite <- Ek; apply nth_In; lia|]. destruct (Nat.eq_dec k q) as [->|]; [rewrite <- Ek, Eq; apply Qcle_refl|]. rewrite <- Ek, <- Eq. apply OR. lia. }
  assert (LE : (length (firstn (S q) l) <= length good)%nat) by (apply NoDup_incl_length; [apply NoDup_first; auto|auto]).
  rewrite firstn_length in LE. rewrite <- Eq. replace (nth q l 0) with (nth q (firstn (Z.to_nat N) l) 0).
  - apply nth_In. rewrite firstn_length. lia.
  - rewrite nth_first. destruct (Nat.ltb_spec q (Z.to_nat N)); [auto|lia].
Qed.
(** The ranking that is worst for the label. *)
Definition worse (a b : Z) : bool := more (score a) (score b) || (same (score a) (score b) && negb (a =? label) && (b =? label)).
Lemma worse_true a b : worse a b = true <-> (score b < score a)%Qc \/ (score a = score b /\ a <> label /\ b = label).
Proof.
  unfold worse. rewrite orb_true_iff, !andb_true_iff, more_less, less_true, same_true, negb_true_iff, Z.eqb_neq, Z.eqb_eq. tauto.
Qed.
Lemma worse_weak : strict_weak worse.
Proof.
  assert (F : forall a b, worse a b = false <-> ~ ((score b < score a)%Qc \/ (score a = score b /\ a <> label /\ b = label))) by (intros; rewrite <- not_true_iff_false, worse_true; tauto).
  assert (IR : forall q : Qc, ~ (q < q)%Qc) by (intros q H; apply (Qclt_not_le _ _ H), Qcle_refl).
  split; [|split; [|split]].
  - intros a. apply F. intros [H|(_ & H & E)]; [apply (IR _ H)|auto].
  - intros a b H. apply F. apply worse_true in H. intros G. destruct H as [H|(E & H1 & H2)]; destruct G as [G|(E' & G1 & G2)].
    + apply (IR (score a)). eapply Qclt_trans; eauto. + rewrite E' in H. apply (IR _ H). + rewrite E in G. apply (IR _ G). + auto.
  - intros a b c H G. apply worse_true in H, G. apply worse_true. destruct H as [H|(E & H1 & H2)]; destruct G as [G|(E' & G1 & G2)].
    + left. eapply Qclt_trans; eauto. + left. rewrite <- E'. auto. + left. rewrite E. auto. + congruence.
  - intros a b c H G. apply F in H, G. apply F. intros X.
    assert (H' : (score a <= score b)%Qc) by (apply Qcnot_lt_le; intros Z; apply H; auto). assert (G' : (score b <= score c)%Qc) by (apply Qcnot_lt_le; intros Z; apply G; auto).
    destruct X as [X|(E & X1 & X2)]; [apply (Qclt_not_le _ _ X); eapply Qcle_trans; eauto|].
    assert (E1 : score a = score b) by (apply Qcle_antisym; [auto|rewrite E; auto]).
    destruct (Z.eq_dec b label) as [->|NB]; [apply H; auto|]. apply G. right. split; [congruence|auto].
Qed.
Lemma place_worst N : (forall l, ranking n score l -> In label (firstn (Z.to_nat N) l)) -> Z.of_nat (length good) <= N.
Proof.
  intros H. set (l := isort worse (upto n)). destruct (isort_sorting worse (upto n) worse_weak) as [P OR]. fold l in P, OR.
  assert (RK : ranking n score l).
  { split; [rewrite <- upto_range; auto|]. intros i j IJ. specialize (OR 0 i j IJ). apply Qcnot_lt_le. intros X. rewrite (proj2 (worse_true _ _)) in OR by auto. discriminate. }
  destruct (ranking_facts l RK) as [ND IN]. specialize (H l RK). apply (In_nth _ _ 0) in H as (q & Hq & Eq). rewrite firstn_length in Hq. rewrite nth_first in Eq.
  destruct (Nat.ltb_spec q (Z.to_nat N)); [|lia].
  assert (INC : incl good (firstn (S q) l)).
  { intros c G. apply good_in in G as [G1 G2]. destruct (In_nth l c 0 (proj2 (IN c) G1)) as (k & Hk & Ek). destruct (Nat.lt_ge_cases k (S q)) as [K|K].
    - replace c with (nth k (firstn (S q) l) 0).
      + apply nth_In. rewrite firstn_length. lia.
      + rewrite nth_first. destruct (Nat.ltb_spec k (S q)); [auto|lia].
    - exfalso. assert (OQ : worse (nth k l 0) (nth q l 0) = false) by (apply (OR 0); lia). rewrite Eq, Ek in OQ. apply not_true_iff_false in OQ. apply OQ. apply worse_true.
      destruct (Qcle_lt_or_eq _ _ G2) as [X|X]; [auto|]. right. split; [auto|]. split; [|auto]. intros ->. assert (k = q) by (apply (proj1 (NoDup_nth l 0) ND); try lia; congruence). lia. }
  pose proof (NoDup_incl_length good_nodup INC) as LE. rewrite firstn_length in LE. lia.
Qed.
Lemma place_ok N : (forall l, ranking n score l -> In label (firstn (Z.to_nat N) l)) <-> Z.of_nat (length good) <= N.
Proof. split; [apply place_worst|]. intros H l. apply place_before. auto. Qed.
End place.

Lemma binary_error_ok shape x0 x1 y0 : nonneg shape -> qlen x0 = size shape -> qlen x1 = size shape -> glen y0 = size shape ->
  exists y, binary_error_forward shape shape x0 x1 y0 = Some y /\ length y = length y0 /\
  forall idx, inside idx shape -> elem y shape idx = if Bool.eqb (negb (less (qelem x0 shape idx) half)) (negb (less (qelem x1 shape idx) half)) then 0 else 1.
Proof.
  intros NN L0 L1 LY. unfold binary_error_forward. destruct (list_eq_dec Z.eq_dec shape shape) as [_|N]; [|congruence]. cbn [negb]. rewrite size_from_0.
  destruct (writes_ok 0 (size shape) (fun s => s) (fun s _ => if Bool.eqb (negb (less (qat x0 s) half)) (negb (less (qat x1 s) half)) then 0 else 1)
     (fun s y => obind (get x0 s) (fun a => obind (get x1 s) (fun b => put y s (if Bool.eqb (negb (less a half)) (negb (less b half)) then 0 else 1)))) (upto (size shape))) with (a := y0) as (y & E & L & V & _).
  - rewrite map_id. apply upto_nodup.
  - intros i H. apply upto_in in H. auto.
  - intros i a H _. apply upto_in in H. rewrite !get_ok by (unfold within; lia). reflexivity.
  - auto.
  - exists y. split; [auto|]. split; [auto|]. intros idx I. pose proof (off_bound _ _ I). unfold elem, qelem. rewrite position_off by auto. cbn [Z.mul Z.add]. apply V. apply upto_in. auto.
Qed.
