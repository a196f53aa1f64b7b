(** Orders, heaps and the k best elements. *)
From Coq Require Import List ZArith Lia Bool Permutation QArith Qcanon.
From Verif Require Import NdModel NdSpec NdProofs IdxModel IdxSpec IdxProofs1 IdxProofs2 JoinModel JoinProofs JoinProofs2 ScanModel ScanSpec ScanProofs1 ReduceModel ReduceSpec ReduceProofs1 ReduceProofs2 ReduceProofs5 SortModel SortSpec.
Import ListNotations.
Local Open Scope list_scope.
Local Open Scope Z_scope.

Lemma less_weak : strict_weak less.
Proof.
  split; [apply less_0|]. split; [|split].
  - intros a b. rewrite less_t, less_f. apply Qclt_le_weak.
  - intros a b c. rewrite !less_t. apply Qclt_trans.
  - intros a b c. rewrite !less_f. intros H1 H2. eapply Qcle_trans; eauto.
Qed.
Lemma more_weak : strict_weak more.
Proof.
  split; [apply more_0|]. split; [|split].
  - intros a b. rewrite more_t, more_f. apply Qclt_le_weak.
  - intros a b c. rewrite !more_t. intros H1 H2. eapply Qclt_trans; eauto.
  - intros a b c. rewrite !more_f. apply Qcle_trans.
Qed.
Lemma weak_on {A B} (R : B -> B -> bool) (f : A -> B) : strict_weak R -> strict_weak (fun a b => R (f a) (f b)).
Proof. intros (H1 & H2 & H3 & H4). split; [intros; apply H1|]. split; [intros; apply H2; auto|]. split; intros; eauto. Qed.
Lemma greater_weak largest : strict_weak (greater largest).
Proof. destruct largest; [apply more_weak|apply less_weak]. Qed.
Lemma cmp_weak largest : strict_weak (cmp largest).
Proof. apply (weak_on (greater largest) fst), greater_weak. Qed.
Lemma sort_cmp_weak reverse l : strict_weak (sort_cmp reverse l).
Proof. unfold sort_cmp. destruct reverse; [apply (weak_on more), more_weak|apply (weak_on less), less_weak]. Qed.

Lemma heap_front {A} (R : A -> A -> bool) a l : strict_weak R -> is_heap R (a :: l) -> forall e, In e (a :: l) -> R a e = false.
Proof.
  intros (H1 & _ & _ & H4) H e He. destruct (In_nth _ _ a He) as (i & Hi & <-). clear He. revert Hi. induction i as [i IH] using lt_wf_ind. intros Hi.
  destruct i as [|i]; [apply H1|]. specialize (H a (S i) ltac:(lia)). assert (P : ((S i - 1) / 2 < S i)%nat) by (apply Nat.div_lt_upper_bound; lia).
  eapply H4; [|exact H]. apply IH; [auto|lia].
Qed.

Section top_k.
Variable std : heap_functions.
Hypothesis STD : heaping std.
Variables (largest abs : bool) (x : list Qc) (k : Z).
Hypothesis K : 0 < k <= qlen x.
Let val (v : Qc) : Qc := if abs then magnitude v else v.
Let P (i : Z) : Qc * Z := (val (qat x i), i).
Let R := cmp largest.

Definition top_inv (t : Z) (h : list (Qc * Z)) : Prop :=
  Z.of_nat (length h) = k /\ NoDup (map snd h) /\ (forall e, In e h -> 0 <= snd e < t /\ e = P (snd e)) /\ is_heap R h /\
  (forall i e, 0 <= i < t -> ~ In i (map snd h) -> In e h -> R (P i) e = false).

Lemma top_inv_perm (h h' : list (Qc * Z)) : Permutation h' h -> (Z.of_nat (length h) = k /\ NoDup (map snd h)) -> Z.of_nat (length h') = k /\ NoDup (map snd h').
Proof.
  intros PM (L & N). split; [rewrite (Permutation_length PM); auto|]. eapply Permutation_NoDup; [|exact N]. apply Permutation_sym, Permutation_map. auto.
Qed.
Lemma top_step_ok t h : top_inv t h -> k <= t -> exists h', top_step std largest (P t) h = Some h' /\ top_inv (t + 1) h'.
Proof.
  intros (L & N & EQ & HP & BEST) T. pose proof (cmp_weak largest) as SW. fold R in SW. destruct (STD R SW) as (_ & POP & PUSH & _).
  destruct h as [|f l]; [cbn in L; lia|]. unfold top_step. cbn [get Z.ltb Z.compare Z.to_nat nth_error obind].
  change (greater largest (fst (P t)) (fst f)) with (R (P t) f).
  pose proof (heap_front R f l SW HP) as FR. destruct SW as (S1 & S2 & S3 & S4).
  assert (EX : R (P t) f = true \/ R (P t) f = false) by (destruct (R (P t) f); auto). destruct EX as [Ex|Ex]; rewrite Ex.
  - destruct (POP f l HP) as (h & E & PM & HH). fold R. rewrite E. pose proof (Permutation_length PM) as PL.
    assert (EP : put (h ++ [f]) (Z.of_nat (length (f :: l)) - 1) (P t) = Some (h ++ [P t])).
    { cbn [length]. unfold put. destruct (Z.ltb_spec (Z.of_nat (S (length l)) - 1) 0); [lia|]. replace (Z.to_nat (Z.of_nat (S (length l)) - 1)) with (length h) by lia.
      clear. induction h as [|a h IH]; cbn [app length put_nat]; [auto|]. rewrite IH. auto. }
    rewrite EP. cbn [obind]. destruct (PUSH h (P t) HH) as (PM2 & HH2). exists (push_heap std R (h ++ [P t])). split; [auto|].
    assert (IN : forall e, In e (push_heap std R (h ++ [P t])) -> In e l \/ e = P t).
    { intros e He. apply (Permutation_in _ PM2), in_app_or in He. destruct He as [He|[<-|[]]]; [left; eapply Permutation_in; eauto|right; auto]. }
    cbn [map] in N. inversion N as [|? ? N1 N2]; subst.
    assert (NT : ~ In t (map snd l)). { intros H. apply in_map_iff in H as (e & <- & He). destruct (EQ e) as (Hb & _); [right; auto|]. lia. }
    split; [|split; [|split; [|split]]].
    + rewrite (Permutation_length PM2), app_length. cbn [length] in *. lia.
    + apply (Permutation_NoDup (l := t :: map snd l)); [|constructor; auto].
      apply Permutation_trans with (map snd (h ++ [P t])); [|apply Permutation_map, Permutation_sym; auto]. rewrite map_app. cbn [map snd P].
      apply Permutation_trans with (t :: map snd h); [constructor; apply Permutation_map, Permutation_sym; auto|]. apply Permutation_cons_append.
    + intros e He. destruct (IN e He) as [He'| ->]; [|cbn [snd P]; split; [lia|auto]]. destruct (EQ e) as (Hb & He2); [right; auto|]. split; [lia|auto].
    + auto.
    + intros i e Hi Ni He.
      assert (IH2 : forall j, In j (map snd l) -> In j (map snd (push_heap std R (h ++ [P t])))).
      { intros j Hj. apply in_map_iff in Hj as (e' & <- & He'). apply in_map. apply (Permutation_in _ (Permutation_sym PM2)), in_or_app. left. eapply Permutation_in; [apply Permutation_sym; eauto|auto]. }
      assert (It : i <> t). { intros ->. apply Ni. change t with (snd (P t)) at 1. apply in_map. apply (Permutation_in _ (Permutation_sym PM2)), in_or_app. right. left. auto. }
      assert (Nl : ~ In i (map snd l)) by (intros H; apply Ni, IH2; auto).
      destruct (Z.eq_dec i (snd f)) as [->|NF].
      * destruct (EQ f) as (_ & <-); [left; auto|]. destruct (IN e He) as [He'| ->]; [apply FR; right; auto|apply S2; auto].
      * assert (BF : forall e, In e (f :: l) -> R (P i) e = false). { intros e' He'. apply BEST; [lia| |auto]. cbn [map]. intros [H|H]; [congruence|auto]. }
        destruct (IN e He) as [He'| ->]; [apply BF; right; auto|].
        destruct (R (P i) (P t)) eqn:Q; [|auto]. specialize (BF f (or_introl eq_refl)). rewrite (S3 _ _ _ Q Ex) in BF. discriminate.
  - exists (f :: l). split; [auto|]. split; [auto|]. split; [auto|]. split; [|split; [auto|]].
    + intros e He. destruct (EQ e He). split; [lia|auto].
    + intros i e Hi Ni He. destruct (Z.eq_dec i t) as [->|]; [eapply S4; eauto|]. apply BEST; auto. lia.
Qed.
Lemma top_loop_ok n : forall t h, top_inv t h -> k <= t -> exists h', loop (top_step std largest) (map P (map (fun i => t + i) (upto (Z.of_nat n)))) h = Some h' /\ top_inv (t + Z.of_nat n) h'.
Proof.
  induction n as [|n IH]; intros t h I T; [exists h; rewrite Z.add_0_r; split; [reflexivity|auto]|].
  rewrite upto_S, !map_app, loop_app. destruct (IH t h I T) as (h1 & E1 & I1). rewrite E1. cbn [obind map loop].
  destruct (top_step_ok _ _ I1) as (h2 & E2 & I2); [lia|]. rewrite E2. cbn [obind]. exists h2. split; [auto|]. replace (t + Z.of_nat (S n)) with (t + Z.of_nat n + 1) by lia. auto.
Qed.
Lemma magnitude_abs v : magnitude v = Qcabs v.
Proof. unfold magnitude, Qcabs, less. destruct (Qclt_le_dec v 0); auto. Qed.
Lemma before_cmp a b : before_in largest abs (qat x a) (qat x b) <-> R (P a) (P b) = true.
Proof.
  unfold before_in, R, cmp, P, greater, val. cbn [fst]. rewrite <- !magnitude_abs. destruct abs, largest; rewrite ?more_t, ?less_t; reflexivity.
Qed.
Lemma top_k_ok : exists l, top_k std largest abs x k = Some l /\ best_k (before_in largest abs) x k l.
Proof.
  unfold top_k. fold val. unfold qlen in K.
  assert (G : forall l, (forall i, In i l -> within (qlen x) i) -> omap (fun i => obind (get x i) (fun v => Some (val v, i))) l = Some (map P l)).
  { intros l H. apply omap_some. intros i Hi. rewrite get_ok by auto. reflexivity. }
  rewrite G by (intros i Hi; apply upto_in in Hi; unfold within, qlen; lia). cbn [obind].
  rewrite G by (intros i Hi; apply between_in in Hi; unfold within, qlen; lia). cbn [obind].
  pose proof (cmp_weak largest) as SW. fold R in SW |- *. destruct (STD R SW) as (MAKE & _ & _ & SORT).
  destruct (MAKE (map P (upto k))) as (PM & HH).
  assert (I0 : top_inv k (make_heap std R (map P (upto k)))).
  { assert (MS : map snd (map P (upto k)) = upto k) by (rewrite map_map; cbn [snd P]; apply map_id).
    destruct (top_inv_perm _ _ PM) as (L & N).
    { split; [rewrite map_length; unfold upto; rewrite map_length, seq_length; lia|]. rewrite MS. apply upto_nodup. }
    split; [auto|]. split; [auto|]. split; [|split; [auto|]].
    - intros e He. apply (Permutation_in _ PM), in_map_iff in He as (i & <- & Hi). apply upto_in in Hi. cbn [snd P]. auto.
    - intros i e Hi Ni. exfalso. apply Ni. apply (Permutation_in _ (Permutation_map snd (Permutation_sym PM))). rewrite MS. apply upto_in. auto. }
  unfold between. destruct (top_loop_ok (Z.to_nat (Z.of_nat (length x) - k)) k _ I0 ltac:(lia)) as (h & E & L & N & EQ & HP & BEST).
  rewrite Z2Nat.id in E by lia. rewrite E. cbn [obind]. eexists. split; [reflexivity|].
  replace (k + Z.of_nat (Z.to_nat (Z.of_nat (length x) - k))) with (Z.of_nat (length x)) in * by lia.
  destruct (SORT h HP) as (PS & OS). set (s := sort_heap std R h) in *.
  destruct (top_inv_perm _ _ PS (conj L N)) as (L' & N').
  assert (EQ' : forall e, In e s -> 0 <= snd e < Z.of_nat (length x) /\ e = P (snd e)) by (intros e He; apply EQ; eapply Permutation_in; eauto).
  split; [rewrite map_length; auto|]. split; [auto|]. split; [|split].
  - intros i Hi. apply in_map_iff in Hi as (e & <- & He). apply EQ'. auto.
  - intros i j Hij. rewrite map_length in Hij. fold (qat x (nth j (map snd s) 0)) (qat x (nth i (map snd s) 0)). rewrite before_cmp.
    assert (Q : forall i, (i < length s)%nat -> P (nth i (map snd s) 0) = nth i s (0%Qc, 0)).
    { intros m Hm. change 0 with (snd (0%Qc, 0)) at 1. rewrite map_nth. symmetry. apply EQ', nth_In. auto. }
    rewrite !Q by lia. rewrite (OS (0%Qc, 0) i j) by auto. discriminate.
  - intros i j Hi Hj Nj. fold (qat x j) (qat x i). rewrite before_cmp. apply in_map_iff in Hi as (e & <- & He). destruct (EQ' e He) as (_ & Q). rewrite <- Q.
    rewrite BEST; [discriminate|auto| |eapply Permutation_in; eauto].
    intros H. apply Nj. eapply Permutation_in; [|exact H]. apply Permutation_map, Permutation_sym. auto.
Qed.
End top_k.
