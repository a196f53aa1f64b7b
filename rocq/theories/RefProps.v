(** C38: function_reference_count. *)
From Coq Require Import List Arith Bool Lia.
From Verif Require Import RefModel.
Import ListNotations.

(** Possible histories: [live] lists the functions that exist and use the variable, with
    the number of times they use it; [gone] counts those that were destroyed. *)
Inductive history : list event -> list (nat * nat) -> nat -> Prop :=
| h_nil : history [] [] 0
| h_connect es live gone f n : history es live gone -> ~ In f (map fst live) -> 0 < n ->
    history (es ++ [Connect f n]) ((f, n) :: live) gone
| h_destroy es l1 f n l2 gone : history es (l1 ++ (f, n) :: l2) gone ->
    history (es ++ [Destroy f n]) (l1 ++ l2) (S gone).

Definition low (p : nat * nat) : nat * nat := (fst p, snd p - 1).
Lemma lookup_absent t f : ~ In f (map fst t) -> lookup t f = None.
Proof.
  induction t as [|[k c] t IH]; cbn; auto. intros H.
  destruct (Nat.eqb_spec k f); [tauto|]. apply IH. tauto.
Qed.
Lemma lookup_mid t1 f c t2 : ~ In f (map fst t1) -> lookup (t1 ++ (f, c) :: t2) f = Some c.
Proof.
  induction t1 as [|[k d] t1 IH]; cbn; intros H; [now rewrite Nat.eqb_refl|].
  destruct (Nat.eqb_spec k f); [tauto|]. apply IH. tauto.
Qed.
Lemma erase_mid t1 f c t2 : ~ In f (map fst t1) -> erase (t1 ++ (f, c) :: t2) f = t1 ++ t2.
Proof.
  induction t1 as [|[k d] t1 IH]; cbn; intros H; [now rewrite Nat.eqb_refl|].
  destruct (Nat.eqb_spec k f); [tauto|]. now rewrite IH by tauto.
Qed.
Lemma inserts n : forall f c t tot,
  times n (fun v => insert_ref v f) (mkRefs ((f, c) :: t) tot) = mkRefs ((f, c + n) :: t) (tot + n).
Proof.
  induction n as [|n IH]; intros; cbn [times]; [now rewrite !Nat.add_0_r|].
  unfold insert_ref at 2. cbn. rewrite Nat.eqb_refl, IH. replace (S c + n) with (c + S n) by lia. replace (S tot + n) with (tot + S n) by lia. reflexivity.
Qed.
Lemma removes_absent n : forall f v, lookup (table v) f = None -> times n (fun v => remove_ref v f) v = v.
Proof.
  induction n as [|n IH]; intros f v H; cbn [times]; auto.
  unfold remove_ref at 2. rewrite H. now apply IH.
Qed.
Lemma low_keys l : map fst (map low l) = map fst l.
Proof. induction l as [|[a b] l IH]; cbn; auto. now rewrite IH. Qed.
Lemma nodup_mid_out {A} (l1 : list A) x l2 : NoDup (l1 ++ x :: l2) ->
  ~ In x l1 /\ ~ In x (l1 ++ l2) /\ NoDup (l1 ++ l2).
Proof.
  intros H. assert (H2 := NoDup_remove_2 _ _ _ H). split; [|split; auto].
  - intros Hx. apply H2. apply in_app_iff. auto.
  - eapply NoDup_remove_1; eauto.
Qed.

Lemma refs_ok es live gone : history es live gone ->
  NoDup (map fst live) /\ (forall f n, In (f, n) live -> 0 < n) /\
  table (run es) = map low live /\ total (run es) = list_sum (map snd live) + gone.
Proof.
  induction 1 as [|es live gone f n H IH Hf Hn|es l1 f n l2 gone H IH].
  - cbn. split; [constructor|]. split; [intros ? ? []|]. auto.
  - destruct IH as (I1 & I2 & I3 & I4). unfold run in *. rewrite fold_left_app. cbn [fold_left step].
    destruct (fold_left step es no_refs) as [t tot]. cbn [table total] in *. subst t tot.
    split; [cbn; now constructor|]. split; [intros k m [E|Hk]; [injection E as <- <-; auto|eauto]|].
    destruct n as [|n]; [lia|]. cbn [times].
    assert (E : lookup (map low live) f = None) by (apply lookup_absent; now rewrite low_keys).
    set (tot := list_sum (map snd live) + gone).
    assert (E2 : insert_ref (mkRefs (map low live) tot) f = mkRefs ((f, 0) :: map low live) (S tot))
      by (unfold insert_ref; cbn [table total]; now rewrite E).
    rewrite E2, inserts. cbn [table total]. split.
    + cbn [map]. unfold low at 2. cbn [fst snd]. now rewrite Nat.sub_1_r.
    + cbn [map snd]. change (list_sum (S n :: map snd live)) with (S n + list_sum (map snd live)).
      unfold tot. lia.
  - destruct IH as (I1 & I2 & I3 & I4). unfold run in *. rewrite fold_left_app. cbn [fold_left step].
    destruct (fold_left step es no_refs) as [t tot]. cbn [table total] in *. subst t tot.
    rewrite map_app in I1. cbn [map fst] in I1. apply nodup_mid_out in I1 as (J1 & J2 & J3).
    assert (Hn : 0 < n) by (apply (I2 f); apply in_app_iff; cbn; auto).
    split; [now rewrite map_app|].
    split; [intros k m Hk; apply (I2 k); apply in_app_iff; apply in_app_iff in Hk; cbn; tauto|].
    destruct n as [|n]; [lia|]. cbn [times].
    set (tot := list_sum (map snd (l1 ++ (f, S n) :: l2)) + gone).
    assert (E2 : remove_ref (mkRefs (map low (l1 ++ (f, S n) :: l2)) tot) f =
                 mkRefs (map low l1 ++ map low l2) (tot - n)).
    { unfold remove_ref. cbn [table total]. rewrite map_app. cbn [map].
      change (low (f, S n)) with (f, S n - 1).
      rewrite lookup_mid, erase_mid by now rewrite low_keys. f_equal. lia. }
    rewrite E2, removes_absent.
    + cbn [table total]. rewrite map_app. split; auto. unfold tot.
      rewrite !map_app, !list_sum_app. cbn [map snd].
      change (list_sum (S n :: map snd l2)) with (S n + list_sum (map snd l2)). lia.
    + cbn [table]. apply lookup_absent. rewrite <- map_app, low_keys, map_app. exact J2.
Qed.

(** The count is the number of uses by existing functions plus one for every function
    that was destroyed: exact only as long as nothing was destroyed. *)
Theorem C38_count_partial : forall es live gone, history es live gone ->
  total (run es) = list_sum (map snd live) + gone.
Proof. intros. now apply refs_ok. Qed.
Print Assumptions C38_count_partial.

(** It is never too small, which is what the release of buffers relies on. *)
Theorem C38_never_too_small : forall es live gone, history es live gone ->
  list_sum (map snd live) <= total (run es).
Proof. intros es live gone H. apply refs_ok in H as (_ & _ & _ & ->). lia. Qed.
Print Assumptions C38_never_too_small.

(** A variable used by one function that has since been destroyed, and now by another
    one: the count is 2 although there is one use. *)
Theorem C38_count_refuted :
  exists es live gone, history es live gone /\ list_sum (map snd live) = 1 /\ total (run es) = 2.
Proof.
  exists (([] ++ [Connect 0 1]) ++ [Destroy 0 1] ++ [Connect 1 1]), [(1, 1)], 1.
  split; [|split; reflexivity]. rewrite app_assoc. apply h_connect; auto.
  apply (h_destroy _ [] 0 1 [] 0). apply h_connect; auto. constructor.
Qed.
Print Assumptions C38_count_refuted.

Example C38_example : history ([Connect 0 2] ++ [Connect 1 1]) [(1, 1); (0, 2)] 0 /\
  total (run ([Connect 0 2] ++ [Connect 1 1])) = 3.
Proof.
  split; [|reflexivity]. apply h_connect; auto.
  - apply (h_connect [] [] 0 0 2); auto. constructor.
  - cbn. intuition discriminate.
Qed.
