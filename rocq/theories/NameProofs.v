(** Lemmas about generated names (C28). *)
From Coq Require Import String Ascii List Arith Bool DecimalString DecimalNat Lia.
From Verif Require Import Assoc NameModel.
Import ListNotations.
Local Open Scope string_scope.
Local Open Scope list_scope.

Lemma decimal_inj j k : decimal j = decimal k -> j = k.
Proof.
  unfold decimal. intros H. apply (f_equal NilEmpty.uint_of_string) in H. rewrite !NilEmpty.usu in H.
  injection H as H. apply (f_equal Nat.of_uint) in H. rewrite !Unsigned.of_to in H. exact H.
Qed.
Lemma decimal_us u a b : NilEmpty.string_of_uint u = (a ++ String "_" b)%string -> False.
Proof.
  revert a. induction u as [|u IH|u IH|u IH|u IH|u IH|u IH|u IH|u IH|u IH|u IH]; intros a E; destruct a as [|c a]; cbn in E; try discriminate;
  injection E as Ec E; eapply IH; eauto.
Qed.
Lemma app_us_inj a b x y : (forall u v, x <> (u ++ String "_" v)%string) -> (forall u v, y <> (u ++ String "_" v)%string) ->
  (a ++ String "_" x)%string = (b ++ String "_" y)%string -> a = b /\ x = y.
Proof.
  revert b. induction a as [|c a IH]; intros [|d b] Hx Hy E; cbn in E.
  - injection E as E. auto.
  - injection E as _ E. exfalso. apply (Hx b y). exact E.
  - injection E as _ E. exfalso. apply (Hy a x). symmetry. exact E.
  - injection E as Ec E. subst d. destruct (IH b Hx Hy E) as [-> ->]. auto.
Qed.
Lemma numbered_inj p j q k : numbered p j = numbered q k -> p = q /\ j = k.
Proof.
  unfold numbered. intros E. apply app_us_inj in E.
  - destruct E as [-> E]. split; auto. apply decimal_inj; auto.
  - intros u v H. eapply decimal_us; exact H.
  - intros u v H. eapply decimal_us; exact H.
Qed.
Lemma str_len_app a b : String.length (a ++ b)%string = String.length a + String.length b.
Proof. induction a; cbn; congruence. Qed.
Lemma numbered_neq p k : numbered p k <> p.
Proof. intros E. apply (f_equal String.length) in E. unfold numbered in E. rewrite str_len_app in E. cbn in E. lia. Qed.

(** The counters after the requests [done]. *)
Definition counters (names : @amap nat) (done : list string) : Prop :=
  forall p, aget p names = match count_occ string_dec done p with O => None | k => Some k end.
Definition expected (done : list string) (p : string) : string :=
  match count_occ string_dec done p with O => p | k => numbered p k end.

Lemma unique_name_spec names done p : counters names done ->
  exists names', unique_name names p = (expected done p, names') /\ counters names' (done ++ [p]).
Proof.
  intros C. unfold unique_name, expected. rewrite (C p). 
  assert (S : forall q k, count_occ string_dec done p = k ->
     aget q (aput p (S k) names) = match count_occ string_dec (done ++ [p]) q with O => None | k => Some k end).
  { intros q k E. rewrite aget_aput, count_occ_app. cbn. destruct (String.eqb_spec q p) as [->|N].
    - destruct (string_dec p p); [|congruence]. rewrite E, Nat.add_1_r. reflexivity.
    - destruct (string_dec p q); [congruence|]. rewrite Nat.add_0_r. apply C. }
  destruct (count_occ string_dec done p) as [|k] eqn:E; eexists; (split; [reflexivity|]); intros q.
  - apply (S q 0 eq_refl).
  - apply (S q (Datatypes.S k) eq_refl).
Qed.

Lemma unique_names_nth ps : forall names done, counters names done -> forall i,
  nth_error (unique_names names ps) i = option_map (expected (done ++ firstn i ps)) (nth_error ps i).
Proof.
  induction ps as [|p ps IH]; intros names done C i; cbn.
  - destruct i; auto.
  - destruct (unique_name_spec names done p C) as (names' & E & C'). rewrite E. destruct i as [|i]; cbn.
    + rewrite app_nil_r. auto.
    + rewrite (IH _ _ C'). rewrite <- app_assoc. reflexivity.
Qed.
Lemma counters_nil : counters [] [].
Proof. intros p. reflexivity. Qed.

Lemma count_firstn_lt (ps : list string) p i : nth_error ps i = Some p -> count_occ string_dec (firstn i ps) p < count_occ string_dec ps p.
Proof.
  revert i. induction ps as [|q ps IH]; intros [|i] H; cbn in H; try discriminate.
  - injection H as ->. cbn. destruct (string_dec p p); [lia|congruence].
  - cbn. apply IH in H. destruct (string_dec q p); lia.
Qed.
Lemma count_occurrence (ps : list string) p k : k < count_occ string_dec ps p ->
  exists i, nth_error ps i = Some p /\ count_occ string_dec (firstn i ps) p = k.
Proof.
  revert k. induction ps as [|q ps IH]; intros k H; cbn in H; [lia|].
  destruct (string_dec q p) as [->|N].
  - destruct k as [|k]; [exists 0; auto|]. destruct (IH k) as (i & Hi & Hc); [lia|]. exists (S i). split; auto.
    cbn. destruct (string_dec p p); [|congruence]. lia.
  - destruct (IH k H) as (i & Hi & Hc). exists (S i). split; auto. cbn. destruct (string_dec q p); [congruence|]. auto.
Qed.
Lemma count_firstn_mono (ps : list string) p q i j : nth_error ps i = Some p -> nth_error ps j = Some q -> i < j ->
  p = q -> count_occ string_dec (firstn i ps) p < count_occ string_dec (firstn j ps) q.
Proof.
  intros Hi Hj L <-. assert (E : nth_error (firstn j ps) i = Some p).
  { rewrite <- Hi. clear - L. revert j L. revert i. induction ps as [|x ps IH]; intros [|i] [|j] L; cbn; auto; try lia. apply IH. lia. }
  apply count_firstn_lt in E. rewrite firstn_firstn, Nat.min_l in E by lia. exact E.
Qed.

Definition safe (ps : list string) : Prop :=
  forall p q k, In p ps -> In q ps -> 1 <= k < count_occ string_dec ps p -> q <> numbered p k.

Lemma nodup_safe ps : NoDup (unique_names [] ps) <-> safe ps.
Proof.
  assert (N : forall i, nth_error (unique_names [] ps) i = option_map (expected (firstn i ps)) (nth_error ps i)).
  { intros i. rewrite (unique_names_nth ps [] [] counters_nil). reflexivity. }
  split.
  - intros D p q k Hp Hq Hk E.
    destruct (count_occurrence ps p k) as (i & Hi & Ci); [lia|].
    destruct (count_occurrence ps q 0) as (j & Hj & Cj); [apply count_occ_In; auto|].
    assert (Ei : nth_error (unique_names [] ps) i = Some (numbered p k)).
    { rewrite N, Hi. cbn. unfold expected. rewrite Ci. destruct k; [lia|reflexivity]. }
    assert (Ej : nth_error (unique_names [] ps) j = Some q).
    { rewrite N, Hj. cbn. unfold expected. rewrite Cj. reflexivity. }
    assert (i = j).
    { rewrite NoDup_nth_error in D. apply D; [apply nth_error_Some; congruence|]. congruence. }
    subst j. rewrite Hi in Hj. injection Hj as ->. symmetry in E. apply numbered_neq in E. auto.
  - intros S. apply NoDup_nth_error. intros i j Hi E. rewrite !N in E.
    destruct (nth_error ps i) as [p|] eqn:Ei; cbn in E.
    2:{ exfalso. assert (Hn : nth_error (unique_names [] ps) i <> None) by (apply nth_error_Some; exact Hi). rewrite N, Ei in Hn. auto. }
    destruct (nth_error ps j) as [q|] eqn:Ej; cbn in E; [|discriminate]. injection E as E. unfold expected in E.
    pose proof (nth_error_In _ _ Ei) as Ip. pose proof (nth_error_In _ _ Ej) as Iq.
    pose proof (count_firstn_lt _ _ _ Ei) as Cp. pose proof (count_firstn_lt _ _ _ Ej) as Cq.
    destruct (count_occ string_dec (firstn i ps) p) as [|a] eqn:Ca, (count_occ string_dec (firstn j ps) q) as [|b] eqn:Cb.
    + subst q. destruct (Nat.lt_trichotomy i j) as [L|[L|L]]; auto; exfalso.
      * pose proof (count_firstn_mono _ _ _ _ _ Ei Ej L eq_refl). lia.
      * pose proof (count_firstn_mono _ _ _ _ _ Ej Ei L eq_refl). lia.
    + exfalso. apply (S q p (Datatypes.S b)); auto. lia.
    + exfalso. apply (S p q (Datatypes.S a)); auto. lia.
    + apply numbered_inj in E as [<- E]. destruct (Nat.lt_trichotomy i j) as [L|[L|L]]; auto; exfalso.
      * pose proof (count_firstn_mono _ _ _ _ _ Ei Ej L eq_refl). lia.
      * pose proof (count_firstn_mono _ _ _ _ _ Ej Ei L eq_refl). lia.
Qed.
