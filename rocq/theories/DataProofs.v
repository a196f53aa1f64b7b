(** Proofs about data sources and the data iterator. *)
From Coq Require Import List Bool Arith ZArith Lia Permutation.
From Coq Require Import ZifyBool ZifyNat.
From Verif Require Import DataModel DataSpec.
Import ListNotations.

(** ** Laws *)

(** Sequential reading: in epoch [k] after [a] calls of apply_order the example at
    position [p] is [ord a k p]. *)
Record seq_law {S E} (o : ops S E) (size : nat) (ord : nat -> nat -> nat -> E)
       (R : S -> nat -> nat -> nat -> Prop) : Prop := {
  l_pos : forall s a k p, R s a k p -> o_pos o s = p;
  l_next : forall s a k p, R s a k p -> p < size ->
    exists s', src_next o s = (s', Some (ord a k p)) /\ R s' a k (p + 1);
  l_reset : forall s a k, R s a k size -> R (o_reset o s) a (k + 1) 0;
  l_apply : forall s a k p, R s a k p -> R (o_apply o s) (a + 1) k p
}.

(** Random access. *)
Record ra_law {S E} (o : ops S E) (size : nat) (ord : nat -> nat -> nat -> E)
       (R : S -> nat -> nat -> Prop) : Prop := {
  ra_size : forall s a k, R s a k -> o_size o s = size;
  ra_get : forall s a k p, R s a k -> p < size ->
    exists s', o_get o s p = (s', Some (ord a k p)) /\ R s' a k /\ (o_pos o s' = o_pos o s \/ o_pos o s' = p);
  ra_setpos : forall s a k p, R s a k -> R (o_setpos o s p) a k /\ o_pos o (o_setpos o s p) = p;
  ra_reset : forall s a k, R s a k -> R (o_reset o s) a (k + 1) /\ o_pos o (o_reset o s) = 0;
  ra_apply : forall s a k, R s a k -> R (o_apply o s) (a + 1) k /\ o_pos o (o_apply o s) = o_pos o s
}.

Lemma ra_seq {S E} (o : ops S E) size ord R :
  ra_law o size ord R -> seq_law o size ord (fun s a k p => R s a k /\ o_pos o s = p).
Proof.
  intros L. constructor.
  - tauto.
  - intros s a k p [H Hp] Hlt. destruct (ra_get _ _ _ _ L s a k p H Hlt) as (s' & Hg & H' & Hpos).
    exists (o_setpos o s' (o_pos o s' + 1)). unfold src_next. rewrite Hp, Hg.
    assert (Ep : o_pos o s' = p) by (destruct Hpos; congruence). rewrite Ep.
    destruct (ra_setpos _ _ _ _ L s' a k (p + 1) H'). auto.
  - intros s a k [H _]. now apply (ra_reset _ _ _ _ L).
  - intros s a k p [H Hp]. destruct (ra_apply _ _ _ _ L s a k H). split; [auto|congruence].
Qed.

Lemma law_shift {S E} (o : ops S E) size ord R a0 k0 :
  seq_law o size ord R ->
  seq_law o size (fun a k p => ord (a0 + a) (k0 + k) p) (fun s a k p => R s (a0 + a) (k0 + k) p).
Proof.
  intros L. constructor; intros.
  - eapply (l_pos _ _ _ _ L); eauto.
  - eapply (l_next _ _ _ _ L); eauto.
  - rewrite Nat.add_assoc. eapply (l_reset _ _ _ _ L); eauto.
  - rewrite Nat.add_assoc. eapply (l_apply _ _ _ _ L); eauto.
Qed.

(** ** The iterator over a lawful source *)

Section Iter.
Context {S E : Type} (o : ops S E) (size : nat) (ord : nat -> nat -> nat -> E)
        (R : S -> nat -> nat -> nat -> Prop).
Hypothesis L : seq_law o size ord R.
Hypothesis Hsize : 0 < size.

Definition at_g (s : S) (a g : nat) : Prop := R s a (g / size) (g mod size).
Definition x_of (a j : nat) : E := ord a (j / size) (j mod size).

Lemma step_g s a g : at_g s a g ->
  exists s1, src_next o s = (s1, Some (x_of a g)) /\
    (if Nat.leb size (o_pos o s1)
     then at_g (o_reset o s1) a (g + 1) /\ (g + 1) / size = g / size + 1
     else at_g s1 a (g + 1) /\ (g + 1) / size = g / size).
Proof.
  intros H. assert (Hlt : g mod size < size) by (apply Nat.mod_upper_bound; lia).
  destruct (l_next _ _ _ _ L _ _ _ _ H Hlt) as (s1 & Hn & H1).
  exists s1. split; [exact Hn|]. rewrite (l_pos _ _ _ _ L _ _ _ _ H1).
  assert (Hd := Nat.div_mod g size ltac:(lia)).
  destruct (Nat.leb_spec size (g mod size + 1)) as [Hl|Hl].
  - assert (Em : g mod size + 1 = size) by lia. rewrite Em in H1.
    assert (E1 : g + 1 = (g / size + 1) * size + 0) by nia.
    assert (Eq : (g + 1) / size = g / size + 1).
    { symmetry. apply (Nat.div_unique _ _ _ 0); lia. }
    assert (Er : (g + 1) mod size = 0).
    { symmetry. apply (Nat.mod_unique _ _ (g / size + 1)); lia. }
    split; [|exact Eq]. unfold at_g. rewrite Eq, Er. now apply (l_reset _ _ _ _ L).
  - assert (Eq : (g + 1) / size = g / size).
    { symmetry. apply (Nat.div_unique _ _ _ (g mod size + 1)); lia. }
    assert (Er : (g + 1) mod size = g mod size + 1).
    { symmetry. apply (Nat.mod_unique _ _ (g / size)); lia. }
    split; [|exact Eq]. unfold at_g. now rewrite Eq, Er.
Qed.

Lemma loop_g b : forall s a g n acc, at_g s a g ->
  exists s', batch_loop o false size b s n acc =
             (s', Some (acc ++ map (x_of a) (seq g b)), n + ((g + b) / size - g / size)) /\
             at_g s' a (g + b).
Proof.
  induction b as [|b IH]; intros s a g n acc H; cbn [batch_loop].
  - exists s. rewrite Nat.add_0_r, Nat.sub_diag, Nat.add_0_r, app_nil_r. auto.
  - destruct (step_g _ _ _ H) as (s1 & Hn & H1). rewrite Hn. rewrite andb_true_r.
    assert (Mono : (g + 1) / size <= (g + 1 + b) / size) by (apply Nat.div_le_mono; lia).
    replace (g + Datatypes.S b) with (g + 1 + b) by lia. cbn [seq map].
    destruct (Nat.leb size (o_pos o s1)); destruct H1 as [H1 Hd].
    + destruct (IH _ a (g + 1) (Datatypes.S n) (acc ++ [x_of a g]) H1) as (s' & E' & H').
      exists s'. rewrite E', <- app_assoc. cbn [app].
      split; [|exact H']. rewrite <- ?(Nat.add_1_r g). f_equal. lia.
    + destruct (IH _ a (g + 1) n (acc ++ [x_of a g]) H1) as (s' & E' & H').
      exists s'. rewrite E', <- app_assoc. cbn [app].
      split; [|exact H']. rewrite <- ?(Nat.add_1_r g). f_equal. lia.
Qed.

(** Number of completed batches among the first [i] that crossed an epoch end. *)
Fixpoint crossings (batch i : nat) : nat :=
  match i with
  | O => 0
  | Datatypes.S j => crossings batch j + (if Nat.eqb ((j * batch + batch) / size) (j * batch / size) then 0 else 1)
  end.

Definition good_iter (batch : nat) (t : iter S E) (i : nat) : Prop :=
  at_g (it_src t) (crossings batch i) (i * batch) /\ it_batch t = batch /\ it_stop t = false /\
  it_size t = size /\ it_epoch t = i * batch / size /\
  it_log t = epoch_events (i * batch / size) /\ it_queue t = [].

Lemma events_app e n : epoch_events (e + n) = epoch_events e ++ callbacks n e.
Proof.
  revert e. induction n as [|n IH]; intros e; [now rewrite Nat.add_0_r, app_nil_r|].
  replace (e + Datatypes.S n) with (Datatypes.S e + n) by lia. rewrite IH.
  unfold epoch_events. rewrite seq_S, flat_map_app. cbn. now rewrite <- app_assoc.
Qed.

Lemma it_next_good batch t i : good_iter batch t i ->
  exists t', it_next o t = (t', Batch (map (x_of (crossings batch i)) (seq (i * batch) batch))) /\
             good_iter batch t' (Datatypes.S i).
Proof.
  intros (A & B & C & D & F & G & Q).
  unfold it_next, it_fetch. rewrite B, C, D, Q, andb_false_r.
  destruct (loop_g batch _ _ _ 0 [] A) as (s' & E1 & H'). rewrite E1. cbn [it_queue app dequeue].
  eexists. unfold deliver. split; [reflexivity|].
  assert (Es : Datatypes.S i * batch = i * batch + batch) by lia.
  assert (Mono : i * batch / size <= (i * batch + batch) / size) by (apply Nat.div_le_mono; lia).
  unfold good_iter. cbn [it_src it_batch it_stop it_size it_epoch it_log it_queue crossings dequeue].
  rewrite Es. repeat split; auto.
  - cbn [Nat.add]. destruct (Nat.eqb_spec ((i * batch + batch) / size) (i * batch / size)) as [Heq|Hne].
    + rewrite Heq, Nat.sub_diag. cbn. rewrite Nat.add_0_r. exact H'.
    + destruct (Nat.eqb_spec ((i * batch + batch) / size - i * batch / size) 0); [lia|].
      apply (l_apply _ _ _ _ L). exact H'.
  - rewrite F. cbn. lia.
  - rewrite F, G. cbn [Nat.add]. rewrite <- events_app. f_equal. lia.
Qed.

Lemma run_good batch n : forall t i, good_iter batch t i ->
  exists t', run (it_next o) n t =
    (t', map (fun i => Batch (map (x_of (crossings batch i)) (seq (i * batch) batch))) (seq i n)) /\
    good_iter batch t' (i + n).
Proof.
  induction n as [|n IH]; intros t i H; cbn [run].
  - exists t. rewrite Nat.add_0_r. auto.
  - destruct (it_next_good _ _ _ H) as (t1 & E1 & H1). rewrite E1.
    destruct (IH _ _ H1) as (t2 & E2 & H2). rewrite E2. exists t2.
    split; [reflexivity|]. now rewrite Nat.add_succ_r.
Qed.

(** *** stop_exhausted *)

Lemma loop_stop b : forall s a k p acc, R s a k p -> p + b <= size ->
  exists s', batch_loop o true size b s 0 acc = (s', Some (acc ++ map (ord a k) (seq p b)), 0) /\
             R s' a k (p + b).
Proof.
  induction b as [|b IH]; intros s a k p acc H Hb; cbn [batch_loop].
  - exists s. rewrite Nat.add_0_r, app_nil_r. auto.
  - destruct (l_next _ _ _ _ L _ _ _ _ H ltac:(lia)) as (s1 & Hn & H1). rewrite Hn, andb_false_r.
    destruct (IH _ a k (p + 1) (acc ++ [ord a k p]) H1 ltac:(lia)) as (s' & E' & H').
    exists s'. rewrite E', <- app_assoc. cbn [app seq map]. rewrite (Nat.add_1_r p).
    split; [reflexivity|]. replace (p + Datatypes.S b) with (p + 1 + b) by lia. exact H'.
Qed.

Definition stop_iter (batch : nat) (t : iter S E) (i : nat) : Prop :=
  (exists p, R (it_src t) 0 0 p /\ (p = i * batch /\ p <= size \/ size < p + batch /\ size < i * batch + batch)) /\
  it_batch t = batch /\ it_stop t = true /\ it_size t = size /\ it_epoch t = 0 /\ it_log t = [] /\ it_queue t = [].

Lemma it_next_stop batch t i : 0 < batch -> stop_iter batch t i ->
  exists t', it_next o t =
    (t', if Nat.leb (i * batch + batch) size then Batch (map (ord 0 0) (seq (i * batch) batch)) else Stop) /\
    stop_iter batch t' (Datatypes.S i).
Proof.
  intros Hb ((p & A & Hp) & B & C & D & F & G & Q).
  assert (Es : Datatypes.S i * batch = i * batch + batch) by lia.
  unfold it_next, it_fetch. rewrite B, C, D, Q, (l_pos _ _ _ _ L _ _ _ _ A), andb_true_r.
  destruct (Nat.ltb_spec size (p + batch)) as [Hlt|Hge].
  - cbn [it_queue app dequeue].
    unfold exhausted. cbn [dequeue it_src it_batch it_stop it_size]. rewrite (l_pos _ _ _ _ L _ _ _ _ A). cbn [andb].
    destruct (Nat.leb_spec size (p + batch)); [|lia].
    destruct (Nat.leb_spec (i * batch + batch) size); [lia|].
    eexists. split; [reflexivity|]. unfold stop_iter. cbn. rewrite F, G. repeat split; auto.
    exists p. split; [exact A|]. right. lia.
  - destruct (loop_stop batch _ _ _ _ [] A Hge) as (s' & E1 & H'). rewrite E1. cbn [it_queue app dequeue].
    destruct Hp as [[-> Hle]|[? ?]]; [|lia].
    destruct (Nat.leb_spec (i * batch + batch) size); [|lia].
    eexists. unfold deliver. split; [reflexivity|]. unfold stop_iter. cbn. rewrite F, G. repeat split; auto.
    exists (i * batch + batch). split; [exact H'|]. left. lia.
Qed.

Lemma run_stop batch n : 0 < batch -> forall t i, stop_iter batch t i ->
  exists t', run (it_next o) n t =
    (t', map (fun i => if Nat.leb (i * batch + batch) size
                       then Batch (map (ord 0 0) (seq (i * batch) batch)) else Stop) (seq i n)) /\
    stop_iter batch t' (i + n).
Proof.
  intros Hb. induction n as [|n IH]; intros t i H; cbn [run].
  - exists t. rewrite Nat.add_0_r. auto.
  - destruct (it_next_stop _ _ _ Hb H) as (t1 & E1 & H1). rewrite E1.
    destruct (IH _ _ H1) as (t2 & E2 & H2). rewrite E2. exists t2.
    split; [reflexivity|]. now rewrite Nat.add_succ_r.
Qed.

End Iter.

(** ** The threaded iterator *)

Lemma fetch_fields {S E} (o : ops S E) (t : iter S E) :
  it_queue t = [] ->
  exists s x, it_fetch o t = Iter s (it_batch t) (it_stop t) (it_size t) (it_epoch t) (it_log t) [x] /\
  forall e l, it_fetch o (Iter (it_src t) (it_batch t) (it_stop t) (it_size t) e l []) =
              Iter s (it_batch t) (it_stop t) (it_size t) e l [x].
Proof.
  intros Q. unfold it_fetch. cbn [it_src it_batch it_stop it_size it_epoch it_log it_queue]. rewrite Q.
  destruct (Nat.ltb (it_size t) (o_pos o (it_src t) + it_batch t) && it_stop t).
  - eexists _, _. split; [reflexivity|]. reflexivity.
  - destruct (batch_loop o (it_stop t) (it_size t) (it_batch t) (it_src t) 0 []) as [[s [d|]] n];
      eexists _, _; (split; [reflexivity|reflexivity]).
Qed.

Definition is_batch {E} (x : outcome E) : Prop := match x with Batch _ => True | _ => False end.

(** The threaded iterator is one fetch ahead. *)
Lemma thread_step {S E} (o : ops S E) (u : iter S E) :
  it_queue u = [] ->
  match it_next o u with
  | (u', Batch l) => it_next_thread o (it_fetch o u) = (it_fetch o u', Batch l) /\ it_queue u' = []
  | (u', Stop) => exists t', it_next_thread o (it_fetch o u) = (t', Stop) /\ it_queue t' = []
  | _ => True
  end.
Proof.
  intros Q. destruct (fetch_fields o u Q) as (s & [d n] & E1 & _).
  unfold it_next, it_next_thread. rewrite E1. cbn [it_queue dequeue].
  destruct d as [l|].
  - unfold deliver, dequeue. cbn [it_src it_batch it_stop it_size it_epoch it_log it_queue].
    split; [|reflexivity].
    destruct (fetch_fields o (Iter (E:=E) s (it_batch u) (it_stop u) (it_size u) (it_epoch u) (it_log u) []) eq_refl)
      as (s2 & x2 & E2 & F2). cbn [it_src it_batch it_stop it_size it_epoch it_log it_queue] in E2, F2.
    rewrite E2. cbn. now rewrite F2.
  - unfold exhausted. cbn [dequeue it_src it_batch it_stop it_size it_epoch it_log it_queue].
    destruct (it_stop u && Nat.leb (it_size u) (o_pos o s + it_batch u)); [|exact I].
    eexists. split; reflexivity.
Qed.

Lemma it_next_queue {S E} (o : ops S E) (u : iter S E) :
  it_queue u = [] -> it_queue (fst (it_next o u)) = [].
Proof.
  intros Q. destruct (fetch_fields o u Q) as (s & [d n] & E1 & _).
  unfold it_next. rewrite E1. cbn. destruct d; [reflexivity|].
  destruct (exhausted _ _); reflexivity.
Qed.

Lemma thread_run {S E} (o : ops S E) n : forall (u : iter S E),
  it_queue u = [] ->
  Forall is_batch (snd (run (it_next o) n u)) ->
  run (it_next_thread o) n (it_fetch o u) =
  (it_fetch o (fst (run (it_next o) n u)), snd (run (it_next o) n u)) /\
  it_queue (fst (run (it_next o) n u)) = [].
Proof.
  induction n as [|n IH]; intros u Q F; cbn [run] in *; [auto|].
  assert (T := thread_step o u Q). assert (Q' := it_next_queue o u Q).
  destruct (it_next o u) as [u1 x]. destruct (run (it_next o) n u1) as [u2 xs] eqn:E2. cbn in *.
  inversion F as [|? ? Hx Hxs]; subst. destruct x; try contradiction.
  destruct T as [T Q1]. rewrite T. specialize (IH u1 Q1). rewrite E2 in IH.
  destruct (IH Hxs) as [-> ?]. auto.
Qed.

Lemma hang_run {S E} (o : ops S E) n : forall (t : iter S E), it_queue t = [] ->
  run (it_next_thread o) n t = (t, repeat Hang n).
Proof.
  induction n as [|n IH]; intros t Q; [reflexivity|]. cbn [run repeat].
  assert (E1 : it_next_thread o t = (t, Hang)) by (unfold it_next_thread; now rewrite Q).
  rewrite E1, IH by exact Q. reflexivity.
Qed.

Lemma fetch_epoch {S E} (o : ops S E) (t : iter S E) :
  it_queue t = [] -> it_epoch (it_fetch o t) = it_epoch t /\ it_log (it_fetch o t) = it_log t.
Proof. intros Q. destruct (fetch_fields o t Q) as (s & x & -> & _). auto. Qed.

(** ** Lists *)

Lemma map_ext_seq {A} (f g : nat -> A) a n :
  (forall i, a <= i < a + n -> f i = g i) -> map f (seq a n) = map g (seq a n).
Proof. intros H. apply map_ext_in. intros i Hi. apply in_seq in Hi. apply H. lia. Qed.

Lemma delivered_map {E} (f : nat -> nat -> E) batch n i :
  delivered (map (fun i => Batch (map (f i) (seq (i * batch) batch))) (seq i n)) =
  flat_map (fun i => map (f i) (seq (i * batch) batch)) (seq i n).
Proof. unfold delivered. rewrite flat_map_concat_map, map_map, <- flat_map_concat_map. reflexivity. Qed.

Lemma flat_batches {E} (x : nat -> E) batch n i :
  flat_map (fun i => map x (seq (i * batch) batch)) (seq i n) = map x (seq (i * batch) (n * batch)).
Proof.
  revert i. induction n as [|n IH]; intros i; [reflexivity|].
  cbn [seq flat_map]. rewrite IH. replace (Datatypes.S i * batch) with (i * batch + batch) by lia.
  replace (Datatypes.S n * batch) with (batch + n * batch) by lia.
  rewrite seq_app, map_app. reflexivity.
Qed.

Lemma skipn_seq n a b : skipn n (seq a b) = seq (a + n) (b - n).
Proof.
  revert a b. induction n as [|n IH]; intros a b; [now rewrite Nat.add_0_r, Nat.sub_0_r|].
  destruct b; [reflexivity|]. cbn. rewrite IH. f_equal. lia.
Qed.
Lemma firstn_seq n a b : n <= b -> firstn n (seq a b) = seq a n.
Proof.
  revert a b. induction n as [|n IH]; intros a b H; [reflexivity|].
  destruct b; [lia|]. cbn. f_equal. apply IH. lia.
Qed.


Lemma seq_plus a b n : seq (a + b) n = map (fun i => b + i) (seq a n).
Proof.
  revert a. induction n as [|n IH]; intros a; [reflexivity|]. cbn. f_equal; [lia|].
  rewrite <- IH. reflexivity.
Qed.

Lemma epoch_slice_map {E} (x : nat -> E) size e total :
  (e + 1) * size <= total ->
  epoch_slice size e (map x (seq 0 total)) = map (fun p => x (e * size + p)) (seq 0 size).
Proof.
  intros H. unfold epoch_slice. rewrite skipn_map, firstn_map, skipn_seq, firstn_seq by lia.
  rewrite seq_plus, map_map. reflexivity.
Qed.
