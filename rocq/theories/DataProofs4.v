(** Consequences of the laws for iterator runs, and the slice arithmetic. *)
From Coq Require Import List Bool Arith ZArith Lia Permutation.
From Coq Require Import ZifyBool ZifyNat.
From Verif Require Import DataModel DataSpec DataProofs DataProofs2 DataProofs3.
Import ListNotations.

(** ** Slice arithmetic *)
Section SliceArith.
Local Open Scope Z_scope.

Definition rank_len (dl : bool) (size n : Z) : Z := if dl then size / n else (size + n - 1) / n.

Lemma rank_len_bounds dl size n : 0 < n -> 0 < size ->
  0 <= rank_len dl size n <= size /\
  (dl = true -> n * rank_len dl size n <= size < n * rank_len dl size n + n) /\
  (dl = false -> size <= n * rank_len dl size n /\ 0 < rank_len dl size n).
Proof.
  intros Hn Hs. destruct dl; unfold rank_len.
  - assert (H := Z.div_mod size n ltac:(lia)). assert (H2 := Z.mod_pos_bound size n Hn).
    assert (0 <= size / n) by (apply Z.div_pos; lia).
    split; [nia|]. split; [intros _; nia|discriminate].
  - assert (H := Z.div_mod (size + n - 1) n ltac:(lia)). assert (H2 := Z.mod_pos_bound (size + n - 1) n Hn).
    revert H H2. generalize ((size + n - 1) / n) ((size + n - 1) mod n). intros q m H H2.
    split; [nia|]. split; [discriminate|intros _; nia].
Qed.

Lemma slice_window dl size n r st en : 0 < n -> 0 < size -> 0 <= r < n ->
  slice_start_end dl size n r = (st, en) -> 0 <= st /\ en <= size /\ en - st = rank_len dl size n.
Proof.
  intros Hn Hs Hr. destruct (rank_len_bounds dl size n Hn Hs) as (B1 & B2 & B3).
  unfold slice_start_end. destruct dl; unfold rank_len in *; intros H.
  - specialize (B2 eq_refl). inversion H; subst; clear H B3.
    revert B1 B2. generalize (size / n). intros q B1 B2. repeat split; nia.
  - specialize (B3 eq_refl). clear B2. revert H B1 B3. generalize ((size + n - 1) / n). intros q H B1 B3.
    assert (M := Z.mod_pos_bound (q * r) size Hs).
    destruct (Z.ltb_spec size ((q * r) mod size + q)); inversion H; subst; lia.
Qed.

Lemma slice_cover size n x : 0 < n -> 0 < size -> 0 <= x < size ->
  exists r st en, 0 <= r < n /\ slice_start_end false size n r = (st, en) /\ st <= x < en.
Proof.
  intros Hn Hs Hx. destruct (rank_len_bounds false size n Hn Hs) as (B1 & _ & B3).
  specialize (B3 eq_refl). unfold slice_start_end. unfold rank_len in *.
  revert B1 B3. generalize ((size + n - 1) / n). intros q B1 B3.
  assert (D := Z.div_mod x q ltac:(lia)). assert (D2 := Z.mod_pos_bound x q ltac:(lia)).
  set (r := x / q) in *. set (m := x mod q) in *.
  assert (Hr : 0 <= r < n) by nia.
  assert (Em : (q * r) mod size = q * r) by (apply Z.mod_small; nia).
  exists r. rewrite Em.
  destruct (Z.ltb_spec size (q * r + q)).
  - eexists _, _. split; [exact Hr|]. split; [reflexivity|]. lia.
  - eexists _, _. split; [exact Hr|]. split; [reflexivity|]. lia.
Qed.

Lemma slice_disjoint size n r r' st en st' en' : 0 < n -> 0 < size -> 0 <= r < n -> 0 <= r' < n -> r <> r' ->
  slice_start_end true size n r = (st, en) -> slice_start_end true size n r' = (st', en') ->
  en <= st' \/ en' <= st.
Proof.
  intros Hn Hs Hr Hr' Hne. destruct (rank_len_bounds true size n Hn Hs) as (B1 & B2 & _).
  unfold slice_start_end, rank_len in *. revert B1. generalize (size / n). intros q B1 H H'.
  inversion H; inversion H'; subst. destruct (Z.lt_trichotomy r r') as [C|[C|C]]; [left; nia|lia|right; nia].
Qed.

Lemma slice_drop_cover size n x : 0 < n -> 0 < size -> 0 <= x < n * (size / n) ->
  exists r st en, 0 <= r < n /\ slice_start_end true size n r = (st, en) /\ st <= x < en.
Proof.
  intros Hn Hs Hx. unfold slice_start_end. revert Hx. generalize (size / n). intros q Hx.
  assert (0 < q) by nia.
  assert (D := Z.div_mod x q ltac:(lia)). assert (D2 := Z.mod_pos_bound x q ltac:(lia)).
  set (r := x / q) in *. set (m := x mod q) in *.
  exists r, (q * r), (q * r + q). split; [nia|]. split; [reflexivity|]. lia.
Qed.
End SliceArith.

(** ** Runs *)

Section Runs.
Context {S E : Type} (o : ops S E) (size : nat) (ord : nat -> nat -> nat -> E)
        (R : S -> nat -> nat -> nat -> Prop).
Hypothesis L : seq_law o size ord R.
Hypothesis Hsize : 0 < size.

Lemma iter_run s batch n : R (o_reset o s) 0 0 0 -> o_size o s = size ->
  exists t, run (it_next o) n (it_new o s batch false) =
    (t, map (fun i => Batch (map (x_of size ord (crossings size batch i)) (seq (i * batch) batch))) (seq 0 n)) /\
    it_epoch t = n * batch / size /\ it_log t = epoch_events (n * batch / size).
Proof.
  intros HR Hs.
  destruct (run_good o size ord R L Hsize batch n (it_new o s batch false) 0) as (t & E1 & G).
  - unfold good_iter, it_new. cbn. unfold at_g. rewrite Nat.div_0_l, Nat.mod_0_l by lia. repeat split; auto.
  - exists t. rewrite E1. destruct G as (_ & _ & _ & _ & G1 & G2 & _). rewrite Nat.add_0_l in *. auto.
Qed.

Lemma iter_run_stop s batch n : 0 < batch -> R (o_reset o s) 0 0 0 -> o_size o s = size ->
  exists t, run (it_next o) n (it_new o s batch true) =
    (t, map (fun i => if Nat.leb (i * batch + batch) size
                      then Batch (map (ord 0 0) (seq (i * batch) batch)) else Stop) (seq 0 n)) /\
    it_epoch t = 0 /\ it_log t = [].
Proof.
  intros Hb HR Hs.
  destruct (run_stop o size ord R L Hsize batch n Hb (it_new o s batch true) 0) as (t & E1 & G).
  - unfold stop_iter, it_new. cbn. split; [|repeat split; auto]. exists 0. split; [exact HR|left; lia].
  - exists t. rewrite E1. destruct G as (_ & _ & _ & _ & G1 & G2 & _). auto.
Qed.

(** Batches whose examples do not depend on apply_order. *)
Lemma batches_const batch n (x : nat -> E) :
  (forall a j, x_of size ord a j = x j) ->
  map (fun i => Batch (map (x_of size ord (crossings size batch i)) (seq (i * batch) batch))) (seq 0 n) =
  batches_of x batch n.
Proof. intros H. apply map_ext. intros i. f_equal. apply map_ext. intros j. apply H. Qed.

Lemma leb_lt_div batch i : 0 < batch -> Nat.leb (i * batch + batch) size = Nat.ltb i (size / batch).
Proof.
  intros Hb. assert (D := Nat.div_mod size batch ltac:(lia)).
  assert (U := Nat.mod_upper_bound size batch ltac:(lia)).
  revert D U. generalize (size / batch) (size mod batch). intros q m D U.
  destruct (Nat.leb_spec (i * batch + batch) size); destruct (Nat.ltb_spec i q); auto; nia.
Qed.

(** If the batch size divides the data size, apply_order happens exactly at epoch ends. *)
Lemma crossings_div batch m i : 0 < batch -> size = m * batch -> crossings size batch i = i * batch / size.
Proof.
  intros Hb ->. assert (Hm : 0 < m) by (destruct m; lia).
  assert (Hd : forall k, k * batch / (m * batch) = k / m).
  { intros k. rewrite Nat.div_mul_cancel_r; lia. }
  induction i as [|i IH]; [cbn; symmetry; apply Nat.div_0_l; nia|].
  cbn [crossings]. rewrite IH. replace (i * batch + batch) with ((i + 1) * batch) by lia.
  replace (Datatypes.S i * batch) with ((i + 1) * batch) by lia. rewrite !Hd.
  assert (D := Nat.div_mod i m ltac:(lia)). assert (U := Nat.mod_upper_bound i m ltac:(lia)).
  assert (D' := Nat.div_mod (i + 1) m ltac:(lia)). assert (U' := Nat.mod_upper_bound (i + 1) m ltac:(lia)).
  revert D U D' U'. generalize (i / m) (i mod m) ((i + 1) / m) ((i + 1) mod m). intros a b c d D U D' U'.
  destruct (Nat.eqb_spec c a); nia.
Qed.

Lemma batch_epoch batch m i j : 0 < batch -> size = m * batch ->
  i * batch <= j < i * batch + batch -> j / size = i * batch / size.
Proof.
  intros Hb E1 Hj. subst size. assert (Hm : 0 < m) by (destruct m; lia).
  assert (D := Nat.div_mod i m ltac:(lia)). assert (U := Nat.mod_upper_bound i m ltac:(lia)).
  rewrite Nat.div_mul_cancel_r by lia. symmetry.
  apply (Nat.div_unique _ _ _ (j - (i / m) * (m * batch))).
  - revert D U. generalize (i / m) (i mod m). intros. nia.
  - revert D U. generalize (i / m) (i mod m). intros. nia.
Qed.

Lemma batches_div batch m n : 0 < batch -> size = m * batch ->
  map (fun i => Batch (map (x_of size ord (crossings size batch i)) (seq (i * batch) batch))) (seq 0 n) =
  batches_of (fun j => ord (j / size) (j / size) (j mod size)) batch n.
Proof.
  intros Hb Hm. apply map_ext. intros i. f_equal. apply map_ext_seq. intros j Hj.
  rewrite (crossings_div batch m i Hb Hm), <- (batch_epoch batch m i j Hb Hm Hj). reflexivity.
Qed.

Lemma delivered_batches (x : nat -> E) batch n : delivered (batches_of x batch n) = map x (seq 0 (n * batch)).
Proof.
  unfold batches_of. rewrite (delivered_map (fun _ => x)). rewrite flat_batches. reflexivity.
Qed.

(** An epoch that follows an order [pi e] of the positions of [l]. *)
Lemma epoch_perm (pi : nat -> list nat) (f : nat -> E) e total :
  (forall k, permutes (pi k) size) -> (e + 1) * size <= total ->
  Permutation (epoch_slice size e (map (fun j => f (nth (j mod size) (pi (j / size)) 0)) (seq 0 total)))
              (map f (seq 0 size)).
Proof.
  intros Hp Ht. rewrite epoch_slice_map by exact Ht.
  erewrite map_ext_seq.
  2:{ intros p Hlt. rewrite Nat.add_comm, Nat.mod_add, Nat.div_add, Nat.mod_small, Nat.div_small by lia.
      rewrite Nat.add_0_l. reflexivity. }
  rewrite <- (map_map (fun p => nth p (pi e) 0) f). apply Permutation_map.
  rewrite permutes_map_nth by apply Hp. apply Hp.
Qed.
End Runs.

(** ** Threads *)

Lemma threaded_same {S E} (o : ops S E) s batch stop n :
  Forall is_batch (snd (run (it_next o) n (it_new o s batch stop))) ->
  snd (run (it_next_thread o) n (it_new_thread o s batch stop)) = snd (run (it_next o) n (it_new o s batch stop)) /\
  it_epoch (fst (run (it_next_thread o) n (it_new_thread o s batch stop))) =
  it_epoch (fst (run (it_next o) n (it_new o s batch stop))) /\
  it_log (fst (run (it_next_thread o) n (it_new_thread o s batch stop))) =
  it_log (fst (run (it_next o) n (it_new o s batch stop))).
Proof.
  intros H. unfold it_new_thread.
  destruct (thread_run o n (it_new o s batch stop) eq_refl H) as [E1 Q]. rewrite E1. cbn [fst snd].
  split; [reflexivity|]. now apply fetch_epoch.
Qed.

Lemma run_app {S E} (step : iter S E -> iter S E * outcome E) n m t :
  run step (n + m) t = let (t1, xs) := run step n t in let (t2, ys) := run step m t1 in (t2, xs ++ ys).
Proof.
  revert t. induction n as [|n IH]; intros t; cbn [run Nat.add].
  - destruct (run step m t); reflexivity.
  - destruct (step t) as [t1 x]. rewrite IH. destruct (run step n t1) as [t2 xs].
    destruct (run step m t2); reflexivity.
Qed.

(** After the last batch the threaded iterator reports Stop once and then blocks. *)
Lemma threaded_stop {S E} (o : ops S E) s batch n xs :
  snd (run (it_next o) (n + 1) (it_new o s batch true)) = xs ++ [Stop] -> Forall is_batch xs ->
  forall m, snd (run (it_next_thread o) (n + 1 + m) (it_new_thread o s batch true)) = xs ++ [Stop] ++ repeat Hang m.
Proof.
  intros H Hx m. rewrite run_app in H. rewrite run_app, run_app.
  destruct (run (it_next o) n (it_new o s batch true)) as [t1 ys] eqn:E1.
  cbn [run] in H. destruct (it_next o t1) as [t2 y] eqn:E2. cbn [snd] in H.
  apply app_inj_tail in H. destruct H as [-> ->].
  destruct (thread_run o n (it_new o s batch true) eq_refl) as [E3 Q3].
  { rewrite E1. exact Hx. }
  rewrite E1 in E3, Q3. cbn [fst snd] in *. unfold it_new_thread. rewrite E3.
  assert (T := thread_step o t1 Q3). rewrite E2 in T. destruct T as (t' & T & Q').
  cbn [run]. rewrite T. rewrite hang_run by exact Q'. cbn [snd]. now rewrite <- app_assoc.
Qed.
