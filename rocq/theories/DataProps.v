(** C04-C10, C33, C34: data sources and iterators. *)
From Coq Require Import List Bool Arith ZArith Lia Permutation.
From Verif Require Import DataModel DataSpec DataProofs DataProofs2 DataProofs3 DataProofs4 DataProofs5 DataProofs6.
Import ListNotations.

Definition id_rng : rng_t := fun _ n => seq 0 n.
Lemma id_fair : fair id_rng. Proof. intros k n. reflexivity. Qed.

(** Identity, except that draw [k0] swaps the first two positions. *)
Definition swap_rng (k0 : nat) : rng_t := fun k n =>
  if Nat.eqb k k0 then match n with S (S m) => 1 :: 0 :: seq 2 m | _ => seq 0 n end else seq 0 n.
Lemma swap_fair k0 : fair (swap_rng k0).
Proof.
  intros k n. unfold swap_rng. destruct (Nat.eqb k k0); [|reflexivity].
  destruct n as [|[|m]]; try reflexivity. apply perm_swap.
Qed.

(** Rotation by one to the right: last position first. *)
Definition rot_rng : rng_t := fun _ n => match n with S m => m :: seq 0 m | O => [] end.
Lemma rot_fair : fair rot_rng.
Proof.
  intros k [|m]; [reflexivity|]. unfold rot_rng. rewrite seq_S. apply Permutation_cons_append.
Qed.

(** ** C04 Worker slices *)
Theorem C04_window : forall drop_last size workers rank st en,
  (0 < workers -> 0 < size -> 0 <= rank < workers ->
   slice_start_end drop_last size workers rank = (st, en) -> 0 <= st /\ st <= en /\ en <= size)%Z.
Proof.
  intros dl size n r st en Hn Hs Hr H.
  destruct (slice_window dl size n r st en Hn Hs Hr H) as (A & B & C).
  destruct (rank_len_bounds dl size n Hn Hs) as (D & _). lia.
Qed.
Print Assumptions C04_window.

Theorem C04_equal_length : forall drop_last size workers r r' st en st' en',
  (0 < workers -> 0 < size -> 0 <= r < workers -> 0 <= r' < workers ->
   slice_start_end drop_last size workers r = (st, en) ->
   slice_start_end drop_last size workers r' = (st', en') -> en - st = en' - st')%Z.
Proof.
  intros dl size n r r' st en st' en' Hn Hs Hr Hr' H H'.
  destruct (slice_window dl size n r st en Hn Hs Hr H) as (_ & _ & ->).
  now destruct (slice_window dl size n r' st' en' Hn Hs Hr' H') as (_ & _ & ->).
Qed.
Print Assumptions C04_equal_length.

Theorem C04_cover : forall size workers x,
  (0 < workers -> 0 < size -> 0 <= x < size ->
   exists r st en, 0 <= r < workers /\ slice_start_end false size workers r = (st, en) /\ st <= x < en)%Z.
Proof. exact slice_cover. Qed.
Print Assumptions C04_cover.

Theorem C04_drop_last_disjoint : forall size workers r r' st en st' en',
  (0 < workers -> 0 < size -> 0 <= r < workers -> 0 <= r' < workers -> r <> r' ->
   slice_start_end true size workers r = (st, en) ->
   slice_start_end true size workers r' = (st', en') -> en <= st' \/ en' <= st)%Z.
Proof. exact slice_disjoint. Qed.
Print Assumptions C04_drop_last_disjoint.

(** All but fewer than [workers] examples (the last ones) are in a window. *)
Theorem C04_drop_last_loss : forall size workers,
  (0 < workers -> 0 < size ->
   exists kept, size - workers < kept <= size /\
     forall x, 0 <= x < kept ->
       exists r st en, 0 <= r < workers /\ slice_start_end true size workers r = (st, en) /\ st <= x < en)%Z.
Proof.
  intros size n Hn Hs. exists (n * (size / n))%Z.
  destruct (rank_len_bounds true size n Hn Hs) as (_ & B & _). specialize (B eq_refl). unfold rank_len in B.
  split; [lia|]. intros x Hx. now apply slice_drop_cover.
Qed.
Print Assumptions C04_drop_last_loss.

Example C04_ex : map (slice_start_end false 10 3) [0; 1; 2]%Z = [(0, 4); (4, 8); (6, 10)]%Z.
Proof. reflexivity. Qed.
Example C04_ex_drop : map (slice_start_end true 10 3) [0; 1; 2]%Z = [(0, 3); (3, 6); (6, 9)]%Z.
Proof. reflexivity. Qed.
Example C04_ex_few : map (slice_start_end false 2 3) [0; 1; 2]%Z = [(0, 1); (1, 2); (0, 1)]%Z.
Proof. reflexivity. Qed.

(** ** C05 Unshuffled iteration *)
Theorem C05_simple : forall E (load : nat -> E) size rng batch n, 0 < size -> fair rng ->
  good_run (run (it_next simple_ops) n (it_new simple_ops (simple_new load size false rng) batch false))
           (fun j => load (j mod size)) size batch n.
Proof. intros. now apply simple_run_unshuffled. Qed.
Print Assumptions C05_simple.

Theorem C05_csv : forall E (rows : list E) d rng batch n, 0 < length rows -> fair rng ->
  good_run (run (it_next csv_ops) n (it_new csv_ops (csv_new rows false rng) batch false))
           (fun j => nth (j mod length rows) rows d) (length rows) batch n.
Proof. intros. now apply csv_seq_lemma. Qed.
Print Assumptions C05_csv.

Theorem C05_memory_simple : forall E (load : nat -> E) size rng rng2 batch n, 0 < size -> fair rng -> fair rng2 ->
  good_run (run (it_next (mem_ops simple_ops)) n
     (it_new (mem_ops simple_ops) (mem_new simple_ops (simple_new load size false rng) true false rng2) batch false))
    (fun j => load (j mod size)) size batch n.
Proof. intros. now apply mem_simple_seq. Qed.
Print Assumptions C05_memory_simple.

(** The threaded iterator returns the same batches, epoch numbers and callbacks as
    the unthreaded one as long as the latter returns batches. *)
Theorem C05_threaded : forall S E (o : ops S E) s batch stop n,
  Forall (fun x => exists l, x = Batch l) (snd (run (it_next o) n (it_new o s batch stop))) ->
  snd (run (it_next_thread o) n (it_new_thread o s batch stop)) = snd (run (it_next o) n (it_new o s batch stop)) /\
  it_epoch (fst (run (it_next_thread o) n (it_new_thread o s batch stop))) =
  it_epoch (fst (run (it_next o) n (it_new o s batch stop))) /\
  it_log (fst (run (it_next_thread o) n (it_new_thread o s batch stop))) =
  it_log (fst (run (it_next o) n (it_new o s batch stop))).
Proof.
  intros S E o s batch stop n H. apply threaded_same.
  eapply Forall_impl; [|exact H]. intros x (l & ->). exact I.
Qed.
Print Assumptions C05_threaded.

Theorem C05_simple_threaded : forall E (load : nat -> E) size rng batch n, 0 < size -> fair rng ->
  good_run (run (it_next_thread simple_ops) n (it_new_thread simple_ops (simple_new load size false rng) batch false))
           (fun j => load (j mod size)) size batch n.
Proof.
  intros E load size rng batch n Hs Hf.
  destruct (C05_simple E load size rng batch n Hs Hf) as (A & B & C).
  destruct (C05_threaded _ _ simple_ops (simple_new load size false rng) batch false n) as (P & Q & R).
  - rewrite A. apply Forall_forall. intros x Hx. apply in_map_iff in Hx. destruct Hx as (i & <- & _). eauto.
  - split; [congruence|split; congruence].
Qed.
Print Assumptions C05_simple_threaded.

Example C05_ex : snd (run (it_next simple_ops) 4 (it_new simple_ops (simple_new (fun i => i) 3 false id_rng) 2 false)) =
  [Batch [0; 1]; Batch [2; 0]; Batch [1; 2]; Batch [0; 1]].
Proof. reflexivity. Qed.
Example C05_ex_log : it_log (fst (run (it_next simple_ops) 2 (it_new simple_ops (simple_new (fun i => i) 3 false id_rng) 7 false))) =
  [EpochEnd 0; EpochBegin 1; EpochEnd 1; EpochBegin 2; EpochEnd 2; EpochBegin 3; EpochEnd 3; EpochBegin 4].
Proof. reflexivity. Qed.
Example C05_ex_thread : snd (run (it_next_thread (mem_ops csv_ops)) 3
   (it_new_thread (mem_ops csv_ops) (mem_new csv_ops (csv_new [10; 20; 30] false id_rng) true false id_rng) 2 false)) =
  [Batch [10; 20]; Batch [30; 10]; Batch [20; 30]].
Proof. reflexivity. Qed.

(** ** C06 Shuffled iteration *)
Theorem C06_csv : forall E (rows : list E) rng sh batch n e, 0 < length rows -> fair rng ->
  (e + 1) * length rows <= n * batch ->
  Permutation (epoch_slice (length rows) e
    (delivered (snd (run (it_next csv_ops) n (it_new csv_ops (csv_new rows sh rng) batch false))))) rows.
Proof. intros. now apply csv_epochs. Qed.
Print Assumptions C06_csv.

Theorem C06_memory_csv : forall E (rows : list E) rng sh rng2 sh2 batch n e, 0 < length rows -> fair rng -> fair rng2 ->
  (e + 1) * length rows <= n * batch ->
  Permutation (epoch_slice (length rows) e
    (delivered (snd (run (it_next (mem_ops csv_ops)) n
       (it_new (mem_ops csv_ops) (mem_new csv_ops (csv_new rows sh rng) true sh2 rng2) batch false))))) rows.
Proof. intros. now apply mem_csv_epochs. Qed.
Print Assumptions C06_memory_csv.

Theorem C06_memory_simple : forall E (load : nat -> E) size rng sh rng2 sh2 batch n e, 0 < size -> fair rng -> fair rng2 ->
  (e + 1) * size <= n * batch ->
  Permutation (epoch_slice size e
    (delivered (snd (run (it_next (mem_ops simple_ops)) n
       (it_new (mem_ops simple_ops) (mem_new simple_ops (simple_new load size sh rng) true sh2 rng2) batch false)))))
    (map load (seq 0 size)).
Proof. intros. now apply mem_simple_epochs. Qed.
Print Assumptions C06_memory_simple.

(** The stack built by data_iterator_csv_dataset with a file cache. *)
Theorem C06_memory_file_csv : forall E (rows : list E) rng sh rng1 sh1 csize c rng2 sh2 batch n e,
  0 < length rows -> fair rng -> fair rng1 -> fair rng2 -> 0 < csize ->
  fc_new csv_ops (csv_new rows sh rng) csize sh1 rng1 = Some c ->
  (e + 1) * length rows <= n * batch ->
  Permutation (epoch_slice (length rows) e
    (delivered (snd (run (it_next (mem_ops (fc_ops csv_ops))) n
       (it_new (mem_ops (fc_ops csv_ops)) (mem_new (fc_ops csv_ops) c true sh2 rng2) batch false))))) rows.
Proof. intros E rows rng sh rng1 sh1 csize c rng2 sh2 batch n e Hs. now apply (mem_fc_csv_epochs rows Hs rng sh rng1 sh1 csize c). Qed.
Print Assumptions C06_memory_file_csv.

(** The bare SimpleDataSource: true when the batch size divides the data size. *)
Theorem C06_simple_partial : forall E (load : nat -> E) size rng sh batch m n e, 0 < size -> fair rng ->
  0 < batch -> size = m * batch -> (e + 1) * size <= n * batch ->
  Permutation (epoch_slice size e
    (delivered (snd (run (it_next simple_ops) n (it_new simple_ops (simple_new load size sh rng) batch false)))))
    (map load (seq 0 size)).
Proof. intros. eapply simple_div_epochs; eauto. Qed.
Print Assumptions C06_simple_partial.

(** In general batch i follows the permutation drawn after the last earlier batch
    that ended an epoch, also for the part of the batch before the epoch end. *)
Theorem C06_simple_batches : forall E (load : nat -> E) size rng sh batch n, 0 < size -> fair rng ->
  snd (run (it_next simple_ops) n (it_new simple_ops (simple_new load size sh rng) batch false)) =
  map (fun i => Batch (map (fun j =>
        load (nth (j mod size) (if sh then rng (count_wraps size batch i) size else seq 0 size) 0))
        (seq (i * batch) batch))) (seq 0 n).
Proof. intros. now apply simple_batches. Qed.
Print Assumptions C06_simple_batches.

(** Three examples, batches of two: the second epoch delivers example 0 twice. *)
Theorem C06_simple_refuted : exists (load : nat -> nat) size rng batch n e,
  0 < size /\ fair rng /\ 0 < batch /\ (e + 1) * size <= n * batch /\
  ~ Permutation (epoch_slice size e
      (delivered (snd (run (it_next simple_ops) n (it_new simple_ops (simple_new load size true rng) batch false)))))
      (map load (seq 0 size)).
Proof.
  exists (fun i => i), 3, (swap_rng 1), 2, 3, 1.
  split; [lia|]. split; [apply swap_fair|]. split; [lia|]. split; [lia|].
  intros H. apply Permutation_sym, (Permutation_in 1) in H; [|cbn; auto].
  vm_compute in H. intuition discriminate.
Qed.
Print Assumptions C06_simple_refuted.
Example C06_refuted_run :
  snd (run (it_next simple_ops) 3 (it_new simple_ops (simple_new (fun i => i) 3 true (swap_rng 1)) 2 false)) =
  [Batch [0; 1]; Batch [2; 0]; Batch [0; 2]].
Proof. reflexivity. Qed.
Example C06_ex :
  snd (run (it_next csv_ops) 3 (it_new csv_ops (csv_new [10; 20; 30] true (swap_rng 2)) 2 false)) =
  [Batch [10; 20]; Batch [30; 20]; Batch [10; 30]].
Proof. reflexivity. Qed.
Example C06_ex_mem :
  snd (run (it_next (mem_ops simple_ops)) 6 (it_new (mem_ops simple_ops)
     (mem_new simple_ops (simple_new (fun i => i) 3 true rot_rng) true true rot_rng) 2 false)) =
  [Batch [2; 0]; Batch [1; 2]; Batch [0; 1]; Batch [1; 2]; Batch [0; 1]; Batch [2; 0]].
Proof. reflexivity. Qed.

(** ** C07 stop_exhausted *)
Theorem C07_simple : forall E (load : nat -> E) size sh rng batch n, 0 < size -> fair rng -> 0 < batch ->
  exists order, Permutation order (seq 0 size) /\
  let r := run (it_next simple_ops) n (it_new simple_ops (simple_new load size sh rng) batch true) in
  snd r = map (fun i => if Nat.ltb i (size / batch)
                        then Batch (map (fun j => load (nth j order 0)) (seq (i * batch) batch))
                        else Stop) (seq 0 n) /\ it_epoch (fst r) = 0 /\ it_log (fst r) = [].
Proof.
  intros E load size sh rng batch n Hs Hf Hb. exists (simple_perm sh rng size 0).
  split; [now apply simple_perm_permutes|]. now apply simple_run_stop.
Qed.
Print Assumptions C07_simple.

Theorem C07_csv : forall E (rows : list E) d sh rng batch n, 0 < length rows -> fair rng -> 0 < batch ->
  exists order, Permutation order (seq 0 (length rows)) /\
  let r := run (it_next csv_ops) n (it_new csv_ops (csv_new rows sh rng) batch true) in
  snd r = map (fun i => if Nat.ltb i (length rows / batch)
                        then Batch (map (fun j => nth (nth j order 0) rows d) (seq (i * batch) batch))
                        else Stop) (seq 0 n) /\ it_epoch (fst r) = 0 /\ it_log (fst r) = [].
Proof.
  intros E rows d sh rng batch n Hs Hf Hb. exists (csv_perm sh rng (length rows) 1).
  split; [now apply csv_perm_permutes|]. now apply csv_run_stop.
Qed.
Print Assumptions C07_csv.

Theorem C07_memory_csv : forall E (rows : list E) d sh rng sh2 rng2 batch n, 0 < length rows -> fair rng -> fair rng2 -> 0 < batch ->
  exists order, Permutation order (seq 0 (length rows)) /\
  let r := run (it_next (mem_ops csv_ops)) n
             (it_new (mem_ops csv_ops) (mem_new csv_ops (csv_new rows sh rng) true sh2 rng2) batch true) in
  snd r = map (fun i => if Nat.ltb i (length rows / batch)
                        then Batch (map (fun j => nth (nth j order 0) rows d) (seq (i * batch) batch))
                        else Stop) (seq 0 n) /\ it_epoch (fst r) = 0 /\ it_log (fst r) = [].
Proof.
  intros E rows d sh rng sh2 rng2 batch n Hs Hf Hf2 Hb. exists (csv_perm sh rng (length rows) 0).
  split; [now apply csv_perm_permutes|].
  destruct (mem_run_stop csv_ops (length rows) _ _ (csv_ra rows d sh rng Hf) sh2 rng2 batch n Hf2 Hs 0 0
             (csv_new rows sh rng) (csv_start0 rows sh rng) Hb) as (A & B).
  cbv zeta in *. split; [|exact B]. rewrite A. apply map_ext_in. intros i Hi.
  destruct (Nat.ltb_spec i (length rows / batch)) as [Hlt|]; [|reflexivity]. f_equal.
  apply map_ext_seq. intros p Hp. f_equal. f_equal. apply seq_nth.
  assert (D := Nat.div_mod (length rows) batch ltac:(lia)). nia.
Qed.
Print Assumptions C07_memory_csv.

(** With use_thread=True the first StopIteration is raised at the same call, but any
    later call blocks for ever on the empty queue. *)
Theorem C07_threaded : forall S E (o : ops S E) s batch n xs,
  snd (run (it_next o) (n + 1) (it_new o s batch true)) = xs ++ [Stop] -> Forall (fun x => exists l, x = Batch l) xs ->
  forall m, snd (run (it_next_thread o) (n + 1 + m) (it_new_thread o s batch true)) = xs ++ [Stop] ++ repeat Hang m.
Proof.
  intros S E o s batch n xs H F m. eapply threaded_stop; eauto.
  eapply Forall_impl; [|exact F]. intros x (l & ->). exact I.
Qed.
Print Assumptions C07_threaded.

Theorem C07_threaded_refuted : exists (load : nat -> nat) size batch n,
  nth_error (snd (run (it_next_thread simple_ops) n
     (it_new_thread simple_ops (simple_new load size false id_rng) batch true))) (size / batch + 1) = Some Hang.
Proof. exists (fun i => i), 5, 2, 4. reflexivity. Qed.
Print Assumptions C07_threaded_refuted.

Example C07_ex : snd (run (it_next simple_ops) 4 (it_new simple_ops (simple_new (fun i => i) 5 true rot_rng) 2 true)) =
  [Batch [4; 0]; Batch [1; 2]; Stop; Stop].
Proof. reflexivity. Qed.
Example C07_ex_exact : snd (run (it_next csv_ops) 3 (it_new csv_ops (csv_new [7; 8; 9; 10] false id_rng) 2 true)) =
  [Batch [7; 8]; Batch [9; 10]; Stop].
Proof. reflexivity. Qed.
Example C07_ex_hang : snd (run (it_next_thread simple_ops) 4 (it_new_thread simple_ops (simple_new (fun i => i) 5 false id_rng) 2 true)) =
  [Batch [0; 1]; Batch [2; 3]; Stop; Hang].
Proof. reflexivity. Qed.

(** ** C08 Memory cache *)
(** Without shuffling nothing observable changes. *)
Theorem C08_transparent : forall E (rows : list E) rng rng2 batch n, 0 < length rows -> fair rng -> fair rng2 ->
  let r := run (it_next csv_ops) n (it_new csv_ops (csv_new rows false rng) batch false) in
  let r' := run (it_next (mem_ops csv_ops)) n
     (it_new (mem_ops csv_ops) (mem_new csv_ops (csv_new rows false rng) true false rng2) batch false) in
  snd r' = snd r /\ it_epoch (fst r') = it_epoch (fst r) /\ it_log (fst r') = it_log (fst r).
Proof.
  intros E rows rng rng2 batch n Hs Hf Hf2.
  destruct rows as [|d rows'] eqn:Er; [cbn in Hs; lia|]. rewrite <- Er in *. clear Er.
  destruct (csv_seq_lemma rows Hs rng batch n d Hf) as (A & B & C).
  destruct (mem_csv_seq rows Hs rng rng2 batch n d Hf Hf2) as (A' & B' & C').
  cbv zeta. repeat split; congruence.
Qed.
Print Assumptions C08_transparent.

(** With shuffling: epochs 0 and 1 keep the order of the wrapped source, epoch k+2
    follows draw k; every example comes from the cache of the first pass. *)
Theorem C08_shuffled : forall E (load : nat -> E) size rng rng2 batch n, 0 < size -> fair rng -> fair rng2 ->
  good_run (run (it_next (mem_ops simple_ops)) n
     (it_new (mem_ops simple_ops) (mem_new simple_ops (simple_new load size false rng) true true rng2) batch false))
    (fun j => load (nth (j mod size) (match j / size with S (S k) => rng2 k size | _ => seq 0 size end) 0))
    size batch n.
Proof.
  intros E load size rng rng2 batch n Hs Hf Hf2.
  eapply good_run_ext.
  2:{ apply (mem_run simple_ops size _ _ (simple_ra load size false rng Hf) true rng2 batch n Hf2 Hs 0 0).
      destruct (simple_new_inv load size false rng) as (A & B & C). split; auto. }
  intros j. cbn beta. cbn [simple_perm]. rewrite seq_nth.
  - unfold mem_perm. destruct (j / size) as [|[|k]]; reflexivity.
  - apply permutes_nth_lt; [now apply mem_perm_permutes|apply Nat.mod_upper_bound; lia].
Qed.
Print Assumptions C08_shuffled.

(** When the data does not fit the buffer the cache hands every read through, but
    apply_order is not forwarded: a shuffled simple source then repeats one order. *)
Theorem C08_off_memory : forall E (load : nat -> E) size rng sh rng2 sh2 batch n e, 0 < size -> fair rng -> fair rng2 ->
  (e + 1) * size <= n * batch ->
  Permutation (epoch_slice size e
    (delivered (snd (run (it_next (mem_ops simple_ops)) n
       (it_new (mem_ops simple_ops) (mem_new simple_ops (simple_new load size sh rng) false sh2 rng2) batch false)))))
    (map load (seq 0 size)).
Proof. intros. now apply mem_off_simple_epochs. Qed.
Print Assumptions C08_off_memory.

(** n reads of the source *)
Fixpoint reads {S E} (o : ops S E) (n : nat) (s : S) : S * list (option E) :=
  match n with
  | O => (s, [])
  | S n' => let (s1, d) := src_next o s in let (s2, ds) := reads o n' s1 in (s2, d :: ds)
  end.

(** Two resets before the first pass is complete make a shuffling cache wrong:
    afterwards a whole pass over three examples delivers example 0 three times. *)
Theorem C08_early_reset_refuted : exists (load : nat -> nat) size rng,
  fair rng /\
  let o := mem_ops simple_ops in
  let m0 := o_reset o (mem_new simple_ops (simple_new load size false id_rng) true true rng) in
  let m1 := o_reset o (fst (reads o 1 m0)) in
  let m2 := o_reset o (fst (reads o 1 m1)) in
  snd (reads o size m2) = [Some (load 0); Some (load 0); Some (load 0)] /\
  ~ Permutation (snd (reads o size m2)) (map (fun i => Some (load i)) (seq 0 size)).
Proof.
  exists (fun i => i), 3, rot_rng. split; [apply rot_fair|]. cbv zeta. split; [reflexivity|].
  intros H. apply Permutation_sym, (Permutation_in (Some 1)) in H; [|cbn; auto].
  vm_compute in H. intuition discriminate.
Qed.
Print Assumptions C08_early_reset_refuted.

Example C08_ex :
  snd (run (it_next (mem_ops simple_ops)) 6 (it_new (mem_ops simple_ops)
     (mem_new simple_ops (simple_new (fun i => 10 * i) 4 false id_rng) true true rot_rng) 2 false)) =
  [Batch [0; 10]; Batch [20; 30]; Batch [0; 10]; Batch [20; 30]; Batch [30; 0]; Batch [10; 20]].
Proof. reflexivity. Qed.
Example C08_ex_off :
  snd (run (it_next (mem_ops simple_ops)) 4 (it_new (mem_ops simple_ops)
     (mem_new simple_ops (simple_new (fun i => i) 2 true (swap_rng 1)) false true id_rng) 2 false)) =
  [Batch [0; 1]; Batch [0; 1]; Batch [0; 1]; Batch [0; 1]].
Proof. reflexivity. Qed.

(** ** C09 File cache *)
Theorem C09_created : forall E (rows : list E) rng sh rng1 sh1 csize,
  0 < length rows -> fair rng -> fair rng1 -> 0 < csize ->
  exists c, fc_new csv_ops (csv_new rows sh rng) csize sh1 rng1 = Some c.
Proof. intros. now apply fc_csv_ok. Qed.
Print Assumptions C09_created.

(** After any number of resets the positions hold each example exactly once. *)
Theorem C09_reads : forall E (rows : list E) rng sh rng1 sh1 csize c k,
  0 < length rows -> fair rng -> fair rng1 -> 0 < csize ->
  fc_new csv_ops (csv_new rows sh rng) csize sh1 rng1 = Some c ->
  Permutation (map (fun p => snd (o_get (fc_ops csv_ops) (Nat.iter k (o_reset (fc_ops csv_ops)) c) p)) (seq 0 (length rows)))
              (map Some rows).
Proof. intros E rows rng sh rng1 sh1 csize c k Hs. now apply (fc_csv_reads rows Hs rng sh rng1 sh1 csize c). Qed.
Print Assumptions C09_reads.

Theorem C09_epochs : forall E (rows : list E) rng sh rng1 sh1 csize c batch n e,
  0 < length rows -> fair rng -> fair rng1 -> 0 < csize ->
  fc_new csv_ops (csv_new rows sh rng) csize sh1 rng1 = Some c ->
  (e + 1) * length rows <= n * batch ->
  Permutation (epoch_slice (length rows) e
    (delivered (snd (run (it_next (fc_ops csv_ops)) n (it_new (fc_ops csv_ops) c batch false))))) rows.
Proof. intros E rows rng sh rng1 sh1 csize c batch n e Hs. now apply (fc_csv_epochs rows Hs rng sh rng1 sh1 csize c). Qed.
Print Assumptions C09_epochs.

Theorem C09_unshuffled : forall E (rows : list E) d rng rng1 csize c batch n,
  0 < length rows -> fair rng -> fair rng1 -> 0 < csize ->
  fc_new csv_ops (csv_new rows false rng) csize false rng1 = Some c ->
  good_run (run (it_next (fc_ops csv_ops)) n (it_new (fc_ops csv_ops) c batch false))
    (fun j => nth (j mod length rows) rows d) (length rows) batch n.
Proof. intros E rows d rng rng1 csize c batch n Hs. now apply (fc_csv_seq rows Hs rng rng1 csize c). Qed.
Print Assumptions C09_unshuffled.

Definition run_fc (c : option (fcache (csv nat) nat)) batch n :=
  match c with
  | None => []
  | Some c => snd (run (it_next (fc_ops csv_ops)) n (it_new (fc_ops csv_ops) c batch false))
  end.
Example C09_ex : run_fc (fc_new csv_ops (csv_new [10; 11; 12; 13; 14] false id_rng) 2 false id_rng) 3 3 =
  [Batch [10; 11; 12]; Batch [13; 14; 10]; Batch [11; 12; 13]].
Proof. reflexivity. Qed.
(** Two files [10;11;12], [13;14]: files and their contents are rotated. *)
Example C09_ex_shuffled : run_fc (fc_new csv_ops (csv_new [10; 11; 12; 13; 14] false id_rng) 3 true rot_rng) 5 2 =
  [Batch [14; 13; 12; 10; 11]; Batch [11; 12; 10; 13; 14]].
Proof. reflexivity. Qed.

(** ** C10 Concatenation *)
(** [tabs] are the tables of the sources; [ids] lists the (distinct) source objects. *)
Theorem C10_size_partial : forall E (tabs : list (list E)) rng ids sh rng2,
  fair rng -> NoDup ids -> ids <> [] -> (forall id, In id ids -> id < length tabs) ->
  o_size (concat_ops csv_ops) (concat_new csv_ops (map (fun t => csv_new t false rng) tabs) ids sh rng2) =
  length (flat_map (fun id => nth id tabs []) ids).
Proof. exact @concat_size_lemma. Qed.
Print Assumptions C10_size_partial.

Theorem C10_order_partial : forall E (tabs : list (list E)) rng ids rng2 batch n d,
  fair rng -> fair rng2 -> NoDup ids -> ids <> [] -> (forall id, In id ids -> id < length tabs) ->
  let all := flat_map (fun id => nth id tabs []) ids in
  0 < length all ->
  good_run (run (it_next (concat_ops csv_ops)) n
      (it_new (concat_ops csv_ops) (concat_new csv_ops (map (fun t => csv_new t false rng) tabs) ids false rng2) batch false))
    (fun j => nth (j mod length all) all d) (length all) batch n.
Proof.
  intros E tabs rng ids rng2 batch n d Hf Hf2 Hnd Hne Hin all Hs.
  eapply good_run_ext; [|exact (concat_run tabs rng ids false rng2 batch n d Hf Hf2 Hnd Hne Hin Hs)].
  intros j. cbn beta iota. fold all. rewrite seq_nth by (apply Nat.mod_upper_bound; lia). reflexivity.
Qed.
Print Assumptions C10_order_partial.

Theorem C10_shuffled_partial : forall E (tabs : list (list E)) rng ids rng2 sh batch n e,
  fair rng -> fair rng2 -> NoDup ids -> ids <> [] -> (forall id, In id ids -> id < length tabs) ->
  let all := flat_map (fun id => nth id tabs []) ids in
  0 < length all -> (e + 1) * length all <= n * batch ->
  Permutation (epoch_slice (length all) e (delivered (snd (run (it_next (concat_ops csv_ops)) n
      (it_new (concat_ops csv_ops) (concat_new csv_ops (map (fun t => csv_new t false rng) tabs) ids sh rng2) batch false)))))
    all.
Proof.
  intros E tabs rng ids rng2 sh batch n e Hf Hf2 Hnd Hne Hin all Hs He.
  destruct all as [|d l] eqn:Ea; [cbn in Hs; lia|]. rewrite <- Ea in *.
  assert (G := concat_run tabs rng ids sh rng2 batch n d Hf Hf2 Hnd Hne Hin). cbv zeta in G. fold all in G.
  specialize (G Hs).
  etransitivity; [apply (epochs_of_run _ (fun k => if sh then rng2 (1 + k) (length all) else seq 0 (length all))
     (fun i => nth i all d) (length all) batch n e)|].
  - exact Hs.
  - intros k. destruct sh; [apply Hf2|apply permutes_seq].
  - exact G.
  - exact He.
  - now rewrite map_nth_seq.
Qed.
Print Assumptions C10_shuffled_partial.

(** Concatenating a source object with itself yields only one copy. *)
Theorem C10_duplicate_refuted : exists (tab : list nat),
  o_size (concat_ops csv_ops) (concat_new csv_ops [csv_new tab false id_rng] [0; 0] false id_rng) <> length tab + length tab.
Proof. exists [1; 2; 3]. cbn. discriminate. Qed.
Print Assumptions C10_duplicate_refuted.

Example C10_ex :
  snd (run (it_next (concat_ops csv_ops)) 3 (it_new (concat_ops csv_ops)
     (concat_new csv_ops (map (fun t => csv_new t false id_rng) [[1; 2]; []; [3; 4; 5]]) [2; 1; 0] false id_rng) 3 false)) =
  [Batch [3; 4; 5]; Batch [1; 2; 3]; Batch [4; 5; 1]].
Proof. reflexivity. Qed.

(** ** C33 A slice delivers its window *)
Theorem C33_slice_csv_partial : forall E (rows : list E) rng st en batch n d,
  fair rng -> st < en -> en <= length rows ->
  good_run (run (it_next (sliced_ops csv_ops)) n
     (it_new (sliced_ops csv_ops) (sliced_new (csv_new rows false rng) st en) batch false))
    (fun j => nth (st + j mod (en - st)) rows d) (en - st) batch n.
Proof. intros. now apply sliced_csv_seq. Qed.
Print Assumptions C33_slice_csv_partial.

Theorem C33_slice_simple_partial : forall E (load : nat -> E) size rng st en batch n,
  fair rng -> st < en -> en <= size ->
  good_run (run (it_next (sliced_ops simple_ops)) n
     (it_new (sliced_ops simple_ops) (sliced_new (simple_new load size false rng) st en) batch false))
    (fun j => load (st + j mod (en - st))) (en - st) batch n.
Proof. intros. now apply sliced_simple_seq. Qed.
Print Assumptions C33_slice_simple_partial.

(** Slicing an iterator that uses the memory cache: worker 2 of 3 over ten examples
    must deliver 6,7,8,9 in every epoch, but delivers 8,9,8,9 from the third on. *)
Theorem C33_memory_refuted : exists (load : nat -> nat) size workers rank st en,
  window false size workers rank = (st, en) /\
  let m := it_src (it_new (mem_ops simple_ops) (mem_new simple_ops (simple_new load size false id_rng) true false id_rng) 4 false) in
  nth_error (snd (run (it_next (sliced_ops (mem_ops simple_ops))) 3
       (it_new (sliced_ops (mem_ops simple_ops)) (sliced_new m st en) (en - st) false))) 2
  = Some (Batch [8; 9; 8; 9]) /\
  map load (seq st (en - st)) = [6; 7; 8; 9].
Proof. exists (fun i => i), 10, 3, 2, 6, 10. split; [reflexivity|]. cbv zeta. split; reflexivity. Qed.
Print Assumptions C33_memory_refuted.

Example C33_ex : snd (run (it_next (sliced_ops simple_ops)) 3
   (it_new (sliced_ops simple_ops) (sliced_new (simple_new (fun i => i) 10 false id_rng) 4 8) 3 false)) =
  [Batch [4; 5; 6]; Batch [7; 4; 5]; Batch [6; 7; 4]].
Proof. reflexivity. Qed.

(** ** C34 The workers together see every example in every epoch *)
Theorem C34_workers_csv : forall E (rows : list E) rng sh w batch n e x,
  fair rng -> 0 < w -> In x rows ->
  (forall r st en, r < w -> window false (length rows) w r = (st, en) -> (e + 1) * (en - st) <= n * batch) ->
  exists r st en, r < w /\ window false (length rows) w r = (st, en) /\
    In x (epoch_slice (en - st) e (delivered (snd (run (it_next (sliced_ops csv_ops)) n
     (it_new (sliced_ops csv_ops) (sliced_new (csv_new rows sh rng) st en) batch false))))).
Proof. exact @workers_cover. Qed.
Print Assumptions C34_workers_csv.

(** Simple source: when the batch size divides the length of the windows. *)
Theorem C34_workers_simple_partial : forall E (load : nat -> E) size rng w batch m n e i,
  fair rng -> 0 < w -> i < size -> 0 < batch ->
  (forall r st en, r < w -> window false size w r = (st, en) -> en - st = m * batch /\ (e + 1) * (en - st) <= n * batch) ->
  exists r st en, r < w /\ window false size w r = (st, en) /\
    In (load i) (epoch_slice (en - st) e (delivered (snd (run (it_next (sliced_ops simple_ops)) n
     (it_new (sliced_ops simple_ops) (sliced_new (simple_new load size true rng) st en) batch false))))).
Proof. exact @workers_cover_simple. Qed.
Print Assumptions C34_workers_simple_partial.

Definition worker_run (rng : rng_t) (size batch n st en : nat) :=
  delivered (snd (run (it_next (sliced_ops simple_ops)) n
     (it_new (sliced_ops simple_ops) (sliced_new (simple_new (fun i => i) size true rng) st en) batch false))).

(** Four examples, two workers with windows (0,2) and (2,4), batch size 3: in epoch 1
    nobody sees example 1. *)
Theorem C34_workers_simple_refuted : exists rng size w batch n e i,
  fair rng /\ 0 < w /\ i < size /\
  forall r st en, r < w -> window false size w r = (st, en) ->
    (e + 1) * (en - st) <= n * batch /\
    ~ In i (epoch_slice (en - st) e (worker_run rng size batch n st en)).
Proof.
  exists (fun k n => if Nat.eqb k 1 then match n with 4 => [0; 2; 1; 3] | _ => seq 0 n end else seq 0 n), 4, 2, 3, 2, 1, 1.
  split.
  { intros k n. destruct (Nat.eqb k 1); [|reflexivity].
    destruct n as [|[|[|[|[|n]]]]]; try reflexivity.
    change (seq 0 4) with [0; 1; 2; 3]. apply perm_skip, perm_swap. }
  split; [lia|]. split; [lia|].
  intros r st en Hr Hw. destruct r as [|[|r]]; [| |lia]; vm_compute in Hw; inversion Hw; subst;
    (split; [lia|]; vm_compute; intuition discriminate).
Qed.
Print Assumptions C34_workers_simple_refuted.
Example C34_ex : map (fun r => let (st, en) := window false 4 2 r in worker_run rot_rng 4 2 2 st en) [0; 1] =
  [[3; 0; 3; 0]; [1; 2; 1; 2]].
Proof. reflexivity. Qed.
