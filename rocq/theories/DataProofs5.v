(** Runs of the iterator over each kind of source. *)
From Coq Require Import List Bool Arith ZArith Lia Permutation.
From Coq Require Import ZifyBool ZifyNat.
From Verif Require Import DataModel DataSpec DataProofs DataProofs2 DataProofs3 DataProofs4.
Import ListNotations.

Lemma seq_run {S E} (o : ops S E) size (f : nat -> nat -> E) R s k0 batch n :
  seq_law o size (fun _ k p => f k p) R -> 0 < size ->
  R (o_reset o s) 0 k0 0 -> o_size o s = size ->
  good_run (run (it_next o) n (it_new o s batch false)) (fun j => f (k0 + j / size) (j mod size)) size batch n.
Proof.
  intros L Hs HR Hsz. apply (law_shift _ _ _ _ 0 k0) in L.
  destruct (iter_run o size _ _ L Hs s batch n) as (t & E1 & E2 & E3).
  { rewrite !Nat.add_0_r. exact HR. } { exact Hsz. }
  unfold good_run. rewrite E1. cbn [fst snd]. split; [|auto].
  apply batches_const. intros a j. reflexivity.
Qed.

Lemma ra_run {S E} (o : ops S E) size (f : nat -> nat -> E) R s k0 batch n :
  ra_law o size (fun _ k p => f k p) R -> 0 < size ->
  R (o_reset o s) 0 k0 /\ o_pos o (o_reset o s) = 0 -> o_size o s = size ->
  good_run (run (it_next o) n (it_new o s batch false)) (fun j => f (k0 + j / size) (j mod size)) size batch n.
Proof. intros L Hs HR Hsz. eapply (seq_run o size f _ s k0 batch n (ra_seq _ _ _ _ L)); auto. Qed.

Lemma batches_ext {E} (x y : nat -> E) batch n : (forall j, x j = y j) -> batches_of x batch n = batches_of y batch n.
Proof. intros H. apply map_ext. intros i. f_equal. apply map_ext. exact H. Qed.

Lemma good_run_ext {S E} (r : iter S E * list (outcome E)) x y size batch n :
  (forall j, x j = y j) -> good_run r x size batch n -> good_run r y size batch n.
Proof. intros H (A & B & C). split; [|auto]. rewrite A. now apply batches_ext. Qed.

Lemma epochs_of_run {S E} (r : iter S E * list (outcome E)) (pi : nat -> list nat) (f : nat -> E) size batch n e :
  0 < size -> (forall k, permutes (pi k) size) ->
  good_run r (fun j => f (nth (j mod size) (pi (j / size)) 0)) size batch n ->
  (e + 1) * size <= n * batch ->
  Permutation (epoch_slice size e (delivered (snd r))) (map f (seq 0 size)).
Proof.
  intros Hs Hp (A & _) He. rewrite A, delivered_batches. now apply epoch_perm.
Qed.

Lemma map_nth_seq {E} (rows : list E) d : map (fun i => nth i rows d) (seq 0 (length rows)) = rows.
Proof.
  induction rows as [|x rows IH]; [reflexivity|]. cbn [length seq map nth]. f_equal.
  now rewrite <- seq_shift, map_map.
Qed.

(** *** Simple *)
Section S.
Context {E : Type} (load : nat -> E) (size : nat) (rng : rng_t) (batch n : nat).
Hypothesis Hs : 0 < size.
Hypothesis Hf : fair rng.

Lemma simple_size sh : o_size simple_ops (simple_new load size sh rng) = size.
Proof. destruct sh; reflexivity. Qed.

Lemma simple_run_unshuffled :
  good_run (run (it_next simple_ops) n (it_new simple_ops (simple_new load size false rng) batch false))
           (fun j => load (j mod size)) size batch n.
Proof.
  eapply good_run_ext.
  2:{ apply (ra_run simple_ops size (fun _ p => load (nth p (seq 0 size) 0))
        (simple_R load size false rng) _ 0); auto.
      - apply (simple_ra load size false rng Hf).
      - apply simple_start. }
  intros j. cbn. rewrite seq_nth by (apply Nat.mod_upper_bound; lia). reflexivity.
Qed.

Lemma simple_run_shuffled sh :
  let r := run (it_next simple_ops) n (it_new simple_ops (simple_new load size sh rng) batch false) in
  snd r = map (fun i => Batch (map (fun j =>
            load (nth (j mod size) (simple_perm sh rng size (crossings size batch i)) 0))
            (seq (i * batch) batch))) (seq 0 n) /\
  it_epoch (fst r) = n * batch / size /\ it_log (fst r) = epoch_events (n * batch / size).
Proof.
  destruct (iter_run simple_ops size _ _ (ra_seq _ _ _ _ (simple_ra load size sh rng Hf)) Hs
              (simple_new load size sh rng) batch n) as (t & E1 & E2 & E3).
  - apply simple_start.
  - apply simple_size.
  - cbv zeta. rewrite E1. cbn [fst snd]. split; [reflexivity|auto].
Qed.

Lemma simple_run_div sh m : 0 < batch -> size = m * batch ->
  good_run (run (it_next simple_ops) n (it_new simple_ops (simple_new load size sh rng) batch false))
           (fun j => load (nth (j mod size) (simple_perm sh rng size (j / size)) 0)) size batch n.
Proof.
  intros Hb Hm.
  destruct (iter_run simple_ops size _ _ (ra_seq _ _ _ _ (simple_ra load size sh rng Hf)) Hs
              (simple_new load size sh rng) batch n) as (t & E1 & E2 & E3).
  - apply simple_start.
  - apply simple_size.
  - unfold good_run. rewrite E1. cbn [fst snd]. split; [|auto].
    rewrite (batches_div simple_ops size _ _ (ra_seq _ _ _ _ (simple_ra load size sh rng Hf)) Hs batch m n Hb Hm). reflexivity.
Qed.

Lemma simple_run_stop sh : 0 < batch ->
  let r := run (it_next simple_ops) n (it_new simple_ops (simple_new load size sh rng) batch true) in
  snd r = map (fun i => if Nat.ltb i (size / batch)
                        then Batch (map (fun j => load (nth j (simple_perm sh rng size 0) 0)) (seq (i * batch) batch))
                        else Stop) (seq 0 n) /\ it_epoch (fst r) = 0 /\ it_log (fst r) = [].
Proof.
  intros Hb.
  destruct (iter_run_stop simple_ops size _ _ (ra_seq _ _ _ _ (simple_ra load size sh rng Hf)) Hs
              (simple_new load size sh rng) batch n Hb) as (t & E1 & E2 & E3).
  - apply simple_start.
  - apply simple_size.
  - cbv zeta. rewrite E1. cbn [fst snd]. split; [|auto]. apply map_ext. intros i.
    now rewrite leb_lt_div.
Qed.
End S.

(** *** Csv *)
Section C.
Context {E : Type} (rows : list E) (d : E) (rng : rng_t) (sh : bool) (batch n : nat).
Hypothesis Hs : 0 < length rows.
Hypothesis Hf : fair rng.

Lemma csv_size : o_size csv_ops (csv_new rows sh rng) = length rows.
Proof. unfold csv_new, csv_reset. destruct sh; reflexivity. Qed.

Lemma csv_perm_permutes k : permutes (csv_perm sh rng (length rows) k) (length rows).
Proof. unfold csv_perm. destruct sh; [apply Hf|apply permutes_seq]. Qed.

Lemma csv_run :
  good_run (run (it_next csv_ops) n (it_new csv_ops (csv_new rows sh rng) batch false))
    (fun j => nth (nth (j mod length rows) (csv_perm sh rng (length rows) (1 + j / length rows)) 0) rows d)
    (length rows) batch n.
Proof.
  apply (ra_run csv_ops (length rows) (fun k p => nth (nth p (csv_perm sh rng (length rows) k) 0) rows d)
           (csv_R rows sh rng) _ 1); auto.
  - apply (csv_ra rows d sh rng Hf).
  - apply csv_start.
  - apply csv_size.
Qed.

Lemma csv_run_stop : 0 < batch ->
  let r := run (it_next csv_ops) n (it_new csv_ops (csv_new rows sh rng) batch true) in
  snd r = map (fun i => if Nat.ltb i (length rows / batch)
                        then Batch (map (fun j => nth (nth j (csv_perm sh rng (length rows) 1) 0) rows d)
                                        (seq (i * batch) batch))
                        else Stop) (seq 0 n) /\ it_epoch (fst r) = 0 /\ it_log (fst r) = [].
Proof.
  intros Hb. assert (L := law_shift _ _ _ _ 0 1 (ra_seq _ _ _ _ (csv_ra rows d sh rng Hf))).
  destruct (iter_run_stop csv_ops (length rows) _ _ L Hs (csv_new rows sh rng) batch n Hb) as (t & E1 & E2 & E3).
  - apply csv_start.
  - apply csv_size.
  - cbv zeta. rewrite E1. cbn [fst snd]. split; [|auto]. apply map_ext. intros i.
    now rewrite leb_lt_div.
Qed.
End C.

(** *** Memory cache over any random-access source *)
Section M.
Context {S E : Type} (o : ops S E) (size : nat) (ord : nat -> nat -> nat -> E) (R : S -> nat -> nat -> Prop).
Hypothesis L : ra_law o size ord R.
Variables (sh : bool) (rng : rng_t) (batch n : nat).
Hypothesis Hf : fair rng.
Hypothesis Hs : 0 < size.

Lemma mem_run a0 k0 i : R i a0 k0 ->
  good_run (run (it_next (mem_ops o)) n (it_new (mem_ops o) (mem_new o i true sh rng) batch false))
    (fun j => ord a0 k0 (nth (j mod size) (mem_perm size sh rng (j / size)) 0)) size batch n.
Proof.
  intros HR.
  apply (seq_run (mem_ops o) size (fun k p => ord a0 k0 (nth p (mem_perm size sh rng k) 0)) (mem_on_R size ord R sh rng a0 k0) _ 0).
  - apply (mem_on_seq o size ord R L sh rng Hf Hs a0 k0).
  - exact Hs.
  - apply (mem_on_start o size ord R L sh rng Hs a0 k0 i HR).
  - apply (ra_size _ _ _ _ L _ _ _ HR).
Qed.

Lemma mem_off_run a0 k0 i : R i a0 k0 ->
  good_run (run (it_next (mem_ops o)) n (it_new (mem_ops o) (mem_new o i false sh rng) batch false))
    (fun j => ord a0 (k0 + 1 + j / size) (j mod size)) size batch n.
Proof.
  intros HR. apply (ra_run (mem_ops o) size (fun k p => ord a0 k p) (mem_off_R size R a0) _ (k0 + 1)).
  - apply (mem_off_ra o size ord R L a0).
  - exact Hs.
  - apply (mem_off_start o size ord R L sh rng Hs a0 k0 i HR).
  - apply (ra_size _ _ _ _ L _ _ _ HR).
Qed.

Lemma mem_run_stop a0 k0 i : R i a0 k0 -> 0 < batch ->
  let r := run (it_next (mem_ops o)) n (it_new (mem_ops o) (mem_new o i true sh rng) batch true) in
  snd r = map (fun j => if Nat.ltb j (size / batch)
                        then Batch (map (fun p => ord a0 k0 (nth p (seq 0 size) 0)) (seq (j * batch) batch))
                        else Stop) (seq 0 n) /\ it_epoch (fst r) = 0 /\ it_log (fst r) = [].
Proof.
  intros HR Hb.
  destruct (iter_run_stop (mem_ops o) size _ _ (mem_on_seq o size ord R L sh rng Hf Hs a0 k0) Hs
              (mem_new o i true sh rng) batch n Hb) as (t & E1 & E2 & E3).
  - apply (mem_on_start o size ord R L sh rng Hs a0 k0 i HR).
  - apply (ra_size _ _ _ _ L _ _ _ HR).
  - cbv zeta. rewrite E1. cbn [fst snd]. split; [|auto]. apply map_ext. intros j.
    now rewrite leb_lt_div.
Qed.

(** File cache *)
Lemma fc_run a0 k0 csize i c : R i a0 k0 -> 0 < csize -> fc_new o i csize sh rng = Some c ->
  good_run (run (it_next (fc_ops o)) n (it_new (fc_ops o) c batch false))
    (fun j => ord a0 k0 (nth (j mod size) (f_perm size csize sh rng (1 + j / size)) 0)) size batch n.
Proof.
  intros HR Hc Hn.
  destruct (fc_start o size ord R L a0 k0 csize sh rng Hf Hc i HR Hs) as (c' & Hn' & HR').
  rewrite Hn in Hn'. inversion Hn'; subst c'.
  assert (La := fc_ra o size ord a0 k0 csize sh rng Hf Hc).
  apply (ra_run (fc_ops o) size (fun k p => ord a0 k0 (nth p (f_perm size csize sh rng k) 0)) _ _ 1 batch n La Hs).
  - apply (ra_reset _ _ _ _ La _ 0 0 HR').
  - apply (ra_size _ _ _ _ La _ _ _ HR').
Qed.
End M.
