(** The property statements for the data area, as lemmas. *)
From Coq Require Import List Bool Arith ZArith Lia Permutation.
From Coq Require Import ZifyBool ZifyNat.
From Verif Require Import DataModel DataSpec DataProofs DataProofs2 DataProofs3 DataProofs4 DataProofs5.
Import ListNotations.

Lemma crossings_count size batch i : crossings size batch i = count_wraps size batch i.
Proof.
  induction i as [|i IH]; [reflexivity|]. cbn [crossings]. unfold count_wraps in *.
  rewrite seq_S, filter_app, app_length, <- IH. f_equal. cbn [Nat.add filter].
  replace (i * batch + batch) with ((i + 1) * batch) by lia.
  destruct (Nat.eqb ((i + 1) * batch / size) (i * batch / size)); reflexivity.
Qed.

Lemma nth_perm_rows {E} (rows : list E) d o :
  permutes o (length rows) -> Permutation (map (fun i => nth (nth i o 0) rows d) (seq 0 (length rows))) rows.
Proof.
  intros H. rewrite <- (map_map (fun i => nth i o 0) (fun i => nth i rows d)).
  rewrite permutes_map_nth by exact H.
  etransitivity; [apply Permutation_map; exact H|]. now rewrite map_nth_seq.
Qed.

Section Csv.
Context {E : Type} (rows : list E).
Hypothesis Hs : 0 < length rows.

Lemma csv_seq_lemma rng batch n d : fair rng ->
  good_run (run (it_next csv_ops) n (it_new csv_ops (csv_new rows false rng) batch false))
    (fun j => nth (j mod length rows) rows d) (length rows) batch n.
Proof.
  intros Hf. eapply good_run_ext; [|apply (csv_run rows d rng false batch n Hs Hf)].
  intros j. cbn [csv_perm]. now rewrite seq_nth by (apply Nat.mod_upper_bound; lia).
Qed.

Lemma csv_epochs rng sh batch n e : fair rng -> (e + 1) * length rows <= n * batch ->
  Permutation (epoch_slice (length rows) e
    (delivered (snd (run (it_next csv_ops) n (it_new csv_ops (csv_new rows sh rng) batch false))))) rows.
Proof.
  intros Hf He. destruct rows as [|d rows'] eqn:Er; [cbn in Hs; lia|]. rewrite <- Er in *.
  etransitivity; [apply (epochs_of_run _ (fun k => csv_perm sh rng (length rows) (1 + k)) (fun i => nth i rows d)
                           (length rows) batch n e)|].
  - exact Hs.
  - intros k. now apply csv_perm_permutes.
  - apply (csv_run rows d rng sh batch n Hs Hf).
  - exact He.
  - now rewrite map_nth_seq.
Qed.

(** What a cache over a csv source contains: the rows in the order of the k0-th shuffle. *)
Definition csv_base (d : E) sh rng k0 (i : nat) : E := nth (nth i (csv_perm sh rng (length rows) k0) 0) rows d.
Lemma csv_base_perm d sh rng k0 : fair rng ->
  Permutation (map (csv_base d sh rng k0) (seq 0 (length rows))) rows.
Proof. intros Hf. apply nth_perm_rows. now apply csv_perm_permutes. Qed.

Lemma csv_base_false d rng k0 i : i < length rows -> csv_base d false rng k0 i = nth i rows d.
Proof. intros H. unfold csv_base. cbn. now rewrite seq_nth by exact H. Qed.

Lemma mem_csv_epochs rng sh rng2 sh2 batch n e : fair rng -> fair rng2 -> (e + 1) * length rows <= n * batch ->
  Permutation (epoch_slice (length rows) e
    (delivered (snd (run (it_next (mem_ops csv_ops)) n
       (it_new (mem_ops csv_ops) (mem_new csv_ops (csv_new rows sh rng) true sh2 rng2) batch false))))) rows.
Proof.
  intros Hf Hf2 He. destruct rows as [|d rows'] eqn:Er; [cbn in Hs; lia|]. rewrite <- Er in *.
  etransitivity; [apply (epochs_of_run _ (mem_perm (length rows) sh2 rng2) (csv_base d sh rng 0)
                           (length rows) batch n e)|].
  - exact Hs.
  - intros k. now apply mem_perm_permutes.
  - apply (mem_run csv_ops (length rows) _ _ (csv_ra rows d sh rng Hf) sh2 rng2 batch n Hf2 Hs 0 0).
    apply csv_start0.
  - exact He.
  - now apply csv_base_perm.
Qed.

Lemma mem_csv_seq rng rng2 batch n d : fair rng -> fair rng2 ->
  good_run (run (it_next (mem_ops csv_ops)) n
     (it_new (mem_ops csv_ops) (mem_new csv_ops (csv_new rows false rng) true false rng2) batch false))
    (fun j => nth (j mod length rows) rows d) (length rows) batch n.
Proof.
  intros Hf Hf2. eapply good_run_ext.
  2:{ apply (mem_run csv_ops (length rows) _ _ (csv_ra rows d false rng Hf) false rng2 batch n Hf2 Hs 0 0).
      apply csv_start0. }
  intros j. cbn beta. fold (csv_base d false rng 0 (nth (j mod length rows) (mem_perm (length rows) false rng2 (j / length rows)) 0)).
  assert (Hj : j mod length rows < length rows) by (apply Nat.mod_upper_bound; lia).
  assert (Em : mem_perm (length rows) false rng2 (j / length rows) = seq 0 (length rows))
    by (destruct (j / length rows) as [|[|k]]; reflexivity).
  rewrite Em, seq_nth by exact Hj. now apply csv_base_false.
Qed.

(** The stack used by data_iterator_csv_dataset: memory cache over file cache over csv. *)
Lemma fc_csv_ok rng sh rng1 sh1 csize : fair rng -> fair rng1 -> 0 < csize ->
  exists c, fc_new csv_ops (csv_new rows sh rng) csize sh1 rng1 = Some c.
Proof.
  intros Hf Hf1 Hc. destruct rows as [|d rows'] eqn:Er; [cbn in Hs; lia|]. rewrite <- Er in *.
  destruct (fc_start csv_ops (length rows) _ _ (csv_ra rows d sh rng Hf) 0 0 csize sh1 rng1 Hf1 Hc
    (csv_new rows sh rng) (csv_start0 rows sh rng) Hs) as (c & Hn & _). eauto.
Qed.

Lemma fc_csv_epochs rng sh rng1 sh1 csize c batch n e : fair rng -> fair rng1 -> 0 < csize ->
  fc_new csv_ops (csv_new rows sh rng) csize sh1 rng1 = Some c ->
  (e + 1) * length rows <= n * batch ->
  Permutation (epoch_slice (length rows) e
    (delivered (snd (run (it_next (fc_ops csv_ops)) n (it_new (fc_ops csv_ops) c batch false))))) rows.
Proof.
  intros Hf Hf1 Hc Hn He. destruct rows as [|d rows'] eqn:Er; [cbn in Hs; lia|]. rewrite <- Er in *.
  etransitivity; [apply (epochs_of_run _ (fun k => f_perm (length rows) csize sh1 rng1 (1 + k)) (csv_base d sh rng 0)
                           (length rows) batch n e)|].
  - exact Hs.
  - intros k. now apply f_perm_permutes.
  - apply (fc_run csv_ops (length rows) _ _ (csv_ra rows d sh rng Hf) sh1 rng1 batch n Hf1 Hs 0 0 csize (csv_new rows sh rng)).
    + apply csv_start0.
    + exact Hc.
    + exact Hn.
  - exact He.
  - now apply csv_base_perm.
Qed.

Lemma mem_fc_csv_epochs rng sh rng1 sh1 csize c rng2 sh2 batch n e :
  fair rng -> fair rng1 -> fair rng2 -> 0 < csize ->
  fc_new csv_ops (csv_new rows sh rng) csize sh1 rng1 = Some c ->
  (e + 1) * length rows <= n * batch ->
  Permutation (epoch_slice (length rows) e
    (delivered (snd (run (it_next (mem_ops (fc_ops csv_ops))) n
       (it_new (mem_ops (fc_ops csv_ops)) (mem_new (fc_ops csv_ops) c true sh2 rng2) batch false))))) rows.
Proof.
  intros Hf Hf1 Hf2 Hc Hn He. destruct rows as [|d rows'] eqn:Er; [cbn in Hs; lia|]. rewrite <- Er in *.
  destruct (fc_start csv_ops (length rows) _ _ (csv_ra rows d sh rng Hf) 0 0 csize sh1 rng1 Hf1 Hc
    (csv_new rows sh rng) (csv_start0 rows sh rng) Hs) as (c' & Hn' & HR).
  rewrite Hn in Hn'. inversion Hn'; subst c'.
  assert (La := fc_ra csv_ops (length rows) (fun _ k p => csv_base d sh rng k p) 0 0 csize sh1 rng1 Hf1 Hc : ra_law (fc_ops csv_ops) (length rows)
     (fun _ k p => csv_base d sh rng 0 (nth p (f_perm (length rows) csize sh1 rng1 k) 0)) _).
  etransitivity; [apply (epochs_of_run _ (mem_perm (length rows) sh2 rng2)
      (fun i => csv_base d sh rng 0 (nth i (f_perm (length rows) csize sh1 rng1 0) 0)) (length rows) batch n e)|].
  - exact Hs.
  - intros k. now apply mem_perm_permutes.
  - apply (mem_run (fc_ops csv_ops) (length rows) _ _ La sh2 rng2 batch n Hf2 Hs 0 0 c HR).
  - exact He.
  - rewrite <- (map_map (fun i => nth i (f_perm (length rows) csize sh1 rng1 0) 0) (csv_base d sh rng 0)).
    rewrite permutes_map_nth by (now apply f_perm_permutes).
    etransitivity; [apply Permutation_map; now apply f_perm_permutes|]. now apply csv_base_perm.
Qed.

(** Unshuffled file cache: exact order. *)
Lemma f_orders_false size csize rng k : 0 < csize ->
  f_orders size csize false rng k = (seq 0 (nfiles size csize), map (fun f => seq 0 (flen size csize f)) (seq 0 (nfiles size csize))).
Proof. intros Hc. induction k as [|k IH]; [reflexivity|]. cbn [f_orders]. now rewrite IH. Qed.

Lemma f_perm_false size csize rng k : 0 < csize -> f_perm size csize false rng k = seq 0 size.
Proof.
  intros Hc. unfold f_perm. rewrite f_orders_false by exact Hc. cbn [fst snd]. unfold flat_order.
  transitivity (flat_map (fun f => map (fun j => j + f * csize) (seq 0 (flen size csize f))) (seq 0 (nfiles size csize))).
  - rewrite !flat_map_concat_map. f_equal. apply map_ext_in. intros f Hi. apply in_seq in Hi. f_equal.
    rewrite (nth_indep _ [] (seq 0 (flen size csize 0))) by (rewrite map_length, seq_length; lia).
    rewrite (map_nth (fun f => seq 0 (flen size csize f))), seq_nth by lia. reflexivity.
  - rewrite (flat_seq size csize Hc) by lia. assert (B := nfiles_bounds size csize Hc). now rewrite Nat.min_l by lia.
Qed.

Lemma fc_csv_seq rng rng1 csize c batch n d : fair rng -> fair rng1 -> 0 < csize ->
  fc_new csv_ops (csv_new rows false rng) csize false rng1 = Some c ->
  good_run (run (it_next (fc_ops csv_ops)) n (it_new (fc_ops csv_ops) c batch false))
    (fun j => nth (j mod length rows) rows d) (length rows) batch n.
Proof.
  intros Hf Hf1 Hc Hn. eapply good_run_ext.
  2:{ apply (fc_run csv_ops (length rows) _ _ (csv_ra rows d false rng Hf) false rng1 batch n Hf1 Hs 0 0 csize (csv_new rows false rng)).
    + apply csv_start0.
    + exact Hc.
    + exact Hn. }
  intros j. cbn beta. rewrite f_perm_false by exact Hc.
  assert (Hj : j mod length rows < length rows) by (apply Nat.mod_upper_bound; lia).
  rewrite seq_nth by exact Hj. now apply (csv_base_false d rng 0).
Qed.

(** Reads of the file cache after any number of resets. *)
Lemma fc_csv_reads rng sh rng1 sh1 csize c k : fair rng -> fair rng1 -> 0 < csize ->
  fc_new csv_ops (csv_new rows sh rng) csize sh1 rng1 = Some c ->
  Permutation (map (fun p => snd (o_get (fc_ops csv_ops) (Nat.iter k (o_reset (fc_ops csv_ops)) c) p)) (seq 0 (length rows)))
              (map Some rows).
Proof.
  intros Hf Hf1 Hc Hn. destruct rows as [|d rows'] eqn:Er; [cbn in Hs; lia|]. rewrite <- Er in *.
  destruct (fc_start csv_ops (length rows) _ _ (csv_ra rows d sh rng Hf) 0 0 csize sh1 rng1 Hf1 Hc
    (csv_new rows sh rng) (csv_start0 rows sh rng) Hs) as (c' & Hn' & HR).
  rewrite Hn in Hn'. inversion Hn'; subst c'.
  assert (La := fc_ra csv_ops (length rows) (fun _ k p => csv_base d sh rng k p) 0 0 csize sh1 rng1 Hf1 Hc : ra_law (fc_ops csv_ops) (length rows)
     (fun _ k p => csv_base d sh rng 0 (nth p (f_perm (length rows) csize sh1 rng1 k) 0)) _).
  assert (HRk : fc_R (length rows) (fun _ k p => nth (nth p (csv_perm sh rng (length rows) k) 0) rows d) 0 0 csize sh1 rng1
                  (Nat.iter k (o_reset (fc_ops csv_ops)) c) 0 k).
  { induction k as [|k IH]; [exact HR|]. cbn [Nat.iter nat_rect]. rewrite <- Nat.add_1_r.
    apply (ra_reset _ _ _ _ La _ 0 k IH). }
  rewrite (map_ext_seq _ (fun p => Some (csv_base d sh rng 0 (nth p (f_perm (length rows) csize sh1 rng1 k) 0)))).
  2:{ intros p Hp. destruct (ra_get _ _ _ _ La _ 0 k p HRk ltac:(lia)) as (s' & E1 & _). rewrite E1. reflexivity. }
  rewrite <- (map_map (fun p => csv_base d sh rng 0 (nth p (f_perm (length rows) csize sh1 rng1 k) 0)) Some).
  apply Permutation_map.
  rewrite <- (map_map (fun i => nth i (f_perm (length rows) csize sh1 rng1 k) 0) (csv_base d sh rng 0)).
  rewrite permutes_map_nth by (now apply f_perm_permutes).
  etransitivity; [apply Permutation_map; now apply f_perm_permutes|]. now apply csv_base_perm.
Qed.

End Csv.

(** Memory cache over a simple source. *)
Section MemSimple.
Context {E : Type} (load : nat -> E) (size : nat).
Hypothesis Hs : 0 < size.

Lemma mem_simple_seq rng rng2 batch n : fair rng -> fair rng2 ->
  good_run (run (it_next (mem_ops simple_ops)) n
     (it_new (mem_ops simple_ops) (mem_new simple_ops (simple_new load size false rng) true false rng2) batch false))
    (fun j => load (j mod size)) size batch n.
Proof.
  intros Hf Hf2. eapply good_run_ext.
  2:{ apply (mem_run simple_ops size _ _ (simple_ra load size false rng Hf) false rng2 batch n Hf2 Hs 0 0).
      destruct (simple_new_inv load size false rng) as (A & B & C). split; auto. }
  intros j. cbn beta.
  assert (Hj : j mod size < size) by (apply Nat.mod_upper_bound; lia).
  assert (Em : mem_perm size false rng2 (j / size) = seq 0 size) by (destruct (j / size) as [|[|k]]; reflexivity).
  rewrite Em, seq_nth by exact Hj. cbn [simple_perm]. now rewrite seq_nth by exact Hj.
Qed.

Lemma mem_simple_epochs rng sh rng2 sh2 batch n e : fair rng -> fair rng2 -> (e + 1) * size <= n * batch ->
  Permutation (epoch_slice size e
    (delivered (snd (run (it_next (mem_ops simple_ops)) n
       (it_new (mem_ops simple_ops) (mem_new simple_ops (simple_new load size sh rng) true sh2 rng2) batch false)))))
    (map load (seq 0 size)).
Proof.
  intros Hf Hf2 He.
  etransitivity; [apply (epochs_of_run _ (mem_perm size sh2 rng2)
     (fun i => load (nth i (simple_perm sh rng size 0) 0)) size batch n e)|].
  - exact Hs.
  - intros k. now apply mem_perm_permutes.
  - apply (mem_run simple_ops size _ _ (simple_ra load size sh rng Hf) sh2 rng2 batch n Hf2 Hs 0 0).
    destruct (simple_new_inv load size sh rng) as (A & B & C). split; auto.
  - exact He.
  - rewrite <- (map_map (fun i => nth i (simple_perm sh rng size 0) 0) load).
    rewrite permutes_map_nth by (now apply simple_perm_permutes).
    apply Permutation_map. now apply simple_perm_permutes.
Qed.

Lemma mem_off_simple_epochs rng sh rng2 sh2 batch n e : fair rng -> fair rng2 -> (e + 1) * size <= n * batch ->
  Permutation (epoch_slice size e
    (delivered (snd (run (it_next (mem_ops simple_ops)) n
       (it_new (mem_ops simple_ops) (mem_new simple_ops (simple_new load size sh rng) false sh2 rng2) batch false)))))
    (map load (seq 0 size)).
Proof.
  intros Hf Hf2 He.
  etransitivity; [apply (epochs_of_run _ (fun _ => simple_perm sh rng size 0) load size batch n e)|].
  - exact Hs.
  - intros k. now apply simple_perm_permutes.
  - apply (mem_off_run simple_ops size _ _ (simple_ra load size sh rng Hf) sh2 rng2 batch n Hs 0 0).
    destruct (simple_new_inv load size sh rng) as (A & B & C). split; auto.
  - exact He.
  - reflexivity.
Qed.

Lemma simple_div_epochs rng sh batch m n e : fair rng -> 0 < batch -> size = m * batch ->
  (e + 1) * size <= n * batch ->
  Permutation (epoch_slice size e
    (delivered (snd (run (it_next simple_ops) n (it_new simple_ops (simple_new load size sh rng) batch false)))))
    (map load (seq 0 size)).
Proof.
  intros Hf Hb Hm He. apply (epochs_of_run _ (simple_perm sh rng size) load size batch n e); auto.
  - intros k. now apply simple_perm_permutes.
  - now apply (simple_run_div load size rng batch n Hs Hf sh m).
Qed.

Lemma simple_batches rng sh batch n : fair rng ->
  snd (run (it_next simple_ops) n (it_new simple_ops (simple_new load size sh rng) batch false)) =
  map (fun i => Batch (map (fun j =>
        load (nth (j mod size) (if sh then rng (count_wraps size batch i) size else seq 0 size) 0))
        (seq (i * batch) batch))) (seq 0 n).
Proof.
  intros Hf. destruct (simple_run_shuffled load size rng batch n Hs Hf sh) as [A _]. rewrite A.
  apply map_ext. intros i. rewrite crossings_count. reflexivity.
Qed.
End MemSimple.

(** ** Concatenation of csv sources *)
Section ConcatCsv.
Context {E : Type}.

Definition dflt_csv : csv E := csv_new [] false (fun _ n => seq 0 n).

Lemma csv_nth_ra (tabs : list (list E)) (d : E) rng : fair rng -> forall id,
  ra_law csv_ops (length (nth id tabs []))
    (fun _ k p => nth (nth p (csv_perm false rng (length (nth id tabs [])) k) 0) (nth id tabs []) d)
    (csv_R (nth id tabs []) false rng).
Proof. intros Hf id. now apply csv_ra. Qed.

Lemma concat_items (tabs : list (list E)) (d : E) rng ids :
  all_items (fun id => length (nth id tabs []))
    (fun id _ k p => nth (nth p (csv_perm false rng (length (nth id tabs [])) k) 0) (nth id tabs []) d) ids =
  flat_map (fun id => nth id tabs []) ids.
Proof.
  unfold all_items. apply flat_map_ext. intros id. unfold items. cbn [csv_perm].
  transitivity (map (fun i => nth i (nth id tabs []) d) (seq 0 (length (nth id tabs [])))).
  - apply map_ext_seq. intros i Hi. now rewrite seq_nth by lia.
  - apply map_nth_seq.
Qed.

Lemma concat_total (tabs : list (list E)) ids :
  total (fun id => length (nth id tabs [])) ids = length (flat_map (fun id => nth id tabs []) ids).
Proof.
  unfold total. rewrite (flat_map_len _ (fun id => length (nth id tabs []))) by reflexivity. reflexivity.
Qed.

Lemma concat_store (tabs : list (list E)) rng ids : (forall id, In id ids -> id < length tabs) ->
  good_store (fun id => csv_R (nth id tabs []) false rng) ids (map (fun t => csv_new t false rng) tabs).
Proof.
  intros H id Hi. exists (csv_new (nth id tabs []) false rng). split.
  - rewrite nth_error_map. rewrite (nth_error_nth' tabs []) by (now apply H). reflexivity.
  - apply csv_start0.
Qed.

Lemma concat_size_lemma (tabs : list (list E)) rng ids sh rng2 :
  fair rng -> NoDup ids -> ids <> [] -> (forall id, In id ids -> id < length tabs) ->
  o_size (concat_ops csv_ops) (concat_new csv_ops (map (fun t => csv_new t false rng) tabs) ids sh rng2) =
  length (flat_map (fun id => nth id tabs []) ids).
Proof.
  intros Hf Hnd Hne Hin.
  destruct tabs as [|t0 tabs'] eqn:Et.
  { destruct ids as [|i ids']; [congruence|]. specialize (Hin i (or_introl eq_refl)). cbn in Hin. lia. }
  rewrite <- Et in *.
  destruct (flat_map (fun id => nth id tabs []) ids) as [|d l] eqn:El.
  - (* no examples at all *)
    assert (Hz : forall id, In id ids -> nth id tabs [] = []).
    { intros id Hi. destruct (nth id tabs []) as [|y r] eqn:En; [reflexivity|].
      assert (In y (flat_map (fun id => nth id tabs []) ids)) by (apply in_flat_map; exists id; rewrite En; split; [auto|now left]).
      rewrite El in H. destruct H. }
    cbn [o_size concat_ops]. unfold concat_new, concat_reset.
    assert (Es : sw_points csv_ops (map (fun t => csv_new t false rng) tabs) ids = map (fun _ => 0) ids).
    { unfold sw_points. apply map_ext. intros s.
      assert (G : forall l, (forall x, In x l -> In x ids) -> list_sum (map (size_of csv_ops (map (fun t => csv_new t false rng) tabs)) l) = 0).
      { induction l as [|x l IH]; intros H; [reflexivity|]. cbn [map]. rewrite list_sum_cons, IH by (intros; apply H; now right).
        unfold size_of. rewrite nth_error_map, (nth_error_nth' tabs []) by (apply Hin, H; now left). cbn.
        rewrite (Hz x) by (apply H; now left). reflexivity. }
      apply G. intros x Hx. rewrite <- (firstn_skipn (list_index s ids + 1) ids). apply in_app_iff. now left. }
    rewrite Es.
    assert (El0 : last (map (fun _ : nat => 0) ids) 0 = 0).
    { clear. induction ids as [|x [|y l] IH]; [reflexivity..|]. exact IH. }
    rewrite El0. destruct sh; reflexivity.
  - destruct (concat_ra csv_ops _ _ _ (csv_nth_ra tabs d rng Hf) ids false rng (fun k n => Hf k n) d) as [A _ _ _ _].
    assert (HR := concat_start csv_ops _ _ _ (csv_nth_ra tabs d rng Hf) ids false rng Hnd _ Hne (concat_store tabs rng ids Hin)).
    apply A in HR. rewrite concat_total, El in HR. rewrite <- HR.
    unfold concat_new, concat_reset. destruct sh; reflexivity.
Qed.

Lemma concat_run (tabs : list (list E)) rng ids sh rng2 batch n d :
  fair rng -> fair rng2 -> NoDup ids -> ids <> [] -> (forall id, In id ids -> id < length tabs) ->
  let all := flat_map (fun id => nth id tabs []) ids in
  0 < length all ->
  good_run (run (it_next (concat_ops csv_ops)) n
      (it_new (concat_ops csv_ops) (concat_new csv_ops (map (fun t => csv_new t false rng) tabs) ids sh rng2) batch false))
    (fun j => nth (nth (j mod length all) (if sh then rng2 (1 + j / length all) (length all) else seq 0 (length all)) 0) all d)
    (length all) batch n.
Proof.
  intros Hf Hf2 Hnd Hne Hin all Hs.
  assert (La := concat_ra csv_ops _ _ _ (csv_nth_ra tabs d rng Hf) ids sh rng2 Hf2 d).
  rewrite concat_items in La. rewrite concat_total in La. fold all in La.
  assert (HR := concat_start csv_ops _ _ _ (csv_nth_ra tabs d rng Hf) ids sh rng2 Hnd _ Hne (concat_store tabs rng ids Hin)).
  assert (Ep : forall k, concat_perm (fun id => length (nth id tabs [])) ids sh rng2 k =
                         if sh then rng2 k (length all) else seq 0 (length all)).
  { intros k. unfold concat_perm. now rewrite concat_total. }
  eapply good_run_ext.
  2:{ apply (ra_run (concat_ops csv_ops) (length all) _ _ _ 1 batch n La Hs).
      - exact (ra_reset _ _ _ _ La _ 0 0 HR).
      - exact (ra_size _ _ _ _ La _ _ _ HR). }
  intros j. cbn beta. now rewrite Ep.
Qed.
End ConcatCsv.

(** ** Slices *)
Section Slices.

Lemma window_spec dl size w r st en : 0 < size -> r < w -> window dl size w r = (st, en) ->
  st <= en <= size /\ en - st = Z.to_nat (rank_len dl (Z.of_nat size) (Z.of_nat w)).
Proof.
  intros Hs Hr. unfold window.
  destruct (slice_start_end dl (Z.of_nat size) (Z.of_nat w) (Z.of_nat r)) as [a b] eqn:E1.
  intros H. inversion H; subst.
  assert (A := slice_window dl (Z.of_nat size) (Z.of_nat w) (Z.of_nat r) a b ltac:(lia) ltac:(lia) ltac:(lia) E1).
  destruct (rank_len_bounds dl (Z.of_nat size) (Z.of_nat w) ltac:(lia) ltac:(lia)) as (B & _). lia.
Qed.

Lemma window_cover size w x : 0 < size -> 0 < w -> x < size ->
  exists r st en, r < w /\ window false size w r = (st, en) /\ st <= x < en.
Proof.
  intros Hs Hw Hx.
  destruct (slice_cover (Z.of_nat size) (Z.of_nat w) (Z.of_nat x)) as (r & st & en & A & B & C); try lia.
  exists (Z.to_nat r), (Z.to_nat st), (Z.to_nat en). unfold window.
  rewrite Z2Nat.id by lia. rewrite B. split; [lia|]. split; [reflexivity|].
  destruct (slice_window false (Z.of_nat size) (Z.of_nat w) r st en ltac:(lia) ltac:(lia) A B) as (D1 & D2 & _). lia.
Qed.

Context {E : Type}.

Lemma sliced_csv_run (rows : list E) rng sh st en batch n d :
  fair rng -> st < en -> en <= length rows ->
  good_run (run (it_next (sliced_ops csv_ops)) n (it_new (sliced_ops csv_ops) (sliced_new (csv_new rows sh rng) st en) batch false))
    (fun j => csv_base rows d sh rng (1 + j / (en - st)) (st + j mod (en - st))) (en - st) batch n.
Proof.
  intros Hf Hlt Hen.
  assert (La := sliced_ra csv_ops (length rows) _ _ (csv_ra rows d sh rng Hf) (fun _ _ _ => eq_refl) (fun _ _ => eq_refl) 0 st en Hen).
  apply (ra_run (sliced_ops csv_ops) (en - st) (fun k p => csv_base rows d sh rng k (st + p)) _ _ 1 batch n La ltac:(lia)).
  - apply (sliced_start csv_ops (length rows) _ _ (csv_ra rows d sh rng Hf) 0 0 _ st en). apply csv_start0.
  - reflexivity.
Qed.

Lemma slice_epoch (size len e total : nat) (g : nat -> nat -> E) :
  0 < len -> (e + 1) * len <= total ->
  epoch_slice len e (map (fun j => g (j / len) (j mod len)) (seq 0 total)) = map (g e) (seq 0 len).
Proof.
  intros Hl Ht. rewrite epoch_slice_map by exact Ht. apply map_ext_seq. intros p Hp.
  rewrite Nat.add_comm, Nat.mod_add, Nat.div_add, Nat.mod_small, Nat.div_small by lia. reflexivity.
Qed.

Lemma sliced_csv_epoch (rows : list E) rng sh st en batch n d e :
  fair rng -> st < en -> en <= length rows -> (e + 1) * (en - st) <= n * batch ->
  epoch_slice (en - st) e (delivered (snd (run (it_next (sliced_ops csv_ops)) n
     (it_new (sliced_ops csv_ops) (sliced_new (csv_new rows sh rng) st en) batch false)))) =
  map (fun p => csv_base rows d sh rng (1 + e) (st + p)) (seq 0 (en - st)).
Proof.
  intros Hf Hlt Hen He. destruct (sliced_csv_run rows rng sh st en batch n d Hf Hlt Hen) as (A & _).
  rewrite A, delivered_batches. apply (slice_epoch 0 (en - st) e (n * batch) (fun k p => csv_base rows d sh rng (1 + k) (st + p))); lia.
Qed.

(** Every example is delivered to some worker in every epoch. *)
Lemma workers_cover (rows : list E) rng sh w batch n e x :
  fair rng -> 0 < w -> In x rows ->
  (forall r st en, r < w -> window false (length rows) w r = (st, en) -> (e + 1) * (en - st) <= n * batch) ->
  exists r st en, r < w /\ window false (length rows) w r = (st, en) /\
    In x (epoch_slice (en - st) e (delivered (snd (run (it_next (sliced_ops csv_ops)) n
     (it_new (sliced_ops csv_ops) (sliced_new (csv_new rows sh rng) st en) batch false))))).
Proof.
  intros Hf Hw Hx Hn.
  assert (Hs : 0 < length rows) by (destruct rows; [destruct Hx|cbn; lia]).
  assert (Hp := csv_base_perm rows x sh rng (1 + e) Hf).
  apply (Permutation_in _ (Permutation_sym Hp)) in Hx. apply in_map_iff in Hx.
  destruct Hx as (i & Ei & Hi). apply in_seq in Hi.
  destruct (window_cover (length rows) w i Hs Hw ltac:(lia)) as (r & st & en & A & B & C).
  exists r, st, en. split; [exact A|]. split; [exact B|].
  destruct (window_spec false (length rows) w r st en Hs A B) as (D & _).
  rewrite (sliced_csv_epoch rows rng sh st en batch n x e Hf ltac:(lia) ltac:(lia) (Hn r st en A B)).
  apply in_map_iff. exists (i - st). split; [|apply in_seq; lia].
  replace (st + (i - st)) with i by lia. exact Ei.
Qed.

(** A slice of an unshuffled source is its window, over and over. *)
Lemma sliced_csv_seq (rows : list E) rng st en batch n d :
  fair rng -> st < en -> en <= length rows ->
  good_run (run (it_next (sliced_ops csv_ops)) n (it_new (sliced_ops csv_ops) (sliced_new (csv_new rows false rng) st en) batch false))
    (fun j => nth (st + j mod (en - st)) rows d) (en - st) batch n.
Proof.
  intros Hf Hlt Hen. eapply good_run_ext; [|now apply (sliced_csv_run rows rng false st en batch n d)].
  intros j. apply csv_base_false. assert (j mod (en - st) < en - st) by (apply Nat.mod_upper_bound; lia). lia.
Qed.

Lemma sliced_simple_seq (load : nat -> E) size rng st en batch n :
  fair rng -> st < en -> en <= size ->
  good_run (run (it_next (sliced_ops simple_ops)) n
     (it_new (sliced_ops simple_ops) (sliced_new (simple_new load size false rng) st en) batch false))
    (fun j => load (st + j mod (en - st))) (en - st) batch n.
Proof.
  intros Hf Hlt Hen. eapply good_run_ext.
  2:{ apply (ra_run (sliced_ops simple_ops) (en - st) (fun _ p => load (nth (st + p) (seq 0 size) 0))
       (sliced_simple_R load size false rng st en) _ 0 batch n).
      - exact (sliced_simple_ra load size false rng st en Hf Hen).
      - lia.
      - apply sliced_simple_start.
      - reflexivity. }
  intros j. cbn beta. assert (j mod (en - st) < en - st) by (apply Nat.mod_upper_bound; lia).
  now rewrite seq_nth by lia.
Qed.

(** Shuffled simple source, batch size dividing the window: all workers follow the
    same permutation in the same epoch. *)
Lemma sliced_simple_div (load : nat -> E) size rng st en batch m n :
  fair rng -> st < en -> en <= size -> 0 < batch -> en - st = m * batch ->
  good_run (run (it_next (sliced_ops simple_ops)) n
     (it_new (sliced_ops simple_ops) (sliced_new (simple_new load size true rng) st en) batch false))
    (fun j => load (nth (st + j mod (en - st)) (rng (j / (en - st)) size) 0)) (en - st) batch n.
Proof.
  intros Hf Hlt Hen Hb Hm.
  assert (Lq := ra_seq _ _ _ _ (sliced_simple_ra load size true rng st en Hf Hen)).
  destruct (iter_run (sliced_ops simple_ops) (en - st) _ _ Lq ltac:(lia)
     (sliced_new (simple_new load size true rng) st en) batch n) as (t & E1 & E2 & E3).
  - apply (sliced_simple_start load size true rng st en 0).
  - reflexivity.
  - unfold good_run. rewrite E1. cbn [fst snd]. split; [|auto].
    rewrite (batches_div (sliced_ops simple_ops) (en - st) _ _ Lq ltac:(lia) batch m n Hb Hm). reflexivity.
Qed.

Lemma workers_cover_simple (load : nat -> E) size rng w batch m n e i :
  fair rng -> 0 < w -> i < size -> 0 < batch ->
  (forall r st en, r < w -> window false size w r = (st, en) -> en - st = m * batch /\ (e + 1) * (en - st) <= n * batch) ->
  exists r st en, r < w /\ window false size w r = (st, en) /\
    In (load i) (epoch_slice (en - st) e (delivered (snd (run (it_next (sliced_ops simple_ops)) n
     (it_new (sliced_ops simple_ops) (sliced_new (simple_new load size true rng) st en) batch false))))).
Proof.
  intros Hf Hw Hi Hb Hn.
  assert (Hin : In i (rng e size)) by (apply (Permutation_in _ (Permutation_sym (Hf e size))), in_seq; lia).
  apply (In_nth _ _ 0) in Hin. destruct Hin as (p & Hp & Ep).
  rewrite (permutes_length (rng e size) size (Hf e size)) in Hp.
  destruct (window_cover size w p ltac:(lia) Hw Hp) as (r & st & en & A & B & C).
  exists r, st, en. split; [exact A|]. split; [exact B|].
  destruct (window_spec false size w r st en ltac:(lia) A B) as (D & _).
  destruct (Hn r st en A B) as [Hm He].
  destruct (sliced_simple_div load size rng st en batch m n Hf ltac:(lia) ltac:(lia) Hb Hm) as (Hr & _).
  rewrite Hr, delivered_batches.
  rewrite (slice_epoch 0 (en - st) e (n * batch) (fun k p => load (nth (st + p) (rng k size) 0))) by lia.
  apply in_map_iff. exists (p - st). split; [|apply in_seq; lia].
  replace (st + (p - st)) with p by lia. now rewrite Ep.
Qed.
End Slices.
