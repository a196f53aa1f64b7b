(** Properties C16 and C17: the caching allocator. *)
From Coq Require Import List ZArith Bool Lia.
From Verif Require Import AllocModel AllocSpec AllocProofs AllocProofs2 AllocProofs3 AllocProofs4 AllocProofs5.
Import ListNotations.
Local Open Scope list_scope.
Local Open Scope Z_scope.

Lemma run_inv addr ops w : run addr ops (start, []) = Some w -> WInv w.
Proof. intros R. destruct (run_ok addr ops _ start_inv) as (w' & R' & W). congruence. Qed.

(** C16: no history makes an assertion fail or hands free() a pointer that is not the
    start of a chunk. *)
Theorem C16_no_crash : forall addr ops, exists w, run addr ops (start, []) = Some w.
Proof. intros addr ops. destruct (run_ok addr ops _ start_inv) as (w' & R' & W). eauto. Qed.

(** C16: the blocks handed out and not yet freed lie inside a held chunk of their
    device, have at least the requested size, and are pairwise disjoint. *)
Theorem C16_live_blocks : forall addr ops s live, run addr ops (start, []) = Some (s, live) ->
  (forall i b d, In (i, b, d) live -> usable s i b d) /\
  (forall k k' i j b b' d d', nth_error live k = Some (i, b, d) -> nth_error live k' = Some (j, b', d') -> k <> k' ->
     i <> j /\ disjoint s i j).
Proof.
  intros addr ops s live R. destruct (run_inv _ _ _ R) as (lay & I & U). cbn [fst snd] in *. split.
  - intros i b d H. eapply inv_usable; eauto.
  - intros k k' i j b b' d d' Hk Hk' N.
    assert (Nij : i <> j).
    { intros ->. apply N. pose proof (i_lnodup _ _ _ _ I) as ND.
      apply (proj1 (NoDup_nth_error (lids live)) ND).
      - unfold lids. rewrite map_length. apply nth_error_Some. congruence.
      - unfold lids. rewrite !nth_error_map, Hk, Hk'. reflexivity. }
    split; auto. eapply inv_disjoint; eauto; eapply lids_in; eapply nth_error_In; eauto.
Qed.

(** C16: a block that stays live keeps its place and size. *)
Theorem C16_stable : forall addr ops s live o s' live', run addr ops (start, []) = Some (s, live) ->
  step addr (s, live) o = Some (s', live') ->
  forall i b d, In (i, b, d) live -> In (i, b, d) live' -> forall c off n, occupies s i c off n -> occupies s' i c off n.
Proof.
  intros addr ops s live o s' live' R S i b d H H' c off n (P & B). pose proof (run_inv _ _ _ R) as W.
  destruct (step_ok addr _ o W) as (w' & E & _ & Q). rewrite S in E. injection E as <-. cbn [fst snd] in Q.
  destruct (Q i (lids_in _ _ _ _ H) (lids_in _ _ _ _ H')) as (Q1 & Q2 & _). split; congruence.
Qed.

(** C16: an allocation hands out a new block unless malloc fails, also after the cached
    chunks of the device were released. *)
Theorem C16_failure : forall addr ops s live b d ok1 ok2 s' live', run addr ops (start, []) = Some (s, live) ->
  step addr (s, live) (Alloc b d ok1 ok2) = Some (s', live') ->
  (exists i, live' = (i, b, d) :: live) \/ (live' = live /\ ok1 = false /\ ok2 = false).
Proof.
  intros addr ops s live b d ok1 ok2 s' live' R S. destruct (run_inv _ _ _ R) as (lay & I & U). cbn [fst snd] in *.
  destruct (alloc_ok addr b d ok1 ok2 s lay live _ I U) as (s1 & o & lay' & E & _ & _ & M).
  cbn [step] in S. rewrite E in S. destruct o as [i|]; injection S as <- <-; eauto. right. tauto.
Qed.

(** C17: the reported bytes are the total size of the chunks held, and the reported
    counts are the numbers of live blocks. *)
Theorem C17_statistics : forall addr ops s live, run addr ops (start, []) = Some (s, live) ->
  (forall d, used s d = held_bytes d (held s)) /\
  (forall sm d, count s sm d = Z.of_nat (length (live_blocks s sm d live))).
Proof.
  intros addr ops s live R. destruct (run_inv _ _ _ R) as (lay & I & U). cbn [fst snd] in *. split.
  - intros d. rewrite (U d). lia.
  - apply (i_count _ _ _ _ I).
Qed.

(** C17: releasing the caches returns every chunk without a live block. *)
Theorem C17_release : forall addr ops s live s' live', run addr ops (start, []) = Some (s, live) ->
  step addr (s, live) FreeUnusedAll = Some (s', live') ->
  live' = live /\ (forall x, In x (held s') -> In x (held s)) /\
  forall c d n, In (c, d, n) (held s') -> exists i b off, In (i, b, d) live' /\ m_ptr (mems s' i) = Some (c, off).
Proof.
  intros addr ops s live s' live' R S. destruct (run_inv _ _ _ R) as (lay & I & U). cbn [fst snd] in *.
  destruct (free_devices_ok live _ (known s) s lay I U) as (s1 & lay1 & E & I1 & U1 & M & L & H & Sv).
  cbn [step] in S. rewrite E in S. injection S as <- <-. split; auto. split; auto.
  intros c d n Hc. assert (Hd : In d (known s)) by (eapply (i_known _ _ _ _ I); eauto).
  rewrite (i_held _ _ _ _ I1) in Hc. apply in_map_iff in Hc as (((c0 & d0) & l) & Q & HL). cbn [fst snd] in Q. injection Q as -> -> _.
  destruct (Sv c d l Hd HL) as (i & Hi & Lk). cbn [snd] in Hi.
  assert (Hin : In i (lids live)). { apply (i_lock _ _ _ _ I1). split; auto. apply in_all. eauto. }
  apply in_map_iff in Hin as (((i0 & b) & d0) & Q & Hin). cbn in Q. subst i0.
  pose proof (i_chunks _ _ _ _ I1) as F. rewrite Forall_forall in F. destruct (F _ HL) as (_ & _ & sm & CH & _). cbn [fst snd] in CH.
  destruct (chain_in _ _ _ _ _ _ _ _ _ CH Hi) as (a & q & -> & De & P & _).
  destruct (i_live _ _ _ _ I1 _ _ _ Hin) as (_ & X). rewrite De in X. subst d0. eauto.
Qed.

(** In particular, when nothing is live, everything is returned. *)
Theorem C17_release_all : forall addr ops s s' live', run addr ops (start, []) = Some (s, []) ->
  step addr (s, []) FreeUnusedAll = Some (s', live') -> held s' = [] /\ forall d, used s' d = 0.
Proof.
  intros addr ops s s' live' R S. destruct (C17_release _ _ _ _ _ _ R S) as (-> & _ & Q).
  assert (E : held s' = []).
  { destruct (held s') as [|((c & d) & n) l] eqn:E; auto. destruct (Q c d n ltac:(left; auto)) as (i & b & off & [] & _). }
  split; auto. intros d. assert (R' : run addr (ops ++ [FreeUnusedAll]) (start, []) = Some (s', [])).
  { clear - R S. revert R. generalize (start, @nil (nat * Z * nat)). induction ops as [|o ops IH]; intros w R; cbn [app run] in *.
    - injection R as ->. rewrite S. auto.
    - destruct (step addr w o); [auto|discriminate]. }
  destruct (C17_statistics _ _ _ _ R') as (X & _). rewrite X, E. reflexivity.
Qed.

(** Releasing one device returns its chunks without a live block. *)
Theorem C17_release_device : forall addr ops s live d s' live', run addr ops (start, []) = Some (s, live) ->
  step addr (s, live) (FreeUnused d) = Some (s', live') ->
  live' = live /\ (forall x, In x (held s') -> In x (held s)) /\
  forall c n, In (c, d, n) (held s') -> exists i b off, In (i, b, d) live' /\ m_ptr (mems s' i) = Some (c, off).
Proof.
  intros addr ops s live d s' live' R S. destruct (run_inv _ _ _ R) as (lay & I & U). cbn [fst snd] in *.
  destruct (free_device_ok s lay live _ d I U) as (s1 & lay1 & E & I1 & U1 & M & L & K & H & Sv).
  cbn [step] in S. rewrite E in S. injection S as <- <-. split; auto. split; auto.
  intros c n Hc.
  rewrite (i_held _ _ _ _ I1) in Hc. apply in_map_iff in Hc as (((c0 & d0) & l) & Q & HL). cbn [fst snd] in Q. injection Q as -> -> _.
  destruct (Sv c l HL) as (i & Hi & Lk). cbn [snd] in Hi.
  assert (Hin : In i (lids live)). { apply (i_lock _ _ _ _ I1). split; auto. apply in_all. eauto. }
  apply in_map_iff in Hin as (((i0 & b) & d0) & Q & Hin). cbn in Q. subst i0.
  pose proof (i_chunks _ _ _ _ I1) as F. rewrite Forall_forall in F. destruct (F _ HL) as (_ & _ & sm & CH & _). cbn [fst snd] in CH.
  destruct (chain_in _ _ _ _ _ _ _ _ _ CH Hi) as (a & q & -> & De & P & _).
  destruct (i_live _ _ _ _ I1 _ _ _ Hin) as (_ & X). rewrite De in X. subst d0. eauto.
Qed.

(** Non-vacuity: three blocks share a chunk, the middle one is freed and taken again by
    a smaller request; a large block; two devices; a failed and a repeated malloc. *)
Definition history : list op :=
  [Alloc 1000 0 true true; Alloc 5000 0 true true; Alloc 700 0 true true; Free 1;
   Alloc 100 0 true true; Alloc 3000000 0 true true; Alloc 8 1 false true; Alloc 20000000 1 false false].
Definition places (w : option world) : list (nat * option (nat * Z) * Z * Z * nat) :=
  match w with
  | Some (s, live) => map (fun e => let '(i, b, d) := e in (i, m_ptr (mems s i), m_bytes (mems s i), b, d)) live
  | None => []
  end.
Example C16_example : places (run (fun n => n) history (start, [])) =
  [(6%nat, Some (2%nat, 0), 512, 8, 1%nat);
   (5%nat, Some (1%nat, 0), 3014656, 3000000, 0%nat);
   (1%nat, Some (0%nat, 1024), 512, 100, 0%nat);
   (2%nat, Some (0%nat, 6144), 1024, 700, 0%nat);
   (0%nat, Some (0%nat, 0), 1024, 1000, 0%nat)].
Proof. vm_compute. reflexivity. Qed.
Example C17_example :
  match run (fun n => n) history (start, []) with
  | Some (s, _) => held s = [(2%nat, 1%nat, 1048576); (1%nat, 0%nat, 3014656); (0%nat, 0%nat, 1048576)] /\
      used s 0%nat = 4063232 /\ used s 1%nat = 1048576 /\ count s true 0%nat = 3 /\ count s false 0%nat = 1
  | None => False
  end.
Proof. vm_compute. repeat split. Qed.
Example C17_release_example :
  match run (fun n => n) (history ++ [Free 1; Free 1; FreeUnusedAll]) (start, []) with
  | Some (s, live) => held s = [(2%nat, 1%nat, 1048576); (0%nat, 0%nat, 1048576)] /\ length live = 3%nat
  | None => False
  end.
Proof. vm_compute. repeat split. Qed.
Example C17_release_all_example :
  match run (fun n => n) (history ++ [Free 0; Free 2; Free 1; Free 0; Free 0; FreeUnusedAll]) (start, []) with
  | Some (s, live) => held s = [] /\ live = [] /\ used s 0%nat = 0 /\ used s 1%nat = 0
  | None => False
  end.
Proof. vm_compute. repeat split. Qed.

Print Assumptions C16_no_crash.
Print Assumptions C16_live_blocks.
Print Assumptions C16_stable.
Print Assumptions C16_failure.
Print Assumptions C17_statistics.
Print Assumptions C17_release.
Print Assumptions C17_release_all.
Print Assumptions C17_release_device.
