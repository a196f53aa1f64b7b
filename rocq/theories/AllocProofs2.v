(** The invariant of the allocator. *)
From Coq Require Import List ZArith Bool Lia.
From Verif Require Import AllocModel AllocSpec AllocProofs.
Import ListNotations.
Local Open Scope list_scope.
Local Open Scope Z_scope.

Definition chunk := (nat * nat * list nat)%type.
Definition all (lay : list chunk) : list nat := flat_map snd lay.

Fixpoint adjl (h : nat -> mem) (l : list nat) : Prop :=
  match l with
  | [] => True
  | x :: tl => (forall y, hd' tl None = Some y -> m_locked (h x) = true \/ m_locked (h y) = true) /\ adjl h tl
  end.
Lemma last_some a x : exists y, last' a (Some x) = Some y.
Proof. revert x. induction a as [|z a IH]; intros x; cbn; eauto. Qed.
Lemma last_cons_app a x y : last' a (Some x) = Some y -> a = [] /\ y = x \/ (exists z, In z a) /\ last' a None = Some y.
Proof.
  destruct a as [|z a]; cbn; [intros [= ->]; auto|]. intros H. right. split; eauto. 
Qed.
Lemma adjl_app h a b : adjl h (a ++ b) <-> adjl h a /\ adjl h b /\
  (forall x y, last' a None = Some x -> hd' b None = Some y -> m_locked (h x) = true \/ m_locked (h y) = true).
Proof.
  induction a as [|z a IH]; cbn [app adjl].
  - split; [intros H; repeat split; auto; cbn; discriminate|tauto].
  - rewrite IH, hd_app. destruct a as [|w a]; cbn [app last' hd' adjl] in *.
    + split.
      * intros (A & B & C & D). repeat split; auto; [discriminate|]. intros x y [= <-] E. auto.
      * intros (A & B & C). split; [|repeat split; auto; discriminate]. intros y E. apply (C z y); auto.
    + tauto.
Qed.
Lemma adjl_ext h h' l : (forall x, In x l -> m_locked (h' x) = m_locked (h x)) -> adjl h l -> adjl h' l.
Proof.
  induction l as [|x l IH]; cbn [adjl]; auto. intros E (A & B). split.
  - intros y Hy. rewrite (E x) by (left; auto). rewrite (E y); auto. right. destruct l; [discriminate|]. cbn in Hy. inversion Hy; left; auto.
  - apply IH; auto. intros z Hz. apply E. right. auto.
Qed.

Definition okchunk (h : nat -> mem) (k : chunk) : Prop :=
  snd k <> [] /\ adjl h (snd k) /\
  exists sm, chain (fst (fst k)) (snd (fst k)) sm h 0 None (snd k) None /\ (tot h (snd k) <=? small_alloc) = sm.

Definition at_lay (lay : list chunk) (d i : nat) : Prop := exists c l, In (c, d, l) lay /\ In i l.
Definition lids (live : list (nat * Z * nat)) : list nat := map (fun e => fst (fst e)) live.

Record Inv (pend : option nat) (s : ast) (lay : list chunk) (live : list (nat * Z * nat)) : Prop := mkInv {
  i_chunks : Forall (okchunk (mems s)) lay;
  i_nodup : NoDup (all lay);
  i_cn : NoDup (map (fun k => fst (fst k)) lay);
  i_fresh : forall i, In i (all lay) -> (i < nmem s)%nat;
  i_cfresh : forall k, In k lay -> (fst (fst k) < nchunk s)%nat;
  i_held : held s = map (fun k => (fst k, tot (mems s) (snd k))) lay;
  i_cache : forall sm d k i, In (k, i) (caches s sm d) <->
     at_lay lay d i /\ m_locked (mems s i) = false /\ pend <> Some i /\
     k = m_bytes (mems s i) /\ (k <=? small_alloc) = sm;
  i_cnodup : forall sm d, NoDup (caches s sm d);
  i_lock : forall i, In i (lids live) <-> In i (all lay) /\ m_locked (mems s i) = true;
  i_lnodup : NoDup (lids live);
  i_live : forall i b d, In (i, b, d) live -> b <= m_bytes (mems s i) /\ m_dev (mems s i) = d;
  i_known : forall c d n, In (c, d, n) (held s) -> In d (known s);
  i_count : forall sm d, count s sm d = Z.of_nat (length (live_blocks s sm d live)) }.

Definition Used (s : ast) (ex : nat -> Z) : Prop := forall d, used s d = held_bytes d (held s) + ex d.

Lemma all_app a b : all (a ++ b) = all a ++ all b.
Proof. apply flat_map_app. Qed.
Lemma in_all lay i : In i (all lay) <-> exists c d l, In (c, d, l) lay /\ In i l.
Proof.
  unfold all. rewrite in_flat_map. split.
  - intros (((c & d) & l) & H1 & H2). eauto 6.
  - intros (c & d & l & H1 & H2). exists (c, d, l). auto.
Qed.
Lemma at_in lay d i : at_lay lay d i -> In i (all lay).
Proof. intros (c & l & H1 & H2). apply in_all. eauto. Qed.
Lemma nodup_all_unique lay : NoDup (all lay) -> forall k k' i, In k lay -> In k' lay -> In i (snd k) -> In i (snd k') -> k = k'.
Proof.
  induction lay as [|x lay IH]; intros N k k' i H H' I I'; [destruct H|].
  cbn [all flat_map] in N. fold (all lay) in N.
  assert (D : forall z, In z (snd x) -> ~ In z (all lay)).
  { intros z Hz. apply in_split in Hz as (a & b & E). rewrite E in N. rewrite <- app_assoc in N. cbn in N.
    apply nodup_mid in N as (_ & N & _). intros X. apply N. apply in_app_iff. auto. }
  assert (N' : NoDup (all lay)). { clear - N. induction (snd x) as [|z l IHl]; auto. inversion N; auto. }
  destruct H as [->|H], H' as [->|H']; auto.
  - exfalso. apply (D i); auto. unfold all. apply in_flat_map. eauto.
  - exfalso. apply (D i); auto. unfold all. apply in_flat_map. eauto.
  - eapply IH; eauto.
Qed.
Lemma at_dev lay s d i : Forall (okchunk (mems s)) lay -> at_lay lay d i -> m_dev (mems s i) = d.
Proof.
  intros F (c & l & H1 & H2). rewrite Forall_forall in F. destruct (F _ H1) as (_ & _ & sm & C & _). cbn in C.
  destruct (chain_in _ _ _ _ _ _ _ _ _ C H2) as (a & b & _ & E & _). auto.
Qed.

Lemma in_erase e l x : In x (erase e l) <-> In x l /\ x <> e.
Proof.
  unfold erase. rewrite filter_In. split; intros (A & B); split; auto.
  - intros ->. unfold key_eqb in B. rewrite Z.eqb_refl, Nat.eqb_refl in B. discriminate.
  - apply negb_true_iff. unfold key_eqb. apply andb_false_iff.
    destruct e as [k i], x as [k' i']. cbn. destruct (Z.eqb_spec k k'); auto. destruct (Nat.eqb_spec i i'); auto. congruence.
Qed.
Lemma nodup_filter {A} (f : A -> bool) l : NoDup l -> NoDup (filter f l).
Proof.
  induction 1 as [|x l H N IH]; cbn; [constructor|]. destruct (f x); auto. constructor; auto.
  rewrite filter_In. tauto.
Qed.
Lemma nodup_erase e l : NoDup l -> NoDup (erase e l).
Proof. apply nodup_filter. Qed.
Lemma updb_at {A} (m : bool -> nat -> A) b k x b' k' :
  updb m b k x b' k' = if Bool.eqb b' b && Nat.eqb k' k then x else m b' k'.
Proof. reflexivity. Qed.
Lemma updb_same {A} (m : bool -> nat -> A) b k x : updb m b k x b k = x.
Proof. rewrite updb_at, eqb_reflx, Nat.eqb_refl. auto. Qed.
Lemma sel_dec b b' (k k' : nat) : (Bool.eqb b' b && Nat.eqb k' k) = true <-> b' = b /\ k' = k.
Proof. rewrite andb_true_iff, eqb_true_iff, Nat.eqb_eq. tauto. Qed.

Lemma in_cache_erase sm d e s sm' d' x : In x (caches (cache_erase sm d e s) sm' d') <->
  In x (caches s sm' d') /\ ~ (sm' = sm /\ d' = d /\ x = e).
Proof.
  unfold cache_erase, set_caches. cbn [caches]. rewrite updb_at.
  destruct (Bool.eqb sm' sm && Nat.eqb d' d) eqn:E.
  - apply sel_dec in E as (-> & ->). rewrite in_erase. tauto.
  - split; [|tauto]. intros H. split; auto. intros (-> & -> & _). rewrite eqb_reflx, Nat.eqb_refl in E. discriminate.
Qed.
Lemma in_cache_put sm d e s sm' d' x : In x (caches (cache_put sm d e s) sm' d') <->
  In x (caches s sm' d') \/ (sm' = sm /\ d' = d /\ x = e).
Proof.
  unfold cache_put, set_caches. cbn [caches]. rewrite updb_at.
  destruct (Bool.eqb sm' sm && Nat.eqb d' d) eqn:E.
  - apply sel_dec in E as (-> & ->). cbn [In]. rewrite in_erase. split.
    + intros [<-|(A & B)]; auto.
    + intros [H|(_ & _ & ->)]; auto. destruct x as [k i], e as [k' i'].
      destruct (Z.eq_dec k k') as [->|N1]; [|right; split; auto; congruence].
      destruct (Nat.eq_dec i i') as [->|N2]; [auto|right; split; auto; congruence].
  - split; auto. intros [H|(-> & -> & _)]; auto. rewrite eqb_reflx, Nat.eqb_refl in E. discriminate.
Qed.
Lemma nodup_cache_erase sm d e s : (forall sm d, NoDup (caches s sm d)) -> forall sm' d', NoDup (caches (cache_erase sm d e s) sm' d').
Proof.
  intros N sm' d'. unfold cache_erase, set_caches. cbn [caches]. rewrite updb_at.
  destruct (Bool.eqb sm' sm && Nat.eqb d' d); auto. apply nodup_erase. auto.
Qed.
Lemma nodup_cache_put sm d e s : (forall sm d, NoDup (caches s sm d)) -> forall sm' d', NoDup (caches (cache_put sm d e s) sm' d').
Proof.
  intros N sm' d'. unfold cache_put, set_caches. cbn [caches]. rewrite updb_at.
  destruct (Bool.eqb sm' sm && Nat.eqb d' d); auto. constructor; [rewrite in_erase; tauto|]. apply nodup_erase. auto.
Qed.

Lemma nodup_app_iff {A} (a b : list A) : NoDup (a ++ b) <-> NoDup a /\ NoDup b /\ (forall x, In x a -> ~ In x b).
Proof.
  induction a as [|x a IH]; cbn [app].
  - split; [intros N; repeat split; auto; constructor|tauto].
  - split.
    + intros N. inversion N as [|? ? N1 N2]; subst. apply IH in N2 as (A1 & A2 & A3). rewrite in_app_iff in N1. repeat split; auto.
      * constructor; tauto.
      * intros z [<-|Hz]; auto.
    + intros (N & N2 & N3). inversion N as [|? ? M1 M2]; subst. constructor.
      * rewrite in_app_iff. intros [X|X]; auto. apply (N3 x); [left|]; auto.
      * apply IH. repeat split; auto. intros z Hz. apply N3. right. auto.
Qed.

(** Rewriting one chunk of the layout. *)
Section Replace.
Variables (pend pend' : option nat) (s s' : ast) (L1 L2 : list chunk) (c d : nat) (l l' : list nat).
Variables live live' : list (nat * Z * nat).
Let lay := L1 ++ (c, d, l) :: L2.
Let lay' := L1 ++ (c, d, l') :: L2.
Hypothesis I : Inv pend s lay live.
Hypothesis Hpend : forall i, pend = Some i -> In i l.
Hypothesis Hpend' : forall i, pend' = Some i -> In i l'.
Hypothesis Hnm : (nmem s <= nmem s')%nat.
Hypothesis Hnc : nchunk s' = nchunk s.
Hypothesis Hheld : held s' = held s.
Hypothesis Hknown : forall x, In x (known s) -> In x (known s').
Hypothesis Hok : okchunk (mems s') (c, d, l').
Hypothesis Htot : tot (mems s') l' = tot (mems s) l.
Hypothesis Hnd : NoDup l'.
Hypothesis Hsub : forall x, In x l' -> In x l \/ (nmem s <= x < nmem s')%nat.
Hypothesis Hfar : forall x, ~ In x l -> (x < nmem s)%nat -> mems s' x = mems s x.
Hypothesis Hcache1 : forall sm e k x, ~ In x l -> ~ In x l' -> In (k, x) (caches s' sm e) <-> In (k, x) (caches s sm e).
Hypothesis Hcache2 : forall sm e k x, In x l \/ In x l' -> In (k, x) (caches s' sm e) <->
  e = d /\ In x l' /\ m_locked (mems s' x) = false /\ pend' <> Some x /\ k = m_bytes (mems s' x) /\ (k <=? small_alloc) = sm.
Hypothesis Hcn : forall sm e, NoDup (caches s' sm e).
Hypothesis Hlock1 : forall x, ~ In x l -> ~ In x l' -> In x (lids live') <-> In x (lids live).
Hypothesis Hlock2 : forall x, In x l \/ In x l' -> In x (lids live') <-> In x l' /\ m_locked (mems s' x) = true.
Hypothesis Hlnd : NoDup (lids live').
Hypothesis Hlive : forall i b e, In (i, b, e) live' -> b <= m_bytes (mems s' i) /\ m_dev (mems s' i) = e.
Hypothesis Hcount : forall sm e, count s' sm e = Z.of_nat (length (live_blocks s' sm e live')).

Lemma other_far x : In x (all L1) \/ In x (all L2) -> ~ In x l /\ ~ In x l' /\ (x < nmem s)%nat /\ mems s' x = mems s x.
Proof using I Hsub Hfar.
  clear - I Hsub Hfar. intros H. destruct I as [_ N _ F _ _ _ _ _ _ _ _ _]. unfold lay in *. rewrite all_app in N, F. cbn [all flat_map] in N, F. fold (all L2) in N, F.
  cbn [snd] in *.
  assert (Hx : (x < nmem s)%nat). { apply F. rewrite !in_app_iff. tauto. }
  assert (Hl : ~ In x l). { intros X. apply in_split in X as (a & b & ->).
    rewrite <- app_assoc in N. cbn in N. rewrite app_assoc in N. apply nodup_mid in N as (N1 & N2 & _).
    rewrite in_app_iff in N1, N2. tauto. }
  repeat split; auto. intros X. apply Hsub in X as [X|X]; auto. lia.
Qed.

Lemma inv_replace : Inv pend' s' lay' live'.
Proof using All.
  pose proof other_far as OF. destruct I as [I1 I2 I3 I4 I5 I6 I7 I8 I9 I10 I11 I12 I13].
  assert (AL : forall x, In x (all lay) <-> (In x (all L1) \/ In x (all L2)) \/ In x l).
  { intros x. unfold lay. rewrite all_app. cbn [all flat_map snd]. fold (all L2). rewrite !in_app_iff. tauto. }
  assert (AL' : forall x, In x (all lay') <-> (In x (all L1) \/ In x (all L2)) \/ In x l').
  { intros x. unfold lay'. rewrite all_app. cbn [all flat_map snd]. fold (all L2). rewrite !in_app_iff. tauto. }
  assert (OT : forall k, In k L1 \/ In k L2 -> forall x, In x (snd k) -> In x (all L1) \/ In x (all L2)).
  { intros k [H|H] x Hx; [left|right]; unfold all; apply in_flat_map; eauto. }
  constructor.
  - apply Forall_forall. intros k Hk. unfold lay' in Hk. rewrite in_app_iff in Hk. cbn [In] in Hk.
    assert (X : (c, d, l') = k \/ In k L1 \/ In k L2) by tauto. destruct X as [<-|X]; auto.
    rewrite Forall_forall in I1. destruct (I1 k) as (A1 & A2 & sm & A3 & A4). { unfold lay. rewrite in_app_iff. cbn. tauto. }
    assert (E : forall x, In x (snd k) -> mems s' x = mems s x). { intros x Hx. apply OF. eapply OT; eauto. }
    split; auto. split. { eapply adjl_ext; [|exact A2]. intros x Hx. rewrite E; auto. }
    exists sm. split. { eapply chain_ext; [|exact A3]. intros x Hx. rewrite E; auto. apply eqm_refl. }
    rewrite (tot_ext (mems s)); auto. intros x Hx. rewrite E; auto.
  - unfold lay, lay' in *. rewrite all_app in *. cbn [all flat_map snd] in *. fold (all L2) in *.
    rewrite !nodup_app_iff in *. destruct I2 as (N1 & (N2 & N3 & N4) & N5). repeat split; auto.
    + intros x Hx H2. apply (proj1 (proj2 (OF x (or_intror H2)))). auto.
    + intros x Hx H2. rewrite in_app_iff in H2. destruct H2 as [H2|H2].
      * apply (proj1 (proj2 (OF x (or_introl Hx)))). auto.
      * apply (N5 x); auto. rewrite in_app_iff. auto.
  - unfold lay, lay' in *. rewrite map_app in *. exact I3.
  - intros x Hx. apply AL' in Hx as [Hx|Hx].
    + assert (x < nmem s)%nat by (apply OF; auto). lia.
    + apply Hsub in Hx as [Hx|Hx]; [|lia]. assert (x < nmem s)%nat by (apply I4; apply AL; auto). lia.
  - intros k Hk. rewrite Hnc. unfold lay' in Hk. apply in_app_iff in Hk as [Hk|[<-|Hk]].
    + apply I5. unfold lay. apply in_app_iff. auto.
    + apply (I5 (c, d, l)). unfold lay. apply in_app_iff. right. left. auto.
    + apply I5. unfold lay. apply in_app_iff. right. right. auto.
  - rewrite Hheld, I6. unfold lay, lay'. rewrite !map_app. cbn [map fst snd]. rewrite Htot.
    f_equal; [|f_equal]; apply map_ext_in; intros k Hk; f_equal; symmetry; apply tot_ext; intros x Hx;
      rewrite (proj2 (proj2 (proj2 (OF x (OT k ltac:(auto) x Hx))))); auto.
  - intros sm e k x. destruct (in_dec Nat.eq_dec x l) as [Xl|Xl]; [|destruct (in_dec Nat.eq_dec x l') as [Xl'|Xl']].
    1,2: rewrite Hcache2 by auto; split;
      [intros (-> & A & B); split; auto; exists c, l'; split; auto; unfold lay'; apply in_app_iff; right; left; auto|].
    1,2: intros ((c' & q & A & A') & B); unfold lay' in A; apply in_app_iff in A as [A|[A|A]].
    + exfalso. apply (proj1 (OF x (OT _ (or_introl A) x A'))). auto.
    + inversion A; subst. tauto.
    + exfalso. apply (proj1 (OF x (OT _ (or_intror A) x A'))). auto.
    + exfalso. apply (proj1 (proj2 (OF x (OT _ (or_introl A) x A')))). auto.
    + inversion A; subst. tauto.
    + exfalso. apply (proj1 (proj2 (OF x (OT _ (or_intror A) x A')))). auto.
    + rewrite Hcache1, I7 by auto.
      assert (Q : at_lay lay e x <-> at_lay lay' e x).
      { unfold at_lay, lay, lay'. split; intros (c' & q & A & A'); exists c', q; split; auto; rewrite in_app_iff in *; cbn [In] in *;
          (destruct A as [A|[A|A]]; [auto|inversion A; subst; contradiction|auto]). }
      rewrite Q. split; intros (A & B & C & D1 & D2).
      * assert (H : In x (all L1) \/ In x (all L2)). { apply at_in in A. apply AL' in A. tauto. }
        destruct (OF x H) as (_ & _ & _ & E). rewrite E. split; [auto|]. split; [auto|]. split; [|auto]. intros X. apply Hpend' in X. auto.
      * assert (H : In x (all L1) \/ In x (all L2)). { apply at_in in A. apply AL' in A. tauto. }
        destruct (OF x H) as (_ & _ & _ & E). rewrite E in *. split; [auto|]. split; [auto|]. split; [|auto]. intros X. apply Hpend in X. auto.
  - auto.
  - intros x. rewrite AL'. destruct (in_dec Nat.eq_dec x l) as [Xl|Xl]; [|destruct (in_dec Nat.eq_dec x l') as [Xl'|Xl']].
    + rewrite Hlock2 by auto. split; [tauto|]. intros ([H|H] & B); auto. exfalso. apply (proj1 (OF x H)). auto.
    + rewrite Hlock2 by auto. split; [tauto|]. intros ([H|H] & B); auto.
    + rewrite Hlock1, I9, AL by auto. split; intros (H & B); (assert (H' : In x (all L1) \/ In x (all L2)) by tauto);
        destruct (OF x H') as (_ & _ & _ & E); rewrite E in *; auto.
  - auto.
  - auto.
  - intros c' e n H. rewrite Hheld in H. eauto.
  - auto.
Qed.
End Replace.

Lemma lower_bound_in addr b l e : lower_bound addr b l = Some e -> In e l /\ b <= fst e.
Proof.
  revert e. induction l as [|x l IH]; cbn [lower_bound]; intros e; [discriminate|].
  destruct (Z.ltb_spec (fst x) b) as [H|H].
  - intros E. apply IH in E as (A & B). split; [right|]; auto.
  - destruct (lower_bound addr b l) as [y|] eqn:E.
    + destruct (before addr y x); intros [= <-]; [|split; [left; auto|lia]]. destruct (IH y eq_refl). split; [right|]; auto.
    + intros [= <-]. split; [left; auto|lia].
Qed.
Lemma lower_bound_none addr b l : lower_bound addr b l = None -> forall e, In e l -> fst e < b.
Proof.
  induction l as [|x l IH]; cbn [lower_bound]; intros H e He; [destruct He|].
  destruct (Z.ltb_spec (fst x) b) as [Hx|Hx].
  - destruct He as [<-|He]; auto.
  - destruct (lower_bound addr b l) as [y|]; [destruct (before addr y x)|]; discriminate.
Qed.

Lemma round_size_ge b : 1 <= b -> b <= round_size b /\ 0 < round_size b.
Proof.
  intros H. unfold round_size, round_small, small_alloc, round_large.
  destruct (Z.ltb_spec b 512); [lia|]. destruct (Z.ltb_spec b 1048576).
  - pose proof (Z.div_mod (b + 512 - 1) 512 ltac:(lia)). pose proof (Z.mod_pos_bound (b + 512 - 1) 512 ltac:(lia)). lia.
  - pose proof (Z.div_mod (b + 131072 - 1) 131072 ltac:(lia)). pose proof (Z.mod_pos_bound (b + 131072 - 1) 131072 ltac:(lia)). lia.
Qed.

(** Taking a block out of the cache. *)
Lemma take_ok s lay live sm d k i : Inv None s lay live -> In (k, i) (caches s sm d) ->
  Inv (Some i) (cache_erase sm d (k, i) s) lay live.
Proof.
  intros I H. pose proof (proj1 (i_cache _ _ _ _ I sm d k i) H) as (A1 & A2 & _ & A4 & A5).
  destruct I as [I1 I2 I3 I4 I5 I6 I7 I8 I9 I10 I11 I12 I13]. constructor; auto.
  - intros sm' d' k' x. rewrite in_cache_erase, I7. cbn [mems cache_erase set_caches]. split.
    + intros ((B1 & B2 & _ & B4 & B5) & N). repeat split; auto. intros [= <-]. apply N.
      rewrite A4, B4. repeat split; try congruence.
      rewrite <- (at_dev lay s d' i I1 B1). apply (at_dev lay s d i I1 A1).
    + intros (B1 & B2 & B3 & B4 & B5). repeat split; auto; [discriminate|]. intros (_ & _ & E). apply B3. congruence.
  - apply nodup_cache_erase. auto.
Qed.

(** A new chunk. *)
Lemma live_blocks_ext s s' sm d live : (forall i, In i (lids live) -> m_bytes (mems s' i) = m_bytes (mems s i)) ->
  live_blocks s' sm d live = live_blocks s sm d live.
Proof.
  intros H. unfold live_blocks. apply filter_ext_in. intros e He. rewrite H; auto. apply in_map_iff. eauto.
Qed.
Lemma known_set d x s e : In e (known s) \/ e = d -> In e (known (set_used d x s)).
Proof.
  intros H. cbn. destruct (existsb (Nat.eqb d) (known s)) eqn:E; cbn.
  - destruct H as [H| ->]; auto. apply existsb_exists in E as (y & Hy & E). apply Nat.eqb_eq in E. subst. auto.
  - destruct H as [H| ->]; auto.
Qed.
Lemma new_chunk_ok s lay live b d ex : Inv None s lay live -> Used s ex -> 0 < b ->
  forall s' i, new_chunk b d s = (s', i) ->
  Inv (Some i) s' ((nchunk s, d, [i]) :: lay) live /\ Used s' ex /\
  m_locked (mems s' i) = false /\ m_bytes (mems s' i) = b.
Proof.
  intros I U Hb s' i E. unfold new_chunk in E. injection E as E1 E2.
  set (j := nmem s) in *. subst i.
  destruct I as [I1 I2 I3 I4 I5 I6 I7 I8 I9 I10 I11 I12 I13].
  assert (Hj : ~ In j (all lay)) by (intros X; apply I4 in X; unfold j in X; lia).
  assert (Ho : forall x, In x (all lay) -> mems s' x = mems s x).
  { intros x Hx. subst s'. cbn. unfold upd. destruct (Nat.eqb_spec x j) as [->|]; auto. contradiction. }
  assert (Hi : mems s' j = mkMem d (Some (nchunk s, 0)) b false None None).
  { subst s'. cbn. unfold upd. rewrite Nat.eqb_refl. auto. }
  split; [|split; [|rewrite Hi; auto]].
  - constructor.
    + constructor.
      * split; [discriminate|]. split; [cbn; split; auto; discriminate|]. exists (b <=? small_alloc). cbn [fst snd chain tot hd'].
        rewrite Hi. cbn. repeat split; auto. f_equal. lia.
      * rewrite Forall_forall in *. intros k Hk. destruct (I1 k Hk) as (A1 & A2 & sm & A3 & A4).
        assert (Q : forall x, In x (snd k) -> mems s' x = mems s x) by (intros x Hx; apply Ho; unfold all; apply in_flat_map; eauto).
        split; auto. split. { eapply adjl_ext; [|exact A2]. intros x Hx. rewrite Q; auto. }
        exists sm. split. { eapply chain_ext; [|exact A3]. intros x Hx. rewrite Q; auto. apply eqm_refl. }
        rewrite (tot_ext (mems s)); auto. intros x Hx. rewrite Q; auto.
    + cbn. constructor; auto.
    + cbn. constructor; auto. intros X. apply in_map_iff in X as (k & X & Hk). apply I5 in Hk. lia.
    + intros x Hx. subst s'. cbn in *. destruct Hx as [<-|Hx]; [lia|]. apply I4 in Hx. unfold j. lia.
    + intros k Hk. subst s'. cbn in *. destruct Hk as [<-|Hk]; [cbn; lia|]. apply I5 in Hk. lia.
    + replace (held s') with ((nchunk s, d, b) :: held s) by (subst s'; auto). cbn [map fst snd tot]. rewrite Hi. cbn [m_bytes].
      f_equal; [f_equal; lia|]. rewrite I6. apply map_ext_in. intros k Hk. f_equal. symmetry. apply tot_ext.
      intros x Hx. rewrite Ho; auto. unfold all. apply in_flat_map. eauto.
    + replace (caches s') with (caches s) by (subst s'; auto). intros sm e k x. rewrite I7. split.
      * intros (A & B & _ & C). pose proof (at_in _ _ _ A) as A'. rewrite Ho by auto. split.
        { destruct A as (c & l & A1 & A2). exists c, l. split; auto. right. auto. }
        repeat split; try tauto. intros [= <-]. auto.
      * intros ((c & l & [A|A] & A2) & B & C & D).
        -- inversion A; subst c e l. destruct A2 as [<-|[]]. exfalso. apply C. auto.
        -- assert (X : at_lay lay e x) by (exists c, l; auto). pose proof (at_in _ _ _ X). rewrite Ho in * by auto.
           split; auto. split; auto. split; [discriminate|]. auto.
    + replace (caches s') with (caches s) by (subst s'; auto). auto.
    + intros x. cbn [all flat_map snd app In]. fold (all lay). rewrite I9. split.
      * intros (A & B). rewrite Ho; auto.
      * intros ([<-|A] & B); [rewrite Hi in B; discriminate|]. rewrite Ho in B; auto.
    + auto.
    + intros x bb e H. assert (In x (all lay)). { apply I9. apply in_map_iff. exists (x, bb, e). auto. }
      rewrite (Ho x H0). apply (I11 x bb e). auto.
    + intros c e n H. rewrite <- E1. apply known_set. cbn. rewrite <- E1 in H. cbn in H. destruct H as [H|H]; [inversion H; auto|]. left. eauto.
    + intros sm e. replace (count s') with (count s) by (subst s'; auto). rewrite I13. rewrite (live_blocks_ext s s'); auto.
      intros x Hx. apply I9 in Hx. rewrite Ho; tauto.
  - intros e. replace (held s') with ((nchunk s, d, b) :: held s) by (subst s'; auto).
    replace (used s' e) with (upd (used s) d (used s d + b) e) by (subst s'; auto). unfold upd, held_bytes. cbn [map fold_right fst snd].
    fold (held_bytes e (held s)). destruct (Nat.eqb_spec e d) as [->|N].
    + rewrite Nat.eqb_refl. rewrite (U d). lia.
    + rewrite (proj2 (Nat.eqb_neq d e)) by auto. rewrite (U e). lia.
Qed.
