(** The operations of the allocator keep the invariant. *)
From Coq Require Import List ZArith Bool Lia.
From Verif Require Import AllocModel AllocSpec AllocProofs AllocProofs2.
Import ListNotations.
Local Open Scope list_scope.
Local Open Scope Z_scope.

(** What a step may not change: the place and size of blocks that stay live. *)
Definition same_place (s s' : ast) (i : nat) : Prop :=
  m_ptr (mems s' i) = m_ptr (mems s i) /\ m_bytes (mems s' i) = m_bytes (mems s i) /\ m_dev (mems s' i) = m_dev (mems s i).
Lemma same_refl s i : same_place s s i. Proof. repeat split. Qed.
Lemma same_trans s1 s2 s3 i : same_place s1 s2 i -> same_place s2 s3 i -> same_place s1 s3 i.
Proof. unfold same_place. intuition congruence. Qed.

(** The end of an allocation. *)
Definition conclude (d i : nat) (s : ast) : ast :=
  let c := m_bytes (mems s i) <=? small_alloc in
  let s := set_count c d (count s c d + 1) s in
  let s := set_used d (used s d) s in
  set_mems (change i (set_locked true) (mems s)) s.
Lemma finish_eq sm b d i s : finish sm b d i s =
  if (if sm then round_small else small_alloc + 1) <=? m_bytes (mems s i) - b then
    match divide i b s with
    | Some (s, j) => Some (conclude d i (cache_put sm d (m_bytes (mems s j), j) s))
    | None => None
    end
  else Some (conclude d i s).
Proof.
  unfold finish. destruct ((if sm then round_small else small_alloc + 1) <=? m_bytes (mems s i) - b); auto.
  destruct (divide i b s) as [[s' j]|]; auto.
Qed.

Lemma conclude_mems d i s x : mems (conclude d i s) x = if Nat.eqb x i then set_locked true (mems s i) else mems s x.
Proof. reflexivity. Qed.
Lemma conclude_used d i s e : used (conclude d i s) e = used s e.
Proof. unfold conclude, set_mems, set_used, set_count, upd. cbn. destruct (Nat.eqb_spec e d) as [->|]; auto. Qed.
Lemma conclude_known d i s e : In e (known s) \/ e = d -> In e (known (conclude d i s)).
Proof. intros H. unfold conclude. cbn [known set_mems]. apply known_set. exact H. Qed.
Lemma conclude_count d i s sm e : count (conclude d i s) sm e =
  count s sm e + (if Nat.eqb e d && Bool.eqb (m_bytes (mems s i) <=? small_alloc) sm then 1 else 0).
Proof.
  unfold conclude. cbn [count set_mems set_used set_count]. rewrite updb_at.
  set (c := m_bytes (mems s i) <=? small_alloc). clearbody c.
  destruct (Nat.eqb_spec e d) as [->|N]; destruct sm, c; cbn; lia.
Qed.

(** Locking the block [i] of the chunk, in the given state. *)
Lemma okchunk_lock h c d a i b : NoDup (a ++ i :: b) -> (forall sm, chain c d sm h 0 None (a ++ i :: b) None -> (tot h (a ++ i :: b) <=? small_alloc) = sm -> True) ->
  adjl h a -> adjl h b -> (exists sm, chain c d sm h 0 None (a ++ i :: b) None /\ (tot h (a ++ i :: b) <=? small_alloc) = sm) ->
  okchunk (fun x => if Nat.eqb x i then set_locked true (h i) else h x) (c, d, a ++ i :: b).
Proof.
  intros N _ A1 A2 (sm & C & T). set (h' := fun x => if Nat.eqb x i then set_locked true (h i) else h x).
  assert (E : forall x, eqm (h' x) (h x)). { intros x. unfold h'. destruct (Nat.eqb_spec x i) as [->|]; repeat split. }
  assert (Li : m_locked (h' i) = true) by (unfold h'; rewrite Nat.eqb_refl; auto).
  apply nodup_mid in N as (N1 & N2 & _).
  split; [cbn; destruct a; discriminate|]. cbn [fst snd]. split.
  - apply adjl_app. split; [|split].
    + eapply adjl_ext; [|exact A1]. intros x Hx. unfold h'. destruct (Nat.eqb_spec x i) as [->|]; auto. contradiction.
    + cbn [adjl]. split; auto. eapply adjl_ext; [|exact A2]. intros x Hx. unfold h'. destruct (Nat.eqb_spec x i) as [->|]; auto. contradiction.
    + cbn. intros x y _ [= <-]. auto.
  - exists sm. split; [eapply chain_ext; eauto|]. rewrite (tot_ext h); auto. intros x _. apply E.
Qed.

Lemma lids_in live i b d : In (i, b, d) live -> In i (lids live).
Proof. intros H. apply in_map_iff. exists (i, b, d). auto. Qed.

Lemma finish_ok sm b d i s lay live ex orig : Inv (Some i) s lay live -> Used s ex ->
  at_lay lay d i -> m_locked (mems s i) = false ->
  0 < b -> b <= m_bytes (mems s i) -> (b <=? small_alloc) = sm -> (m_bytes (mems s i) <=? small_alloc) = sm -> orig <= b ->
  exists s' lay', finish sm b d i s = Some s' /\ Inv None s' lay' ((i, orig, d) :: live) /\ Used s' ex /\
    (forall x, In x (lids live) -> same_place s s' x) /\ held s' = held s.
Proof.
  intros I U (c & l & HL & Hil) Lk B0 Bb Kb Ki Ob.
  apply in_split in HL as (L1 & L2 & ->). apply in_split in Hil as (a & q & ->).
  pose proof I as I0. destruct I as [I1 I2 I3 I4 I5 I6 I7 I8 I9 I10 I11 I12 I13].
  assert (OK : okchunk (mems s) (c, d, a ++ i :: q)). { rewrite Forall_forall in I1. apply I1. apply in_app_iff. right. left. auto. }
  destruct OK as (_ & AD & sm0 & CH & TT). cbn [fst snd] in *.
  assert (ND : NoDup (a ++ i :: q)).
  { rewrite all_app in I2. cbn [all flat_map snd] in I2. apply nodup_app_iff in I2 as (_ & I2 & _). apply nodup_app_iff in I2. tauto. }
  assert (IL : forall x, In x (a ++ i :: q) -> In x (all (L1 ++ (c, d, a ++ i :: q) :: L2))).
  { intros x Hx. apply in_all. exists c, d, (a ++ i :: q). split; auto. apply in_app_iff. right. left. auto. }
  assert (Li : ~ In i (lids live)). { intros X. apply I9 in X as (_ & X). congruence. }
  assert (Ii : In i (a ++ i :: q)) by (apply in_app_iff; right; left; auto).
  pose proof (proj1 (adjl_app _ _ _) AD) as (AD1 & (AD2 & AD3) & AD4).
  assert (Lq : forall y, hd' q None = Some y -> m_locked (mems s y) = true).
  { intros y Hy. apply AD2 in Hy as [X|X]; auto. congruence. }
  destruct (nodup_mid _ _ _ ND) as (N1 & N2 & N3 & N4 & N5).
  destruct (chain_in _ _ _ _ _ _ _ _ _ CH Ii) as (a0 & q0 & _ & Di & _).
  assert (Sm0 : sm0 = sm). { clear - CH Ii Ki. destruct (chain_in _ _ _ _ _ _ _ _ _ CH Ii) as (a1 & q1 & _ & _ & _ & _ & X & _). congruence. }
  rewrite Sm0 in CH, TT. clear Sm0 sm0 a0 q0. rewrite finish_eq.
  destruct (Z.leb_spec (if sm then round_small else small_alloc + 1) (m_bytes (mems s i) - b)) as [Sp|Sp].
  - (* split *)
    assert (Nj : ~ In (nmem s) (a ++ i :: q)). { intros X. apply IL, I4 in X. lia. }
    assert (P2 : b < m_bytes (mems s i)) by (destruct sm; unfold round_small, small_alloc in *; lia).
    assert (K2 : (m_bytes (mems s i) - b <=? small_alloc) = sm).
    { destruct sm; [apply Z.leb_le in Ki; apply Z.leb_le; lia|apply Z.leb_gt; unfold small_alloc in *; lia]. }
    destruct (divide_ok c d sm s a i q 0 b CH ND Nj B0 P2 Kb K2)
      as (s1 & E & S1 & CH1 & Bi & Bj & Pi & Dv & Lj & Lk1 & Far & Near).
    rewrite E. set (j := nmem s) in *. set (s2 := cache_put sm d (m_bytes (mems s1 j), j) s1).
    assert (M2 : mems s2 = mems s1) by reflexivity.
    assert (Nij : j <> i) by (intros X; apply Nj; rewrite X; auto).
    assert (Sj : nmem s1 = S j /\ nchunk s1 = nchunk s /\ held s1 = held s /\ caches s1 = caches s /\ used s1 = used s /\ known s1 = known s /\ count s1 = count s).
    { rewrite S1. cbn. repeat split. }
    destruct Sj as (Sj1 & Sj2 & Sj3 & Sj4 & Sj5 & Sj6 & Sj7). clear S1.
    set (s' := conclude d i s2).
    assert (M' : forall x, mems s' x = if Nat.eqb x i then set_locked true (mems s1 i) else mems s1 x) by reflexivity.
    assert (BY : forall x, m_bytes (mems s' x) = m_bytes (mems s1 x) /\ m_ptr (mems s' x) = m_ptr (mems s1 x) /\ m_dev (mems s' x) = m_dev (mems s1 x)).
    { intros x. rewrite M'. destruct (Nat.eqb_spec x i) as [->|]; auto. }
    assert (NDj : NoDup (a ++ i :: j :: q)).
    { clear - ND Nj. apply nodup_app_iff in ND as (A & B & C). inversion B as [|? ? B1 B2]; subst. apply nodup_app_iff. split; auto. split.
      - constructor; [|constructor; auto].
        + intros [X|X]; auto. apply Nj. rewrite X. apply in_app_iff. right. left. auto.
        + intros X. apply Nj. apply in_app_iff. right. right. auto.
      - intros x Hx [X|[X|X]]; [apply (C x); auto; left; auto| |apply (C x); auto; right; auto].
        apply Nj. rewrite X. apply in_app_iff. auto. }
    assert (TT1 : tot (mems s1) (a ++ i :: j :: q) = tot (mems s) (a ++ i :: q)).
    { rewrite !tot_app. cbn [tot]. rewrite Bi, Bj. rewrite (tot_ext (mems s) (mems s1) a), (tot_ext (mems s) (mems s1) q); [lia| |];
        intros x Hx; apply Near; apply in_app_iff; auto. }
    assert (Lall : forall x, In x (lids live) -> x <> i /\ x <> j /\ same_place s s1 x).
    { intros x Hx. assert (x <> i) by congruence. assert (Xj : x <> j). { intros ->. apply I9 in Hx as (Hx & _). apply I4 in Hx. unfold j in Hx. lia. }
      repeat split; auto; (destruct (in_dec Nat.eq_dec x (a ++ q)) as [Y|Y]; [apply Near; auto|
        rewrite Far; auto; intros [X|X]; [congruence|]; rewrite in_app_iff in *; cbn in X; intuition congruence]). }
    exists s', (L1 ++ (c, d, a ++ i :: j :: q) :: L2). split; [auto|]. split; [|split; [|split]].
    + eapply (inv_replace (Some i) None s s' L1 L2 c d (a ++ i :: q) (a ++ i :: j :: q) live); auto.
      * intros x [= <-]. auto.
      * intros x; discriminate.
      * change (nmem s') with (nmem s1). lia.
      * intros x Hx. apply conclude_known. left. change (known s2) with (known s1). rewrite Sj6. auto.
      * change (mems s') with (fun x => if Nat.eqb x i then set_locked true (mems s1 i) else mems s1 x).
        apply okchunk_lock; auto.
        -- eapply adjl_ext; [|exact AD1]. intros x Hx. apply Lk1. intros ->. apply Nj. apply in_app_iff. auto.
        -- cbn [adjl]. split.
           ++ intros y Hy. right. rewrite Lk1; auto. intros ->. apply Nj. apply in_app_iff. right. right.
              destruct q; [discriminate|]. inversion Hy. left. auto.
           ++ eapply adjl_ext; [|exact AD3]. intros x Hx. apply Lk1. intros ->. apply Nj. apply in_app_iff. right. right. auto.
        -- exists sm. split; auto. rewrite TT1. auto.
      * rewrite <- TT1. apply tot_ext. intros x _. apply BY.
      * intros x Hx. rewrite in_app_iff in *. cbn in Hx. change (nmem s') with (nmem s1). rewrite Sj1.
        destruct Hx as [Hx|[Hx|[Hx|Hx]]]; [left; auto|left; right; left; auto|right; lia|left; right; right; auto].
      * intros x Hx Hlt. rewrite M'. destruct (Nat.eqb_spec x i) as [->|]; [contradiction|]. apply Far. intros [X|X]; auto.
        subst. unfold j in Hlt. lia.
      * intros sm' e k x X1 X2. change (caches s') with (caches s2). unfold s2. rewrite in_cache_put, Sj4.
        split; auto. intros [H|(_ & _ & H)]; auto. inversion H; subst. exfalso. apply X2. apply in_app_iff. right. right. left. auto.
      * intros sm' e k x X. change (caches s') with (caches s2). unfold s2. rewrite in_cache_put, Sj4.
        assert (X' : x = i \/ x = j \/ In x (a ++ q)).
        { rewrite !in_app_iff in *. cbn in X. intuition. }
        split.
        -- intros [H|(-> & -> & H)].
           ++ pose proof H as H0. apply I7 in H as (A & B & C & D & F).
              assert (Xi : x <> i) by congruence.
              assert (Xj : x <> j). { intros ->. apply at_in in A. apply I4 in A. unfold j in A. lia. }
              assert (Xq : In x (a ++ q)) by tauto.
              assert (e = d). { rewrite <- (at_dev _ _ _ _ I1 A). apply (at_dev (L1 ++ (c, d, a ++ i :: q) :: L2)); auto. exists c, (a ++ i :: q).
                split; [apply in_app_iff; right; left; auto|]. rewrite in_app_iff in *. cbn. tauto. }
              split; auto. split. { rewrite in_app_iff in *. cbn. tauto. }
              rewrite M'. rewrite (proj2 (Nat.eqb_neq x i)) by auto. rewrite Lk1 by auto.
              destruct (Near x Xq) as (Nb & _). rewrite Nb. repeat split; auto. discriminate.
           ++ inversion H; subst k x. split; auto. split. { apply in_app_iff. right. right. left. auto. }
              rewrite M'. rewrite (proj2 (Nat.eqb_neq j i)) by auto. repeat split; auto; [discriminate|]. rewrite Bj. auto.
        -- intros (-> & A & B & _ & D & F). rewrite M' in B, D. destruct (Nat.eqb_spec x i) as [->|Xi]; [discriminate|].
           destruct (Nat.eq_dec x j) as [->|Xj].
           ++ right. rewrite D, Bj, K2 in F. subst sm'. repeat split. congruence.
           ++ left. assert (Xq : In x (a ++ q)) by tauto. destruct (Near x Xq) as (Nb & _). rewrite Nb in D. rewrite Lk1 in B by auto.
              apply I7. split. { exists c, (a ++ i :: q). split; [apply in_app_iff; right; left; auto|]. rewrite in_app_iff in *. cbn. tauto. }
              repeat split; auto. congruence.
      * apply nodup_cache_put. rewrite Sj4. auto.
      * intros x X1 X2. cbn. split; [|auto]. intros [<-|]; auto. contradiction.
      * intros x X. cbn [lids map fst In]. fold (lids live). split.
        -- intros [<-|H].
           ++ split; [apply in_app_iff; right; left; auto|]. rewrite M', Nat.eqb_refl. auto.
           ++ destruct (Lall x H) as (Xi & Xj & _). apply I9 in H as (_ & H). split.
              ** rewrite !in_app_iff in *. cbn in *. intuition.
              ** rewrite M', (proj2 (Nat.eqb_neq x i)), Lk1; auto.
        -- intros (H1 & H2). rewrite M' in H2. destruct (Nat.eqb_spec x i) as [->|Xi]; auto. right.
           assert (Xj : x <> j) by (intros ->; congruence). rewrite Lk1 in H2 by auto. apply I9. split; auto. apply IL.
           rewrite !in_app_iff in *. cbn in *. intuition congruence.
      * cbn. constructor; auto.
      * intros x bb e [H|H].
        -- inversion H; subst x bb e. destruct (BY i) as (-> & _ & ->). rewrite Bi, Dv. auto.
        -- pose proof (lids_in _ _ _ _ H) as Hx. destruct (Lall x Hx) as (_ & _ & _ & Q1 & Q2). destruct (BY x) as (-> & _ & ->).
           rewrite Q1, Q2. apply (I11 x bb e H).
      * intros sm' e. unfold s'. rewrite conclude_count. change (count s2) with (count s1). rewrite Sj7, I13. rewrite M2.
        fold s'. unfold live_blocks at 2. cbn [filter fst snd]. fold (live_blocks s' sm' e live).
        rewrite (live_blocks_ext s s') by (intros x Hx; destruct (BY x) as (-> & _); apply Lall; auto).
        destruct (BY i) as (-> & _). change 1048576 with small_alloc. rewrite (Nat.eqb_sym d e).
        destruct (Nat.eqb e d && Bool.eqb (m_bytes (mems s1 i) <=? small_alloc) sm'); cbn [length]; lia.
    + intros e. unfold s'. rewrite conclude_used. change (used s2) with (used s1). change (held (conclude d i s2)) with (held s1).
      rewrite Sj5, Sj3. apply U.
    + intros x Hx. destruct (Lall x Hx) as (_ & _ & Q1 & Q2 & Q3). destruct (BY x) as (R1 & R2 & R3).
      unfold same_place. rewrite R1, R2, R3. auto.
    + change (held s') with (held s1). auto.
  - (* as it is *)
    set (s' := conclude d i s).
    assert (M' : forall x, mems s' x = if Nat.eqb x i then set_locked true (mems s i) else mems s x) by reflexivity.
    assert (BY : forall x, m_bytes (mems s' x) = m_bytes (mems s x) /\ m_ptr (mems s' x) = m_ptr (mems s x) /\ m_dev (mems s' x) = m_dev (mems s x)).
    { intros x. rewrite M'. destruct (Nat.eqb_spec x i) as [->|]; auto. }
    assert (Lall : forall x, In x (lids live) -> x <> i) by congruence.
    exists s', (L1 ++ (c, d, a ++ i :: q) :: L2). split; [auto|]. split; [|split; [|split]].
    + eapply (inv_replace (Some i) None s s' L1 L2 c d (a ++ i :: q) (a ++ i :: q) live); auto.
      * intros x [= <-]. auto.
      * intros x; discriminate.
      * intros x Hx. apply conclude_known. left. auto.
      * change (mems s') with (fun x => if Nat.eqb x i then set_locked true (mems s i) else mems s x).
        apply okchunk_lock; auto. exists sm. split; auto.
      * apply tot_ext. intros x _. apply BY.
      * intros x Hx Hlt. rewrite M'. destruct (Nat.eqb_spec x i) as [->|]; [contradiction|]. auto.
      * intros sm' e k x X1 X2. reflexivity.
      * intros sm' e k x X. assert (X' : In x (a ++ i :: q)) by tauto. clear X. change (caches s') with (caches s). rewrite I7.
        split.
        -- intros (A & B & C & D & F).
           assert (Xi : x <> i) by congruence.
           assert (e = d). { rewrite <- (at_dev _ _ _ _ I1 A). apply (at_dev (L1 ++ (c, d, a ++ i :: q) :: L2)); auto. exists c, (a ++ i :: q).
             split; [apply in_app_iff; right; left; auto|]. auto. }
           split; auto. split; auto. rewrite M'. rewrite (proj2 (Nat.eqb_neq x i)) by auto. repeat split; auto. discriminate.
        -- intros (-> & A & B & _ & D & F). rewrite M' in B, D. destruct (Nat.eqb_spec x i) as [->|Xi]; [discriminate|].
           split. { exists c, (a ++ i :: q). split; [apply in_app_iff; right; left; auto|]. auto. }
           repeat split; auto. congruence.
      * intros x X1 X2. cbn. split; [|auto]. intros [<-|]; auto. contradiction.
      * intros x X. cbn [lids map fst In]. fold (lids live). assert (X' : In x (a ++ i :: q)) by tauto. clear X. split.
        -- intros [<-|H].
           ++ split; auto. rewrite M', Nat.eqb_refl. auto.
           ++ assert (x <> i) by auto. apply I9 in H as (_ & H). split; auto. rewrite M', (proj2 (Nat.eqb_neq x i)); auto.
        -- intros (H1 & H2). rewrite M' in H2. destruct (Nat.eqb_spec x i) as [->|Xi]; auto. right.
           apply I9. split; auto.
      * cbn. constructor; auto.
      * intros x bb e [H|H].
        -- inversion H; subst x bb e. destruct (BY i) as (-> & _ & ->). split; [lia|auto].
        -- destruct (BY x) as (-> & _ & ->). apply (I11 x bb e H).
      * intros sm' e. unfold s'. rewrite conclude_count. rewrite I13.
        fold s'. unfold live_blocks at 2. cbn [filter fst snd]. fold (live_blocks s' sm' e live).
        rewrite (live_blocks_ext s s') by (intros x Hx; apply BY).
        destruct (BY i) as (-> & _). change 1048576 with small_alloc. rewrite (Nat.eqb_sym d e).
        destruct (Nat.eqb e d && Bool.eqb (m_bytes (mems s i) <=? small_alloc) sm'); cbn [length]; lia.
    + intros e. unfold s'. rewrite conclude_used. apply U.
    + intros x Hx. destruct (BY x) as (R1 & R2 & R3). unfold same_place. auto.
    + auto.
Qed.
