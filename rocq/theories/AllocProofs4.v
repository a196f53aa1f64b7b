(** Returning a block. *)
From Coq Require Import List ZArith Bool Lia.
From Verif Require Import AllocModel AllocSpec AllocProofs AllocProofs2 AllocProofs3.
Import ListNotations.
Local Open Scope list_scope.
Local Open Scope Z_scope.

Section FH.
Variables (c d : nat) (sm : bool) (h : nat -> mem) (l : list nat) (i : nat).
Record FH (h2 : nat -> mem) (a b gone : list nat) : Prop := mkFH {
  f_chain : chain c d sm h2 0 None (a ++ i :: b) None;
  f_nodup : NoDup (a ++ i :: b);
  f_tot : tot h2 (a ++ i :: b) = tot h l;
  f_mem : forall x, In x l <-> In x (a ++ i :: b) \/ In x gone;
  f_gone : forall x, In x gone -> ~ In x (a ++ i :: b) /\ x <> i /\ m_locked (h x) = false /\
      m_ptr (h2 x) = None /\ m_bytes (h2 x) = m_bytes (h x);
  f_keep : forall x, In x (a ++ b) -> m_bytes (h2 x) = m_bytes (h x) /\ m_ptr (h2 x) = m_ptr (h x) /\ m_dev (h2 x) = m_dev (h x);
  f_lock : forall x, m_locked (h2 x) = if Nat.eqb x i then false else m_locked (h x);
  f_far : forall x, ~ In x l -> h2 x = h x }.
Hypothesis class : (tot h l <=? small_alloc) = sm.

Lemma FH0 a b : l = a ++ i :: b -> chain c d sm h 0 None l None -> NoDup l ->
  FH (change i (set_locked false) h) a b [].
Proof using.
  clear class. intros E C N.
  assert (Q : forall x, eqm (change i (set_locked false) h x) (h x)).
  { intros x. rewrite change_at. destruct (Nat.eqb_spec x i) as [->|]; repeat split. }
  constructor; rewrite <- ?E; auto.
  - eapply chain_ext; eauto.
  - apply tot_ext. intros x _. apply Q.
  - intros x. cbn. tauto.
  - intros x [].
  - intros x _. destruct (Q x) as (A & B & C0 & _). auto.
  - intros x. rewrite change_at. destruct (Nat.eqb_spec x i) as [->|]; auto.
  - intros x Hx. rewrite change_at. destruct (Nat.eqb_spec x i) as [->|]; auto. exfalso. apply Hx. rewrite E. apply in_app_iff. right. left. auto.
Qed.

Lemma FHn h1 a n b g : FH h1 a (n :: b) g -> m_locked (h1 n) = false -> FH (try_merge i (Some n) h1) a b (n :: g).
Proof using class.
  intros [F1 F2 F3 F4 F5 F6 F7 F8] L.
  assert (T : (tot h1 (a ++ i :: n :: b) <=? small_alloc) = sm) by (rewrite F3; auto).
  destruct (merge_next c d sm h1 a i n b 0 None F1 F2 eq_refl T L) as (C & Pn & Bn & Bi & _ & Di & Lk & Far & Near).
  set (h2 := try_merge i (Some n) h1) in *. clearbody h2.
  destruct (nodup_mid _ _ _ F2) as (N1 & N2 & N3 & N4 & N5). pose proof (proj1 (NoDup_cons_iff _ _) N4) as (N6 & N7).
  assert (Nin : n <> i) by (intros ->; apply N2; left; auto).
  assert (Nl : ~ In n (a ++ i :: b)).
  { rewrite in_app_iff. intros [X|[X|X]]; auto. apply (N5 n X). left. auto. }
  assert (Nn : In n (a ++ i :: n :: b)) by (apply in_app_iff; right; right; left; auto).
  constructor; auto.
  - apply nodup_app_iff. split; auto. split; [constructor; auto; intros X; apply N2; right; auto|].
    intros x Hx [<-|X]; auto. apply (N5 x Hx). right. auto.
  - rewrite <- F3, !tot_app. cbn [tot]. rewrite Bi.
    rewrite (tot_ext h1 h2 a), (tot_ext h1 h2 b); [lia| |]; intros x Hx; apply Near; apply in_app_iff; auto.
  - intros x. rewrite F4, !in_app_iff. cbn. tauto.
  - intros x [<-|Hx].
    + split; auto. split; auto. split; [|split; auto]. { rewrite F7 in L. rewrite (proj2 (Nat.eqb_neq n i)) in L; auto. }
      rewrite Bn. apply F6. apply in_app_iff. right. left. auto.
    + destruct (F5 x Hx) as (A1 & A2 & A3 & A4 & A5). rewrite Far by auto. split; auto.
      intros X. apply A1. rewrite in_app_iff in *. cbn in *. tauto.
  - intros x Hx. destruct (Near x Hx) as (-> & -> & ->). apply F6. rewrite in_app_iff in *. cbn. tauto.
  - intros x. rewrite Lk. auto.
  - intros x Hx. rewrite Far. { auto. } intros X. apply Hx. apply F4. auto.
Qed.

Lemma FHp h1 a p b g : FH h1 (a ++ [p]) b g -> m_locked (h1 p) = false -> FH (try_merge i (Some p) h1) a b (p :: g).
Proof using class.
  intros [F1 F2 F3 F4 F5 F6 F7 F8] L. rewrite <- !app_assoc in *. cbn [app] in *.
  assert (T : (tot h1 (a ++ p :: i :: b) <=? small_alloc) = sm) by (rewrite F3; auto).
  destruct (merge_prev c d sm h1 a p i b 0 F1 F2 T L) as (C & Pn & Bn & Bi & Di & Lk & Far & Near).
  set (h2 := try_merge i (Some p) h1) in *. clearbody h2.
  destruct (nodup_mid _ _ _ F2) as (N1 & N2 & N3 & N4 & N5). pose proof (proj1 (NoDup_cons_iff _ _) N4) as (N6 & N7).
  assert (Nin : p <> i) by (intros ->; apply N2; left; auto).
  assert (Nl : ~ In p (a ++ i :: b)).
  { rewrite in_app_iff. intros [X|[X|X]]; auto. apply N2. right. auto. }
  constructor; auto.
  - apply nodup_app_iff. split; auto.
  - rewrite <- F3, !tot_app. cbn [tot]. rewrite Bi.
    rewrite (tot_ext h1 h2 a), (tot_ext h1 h2 b); [lia| |]; intros x Hx; apply Near; apply in_app_iff; auto.
  - intros x. rewrite F4, !in_app_iff. cbn. tauto.
  - intros x [<-|Hx].
    + split; auto. split; auto. split; [|split; auto]. { rewrite F7 in L. rewrite (proj2 (Nat.eqb_neq p i)) in L; auto. }
      rewrite Bn. apply F6. apply in_app_iff. right. left. auto.
    + destruct (F5 x Hx) as (A1 & A2 & A3 & A4 & A5). rewrite Far by auto. split; auto.
      intros X. apply A1. rewrite in_app_iff in *. cbn in *. tauto.
  - intros x Hx. destruct (Near x Hx) as (-> & -> & ->). apply F6. rewrite in_app_iff in *. cbn. tauto.
  - intros x. rewrite Lk. auto.
  - intros x Hx. rewrite Far. { auto. } intros X. apply Hx. apply F4. auto.
Qed.

(** Both merges. *)
Lemma free_heap : chain c d sm h 0 None l None -> NoDup l -> In i l -> adjl h l ->
  let h0 := change i (set_locked false) h in
  let n := m_next (h0 i) in
  let h1 := try_merge i n h0 in
  let p := m_prev (h1 i) in
  let h2 := try_merge i p h1 in
  exists a b gone, FH h2 a b gone /\ adjl h2 (a ++ i :: b) /\
    (forall x, In x gone -> n = Some x \/ p = Some x) /\
    (forall x, n = Some x \/ p = Some x -> In x gone \/ In x (a ++ b)).
Proof using class.
  intros C N Ii AD h0 n h1 p h2.
  apply in_split in Ii as (a & b & E).
  pose proof (FH0 a b E C N) as F0. fold h0 in F0. rewrite E in AD.
  apply adjl_app in AD as (AD1 & (AD2 & AD3) & AD4).
  assert (En : n = hd' b None).
  { unfold n. pose proof (f_chain _ _ _ _ F0) as X. apply chain_app in X as (_ & X). cbn [chain] in X. tauto. }
  assert (S1 : exists b' g, FH h1 a b' g /\ adjl h b' /\ (forall y, hd' b' None = Some y -> m_locked (h y) = true) /\
     (forall x, In x g -> n = Some x) /\ (forall x, n = Some x -> In x g \/ In x b') /\ (forall x, In x b' -> In x b)).
  { destruct b as [|y b].
    - exists [], []. unfold h1. rewrite En. cbn [hd' try_merge]. split; auto. split; auto.
      split; [discriminate|]. split; [intros x []|]. split; [discriminate|auto].
    - destruct (m_locked (h0 y)) eqn:Ly.
      + exists (y :: b), []. assert (Eh : h1 = h0) by (unfold h1; rewrite En; cbn [hd' try_merge]; rewrite Ly; auto).
        rewrite Eh. split; auto. split; auto. split.
        * intros z [= <-]. rewrite (f_lock _ _ _ _ F0) in Ly. destruct (Nat.eqb y i); [discriminate|auto].
        * split; [intros x []|]. split; auto. intros x Hx. rewrite En in Hx. inversion Hx. right. left. auto.
      + exists b, [y]. assert (Eh : h1 = try_merge i (Some y) h0) by (unfold h1; rewrite En; auto).
        rewrite Eh. split; [apply FHn; auto|]. cbn [adjl] in AD3. destruct AD3 as (AD3 & AD5). split; auto. split.
        * intros z Hz. apply AD3 in Hz as [X|X]; auto.
          rewrite (f_lock _ _ _ _ F0) in Ly. destruct (Nat.eqb_spec y i) as [->|]; [|congruence].
          exfalso. pose proof (f_nodup _ _ _ _ F0) as Y. apply nodup_mid in Y as (_ & Y & _). apply Y. left. auto.
        * split; [intros x [<-|[]]; auto|]. split; [intros x Hx; rewrite En in Hx; inversion Hx; left; left; auto|]. intros x Hx. right. auto. }
  destruct S1 as (b' & g & F1 & AB & HB & G1 & G2 & G3).
  assert (Ep : p = last' a None).
  { unfold p. pose proof (f_chain _ _ _ _ F1) as X. apply chain_app in X as (_ & X). cbn [chain] in X. tauto. }
  assert (S2 : exists a' g', FH h2 a' b' g' /\ adjl h a' /\ (forall y, last' a' None = Some y -> m_locked (h y) = true) /\
     (forall x, In x g' -> n = Some x \/ p = Some x) /\ (forall x, n = Some x \/ p = Some x -> In x g' \/ In x (a' ++ b'))).
  { destruct (last_in a None) as [X|(a0 & y & Ea & X)].
    - exists a, g. assert (Eh : h2 = h1) by (unfold h2; rewrite Ep, X; auto). rewrite Eh. split; auto. split; auto.
      split; [congruence|]. split; [auto|]. intros x [Hx|Hx]; [|congruence]. apply G2 in Hx as [Hx|Hx]; auto. right. apply in_app_iff. auto.
    - destruct (m_locked (h1 y)) eqn:Ly.
      + exists a, g. assert (Eh : h2 = h1) by (unfold h2; rewrite Ep, X; cbn [try_merge]; rewrite Ly; auto). rewrite Eh.
        split; auto. split; auto. split.
        * intros z Hz. rewrite X in Hz. inversion Hz; subst z. rewrite (f_lock _ _ _ _ F1) in Ly. destruct (Nat.eqb y i); [discriminate|auto].
        * split; [auto|]. intros x [Hx|Hx]; [apply G2 in Hx as [Hx|Hx]; auto; right; apply in_app_iff; auto|].
          rewrite Ep, X in Hx. inversion Hx; subst x. right. rewrite Ea. rewrite !in_app_iff. left. right. left. auto.
      + exists a0, (y :: g). assert (Eh : h2 = try_merge i (Some y) h1) by (unfold h2; rewrite Ep, X; auto). rewrite Eh.
        split. { apply FHp; auto. rewrite <- Ea. auto. } rewrite Ea in AD1. apply adjl_app in AD1 as (AD1 & _ & AD5). split; auto. split.
        * intros z Hz. destruct (AD5 z y Hz eq_refl) as [W|W]; auto.
          rewrite (f_lock _ _ _ _ F1) in Ly. destruct (Nat.eqb_spec y i) as [->|]; [|congruence].
          exfalso. pose proof (f_nodup _ _ _ _ F1) as Y. apply nodup_mid in Y as (Y & _). apply Y. rewrite Ea. apply in_app_iff. right. left. auto.
        * split.
          -- intros x [<-|Hx]; auto. right. congruence.
          -- intros x [Hx|Hx].
             ++ apply G2 in Hx as [Hx|Hx]; [left; right; auto|right; apply in_app_iff; auto].
             ++ rewrite Ep, X in Hx. inversion Hx. left. left. auto. }
  destruct S2 as (a' & g' & F2 & AA & HA & G4 & G5).
  exists a', b', g'. split; auto. split; [|split; auto].
  destruct (nodup_mid _ _ _ (f_nodup _ _ _ _ F2)) as (M1 & M2 & _).
  assert (LK : forall x, x <> i -> m_locked (h2 x) = m_locked (h x)).
  { intros x Hx. rewrite (f_lock _ _ _ _ F2), (proj2 (Nat.eqb_neq x i)); auto. }
  apply adjl_app. split; [|split].
  - eapply adjl_ext; [|exact AA]. intros x Hx. apply LK. intros ->. auto.
  - cbn [adjl]. split.
    + intros y Hy. right. rewrite LK; auto. intros ->. apply M2. destruct b'; [discriminate|]. inversion Hy. left. auto.
    + eapply adjl_ext; [|exact AB]. intros x Hx. apply LK. intros ->. auto.
  - intros x y Hx Hy. left. rewrite LK; auto. intros ->. apply M1.
    destruct (last_in a' None) as [X|(a0 & z & Ea & X)]; [congruence|]. rewrite X in Hx. inversion Hx; subst. apply in_app_iff. right. left. auto.
Qed.
End FH.

Lemma in_try_erase sm d o s sm' d' x : In x (caches (try_erase sm d o s) sm' d') <->
  In x (caches s sm' d') /\ (forall y, o = Some y -> m_ptr (mems s y) = None -> ~ (sm' = sm /\ d' = d /\ x = (m_bytes (mems s y), y))).
Proof.
  unfold try_erase. destruct o as [y|].
  - destruct (m_ptr (mems s y)) eqn:E.
    + split; [|tauto]. intros H. split; auto. intros z [= <-]. congruence.
    + rewrite in_cache_erase. split; intros (A & B); split; auto.
      * intros z [= <-] _. auto.
  - split; [|tauto]. intros H. split; auto. discriminate.
Qed.
Lemma nodup_try_erase sm d o s : (forall sm d, NoDup (caches s sm d)) -> forall sm' d', NoDup (caches (try_erase sm d o s) sm' d').
Proof.
  intros N sm' d'. unfold try_erase. destruct o as [y|]; auto. destruct (m_ptr (mems s y)); auto. apply nodup_cache_erase. auto.
Qed.
Lemma try_erase_same sm d o s : let s' := try_erase sm d o s in
  mems s' = mems s /\ nmem s' = nmem s /\ nchunk s' = nchunk s /\ held s' = held s /\ used s' = used s /\ known s' = known s /\ count s' = count s.
Proof. cbv zeta. unfold try_erase. destruct o as [y|]; [destruct (m_ptr (mems s y))|]; repeat split. Qed.

Lemma nth_drop {A} (f : A -> bool) live k e : nth_error live k = Some e ->
  Z.of_nat (length (filter f live)) = Z.of_nat (length (filter f (drop k live))) + (if f e then 1 else 0).
Proof.
  revert k. induction live as [|x live IH]; intros [|k]; cbn [nth_error drop]; try discriminate.
  - intros [= ->]. cbn [filter]. destruct (f e); cbn [length]; lia.
  - intros H. apply IH in H. cbn [filter]. destruct (f x); cbn [length]; lia.
Qed.
Lemma in_drop {A} (live : list A) k x : In x (drop k live) -> In x live.
Proof.
  revert k. induction live as [|y live IH]; intros [|k]; cbn; auto. intros [H|H]; eauto.
Qed.
Lemma lids_drop live k e : NoDup (lids live) -> nth_error live k = Some e ->
  NoDup (lids (drop k live)) /\ forall x, In x (lids (drop k live)) <-> In x (lids live) /\ x <> fst (fst e).
Proof.
  revert k. induction live as [|y live IH]; intros [|k]; cbn [nth_error drop lids map]; try discriminate; intros N; fold (lids live) in *.
  - intros [= ->]. inversion N; subst. split; auto. intros x. cbn. split; [|intuition congruence].
    intros H. split; auto. intros ->. auto.
  - intros H. inversion N as [|? ? N1 N2]; subst. destruct (IH k N2 H) as (A & B). fold (lids (drop k live)). split.
    + constructor; auto. rewrite B. tauto.
    + intros x. cbn [In]. rewrite B. split; [|intuition congruence].
      intros [<-|X]; [|tauto]. split; auto. intros Q. apply N1. rewrite Q.
      apply nth_error_In in H. apply in_map_iff. eauto.
Qed.

Lemma free_ok s lay live ex k i bb dd : Inv None s lay live -> Used s ex -> nth_error live k = Some (i, bb, dd) ->
  exists lay', Inv None (free i s) lay' (drop k live) /\ Used (free i s) ex /\
    (forall x, In x (lids (drop k live)) -> same_place s (free i s) x) /\ held (free i s) = held s.
Proof.
  intros I U HN.
  pose proof I as I0. destruct I as [I1 I2 I3 I4 I5 I6 I7 I8 I9 I10 I11 I12 I13].
  pose proof (nth_error_In _ _ HN) as Hlive.
  pose proof (proj1 (I9 i) (lids_in _ _ _ _ Hlive)) as (Hall & Lk).
  apply in_all in Hall as (c & d & l & HL & Hil).
  apply in_split in HL as (L1 & L2 & ->).
  set (lay := L1 ++ (c, d, l) :: L2) in *.
  assert (HLl : In (c, d, l) lay) by (apply in_app_iff; right; left; auto).
  assert (OK : okchunk (mems s) (c, d, l)). { rewrite Forall_forall in I1. apply I1. auto. }
  destruct OK as (_ & AD & sm & CH & TT). cbn [fst snd] in *.
  assert (ND : NoDup l).
  { unfold lay in I2. rewrite all_app in I2. cbn [all flat_map snd] in I2. apply nodup_app_iff in I2 as (_ & I2 & _). apply nodup_app_iff in I2. tauto. }
  assert (Ki : (m_bytes (mems s i) <=? small_alloc) = sm /\ m_dev (mems s i) = d).
  { destruct (chain_in _ _ _ _ _ _ _ _ _ CH Hil) as (a1 & q1 & _ & X1 & _ & _ & X & _). auto. }
  destruct Ki as (Ki & Di). assert (Edd : dd = d). { destruct (I11 _ _ _ Hlive) as (_ & X). congruence. } subst dd.
  destruct (free_heap c d sm (mems s) l i TT CH ND Hil AD) as (a & b & gone & F & AD' & G1 & G2).
  unfold free. cbv zeta.
  change (mems (set_mems (change i (set_locked false) (mems s)) s)) with (change i (set_locked false) (mems s)).
  set (h0 := change i (set_locked false) (mems s)) in *.
  assert (E0 : (m_bytes (h0 i) <=? small_alloc) = sm /\ m_dev (h0 i) = d).
  { unfold h0. rewrite change_at, Nat.eqb_refl. cbn. auto. }
  destruct E0 as (-> & ->). set (n := m_next (h0 i)) in *.
  change (mems (set_mems (try_merge i n h0) (set_mems h0 s))) with (try_merge i n h0).
  set (h1 := try_merge i n h0) in *. set (p := m_prev (h1 i)) in *.
  change (set_mems (try_merge i p h1) (set_mems h1 (set_mems h0 s))) with (set_mems (try_merge i p h1) s).
  set (h2 := try_merge i p h1) in *. clearbody h2. clearbody p. clearbody h1. clearbody n. clear h1 h0.
  set (s2 := set_mems h2 s).
  pose proof (try_erase_same sm d n s2) as T1. set (s3 := try_erase sm d n s2) in *.
  pose proof (try_erase_same sm d p s3) as T2. set (s4 := try_erase sm d p s3) in *.
  cbv zeta in T1, T2.
  destruct T1 as (T11 & T12 & T13 & T14 & T15 & T16 & T17). destruct T2 as (T21 & T22 & T23 & T24 & T25 & T26 & T27).
  assert (M4 : mems s4 = h2) by (rewrite T21, T11; auto).
  assert (R4 : nmem s4 = nmem s /\ nchunk s4 = nchunk s /\ held s4 = held s /\ used s4 = used s /\ known s4 = known s /\ count s4 = count s).
  { rewrite T22, T23, T24, T25, T26, T27, T12, T13, T14, T15, T16, T17. repeat split. }
  destruct R4 as (R1 & R2 & R3 & R5 & R6 & R7).
  destruct F as [F1 F2 F3 F4 F5 F6 F7 F8].
  assert (C4 : forall sm' e k x, In (k, x) (caches s4 sm' e) <-> In (k, x) (caches s sm' e) /\ ~ In x gone).
  { intros sm' e k0 x. unfold s4. rewrite in_try_erase. unfold s3 at 1. rewrite in_try_erase. change (caches s2) with (caches s).
    rewrite T11. change (mems s2) with h2. split.
    - intros ((H & A) & B). split; auto. intros G. destruct (F5 x G) as (_ & Xi & X2 & X3 & X4).
      pose proof H as H'. apply I7 in H' as (H1 & H2 & _ & H4 & H5).
      assert (e = d). { rewrite <- (at_dev _ _ _ _ I1 H1). apply (at_dev lay); auto. exists c, l. split; auto. apply F4. auto. }
      assert (sm' = sm). { rewrite <- H5, H4. assert (Hx : In x l) by (apply F4; auto).
        destruct (chain_in _ _ _ _ _ _ _ _ _ CH Hx) as (? & ? & _ & _ & _ & _ & Z & _). auto. }
      destruct (G1 x G) as [Q|Q].
      + apply (A x Q X3). split; [assumption|]. split; [assumption|]. congruence.
      + apply (B x Q X3). split; [assumption|]. split; [assumption|]. congruence.
    - intros (H & A). split; [split|]; auto.
      + intros y Q P (_ & _ & X). inversion X; subst y. destruct (G2 x (or_introl Q)) as [Y|Y]; auto.
        assert (Z : m_ptr (h2 x) <> None).
        { assert (Y' : In x (a ++ i :: b)) by (rewrite in_app_iff in *; cbn; tauto).
          destruct (chain_in _ _ _ _ _ _ _ _ _ F1 Y') as (? & ? & _ & _ & -> & _). discriminate. }
        auto.
      + intros y Q P (_ & _ & X). inversion X; subst y. destruct (G2 x (or_intror Q)) as [Y|Y]; auto.
        assert (Z : m_ptr (h2 x) <> None).
        { assert (Y' : In x (a ++ i :: b)) by (rewrite in_app_iff in *; cbn; tauto).
          destruct (chain_in _ _ _ _ _ _ _ _ _ F1 Y') as (? & ? & _ & _ & -> & _). discriminate. }
        auto. }
  assert (N4 : forall sm d, NoDup (caches s4 sm d)). { apply nodup_try_erase, nodup_try_erase. auto. }
  set (e4 := (m_bytes (mems s4 i), i)). set (s5 := cache_put sm d e4 s4).
  set (s' := set_count sm d (count s5 sm d - 1) s5).
  assert (M' : mems s' = h2) by exact M4.
  assert (Iin : In i (a ++ i :: b)) by (apply in_app_iff; right; left; auto).
  assert (Li : m_locked (h2 i) = false) by (rewrite F7, Nat.eqb_refl; auto).
  assert (Bi2 : (m_bytes (h2 i) <=? small_alloc) = sm).
  { destruct (chain_in _ _ _ _ _ _ _ _ _ F1 Iin) as (? & ? & _ & _ & _ & _ & Z & _). auto. }
  assert (Kp : forall x, In x (lids (drop k live)) -> x <> i /\ same_place s s' x).
  { intros x Hx. apply (proj2 (lids_drop _ _ _ I10 HN)) in Hx as (Hx & Xi). cbn in Xi. split; auto.
    unfold same_place. rewrite M'. destruct (in_dec Nat.eq_dec x l) as [Y|Y]; [|rewrite F8; auto].
    apply F4 in Y as [Y|Y].
    - assert (Y' : In x (a ++ b)) by (rewrite in_app_iff in *; cbn in Y; intuition congruence). destruct (F6 x Y') as (? & ? & ?). auto.
    - destruct (F5 x Y) as (_ & _ & X & _). apply I9 in Hx as (_ & Hx). congruence. }
  assert (Lds : forall x, In x (lids (drop k live)) <-> In x (lids live) /\ x <> i).
  { intros x. apply (proj2 (lids_drop _ _ _ I10 HN)). }
  exists (L1 ++ (c, d, a ++ i :: b) :: L2). split; [|split; [|split]].
  - eapply (inv_replace None None s s' L1 L2 c d l (a ++ i :: b) live); auto.
    + discriminate.
    + discriminate.
    + change (nmem s') with (nmem s4). lia.
    + intros x Hx. change (known s') with (known s4). rewrite R6. auto.
    + rewrite M'. split; [cbn; destruct a; discriminate|]. split; auto. exists sm. cbn [fst snd]. split; auto. rewrite F3. auto.
    + rewrite M'. auto.
    + intros x Hx. left. apply F4. auto.
    + intros x Hx _. rewrite M'. auto.
    + intros sm' e k0 x X1 X2. change (caches s') with (caches s5). unfold s5. rewrite in_cache_put, C4. split.
      * intros [(H & _)|(_ & _ & H)]; auto. unfold e4 in H. injection H as _ Hx. rewrite Hx in X2. contradiction.
      * intros H. left. split; auto. intros G. apply X1. apply F4. auto.
    + intros sm' e k0 x X. change (caches s') with (caches s5). unfold s5. rewrite in_cache_put, C4, M'.
      assert (X' : In x l). { destruct X as [X|X]; auto. apply F4. auto. } clear X. split.
      * intros [(H & G)|(-> & -> & H)].
        -- apply I7 in H as (H1 & H2 & _ & H4 & H5).
           assert (e = d). { rewrite <- (at_dev _ _ _ _ I1 H1). apply (at_dev lay); auto. exists c, l. split; auto. }
           assert (Xn : In x (a ++ i :: b)) by (apply F4 in X' as [?|?]; auto; contradiction).
           assert (Xi : x <> i) by congruence. rewrite F7, (proj2 (Nat.eqb_neq x i)) by auto.
           assert (Xab : In x (a ++ b)) by (rewrite in_app_iff in *; cbn in Xn; intuition congruence).
           destruct (F6 x Xab) as (-> & _). repeat split; auto. discriminate.
        -- unfold e4 in H. inversion H; subst k0 x. rewrite M4. repeat split; auto. discriminate.
      * intros (-> & H1 & H2 & _ & H4 & H5). destruct (Nat.eq_dec x i) as [->|Xi].
        -- right. unfold e4. rewrite M4. rewrite H4, Bi2 in H5. subst sm'. repeat split. congruence.
        -- left. assert (Xab : In x (a ++ b)) by (rewrite in_app_iff in *; cbn in H1; intuition congruence).
           destruct (F6 x Xab) as (Q & _). rewrite F7, (proj2 (Nat.eqb_neq x i)) in H2 by auto. split.
           ++ apply I7. split; [exists c, l; auto|]. split; auto. split; [discriminate|]. split; [congruence|auto].
           ++ intros G. destruct (F5 x G) as (Y & _). auto.
    + intros sm' e. apply nodup_cache_put. auto.
    + intros x X1 X2. rewrite Lds. split; [tauto|]. intros H. split; auto. intros ->. auto.
    + intros x X. assert (X' : In x l). { destruct X as [X|X]; auto. apply F4. auto. } clear X. rewrite Lds, M'. split.
      * intros (H & Xi). apply I9 in H as (_ & H). rewrite F7, (proj2 (Nat.eqb_neq x i)) by auto. split; auto.
        apply F4 in X' as [?|G]; auto. destruct (F5 x G) as (_ & _ & Y & _). congruence.
      * intros (H & H2). rewrite F7 in H2. destruct (Nat.eqb_spec x i) as [->|Xi]; [discriminate|]. split; auto. apply I9. split; auto.
        apply in_all. exists c, d, l. auto.
    + apply (proj1 (lids_drop _ _ _ I10 HN)).
    + intros x b0 e H. pose proof (lids_in _ _ _ _ H) as Hx. destruct (Kp x Hx) as (_ & _ & -> & ->). apply (I11 x b0 e). eapply in_drop; eauto.
    + intros sm' e. assert (E : live_blocks s' sm' e (drop k live) = live_blocks s sm' e (drop k live)).
      { apply live_blocks_ext. intros x Hx. apply Kp. auto. }
      rewrite E. unfold s'. cbn [count set_count]. rewrite updb_at. change (count s5) with (count s4). rewrite R7.
      pose proof (I13 sm' e) as X. unfold live_blocks in X |- *. rewrite (nth_drop _ _ _ _ HN) in X. cbn [fst snd] in X.
      change 1048576 with small_alloc in X at 2. rewrite Ki in X.
      destruct (Bool.eqb sm' sm && Nat.eqb e d) eqn:Q.
      * apply sel_dec in Q as (-> & ->). rewrite Nat.eqb_refl, eqb_reflx in X. cbn [andb] in X. lia.
      * assert (Y : (Nat.eqb d e && Bool.eqb sm sm') = false).
        { rewrite (Nat.eqb_sym d e). destruct (Nat.eqb e d); auto. destruct sm, sm'; auto. }
        rewrite Y in X. lia.
  - intros e. change (used s' e) with (used s4 e). change (held s') with (held s4). rewrite R5, R3. apply U.
  - intros x Hx. apply Kp. auto.
  - change (held s') with (held s4). auto.
Qed.
