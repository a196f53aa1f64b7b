(* Writing calls: cast and the write that follows it. *)
From Coq Require Import List Arith Bool Lia.
From Verif Require Import SyncModel SyncSpec SyncProofs SyncProofs2 SyncProofs3 SyncProofs4 SyncProofs5 SyncProofs6 SyncProofs7.
Import ListNotations.

Section P8.
  Variables V F : Type.
  Variable conv : nat -> nat -> V -> V.
  Variable litval : nat -> lit F -> V.
  Hypothesis conv_same : forall k v, conv k k v = v.
  Notation nd := (nd F).
  Notation tree := (tree F).
  Notation heapT := (nat -> nat -> V).
  Notation state := (state V F).
  Notation sst := (sst V F).
  Notation root := (root V F).
  Notation heap := (heap V F).
  Notation next := (next V F).
  Notation cells := (cells V F).
  Notation wins := (wins V F).
  Notation fresh := (fresh V F).
  Notation stype := (stype V F).
  Notation HP := (HP F).
  Notation ONLY := (ONLY F).
  Notation view := (view V F litval).
  Notation PP := (PP V F conv).
  Notation Mat := (Mat V F conv litval).
  Notation Unm := (Unm V F).
  Notation RW := (RW F).
  Notation RF := (RF F).
  Notation R := (R V F conv litval).
  Notation keyat := (keyat F).
  Notation skel := (skel F).
  Notation sync_body := (sync_body V F conv litval).
  Notation sync := (sync V F conv litval).

  Notation setc := (setc V F litval).

  Notation Ready := (Ready V F conv litval).
  Notation cast := (cast V F conv litval).

  Notation Cast := (Cast V F litval).
  Notation ccells := (ccells V F conv).
  Notation settle := (settle V F litval).

  Lemma settle_wins k sp : wins (settle k sp) = wins sp /\ fresh (settle k sp) = fresh sp.
  Proof. unfold SyncSpec.settle. destruct (stype sp); auto. Qed.

  Lemma cast_root_fin k wo s s' sp m n d cs kx mx kkx b :
    RW (root s) (wins sp) -> skel (root s') = skel (root s) ->
    sync [] k wo s = Some (s', (k, [])) ->
    root s' = Node F n d cs -> m < next s' ->
    kget (k, []) (arrs F d) = Some (mkarr m 0, b) ->
    (forall c, In c cs -> alln F (HP kx mx) (koff F c) (ext kkx (koff F c) (ksize F c)) c /\ noflag F c) ->
    (cs <> [] -> head F (tdata F (root s)) = Some (k, []) -> kx = k /\ mx = m /\ kkx = (k, [])) ->
    (wo = false -> forall i v, i < ksize F (root s) ->
       rd V F conv k (settle k sp) i = Some v -> heap s' m i = v) ->
    exists s2, cast [] k wo s = Some (s2, mkarr m 0) /\
      Cast k m s2 (ccells wo k (settle k sp) (0, ksize F (root s))) (wins sp)
        (filter (fun q => negb (path_eqb q [])) (fresh sp)) (0, ksize F (root s)).
  Proof.
    intros HW Sk Es Er Hm Hg Hk Hs Hc. unfold SyncModel.cast.
    match goal with |- context [negb (is_nil []) && ?x && ?y] => change (negb (is_nil []) && x && y) with false end.
    cbn [sub]. rewrite Es, Er.
    set (same := match head F (tdata F (root s)) with Some k' => key_eqb k' (k, []) | None => false end).
    assert (W1 : RW (Node F n d cs) (wins sp)) by (rewrite <- Er; eapply rw_skel; eauto).
    assert (Hs' : cs = [] \/ (same = true -> kx = k /\ mx = m /\ kkx = (k, []))).
    { destruct cs as [|c0 cs0]; [now left|]. right. intro E. apply Hs; [discriminate|].
      unfold same in E. destruct (head F (tdata F (root s))) as [k'|]; [|discriminate].
      apply key_eqb_eq in E. now subst. }
    assert (T : exists kx mx kkx,
       (forall c, In c cs -> alln F (HP kx mx) (koff F c) (ext kkx (koff F c) (ksize F c)) c /\ noflag F c) /\
       (same = true -> kx = k /\ mx = m /\ kkx = (k, []))).
    { destruct Hs' as [Hs'|Hs']; [|now exists kx, mx, kkx]. exists k, m, (k, []). subst cs. split; auto. intros c []. }
    clear kx mx kkx Hk Hs Hs'. destruct T as (kx & mx & kkx & Hk & Hs).
    destruct W1 as (W & Wo & _). cbn in Wo.
    destruct (cast_root_tail F k m n d cs kx mx kkx same b W (fun _ => Wo) Hg Hk Hs) as (b' & T2 & T3 & T4 & T5).
    cbn zeta. cbn zeta in T2, T3, T4, T5.
    match goal with |- context [kget (k, []) ?l] =>
      replace (kget (k, []) l) with (Some (mkarr m 0, b')) by (symmetry; exact T2) end.
    eexists. split; [reflexivity|].
    match goal with |- Cast _ _ (mkst _ _ ?r _ _) _ _ _ _ => set (r4 := r) end.
    change (noflag F r4) in T4. change (alln F (ONLY k m) 0 (k, []) r4) in T5.
    change (skel r4 = skel (Node F n d cs)) in T3. clearbody r4.
    assert (Sk4 : skel r4 = skel (root s)) by (rewrite T3, <- Er; exact Sk).
    unfold SyncProofs7.Cast. cbn [SyncModel.root SyncModel.heap SyncModel.next].
    split; [eapply rw_skel; eauto|]. split; [now apply rf_noflag|]. split; [exact T5|]. split; [exact Hm|].
    split; [destruct r4; now apply noflag_inv in T4|]. split; [intros i _; now apply noflag_pendat|].
    intros i Hi. rewrite (skel_size F _ _ Sk4) in Hi. unfold SyncProofs7.ccells.
    assert (X : inwin (0, ksize F (root s)) i = true) by (apply inwin_spec; cbn; lia). rewrite X.
    destruct wo; [exact I|]. destruct (rd V F conv k (settle k sp) i) as [v|] eqn:Erd; [|exact I].
    unfold cell_ok, SyncProofs2.view. rewrite (noflag_pendat F _ _ _ T4). apply (Hc eq_refl i v Hi Erd).
  Qed.

  Lemma cast_root k wo s sp :
    R s sp -> 
    exists s' m, cast [] k wo s = Some (s', mkarr m 0) /\
      Cast k m s' (ccells wo k (settle k sp) (0, ksize F (root s))) (wins sp)
        (filter (fun q => negb (path_eqb q [])) (fresh sp)) (0, ksize F (root s)).
  Proof.
    intro HR. pose proof HR as (HW & HF & HM).
    assert (DEC : (stype sp = None /\ wo = true /\ tkids F (root s) = []) \/
                  ((stype sp = None \/ stype sp = Some k) /\
                   (wo = false \/ tkids F (root s) <> [] \/ stype sp = Some k)) \/
                  exists k0, stype sp = Some k0 /\ k0 <> k).
    { destruct (stype sp) as [k0|].
      - destruct (Nat.eq_dec k0 k) as [->|]; eauto. right. left. auto.
      - destruct wo; [|right; left; auto]. destruct (tkids F (root s)); auto.
        right. left. split; auto. right. left. discriminate. }
    destruct DEC as [(Hty & -> & Hk)|[(Hty & Hc)|(k0 & Hty & Hne)]].
    - (* no data, no children, write only *)
      rewrite Hty in HM. destruct HM as (U & U0 & HU). destruct HW as (W & Wo & Ww).
      destruct (first_created V F k s W Wo U) as (E1 & S1 & A1 & G1 & L1 & Hfl).
      set (f := fun d => set_arrs F (kput (k, []) (mkarr (next s) 0, false) (arrs F d))
                   (if is_nil (arrs F d) then set_head F (Some (k, [])) d else d)) in *.
      set (r1 := create_desc F (upd_node F [] f (root s))) in *.
      assert (Ek1 : tkids F r1 = []).
      { unfold r1. destruct (root s) as [n d cs]. cbn in *. now rewrite Hk. }
      assert (Es : sync [] k true s = Some (mkst V F r1 (heap s) (S (next s)), (k, []))).
      { unfold SyncModel.sync. cbn [sub is_nil negb andb]. unfold SyncModel.sync_body. cbn [sub desc_key].
        assert (Ea : arrs F (tdata F (root s)) = []) by (destruct (root s); now apply une_inv in U).
        rewrite Ea. cbn [kget]. cbn zeta.
        match goal with |- context [upd_node F [] ?g (root s)] =>
          change (upd_node F [] g (root s)) with (upd_node F [] f (root s)) end.
        fold r1. rewrite E1. cbn [SyncModel.root].
        assert (Hf : has_family F [] r1 = false) by (unfold has_family; now rewrite Ek1).
        rewrite Hf. reflexivity. }
      pose proof (samef_skel F _ _ S1) as Sk.
      destruct r1 as [n1 d1 cs1] eqn:Er1. cbn in Ek1. subst cs1.
      destruct (cast_root_fin k true s (mkst V F (Node F n1 d1 []) (heap s) (S (next s))) sp (next s) n1 d1 []
                  k (next s) (k, []) false) as (s2 & C1 & C2); auto.
      + split; auto.
      + intros c [].
      + discriminate.
      + eauto.
    - destruct (sync_ready V F conv litval conv_same k [] wo s sp 0 (root s) HR Hty ltac:(tauto) eq_refl)
        as (s' & E & Sk & (m & t1' & HW' & HF' & M & L & En & N & P)).
      cbn in L. injection L as <-. cbn [keyat] in E.
      destruct (root s') as [n d cs] eqn:Er.
      pose proof M as (M1 & M2 & M3 & M4). rewrite Er in M3. pose proof (alln_inv F _ _ _ _ _ _ M3) as [[(Q1 & Q2 & b & Q3) _] Qk].
      destruct (cast_root_fin k wo s s' sp m n d cs k m (k, []) b) as (s2 & C1 & C2); auto.
      + congruence.
      + intros c Hc'. split; [|now apply (proj2 (noflag_inv F _ _ _ N))].
        specialize (Qk c Hc'). now apply pp_hp in Qk.
      + intros _ i v Hi Hv. eapply mat_view; [exact M| | |].
        * rewrite Er, (skel_size F _ _ Sk). exact Hi.
        * rewrite Er. now apply noflag_pendat.
        * unfold rd in Hv. destruct Hty as [Hty|Hty].
          -- rewrite (settle_none V F litval k sp Hty) in *. cbn in *.
             destruct (SyncProofs5.setc V F litval k (cells sp) i); try discriminate.
             rewrite conv_same in Hv. congruence.
          -- rewrite (settle_some V F litval k k sp Hty) in *. rewrite Hty in Hv.
             destruct (cells sp i); try discriminate. rewrite conv_same in Hv. congruence.
      + eauto.
    - rewrite Hty in HM. destruct HM as (m0 & M).
      destruct (sync_other V F conv litval k0 m0 [] k wo s sp 0 (root s) HW HF M Hne eq_refl)
        as (s' & a & b & t1' & E & Sk & A & L' & N & Ea & E0 & Hm & X).
      cbn in L'. injection L' as <-.
      destruct (root s') as [n d cs] eqn:Er.
      assert (Eam : a = mkarr (amem a) 0) by (destruct a; cbn in *; congruence).
      pose proof (alln_inv F _ _ _ _ _ _ A) as [_ Qk].
      destruct (cast_root_fin k wo s s' sp (amem a) n d cs k0 m0 (k0, []) b) as (s2 & C1 & C2); auto.
      + congruence.
      + cbn in Ea. congruence.
      + intros c Hc'. split; [now apply Qk|]. now apply (proj2 (noflag_inv F _ _ _ N)).
      + intros _ Hh. exfalso. destruct M as (_ & _ & M3 & _). destruct (root s) as [n0 d0 cs0].
        apply alln_inv in M3 as [[(Q1 & _) _] _]. cbn in Hh. congruence.
      + intros -> i v Hi Hv. destruct (X eq_refl) as (X1 & _).
        rewrite (settle_some V F litval k k0 sp Hty) in Hv. unfold rd in Hv. rewrite Hty in Hv.
        destruct (cells sp i) as [|l|v0] eqn:Ec; try discriminate. injection Hv as <-.
        apply (X1 i v0); auto.
      + eauto.
  Qed.

  Lemma cast_child p k wo s sp w :
    p <> [] -> R s sp -> (stype sp = None \/ stype sp = Some k) -> win p (wins sp) = Some w ->
    exists s' m, cast p k wo s = Some (s', mkarr m (fst w)) /\
      Cast k m s' (ccells wo k (settle k sp) w) (wins sp)
        (filter (fun q => negb (path_eqb q p)) (fresh sp)) w.
  Proof.
    intros Hp HR Hty Hw. destruct (rw_win F _ _ _ _ (proj1 HR) Hw) as (t1 & L & En).
    unfold SyncModel.cast.
    assert (CK : negb (is_nil p) && negb (match head F (tdata F (root s)) with Some rk => key_eqb rk (k, []) | None => false end)
                 && has_head F (tdata F (root s)) = false).
    { pose proof HR as (HW & HF & HM). destruct Hty as [Hty|Hty]; rewrite Hty in HM.
      - destruct HM as (U & _). destruct (root s) as [n d cs]. apply une_inv in U as [U _]. cbn.
        unfold has_head. rewrite U. destruct (head F d); now rewrite !andb_false_r.
      - destruct HM as (m & _ & _ & M3 & _). destruct (root s) as [n d cs].
        apply alln_inv in M3 as [[(Q1 & _) _] _]. cbn [tdata]. rewrite Q1, key_eqb_refl. cbn.
        now rewrite andb_false_r. }
    rewrite CK.
    destruct (sync_ready V F conv litval conv_same k p wo s sp (fst w) t1 HR Hty ltac:(auto) L)
      as (s' & E & Sk & (m & t1' & HW' & HF' & M & L' & En' & N & P)).
    rewrite (loc_some_sub F _ _ _ _ _ L), E. pose proof M as (M1 & M2 & M3 & M4).
    set (same := match head F (tdata F t1) with Some k' => key_eqb k' (keyat p (k, []) (root s')) | None => false end).
    assert (Np : pend F (tdata F t1') = None) by (destruct t1'; now apply noflag_inv in N).
    destruct (cast_child_tail F k m p (root s') (fst w) t1' (keyat p (k, []) (root s')) same Hp (proj1 HW')
                (pp_hp V F conv _ _ _ _ _ _ _ _ M3) L' Np eq_refl) as (t2 & b & T1 & T2 & T3 & T4).
    cbn zeta in *. rewrite T1, T2. eexists _, m. split; [reflexivity|].
    match goal with |- Cast _ _ (mkst _ _ ?r _ _) _ _ _ _ => set (r4 := r) in * end.
    pose proof (samef_skel F _ _ T3) as Sk4.
    unfold SyncProofs7.Cast. cbn [SyncModel.root SyncModel.heap SyncModel.next].
    split; [eapply rw_skel; eauto|]. split.
    { apply rf_samef with (root s'); auto. eapply rf_filter; eauto. }
    split; [exact T4|]. split; [exact M1|].
    split; [now rewrite (samef_pend F _ _ T3)|].
    assert (PW : forall i, inwin w i = true -> pendat F 0 r4 i = None).
    { intros i Hi. apply inwin_spec in Hi. rewrite <- (samef_pendat F _ _ 0 i T3). apply P. lia. }
    split; [exact PW|].
    intros i Hi. rewrite (skel_size F _ _ Sk4) in Hi. specialize (M4 i Hi).
    unfold SyncProofs7.ccells. destruct (inwin w i) eqn:Ew.
    - destruct wo; [exact I|]. unfold rd.
      assert (Est : stype (settle k sp) = Some k).
      { unfold SyncSpec.settle. destruct Hty as [Hty|Hty]; rewrite Hty; auto. }
      rewrite Est. unfold cell_ok in *.
      destruct (cells (settle k sp) i) as [|l|v]; auto. rewrite conv_same.
      unfold SyncProofs2.view in *. now rewrite <- (samef_pendat F _ _ 0 i T3).
    - unfold cell_ok in *. destruct (cells (settle k sp) i); auto.
      unfold SyncProofs2.view in *. now rewrite <- (samef_pendat F _ _ 0 i T3).
  Qed.

  Lemma cast_ok p k wo s sp w :
    R s sp -> win p (wins sp) = Some w -> type_ok V F p k sp = true ->
    exists s' m, cast p k wo s = Some (s', mkarr m (fst w)) /\
      Cast k m s' (ccells wo k (settle k sp) w) (wins sp)
        (filter (fun q => negb (path_eqb q p)) (fresh sp)) w.
  Proof.
    intros HR Hw Ht. destruct p as [|n p].
    - destruct (rw_win F _ _ _ _ (proj1 HR) Hw) as (t1 & L & En). cbn in L. injection L as E1 E2.
      assert (Ew : w = (0, ksize F (root s))) by (destruct w; cbn in *; congruence).
      rewrite Ew. cbn [fst]. now apply cast_root.
    - apply cast_child; auto; [discriminate|]. unfold type_ok in Ht. cbn in Ht.
      destruct (stype sp) as [k0|]; auto. apply Nat.eqb_eq in Ht. subst. auto.
  Qed.

  Lemma cast_raise p k wo s sp w :
    R s sp -> win p (wins sp) = Some w -> type_ok V F p k sp = false -> cast p k wo s = None.
  Proof.
    intros (HW & HF & HM) Hw Ht. unfold type_ok in Ht. apply orb_false_iff in Ht as [Hp Ht].
    destruct (stype sp) as [k0|]; [|discriminate]. destruct HM as (m & M).
    unfold SyncModel.cast. destruct M as (_ & _ & M3 & _). destruct (root s) as [n d cs].
    apply alln_inv in M3 as [[Q _] _]. cbn [tdata]. rewrite (hp_has_head F _ _ _ _ _ Q).
    destruct Q as (Q1 & _). rewrite Q1. destruct p as [|x p]; [discriminate|]. cbn [is_nil negb andb].
    unfold key_eqb. cbn [fst snd offs_eqb]. rewrite Ht. reflexivity.
  Qed.

  (* The write through the pointer that cast returned. *)
  Lemma cast_write k m s' cs ws fr w (x : nat -> V) cs' :
    Cast k m s' cs ws fr w ->
    (forall i, inwin w i = false -> cs' i = cs i) ->
    (forall i, inwin w i = true -> cs' i = Unset V F \/ cs' i = Val V F (x (i - fst w))) ->
    R (mkst V F (root s') (write V (heap s') (mkarr m (fst w)) (snd w) x) (next s'))
      (mksst V F (Some k) cs' ws fr).
  Proof.
    intros (C1 & C2 & C3 & C4 & C5 & C6 & C7) H1 H2. split; [exact C1|]. split; [exact C2|]. cbn.
    exists m. split; [exact C4|]. split; [exact C5|]. split.
    - cbn. revert C3. apply alln_impl. intros. now apply only_pp.
    - cbn. intros i Hi. specialize (C7 i Hi). destruct (inwin w i) eqn:Ew.
      + specialize (H2 i Ew). specialize (C6 i Ew). destruct H2 as [-> | ->]; [exact I|].
        unfold cell_ok, SyncProofs2.view. rewrite C6, write_at, Nat.eqb_refl.
        apply inwin_spec in Ew. assert (X : inr (fst w) (snd w) i = true) by (apply inr_spec; lia).
        now rewrite X.
      + rewrite (H1 i Ew). unfold cell_ok in *. destruct (cs i); auto.
        unfold SyncProofs2.view in *. destruct (pendat F 0 (root s') i); auto. rewrite write_at.
        destruct (Nat.eqb m m && inr (fst w) (snd w) i) eqn:X; auto.
        apply andb_true_iff in X as [_ X]. apply inr_spec in X.
        assert (inwin w i = true) by (apply inwin_spec; lia). congruence.
  Qed.
End P8.
