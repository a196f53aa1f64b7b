(* Reading calls: sync at a child and get. *)
From Coq Require Import List Arith Bool Lia.
From Verif Require Import SyncModel SyncSpec SyncProofs SyncProofs2 SyncProofs3 SyncProofs4 SyncProofs5.
Import ListNotations.

Section P6.
  Variables V F : Type.
  Variable conv : nat -> nat -> V -> V.
  Variable litval : nat -> lit F -> V.
  Hypothesis conv_same : forall k v, conv k k v = v.
  Notation nd := (nd F).
  Notation tree := (tree F).
  Notation heapT := (nat -> nat -> V).
  Notation state := (state V F).
  Notation sst := (sst V F).
  Notation root := (root V F).
  Notation heap := (heap V F).
  Notation next := (next V F).
  Notation cells := (cells V F).
  Notation wins := (wins V F).
  Notation fresh := (fresh V F).
  Notation stype := (stype V F).
  Notation HP := (HP F).
  Notation ONLY := (ONLY F).
  Notation view := (view V F litval).
  Notation PP := (PP V F conv).
  Notation Mat := (Mat V F conv litval).
  Notation Unm := (Unm V F).
  Notation RW := (RW F).
  Notation RF := (RF F).
  Notation R := (R V F conv litval).
  Notation keyat := (keyat F).
  Notation skel := (skel F).
  Notation sync_body := (sync_body V F conv litval).
  Notation sync := (sync V F conv litval).

  Notation setc := (setc V F litval).

  Lemma settle_some k k0 sp : stype sp = Some k0 -> settle V F litval k sp = sp.
  Proof. intro E. unfold settle. now rewrite E. Qed.

  Lemma settle_none k sp : stype sp = None ->
    settle V F litval k sp = mksst V F (Some k) (setc k (cells sp)) (wins sp) (fresh sp).
  Proof. intro E. unfold settle. now rewrite E. Qed.

  (* The array is prepared at p for an access with the type it has. *)
  Definition Ready (k : nat) (p : list nat) (s' : state) (cs : nat -> cell V F)
      (ws : list (list nat * (nat * nat))) (fr : list (list nat)) (o1 n1 : nat) : Prop :=
    exists m t1',
      RW (root s') ws /\ RF (root s') fr /\ Mat k m s' cs /\
      loc F p 0 (root s') = Some (o1, t1') /\ ksize F t1' = n1 /\ noflag F t1' /\
      forall i, o1 <= i < o1 + n1 -> pendat F 0 (root s') i = None.

  (* sync when the array has no type yet, or has the one asked for. *)
  Lemma sync_ready k p wo s sp o1 t1 :
    R s sp -> (stype sp = None \/ stype sp = Some k) ->
    (p <> [] \/ wo = false \/ tkids F (root s) <> [] \/ stype sp = Some k) ->
    loc F p 0 (root s) = Some (o1, t1) ->
    exists s', sync p k wo s = Some (s', keyat p (k, []) (root s')) /\
      skel (root s') = skel (root s) /\
      Ready k p s' (cells (settle V F litval k sp)) (wins sp) (fresh sp) o1 (ksize F t1).
  Proof.
    intros (HW & HF & HM) Hty Hc L. unfold SyncModel.sync. rewrite (loc_some_sub F _ _ _ _ _ L).
    destruct Hty as [Hty|Hty]; rewrite Hty in HM.
    - rewrite (settle_none k sp Hty). cbn [SyncSpec.cells].
      pose proof HM as (U & U0 & HU).
      pose proof (une_loc F p (root s) 0 o1 t1 U L) as U1.
      assert (Hh : has_head F (tdata F t1) = false).
      { destruct t1 as [n d cs]. apply une_inv in U1 as [U1 _]. unfold has_head. cbn. rewrite U1. now destruct (head F d). }
      rewrite Hh.
      assert (Hk : wo = false \/ tkids F (root s) <> []).
      { destruct Hc as [Hp|[Hw|[Hk|Hk]]]; auto; [|congruence]. right. destruct p as [|n p]; [congruence|].
        cbn in L. intro E. rewrite E in L. discriminate. }
      destruct (first_sync V F conv litval k wo s sp HW HM Hk) as (s1 & E1 & Sk & NF & M & En).
      assert (HW1 : RW (root s1) (wins sp)) by (eapply rw_skel; eauto).
      assert (HF1 : RF (root s1) (fresh sp)) by (now apply rf_noflag).
      destruct (loc_skel_some F p 0 (root s) (root s1) o1 t1 (eq_sym Sk) L) as (t1a & L1 & Sk1).
      destruct p as [|n p].
      + cbn [is_nil negb andb]. exists s1. split; [exact E1|]. split; [exact Sk|].
        exists (next s), (root s1). split; auto. split; auto. split; auto.
        cbn in L, L1. injection L as <- <-. split; auto. split; [now apply skel_size|]. split; auto.
        intros i _. now apply noflag_pendat.
      + cbn [is_nil negb andb]. rewrite E1.
        destruct (sync_same V F conv litval conv_same k (next s) (n :: p) wo s1
                    (mksst V F (Some k) (setc k (cells sp)) (wins sp) (fresh sp)) o1 t1a
                    (keyat (n :: p) (k, []) (root s1)) HW1 HF1 M L1 eq_refl)
          as (s2 & E2 & HW2 & HF2 & M2 & Sk2 & _ & (t2 & L2 & N2) & P2 & _).
        exists s2. split. { rewrite E2. do 2 f_equal. now apply keyat_skel. }
        split; [congruence|]. exists (next s), t2. split; auto. split; auto. split; auto. split; auto.
        split. { destruct (loc_skel_some F (n :: p) 0 (root s2) (root s1) o1 t2 Sk2 L2) as (y & Ly & Sy).
                 rewrite L1 in Ly. injection Ly as <-. rewrite (skel_size F _ _ Sy). now apply skel_size. }
        split; auto. intros i Hi. apply P2. now rewrite <- (skel_size F _ _ Sk1).
    - rewrite (settle_some k k sp Hty). destruct HM as (m & M).
      destruct (mat_at V F conv litval k m s (cells sp) p o1 t1 (proj1 HW) M L) as (kk & _ & _ & Hh & _).
      rewrite Hh, andb_false_r.
      destruct (sync_same V F conv litval conv_same k m p wo s sp o1 t1 (keyat p (k, []) (root s)) HW HF M L eq_refl)
        as (s2 & E2 & HW2 & HF2 & M2 & Sk2 & _ & (t2 & L2 & N2) & P2 & _).
      exists s2. split. { rewrite E2. do 2 f_equal. now apply keyat_skel. }
      split; [exact Sk2|]. exists m, t2. split; auto. split; auto. split; auto. split; auto.
      split. { destruct (loc_skel_some F p 0 (root s2) (root s) o1 t2 Sk2 L2) as (y & Ly & Sy).
               rewrite L in Ly. injection Ly as <-. now apply skel_size. }
      split; auto.
  Qed.

  (* What get does after sync, for the type the array has. *)
  Lemma ready_put k p s' cs ws fr o1 n1 :
    Ready k p s' cs ws fr o1 n1 ->
    exists a b t1', sub F p (root s') = Some t1' /\
      kget (keyat p (k, []) (root s')) (arrs F (tdata F t1')) = Some (a, b) /\
      R (mkst V F (upd_node F p (fun d => set_arrs F (kput (keyat p (k, []) (root s')) (a, true) (arrs F d)) d) (root s'))
           (heap s') (next s'))
        (mksst V F (Some k) cs ws (filter (fun q => negb (path_eqb q p)) fr)) /\
      forall j v, j < n1 -> cs (o1 + j) = Val V F v -> read V (heap s') a j = v.
  Proof.
    intros (m & t1' & HW & HF & M & L & En & N & P).
    destruct (mat_at V F conv litval k m s' cs p o1 t1' (proj1 HW) M L) as (kk & HPP & _ & _ & Ek).
    pose proof HPP as [(Q1 & Q2 & b & Q3) QC]. rewrite <- Ek.
    exists (mkarr m o1), b, t1'. split; [eapply loc_some_sub; eauto|]. split; [exact Q3|]. split.
    - set (f := fun d => set_arrs F (kput kk (mkarr m o1, true) (arrs F d)) d).
      assert (Kf : keeps F f) by (intro; split; reflexivity).
      assert (Sf : samef F (root s') (upd_node F p f (root s'))) by (apply samef_upd_node; [exact Kf | intro; reflexivity]).
      split; [|split]; cbn.
      + exact (rw_skel F _ _ _ (samef_skel F _ _ Sf) HW).
      + apply rf_samef with (root s'); auto. eapply rf_filter; eauto. destruct t1'. now apply noflag_inv in N.
      + exists m. apply (mat_samef V F conv litval k m s' cs); auto.
        pose proof M as (_ & _ & M3 & _).
        refine (alln_at F _ f p 0 (k, []) (root s') o1 t1' Kf (proj1 HW) M3 L _).
        rewrite <- Ek. unfold f. split.
        * split; [exact Q1|]. split; [exact Q2|]. exists true. cbn. apply kget_kput.
        * intros k2 a2 b2 Hg Hn2. cbn in Hg |- *. rewrite kget_kput_other in Hg by exact Hn2. apply (QC _ _ _ Hg Hn2).
    - intros j v Hj Hv. unfold read. cbn. eapply mat_view; eauto; [|apply P; lia].
      pose proof (loc_range F _ _ _ _ _ (proj1 HW) L). lia.
  Qed.

  Lemma set_cleared_inert b : inert F (set_cleared F b).
  Proof. split; [intro; split; reflexivity|]. split; [intro; reflexivity|]. intro d. auto. Qed.

  Lemma get_ok p k s sp w :
    R s sp -> win p (wins sp) = Some w ->
    exists s' g, get V F conv litval p k s = Some (s', g) /\
      R s' (touch V F p (settle V F litval k sp)) /\
      forall j v, j < snd w -> rd V F conv k (touch V F p (settle V F litval k sp)) (fst w + j) = Some v -> g j = v.
  Proof.
    intros HR0 Hw. pose proof (inert_R V F conv litval p _ s sp (set_cleared_inert false) HR0) as HR.
    unfold get. set (s0 := mkst V F (upd_node F p (set_cleared F false) (root s)) (heap s) (next s)) in *.
    clearbody s0. clear HR0 s. destruct (rw_win F _ _ _ _ (proj1 HR) Hw) as (t1 & L & En).
    assert (DEC : (stype sp = None \/ stype sp = Some k) \/ exists k0, stype sp = Some k0 /\ k0 <> k).
    { destruct (stype sp) as [k0|]; auto. destruct (Nat.eq_dec k0 k) as [->|]; auto. right. eauto. }
    destruct DEC as [Hty|(k0 & Hty & Hne)].
    - destruct (sync_ready k p false s0 sp (fst w) t1 HR Hty ltac:(auto) L) as (s' & E & Sk & Rd).
      rewrite E. destruct (ready_put _ _ _ _ _ _ _ _ Rd) as (a & b & t1' & Es & Ea & HR' & Hrd).
      rewrite Es, Ea. eexists _, _. split; [reflexivity|].
      assert (Et : touch V F p (settle V F litval k sp) =
        mksst V F (Some k) (cells (settle V F litval k sp)) (wins sp)
          (filter (fun q => negb (path_eqb q p)) (fresh sp))).
      { unfold touch, settle. destruct Hty as [Hty|Hty]; rewrite Hty; [reflexivity|]. now rewrite Hty. }
      rewrite Et. split; [exact HR'|]. intros j v Hj Hv. rewrite En in Hrd. cbn in Hv.
      unfold rd in Hv. cbn in Hv.
      destruct (cells (settle V F litval k sp) (fst w + j)) as [|l|v0] eqn:Ec; try discriminate.
      rewrite conv_same in Hv. injection Hv as ->. apply Hrd; auto.
    - destruct HR as (HW & HF & HM). rewrite Hty in HM. destruct HM as (m & M).
      destruct (mat_at V F conv litval k0 m s0 (cells sp) p (fst w) t1 (proj1 HW) M L) as (kk & _ & _ & Hh & _).
      unfold SyncModel.sync. rewrite (loc_some_sub F _ _ _ _ _ L), Hh, andb_false_r.
      destruct (sync_other V F conv litval k0 m p k false s0 sp (fst w) t1 HW HF M Hne L)
        as (s' & a & b & t1' & E & Sk & A & L' & N & Ea & E0 & Hm & X).
      destruct (X eq_refl) as (X1 & X2 & X3). clear X.
      rewrite E, (loc_some_sub F _ _ _ _ _ L'), Ea. eexists _, _. split; [reflexivity|].
      assert (Et : touch V F p (settle V F litval k sp) =
        mksst V F (Some k0) (cells sp) (wins sp) (filter (fun q => negb (path_eqb q p)) (fresh sp))).
      { unfold touch. now rewrite (settle_some k k0 sp Hty), Hty. }
      rewrite Et. split.
      + set (f := fun d => set_arrs F (kput (k, []) (a, true) (arrs F d)) d) in *.
        assert (Kf : keeps F f) by (intro; split; reflexivity).
        assert (Sf : samef F (root s') (upd_node F p f (root s'))) by (apply samef_upd_node; [exact Kf | intro; reflexivity]).
        split; [|split]; cbn.
        * eapply rw_skel; [|exact HW]. rewrite <- Sk. exact (samef_skel F _ _ Sf).
        * apply rf_samef with (root s'); auto. eapply rf_filter; eauto. destruct t1'. now apply noflag_inv in N.
        * exists m. exact X3.
      + intros j v Hj Hv. unfold rd in Hv. cbn in Hv.
        destruct (cells sp (fst w + j)) as [|l|v0] eqn:Ec; try discriminate. injection Hv as <-.
        unfold read. rewrite E0. apply X1; auto. now rewrite En.
  Qed.
End P6.
