(* clear; one call; whole histories. *)
From Coq Require Import List Arith Bool Lia.
From Verif Require Import SyncModel SyncSpec SyncProofs SyncProofs2 SyncProofs3 SyncProofs4 SyncProofs5 SyncProofs6 SyncProofs7 SyncProofs8 SyncProofs9 SyncProofs10 SyncProofs11.
Import ListNotations.

Section P12.
  Variables V F : Type.
  Variable conv : nat -> nat -> V -> V.
  Variable litval : nat -> lit F -> V.
  Hypothesis conv_same : forall k v, conv k k v = v.
  Notation nd := (nd F).
  Notation tree := (tree F).
  Notation heapT := (nat -> nat -> V).
  Notation state := (state V F).
  Notation sst := (sst V F).
  Notation root := (root V F).
  Notation heap := (heap V F).
  Notation next := (next V F).
  Notation cells := (cells V F).
  Notation wins := (wins V F).
  Notation fresh := (fresh V F).
  Notation stype := (stype V F).
  Notation HP := (HP F).
  Notation ONLY := (ONLY F).
  Notation view := (view V F litval).
  Notation PP := (PP V F conv).
  Notation Mat := (Mat V F conv litval).
  Notation Unm := (Unm V F).
  Notation RW := (RW F).
  Notation RF := (RF F).
  Notation R := (R V F conv litval).
  Notation keyat := (keyat F).
  Notation skel := (skel F).
  Notation sync_body := (sync_body V F conv litval).
  Notation sync := (sync V F conv litval).

  Notation setc := (setc V F litval).

  Notation Ready := (Ready V F conv litval).
  Notation cast := (cast V F conv litval).


  Notation step := (step V F conv litval).
  Notation sstep := (sstep V F conv litval).

  Lemma win_none_sub p s sp : R s sp -> win p (wins sp) = None -> sub F p (root s) = None.
  Proof using.
    clear. intros ((_ & _ & Ww & _) & _) H. rewrite Ww in H. rewrite (loc_sub F p 0).
    now destruct (loc F p 0 (root s)).
  Qed.

  Lemma get_none p k s sp : R s sp -> win p (wins sp) = None -> get V F conv litval p k s = None.
  Proof using.
    clear -conv. intros HR Hw. pose proof (win_none_sub p s sp HR Hw) as Hs. unfold get, SyncModel.sync.
    cbn [SyncModel.root].
    destruct (sub F p (upd_node F p (set_cleared F false) (root s))) as [t|] eqn:E; auto.
    apply (sub_loc F p 0) in E as [a L].
    destruct (loc_upd_node_data F (set_cleared F false) ltac:(intro; split; reflexivity) p p 0 (root s) a t L) as (x & Lx & _).
    rewrite (loc_some_sub F _ _ _ _ _ Lx) in Hs. discriminate.
  Qed.

  Lemma clear_ok s sp : R s sp -> (forall e, In e (wins sp) -> child_of [] (fst e) = false) ->
    R (mkst V F (upd_node F [] (clear_all F) (root s)) (heap s) (next s))
      (mksst V F None (fun _ => Unset V F) (wins sp) (fresh sp)).
  Proof using.
    clear. intros (HW & HF & HM) Hc. pose proof HW as (W & Wo & Ww & Wd).
    destruct (root s) as [n d cs] eqn:Er.
    assert (Ek : cs = []).
    { destruct cs as [|c cs]; auto. exfalso.
      destruct (wf_inv F _ _ _ _ W) as (Wn & _).
      assert (X : win [tname F c] (wins sp) = Some (0 + koff F c, ksize F c)).
      { rewrite Ww. cbn [loc tkids]. rewrite (find_self F (c :: cs) c Wn) by now left. reflexivity. }
      specialize (Hc _ (win_in _ _ _ X)). discriminate. }
    subst cs. cbn [upd_node upd].
    split; [|split]; cbn [SyncModel.root SyncModel.heap SyncModel.next SyncSpec.wins SyncSpec.fresh SyncSpec.cells SyncSpec.stype].
    - split; [|split; [exact Wo|split; [|exact Wd]]].
      + apply wf_intro; try constructor; try reflexivity; intros c H; destruct H.
      + intro p. rewrite Ww. destruct p; reflexivity.
    - intros p o t Hp L. destruct p; [congruence|]. cbn in L. discriminate.
    - split; [|split]; cbn.
      + constructor; [reflexivity|intros c H; destruct H].
      + discriminate.
      + auto.
  Qed.

  Lemma inwin_range p w s' ws i : RW (root s') ws -> win p ws = Some w -> inwin w i = true -> i < ksize F (root s').
  Proof using.
    clear. intros HW Hw Hi. destruct (rw_win F _ _ _ _ HW Hw) as (t & L & En).
    pose proof (loc_range F _ _ _ _ _ (proj1 HW) L) as [_ X]. apply inwin_spec in Hi. lia.
  Qed.

  Definition step_spec (s : state) (sp : sst) (o : op V F) : Prop :=
    match step s o with
    | Some (s', r) => agrees V (Some r) (snd (sstep sp o)) /\ R s' (fst (sstep sp o))
    | None => agrees V None (snd (sstep sp o)) /\ fst (sstep sp o) = sp
    end.

  Lemma step_ok s sp o : R s sp -> careful V F sp o -> step_spec s sp o.
  Proof.
    intros HR Hc. unfold step_spec.
    destruct o as [p k|p k x|p k f|p|p v|p|p nm n o|p nm].
    - cbn [SyncModel.step SyncSpec.sstep]. destruct (win p (wins sp)) as [w|] eqn:Hw.
      + destruct (get_ok V F conv litval conv_same p k s sp w HR Hw) as (s' & g & E & HR' & Hg).
        rewrite E. cbn [fst snd agrees]. auto.
      + rewrite (get_none p k s sp HR Hw). cbn. auto.
    - cbn [SyncModel.step SyncSpec.sstep]. destruct (win p (wins sp)) as [w|] eqn:Hw.
      + destruct (rw_win F _ _ _ _ (proj1 HR) Hw) as (t & L & En).
        rewrite (loc_some_sub F _ _ _ _ _ L). change (size F (tdata F t)) with (ksize F t). rewrite En.
        destruct (type_ok V F p k sp) eqn:Et.
        * destruct (cast_ok V F conv litval conv_same p k true s sp w HR Hw Et) as (s' & m & E & C).
          rewrite E. cbn [fst snd agrees]. split; auto.
          replace (wins (touch V F p (settle V F litval k sp))) with (wins sp)
            by (unfold touch, settle; now destruct (stype sp)).
          replace (fresh (touch V F p (settle V F litval k sp)))
            with (filter (fun q => negb (path_eqb q p)) (fresh sp))
            by (unfold touch, settle; now destruct (stype sp)).
          eapply cast_write; [exact C| |].
          -- intros i Hi. unfold ccells. rewrite Hi. reflexivity.
          -- intros i Hi. rewrite Hi. now right.
        * rewrite (cast_raise V F conv litval p k true s sp w HR Hw Et). cbn. auto.
      + rewrite (win_none_sub p s sp HR Hw). destruct (cast p k true s) as [[? ?]|]; cbn; auto.
    - cbn [SyncModel.step SyncSpec.sstep]. destruct (win p (wins sp)) as [w|] eqn:Hw.
      + destruct (rw_win F _ _ _ _ (proj1 HR) Hw) as (t & L & En).
        rewrite (loc_some_sub F _ _ _ _ _ L). change (size F (tdata F t)) with (ksize F t). rewrite En.
        destruct (type_ok V F p k sp) eqn:Et.
        * destruct (cast_ok V F conv litval conv_same p k false s sp w HR Hw Et) as (s' & m & E & C).
          rewrite E. cbn [fst snd agrees]. split; auto.
          replace (wins (touch V F p (settle V F litval k sp))) with (wins sp)
            by (unfold touch, settle; now destruct (stype sp)).
          replace (fresh (touch V F p (settle V F litval k sp)))
            with (filter (fun q => negb (path_eqb q p)) (fresh sp))
            by (unfold touch, settle; now destruct (stype sp)).
          eapply cast_write; [exact C| |].
          -- intros i Hi. unfold ccells. rewrite Hi. reflexivity.
          -- intros i Hi. rewrite Hi.
             destruct C as (C1 & _ & _ & _ & _ & C6 & C7).
             specialize (C7 i (inwin_range p w s' (wins sp) i C1 Hw Hi)). specialize (C6 i Hi).
             unfold ccells in C7. rewrite Hi in C7.
             change (rd V F conv k (touch V F p (settle V F litval k sp)) i) with (rd V F conv k (settle V F litval k sp) i).
             destruct (rd V F conv k (settle V F litval k sp) i) as [v|]; [|now left]. right.
             cbn in C7. unfold SyncProofs2.view in C7. rewrite C6 in C7. unfold read. cbn [amem aoff].
             apply inwin_spec in Hi. replace (fst w + (i - fst w)) with i by lia. now rewrite C7.
        * rewrite (cast_raise V F conv litval p k false s sp w HR Hw Et). cbn. auto.
      + rewrite (win_none_sub p s sp HR Hw). destruct (cast p k false s) as [[? ?]|]; cbn; auto.
    - cbn [SyncModel.step SyncSpec.sstep]. destruct (win p (wins sp)) as [w|] eqn:Hw.
      + destruct (rw_win F _ _ _ _ (proj1 HR) Hw) as (t & L & En).
        rewrite (loc_some_sub F _ _ _ _ _ L). cbn [fst snd agrees]. split; auto.
        exact (put_ok V F conv litval p Zero s sp w HR Hw).
      + rewrite (win_none_sub p s sp HR Hw). cbn. auto.
    - cbn [SyncModel.step SyncSpec.sstep]. destruct (win p (wins sp)) as [w|] eqn:Hw.
      + destruct (rw_win F _ _ _ _ (proj1 HR) Hw) as (t & L & En).
        rewrite (loc_some_sub F _ _ _ _ _ L). cbn [fst snd agrees]. split; auto.
        exact (put_ok V F conv litval p (Fill v) s sp w HR Hw).
      + rewrite (win_none_sub p s sp HR Hw). cbn. auto.
    - cbn [SyncModel.step SyncSpec.sstep]. destruct p as [|n p].
      + cbn [fst snd agrees]. split; auto. apply clear_ok; auto.
      + cbn. auto.
    - destruct (win p (wins sp)) as [w|] eqn:Hw.
      + pose proof (narrow_ok V F conv litval p nm n o s sp w HR Hw Hc) as X.
        destruct (sstep sp (Narrow V F p nm n o)) as [sp' out].
        destruct (step s (Narrow V F p nm n o)) as [[s' r]|].
        * destruct X as (-> & -> & X). cbn. auto.
        * destruct X as (-> & ->). cbn. auto.
      + cbn [SyncModel.step SyncSpec.sstep]. rewrite Hw. unfold narrow. rewrite (win_none_sub p s sp HR Hw). cbn. auto.
    - pose proof (drop_ok V F conv litval p nm s sp HR Hc) as X.
      destruct (sstep sp (Drop V F p nm)) as [sp' out].
      destruct (step s (Drop V F p nm)) as [[s' r]|].
      + destruct X as (-> & -> & X). cbn. auto.
      + destruct X as (-> & ->). cbn. auto.
  Qed.

  Lemma init_R n junk : R (init V F n junk) (sinit V F n).
  Proof using.
    clear. split; [|split]; cbn.
    - split; [apply wf_intro; try constructor; try reflexivity; intros c H; destruct H|].
      split; [reflexivity|]. split; [|repeat constructor; intros []].
      intro p. destruct p; reflexivity.
    - intros p o t Hp L. destruct p; [congruence|]. cbn in L. discriminate.
    - split; [|split]; cbn.
      + constructor; [reflexivity|intros c H; destruct H].
      + reflexivity.
      + intros i Hi. unfold ksize in Hi. cbn in Hi.
        assert (X : inr 0 n i = true).
        { unfold inr. apply andb_true_iff. split; [reflexivity|]. now apply Nat.ltb_lt. }
        change (pendat F 0 (Node F 0 (new_root F n) []) i = Some Zero). cbn [pendat].
        change (size F (new_root F n)) with n. rewrite X. reflexivity.
  Qed.

  Theorem run_ok l : forall s sp, R s sp -> careful_run V F conv litval sp l ->
    Forall2 (agrees V) (run V F conv litval s l) (srun V F conv litval sp l) /\
    R (final V F conv litval s l) (sfinal V F conv litval sp l).
  Proof.
    induction l as [|o l IH]; intros s sp HR Hc; cbn [run srun final sfinal].
    - split; [constructor|auto].
    - destruct Hc as [Hc Hl]. pose proof (step_ok s sp o HR Hc) as X. unfold step_spec in X.
      destruct (sstep sp o) as [sp' out] eqn:E. cbn [fst snd] in *.
      destruct (step s o) as [[s' r]|]; destruct X as [A B].
      + destruct (IH s' sp' B Hl). split; [constructor; auto|auto].
      + subst sp'. destruct (IH s sp HR Hl). split; [constructor; auto|auto].
  Qed.
End P12.
