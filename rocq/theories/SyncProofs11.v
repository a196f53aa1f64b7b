(* clear, narrow and drop refine the specification; whole histories. *)
From Coq Require Import List Arith Bool Lia.
From Verif Require Import SyncModel SyncSpec SyncProofs SyncProofs2 SyncProofs3 SyncProofs4 SyncProofs5 SyncProofs6 SyncProofs7 SyncProofs8 SyncProofs9 SyncProofs10.
Import ListNotations.

Section P11.
  Variables V F : Type.
  Variable conv : nat -> nat -> V -> V.
  Variable litval : nat -> lit F -> V.
  Hypothesis conv_same : forall k v, conv k k v = v.
  Notation nd := (nd F).
  Notation tree := (tree F).
  Notation heapT := (nat -> nat -> V).
  Notation state := (state V F).
  Notation sst := (sst V F).
  Notation root := (root V F).
  Notation heap := (heap V F).
  Notation next := (next V F).
  Notation cells := (cells V F).
  Notation wins := (wins V F).
  Notation fresh := (fresh V F).
  Notation stype := (stype V F).
  Notation HP := (HP F).
  Notation ONLY := (ONLY F).
  Notation view := (view V F litval).
  Notation PP := (PP V F conv).
  Notation Mat := (Mat V F conv litval).
  Notation Unm := (Unm V F).
  Notation RW := (RW F).
  Notation RF := (RF F).
  Notation R := (R V F conv litval).
  Notation keyat := (keyat F).
  Notation skel := (skel F).
  Notation sync_body := (sync_body V F conv litval).
  Notation sync := (sync V F conv litval).

  Notation setc := (setc V F litval).

  Notation Ready := (Ready V F conv litval).
  Notation cast := (cast V F conv litval).


  Notation step := (step V F conv litval).
  Notation sstep := (sstep V F conv litval).

  Lemma existsb_find n (cs : list tree) :
    existsb (named F n) cs = match find (named F n) cs with Some _ => true | None => false end.
  Proof using. clear. induction cs as [|c cs IH]; cbn; auto. now destruct (named F n c). Qed.

  Lemma short_off p r o1 x d cs :
    length p <= 1 -> offset F (tdata F r) = 0 -> loc F p 0 r = Some (o1, Node F x d cs) -> offset F d = o1.
  Proof using.
    clear. intros Hp Ho L. destruct p as [|n [|n' p]]; [| |cbn in Hp; lia]; cbn in L.
    - injection L as <- ->. exact Ho.
    - destruct (find (named F n) (tkids F r)) as [c|]; [|discriminate]. injection L as <- ->. reflexivity.
  Qed.

  Lemma loc_child p n r o1 t1 : loc F p 0 r = Some (o1, t1) ->
    loc F (p ++ [n]) 0 r = match find (named F n) (tkids F t1) with Some c => Some (o1 + koff F c, c) | None => None end.
  Proof using.
    clear. intro L. rewrite loc_app, L. cbn. now destruct (find (named F n) (tkids F t1)).
  Qed.

  Lemma narrow_cond p r ws w t1 nm n o :
    RW r ws -> win p ws = Some w -> loc F p 0 r = Some (fst w, t1) -> ksize F t1 = snd w ->
    let m1 := Nat.leb (o + n) (size F (tdata F t1)) in
    let m2 := existsb (named F nm) (tkids F t1) in
    let m3 := forallb (fun c => Nat.leb (offset F (tdata F c) + size F (tdata F c)) o
                 || Nat.leb (o + n) (offset F (tdata F c))) (tkids F t1) in
    (Nat.leb (o + n) (snd w)
       && match win (p ++ [nm]) ws with None => true | Some _ => false end
       && forallb (fun e => negb (child_of p (fst e))
                            || Nat.leb (fst (snd e) + snd (snd e)) (fst w + o)
                            || Nat.leb (fst w + o + n) (fst (snd e))) ws)
    = m1 && negb m2 && m3.
  Proof using.
    clear. intros (W & Wo & Ww & Wd) Hw L En m1 m2 m3. f_equal; [f_equal|].
    - unfold m1, ksize in *. now rewrite En.
    - unfold m2. rewrite Ww, (loc_child p nm r _ _ L), existsb_find.
      now destruct (find (named F nm) (tkids F t1)).
    - apply eq_iff_eq_true. unfold m3. rewrite !forallb_forall. split; intros H.
      + intros c Hc. pose proof (loc_wf F _ _ _ _ _ W L) as W1. destruct t1 as [x d cs].
        destruct (wf_inv F _ _ _ _ W1) as (Wn & _). cbn [tkids] in *.
        pose proof (find_self F cs c Wn Hc) as Ef.
        assert (X : win (p ++ [tname F c]) ws = Some (fst w + koff F c, ksize F c)).
        { rewrite Ww, (loc_child p _ r _ _ L). cbn [tkids]. rewrite Ef. reflexivity. }
        specialize (H _ (win_in _ _ _ X)). cbn [fst snd] in H.
        assert (Y : child_of p (p ++ [tname F c]) = true) by (apply child_of_spec; eauto).
        rewrite Y in H. cbn [negb orb] in H. apply orb_true_iff in H. unfold koff, ksize in H.
        apply orb_true_iff. rewrite !Nat.leb_le in *. lia.
      + intros [q w'] He. cbn [fst snd]. destruct (child_of p q) eqn:Ec; [|reflexivity].
        apply child_of_spec in Ec as [m ->]. pose proof (in_win _ _ _ Wd He) as X.
        rewrite Ww, (loc_child p _ r _ _ L) in X.
        destruct (find (named F m) (tkids F t1)) as [c|] eqn:Ef; [|discriminate]. cbn in X. injection X as <-.
        apply find_named in Ef as [Hc _]. specialize (H c Hc). cbn [negb orb fst snd].
        apply orb_true_iff in H. apply orb_true_iff. unfold winof, koff, ksize. cbn [fst snd].
        rewrite !Nat.leb_le in *. lia.
  Qed.

  Lemma narrow_ok p nm n o s sp w :
    R s sp -> win p (wins sp) = Some w -> length p <= 1 ->
    let (sp', out) := sstep sp (Narrow V F p nm n o) in
    match step s (Narrow V F p nm n o) with
    | Some (s', r) => r = None /\ out = SDone V /\ R s' sp'
    | None => out = SRaise V /\ sp' = sp
    end.
  Proof.
    intros (HW & HF & HM) Hw Hp. destruct (rw_win F _ _ _ _ HW Hw) as (t1 & L & En).
    cbn [SyncSpec.sstep SyncModel.step]. rewrite Hw. cbn [fst snd].
    pose proof (narrow_cond p (root s) (wins sp) w t1 nm n o HW Hw L En) as C. cbn zeta in C. rewrite C.
    unfold narrow. rewrite (loc_some_sub F _ _ _ _ _ L). destruct t1 as [x d cs]. cbn [tdata tkids] in *.
    destruct (Nat.leb (o + n) (size F d)) eqn:C1; cbn [negb andb]; [|auto].
    destruct (existsb (named F nm) cs) eqn:C2; cbn [negb andb]; [auto|].
    destruct (forallb _ cs) eqn:C3; [|auto]. split; auto. split; auto. clear C.
    pose proof HW as (W & Wo & Ww & Wd).
    assert (Od : offset F d = fst w) by (eapply short_off; eauto).
    set (cd := if has_head F d then from_parent F d (new_child F n o) else new_child F n o).
    set (k := Node F nm cd []).
    change (fun t => match t with Node _ m d0 cs0 => Node F m d0 (cs0 ++ [k]) end) with (addk F k).
    assert (Kc : size F cd = n /\ offset F cd = o /\ pend F cd = None).
    { unfold cd. destruct (has_head F d); [|auto]. destruct (from_parent_keeps F d (new_child F n o)) as [X1 X2].
      rewrite X1, X2. split; auto. split; auto. unfold from_parent.
      destruct (head F d); auto. now destruct (head_arr F d) as [[? ?]|]. }
    destruct Kc as (Kn & Ko & Kp).
    assert (Nk : noflag F k) by (constructor; auto; intros c []).
    assert (Ef : find (named F nm) cs = None).
    { rewrite existsb_find in C2. now destruct (find (named F nm) cs). }
    pose proof (add_loc F p nm k (fst w) (Node F x d cs) (root s) L eq_refl eq_refl Ef) as AL.
    pose proof (loc_wf F _ _ _ _ _ W L) as W1. destruct (wf_inv F _ _ _ _ W1) as (Vn & _ & Vr & Vd & Vk).
    apply Nat.leb_le in C1.
    assert (W1' : wf F (fst w) (addk F k (Node F x d cs))).
    { cbn [addk]. apply wf_intro.
      - rewrite map_app. cbn [map]. apply NoDup_Add with (l := map (tname F) cs) (a := nm); [|split; auto].
        + pose proof (Add_app nm (map (tname F) cs) []) as X. rewrite app_nil_r in X. exact X.
        + intro Hi. apply in_map_iff in Hi as (c & E & Hc). apply (find_none _ _ Ef) in Hc. unfold named in Hc.
          rewrite E, Nat.eqb_refl in Hc. discriminate.
      - now right.
      - intros c Hc. apply in_app_iff in Hc as [Hc|[<-|[]]]; auto. unfold koff, ksize. cbn. lia.
      - rewrite forallb_forall in C3.
        assert (D : forall c, In c cs -> disj (koff F c) (ksize F c) (koff F k) (ksize F k)).
        { intros c Hc. specialize (C3 c Hc). apply orb_true_iff in C3. rewrite !Nat.leb_le in C3.
          unfold disj, koff, ksize in *. cbn. lia. }
        clear -Vd D. induction Vd as [|c l Hc Hl IHl]; cbn; [repeat constructor|]. constructor.
        + rewrite Forall_forall in *. intros y Hy. apply in_app_iff in Hy as [Hy|[<-|[]]]; auto. apply D. now left.
        + apply IHl. intros y Hy. apply D. now right.
      - intros c Hc. apply in_app_iff in Hc as [Hc|[<-|[]]]; auto. apply wf_intro.
        + constructor.
        + now left.
        + intros c H. destruct H.
        + constructor.
        + intros c H. destruct H. }
    assert (Wnew : wf F 0 (upd F p (addk F k) (root s))).
    { eapply wf_updk; eauto using addk_name, addk_data. }
    assert (Pd : forall i, pendat F 0 (upd F p (addk F k) (root s)) i = pendat F 0 (root s) i).
    { intro i. apply (pendat_updk F (addk F k) (addk_name F k) (addk_data F k)). now apply addk_pendat. }
    assert (Td : tdata F (upd F p (addk F k) (root s)) = tdata F (root s)).
    { apply updk_data. apply addk_data. }
    split; [|split]; cbn [SyncModel.root SyncModel.heap SyncModel.next SyncSpec.wins SyncSpec.fresh SyncSpec.cells SyncSpec.stype].
    - split; [exact Wnew|]. split; [now rewrite Td|]. split.
      + intro q. rewrite win_app. specialize (AL q). destruct (path_eqb (p ++ [nm]) q) eqn:Eq.
        * apply path_eqb_eq in Eq. subst q. rewrite Ww, (loc_child p nm _ _ _ L). cbn [tkids]. rewrite Ef. cbn [option_map].
          destruct (loc F (p ++ [nm]) 0 (upd F p (addk F k) (root s))) as [[a y]|]; [|discriminate].
          cbn in AL. injection AL as -> AL. cbn. unfold winof, koff, ksize. cbn. rewrite AL, Ko, Kn. reflexivity.
        * rewrite (dat_win F _ _ AL), Ww.
          now destruct (option_map (winof F) (loc F q 0 (root s))).
      + rewrite map_app. cbn [map fst].
        apply NoDup_Add with (l := map fst (wins sp)) (a := p ++ [nm]); [|split; auto].
        * pose proof (Add_app (p ++ [nm]) (map fst (wins sp)) []) as X. rewrite app_nil_r in X. exact X.
        * apply win_none_in. rewrite Ww, (loc_child p nm _ _ _ L). cbn [tkids]. now rewrite Ef.
    - intros q a y Hq Lq Hy. specialize (AL q). rewrite Lq in AL. cbn in AL.
      destruct (path_eqb (p ++ [nm]) q) eqn:Eq.
      + injection AL as _ AL. exfalso. apply Hy. rewrite AL. exact Kp.
      + destruct (loc F q 0 (root s)) as [[b z]|] eqn:Lz; [|discriminate]. cbn in AL. injection AL as -> AL.
        eapply HF; eauto. now rewrite <- AL.
    - destruct (stype sp) as [kt|].
      + destruct HM as (m & M). pose proof M as (M1 & M2 & M3 & M4). exists m. split; [exact M1|].
        split; [cbn; now rewrite Td|]. split; cbn.
        * eapply alln_updk; eauto using addk_name, addk_data.
          destruct (alln_loc F _ p 0 (kt, []) (root s) (fst w) _ W M3 L) as (kk & A & _).
          destruct (mat_at V F conv litval kt m s (cells sp) p (fst w) _ W M L) as (kk' & HPP & _ & Hh & Ek).
          assert (Ekk : kk = kk').
          { apply alln_inv in A as [[(A & _) _] _]. destruct HPP as [(B & _) _]. cbn in B. congruence. }
          rewrite <- Ek, <- Ekk. pose proof (alln_inv F _ _ _ _ _ _ A) as [A0 A1].
          cbn [addk]. constructor; auto. intros c Hc. apply in_app_iff in Hc as [Hc|[<-|[]]]; auto.
          constructor; [|intros c []]. cbn in Hh. unfold koff, ksize. change (tdata F k) with cd. rewrite Ko, Kn.
          apply only_pp. unfold cd. rewrite Hh. destruct A0 as [(Q1 & Q2 & b & Q3) _].
          unfold from_parent, head_arr. rewrite Q1, Q3. cbn.
          split; [reflexivity|]. split; [exact Q2|]. exists false. now rewrite Od.
        * intros i Hi. unfold ksize in Hi. rewrite Td in Hi. specialize (M4 i Hi).
          unfold cell_ok, SyncProofs2.view in *. now rewrite Pd.
      + destruct HM as (U & U0 & HU). split; [|split]; cbn.
        * apply une_upd; auto. intros [y dy csy] X. apply une_inv in X as [X1 X2]. cbn. constructor; auto.
          intros c Hc. apply in_app_iff in Hc as [Hc|[<-|[]]]; auto. constructor; [|intros c []].
          pose proof (une_loc F _ _ _ _ _ U L) as Ud. apply une_inv in Ud as [Ud _]. unfold cd, has_head.
          rewrite Ud. now destruct (head F d).
        * now rewrite Td.
        * intros i Hi. unfold ksize in Hi. rewrite Td in Hi. rewrite Pd. now apply HU.
  Qed.

  Lemma pendat_updk_at f (f_name : forall t, tname F (f t) = tname F t) (f_data : forall t, tdata F (f t) = tdata F t) p :
    forall o t o1 t1, wf F o t -> loc F p o t = Some (o1, t1) ->
    (forall i, pendat F o1 (f t1) i = pendat F o1 t1 i) ->
    forall i, pendat F o (upd F p f t) i = pendat F o t i.
  Proof using.
    clear -f_name f_data.
    induction p as [|n p IH]; intros o t o1 t1 W L H i; [cbn in *; now injection L as <- <-|].
    destruct t as [m d cs]. cbn [loc tkids] in L.
    destruct (find (named F n) cs) as [c|] eqn:E; [|discriminate].
    destruct (wf_inv F _ _ _ _ W) as (Wn & _ & _ & _ & Wk).
    cbn [upd pendat]. destruct (inr o (size F d) i); auto.
    rewrite map_map. erewrite map_ext_in; [reflexivity|]. intros y Hy. cbn beta.
    destruct (named F n y) eqn:En; auto.
    assert (y = c) by (eapply find_uniq; eauto). subst y. rewrite updk_data by auto. eapply IH; eauto.
  Qed.

  Lemma drop_ok p nm s sp :
    R s sp -> ~ In (p ++ [nm]) (fresh sp) ->
    let (sp', out) := sstep sp (Drop V F p nm) in
    match step s (Drop V F p nm) with
    | Some (s', r) => r = None /\ out = SDone V /\ R s' sp'
    | None => out = SRaise V /\ sp' = sp
    end.
  Proof.
    intros (HW & HF & HM) Hfr. pose proof HW as (W & Wo & Ww & Wd).
    cbn [SyncSpec.sstep SyncModel.step]. unfold drop.
    destruct (loc F p 0 (root s)) as [[o1 t1]|] eqn:L.
    2:{ rewrite (loc_sub F p 0), L. cbn. rewrite Ww, loc_app, L. cbn. auto. }
    rewrite (loc_some_sub F _ _ _ _ _ L). rewrite Ww, (loc_child p nm _ _ _ L).
    destruct t1 as [x d cs]. cbn [tkids].
    destruct (find (named F nm) cs) as [c|] eqn:Ef; [|cbn; auto]. cbn [option_map].
    assert (Lc : loc F (p ++ [nm]) 0 (root s) = Some (o1 + koff F c, c)).
    { rewrite (loc_child p nm _ _ _ L). cbn [tkids]. now rewrite Ef. }
    assert (Cc : existsb (fun e => child_of (p ++ [nm]) (fst e)) (wins sp) = match tkids F c with [] => false | _ => true end).
    { apply eq_iff_eq_true. rewrite existsb_exists. split.
      - intros ([q w'] & He & Hc). cbn [fst] in Hc. apply child_of_spec in Hc as [m ->].
        pose proof (in_win _ _ _ Wd He) as X. rewrite Ww, (loc_child (p ++ [nm]) m _ _ _ Lc) in X.
        destruct (tkids F c); [discriminate|reflexivity].
      - intro H. destruct (tkids F c) as [|g gs] eqn:Eg; [discriminate|].
        pose proof (loc_wf F _ _ _ _ _ W Lc) as W1. destruct c as [cn cd ccs]. cbn in Eg. subst ccs.
        destruct (wf_inv F _ _ _ _ W1) as (Wn & _).
        assert (X : win ((p ++ [nm]) ++ [tname F g]) (wins sp) = Some (o1 + koff F (Node F cn cd (g :: gs)) + koff F g, ksize F g)).
        { rewrite Ww, (loc_child (p ++ [nm]) _ _ _ _ Lc). cbn [tkids].
          rewrite (find_self F (g :: gs) g Wn) by now left. reflexivity. }
        eexists. split; [exact (win_in _ _ _ X)|]. cbn [fst]. apply child_of_spec. eauto. }
    rewrite Cc. destruct c as [cn cd ccs]. cbn [tkids]. destruct ccs as [|g gs]; [|auto].
    split; auto. split; auto.
    change (fun t => match t with Node _ m d0 cs0 => Node F m d0 (filter (fun c => negb (named F nm c)) cs0) end) with (delk F nm).
    pose proof (del_loc F p nm o1 (Node F x d cs) (Node F cn cd []) (root s) L Ef eq_refl) as DL.
    assert (Np : pend F cd = None).
    { destruct (pend F cd) eqn:E; auto. exfalso. apply Hfr.
      eapply (HF (p ++ [nm])); eauto; [now destruct p|]. cbn. congruence. }
    pose proof (loc_wf F _ _ _ _ _ W L) as W1. destruct (wf_inv F _ _ _ _ W1) as (Vn & Vo & Vr & Vd & Vk).
    assert (Sub : forall c, In c (filter (fun c => negb (named F nm c)) cs) -> In c cs).
    { intros c Hc. now apply filter_In in Hc. }
    assert (W1' : wf F o1 (delk F nm (Node F x d cs))).
    { cbn [delk]. apply wf_intro; auto.
      - clear -Vn. induction cs as [|c cs IH]; cbn; auto. cbn in Vn. inversion Vn as [|? ? Hn Hd]; subst.
        destruct (negb (named F nm c)); cbn; auto. constructor; auto. intro Hi. apply Hn.
        apply in_map_iff in Hi as (y & <- & Hy). apply filter_In in Hy as [Hy _]. now apply in_map.
      - destruct Vo as [->|]; [now left|now right].
      - clear -Vd. induction Vd as [|c l Hc Hl IHl]; cbn; [constructor|].
        destruct (negb (named F nm c)); auto. constructor; auto. rewrite Forall_forall in *. intros y Hy.
        apply filter_In in Hy as [Hy _]. auto. }
    assert (Wnew : wf F 0 (upd F p (delk F nm) (root s))).
    { eapply wf_updk; eauto using delk_name, delk_data. }
    assert (Td : tdata F (upd F p (delk F nm) (root s)) = tdata F (root s)).
    { apply updk_data. apply delk_data. }
    assert (Pd : forall i, pendat F 0 (upd F p (delk F nm) (root s)) i = pendat F 0 (root s) i).
    { intro i. eapply pendat_updk_at; eauto using delk_name, delk_data. intro j. cbn [delk pendat].
      destruct (inr o1 (size F d) j); auto.
      assert (X : first_some (map (fun c => pendat F (o1 + offset F (tdata F c)) c j) (filter (fun c => negb (named F nm c)) cs))
                = first_some (map (fun c => pendat F (o1 + offset F (tdata F c)) c j) cs)); [|now rewrite X].
      assert (Y : forall c, In c cs -> named F nm c = true -> pendat F (o1 + offset F (tdata F c)) c j = None).
      { intros c Hc Hn. assert (c = Node F cn cd []) by (eapply find_uniq; eauto). subst c. cbn. rewrite Np.
        now destruct (inr _ _ j). }
      clear -Y. induction cs as [|c cs IH]; cbn; auto.
      destruct (named F nm c) eqn:En; cbn.
      - rewrite (Y c (or_introl eq_refl) En). apply IH. intros; apply Y; [now right|auto].
      - rewrite IH by (intros; apply Y; [now right|auto]). reflexivity. }
    split; [|split]; cbn [SyncModel.root SyncModel.heap SyncModel.next SyncSpec.wins SyncSpec.fresh SyncSpec.cells SyncSpec.stype].
    - split; [exact Wnew|]. split; [now rewrite Td|]. split.
      + intro q. rewrite win_filter. specialize (DL q). destruct (path_eqb q (p ++ [nm])) eqn:Eq.
        * destruct (loc F q 0 (upd F p (delk F nm) (root s))) as [[a y]|]; [discriminate|]. reflexivity.
        * now rewrite (dat_win F _ _ DL), Ww.
      + clear -Wd. induction (wins sp) as [|[q w'] l IH]; cbn; auto. cbn in Wd. inversion Wd as [|? ? Hn Hd]; subst.
        destruct (negb (path_eqb q (p ++ [nm]))); cbn; auto. constructor; auto. intro Hi. apply Hn.
        apply in_map_iff in Hi as (y & <- & Hy). apply filter_In in Hy as [Hy _]. now apply in_map.
    - intros q a y Hq Lq Hy. specialize (DL q). rewrite Lq in DL. cbn in DL.
      destruct (path_eqb q (p ++ [nm])) eqn:Eq; [discriminate|].
      destruct (loc F q 0 (root s)) as [[b z]|] eqn:Lz; [|discriminate]. cbn in DL. injection DL as -> DL.
      eapply HF; eauto. now rewrite <- DL.
    - destruct (stype sp) as [kt|].
      + destruct HM as (m & M). pose proof M as (M1 & M2 & M3 & M4). exists m. split; [exact M1|].
        split; [cbn; now rewrite Td|]. split; cbn.
        * eapply alln_updk; eauto using delk_name, delk_data.
          destruct (alln_loc F _ p 0 (kt, []) (root s) o1 _ W M3 L) as (kk & A & _).
          destruct (mat_at V F conv litval kt m s (cells sp) p o1 _ W M L) as (kk' & HPP & _ & Hh & Ek).
          assert (Ekk : kk = kk').
          { apply alln_inv in A as [[(A & _) _] _]. destruct HPP as [(B & _) _]. cbn in B. congruence. }
          rewrite <- Ek, <- Ekk. pose proof (alln_inv F _ _ _ _ _ _ A) as [A0 A1].
          cbn [delk]. constructor; auto.
        * intros i Hi. unfold ksize in Hi. rewrite Td in Hi. specialize (M4 i Hi).
          unfold cell_ok, SyncProofs2.view in *. now rewrite Pd.
      + destruct HM as (U & U0 & HU). split; [|split]; cbn.
        * apply une_upd; auto. intros [y dy csy] X. apply une_inv in X as [X1 X2]. cbn. constructor; auto.
          intros c Hc. apply filter_In in Hc as [Hc _]. auto.
        * now rewrite Td.
        * intros i Hi. unfold ksize in Hi. rewrite Td in Hi. rewrite Pd. now apply HU.
  Qed.
End P11.
