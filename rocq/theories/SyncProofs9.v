(* zero and fill. *)
From Coq Require Import List Arith Bool Lia.
From Verif Require Import SyncModel SyncSpec SyncProofs SyncProofs2 SyncProofs3 SyncProofs4 SyncProofs5 SyncProofs6 SyncProofs7 SyncProofs8.
Import ListNotations.

Section P9.
  Variables V F : Type.
  Variable conv : nat -> nat -> V -> V.
  Variable litval : nat -> lit F -> V.
  Hypothesis conv_same : forall k v, conv k k v = v.
  Notation nd := (nd F).
  Notation tree := (tree F).
  Notation heapT := (nat -> nat -> V).
  Notation state := (state V F).
  Notation sst := (sst V F).
  Notation root := (root V F).
  Notation heap := (heap V F).
  Notation next := (next V F).
  Notation cells := (cells V F).
  Notation wins := (wins V F).
  Notation fresh := (fresh V F).
  Notation stype := (stype V F).
  Notation HP := (HP F).
  Notation ONLY := (ONLY F).
  Notation view := (view V F litval).
  Notation PP := (PP V F conv).
  Notation Mat := (Mat V F conv litval).
  Notation Unm := (Unm V F).
  Notation RW := (RW F).
  Notation RF := (RF F).
  Notation R := (R V F conv litval).
  Notation keyat := (keyat F).
  Notation skel := (skel F).
  Notation sync_body := (sync_body V F conv litval).
  Notation sync := (sync V F conv litval).

  Notation setc := (setc V F litval).

  Notation Ready := (Ready V F conv litval).
  Notation cast := (cast V F conv litval).


  Lemma clear_true_samef : forall t, samef F t (clear_tree F true t).
  Proof using.
    clear. apply (tree_ind2 F (fun t => samef F t (clear_tree F true t))). intros n d cs IH. rewrite clear_tree_eq.
    destruct (keep_head_keeps F d) as [K1 K2]. constructor; auto; [symmetry; apply keep_head_pend|].
    induction cs as [|c cs IHc]; cbn [clear_list]; [constructor|].
    destruct (has_head F (tdata F c)).
    - constructor; [apply IH; now left|]. apply IHc. intros x Hx. apply IH. now right.
    - apply samef_list_refl.
  Qed.

  Lemma clear_desc_true_samef t : samef F t (clear_desc F true t).
  Proof using.
    clear. destruct t as [n d cs]. cbn [clear_desc]. constructor; auto.
    induction cs as [|c cs IHc]; cbn [clear_list]; [constructor|].
    destruct (has_head F (tdata F c)).
    - constructor; [apply clear_true_samef|exact IHc].
    - apply samef_list_refl.
  Qed.

  Lemma clear_desc_une2 b t : une F t -> clear_desc F b t = t.
  Proof using.
    clear. destruct t as [n d cs]. intro U. apply une_inv in U as [_ U]. cbn. f_equal.
    destruct cs as [|c cs]; auto. cbn. specialize (U c (or_introl eq_refl)). destruct c as [cn cd ccs].
    apply une_inv in U as [U _]. unfold has_head. cbn. rewrite U. now destruct (head F cd).
  Qed.

  Lemma une_upd f p : (forall t, une F t -> une F (f t)) -> forall t, une F t -> une F (upd F p f t).
  Proof using.
    clear. intros H. induction p as [|n p IH]; intros t U; cbn; auto. destruct t as [m d cs].
    apply une_inv in U as [U1 U2]. constructor; auto. intros c Hc. apply in_map_iff in Hc as (x & <- & Hx).
    destruct (named F n x); auto.
  Qed.

  Lemma une_all_nodes f : (forall d, arrs F (f d) = arrs F d) -> forall t, une F t -> une F (all_nodes F f t).
  Proof using.
    clear. intros H. apply (tree_ind2 F (fun t => une F t -> une F (all_nodes F f t))). intros n d cs IH U.
    apply une_inv in U as [U1 U2]. cbn. constructor; [now rewrite H|].
    intros c Hc. apply in_map_iff in Hc as (x & <- & Hx). auto.
  Qed.

  Lemma une_line f : (forall d, arrs F (f d) = arrs F d) -> forall p t, une F t -> une F (line F p f t).
  Proof using.
    clear. intros H. induction p as [|n p IH]; intros t U; destruct t as [m d cs];
      apply une_inv in U as [U1 U2]; cbn; constructor; auto; try now rewrite H.
    intros c Hc. apply in_map_iff in Hc as (x & <- & Hx). destruct (named F n x); auto.
  Qed.

  (* The work of reset at a child. *)
  Lemma reset_shape p t o o1 t1 : p <> [] -> loc F p o t = Some (o1, t1) ->
    let t' := if has_head F (tdata F t1) then line F p (keep_head F) (upd F p (clear_desc F true) t)
              else upd F p (clear_desc F true) t in
    reset F p t = upd F p (all_nodes F (clear_flags F)) t' /\ samef F t t'.
  Proof using.
    clear. intros Hp L t'. unfold reset. destruct p as [|n p]; [congruence|].
    set (t0 := upd F (n :: p) (clear_desc F true) t) in *.
    assert (S0 : samef F t t0) by (apply samef_upd; apply clear_desc_true_samef).
    assert (S1 : samef F t (line F (n :: p) (keep_head F) t0)).
    { eapply samef_trans; [exact S0|]. apply samef_line; [apply keep_head_keeps|apply keep_head_pend]. }
    assert (L0 : loc F (n :: p) o t0 = Some (o1, clear_desc F true t1)).
    { apply loc_upd; auto. apply clear_desc_skel. }
    rewrite (loc_some_sub F _ _ _ _ _ L0). destruct t1 as [x d cs]. cbn [clear_desc tdata] in *.
    unfold t'. destruct (has_head F d); split; auto.
  Qed.

  Lemma flags_skel t : skel (all_nodes F (clear_flags F) t) = skel t.
  Proof using. clear. apply all_nodes_skel. apply clear_flags_keeps. Qed.

  (* zero/fill at p: r2 is the tree after the reset and the zeroing flag. *)
  Lemma put_tail p r r' r2 g l o1 t1 :
    wf F 0 r -> loc F p 0 r = Some (o1, t1) -> samef F r r' ->
    samef F (upd F p (all_nodes F (clear_flags F)) r') r2 -> keeps F g ->
    (forall d, zlazy F d = false -> flazy F d = None -> pend F (g d) = Some l) ->
    let r3 := upd_node F p g r2 in
    skel r3 = skel r /\
    (forall i, pendat F 0 r3 i = if inr o1 (ksize F t1) i then Some l else pendat F 0 r i) /\
    (forall q o x, loc F q 0 r3 = Some (o, x) -> pend F (tdata F x) <> None ->
       q = p \/ exists y, loc F q 0 r = Some (o, y) /\ pend F (tdata F y) <> None).
  Proof using.
    clear. intros W L S0 S1 K G r3.
    set (r1 := upd F p (all_nodes F (clear_flags F)) r') in *.
    pose proof (samef_skel F _ _ S0) as Sk0.
    assert (Sk1 : skel r1 = skel r').
    { apply upd_skel. intro t. apply flags_skel. }
    pose proof (samef_skel F _ _ S1) as Sk2.
    assert (Sk3 : skel r3 = skel r2) by (apply upd_node_skel; exact K).
    assert (W' : wf F 0 r') by (eapply wf_skel; [symmetry; exact Sk0|exact W]).
    assert (W1 : wf F 0 r1) by (eapply wf_skel; [symmetry; exact Sk1|exact W']).
    assert (W2 : wf F 0 r2) by (eapply wf_skel; [symmetry; exact Sk2|exact W1]).
    destruct (loc_skel_some F p 0 r r' o1 t1 (eq_sym Sk0) L) as (t1a & La & Ska).
    assert (L1 : loc F p 0 r1 = Some (o1, all_nodes F (clear_flags F) t1a)).
    { apply loc_upd; auto. intro t. apply flags_skel. }
    destruct (loc_skel_some F p 0 r1 r2 o1 _ (eq_sym Sk2) L1) as (t2 & L2 & Sk2t).
    assert (N2 : noflag F t2).
    { destruct (samef_loc F p 0 r1 r2 o1 t2 S1 L2) as (x & Lx & Sx). rewrite L1 in Lx. injection Lx as <-.
      eapply samef_noflag; [exact Sx|]. apply clear_flags_noflag. }
    assert (Ez : ksize F t2 = ksize F t1).
    { rewrite <- (skel_size F _ _ Sk2t), (skel_size F _ _ (flags_skel t1a)). symmetry. now apply skel_size. }
    assert (Gs : forall t : tree, skel (match t with Node _ n d cs => Node F n (g d) cs end) = skel t).
    { intros [n d cs]. cbn. destruct (K d) as [-> ->]. reflexivity. }
    split; [congruence|]. split.
    - intro i. destruct (inr o1 (ksize F t1) i) eqn:Ei.
      + apply inr_spec in Ei. unfold r3, upd_node.
        rewrite (proj2 (pendat_upd F p _ 0 r2 o1 t2 i Gs W2 L2))
          by lia.
        destruct t2 as [n d cs]. apply noflag_inv in N2 as [N2 N3].
        destruct (pend_none_flags F _ N2) as [F1 F2]. cbn [pendat].
        assert (X : inr o1 (size F (g d)) i = true).
        { apply inr_spec. destruct (K d) as [-> _]. change (size F d = ksize F t1) in Ez. lia. }
        rewrite X.
        assert (Y : first_some (map (fun c => pendat F (o1 + offset F (tdata F c)) c i) cs) = None).
        { apply first_some_none. intros y Hy. apply in_map_iff in Hy as (c & <- & Hc). apply noflag_pendat. auto. }
        rewrite Y, (G d F1 F2). reflexivity.
      + apply inr_false in Ei. unfold r3, upd_node.
        rewrite (proj1 (pendat_upd F p _ 0 r2 o1 t2 i Gs W2 L2))
          by lia.
        rewrite <- (samef_pendat F _ _ 0 i S1). unfold r1.
        rewrite (proj1 (pendat_upd F p _ 0 r' o1 t1a i flags_skel W' La))
          by (rewrite <- (skel_size F _ _ Ska); exact Ei).
        now rewrite <- (samef_pendat F _ _ 0 i S0).
    - intros q o x Lq Hx. destruct (loc_upd_node_data F g K p q 0 r2 o x Lq) as (y & Ly & [[-> _]|[Hq Ey]]); [now left|].
      right. rewrite Ey in Hx. destruct (samef_loc F q 0 r1 r2 o y S1 Ly) as (z & Lz & Sz).
      rewrite (samef_pend F _ _ Sz) in Hx.
      destruct (loc_upd_data F _ flags_skel p q 0 r' o z Lz) as [(q' & o' & t' & Eq & Lp & Lq')|(_ & u & Lu & Eu)].
      + exfalso. pose proof (noflag_loc F q' _ _ _ _ (clear_flags_noflag F t') Lq') as Nz.
        destruct z as [zn zd zcs]. apply noflag_inv in Nz as [Nz _]. now apply Hx.
      + rewrite Eu in Hx. destruct (samef_loc F q 0 r r' o u S0 Lu) as (v & Lv & Sv).
        exists v. split; auto. now rewrite <- (samef_pend F _ _ Sv).
  Qed.

  Lemma pp_cells k m h cs cs' nxt : forall t o kk,
    wf F o t -> (forall i, o <= i < o + ksize F t -> cs' i = cs i) ->
    alln F (PP k m h cs nxt) o kk t -> alln F (PP k m h cs' nxt) o kk t.
  Proof.
    intros t o kk W H A. apply alln_paths; auto. intros q a x L.
    pose proof (loc_range F q o t a x W L) as Rg.
    destruct (proj1 (alln_paths F _ t o kk W) A q a x L) as [Q1 Q2]. split; auto.
    intros k2 a2 b2 Hg Hn. destruct (Q2 k2 a2 b2 Hg Hn) as (C1 & C2 & C3 & C4 & C5).
    split; auto. split; auto. split; auto. split; auto. intros j v Hj Hv. apply C5; auto.
    rewrite <- H; auto. unfold ksize in *. lia.
  Qed.

  Lemma reset_alln k m h cs cs' nxt p : forall t o kk o1 t1,
    wf F o t -> alln F (PP k m h cs nxt) o kk t -> loc F p o t = Some (o1, t1) ->
    (forall i, ~ (o1 <= i < o1 + ksize F t1) -> cs' i = cs i) ->
    alln F (PP k m h cs' nxt) o kk (line F p (keep_head F) (upd F p (clear_desc F true) t)).
  Proof.
    induction p as [|n p IH]; intros t o kk o1 t1 W A L H.
    - cbn [upd]. destruct (clear_desc_true_ok F k m o kk t (pp_hp V F conv _ _ _ _ _ _ _ _ A)) as (A1 & S1 & K1).
      destruct (clear_desc F true t) as [tn d cs0] eqn:E. cbn [line]. constructor.
      + apply only_pp, keep_head_only. now apply alln_inv in A1.
      + destruct (keep_head_keeps F d) as [X1 X2].
        intros c Hc. specialize (K1 c Hc). revert K1. apply alln_impl. intros. now apply only_pp.
    - destruct t as [tn d cs0]. pose proof (wf_inv F _ _ _ _ W) as (Wn & _ & Wr & _ & Wk).
      apply alln_inv in A as [A B]. cbn [loc tkids] in L.
      destruct (find (named F n) cs0) as [c|] eqn:Ef; [|discriminate].
      destruct (find_named F _ _ _ Ef) as [Hc _]. cbn [upd line]. constructor.
      + apply only_pp, keep_head_only. apply A.
      + rewrite map_map. intros x Hx. apply in_map_iff in Hx as (y & <- & Hy).
        destruct (named F n y) eqn:En.
        * assert (y = c) by (eapply find_uniq; eauto). subst y.
          assert (E2 : named F n (upd F p (clear_desc F true) c) = true).
          { unfold named in *. rewrite (skel_name F _ c); auto. apply upd_skel. apply clear_desc_skel. }
          rewrite E2.
          assert (Sk : skel (line F p (keep_head F) (upd F p (clear_desc F true) c)) = skel c).
          { rewrite line_skel by apply keep_head_keeps. apply upd_skel. apply clear_desc_skel. }
          rewrite (skel_off F _ _ Sk), (skel_size F _ _ Sk). eapply IH; eauto.
        * rewrite En. apply pp_cells with (cs := cs); auto.
          intros i Hi. apply H. intro Hi2.
          pose proof (loc_range F _ _ _ _ _ (Wk c Hc) L) as Rg.
          destruct (kids_disj F _ _ _ _ y c W Hy Hc) as [->|D].
          -- unfold named in En. destruct (find_named F _ _ _ Ef) as [_ E]. rewrite E, Nat.eqb_refl in En. discriminate.
          -- unfold disj in D. lia.
  Qed.

  (* zero and fill share their effect. *)
  Definition zg (l : lit F) (d : nd) : nd :=
    match l with
    | Zero => set_cleared F false (set_count F (S (count F d)) (set_flags F true None d))
    | Fill v => set_cleared F false (set_count F (S (count F d)) (set_flags F (zlazy F d) (Some v) d))
    end.

  Definition zz (l : lit F) (p : list nat) (r : tree) : tree :=
    match l with
    | Zero => upd F p (all_nodes F (set_zing F true)) r
    | Fill _ => line F p (set_zing F false) (upd F p (all_nodes F (set_zing F false)) r)
    end.

  Definition put (l : lit F) (p : list nat) (r : tree) : tree := upd_node F p (zg l) (zz l p (reset F p r)).

  Lemma zero_put p r : zero F p r = put Zero p r.
  Proof. reflexivity. Qed.
  Lemma fill_put p v r : fill F p v r = put (Fill v) p r.
  Proof. reflexivity. Qed.

  Lemma zg_keeps l : keeps F (zg l).
  Proof. intro d. destruct l; split; reflexivity. Qed.

  Lemma zg_arrs l d : arrs F (zg l d) = arrs F d /\ head F (zg l d) = head F d.
  Proof. destruct l; split; reflexivity. Qed.

  Lemma zz_samef l p r : samef F r (zz l p r).
  Proof.
    destruct l; [|apply zing_line]. cbn. apply samef_upd. intro x.
    destruct (zing_inert F true) as (I1 & I2 & _). now apply samef_all_nodes.
  Qed.

  Lemma zz_une l p r : une F r -> une F (zz l p r).
  Proof.
    intro U. destruct l; cbn; [|apply une_line; auto]; apply une_upd; auto; intros; now apply une_all_nodes.
  Qed.

  Lemma zz_alln (P : nat -> key -> nd -> Prop) l p r o kk :
    (forall b o kk d, P o kk d -> P o kk (set_zing F b d)) -> alln F P o kk r -> alln F P o kk (zz l p r).
  Proof.
    intros H A. destruct l; cbn; [|apply zing_line_alln; auto].
    destruct (zing_inert F true) as (I1 & _ & _).
    apply alln_upd; auto.
    - intro x. now apply all_nodes_skel.
    - intros x o' kk' Hx. apply (alln_all_nodes F P P); auto.
  Qed.

  Lemma zg_pend l d : zlazy F d = false -> flazy F d = None -> pend F (zg l d) = Some l.
  Proof. intros H1 H2. destruct l; unfold pend; cbn; auto. now rewrite H1. Qed.

  Lemma inr_inwin w i : inr (fst w) (snd w) i = inwin w i.
  Proof. reflexivity. Qed.

  Lemma put_child p l s sp w :
    p <> [] -> R s sp -> win p (wins sp) = Some w ->
    R (mkst V F (put l p (root s)) (heap s) (next s)) (put_lit V F litval p w l sp).
  Proof.
    intros Hp (HW & HF & HM) Hw. destruct (rw_win F _ _ _ _ HW Hw) as (t1 & L & En).
    pose proof (proj1 HW) as W.
    destruct (reset_shape p (root s) 0 (fst w) t1 Hp L) as (E1 & S1).
    set (r' := if has_head F (tdata F t1) then line F p (keep_head F) (upd F p (clear_desc F true) (root s))
               else upd F p (clear_desc F true) (root s)) in *.
    destruct (put_tail p (root s) r' (zz l p (reset F p (root s))) (zg l) l (fst w) t1 W L S1
                ltac:(rewrite E1; apply zz_samef) (zg_keeps l) (zg_pend l)) as (T1 & T2 & T3).
    fold (put l p (root s)) in T1, T2, T3. 
    assert (EP : put_lit V F litval p w l sp =
      mksst V F (stype sp) (fun i => if inwin w i
                    then match stype sp with Some k => Val V F (litval k l) | None => Lit V F l end
                    else cells sp i) (wins sp) (p :: fresh sp)).
    { destruct p; [congruence|reflexivity]. }
    rewrite EP. clear EP.
    assert (T2' : forall i, pendat F 0 (put l p (root s)) i = if inwin w i then Some l else pendat F 0 (root s) i).
    { intro i. rewrite T2, En. now rewrite inr_inwin. }
    clear T2. split; [|split]; cbn.
    - eapply rw_skel; eauto.
    - intros q o x Hq Lq Hx. destruct (T3 q o x Lq Hx) as [->|(y & Ly & Hy)]; [now left|].
      right. eapply HF; eauto.
    - assert (PR : pend F (tdata F (put l p (root s))) <> None -> pend F (tdata F (root s)) <> None).
      { intro H. destruct (T3 [] 0 (put l p (root s)) eq_refl H) as [X|(y & Ly & Hy)]; [congruence|].
        cbn in Ly. now injection Ly as <-. }
      destruct (stype sp) as [k|].
      + destruct HM as (m & M). pose proof M as (M1 & M2 & M3 & M4). exists m. split; [exact M1|].
        split; [|split]; cbn.
        * destruct (pend F (tdata F (put l p (root s)))) eqn:E; auto. exfalso. now apply PR.
        * set (cs' := fun i => if inwin w i then Val V F (litval k l) else cells sp i).
          assert (A0 : alln F (PP k m (heap s) cs' (next s)) 0 (k, [])
                    (line F p (keep_head F) (upd F p (clear_desc F true) (root s)))).
          { eapply reset_alln; eauto. intros i Hi. unfold cs'. destruct (inwin w i) eqn:Ew; auto.
            apply inwin_spec in Ew. exfalso. apply Hi. lia. }
          destruct (mat_at V F conv litval k m s (cells sp) p (fst w) t1 W M L) as (kk & _ & _ & Hh & _).
          unfold r' in E1. rewrite Hh in E1. unfold put. rewrite E1.
          apply alln_upd_node; [apply zg_keeps| |apply zz_alln].
          -- intros o kk0 d [Q1 Q2]. destruct (zg_arrs l d) as [X1 X2]. destruct (zg_keeps l d) as [X3 X4]. split.
             ++ destruct Q1 as (B1 & B2 & b & B3). split; [congruence|]. split; auto. exists b. now rewrite X1.
             ++ unfold SyncProofs3.CP. rewrite X1, X3. exact Q2.
          -- intros b o kk0 d H. apply inert_pp; auto. apply zing_inert.
          -- apply alln_upd; auto.
             ++ apply flags_skel.
             ++ intros t o kk0. apply alln_all_nodes; [apply clear_flags_keeps|]. intros o' kk' d H. exact H.
        * intros i Hi. rewrite (skel_size F _ _ T1) in Hi. specialize (M4 i Hi). unfold cell_ok, SyncProofs2.view in *.
          rewrite T2'. destruct (inwin w i); auto.
      + destruct HM as (U & U0 & HU).
        pose proof (une_loc F p (root s) 0 (fst w) t1 U L) as U1.
        assert (Hh : has_head F (tdata F t1) = false).
        { destruct t1 as [n d cs]. apply une_inv in U1 as [U1 _]. unfold has_head. cbn. rewrite U1. now destruct (head F d). }
        unfold r' in E1. rewrite Hh in E1. split; [|split]; cbn.
        * unfold put. rewrite E1. unfold upd_node. apply une_upd.
          -- intros [n d cs] X. apply une_inv in X as [X1 X2]. constructor; auto. now rewrite (proj1 (zg_arrs l d)).
          -- apply zz_une. apply une_upd; [intros; now apply une_all_nodes|].
             apply une_upd; auto. intros t X. now rewrite (clear_desc_une2 true t X).
        * destruct p as [|n p]; [congruence|]. intro H. assert (H0 : pend F (tdata F (root s)) = Some Zero).
          { revert H. unfold put. rewrite E1. destruct (root s) as [rn rd rcs]. destruct l; cbn; auto. }
          specialize (U0 H0). unfold put. rewrite E1. destruct (root s) as [rn rd rcs]. destruct l; cbn; auto.
        * intros i Hi. rewrite (skel_size F _ _ T1) in Hi. specialize (HU i Hi). rewrite T2'.
          destruct (inwin w i); auto.
  Qed.

  Lemma put_root l s sp w :
    R s sp -> win [] (wins sp) = Some w ->
    R (mkst V F (put l [] (root s)) (heap s) (next s)) (put_lit V F litval [] w l sp).
  Proof.
    intros (HW & HF & HM) Hw. destruct HW as (W & Wo & Ww & Wd).
    assert (X : une F (reset F [] (root s)) /\ noflag F (reset F [] (root s)) /\ skel (reset F [] (root s)) = skel (root s)).
    { unfold reset. cbn [upd]. destruct (root s) as [n d cs] eqn:Er. unfold upd_node. cbn [upd].
      assert (Y : exists cs', clear_desc F false (Node F n (clear_all F d) cs) = Node F n (clear_all F d) cs' /\
                 (forall c, In c cs' -> une F c) /\ map skel cs' = map skel cs).
      { destruct (stype sp) as [k|].
        - destruct HM as (m & _ & _ & M3 & _). rewrite Er in M3. apply pp_hp in M3. apply alln_inv in M3 as [_ M3].
          destruct (clear_desc_false_ok F k m 0 (k, []) n (clear_all F d) cs M3) as [C1 C2].
          eexists. split; [exact C1|]. split; [intros c Hc; now apply C2|].
          rewrite map_map. apply map_ext. intro x. apply clear_tree_skel.
        - destruct HM as (U & _). rewrite Er in U. apply une_inv in U as [_ U]. exists cs.
          split; [now apply clear_desc_une|]. auto. }
      destruct Y as (cs' & -> & Y1 & Y2). split; [|split].
      - apply une_all_nodes; auto. constructor; auto.
      - apply clear_flags_noflag.
      - rewrite flags_skel. cbn. now rewrite Y2. }
    destruct X as (X1 & X2 & X3).
    pose proof (zz_samef l [] (reset F [] (root s))) as S.
    pose proof (samef_skel F _ _ S) as Sk.
    pose proof (samef_noflag F _ _ S X2) as N. pose proof (zz_une l [] _ X1) as U.
    unfold put. destruct (zz l [] (reset F [] (root s))) as [n d cs] eqn:E. unfold upd_node. cbn [upd].
    apply noflag_inv in N as [N1 N2]. apply une_inv in U as [U1 U2].
    destruct (pend_none_flags F _ N1) as [F1 F2]. pose proof (zg_pend l d F1 F2) as Pz.
    destruct (zg_keeps l d) as [K1 K2].
    assert (Sk3 : skel (Node F n (zg l d) cs) = skel (root s)) by (rewrite <- X3, <- Sk; cbn; now rewrite K1, K2).
    split; [|split]; cbn.
    - eapply rw_skel; [exact Sk3|]. split; auto.
    - intros q o x Hq Lq Hx. exfalso. destruct q as [|m q]; [congruence|]. cbn in Lq.
      destruct (find (named F m) cs) as [c|] eqn:Ef; [|discriminate]. apply find_named in Ef as [Hc _].
      pose proof (noflag_loc F q _ _ _ _ (N2 c Hc) Lq) as Nx. destruct x. apply noflag_inv in Nx as [Nx _]. now apply Hx.
    - split; [|split].
      + cbn. constructor; auto. now rewrite (proj1 (zg_arrs l d)).
      + cbn [SyncModel.root tdata]. rewrite Pz. intros [= ->]. reflexivity.
      + cbn [SyncModel.root]. intros i Hi.
        change (ksize F (Node F n (zg l d) cs)) with (size F (zg l d)) in Hi.
        cbn [pendat]. assert (Z : inr 0 (size F (zg l d)) i = true) by (apply inr_spec; lia). rewrite Z.
        assert (Y : first_some (map (fun c => pendat F (0 + offset F (tdata F c)) c i) cs) = None).
        { apply first_some_none. intros y Hy. apply in_map_iff in Hy as (c & <- & Hc). apply noflag_pendat. auto. }
        rewrite Y. exact Pz.
  Qed.

  Lemma put_ok p l s sp w :
    R s sp -> win p (wins sp) = Some w ->
    R (mkst V F (put l p (root s)) (heap s) (next s)) (put_lit V F litval p w l sp).
  Proof.
    intros HR Hw. destruct p as [|n p]; [now apply put_root|]. apply put_child; auto. discriminate.
  Qed.
End P9.
