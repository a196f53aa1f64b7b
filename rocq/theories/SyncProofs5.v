(* First use of an array; get. *)
From Coq Require Import List Arith Bool Lia.
From Verif Require Import SyncModel SyncSpec SyncProofs SyncProofs2 SyncProofs3 SyncProofs4.
Import ListNotations.

Section P5.
  Variables V F : Type.
  Variable conv : nat -> nat -> V -> V.
  Variable litval : nat -> lit F -> V.
  Hypothesis conv_same : forall k v, conv k k v = v.
  Notation nd := (nd F).
  Notation tree := (tree F).
  Notation heapT := (nat -> nat -> V).
  Notation state := (state V F).
  Notation sst := (sst V F).
  Notation root := (root V F).
  Notation heap := (heap V F).
  Notation next := (next V F).
  Notation cells := (cells V F).
  Notation wins := (wins V F).
  Notation fresh := (fresh V F).
  Notation stype := (stype V F).
  Notation HP := (HP F).
  Notation ONLY := (ONLY F).
  Notation view := (view V F litval).
  Notation PP := (PP V F conv).
  Notation Mat := (Mat V F conv litval).
  Notation Unm := (Unm V F).
  Notation RW := (RW F).
  Notation RF := (RF F).
  Notation R := (R V F conv litval).
  Notation keyat := (keyat F).
  Notation skel := (skel F).
  Notation sync_body := (sync_body V F conv litval).
  Notation sync := (sync V F conv litval).

  Definition setc (k : nat) (cs : nat -> cell V F) (i : nat) : cell V F :=
    match cs i with Lit _ _ l => Val V F (litval k l) | c => c end.

  Lemma rf_noflag r fr : noflag F r -> RF r fr.
  Proof.
    intros N p o t _ L H. exfalso. apply H. pose proof (noflag_loc F p r 0 o t N L) as X.
    destruct t. now apply noflag_inv in X.
  Qed.

  Lemma rf_filter r fr p o1 t1 :
    RF r fr -> loc F p 0 r = Some (o1, t1) -> pend F (tdata F t1) = None ->
    RF r (filter (fun q => negb (path_eqb q p)) fr).
  Proof.
    intros H L N q o t Hq Lq Hp. apply filter_In. split; [eapply H; eauto|].
    destruct (path_eqb q p) eqn:E; auto. apply path_eqb_eq in E. subst q.
    rewrite L in Lq. injection Lq as <- <-. now rewrite N in Hp.
  Qed.

  Lemma create_desc_ok k m kk n d cs :
    HP k m 0 kk d -> (cs <> [] -> offset F d = 0) -> wf F 0 (Node F n d cs) -> (forall c, In c cs -> une F c) ->
    (forall c, In c (tkids F (create_desc F (Node F n d cs))) ->
       alln F (ONLY k m) (koff F c) (ext kk (koff F c) (ksize F c)) c) /\
    samef F (Node F n d cs) (create_desc F (Node F n d cs)).
  Proof.
    intros H Ho W U. pose proof (wf_inv F _ _ _ _ W) as (_ & _ & _ & _ & Wk).
    assert (K : forall c, In c cs ->
              alln F (ONLY k m) (koff F c) (ext kk (koff F c) (ksize F c)) (create_kid F d c) /\
              samef F c (create_kid F d c)).
    { intros c Hc. assert (cs <> []) as Hcs by (intros ->; destruct Hc).
      apply (create_kid_ok F k m c d 0 kk); auto. }
    split.
    - cbn. intros c Hc. apply in_map_iff in Hc as (x & <- & Hx). destruct (K x Hx) as [K1 _].
      pose proof (create_kid_skel F x d) as Sk.
      now rewrite (skel_off F _ _ Sk), (skel_size F _ _ Sk).
    - cbn. constructor; auto. apply samef_map. intros c Hc. now apply K.
  Qed.

  (* Everything holds just the head copy and no request is pending. *)
  Lemma mat_only k m r h nxt cs :
    alln F (ONLY k m) 0 (k, []) r -> noflag F r -> m < nxt ->
    (forall i, i < ksize F r -> match cs i with Unset _ _ => True | Val _ _ v => h m i = v | Lit _ _ _ => False end) ->
    Mat k m (mkst V F r h nxt) cs.
  Proof.
    intros A N Hm H. split; [exact Hm|]. split; [|split].
    - destruct r. now apply noflag_inv in N.
    - cbn. revert A. apply alln_impl. intros. now apply only_pp.
    - cbn. intros i Hi. specialize (H i Hi). unfold cell_ok. destruct (cs i); auto.
      unfold SyncProofs2.view. now rewrite (noflag_pendat F _ _ _ N).
  Qed.

  Lemma mat_view k m s cs i v : Mat k m s cs -> i < ksize F (root s) -> pendat F 0 (root s) i = None ->
    cs i = Val V F v -> heap s m i = v.
  Proof.
    intros (_ & _ & _ & M) Hi Hp Hc. specialize (M i Hi). unfold cell_ok in M. rewrite Hc in M.
    unfold SyncProofs2.view in M. now rewrite Hp in M.
  Qed.

  (* The state in which a root without arrays is left by the creation of its
     first array. *)
  Lemma first_created k s :
    wf F 0 (root s) -> offset F (tdata F (root s)) = 0 -> une F (root s) ->
    let f d := set_arrs F (kput (k, []) (mkarr (next s) 0, false) (arrs F d))
                 (if is_nil (arrs F d) then set_head F (Some (k, [])) d else d) in
    let r1 := create_desc F (upd_node F [] f (root s)) in
    (if is_nil (@nil nat) && has_family F [] (upd_node F [] f (root s)) then r1 else upd_node F [] f (root s)) = r1 /\
    samef F (root s) r1 /\ alln F (ONLY k (next s)) 0 (k, []) r1 /\
    kget (k, []) (arrs F (tdata F r1)) = Some (mkarr (next s) 0, false) /\ length (arrs F (tdata F r1)) = 1 /\
    flazy F (tdata F r1) = flazy F (tdata F (root s)).
  Proof.
    intros W Ho U f r1. destruct (root s) as [n d cs] eqn:Er. apply une_inv in U as [Ua Uk].
    assert (Ef : f d = set_arrs F [((k, []), (mkarr (next s) 0, false))] (set_head F (Some (k, [])) d)).
    { unfold f. now rewrite Ua. }
    unfold r1. clear r1. clearbody f.
    assert (E1 : upd_node F [] f (Node F n d cs) = Node F n (f d) cs) by reflexivity.
    assert (W1 : wf F 0 (Node F n (f d) cs)).
    { eapply wf_skel; [|exact W]. cbn. now rewrite Ef. }
    assert (HO : ONLY k (next s) 0 (k, []) (f d)).
    { rewrite Ef. split; [reflexivity|]. split; [reflexivity|]. exists false. reflexivity. }
    destruct (create_desc_ok k (next s) (k, []) n (f d) cs (only_hp F _ _ _ _ _ HO)
                ltac:(intros _; rewrite Ef; exact Ho) W1 Uk) as [C1 C2].
    rewrite E1. split; [|split; [|split; [|split; [|split]]]].
    - cbn. now destruct cs.
    - revert C2. cbn. intro C2. inversion C2 as [? ? ? ? d' cs' Q1 Q2 Q3 Q4 Q5]; subst.
      constructor; auto; rewrite Ef; reflexivity.
    - cbn. constructor; [exact HO|]. intros c Hc. apply C1. exact Hc.
    - cbn [create_desc tdata]. rewrite Ef. cbn [arrs set_arrs kget]. now rewrite key_eqb_refl.
    - cbn. now rewrite Ef.
    - cbn. now rewrite Ef.
  Qed.

  Lemma first_sync k wo s sp :
    RW (root s) (wins sp) -> Unm s (cells sp) ->
    (wo = false \/ tkids F (root s) <> []) ->
    exists s', sync_body [] k wo s = Some (s', (k, [])) /\
      skel (root s') = skel (root s) /\ noflag F (root s') /\
      Mat k (next s) s' (setc k (cells sp)) /\ next s' = S (next s).
  Proof.
    intros HW (U & U0 & HU) Hf. destruct HW as (W & Ho & _).
    destruct (first_created k s W Ho U) as (E1 & S1 & A1 & G1 & L1 & Hfl).
    set (f := fun d => set_arrs F (kput (k, []) (mkarr (next s) 0, false) (arrs F d))
                 (if is_nil (arrs F d) then set_head F (Some (k, [])) d else d)) in *.
    set (r1 := create_desc F (upd_node F [] f (root s))) in *.
    pose proof (samef_skel F _ _ S1) as Sk.
    unfold SyncModel.sync_body. cbn [sub desc_key].
    assert (Ea : arrs F (tdata F (root s)) = []) by (destruct (root s); now apply une_inv in U).
    rewrite Ea. cbn [kget].
    cbn zeta. match goal with |- context [upd_node F [] ?g (root s)] =>
      change (upd_node F [] g (root s)) with (upd_node F [] f (root s)) end.
    fold r1. rewrite E1. cbn [SyncModel.root SyncModel.heap SyncModel.next].
    assert (KK : has_family F [] r1 = match tkids F (root s) with [] => false | _ => true end).
    { unfold r1. destruct (root s) as [n d cs]. cbn. now destruct cs. }
    rewrite KK.
    assert (View : forall i, i < ksize F (root s) ->
              match setc k (cells sp) i with
              | Unset _ _ => True
              | Val _ _ v => exists l, pendat F 0 r1 i = Some l /\ v = litval k l
              | Lit _ _ _ => False
              end).
    { intros i Hi. specialize (HU i Hi). unfold setc. destruct (cells sp i) as [|l|v]; auto; [|contradiction].
      exists l. split; auto. now rewrite <- (samef_pendat F _ _ 0 i S1). }
    destruct (tkids F (root s)) as [|c0 cs0] eqn:Ek.
    - (* no children *)
      destruct Hf as [->|Hf]; [|congruence]. cbn [andb SyncModel.root SyncModel.heap SyncModel.next].
      rewrite ?KK. cbn [negb andb].
      assert (Ek1 : tkids F r1 = []).
      { unfold r1. destruct (root s) as [n d cs]. cbn in *. now rewrite Ek. }
      cbn [sub]. rewrite G1.
      destruct r1 as [n1 d1 cs1] eqn:Er1. cbn [tkids tdata] in *. subst cs1.
      assert (PD : forall i, i < ksize F (root s) -> pendat F 0 (Node F n1 d1 []) i = pend F d1).
      { intros i Hi. cbn [pendat map first_some]. rewrite <- (skel_size F _ _ Sk) in Hi. cbn in Hi. unfold ksize in Hi. cbn in Hi.
        assert (X : inr 0 (size F d1) i = true) by (apply inr_spec; lia). now rewrite X. }
      assert (FIN : forall d2 h2, size F d2 = size F d1 -> offset F d2 = offset F d1 ->
                head F d2 = head F d1 -> arrs F d2 = arrs F d1 -> pend F d2 = None ->
                (forall i l, i < ksize F (root s) -> pend F d1 = Some l -> h2 (next s) i = litval k l) ->
                skel (Node F n1 d2 []) = skel (root s) /\ noflag F (Node F n1 d2 []) /\
                Mat k (next s) (mkst V F (Node F n1 d2 []) h2 (S (next s))) (setc k (cells sp))).
      { intros d2 h2 B1 B2 B3 B4 B5 B6.
        assert (Sk2 : skel (Node F n1 d2 []) = skel (root s)) by (rewrite <- Sk; cbn; now rewrite B1, B2).
        split; [exact Sk2|]. assert (NF : noflag F (Node F n1 d2 [])) by (constructor; auto; intros c []).
        split; [exact NF|]. apply mat_only; auto.
        - apply alln_inv in A1 as [A1 _]. constructor; [|intros c []].
          destruct A1 as (X1 & X2 & b & X3). split; [congruence|]. split; [exact X2|]. exists b. congruence.
        - intros i Hi. rewrite (skel_size F _ _ Sk2) in Hi. specialize (View i Hi).
          destruct (setc k (cells sp) i) as [|l|v]; auto. destruct View as (l & V1 & ->).
          rewrite PD in V1 by exact Hi. auto. }
      assert (Hsz : size F d1 = ksize F (root s)).
      { pose proof (skel_size F _ _ Sk) as X. exact X. }
      assert (U0' : pend F d1 = Some Zero -> flazy F d1 = None).
      { intro Hp. assert (Hp0 : pend F (tdata F (root s)) = Some Zero) by (rewrite <- (samef_pend F _ _ S1); exact Hp).
        specialize (U0 Hp0). revert U0. rewrite Hfl. auto. }
      destruct (zlazy F d1) eqn:Ez.
      + cbn [andb]. assert (Hp1 : pend F d1 = Some Zero) by (unfold pend; now rewrite Ez).
        specialize (U0' Hp1).
        eexists. split; [reflexivity|]. cbn [SyncModel.root SyncModel.heap SyncModel.next].
        cbn [upd_node upd]. 
        destruct (FIN (set_flags F false (flazy F d1) d1)
                    (write V (heap s) (mkarr (next s) 0) (size F d1) (fun _ => litval (fst (k, @nil (nat * nat))) Zero)))
          as (Q1 & Q2 & Q3); auto.
        * unfold pend. cbn. now rewrite U0'.
        * intros i l Hi Hl. rewrite Hp1 in Hl. injection Hl as <-. rewrite write_at, Nat.eqb_refl.
          assert (X : inr 0 (size F d1) i = true) by (apply inr_spec; lia). now rewrite X.
      + cbn [andb]. destruct (flazy F d1) as [fv|] eqn:Efl.
        * assert (Hp1 : pend F d1 = Some (Fill fv)) by (unfold pend; now rewrite Ez, Efl).
          eexists. split; [reflexivity|]. cbn [SyncModel.root SyncModel.heap SyncModel.next].
          cbn [upd_node upd].
          destruct (FIN (set_flags F (zlazy F d1) None d1)
                      (write V (heap s) (mkarr (next s) 0) (size F d1) (fun _ => litval (fst (k, @nil (nat * nat))) (Fill fv))))
            as (Q1 & Q2 & Q3); auto.
          -- unfold pend. cbn. now rewrite Ez.
          -- intros i l Hi Hl. rewrite Hp1 in Hl. injection Hl as <-. rewrite write_at, Nat.eqb_refl.
             assert (X : inr 0 (size F d1) i = true) by (apply inr_spec; lia). now rewrite X.
        * assert (Hp1 : pend F d1 = None) by (unfold pend; now rewrite Ez, Efl).
          rewrite L1. cbn [Nat.ltb Nat.leb].
          eexists. split; [reflexivity|]. cbn [SyncModel.root SyncModel.heap SyncModel.next].
          destruct (FIN d1 (heap s)) as (Q1 & Q2 & Q3); auto.
          intros i l Hi Hl. congruence.
    - (* children *)
      clear Hf. cbn [andb].
      assert (Kne : tkids F r1 = [] -> pend F (tdata F r1) = None).
      { intro X. exfalso. unfold has_family in KK. rewrite X in KK. discriminate. }
      assert (W1 : wf F 0 r1) by (eapply wf_skel; [symmetry; exact Sk|exact W]).
      destruct (evaluate_ok V F litval k (next s) [] r1 (heap s) (k, []) 0 r1 W1
                  (alln_impl F _ _ (only_hp F k (next s)) _ _ _ A1) Kne eq_refl) as (r2 & h2 & E & Z).
      unfold evaluate in E. rewrite KK in E. cbn [andb] in E.
      assert (E2 : (if check_zf F [] r1
                    then let (r, h) := trav_at V F litval [] r1 (heap s) in mkst V F r h (S (next s))
                    else mkst V F r1 (heap s) (S (next s))) = mkst V F r2 h2 (S (next s))).
      { destruct (check_zf F [] r1).
        - now rewrite E.
        - injection E as <- <-. reflexivity. }
      rewrite E2. clear E2. destruct Z as (Z1 & Z2 & Z3 & Z4 & Z5 & (t1' & L' & N') & Z7).
      cbn in L'. injection L' as <-.
      assert (A2 : alln F (ONLY k (next s)) 0 (k, []) r2) by (apply Z2; auto).
      assert (MM : skel r2 = skel (root s) /\ noflag F r2 /\ Mat k (next s) (mkst V F r2 h2 (S (next s))) (setc k (cells sp))).
      { split; [congruence|]. split; auto. apply mat_only; auto. intros i Hi.
        rewrite (skel_size F r2 (root s)) in Hi by congruence. specialize (View i Hi).
        destruct (setc k (cells sp) i) as [|l|v]; auto. destruct View as (l & V1 & ->).
        assert (Hi1 : i < ksize F r1) by (now rewrite (skel_size F _ _ Sk)).
        specialize (Z5 i Hi1). unfold SyncProofs2.view in Z5. rewrite V1, (noflag_pendat F _ _ _ N') in Z5. exact Z5. }
      exists (mkst V F r2 h2 (S (next s))). split; [|tauto].
      destruct wo; [reflexivity|]. cbn [SyncModel.root SyncModel.heap SyncModel.next sub].
      destruct r2 as [n2 d2 cs2]. apply alln_inv in A2 as [(X1 & X2 & b & X3) _]. cbn [tdata].
      rewrite X3. cbn [kget]. rewrite key_eqb_refl. destruct b; [reflexivity|].
      apply noflag_inv in N' as [Np _]. destruct (pend_none_flags F _ Np) as [Nz Nf].
      rewrite Nz, Nf, andb_false_r. cbn [length Nat.ltb Nat.leb].
      destruct (has_family F [] (Node F n2 d2 cs2)); reflexivity.
  Qed.
End P5.
