(* Writing calls: cast. *)
From Coq Require Import List Arith Bool Lia.
From Verif Require Import SyncModel SyncSpec SyncProofs SyncProofs2 SyncProofs3 SyncProofs4 SyncProofs5 SyncProofs6.
Import ListNotations.

Section P7.
  Variables V F : Type.
  Variable conv : nat -> nat -> V -> V.
  Variable litval : nat -> lit F -> V.
  Hypothesis conv_same : forall k v, conv k k v = v.
  Notation nd := (nd F).
  Notation tree := (tree F).
  Notation heapT := (nat -> nat -> V).
  Notation state := (state V F).
  Notation sst := (sst V F).
  Notation root := (root V F).
  Notation heap := (heap V F).
  Notation next := (next V F).
  Notation cells := (cells V F).
  Notation wins := (wins V F).
  Notation fresh := (fresh V F).
  Notation stype := (stype V F).
  Notation HP := (HP F).
  Notation ONLY := (ONLY F).
  Notation view := (view V F litval).
  Notation PP := (PP V F conv).
  Notation Mat := (Mat V F conv litval).
  Notation Unm := (Unm V F).
  Notation RW := (RW F).
  Notation RF := (RF F).
  Notation R := (R V F conv litval).
  Notation keyat := (keyat F).
  Notation skel := (skel F).
  Notation sync_body := (sync_body V F conv litval).
  Notation sync := (sync V F conv litval).

  Notation setc := (setc V F litval).

  Notation Ready := (Ready V F conv litval).
  Notation cast := (cast V F conv litval).

  Lemma samef_trans : forall a b c, samef F a b -> samef F b c -> samef F a c.
  Proof.
    apply (tree_ind2 F (fun a => forall b c, samef F a b -> samef F b c -> samef F a c)).
    intros n d cs IH b c H1 H2.
    inversion H1 as [? ? ? ? d1 cs1 A1 A2 A3 A4 A5]; subst.
    inversion H2 as [? ? ? ? d2 cs2 B1 B2 B3 B4 B5]; subst.
    constructor; try congruence. clear H1 H2. revert cs2 B5.
    induction A5 as [|x y l l' Hxy Hl IHl]; intros cs2 B5; inversion B5 as [|? z ? l2 Hyz Hl2]; subst; constructor.
    - eapply IH; eauto. now left.
    - apply IHl; auto. intros c Hc. apply IH. now right.
  Qed.

  Lemma samef_list_refl (cs : list tree) : Forall2 (samef F) cs cs.
  Proof. induction cs; constructor; auto. apply samef_refl. Qed.

  (* A change of one node that keeps its pending request. *)
  Lemma samef_at p f : keeps F f -> forall o t o1 t1, wf F o t -> loc F p o t = Some (o1, t1) ->
    pend F (f (tdata F t1)) = pend F (tdata F t1) -> samef F t (upd_node F p f t).
  Proof.
    intros K. induction p as [|n p IH]; intros o t o1 t1 W L H; destruct t as [m d cs].
    - cbn in L. injection L as <- <-. cbn. destruct (K d) as [K1 K2].
      constructor; auto. apply samef_list_refl.
    - cbn in L. destruct (find (named F n) cs) as [c|] eqn:E; [|discriminate].
      destruct (wf_inv F _ _ _ _ W) as (Wn & _ & _ & _ & Wk).
      unfold upd_node. cbn [upd]. constructor; auto. apply samef_map. intros x Hx.
      destruct (named F n x) eqn:En; [|apply samef_refl].
      assert (x = c) by (eapply find_uniq; eauto). subst x.
      eapply (IH _ c); eauto.
  Qed.

  Lemma zing_inert b : inert F (set_zing F b).
  Proof. split; [intro; split; reflexivity|]. split; [intro; reflexivity|]. intro d. auto. Qed.

  Lemma only_inert f k m o kk d : inert F f -> ONLY k m o kk d -> ONLY k m o kk (f d).
  Proof.
    intros (_ & _ & I) (H1 & H2 & H3). destruct (I d) as (E1 & E2 & _).
    split; [congruence|]. split; auto. now rewrite E2.
  Qed.

  (* The propagation of the zeroing flag changes nothing that matters. *)
  Lemma zing_line b p t : samef F t (line F p (set_zing F b) (upd F p (all_nodes F (set_zing F b)) t)).
  Proof.
    destruct (zing_inert b) as (I1 & I2 & _).
    eapply samef_trans; [|apply samef_line; auto].
    apply samef_upd. intro x. now apply samef_all_nodes.
  Qed.

  Lemma zing_line_alln (P : nat -> key -> nd -> Prop) b p t o kk :
    (forall o kk d, P o kk d -> P o kk (set_zing F b d)) ->
    alln F P o kk t -> alln F P o kk (line F p (set_zing F b) (upd F p (all_nodes F (set_zing F b)) t)).
  Proof.
    intros H A. destruct (zing_inert b) as (I1 & _ & _).
    apply alln_line; auto. apply alln_upd; auto.
    - intro x. now apply all_nodes_skel.
    - intros x o' kk' Hx. now apply (alln_all_nodes F P P).
  Qed.

  (* What cast establishes, before the caller writes. *)
  Definition Cast (k m : nat) (s' : state) (cs : nat -> cell V F)
      (ws : list (list nat * (nat * nat))) (fr : list (list nat)) (w : nat * nat) : Prop :=
    RW (root s') ws /\ RF (root s') fr /\ alln F (ONLY k m) 0 (k, []) (root s') /\ m < next s' /\
    pend F (tdata F (root s')) = None /\
    (forall i, inwin w i = true -> pendat F 0 (root s') i = None) /\
    forall i, i < ksize F (root s') -> cell_ok V F litval k m (root s') (heap s') (cs i) i.

  Lemma inwin_spec w i : inwin w i = true <-> fst w <= i < fst w + snd w.
  Proof using. clear. unfold inwin. rewrite andb_true_iff, Nat.leb_le, Nat.ltb_lt. tauto. Qed.

  Definition ccells (wo : bool) (k : nat) (sp : sst) (w : nat * nat) (i : nat) : cell V F :=
    if inwin w i then
      if wo then Unset V F
      else match rd V F conv k sp i with Some v => Val V F v | None => Unset V F end
    else cells sp i.

  Lemma samef_kids_noflag t t' : samef F t t' -> (forall x, In x (tkids F t) -> noflag F x) ->
    forall c, In c (tkids F t') -> noflag F c.
  Proof using.
    clear conv_same conv litval V.
    intros S. inversion S as [? d cs ? d' cs' _ _ _ _ H]; subst. cbn. intros NF c Hc.
    clear S. revert NF Hc. induction H as [|x y lx ly Hxy Hl IH]; intros NF Hc; [destruct Hc|].
    destruct Hc as [<-|Hc].
    - eapply samef_noflag; eauto. apply NF. now left.
    - apply IH; auto. intros z Hz. apply NF. now right.
  Qed.

  (* The tree work of cast at a child. *)
  Lemma cast_child_tail k m p r o1 t1 kk (same : bool) :
    p <> [] -> wf F 0 r -> alln F (HP k m) 0 (k, []) r -> loc F p 0 r = Some (o1, t1) ->
    pend F (tdata F t1) = None -> kk = keyat p (k, []) r ->
    let r1 := upd_node F p (set_head F (Some kk)) r in
    let r2 := if has_family F p r1 then
                if negb same && is_nil p then create_desc F (clear_desc F false r1)
                else clear_desc F true (upd_node F [] (keep_head F) r1)
              else r1 in
    exists t2 b, sub F p r2 = Some t2 /\ kget kk (arrs F (tdata F t2)) = Some (mkarr m o1, b) /\
      let f d := set_cleared F false (set_count F 1 (set_arrs F [(kk, (mkarr m o1, true))] (clear_all F d))) in
      let r3 := upd_node F p f r2 in
      let r4 := line F p (set_zing F false) (upd F p (all_nodes F (set_zing F false)) r3) in
      samef F r r4 /\ alln F (ONLY k m) 0 (k, []) r4.
  Proof.
    intros Hp W A L Hpend Ek r1 r2.
    assert (Kh : keeps F (set_head F (Some kk))) by (intro; split; reflexivity).
    assert (S1 : samef F r r1) by (apply samef_upd_node; [exact Kh | intro; reflexivity]).
    pose proof (samef_skel F _ _ S1) as Sk1.
    assert (Ehp : HP k m o1 kk (tdata F t1)).
    { rewrite Ek. exact (proj1 (alln_paths F _ r 0 (k, []) W) A p o1 t1 L). }
    assert (A1 : alln F (HP k m) 0 (k, []) r1).
    { refine (alln_at F _ _ p 0 (k, []) r o1 t1 Kh W A L _). rewrite <- Ek.
      destruct Ehp as (_ & Q2 & Q3). split; auto. }
    assert (E2 : r2 = clear_desc F true (upd_node F [] (keep_head F) r1)).
    { unfold r2. destruct p as [|n p]; [congruence|]. cbn [is_nil]. rewrite andb_false_r. reflexivity. }
    rewrite E2. clear E2 r2.
    assert (S2 : samef F r1 (upd_node F [] (keep_head F) r1)).
    { apply samef_upd_node; [apply keep_head_keeps | apply keep_head_pend]. }
    assert (A2 : alln F (HP k m) 0 (k, []) (upd_node F [] (keep_head F) r1) /\
                 ONLY k m 0 (k, []) (tdata F (upd_node F [] (keep_head F) r1))).
    { destruct r1 as [n d cs]. apply alln_inv in A1 as [A1 B1]. cbn. split.
      - constructor; auto. apply only_hp. now apply keep_head_only.
      - now apply keep_head_only. }
    destruct A2 as [A2 O2]. destruct (clear_desc_true_ok F k m 0 (k, []) _ A2) as (A3 & S3 & K3).
    set (r2 := clear_desc F true (upd_node F [] (keep_head F) r1)) in *.
    assert (A4 : alln F (ONLY k m) 0 (k, []) r2).
    { assert (Ed : tdata F r2 = tdata F (upd_node F [] (keep_head F) r1)).
      { unfold r2. now destruct (upd_node F [] (keep_head F) r1). }
      rewrite <- Ed in O2. destruct r2 as [n d cs]. constructor; auto. }
    assert (S4 : samef F r r2) by (eapply samef_trans; [exact S1|]; eapply samef_trans; eauto).
    pose proof (samef_skel F _ _ S4) as Sk4.
    destruct (loc_skel_some F p 0 r r2 o1 t1 (eq_sym Sk4) L) as (t2 & L2 & _).
    assert (W2 : wf F 0 r2) by (eapply wf_skel; [symmetry; exact Sk4|exact W]).
    assert (O4 : ONLY k m o1 kk (tdata F t2)).
    { rewrite Ek, <- (keyat_skel F p (k, []) r2 r Sk4). exact (proj1 (alln_paths F _ r2 0 (k, []) W2) A4 p o1 t2 L2). }
    pose proof (only_hp F _ _ _ _ _ O4) as (H1 & H2 & b & H3).
    exists t2, b. split; [eapply loc_some_sub; eauto|]. split; [exact H3|]. intros f r3 r4.
    assert (Kf : keeps F f) by (intro; split; reflexivity).
    assert (S5 : samef F r2 r3).
    { eapply (samef_at p f Kf 0 r2); eauto.
      destruct (samef_loc F p 0 r r2 o1 t2 S4 L2) as (x & Lx & Sx). rewrite L in Lx. injection Lx as <-.
      rewrite (samef_pend F _ _ Sx), Hpend. reflexivity. }
    assert (A5 : alln F (ONLY k m) 0 (k, []) r3).
    { refine (alln_at F _ f p 0 (k, []) r2 o1 t2 Kf W2 A4 L2 _).
      rewrite (keyat_skel F p (k, []) r2 r Sk4), <- Ek. destruct O4 as (Q1 & Q2 & _).
      split; [exact Q1|]. split; [exact Q2|]. exists true. reflexivity. }
    split.
    - eapply samef_trans; [exact S4|]. eapply samef_trans; [exact S5|]. apply zing_line.
    - apply zing_line_alln; auto.
  Qed.

  (* The tree work of cast at the root. *)
  Lemma cast_root_tail k m n d cs kx mx kkx (same : bool) b :
    wf F 0 (Node F n d cs) -> (cs <> [] -> offset F d = 0) ->
    kget (k, []) (arrs F d) = Some (mkarr m 0, b) ->
    (forall c, In c cs -> alln F (HP kx mx) (koff F c) (ext kkx (koff F c) (ksize F c)) c /\ noflag F c) ->
    (same = true -> kx = k /\ mx = m /\ kkx = (k, [])) ->
    let r1 := upd_node F [] (set_head F (Some (k, []))) (Node F n d cs) in
    let r2 := if has_family F [] r1 then
                if negb same && is_nil (@nil nat) then create_desc F (clear_desc F false r1)
                else clear_desc F true (upd_node F [] (keep_head F) r1)
              else r1 in
    exists b', kget (k, []) (arrs F (tdata F r2)) = Some (mkarr m 0, b') /\
      let f d := set_cleared F false (set_count F 1 (set_arrs F [((k, []), (mkarr m 0, true))] (clear_all F d))) in
      let r3 := upd_node F [] f r2 in
      let r4 := line F [] (set_zing F false) (upd F [] (all_nodes F (set_zing F false)) r3) in
      skel r4 = skel (Node F n d cs) /\ noflag F r4 /\ alln F (ONLY k m) 0 (k, []) r4.
  Proof using.
    clear conv_same conv litval V.
    intros W Ho Hg Hk Hs r1 r2.
    set (d0 := set_head F (Some (k, [])) d).
    assert (E1 : r1 = Node F n d0 cs) by reflexivity.
    assert (H0 : HP k m 0 (k, []) d0).
    { split; [reflexivity|]. split; [reflexivity|]. exists b. exact Hg. }
    assert (D1 : size F d0 = size F d) by reflexivity.
    assert (D2 : offset F d0 = offset F d) by reflexivity.
    assert (D3 : head F d0 = Some (k, [])) by reflexivity.
    assert (D4 : kget (k, []) (arrs F d0) = Some (mkarr m 0, b)) by exact Hg.
    clearbody d0.
    (* the shape of r2 *)
    assert (T : exists d2 cs2, r2 = Node F n d2 cs2 /\ size F d2 = size F d /\ offset F d2 = offset F d /\
                head F d2 = Some (k, []) /\ (exists b', kget (k, []) (arrs F d2) = Some (mkarr m 0, b')) /\
                map skel cs2 = map skel cs /\
                forall c, In c cs2 -> noflag F c /\ alln F (ONLY k m) (koff F c) (ext (k, []) (koff F c) (ksize F c)) c).
    { unfold r2. rewrite E1. destruct cs as [|c0 cs0] eqn:Ecs.
      - cbn [has_family tkids]. exists d0, []. split; auto. split; auto. split; auto. split; auto.
        split; [eauto|]. split; auto. intros c [].
      - rewrite <- Ecs in *. assert (Hf : has_family F [] (Node F n d0 cs) = true) by (rewrite Ecs; reflexivity).
        rewrite Hf. cbn [is_nil]. rewrite andb_true_r. destruct same.
        + cbn [negb]. destruct (Hs eq_refl) as (-> & -> & ->).
          assert (AH : alln F (HP k m) 0 (k, []) (upd_node F [] (keep_head F) (Node F n d0 cs))).
          { unfold upd_node. cbn [upd]. constructor; [apply only_hp; now apply keep_head_only|]. intros c Hc. now apply Hk. }
          destruct (clear_desc_true_ok F k m 0 (k, []) _ AH) as (A3 & S3 & K3).
          cbn [upd_node upd clear_desc] in *. exists (keep_head F d0), (clear_list F true cs).
          destruct (keep_head_only F _ _ _ _ _ H0) as (Q1 & Q2 & b' & Q3).
          destruct (keep_head_keeps F d0) as [X1 X2].
          split; auto. split; [congruence|]. split; [congruence|].
          split; auto. split; [exists b'; rewrite Q3; cbn [kget]; now rewrite key_eqb_refl|].
          split; [apply clear_list_skel|]. intros c Hc. split; [|now apply K3].
          assert (NF : forall x, In x cs -> noflag F x) by (intros x Hx; now apply Hk).
          exact (samef_kids_noflag _ _ S3 NF c Hc).
        + cbn [negb].
          destruct (clear_desc_false_ok F kx mx 0 kkx n d0 cs (fun c Hc => proj1 (Hk c Hc))) as [C1 C2].
          rewrite C1. set (cs1 := map (clear_tree F false) cs) in *.
          assert (Sk : skel (Node F n d0 cs1) = skel (Node F n d cs)).
          { cbn. rewrite D1, D2. f_equal. unfold cs1. rewrite map_map. apply map_ext. intro x. apply clear_tree_skel. }
          assert (W1 : wf F 0 (Node F n d0 cs1)) by (eapply wf_skel; [symmetry; exact Sk|exact W]).
          assert (Hcs : cs <> []) by (rewrite Ecs; discriminate).
          destruct (create_desc_ok F k m (k, []) n d0 cs1 H0 (fun _ => eq_trans D2 (Ho Hcs)) W1 (fun c Hc => proj1 (C2 c Hc)))
            as [B1 B2].
          exists d0, (tkids F (create_desc F (Node F n d0 cs1))).
          split; auto. split; auto. split; auto. split; auto. split; [eauto|]. split.
          * assert (X : map skel cs1 = map skel cs) by (cbn in Sk; now injection Sk).
            rewrite <- X. cbn. rewrite map_map. apply map_ext. intro x. apply create_kid_skel.
          * intros c Hc. split; [|now apply B1]. cbn [create_desc tkids] in *.
            exact (samef_kids_noflag _ _ B2 (fun x Hx => proj2 (C2 x Hx)) c Hc). }
    destruct T as (d2 & cs2 & E2 & T1 & T2 & T3 & (b' & T4) & T5 & T6).
    exists b'. clearbody r2. subst r2. split; [exact T4|]. intros f r3 r4.
    assert (E3 : r3 = Node F n (f d2) cs2) by reflexivity.
    assert (NF3 : noflag F r3).
    { rewrite E3. constructor; [reflexivity|]. intros c Hc. now apply T6. }
    assert (S4 : samef F r3 r4) by apply zing_line.
    split; [|split].
    - rewrite (samef_skel F _ _ S4), E3. cbn. now rewrite T1, T2, T5.
    - eapply samef_noflag; eauto.
    - apply zing_line_alln; [intros; apply only_inert; auto; apply zing_inert|].
      rewrite E3. constructor.
      + split; [exact T3|]. split; [reflexivity|]. exists true. reflexivity.
      + intros c Hc. now apply T6.
  Qed.
End P7.
