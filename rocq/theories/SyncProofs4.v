(* sync with another type, first use of an array, and get. *)
From Coq Require Import List Arith Bool Lia.
From Verif Require Import SyncModel SyncSpec SyncProofs SyncProofs2 SyncProofs3.
Import ListNotations.

Lemma path_eqb_eq p : forall q, path_eqb p q = true <-> p = q.
Proof.
  induction p as [|x p IH]; intros [|y q]; cbn; split; intro H; try discriminate; auto.
  - apply andb_true_iff in H as [H1 H2]. apply Nat.eqb_eq in H1. apply IH in H2. now subst.
  - injection H as -> ->. rewrite Nat.eqb_refl. now apply IH.
Qed.

Section P4.
  Variables V F : Type.
  Variable conv : nat -> nat -> V -> V.
  Variable litval : nat -> lit F -> V.
  Hypothesis conv_same : forall k v, conv k k v = v.
  Notation nd := (nd F).
  Notation tree := (tree F).
  Notation heapT := (nat -> nat -> V).
  Notation state := (state V F).
  Notation sst := (sst V F).
  Notation root := (root V F).
  Notation heap := (heap V F).
  Notation next := (next V F).
  Notation cells := (cells V F).
  Notation wins := (wins V F).
  Notation fresh := (fresh V F).
  Notation stype := (stype V F).
  Notation HP := (HP F).
  Notation ONLY := (ONLY F).
  Notation view := (view V F litval).
  Notation PP := (PP V F conv).
  Notation CP := (CP V F conv).
  Notation Mat := (Mat V F conv litval).
  Notation Unm := (Unm V F).
  Notation RW := (RW F).
  Notation RF := (RF F).
  Notation R := (R V F conv litval).
  Notation keyat := (keyat F).
  Notation evaluate := (evaluate V F litval).
  Notation Lz := (Lz V F litval).
  Notation skel := (skel F).

  (* Where the nodes of an updated tree come from. *)
  Lemma loc_upd_data f (Hs : forall t, skel (f t) = skel t) p : forall q o t a x',
    loc F q o (upd F p f t) = Some (a, x') ->
    (exists q' o1 t1, q = p ++ q' /\ loc F p o t = Some (o1, t1) /\ loc F q' o1 (f t1) = Some (a, x')) \/
    ((forall q', q <> p ++ q') /\ exists x, loc F q o t = Some (a, x) /\ tdata F x' = tdata F x).
  Proof.
    induction p as [|n p IH]; intros q o t a x' L.
    - left. exists q, o, t. auto.
    - destruct t as [m d cs]. destruct q as [|n' q].
      + right. split; [discriminate|]. exists (Node F m d cs). cbn in L. injection L as <- <-. auto.
      + cbn [upd loc tkids] in *. destruct (Nat.eq_dec n' n) as [->|Hne].
        * rewrite (find_upd_named F n (upd F p f)) in L by (intro c; apply skel_name, upd_skel; auto).
          destruct (find (named F n) cs) as [c|]; [|discriminate]. cbn in L.
          rewrite (skel_off F (upd F p f c) c) in L by (apply upd_skel; auto).
          destruct (IH _ _ _ _ _ L) as [(q' & o1 & t1 & -> & L1 & L2)|(Hno & x & Lx & E)].
          -- left. exists q', o1, t1. auto.
          -- right. split; [|eauto]. intros q' E'. injection E' as E'. exact (Hno q' E').
        * right. split; [intros q' E; cbn in E; congruence|].
          assert (E : find (named F n') (map (fun c => if named F n c then upd F p f c else c) cs)
                      = find (named F n') cs).
          { clear L. induction cs as [|c cs IHc]; cbn; auto. destruct (named F n c) eqn:En.
            - assert (E1 : named F n' c = false).
              { unfold named in *. apply Nat.eqb_eq in En. rewrite En. now apply Nat.eqb_neq; auto. }
              assert (E2 : named F n' (upd F p f c) = false).
              { unfold named in *. rewrite (skel_name F (upd F p f c) c); auto. apply upd_skel; auto. }
              now rewrite E1, E2.
            - now rewrite IHc. }
          rewrite E in L. destruct (find (named F n') cs) as [c|]; [|discriminate]. eauto.
  Qed.

  Lemma loc_app p : forall q o t, loc F (p ++ q) o t =
    match loc F p o t with Some (o1, t1) => loc F q o1 t1 | None => None end.
  Proof.
    induction p as [|n p IH]; intros q o t; cbn; auto.
    destruct (find (named F n) (tkids F t)); auto.
  Qed.

  Lemma loc_upd_node_data f (K : keeps F f) p q o t a x' :
    loc F q o (upd_node F p f t) = Some (a, x') ->
    exists x, loc F q o t = Some (a, x) /\
      ((q = p /\ tdata F x' = f (tdata F x)) \/ (q <> p /\ tdata F x' = tdata F x)).
  Proof.
    intro L. unfold upd_node in L. apply loc_upd_data in L.
    - destruct L as [(q' & o1 & t1 & -> & L1 & L2)|(Hno & x & Lx & E)].
      + destruct q' as [|n q'].
        * cbn in L2. injection L2 as <- <-. exists t1. rewrite app_nil_r. split; auto. left. split; auto.
          now destruct t1.
        * exists x'. split; [|right; split; auto].
          -- rewrite loc_app, L1. destruct t1 as [tn d cs]. exact L2.
          -- intro E. rewrite <- (app_nil_r p) in E at 2. apply app_inv_head in E. discriminate.
      + exists x. split; auto. right. split; auto. intros ->. apply (Hno []). now rewrite app_nil_r.
    - intros [n d cs]. cbn. destruct (K d) as [-> ->]. reflexivity.
  Qed.

  Lemma alln_at (P : nat -> key -> nd -> Prop) f p o kk t o1 t1 :
    keeps F f -> wf F o t -> alln F P o kk t -> loc F p o t = Some (o1, t1) ->
    P o1 (keyat p kk t) (f (tdata F t1)) -> alln F P o kk (upd_node F p f t).
  Proof.
    intros K W A L H. pose proof (upd_node_skel F p f t K) as S.
    apply alln_paths; [eapply wf_skel; [symmetry; exact S|exact W]|].
    intros q a x' Lq. destruct (loc_upd_node_data f K p q o t a x' Lq) as (x & Lx & [[-> E]|[Hne E]]).
    - rewrite L in Lx. injection Lx as <- <-. rewrite E, (keyat_skel F p kk _ t S). exact H.
    - rewrite E, (keyat_skel F q kk _ t S).
      exact (proj1 (alln_paths F P t o kk W) A q a x Lx).
  Qed.

  Lemma create_desc_id k m o kk t : alln F (HP k m) o kk t -> create_desc F t = t.
  Proof.
    destruct t as [n d cs]. intro A. apply alln_inv in A as [_ B]. cbn. f_equal.
    rewrite <- (map_id cs) at 2. apply map_ext_in. intros c Hc. specialize (B c Hc).
    destruct c as [cn cd ccs]. apply alln_inv in B as [B _]. cbn. now rewrite (hp_has_head F _ _ _ _ _ B).
  Qed.

  Lemma hp_flags k m o kk d : HP k m o kk d -> HP k m o kk (clear_flags F d).
  Proof. auto. Qed.

  (* sync with a type the array does not have. *)
  Lemma sync_other k0 m p k wo s sp o1 t1 :
    RW (root s) (wins sp) -> RF (root s) (fresh sp) -> Mat k0 m s (cells sp) -> k0 <> k ->
    loc F p 0 (root s) = Some (o1, t1) ->
    exists s' a b t1', sync_body V F conv litval p k wo s = Some (s', (k, [])) /\
      skel (root s') = skel (root s) /\ alln F (HP k0 m) 0 (k0, []) (root s') /\
      loc F p 0 (root s') = Some (o1, t1') /\ noflag F t1' /\
      kget (k, []) (arrs F (tdata F t1')) = Some (a, b) /\ aoff a = 0 /\ amem a < next s' /\
      (wo = false ->
        (forall j v, j < ksize F t1 -> cells sp (o1 + j) = Val V F v -> heap s' (amem a) j = conv k0 k v) /\
        RF (root s') (fresh sp) /\
        Mat k0 m (mkst V F (upd_node F p (fun d => set_arrs F (kput (k, []) (a, true) (arrs F d)) d) (root s'))
                    (heap s') (next s')) (cells sp)).
  Proof.
    intros HW HF M Hk L. pose proof (proj1 HW) as W.
    destruct (mat_at V F conv litval k0 m s (cells sp) p o1 t1 W M L) as (kk & HPP & Hdk & Hh & Ek).
    assert (Hkk : fst kk = k0) by (destruct HPP as [(_ & X & _) _]; exact X).
    assert (Hne : (k, []) <> kk) by (intros E; rewrite <- E in Hkk; cbn in Hkk; congruence).
    assert (Lsub := loc_some_sub F _ _ _ _ _ L).
    unfold sync_body. rewrite Lsub, Hdk.
    assert (Enk : Nat.eqb k0 k = false) by now apply Nat.eqb_neq. rewrite Enk.
    destruct (kget (k, []) (arrs F (tdata F t1))) as [[a b]|] eqn:Ecopy.
    - (* the copy exists *)
      destruct (proj2 HPP _ _ _ Ecopy Hne) as (-> & C2 & C3 & C4 & C5).
      destruct (mat_evaluate V F conv litval k0 m p s sp o1 t1 HW HF M L) as (r2 & h2 & E & Z & HW2 & HF2 & M2').
      cbn zeta.
      assert (E2 : (if has_family F p (root s) && check_zf F p (root s)
                    then let (r, h) := trav_at V F litval p (root s) (heap s) in mkst V F r h (next s)
                    else s) = mkst V F r2 h2 (next s)).
      { unfold SyncProofs3.evaluate in E. destruct (has_family F p (root s) && check_zf F p (root s)).
        - now rewrite E.
        - injection E as <- <-. now destruct s. }
      rewrite E2. clear E2.
      pose proof Z as (Z1 & Z2 & Z3 & Z4 & Z5 & (t1' & L' & N') & Z7).
      destruct (Z3 p o1 t1' L') as (x & Lx & Ex). rewrite L in Lx. injection Lx as <-.
      assert (Ea : arrs F (tdata F t1') = arrs F (tdata F t1)) by (destruct Ex as [-> | ->]; reflexivity).
      assert (Es : size F (tdata F t1') = size F (tdata F t1)) by (destruct Ex as [-> | ->]; reflexivity).
      pose proof M2' as (N1 & N2 & N3 & N4).
      exists (mkst V F r2 h2 (next s)), a, true, t1'.
      split. { destruct wo; auto. cbn [SyncModel.root]. rewrite (loc_some_sub F _ _ _ _ _ L'), Ea, Ecopy. reflexivity. }
      split; [exact Z1|]. split; [exact (pp_hp V F conv _ _ _ _ _ _ _ _ N3)|].
      split; [exact L'|]. split; [exact N'|]. split; [now rewrite Ea|]. split; [exact C2|].
      split; [exact C4|]. intros _. split; [|split].
      + intros j v Hj Hv. cbn. rewrite Z4 by exact C3. apply C5; auto.
      + exact HF2.
      + (* putting the same entry back *)
        set (f := fun d => set_arrs F (kput (k, []) (a, true) (arrs F d)) d).
        assert (Kf : keeps F f) by (intro; split; reflexivity).
        assert (Sf : samef F r2 (upd_node F p f r2)) by (apply samef_upd_node; [exact Kf | intro; reflexivity]).
        apply (mat_samef V F conv litval k0 m (mkst V F r2 h2 (next s)) (cells sp) _ M2' Sf).
        cbn in *. refine (alln_at _ f p 0 (k0, []) r2 o1 t1' Kf (proj1 HW2) N3 L' _).
        rewrite (keyat_skel F p _ r2 (root s) Z1), <- Ek.
        pose proof (proj1 (alln_paths F _ r2 0 (k0, []) (proj1 HW2)) N3 p o1 t1' L') as [Q1 Q2].
        rewrite (keyat_skel F p _ r2 (root s) Z1), <- Ek in Q1, Q2.
        unfold f. split.
        * destruct Q1 as (Qa & Qb & b0 & Qc). split; [exact Qa|]. split; [exact Qb|]. exists b0. cbn.
          rewrite kget_kput_other by congruence. exact Qc.
        * intros k2 a2 b2 Hg Hn2. cbn in Hg |- *.
          destruct (key_eqb k2 (k, [])) eqn:Ek2.
          -- apply key_eqb_eq in Ek2. subst k2. rewrite kget_kput in Hg. injection Hg as <- <-.
             rewrite <- Ea in Ecopy. apply (Q2 _ _ _ Ecopy Hn2).
          -- apply key_eqb_neq in Ek2. rewrite kget_kput_other in Hg by exact Ek2. apply (Q2 _ _ _ Hg Hn2).
    - (* a new copy *)
      set (nw := mkarr (next s) 0).
      set (fc := fun d => set_arrs F (kput (k, []) (nw, false) (arrs F d))
                            (if is_nil (arrs F d) then set_head F (Some (k, [])) d else d)).
      set (r1 := upd_node F p fc (root s)).
      assert (Kc : keeps F fc) by (intro d; unfold fc; destruct (is_nil (arrs F d)); split; reflexivity).
      assert (Kcf : keepsf F fc) by (intro d; unfold fc; destruct (is_nil (arrs F d)); reflexivity).
      pose proof (samef_upd_node F p fc (root s) Kc Kcf) as S1. fold r1 in S1.
      pose proof (samef_skel F _ _ S1) as Sk1.
      assert (W1 : wf F 0 r1) by (eapply wf_skel; [symmetry; exact Sk1|exact W]).
      destruct M as (M1 & M2 & M3 & M4).
      assert (Ar : arrs F (tdata F t1) <> []).
      { destruct HPP as [(_ & _ & b & X) _]. destruct (arrs F (tdata F t1)); [discriminate X|discriminate]. }
      assert (Efc : fc (tdata F t1) = set_arrs F (kput (k, []) (nw, false) (arrs F (tdata F t1))) (tdata F t1)).
      { unfold fc. destruct (arrs F (tdata F t1)); [contradiction|reflexivity]. }
      assert (A1 : alln F (HP k0 m) 0 (k0, []) r1).
      { refine (alln_at _ fc p 0 (k0, []) (root s) o1 t1 Kc W (pp_hp V F conv _ _ _ _ _ _ _ _ M3) L _).
        rewrite <- Ek, Efc. destruct HPP as [(Qa & Qb & b0 & Qc) _].
        split; [exact Qa|]. split; [exact Qb|]. exists b0. cbn. rewrite kget_kput_other by congruence. exact Qc. }
      assert (Ecr : (if is_nil p && has_family F p r1 then create_desc F r1 else r1) = r1).
      { destruct (is_nil p && has_family F p r1); auto. eapply create_desc_id; eauto. }
      cbn zeta. match goal with |- context [upd_node F p ?g (root s)] => change (upd_node F p g (root s)) with r1 end. rewrite Ecr. cbn [SyncModel.root SyncModel.heap SyncModel.next].
      destruct (loc_skel_some F p 0 (root s) r1 o1 t1 (eq_sym Sk1) L) as (t1c & L1 & Sk1c).
      assert (P1 : tkids F r1 = [] -> pend F (tdata F r1) = None).
      { intros _. rewrite (samef_pend F _ _ S1). exact M2. }
      destruct (evaluate_ok V F litval k0 m p r1 (heap s) (k0, []) o1 t1c W1 A1 P1 L1) as (r2 & h2 & E & Z).
      assert (E2 : (if has_family F p r1 && check_zf F p r1
                    then let (r, h) := trav_at V F litval p r1 (heap s) in mkst V F r h (S (next s))
                    else mkst V F r1 (heap s) (S (next s))) = mkst V F r2 h2 (S (next s))).
      { unfold SyncProofs3.evaluate in E. destruct (has_family F p r1 && check_zf F p r1).
        - now rewrite E.
        - injection E as <- <-. reflexivity. }
      rewrite E2. clear E2.
      pose proof Z as (Z1 & Z2 & Z3 & Z4 & Z5 & (t1' & L' & N') & Z7).
      assert (Sk2 : skel r2 = skel (root s)) by congruence.
      assert (W2 : wf F 0 r2) by (eapply wf_skel; [symmetry; exact Sk2|exact W]).
      (* data of nodes of r2 *)
      assert (D2 : forall q a x', loc F q 0 r2 = Some (a, x') ->
                exists x, loc F q 0 (root s) = Some (a, x) /\
                  (pend F (tdata F x') <> None -> pend F (tdata F x) <> None) /\
                  head F (tdata F x') = head F (tdata F x) /\
                  size F (tdata F x') = size F (tdata F x) /\
                  ((q = p /\ arrs F (tdata F x') = kput (k, []) (nw, false) (arrs F (tdata F t1))) \/
                   (q <> p /\ arrs F (tdata F x') = arrs F (tdata F x)))).
      { intros q a x' Lq. destruct (Z3 q a x' Lq) as (y & Ly & Ey).
        destruct (loc_upd_node_data fc Kc p q 0 (root s) a y Ly) as (x & Lx & Hx).
        exists x. split; auto.
        destruct Hx as [[-> Hx]|[Hq Hx]].
        - rewrite L in Lx. injection Lx as <- <-. rewrite Efc in Hx.
          destruct Ey as [-> | ->]; rewrite Hx; cbn; (split; [tauto|auto]).
        - destruct Ey as [-> | ->]; rewrite Hx; cbn; (split; [tauto|auto]). }
      destruct (D2 p o1 t1' L') as (x & Lx & _ & Dh & Ds & [[_ Da]|[X _]]); [|congruence].
      rewrite L in Lx. injection Lx as <-.
      assert (Hsz : ksize F t1' = ksize F t1) by exact Ds.
      pose proof (Z2 _ (hp_flags k0 m) _ A1) as A2.
      assert (HNp : pend F (tdata F t1') = None) by (destruct t1'; now apply noflag_inv in N').
      (* final heap *)
      set (h3 := write V h2 nw (size F (tdata F t1'))
                   (fun j => conv k0 k (read V h2 (mkarr m o1) j))).
      exists (mkst V F r2 (if wo then h2 else h3) (S (next s))), nw, false, t1'.
      split.
      { destruct wo; [reflexivity|]. cbn [SyncModel.root SyncModel.heap SyncModel.next].
        rewrite (loc_some_sub F _ _ _ _ _ L'), Da, kget_kput.
        destruct (pend_none_flags F _ HNp) as [Nz Nf]. rewrite Nz, Nf, andb_false_r.
        assert (X : (if has_family F p r2 then None else @None F) = None) by now destruct (has_family F p r2).
        rewrite X. destruct HPP as [(Qa & Qb & b0 & Qc) _].
        assert (El : Nat.ltb 1 (length (kput (k, []) (nw, false) (arrs F (tdata F t1)))) = true).
        { apply Nat.ltb_lt. apply two_keys with (k1 := kk) (k2 := (k, [])) (x1 := (mkarr m o1, b0)) (x2 := (nw, false)).
          - congruence.
          - rewrite kget_kput_other by congruence. exact Qc.
          - apply kget_kput. }
        rewrite El, Dh, Qa. unfold head_arr. rewrite Dh, Qa, Da, kget_kput_other by congruence.
        rewrite Qc, Qb. reflexivity. }
      cbn [SyncModel.root SyncModel.heap SyncModel.next].
      split; [exact Sk2|]. split; [exact A2|]. split; [exact L'|]. split; [exact N'|].
      split; [rewrite Da; apply kget_kput|]. split; [reflexivity|]. split; [cbn; lia|].
      intros ->.
      assert (Hm : m <> next s) by lia.
      assert (H3o : forall mm i, mm <> next s -> h3 mm i = h2 mm i).
      { intros mm i Hmm. unfold h3, nw. rewrite write_at. apply Nat.eqb_neq in Hmm. now rewrite Hmm. }
      assert (CONT : forall j v, j < ksize F t1 -> cells sp (o1 + j) = Val V F v -> h3 (next s) j = conv k0 k v).
      { intros j v Hj Hv. unfold h3, nw. rewrite write_at, Nat.eqb_refl.
        assert (Ei : inr 0 (size F (tdata F t1')) j = true).
        { apply inr_spec. unfold ksize in *. lia. }
        rewrite Ei. cbn. unfold read. cbn. rewrite Nat.sub_0_r. f_equal.
        pose proof (loc_range F _ _ _ _ _ W L) as Rg.
        assert (Hi : o1 + j < ksize F (root s)) by lia.
        specialize (M4 (o1 + j) Hi). unfold cell_ok in M4. rewrite Hv in M4.
        assert (Hv2 : view k0 m r2 h2 0 (o1 + j) = v).
        { rewrite Z5 by (rewrite (skel_size F _ _ Sk1); exact Hi). rewrite <- M4.
          unfold SyncProofs2.view. now rewrite (samef_pendat F _ _ 0 (o1 + j) S1). }
        unfold SyncProofs2.view in Hv2. rewrite Z7 in Hv2; auto.
        rewrite (skel_size F _ _ (eq_sym Sk1c)). unfold ksize in *. lia. }
      split; [exact CONT|]. split.
      + intros q o t Hq Lq Hp. destruct (D2 q o t Lq) as (x & Lx & Dp & _). eapply HF; eauto.
      + set (f := fun d => set_arrs F (kput (k, []) (nw, true) (arrs F d)) d).
        assert (Kf : keeps F f) by (intro; split; reflexivity).
        assert (Sf : samef F r2 (upd_node F p f r2)) by (apply samef_upd_node; [exact Kf | intro; reflexivity]).
        pose proof (samef_skel F _ _ Sf) as Skf.
        split; [cbn; lia|]. split; [|split].
        * cbn. rewrite (samef_pend F _ _ Sf). destruct (D2 [] 0 r2 eq_refl) as (x & Lx & Dp & _).
          cbn in Lx. injection Lx as <-. destruct (pend F (tdata F r2)); auto. exfalso.
          apply Dp in M2; auto. discriminate.
        * cbn. apply alln_paths; [eapply wf_skel; [symmetry; exact Skf|exact W2]|].
          intros q a x' Lq. destruct (loc_upd_node_data f Kf p q 0 r2 a x' Lq) as (y & Ly & Hy).
          rewrite (keyat_skel F q _ _ (root s)) by congruence.
          destruct (D2 q a y Ly) as (x & Lx & _ & Eh & Esz & Hx).
          pose proof (proj1 (alln_paths F _ (root s) 0 (k0, []) W) M3 q a x Lx) as [Q1 Q2].
          destruct Q1 as (Qa & Qb & b0 & Qc).
          destruct Hy as [[-> Hy]|[Hq Hy]].
          -- destruct Hx as [[_ Hx]|[X _]]; [|congruence]. rewrite L in Lx. injection Lx as <- <-.
             rewrite Hy. unfold f. rewrite <- Ek in *. split.
             ++ split; [exact (eq_trans Eh Qa)|]. split; [exact Qb|]. exists b0. cbn.
                rewrite Hx, !kget_kput_other by congruence. exact Qc.
             ++ intros k2 a2 b2 Hg Hn2. cbn in Hg |- *. rewrite Hx in Hg.
                destruct (key_eqb k2 (k, [])) eqn:Ek2.
                ** apply key_eqb_eq in Ek2. subst k2. rewrite kget_kput in Hg. injection Hg as <- <-.
                   split; auto. split; [reflexivity|]. split; [cbn; lia|]. split; [cbn; lia|].
                   intros j v Hj Hv. cbn. apply CONT; auto. rewrite Esz in Hj. exact Hj.
                ** apply key_eqb_neq in Ek2. rewrite !kget_kput_other in Hg by exact Ek2.
                   destruct (Q2 _ _ _ Hg Hn2) as (C1 & C2 & C3 & C4 & C5).
                   split; auto. split; auto. split; auto. split; [lia|].
                   intros j v Hj Hv. rewrite H3o by lia. rewrite Z4 by auto. apply C5; auto. now rewrite <- Esz.
          -- destruct Hx as [[X _]|[_ Hx]]; [congruence|]. rewrite Hy. split.
             ++ split; [exact (eq_trans Eh Qa)|]. split; [exact Qb|]. exists b0. now rewrite Hx.
             ++ intros k2 a2 b2 Hg Hn2. rewrite Hx in Hg.
                destruct (Q2 _ _ _ Hg Hn2) as (C1 & C2 & C3 & C4 & C5).
                split; auto. split; auto. split; auto. split; [lia|].
                intros j v Hj Hv. rewrite H3o by lia. rewrite Z4 by auto. apply C5; auto. now rewrite <- Esz.
        * cbn. intros i Hi. rewrite (skel_size F _ (root s)) in Hi by congruence.
          specialize (M4 i Hi). unfold cell_ok in *. destruct (cells sp i); auto.
          unfold SyncProofs2.view in *. rewrite <- (samef_pendat F _ _ 0 i Sf), H3o by exact Hm.
          specialize (Z5 i). rewrite (skel_size F _ _ Sk1) in Z5. specialize (Z5 Hi).
          unfold SyncProofs2.view in Z5. rewrite Z5, <- (samef_pendat F _ _ 0 i S1). exact M4.
  Qed.
End P4.
