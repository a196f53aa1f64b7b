(* The invariant of the synchronised array and the reading calls. *)
From Coq Require Import List Arith Bool Lia.
From Verif Require Import SyncModel SyncSpec SyncProofs SyncProofs2.
Import ListNotations.

Section P3.
  Variables V F : Type.
  Variable conv : nat -> nat -> V -> V.
  Variable litval : nat -> lit F -> V.
  Hypothesis conv_same : forall k v, conv k k v = v.
  Notation nd := (nd F).
  Notation tree := (tree F).
  Notation heapT := (nat -> nat -> V).
  Notation state := (state V F).
  Notation sst := (sst V F).
  Notation root := (root V F).
  Notation heap := (heap V F).
  Notation next := (next V F).
  Notation cells := (cells V F).
  Notation wins := (wins V F).
  Notation fresh := (fresh V F).
  Notation stype := (stype V F).
  Notation HP := (HP F).
  Notation ONLY := (ONLY F).
  Notation view := (view V F litval).

  (* Keys along a path. *)
  Fixpoint keyat (q : list nat) (kk : key) (t : tree) : key :=
    match q with
    | [] => kk
    | n :: q =>
        match find (named F n) (tkids F t) with
        | Some c => keyat q (ext kk (koff F c) (ksize F c)) c
        | None => kk
        end
    end.

  Lemma keyat_skel q : forall kk t t', skel F t = skel F t' -> keyat q kk t = keyat q kk t'.
  Proof.
    induction q as [|n q IH]; intros kk t t' H; cbn; auto.
    assert (K : map (skel F) (tkids F t) = map (skel F) (tkids F t')).
    { destruct t, t'. cbn in *. now injection H. }
    pose proof (find_map_skel F n _ _ K) as Hf.
    destruct (find (named F n) (tkids F t)), (find (named F n) (tkids F t')); try contradiction; auto.
    rewrite (skel_off F _ _ Hf), (skel_size F _ _ Hf). now apply IH.
  Qed.

  Lemma find_self (cs : list tree) c :
    NoDup (map (tname F) cs) -> In c cs -> find (named F (tname F c)) cs = Some c.
  Proof.
    intros Hn Hc. destruct (find (named F (tname F c)) cs) as [x|] eqn:E.
    - f_equal. symmetry. eapply find_uniq; eauto. unfold named. apply Nat.eqb_refl.
    - exfalso. apply (find_none _ _ E c) in Hc. unfold named in Hc. now rewrite Nat.eqb_refl in Hc.
  Qed.

  Lemma alln_paths (P : nat -> key -> nd -> Prop) : forall t o kk,
    wf F o t ->
    (alln F P o kk t <-> forall q a x, loc F q o t = Some (a, x) -> P a (keyat q kk t) (tdata F x)).
  Proof.
    apply (tree_ind2 F (fun t => forall o kk, wf F o t ->
      (alln F P o kk t <-> forall q a x, loc F q o t = Some (a, x) -> P a (keyat q kk t) (tdata F x)))).
    intros n d cs IH o kk W. pose proof (wf_inv F _ _ _ _ W) as (Wn & _ & _ & _ & Wk). split.
    - intro A. apply alln_inv in A as [A B]. intros q a x L. destruct q as [|m q]; cbn in *.
      + now injection L as <- <-.
      + destruct (find (named F m) cs) as [c|] eqn:E; [|discriminate].
        apply find_named in E as [Hc _]. specialize (B c Hc). rewrite (IH c Hc _ _ (Wk c Hc)) in B. auto.
    - intro H. constructor.
      + apply (H [] o (Node F n d cs) eq_refl).
      + intros c Hc. apply (IH c Hc _ _ (Wk c Hc)). intros q a x L.
        specialize (H (tname F c :: q) a x). cbn in H. rewrite (find_self cs c Wn Hc) in H. auto.
  Qed.

  (* What a call to the lazy evaluation guarantees. *)
  Definition Lz (k m : nat) (p : list nat) (r : tree) (h : heapT) (r2 : tree) (h2 : heapT) (o1 : nat) (n1 : nat) : Prop :=
    skel F r2 = skel F r /\
    (forall P : nat -> key -> nd -> Prop, (forall o kk d, P o kk d -> P o kk (clear_flags F d)) ->
       forall kk, alln F P 0 kk r -> alln F P 0 kk r2) /\
    (forall q a x', loc F q 0 r2 = Some (a, x') ->
       exists x, loc F q 0 r = Some (a, x) /\
         (tdata F x' = tdata F x \/ tdata F x' = clear_flags F (tdata F x))) /\
    (forall mm i, mm <> m -> h2 mm i = h mm i) /\
    (forall i, i < ksize F r -> view k m r2 h2 0 i = view k m r h 0 i) /\
    (exists t1', loc F p 0 r2 = Some (o1, t1') /\ noflag F t1') /\
    (forall i, o1 <= i < o1 + n1 -> pendat F 0 r2 i = None).

  Definition evaluate (p : list nat) (r : tree) (h : heapT) : tree * heapT :=
    if has_family F p r && check_zf F p r then trav_at V F litval p r h else (r, h).

  Lemma evaluate_ok k m p r h kk o1 t1 :
    wf F 0 r -> alln F (HP k m) 0 kk r -> (tkids F r = [] -> pend F (tdata F r) = None) ->
    loc F p 0 r = Some (o1, t1) ->
    exists r2 h2, evaluate p r h = (r2, h2) /\ Lz k m p r h r2 h2 o1 (ksize F t1).
  Proof.
    intros W A Hr L. unfold evaluate.
    assert (ID : noflag F t1 -> lp F p r = None -> Lz k m p r h r h o1 (ksize F t1)).
    { intros N E. split; auto. split; auto. split; [|split; [|split; [|split]]]; auto.
      - intros q a x' Lq. exists x'. auto.
      - exists t1. auto.
      - intros i Hi. rewrite (pendat_loc F p 0 r o1 t1 i W L Hi), (noflag_pendat F _ _ _ N). exact E. }
    destruct (has_family F p r) eqn:Ef; cbn.
    - destruct (check_zf F p r) eqn:Ec.
      + destruct (trav_at V F litval p r h) as [r2 h2] eqn:Et. exists r2, h2. split; auto.
        destruct (trav_at_ok V F litval k m p r 0 kk h r2 h2 o1 t1 W A L Et)
          as (I1 & I2 & I3 & I4 & I5 & I6 & I7 & I8).
        split; auto. split; auto. split; auto. split; auto. split; auto.
        intros i Hi. apply I5. lia.
      + exists r, h. split; auto. destruct (check_none F p 0 r o1 t1 L Ec) as [N E]. now apply ID.
    - exists r, h. split; auto. unfold has_family in Ef. destruct p; [|discriminate].
      cbn in L. injection L as <- <-. destruct r as [n d cs]. cbn in *.
      destruct cs; [|discriminate]. apply ID; auto. constructor; auto. intros c [].
  Qed.

  (* Copies under other keys than the head are complete. *)
  Definition CP (k m : nat) (h : heapT) (cs : nat -> cell V F) (nxt o : nat) (kk : key) (d : nd) : Prop :=
    forall k2 a b, kget k2 (arrs F d) = Some (a, b) -> k2 <> kk ->
      b = true /\ aoff a = 0 /\ amem a <> m /\ amem a < nxt /\
      forall j v, j < size F d -> cs (o + j) = Val V F v -> h (amem a) j = conv k (fst k2) v.

  Definition PP k m h cs nxt o kk d : Prop := HP k m o kk d /\ CP k m h cs nxt o kk d.

  Lemma only_pp k m h cs nxt o kk d : ONLY k m o kk d -> PP k m h cs nxt o kk d.
  Proof.
    intro H. split; [now apply only_hp|]. destruct H as (_ & _ & b & E).
    intros k2 a b2 Hk Hne. exfalso. rewrite E in Hk. cbn in Hk.
    destruct (key_eqb kk k2) eqn:X; [|discriminate]. apply key_eqb_eq in X. congruence.
  Qed.

  Lemma pp_hp k m h cs nxt t o kk : alln F (PP k m h cs nxt) o kk t -> alln F (HP k m) o kk t.
  Proof. apply alln_impl. now intros o0 kk0 d [H _]. Qed.

  Lemma pp_heap k m h h' cs nxt nxt' t o kk :
    (forall mm i, mm <> m -> mm < nxt -> h' mm i = h mm i) -> nxt <= nxt' ->
    alln F (PP k m h cs nxt) o kk t -> alln F (PP k m h' cs nxt') o kk t.
  Proof.
    intros H Hn. apply alln_impl. intros o0 kk0 d [H1 H2]. split; auto.
    intros k2 a b Hk Hne. destruct (H2 k2 a b Hk Hne) as (C1 & C2 & C3 & C4 & C5).
    split; auto. split; auto. split; auto. split; [lia|].
    intros j v Hj Hv. rewrite H by auto. auto.
  Qed.

  Definition cell_ok (k m : nat) (r : tree) (h : heapT) (c : cell V F) (i : nat) : Prop :=
    match c with Unset _ _ => True | Val _ _ v => view k m r h 0 i = v | Lit _ _ _ => False end.

  Definition Mat (k m : nat) (s : state) (cs : nat -> cell V F) : Prop :=
    m < next s /\ pend F (tdata F (root s)) = None /\
    alln F (PP k m (heap s) cs (next s)) 0 (k, []) (root s) /\
    forall i, i < ksize F (root s) -> cell_ok k m (root s) (heap s) (cs i) i.

  Definition Unm (s : state) (cs : nat -> cell V F) : Prop :=
    une F (root s) /\
    (pend F (tdata F (root s)) = Some Zero -> flazy F (tdata F (root s)) = None) /\
    forall i, i < ksize F (root s) ->
      match cs i with
      | Unset _ _ => True
      | Lit _ _ l => pendat F 0 (root s) i = Some l
      | Val _ _ _ => False
      end.

  Definition winof (x : nat * tree) : nat * nat := (fst x, ksize F (snd x)).

  Definition RW (r : tree) (ws : list (list nat * (nat * nat))) : Prop :=
    wf F 0 r /\ offset F (tdata F r) = 0 /\
    (forall p, win p ws = option_map winof (loc F p 0 r)) /\
    NoDup (map fst ws).

  Definition RF (r : tree) (fr : list (list nat)) : Prop :=
    forall p o t, p <> [] -> loc F p 0 r = Some (o, t) -> pend F (tdata F t) <> None -> In p fr.

  Definition R (s : state) (sp : sst) : Prop :=
    RW (root s) (wins sp) /\ RF (root s) (fresh sp) /\
    match stype sp with
    | None => Unm s (cells sp)
    | Some k => exists m, Mat k m s (cells sp)
    end.

  Lemma rw_skel r r' ws : skel F r' = skel F r -> RW r ws -> RW r' ws.
  Proof.
    intros E (H1 & H2 & H3 & H4). split; [eapply wf_skel; [symmetry; exact E|exact H1]|]. split.
    - pose proof (skel_off F _ _ E) as X. unfold koff in X. congruence.
    - split; auto. intro p. rewrite H3. pose proof (loc_skel F p 0 r r' (eq_sym E)) as L.
      destruct (loc F p 0 r) as [[a x]|], (loc F p 0 r') as [[b y]|]; try contradiction; auto.
      destruct L as [-> L]. cbn. unfold winof. cbn. now rewrite (skel_size F _ _ L).
  Qed.

  Lemma rw_win r ws p w : RW r ws -> win p ws = Some w ->
    exists t, loc F p 0 r = Some (fst w, t) /\ ksize F t = snd w.
  Proof.
    intros (_ & _ & H & _) E. rewrite H in E. destruct (loc F p 0 r) as [[a x]|]; [|discriminate].
    cbn in E. injection E as <-. exists x. auto.
  Qed.

  Lemma rw_none r ws p : RW r ws -> win p ws = None -> sub F p r = None.
  Proof.
    intros (_ & _ & H & _) E. rewrite H in E. rewrite (loc_sub F p 0).
    destruct (loc F p 0 r); [discriminate|reflexivity].
  Qed.

  (* Changes of a node that only touch bookkeeping. *)
  Definition inert (f : nd -> nd) : Prop :=
    keeps F f /\ keepsf F f /\
    forall d, head F (f d) = head F d /\ arrs F (f d) = arrs F d /\ flazy F (f d) = flazy F d.

  Lemma inert_pp f k m h cs nxt o kk d : inert f -> PP k m h cs nxt o kk d -> PP k m h cs nxt o kk (f d).
  Proof.
    intros (I1 & I2 & I3) [H1 H2]. destruct (I3 d) as (E1 & E2 & _). destruct (I1 d) as [E3 E4].
    split.
    - destruct H1 as (A & B & C). split; [congruence|]. split; auto. now rewrite E2.
    - intros k2 a b. rewrite E2, E3. apply H2.
  Qed.

  Lemma find_map_pres n (g : tree -> tree) cs :
    (forall c, tname F (g c) = tname F c) ->
    find (named F n) (map g cs) = option_map g (find (named F n) cs).
  Proof.
    intro H. induction cs as [|c cs IH]; cbn; auto. unfold named at 1. rewrite H.
    fold (named F n c). now destruct (named F n c).
  Qed.

  (* A tree with the same flags node by node. *)
  Lemma samef_skel : forall t t', samef F t t' -> skel F t' = skel F t.
  Proof.
    apply (tree_ind2 F (fun t => forall t', samef F t t' -> skel F t' = skel F t)).
    intros n d cs IH t' S. inversion S as [? ? ? ? d' cs' E1 Hz Ho Hp Hk]; subst. cbn.
    rewrite Hz, Ho. f_equal. clear S. induction Hk as [|a b l l' Hab Hl IHl]; cbn; auto. f_equal.
    - apply IH; auto. now left.
    - apply IHl. intros c Hc. apply IH. now right.
  Qed.

  Lemma samef_find n cs cs' c' :
    Forall2 (samef F) cs cs' -> find (named F n) cs' = Some c' ->
    exists c, find (named F n) cs = Some c /\ samef F c c'.
  Proof.
    induction 1 as [|a b l l' Hab Hl IH]; cbn; [discriminate|].
    assert (E : named F n a = named F n b).
    { unfold named. now rewrite (skel_name F _ _ (samef_skel _ _ Hab)). }
    rewrite <- E. destruct (named F n a); auto. intros [= <-]. eauto.
  Qed.

  Lemma samef_loc q : forall o t t' a x', samef F t t' -> loc F q o t' = Some (a, x') ->
    exists x, loc F q o t = Some (a, x) /\ samef F x x'.
  Proof.
    induction q as [|n q IH]; intros o t t' a x' S L; cbn in *.
    - injection L as <- <-. eauto.
    - inversion S as [? d cs ? d' cs' E1 Hz Ho Hp Hk]; subst. cbn in *.
      destruct (find (named F n) cs') as [c'|] eqn:E; [|discriminate].
      destruct (samef_find _ _ _ _ Hk E) as (c & -> & Sc).
      rewrite (skel_off F _ _ (samef_skel _ _ Sc)) in L. eauto.
  Qed.

  Lemma samef_pend t t' : samef F t t' -> pend F (tdata F t') = pend F (tdata F t).
  Proof. intro S. inversion S; subst. cbn. congruence. Qed.

  Lemma rf_samef r r' fr : samef F r r' -> RF r fr -> RF r' fr.
  Proof.
    intros S H p o t Hp L Hf. destruct (samef_loc p 0 r r' o t S L) as (x & Lx & Sx).
    apply (H p o x Hp Lx). now rewrite <- (samef_pend _ _ Sx).
  Qed.

  Lemma mat_samef k m s cs r' :
    Mat k m s cs -> samef F (root s) r' ->
    alln F (PP k m (heap s) cs (next s)) 0 (k, []) r' ->
    Mat k m (mkst V F r' (heap s) (next s)) cs.
  Proof.
    intros (M1 & M2 & M3 & M4) S A. split; auto. split.
    - cbn. now rewrite (samef_pend _ _ S).
    - split; auto. cbn. intros i Hi. rewrite (skel_size F _ _ (samef_skel _ _ S)) in Hi.
      specialize (M4 i Hi). unfold cell_ok, SyncProofs2.view in *.
      now rewrite <- (samef_pendat F _ _ 0 i S).
  Qed.

  Lemma inert_R p f s sp :
    inert f -> R s sp -> R (mkst V F (upd_node F p f (root s)) (heap s) (next s)) sp.
  Proof.
    intros I (H1 & H2 & H3). pose proof I as (I1 & I2 & I3).
    pose proof (samef_upd_node F p f (root s) I1 I2) as S.
    split; [|split]; cbn.
    - eapply rw_skel; [|exact H1]. now apply samef_skel.
    - now apply rf_samef with (root s).
    - destruct (stype sp) as [k|].
      + destruct H3 as (m & M). exists m. apply mat_samef; auto. destruct M as (_ & _ & M & _).
        apply alln_upd_node; auto. intros. now apply inert_pp.
      + destruct H3 as (U1 & U0 & U2). split; [|split]; cbn.
        * clear -U1 I I3. revert p. induction U1 as [n d cs E K IH]; intros p.
          destruct p as [|m p]; cbn; constructor; auto.
          -- destruct (I3 d) as (_ & -> & _). exact E.
          -- intros c Hc. apply in_map_iff in Hc as (x & <- & Hx). destruct (named F m x); auto.
             apply (IH x Hx p).
        * rewrite (samef_pend _ _ S). intro Hp. destruct p as [|q p]; destruct (root s) as [n d cs]; cbn in *; auto.
          destruct (I3 d) as (_ & _ & ->). auto.
        * intros i Hi. rewrite (skel_size F _ _ (samef_skel _ _ S)) in Hi.
          specialize (U2 i Hi). rewrite <- (samef_pendat F _ _ 0 i S). exact U2.
  Qed.

  (* The key used at p when the array has type k0. *)
  Lemma desc_key_mat p k k0 (P : nat -> key -> nd -> Prop) r o1 t1 kk' :
    head F (tdata F r) = Some (k0, []) ->
    (p <> [] -> exists pt pk, sub F (removelast p) r = Some pt /\
       head F (tdata F pt) = Some pk /\ kk' = ext pk (koff F t1) (ksize F t1)) ->
    (p = [] -> kk' = (k0, [])) ->
    loc F p 0 r = Some (o1, t1) ->
    desc_key F p k r (tdata F t1) = Some (if Nat.eqb k0 k then kk' else (k, [])).
  Proof.
    intros Hr Hp Hn L. unfold desc_key. destruct p as [|n p].
    - rewrite (Hn eq_refl). destruct (Nat.eqb k0 k) eqn:E; auto. apply Nat.eqb_eq in E. now subst.
    - rewrite Hr. unfold key_eqb. cbn [fst snd offs_eqb]. rewrite andb_true_r.
      destruct (Nat.eqb k0 k) eqn:E; auto.
      destruct (Hp ltac:(discriminate)) as (pt & pk & -> & -> & ->). reflexivity.
  Qed.

  Lemma mat_at k0 m s cs p o1 t1 :
    wf F 0 (root s) -> Mat k0 m s cs -> loc F p 0 (root s) = Some (o1, t1) ->
    exists kk, PP k0 m (heap s) cs (next s) o1 kk (tdata F t1) /\
      (forall k, desc_key F p k (root s) (tdata F t1) = Some (if Nat.eqb k0 k then kk else (k, []))) /\
      has_head F (tdata F t1) = true /\ kk = keyat p (k0, []) (root s).
  Proof.
    intros W (M1 & M2 & M3 & M4) L.
    destruct (alln_loc F _ p 0 (k0, []) (root s) o1 t1 W M3 L) as (kk & A & Hf & Hnil & Hpar & _).
    assert (HH : PP k0 m (heap s) cs (next s) o1 kk (tdata F t1)).
    { destruct t1. now apply alln_inv in A. }
    exists kk. split; auto. split; [|split].
    - intro k. apply (desc_key_mat p k k0 (HP k0 m) (root s) o1 t1 kk); auto.
      + destruct (root s). apply alln_inv in M3 as [[M3 _] _]. now destruct M3.
      + intro Hp. destruct (Hpar Hp) as (po & pk & pt & Lp & Ap & ->).
        exists pt, pk. split; [eapply loc_some_sub; eauto|]. split; auto.
        destruct pt. apply alln_inv in Ap as [[Ap _] _]. now destruct Ap.
    - eapply hp_has_head. apply HH.
    - clear -L M3 W Hnil Hpar Hf A. revert L W M3 A Hnil Hpar. generalize 0 as o.
      intros o L W M3 A Hnil Hpar.
      (* the key is determined by the path *)
      destruct p as [|n p]; [now apply Hnil|].
      destruct (Hpar ltac:(discriminate)) as (po & pk & pt & Lp & Ap & ->).
      pose proof (proj1 (alln_paths _ (root s) o (k0, []) W) M3) as Q.
      pose proof (Q _ _ _ Lp) as [(Q1 & _) _].
      destruct pt as [pn pd pcs]. apply alln_inv in Ap as [[(Ap & _) _] _]. cbn in Q1. rewrite Ap in Q1.
      injection Q1 as ->.
      clear -L Lp. revert Lp L. generalize (root s) as t. generalize (k0, @nil (nat * nat)) as kk.
      revert n o. induction p as [|n' p IH]; intros n o kk t Lp L.
      + cbn [removelast loc keyat] in *. injection Lp as -> ->. cbn [tkids] in *.
        destruct (find (named F n) pcs) as [c|]; [|discriminate].
        injection L as <- <-. reflexivity.
      + change (removelast (n :: n' :: p)) with (n :: removelast (n' :: p)) in *.
        cbn [loc keyat] in *. destruct (find (named F n) (tkids F t)) as [c|]; [|discriminate].
        eapply IH; eauto.
  Qed.
  Lemma mat_evaluate k m p s sp o1 t1 :
    RW (root s) (wins sp) -> RF (root s) (fresh sp) -> Mat k m s (cells sp) ->
    loc F p 0 (root s) = Some (o1, t1) ->
    exists r2 h2, evaluate p (root s) (heap s) = (r2, h2) /\
      Lz k m p (root s) (heap s) r2 h2 o1 (ksize F t1) /\
      RW r2 (wins sp) /\ RF r2 (fresh sp) /\ Mat k m (mkst V F r2 h2 (next s)) (cells sp).
  Proof.
    intros HW HF (M1 & M2 & M3 & M4) L. pose proof (proj1 HW) as W.
    destruct (evaluate_ok k m p (root s) (heap s) (k, []) o1 t1 W (pp_hp _ _ _ _ _ _ _ _ M3)
                (fun _ => M2) L) as (r2 & h2 & E & Z).
    exists r2, h2. split; auto. split; auto. destruct Z as (Z1 & Z2 & Z3 & Z4 & Z5 & Z6 & Z7).
    split; [eapply rw_skel; eauto|]. split.
    - intros q o t Hq Lq Hp. destruct (Z3 q o t Lq) as (x & Lx & [Ex|Ex]).
      + eapply HF; eauto. now rewrite <- Ex.
      + exfalso. apply Hp. now rewrite Ex.
    - split; [exact M1|]. split; [|split].
      + cbn. destruct (Z3 [] 0 r2 eq_refl) as (x & Lx & Ex). cbn in Lx. injection Lx as <-.
        destruct Ex as [->| ->]; auto.
      + cbn. apply pp_heap with (h := heap s) (nxt := next s); auto.
      + cbn. intros i Hi. rewrite (skel_size F _ _ Z1) in Hi. specialize (M4 i Hi).
        unfold cell_ok in *. destruct (cells sp i); auto. now rewrite Z5.
  Qed.

  Lemma pend_none_flags d : pend F d = None -> zlazy F d = false /\ flazy F d = None.
  Proof. unfold pend. destruct (zlazy F d), (flazy F d); intros; try discriminate; auto. Qed.

  (* sync with the type the array has. *)
  Lemma sync_same k m p wo s sp o1 t1 kk :
    RW (root s) (wins sp) -> RF (root s) (fresh sp) -> Mat k m s (cells sp) ->
    loc F p 0 (root s) = Some (o1, t1) -> kk = keyat p (k, []) (root s) ->
    exists s', sync_body V F conv litval p k wo s = Some (s', kk) /\
      RW (root s') (wins sp) /\ RF (root s') (fresh sp) /\ Mat k m s' (cells sp) /\
      skel F (root s') = skel F (root s) /\ next s' = next s /\
      (exists t1', loc F p 0 (root s') = Some (o1, t1') /\ noflag F t1') /\
      (forall i, o1 <= i < o1 + ksize F t1 -> pendat F 0 (root s') i = None) /\
      (forall q a x', loc F q 0 (root s') = Some (a, x') ->
         exists x, loc F q 0 (root s) = Some (a, x) /\
           (tdata F x' = tdata F x \/ tdata F x' = clear_flags F (tdata F x))).
  Proof.
    intros HW HF M L Ek. pose proof (proj1 HW) as W.
    destruct (mat_at k m s (cells sp) p o1 t1 W M L) as (kk0 & HPP & Hdk & Hh & Ek0).
    assert (Exx : kk0 = kk) by congruence. clear Ek0. subst kk0.
    destruct (mat_evaluate k m p s sp o1 t1 HW HF M L) as (r2 & h2 & E & Z & HW2 & HF2 & M2').
    assert (Lsub := loc_some_sub F _ _ _ _ _ L).
    unfold sync_body. rewrite Lsub, Hdk, Nat.eqb_refl.
    destruct HPP as [(Hd1 & Hd2 & b & Hd3) HC]. rewrite Hd3. cbn zeta.
    assert (E2 : (if has_family F p (root s) && check_zf F p (root s)
                  then let (r, h) := trav_at V F litval p (root s) (heap s) in mkst V F r h (next s)
                  else s) = mkst V F r2 h2 (next s)).
    { unfold evaluate in E. destruct (has_family F p (root s) && check_zf F p (root s)).
      - now rewrite E.
      - injection E as <- <-. now destruct s. }
    rewrite E2. clear E2.
    pose proof Z as (Z1 & Z2 & Z3 & Z4 & Z5 & (t1' & L' & N') & Z7).
    destruct wo.
    { exists (mkst V F r2 h2 (next s)). split; auto. split; auto. split; auto. split; auto. split; auto.
      split; auto. split; eauto. }
    cbn [SyncModel.root SyncModel.heap SyncModel.next].
    rewrite (loc_some_sub F _ _ _ _ _ L').
    destruct (mat_at k m (mkst V F r2 h2 (next s)) (cells sp) p o1 t1' (proj1 HW2) M2' L') as (kk2 & HPP2 & _ & _ & Ek2).
    cbn in Ek2. rewrite (keyat_skel p (k, []) r2 (root s) Z1) in Ek2.
    assert (Exx : kk2 = kk) by congruence. clear Ek2. subst kk2.
    destruct HPP2 as [(Hp1 & Hp2 & b2 & Hp3) _]. rewrite Hp3.
    assert (DONE : exists s', Some (mkst V F r2 h2 (next s), kk) = Some (s', kk) /\
      RW (root s') (wins sp) /\ RF (root s') (fresh sp) /\ Mat k m s' (cells sp) /\
      skel F (root s') = skel F (root s) /\ next s' = next s /\
      (exists t1', loc F p 0 (root s') = Some (o1, t1') /\ noflag F t1') /\
      (forall i, o1 <= i < o1 + ksize F t1 -> pendat F 0 (root s') i = None) /\
      (forall q a x', loc F q 0 (root s') = Some (a, x') ->
         exists x, loc F q 0 (root s) = Some (a, x) /\
           (tdata F x' = tdata F x \/ tdata F x' = clear_flags F (tdata F x)))).
    { exists (mkst V F r2 h2 (next s)). split; auto. split; auto. split; auto. split; auto. split; auto.
      split; auto. split; eauto. }
    destruct b2; [exact DONE|].
    assert (Np : pend F (tdata F t1') = None) by (destruct t1'; now apply noflag_inv in N').
    destruct (pend_none_flags _ Np) as [Nz Nf]. rewrite Nz, Nf, andb_false_r.
    assert (X : (if has_family F p r2 then None else @None F) = None) by now destruct (has_family F p r2).
    rewrite X. destruct (Nat.ltb 1 (length (arrs F (tdata F t1')))) eqn:El; [|exact DONE].
    rewrite Hp1. unfold head_arr. rewrite Hp1, Hp3.
    set (h3 := write V h2 (mkarr m o1) (size F (tdata F t1'))
                 (fun j => conv (fst kk) (fst kk) (read V h2 (mkarr m o1) j))).
    assert (Eh : forall mm i, h3 mm i = h2 mm i).
    { intros mm i. unfold h3. rewrite write_at. destruct (Nat.eqb mm m && inr o1 _ i) eqn:Ew; auto.
      apply andb_true_iff in Ew as [Ew1 Ew2]. apply Nat.eqb_eq in Ew1. apply inr_spec in Ew2.
      rewrite conv_same. unfold read. cbn. subst mm. f_equal. lia. }
    exists (mkst V F r2 h3 (next s)). split; auto. split; auto. split; auto. split; [|split; [|split; [|split]]]; eauto.
    destruct M2' as (N1 & N2 & N3 & N4). split; auto. split; auto. split.
    - cbn. apply pp_heap with (h := h2) (nxt := next s); auto.
    - cbn. intros i Hi. specialize (N4 i Hi). unfold cell_ok in *. destruct (cells sp i); auto.
      unfold SyncProofs2.view in *. cbn in *. now rewrite Eh.
  Qed.
End P3.
