(* clear, narrow, the end of a handle; whole histories. *)
From Coq Require Import List Arith Bool Lia.
From Verif Require Import SyncModel SyncSpec SyncProofs SyncProofs2 SyncProofs3 SyncProofs4 SyncProofs5 SyncProofs6 SyncProofs7 SyncProofs8 SyncProofs9.
Import ListNotations.

Section P10.
  Variables V F : Type.
  Variable conv : nat -> nat -> V -> V.
  Variable litval : nat -> lit F -> V.
  Hypothesis conv_same : forall k v, conv k k v = v.
  Notation nd := (nd F).
  Notation tree := (tree F).
  Notation heapT := (nat -> nat -> V).
  Notation state := (state V F).
  Notation sst := (sst V F).
  Notation root := (root V F).
  Notation heap := (heap V F).
  Notation next := (next V F).
  Notation cells := (cells V F).
  Notation wins := (wins V F).
  Notation fresh := (fresh V F).
  Notation stype := (stype V F).
  Notation HP := (HP F).
  Notation ONLY := (ONLY F).
  Notation view := (view V F litval).
  Notation PP := (PP V F conv).
  Notation Mat := (Mat V F conv litval).
  Notation Unm := (Unm V F).
  Notation RW := (RW F).
  Notation RF := (RF F).
  Notation R := (R V F conv litval).
  Notation keyat := (keyat F).
  Notation skel := (skel F).
  Notation sync_body := (sync_body V F conv litval).
  Notation sync := (sync V F conv litval).

  Notation setc := (setc V F litval).

  Notation Ready := (Ready V F conv litval).
  Notation cast := (cast V F conv litval).


  Lemma win_in p w (l : list (list nat * (nat * nat))) : win p l = Some w -> In (p, w) l.
  Proof using.
    clear. induction l as [|[q x] l IH]; cbn; [discriminate|]. destruct (path_eqb q p) eqn:E; auto.
    apply path_eqb_eq in E. intros [= ->]. left. now subst.
  Qed.

  Lemma in_win p w (l : list (list nat * (nat * nat))) : NoDup (map fst l) -> In (p, w) l -> win p l = Some w.
  Proof using.
    clear. induction l as [|[q x] l IH]; cbn; [tauto|]. intros Hd [E|Hi].
    - injection E as -> ->. assert (X : path_eqb p p = true) by now apply path_eqb_eq. now rewrite X.
    - inversion Hd as [|? ? Hn Hd']; subst. destruct (path_eqb q p) eqn:E.
      + apply path_eqb_eq in E. subst q. exfalso. apply Hn. apply in_map_iff. exists (p, w). auto.
      + now apply IH.
  Qed.

  Lemma win_app p (l : list (list nat * (nat * nat))) q w :
    win p (l ++ [(q, w)]) = match win p l with Some x => Some x | None => if path_eqb q p then Some w else None end.
  Proof using.
    clear. induction l as [|[q' x] l IH]; cbn; [now destruct (path_eqb q p)|]. now destruct (path_eqb q' p).
  Qed.

  Lemma win_none_in p (l : list (list nat * (nat * nat))) : win p l = None -> ~ In p (map fst l).
  Proof using.
    clear. induction l as [|[q x] l IH]; cbn; [tauto|]. destruct (path_eqb q p) eqn:E; [discriminate|].
    intros H [->|Hi]; [|now apply IH]. assert (X : path_eqb p p = true) by now apply path_eqb_eq. congruence.
  Qed.

  Lemma win_filter p q (l : list (list nat * (nat * nat))) :
    win p (filter (fun e => negb (path_eqb (fst e) q)) l) = if path_eqb p q then None else win p l.
  Proof using.
    clear. induction l as [|[q' x] l IH]; cbn; [now destruct (path_eqb p q)|].
    destruct (path_eqb q' q) eqn:E; cbn.
    - rewrite IH. apply path_eqb_eq in E. subst q'. destruct (path_eqb p q) eqn:E2; auto.
      destruct (path_eqb q p) eqn:E3; auto. apply path_eqb_eq in E3. subst.
      assert (X : path_eqb p p = true) by now apply path_eqb_eq. congruence.
    - rewrite IH. destruct (path_eqb q' p) eqn:E2; auto. apply path_eqb_eq in E2. subst q'. now rewrite E.
  Qed.

  Lemma child_of_spec p q : child_of p q = true <-> exists n, q = p ++ [n].
  Proof using.
    clear. unfold child_of. destruct q as [|x q]; split.
    - discriminate.
    - intros [n E]. now destruct p.
    - intro H. apply path_eqb_eq in H. exists (last (x :: q) 0). rewrite <- H. now apply app_removelast_last.
    - intros [n E]. rewrite E, removelast_last. now apply path_eqb_eq.
  Qed.

  (* Changing the children of one node. *)
  Section Kids.
    Variable f : tree -> tree.
    Hypothesis f_name : forall t, tname F (f t) = tname F t.
    Hypothesis f_data : forall t, tdata F (f t) = tdata F t.

    Lemma updk_name p t : tname F (upd F p f t) = tname F t.
    Proof using f_name. now apply upd_name. Qed.

    Lemma updk_data p t : tdata F (upd F p f t) = tdata F t.
    Proof using f_data. destruct p; cbn; auto. now destruct t. Qed.

    Lemma locu_below p : forall q' o t,
      loc F (p ++ q') o (upd F p f t) = match loc F p o t with Some (o1, t1) => loc F q' o1 (f t1) | None => None end.
    Proof using f_name f_data.
      induction p as [|n p IH]; intros q' o t; cbn; auto. destruct t as [m d cs]. cbn [tkids].
      rewrite (find_upd_named F n (upd F p f)) by (intro; apply updk_name).
      destruct (find (named F n) cs) as [c|]; cbn; auto. unfold koff. rewrite updk_data. apply IH.
    Qed.

    Definition dat (x : option (nat * tree)) : option (nat * nd) :=
      match x with Some (a, t) => Some (a, tdata F t) | None => None end.

    Lemma locu_other p : forall q o t, (forall q', q <> p ++ q') ->
      dat (loc F q o (upd F p f t)) = dat (loc F q o t).
    Proof using f_name f_data.
      induction p as [|n p IH]; intros q o t H; [exfalso; now apply (H q)|].
      destruct t as [m d cs]. destruct q as [|n' q]; [reflexivity|]. cbn [upd loc tkids].
      destruct (Nat.eq_dec n' n) as [->|Hne].
      - rewrite (find_upd_named F n (upd F p f)) by (intro; apply updk_name).
        destruct (find (named F n) cs) as [c|]; cbn; auto. unfold koff. rewrite updk_data.
        apply IH. intros q' E. apply (H q'). cbn. now rewrite E.
      - assert (E : find (named F n') (map (fun c => if named F n c then upd F p f c else c) cs)
                    = find (named F n') cs).
        { clear H. induction cs as [|c cs IHc]; cbn; auto. destruct (named F n c) eqn:En.
          - assert (E1 : named F n' c = false).
            { unfold named in *. apply Nat.eqb_eq in En. rewrite En. now apply Nat.eqb_neq; auto. }
            assert (E2 : named F n' (upd F p f c) = false).
            { unfold named in *. now rewrite updk_name. }
            now rewrite E1, E2.
          - now rewrite IHc. }
        now rewrite E.
    Qed.

    Lemma wf_updk p : forall o t o1 t1, wf F o t -> loc F p o t = Some (o1, t1) -> wf F o1 (f t1) ->
      wf F o (upd F p f t).
    Proof using f_name f_data.
      induction p as [|n p IH]; intros o t o1 t1 W L H; [cbn in *; now injection L as <- <-|].
      destruct t as [m d cs]. cbn [loc tkids] in L.
      destruct (find (named F n) cs) as [c|] eqn:E; [|discriminate].
      destruct (wf_inv F _ _ _ _ W) as (Wn & Wo & Wr & Wd & Wk). cbn [upd].
      set (g := fun c => if named F n c then upd F p f c else c).
      assert (G1 : forall x, tname F (g x) = tname F x) by (intro x; unfold g; destruct (named F n x); auto; apply updk_name).
      assert (G2 : forall x, tdata F (g x) = tdata F x) by (intro x; unfold g; destruct (named F n x); auto; apply updk_data).
      assert (G3 : forall x, koff F (g x) = koff F x) by (intro x; unfold koff; now rewrite G2).
      assert (G4 : forall x, ksize F (g x) = ksize F x) by (intro x; unfold ksize; now rewrite G2).
      apply wf_intro.
      - rewrite map_map. erewrite map_ext; [exact Wn|]. exact G1.
      - destruct Wo as [->|]; [now left|now right].
      - intros x Hx. apply in_map_iff in Hx as (y & <- & Hy). rewrite G3, G4. auto.
      - apply fop_map. clear -Wd G3 G4. induction Wd as [|x l Hx Hl IHl]; constructor; auto.
        rewrite Forall_forall in *. intros y Hy. rewrite !G3, !G4. auto.
      - intros x Hx. apply in_map_iff in Hx as (y & <- & Hy). rewrite G3. unfold g.
        destruct (named F n y) eqn:En; [|auto].
        assert (y = c) by (eapply find_uniq; eauto). subst y. eapply IH; eauto.
    Qed.

    Lemma alln_updk (P : nat -> key -> nd -> Prop) p : forall o kk t o1 t1,
      wf F o t -> alln F P o kk t -> loc F p o t = Some (o1, t1) ->
      alln F P o1 (keyat p kk t) (f t1) -> alln F P o kk (upd F p f t).
    Proof using f_name f_data.
      induction p as [|n p IH]; intros o kk t o1 t1 W A L H; [cbn in *; now injection L as <- <-|].
      destruct t as [m d cs]. cbn [loc tkids keyat] in *.
      destruct (find (named F n) cs) as [c|] eqn:E; [|discriminate].
      destruct (wf_inv F _ _ _ _ W) as (Wn & _ & _ & _ & Wk).
      apply alln_inv in A as [A B]. cbn [upd]. constructor; auto.
      intros x Hx. apply in_map_iff in Hx as (y & <- & Hy).
      destruct (named F n y) eqn:En; auto.
      assert (y = c) by (eapply find_uniq; eauto). subst y.
      unfold koff, ksize in *. rewrite updk_data. eapply IH; eauto.
    Qed.

    Lemma pendat_updk p : (forall o t i, pendat F o (f t) i = pendat F o t i) ->
      forall o t i, pendat F o (upd F p f t) i = pendat F o t i.
    Proof using f_name f_data.
      intros Hf. induction p as [|n p IH]; intros o t i; cbn [upd]; auto. destruct t as [m d cs].
      cbn [pendat]. destruct (inr o (size F d) i); auto.
      rewrite map_map. erewrite map_ext; [reflexivity|]. intro c. cbn beta.
      destruct (named F n c); auto. rewrite updk_data. apply IH.
    Qed.

    Lemma une_updk p : (forall t, une F t -> une F (f t)) -> forall t, une F t -> une F (upd F p f t).
    Proof using. intros H t. now apply une_upd. Qed.
  End Kids.

  Definition addk (k : tree) (t : tree) : tree := match t with Node _ m d cs => Node F m d (cs ++ [k]) end.
  Definition delk (name : nat) (t : tree) : tree :=
    match t with Node _ m d cs => Node F m d (filter (fun c => negb (named F name c)) cs) end.

  Lemma addk_name k t : tname F (addk k t) = tname F t. Proof using. now destruct t. Qed.
  Lemma addk_data k t : tdata F (addk k t) = tdata F t. Proof using. now destruct t. Qed.
  Lemma delk_name k t : tname F (delk k t) = tname F t. Proof using. now destruct t. Qed.
  Lemma delk_data k t : tdata F (delk k t) = tdata F t. Proof using. now destruct t. Qed.

  Lemma first_some_app {A} (l : list (option A)) x :
    first_some (l ++ [x]) = match first_some l with Some y => Some y | None => x end.
  Proof using. clear. induction l as [|[y|] l IH]; cbn; auto. now destruct x. Qed.

  Lemma addk_pendat k : noflag F k -> forall o t i, pendat F o (addk k t) i = pendat F o t i.
  Proof using.
    clear. intros N o [m d cs] i. cbn [addk pendat]. destruct (inr o (size F d) i); auto.
    rewrite map_app. cbn [map]. rewrite first_some_app, (noflag_pendat F _ _ _ N).
    now destruct (first_some (map (fun c => pendat F (o + offset F (tdata F c)) c i) cs)).
  Qed.

  Lemma find_app_name n k (cs : list tree) :
    find (named F n) (cs ++ [k]) = match find (named F n) cs with Some c => Some c | None => if named F n k then Some k else None end.
  Proof using. clear. induction cs as [|c cs IH]; cbn; [now destruct (named F n k)|]. now destruct (named F n c). Qed.

  Lemma find_del n name (cs : list tree) :
    find (named F n) (filter (fun c => negb (named F name c)) cs) = if Nat.eqb n name then None else find (named F n) cs.
  Proof using.
    clear. induction cs as [|c cs IH]; cbn; [now destruct (Nat.eqb n name)|].
    destruct (named F name c) eqn:E; cbn.
    - rewrite IH. destruct (Nat.eqb n name) eqn:E2; auto. unfold named in *. apply Nat.eqb_eq in E. rewrite E.
      rewrite Nat.eqb_sym, E2. reflexivity.
    - rewrite IH. destruct (named F n c) eqn:E3; auto. destruct (Nat.eqb n name) eqn:E2; auto.
      apply Nat.eqb_eq in E2. subst n. congruence.
  Qed.

  (* Paths through the changed tree. *)
  Lemma prefix_dec p : forall q : list nat, (exists q', q = p ++ q') \/ (forall q', q <> p ++ q').
  Proof using.
    clear. induction p as [|n p IH]; intro q; [left; now exists q|].
    destruct q as [|m q]; [right; discriminate|].
    destruct (Nat.eq_dec m n) as [->|Hne].
    - destruct (IH q) as [[q' ->]|H]; [left; now exists q'|]. right. intros q' E. injection E as E. now apply (H q').
    - right. intros q' E. injection E as E _. congruence.
  Qed.

  Lemma dat_win x y : dat x = dat y -> option_map (winof F) x = option_map (winof F) y.
  Proof using.
    clear. destruct x as [[a t]|], y as [[b u]|]; cbn; intro H; try discriminate; auto.
    injection H as -> H. unfold winof, ksize. cbn. now rewrite H.
  Qed.

  Lemma add_loc p name k o1 t1 r : loc F p 0 r = Some (o1, t1) -> tname F k = name -> tkids F k = [] ->
    find (named F name) (tkids F t1) = None ->
    forall q, dat (loc F q 0 (upd F p (addk k) r)) =
      if path_eqb (p ++ [name]) q then Some (o1 + koff F k, tdata F k) else dat (loc F q 0 r).
  Proof using.
    clear. intros L Hn Hk Hf q. destruct (path_eqb (p ++ [name]) q) eqn:E.
    - apply path_eqb_eq in E. subst q. rewrite (locu_below _ (addk_name k) (addk_data k)), L.
      destruct t1 as [m d cs]. cbn [addk loc tkids] in *. rewrite find_app_name, Hf. unfold named.
      rewrite Hn, Nat.eqb_refl. reflexivity.
    - destruct (prefix_dec p q) as [[q' ->]|H].
      + rewrite (locu_below _ (addk_name k) (addk_data k)), loc_app, L.
        destruct t1 as [m d cs]. destruct q' as [|n q']; [reflexivity|]. cbn [addk loc tkids] in *.
        rewrite find_app_name. destruct (find (named F n) cs) as [c|] eqn:Ef; auto.
        destruct (named F n k) eqn:Ek; auto. unfold named in Ek. apply Nat.eqb_eq in Ek.
        destruct q' as [|n' q'].
        * exfalso. assert (X : path_eqb (p ++ [name]) (p ++ [n]) = true) by (apply path_eqb_eq; congruence). congruence.
        * cbn [loc]. rewrite Hk. reflexivity.
      + apply locu_other; auto using addk_name, addk_data.
  Qed.

  Lemma del_loc p name o1 t1 c r : loc F p 0 r = Some (o1, t1) ->
    find (named F name) (tkids F t1) = Some c -> tkids F c = [] ->
    forall q, dat (loc F q 0 (upd F p (delk name) r)) =
      if path_eqb q (p ++ [name]) then None else dat (loc F q 0 r).
  Proof using.
    clear. intros L Hf Hk q. destruct (path_eqb q (p ++ [name])) eqn:E.
    - apply path_eqb_eq in E. subst q. rewrite (locu_below _ (delk_name name) (delk_data name)), L.
      destruct t1 as [m d cs]. cbn [delk loc tkids] in *. rewrite find_del, Nat.eqb_refl. reflexivity.
    - destruct (prefix_dec p q) as [[q' ->]|H].
      + rewrite (locu_below _ (delk_name name) (delk_data name)), loc_app, L.
        destruct t1 as [m d cs]. destruct q' as [|n q']; [reflexivity|]. cbn [delk loc tkids] in *.
        rewrite find_del. destruct (Nat.eqb n name) eqn:En; auto.
        apply Nat.eqb_eq in En. subst n. rewrite Hf.
        destruct q' as [|n' q'].
        * exfalso. assert (X : path_eqb (p ++ [name]) (p ++ [name]) = true) by (now apply path_eqb_eq). congruence.
        * cbn [loc]. rewrite Hk. reflexivity.
      + apply locu_other; auto using delk_name, delk_data.
  Qed.
End P10.
