(* Lazy evaluation, creation and clearing of arrays in a family. *)
From Coq Require Import List Arith Bool Lia.
From Verif Require Import SyncModel SyncSpec SyncProofs.
Import ListNotations.

Section P2.
  Variables V F : Type.
  Variable conv : nat -> nat -> V -> V.
  Variable litval : nat -> lit F -> V.
  Notation nd := (nd F).
  Notation tree := (tree F).
  Notation heapT := (nat -> nat -> V).

  (* The head array of the node is the window at o of block m, of type k. *)
  Definition HP (k m : nat) (o : nat) (kk : key) (d : nd) : Prop :=
    head F d = Some kk /\ fst kk = k /\ exists b, kget kk (arrs F d) = Some (mkarr m o, b).

  Definition ONLY (k m : nat) (o : nat) (kk : key) (d : nd) : Prop :=
    head F d = Some kk /\ fst kk = k /\ exists b, arrs F d = [(kk, (mkarr m o, b))].

  Lemma only_hp k m o kk d : ONLY k m o kk d -> HP k m o kk d.
  Proof.
    intros (H1 & H2 & b & H3). split; [|split]; auto. exists b. rewrite H3. cbn.
    now rewrite key_eqb_refl.
  Qed.

  Lemma hp_has_head k m o kk d : HP k m o kk d -> has_head F d = true.
  Proof.
    intros (H1 & _ & b & H3). unfold has_head. rewrite H1. destruct (arrs F d); [discriminate|reflexivity].
  Qed.

  Lemma hp_head_arr k m o kk d : HP k m o kk d -> exists b, head_arr F d = Some (mkarr m o, b).
  Proof. intros (H1 & _ & b & H3). exists b. unfold head_arr. now rewrite H1. Qed.

  Lemma write_at (h : heapT) m o n w mm i :
    write V h (mkarr m o) n w mm i
    = if Nat.eqb mm m && inr o n i then w (i - o) else h mm i.
  Proof. unfold write, inr. cbn. now rewrite <- andb_assoc. Qed.

  Definition settled (k m : nat) (pend : nat -> option (lit F)) (h : heapT) : heapT :=
    fun mm i => if Nat.eqb mm m then match pend i with Some l => litval k l | None => h mm i end else h mm i.

  Lemma trav_node_ok k m o kk d (h : heapT) d' h' :
    HP k m o kk d -> trav_node V F litval d h = (d', h') ->
    d' = clear_flags F d /\
    forall mm i, h' mm i = settled k m (fun i => if inr o (size F d) i then pend F d else None) h mm i.
  Proof.
    intros H. unfold trav_node. rewrite (hp_has_head _ _ _ _ _ H).
    destruct (hp_head_arr _ _ _ _ _ H) as (b & Hb). destruct H as (H1 & H2 & _). rewrite H1, Hb.
    intros [= <- <-]. split; auto. intros mm i. unfold settled.
    destruct (pend F d) as [l|] eqn:E.
    - rewrite write_at, H2. destruct (Nat.eqb mm m); cbn; auto. destruct (inr o (size F d) i); auto.
    - destruct (Nat.eqb mm m); auto. destruct (inr o (size F d) i); auto.
  Qed.

  Fixpoint trav_list (l : list tree) (h : heapT) : list tree * heapT :=
    match l with
    | [] => ([], h)
    | c :: r => let (c, h) := trav V F litval c h in let (r, h) := trav_list r h in (c :: r, h)
    end.

  Lemma trav_eq n d cs h :
    trav V F litval (Node F n d cs) h
    = (let (d, h) := trav_node V F litval d h in
       let (cs, h) := trav_list cs h in (Node F n d cs, h)).
  Proof. reflexivity. Qed.

  Lemma trav_list_ok k m o (l : list tree) :
    (forall c, In c l -> forall h t' h', trav V F litval c h = (t', h') ->
       t' = all_nodes F (clear_flags F) c /\
       forall mm i, h' mm i = settled k m (pendat F (o + koff F c) c) h mm i) ->
    ForallOrdPairs (fun a b => disj (koff F a) (ksize F a) (koff F b) (ksize F b)) l ->
    forall h l' h', trav_list l h = (l', h') ->
    l' = map (all_nodes F (clear_flags F)) l /\
    forall mm i, h' mm i =
      settled k m (fun i => first_some (map (fun c => pendat F (o + offset F (tdata F c)) c i) l)) h mm i.
  Proof.
    induction l as [|c l IH]; intros Hc Hd h l' h' E; cbn in E.
    - injection E as <- <-. split; auto. intros mm i. unfold settled. cbn. now destruct (Nat.eqb mm m).
    - destruct (trav V F litval c h) as [c1 h1] eqn:E1.
      destruct (trav_list l h1) as [l1 h2] eqn:E2. injection E as <- <-.
      destruct (Hc c (or_introl eq_refl) _ _ _ E1) as [-> S1].
      inversion Hd as [|? ? Hcd Hd']; subst.
      destruct (IH (fun x Hx => Hc x (or_intror Hx)) Hd' _ _ _ E2) as [-> S2].
      split; [reflexivity|]. intros mm i. rewrite S2. unfold settled. rewrite S1. unfold settled.
      destruct (Nat.eqb mm m); auto. cbn [map first_some].
      change (offset F (tdata F c)) with (koff F c).
      destruct (pendat F (o + koff F c) c i) as [x|] eqn:Ex; [|reflexivity].
      assert (N : first_some (map (fun c0 => pendat F (o + offset F (tdata F c0)) c0 i) l) = None); [|now rewrite N].
      apply first_some_none. intros y Hy. apply in_map_iff in Hy as (z & <- & Hz).
      apply pendat_out. rewrite Forall_forall in Hcd. specialize (Hcd z Hz).
      assert (Hi : o + koff F c <= i < o + koff F c + ksize F c).
      { destruct (inr (o + koff F c) (ksize F c) i) eqn:Ei; [now apply inr_spec|].
        apply inr_false in Ei. rewrite (pendat_out F _ _ _ Ei) in Ex. discriminate. }
      unfold disj, koff, ksize in *. lia.
  Qed.

  Lemma trav_ok k m : forall t o kk h t' h',
    wf F o t -> alln F (HP k m) o kk t -> trav V F litval t h = (t', h') ->
    t' = all_nodes F (clear_flags F) t /\
    forall mm i, h' mm i = settled k m (pendat F o t) h mm i.
  Proof.
    apply (tree_ind2 F (fun t => forall o kk h t' h',
      wf F o t -> alln F (HP k m) o kk t -> trav V F litval t h = (t', h') ->
      t' = all_nodes F (clear_flags F) t /\
      forall mm i, h' mm i = settled k m (pendat F o t) h mm i)).
    intros n d cs IH o kk h t' h' W A E. rewrite trav_eq in E.
    apply alln_inv in A as [A B]. pose proof (wf_inv F _ _ _ _ W) as (_ & _ & Wr & Wd & Wk).
    destruct (trav_node V F litval d h) as [d1 h1] eqn:E1.
    destruct (trav_node_ok _ _ _ _ _ _ _ _ A E1) as [-> S1].
    destruct (trav_list cs h1) as [cs1 h2] eqn:E2. injection E as <- <-.
    destruct (trav_list_ok k m o cs) with (2 := Wd) (3 := E2) as [-> S2].
    { intros c Hc h0 t' h' Et. eapply IH; eauto. }
    split; [reflexivity|]. intros mm i. rewrite S2. unfold settled. rewrite S1. unfold settled.
    destruct (Nat.eqb mm m); auto. cbn [pendat].
    destruct (inr o (size F d) i) eqn:Ei.
    - destruct (first_some _); auto.
    - assert (N : first_some (map (fun c => pendat F (o + offset F (tdata F c)) c i) cs) = None); [|now rewrite N].
      apply first_some_none. intros y Hy. apply in_map_iff in Hy as (z & <- & Hz).
      apply pendat_out. specialize (Wr z Hz). apply inr_false in Ei. unfold koff, ksize in *. lia.
  Qed.

  (* Replacing one kid. *)
  Definition repl (n : nat) (c' : tree) (cs : list tree) : list tree :=
    map (fun x => if named F n x then c' else x) cs.

  Lemma repl_skel n c c' cs :
    NoDup (map (tname F) cs) -> find (named F n) cs = Some c -> skel F c' = skel F c ->
    map (skel F) (repl n c' cs) = map (skel F) cs.
  Proof.
    intros Hn Hf Hs. unfold repl. rewrite map_map. apply map_ext_in. intros x Hx.
    destruct (named F n x) eqn:E; auto. now rewrite (find_uniq F n cs c x Hn Hf Hx E).
  Qed.

  Lemma repl_in n c c' cs x :
    NoDup (map (tname F) cs) -> find (named F n) cs = Some c ->
    In x (repl n c' cs) -> x = c' \/ (In x cs /\ x <> c).
  Proof.
    intros Hn Hf H. apply in_map_iff in H as (y & E & Hy). destruct (named F n y) eqn:En; auto.
    subst y. right. split; auto. intros ->. pose proof (find_named F _ _ _ Hf) as [_ X].
    unfold named in En. rewrite X in En. now rewrite Nat.eqb_refl in En.
  Qed.

  Lemma repl_in_other n c c' cs x :
    NoDup (map (tname F) cs) -> find (named F n) cs = Some c ->
    In x cs -> x <> c -> In x (repl n c' cs).
  Proof.
    intros Hn Hf Hx Hne. apply in_map_iff. exists x. split; auto.
    destruct (named F n x) eqn:E; auto. exfalso. apply Hne. eapply find_uniq; eauto.
  Qed.

  Lemma repl_in_self n c c' cs : find (named F n) cs = Some c -> In c' (repl n c' cs).
  Proof.
    intro Hf. apply find_some in Hf as [Hc E]. apply in_map_iff. exists c. now rewrite E.
  Qed.

  Lemma repl_find n c c' cs :
    find (named F n) cs = Some c -> tname F c' = tname F c -> find (named F n) (repl n c' cs) = Some c'.
  Proof.
    unfold repl. induction cs as [|x cs IH]; cbn; [discriminate|]. intros Hf Hn.
    destruct (named F n x) eqn:E; cbn.
    - injection Hf as <-. assert (E' : named F n c' = true) by (unfold named; now rewrite Hn). now rewrite E'.
    - rewrite E. auto.
  Qed.

  Lemma repl_find_other n n' c c' cs :
    find (named F n) cs = Some c -> tname F c' = tname F c -> n' <> n ->
    find (named F n') (repl n c' cs) = find (named F n') cs.
  Proof.
    intros Hf Hn Hne. pose proof (find_named F _ _ _ Hf) as [_ Ec].
    unfold repl. clear Hf. induction cs as [|x cs IH]; cbn; auto.
    destruct (named F n x) eqn:E.
    - assert (E1 : named F n' c' = false).
      { unfold named. rewrite Hn, Ec. apply Nat.eqb_neq. auto. }
      assert (E2 : named F n' x = false).
      { unfold named in *. apply Nat.eqb_eq in E. rewrite E. apply Nat.eqb_neq. auto. }
      now rewrite E1, E2.
    - now rewrite IH.
  Qed.

  Lemma upd_repl n p f m d cs c :
    wf F 0 (Node F m d cs) \/ NoDup (map (tname F) cs) -> find (named F n) cs = Some c ->
    upd F (n :: p) f (Node F m d cs) = Node F m d (repl n (upd F p f c) cs).
  Proof.
    intros Hn Hf. assert (N : NoDup (map (tname F) cs)).
    { destruct Hn as [W|]; auto. now apply wf_inv in W. }
    cbn. f_equal. apply map_ext_in. intros x Hx. destruct (named F n x) eqn:E; auto.
    now rewrite (find_uniq F n cs c x N Hf Hx E).
  Qed.

  Lemma pendat_repl o m d cs n c c' i :
    wf F o (Node F m d cs) -> find (named F n) cs = Some c -> skel F c' = skel F c ->
    (o + koff F c <= i < o + koff F c + ksize F c ->
     pendat F o (Node F m d (repl n c' cs)) i
     = match pendat F (o + koff F c) c' i with Some l => Some l | None => pend F d end) /\
    (~ (o + koff F c <= i < o + koff F c + ksize F c) ->
     pendat F o (Node F m d (repl n c' cs)) i = pendat F o (Node F m d cs) i).
  Proof.
    intros W Hf Hs. pose proof (wf_inv F _ _ _ _ W) as (Wn & _ & Wr & _ & _).
    assert (W' : wf F o (Node F m d (repl n c' cs))).
    { eapply wf_skel; [|exact W]. cbn. now rewrite (repl_skel n c c'). }
    split; intro Hi.
    - rewrite (pendat_kid F _ _ _ _ c' i W'); [|eapply repl_in_self; eauto|].
      + now rewrite (skel_off F _ _ Hs).
      + now rewrite (skel_off F _ _ Hs), (skel_size F _ _ Hs).
    - destruct (kid_or_not F o cs i) as [(y & Hy & Hiy)|Hno].
      + assert (Hne : y <> c) by (intros ->; contradiction).
        rewrite (pendat_kid F _ _ _ _ y i W Hy Hiy).
        rewrite (pendat_kid F _ _ _ _ y i W'); auto. eapply repl_in_other; eauto.
      + rewrite !pendat_nokid; auto. intros x Hx.
        destruct (repl_in n c c' cs x Wn Hf Hx) as [->|[Hx' _]]; auto.
        now rewrite (skel_off F _ _ Hs), (skel_size F _ _ Hs).
  Qed.

  (* The deepest pending request among strict ancestors. *)
  Fixpoint lp (p : list nat) (t : tree) : option (lit F) :=
    match p with
    | [] => None
    | n :: p =>
        match find (named F n) (tkids F t) with
        | Some c => match lp p c with Some l => Some l | None => pend F (tdata F t) end
        | None => None
        end
    end.

  Lemma repl_self n c cs :
    NoDup (map (tname F) cs) -> find (named F n) cs = Some c -> repl n c cs = cs.
  Proof.
    intros Hn Hf. unfold repl. rewrite <- (map_id cs) at 2. apply map_ext_in. intros x Hx.
    destruct (named F n x) eqn:E; auto. symmetry. eapply find_uniq; eauto.
  Qed.

  Lemma pendat_upd p f : forall o t o1 t1 i,
    (forall t, skel F (f t) = skel F t) -> wf F o t -> loc F p o t = Some (o1, t1) ->
    (~ (o1 <= i < o1 + ksize F t1) -> pendat F o (upd F p f t) i = pendat F o t i) /\
    (o1 <= i < o1 + ksize F t1 ->
     pendat F o (upd F p f t) i = match pendat F o1 (f t1) i with Some l => Some l | None => lp p t end).
  Proof.
    induction p as [|n p IH]; intros o t o1 t1 i Hs W L; cbn in L.
    - injection L as <- <-. cbn. split; intro Hi.
      + rewrite !pendat_out; auto. now rewrite (skel_size F _ _ (Hs t)).
      + now destruct (pendat F o (f t) i).
    - destruct t as [m d cs]. cbn in L. destruct (find (named F n) cs) as [c|] eqn:Ef; [|discriminate].
      pose proof (find_named F _ _ _ Ef) as [Hc _].
      pose proof (wf_inv F _ _ _ _ W) as (Wn & _ & Wr & _ & Wk).
      rewrite (upd_repl n p f m d cs c (or_intror Wn) Ef).
      destruct (IH _ _ _ _ i Hs (Wk c Hc) L) as [I1 I2].
      pose proof (loc_range F _ _ _ _ _ (Wk c Hc) L) as R.
      assert (Hsk : skel F (upd F p f c) = skel F c) by (apply upd_skel; auto).
      destruct (pendat_repl o m d cs n c (upd F p f c) i W Ef Hsk) as [J1 J2].
      split; intro Hi.
      + destruct (inr (o + koff F c) (ksize F c) i) eqn:Ei.
        * apply inr_spec in Ei. rewrite (J1 Ei), (I1 Hi). symmetry. now apply pendat_kid.
        * apply inr_false in Ei. now apply J2.
      + rewrite J1 by lia. rewrite (I2 Hi). cbn [lp tkids tdata]. rewrite Ef.
        destruct (pendat F o1 (f t1) i); auto.
  Qed.

  Lemma upd_id p : forall t o o1 t1, wf F o t -> loc F p o t = Some (o1, t1) -> upd F p (fun x => x) t = t.
  Proof.
    induction p as [|n p IH]; intros t o o1 t1 W L; cbn in L; [reflexivity|].
    destruct t as [m d cs]. cbn in L. destruct (find (named F n) cs) as [c|] eqn:Ef; [|discriminate].
    pose proof (find_named F _ _ _ Ef) as [Hc _].
    pose proof (wf_inv F _ _ _ _ W) as (Wn & _ & Wr & _ & Wk).
    rewrite (upd_repl n p _ m d cs c (or_intror Wn) Ef), (IH _ _ _ _ (Wk c Hc) L).
    now rewrite (repl_self n c cs).
  Qed.

  Lemma pendat_loc p o t o1 t1 i :
    wf F o t -> loc F p o t = Some (o1, t1) -> o1 <= i < o1 + ksize F t1 ->
    pendat F o t i = match pendat F o1 t1 i with Some l => Some l | None => lp p t end.
  Proof.
    intros W L Hi. destruct (pendat_upd p (fun x => x) o t o1 t1 i (fun _ => eq_refl) W L) as [_ H].
    rewrite <- (H Hi). now rewrite (upd_id p t o o1 t1 W L).
  Qed.

  Lemma flagged_pend d : flagged F d = false <-> pend F d = None.
  Proof. unfold flagged. destruct (pend F d); split; congruence. Qed.

  (* check_zf = false: nothing is pending in the window of p. *)
  Lemma check_none p : forall o t o1 t1,
    loc F p o t = Some (o1, t1) -> check_zf F p t = false -> noflag F t1 /\ lp p t = None.
  Proof.
    induction p as [|n p IH]; intros o t o1 t1 L H; cbn in *.
    - injection L as <- <-. split; auto. now apply any_flag_noflag.
    - destruct (find (named F n) (tkids F t)) as [c|]; [|discriminate].
      apply orb_false_iff in H as [H1 H2]. destruct (IH _ _ _ _ L H2) as [N ->].
      split; auto. now apply flagged_pend.
  Qed.

  Definition view (k m : nat) (t : tree) (h : heapT) (o i : nat) : V :=
    match pendat F o t i with Some l => litval k l | None => h m i end.

  Definition trav_kid (n : nat) (p : list nat) : list tree -> heapT -> list tree * heapT :=
    fix go (l : list tree) (h : heapT) :=
      match l with
      | [] => ([], h)
      | c :: r =>
          if named F n c then let (c, h) := trav_at V F litval p c h in (c :: r, h)
          else let (r, h) := go r h in (c :: r, h)
      end.

  Lemma trav_at_eq n p t h :
    trav_at V F litval (n :: p) t h
    = if flagged F (tdata F t) then trav V F litval t h
      else match t with
           | Node _ m d cs => let (cs, h) := trav_kid n p cs h in (Node F m d cs, h)
           end.
  Proof. reflexivity. Qed.

  Lemma trav_kid_ok n p cs h c :
    NoDup (map (tname F) cs) -> find (named F n) cs = Some c ->
    trav_kid n p cs h = (let (c', h') := trav_at V F litval p c h in (repl n c' cs, h')).
  Proof.
    unfold repl. induction cs as [|x cs IH]; cbn; [discriminate|]. intros Hn Hf.
    inversion Hn as [|? ? Hx Hn']; subst.
    destruct (named F n x) eqn:E.
    - injection Hf as <-. destruct (trav_at V F litval p x h) as [c' h']. do 2 f_equal.
      rewrite <- (map_id cs) at 1. apply map_ext_in. intros y Hy.
      destruct (named F n y) eqn:E2; auto. exfalso. apply Hx.
      unfold named in *. apply Nat.eqb_eq in E, E2. rewrite E, <- E2. now apply in_map.
    - change ((let (r, h0) := trav_kid n p cs h in (x :: r, h0))
        = (let (c', h') := trav_at V F litval p c h in
           (x :: map (fun x0 => if named F n x0 then c' else x0) cs, h'))).
      rewrite (IH Hn' Hf). now destruct (trav_at V F litval p c h).
  Qed.

  Lemma noflag_loc p : forall t o o1 t1, noflag F t -> loc F p o t = Some (o1, t1) -> noflag F t1.
  Proof.
    induction p as [|n p IH]; intros t o o1 t1 N L; cbn in L; [now injection L as <- <-|].
    destruct t as [m d cs]. cbn in L. destruct (find (named F n) cs) as [c|] eqn:Ef; [|discriminate].
    apply find_named in Ef as [Hc _]. apply noflag_inv in N as [_ N]. eauto.
  Qed.

  Lemma clear_flags_keeps : keeps F (clear_flags F).
  Proof. intro d. split; reflexivity. Qed.

  Lemma trav_at_ok k m p : forall t o kk h t' h' o1 t1,
    wf F o t -> alln F (HP k m) o kk t -> loc F p o t = Some (o1, t1) ->
    trav_at V F litval p t h = (t', h') ->
    skel F t' = skel F t /\
    (forall P : nat -> key -> nd -> Prop, (forall o kk d, P o kk d -> P o kk (clear_flags F d)) ->
       forall kk, alln F P o kk t -> alln F P o kk t') /\
    (forall mm i, mm <> m -> h' mm i = h mm i) /\
    (forall i, ~ (o <= i < o + ksize F t) -> h' m i = h m i) /\
    (forall i, o <= i < o + ksize F t -> view k m t' h' o i = view k m t h o i) /\
    (exists t1', loc F p o t' = Some (o1, t1') /\ noflag F t1') /\
    (forall i, o1 <= i < o1 + ksize F t1 -> pendat F o t' i = None) /\
    (forall q a x', loc F q o t' = Some (a, x') ->
       exists x, loc F q o t = Some (a, x) /\
         (tdata F x' = tdata F x \/ tdata F x' = clear_flags F (tdata F x))).
  Proof.
    assert (TOP : forall p t o kk h t' h' o1 t1,
      wf F o t -> alln F (HP k m) o kk t -> loc F p o t = Some (o1, t1) ->
      trav V F litval t h = (t', h') ->
      skel F t' = skel F t /\
      (forall P : nat -> key -> nd -> Prop, (forall o kk d, P o kk d -> P o kk (clear_flags F d)) ->
         forall kk, alln F P o kk t -> alln F P o kk t') /\
      (forall mm i, mm <> m -> h' mm i = h mm i) /\
      (forall i, ~ (o <= i < o + ksize F t) -> h' m i = h m i) /\
      (forall i, o <= i < o + ksize F t -> view k m t' h' o i = view k m t h o i) /\
      (exists t1', loc F p o t' = Some (o1, t1') /\ noflag F t1') /\
      (forall i, o1 <= i < o1 + ksize F t1 -> pendat F o t' i = None) /\
      (forall q a x', loc F q o t' = Some (a, x') ->
         exists x, loc F q o t = Some (a, x) /\
         (tdata F x' = tdata F x \/ tdata F x' = clear_flags F (tdata F x)))).
    { clear p. intros p t o kk h t' h' o1 t1 W A L E.
      destruct (trav_ok k m t o kk h t' h' W A E) as [-> S].
      pose proof (all_nodes_skel F (clear_flags F) clear_flags_keeps t) as Sk.
      pose proof (clear_flags_noflag F t) as N.
      split; [exact Sk|]. split; [|split; [|split; [|split; [|split; [|split]]]]].
      - intros P HP0 kk0. now apply alln_all_nodes; [apply clear_flags_keeps|].
      - intros mm i Hm. rewrite S. unfold settled. apply Nat.eqb_neq in Hm. now rewrite Hm.
      - intros i Hi. rewrite S. unfold settled. rewrite Nat.eqb_refl. now rewrite (pendat_out F _ _ _ Hi).
      - intros i Hi. unfold view. rewrite (noflag_pendat F _ _ _ N), S. unfold settled.
        now rewrite Nat.eqb_refl.
      - destruct (loc_skel_some F p o t _ o1 t1 (eq_sym Sk) L) as (y & Ly & _).
        exists y. split; auto. eapply noflag_loc; eauto.
      - intros i _. now apply noflag_pendat.
      - clear. intros q a x' Lq. revert o t Lq. induction q as [|n q IHq]; intros o t Lq.
        + cbn in Lq. injection Lq as <- <-. exists t. split; auto. right. now destruct t.
        + destruct t as [tn d cs]. cbn in Lq |- *.
          assert (E : find (named F n) (map (all_nodes F (clear_flags F)) cs)
                      = option_map (all_nodes F (clear_flags F)) (find (named F n) cs)).
          { clear. induction cs as [|c cs IH]; cbn; auto. unfold named at 1.
            assert (X : tname F (all_nodes F (clear_flags F) c) = tname F c) by now destruct c.
            rewrite X. fold (named F n c). now destruct (named F n c). }
          rewrite E in Lq. destruct (find (named F n) cs) as [c|]; [|discriminate]. cbn in Lq.
          assert (X : koff F (all_nodes F (clear_flags F) c) = koff F c) by now destruct c.
          rewrite X in Lq. eauto. }
    induction p as [|n p IH]; intros t o kk h t' h' o1 t1 W A L E.
    - cbn in E. eapply TOP; eauto.
    - rewrite trav_at_eq in E. destruct (flagged F (tdata F t)) eqn:Efl; [eapply TOP; eauto|].
      clear TOP. destruct t as [tn d cs]. cbn in L.
      destruct (find (named F n) cs) as [c|] eqn:Ef; [|discriminate].
      pose proof (find_named F _ _ _ Ef) as [Hc Hcn].
      pose proof (wf_inv F _ _ _ _ W) as (Wn & _ & Wr & _ & Wk).
      apply alln_inv in A as [A B].
      rewrite (trav_kid_ok n p cs h c Wn Ef) in E.
      destruct (trav_at V F litval p c h) as [c' h1] eqn:E1. injection E as <- <-.
      destruct (IH _ _ _ _ _ _ _ _ (Wk c Hc) (B c Hc) L E1)
        as (I1 & I2 & I3 & I4 & I5 & (t1' & I6 & I6n) & I7 & I8).
      specialize (Wr c Hc). cbn [tdata] in Efl. apply flagged_pend in Efl.
      assert (Sz : ksize F (Node F tn d cs) = size F d) by reflexivity.
      split; [|split; [|split; [|split; [|split; [|split; [|split]]]]]].
      + cbn. now rewrite (repl_skel n c c').
      + intros P HP0 kk0 A0. apply alln_inv in A0 as [A0 B0]. constructor; auto.
        intros x Hx. destruct (repl_in n c c' cs x Wn Ef Hx) as [->|[Hx' _]]; auto.
        rewrite (skel_off F _ _ I1), (skel_size F _ _ I1). auto.
      + exact I3.
      + intros i Hi. apply I4. lia.
      + intros i Hi. unfold view.
        destruct (pendat_repl o tn d cs n c c' i W Ef I1) as [J1 J2].
        destruct (inr (o + koff F c) (ksize F c) i) eqn:Ei.
        * apply inr_spec in Ei. rewrite (J1 Ei), (pendat_kid F o tn d cs c i W Hc Ei), Efl.
          specialize (I5 i Ei). unfold view in I5.
          destruct (pendat F (o + koff F c) c' i), (pendat F (o + koff F c) c i); auto.
        * apply inr_false in Ei. rewrite (J2 Ei). destruct (pendat F o (Node F tn d cs) i); auto.
      + exists t1'. split; auto. cbn [loc tkids]. rewrite (repl_find n c c' cs Ef (skel_name F _ _ I1)).
        now rewrite (skel_off F _ _ I1).
      + intros i Hi. pose proof (loc_range F _ _ _ _ _ (Wk c Hc) L) as R.
        destruct (pendat_repl o tn d cs n c c' i W Ef I1) as [J1 _].
        rewrite J1 by lia. now rewrite (I7 i Hi).
      + intros q a x' Lq. destruct q as [|n' q].
        * cbn in Lq. injection Lq as <- <-. exists (Node F tn d cs). auto.
        * cbn [loc tkids] in Lq |- *. destruct (Nat.eq_dec n' n) as [->|Hne].
          -- rewrite (repl_find n c c' cs Ef (skel_name F _ _ I1)) in Lq.
             rewrite (skel_off F _ _ I1) in Lq. rewrite Ef. eapply I8; eauto.
          -- rewrite (repl_find_other n n' c c' cs Ef (skel_name F _ _ I1) Hne) in Lq.
             destruct (find (named F n') cs) as [y|]; [|discriminate]. eauto.
  Qed.

  (* Trees without arrays. *)
  Inductive une : tree -> Prop :=
  | une_i n d cs : arrs F d = [] -> (forall c, In c cs -> une c) -> une (Node F n d cs).

  Lemma une_inv n d cs : une (Node F n d cs) -> arrs F d = [] /\ forall c, In c cs -> une c.
  Proof. intro H. inversion H; subst. auto. Qed.

  Lemma une_loc p : forall t o o1 t1, une t -> loc F p o t = Some (o1, t1) -> une t1.
  Proof.
    induction p as [|n p IH]; intros t o o1 t1 N L; cbn in L; [now injection L as <- <-|].
    destruct t as [m d cs]. cbn in L. destruct (find (named F n) cs) as [c|] eqn:Ef; [|discriminate].
    apply find_named in Ef as [Hc _]. apply une_inv in N as [_ N]. eauto.
  Qed.

  Lemma create_kid_ok k m : forall t pd po kk,
    HP k m po kk pd -> offset F pd = po -> wf F (po + koff F t) t -> une t ->
    alln F (ONLY k m) (po + koff F t) (ext kk (koff F t) (ksize F t)) (create_kid F pd t) /\
    samef F t (create_kid F pd t).
  Proof.
    apply (tree_ind2 F (fun t => forall pd po kk,
      HP k m po kk pd -> offset F pd = po -> wf F (po + koff F t) t -> une t ->
      alln F (ONLY k m) (po + koff F t) (ext kk (koff F t) (ksize F t)) (create_kid F pd t) /\
      samef F t (create_kid F pd t))).
    intros n d cs IH pd po kk H Ho W U. apply une_inv in U as [U1 U2].
    cbn [create_kid]. assert (Hh : has_head F d = false).
    { unfold has_head. rewrite U1. now destruct (head F d). }
    rewrite Hh. cbn zeta.
    destruct (hp_head_arr _ _ _ _ _ H) as (b & Hb). destruct H as (H1 & H2 & _).
    assert (Ed : from_parent F pd d =
      set_head F (Some (ext kk (offset F d) (size F d)))
        (set_arrs F [(ext kk (offset F d) (size F d), (mkarr m (po + offset F d), false))] d)).
    { unfold from_parent. rewrite H1, Hb, U1, Ho. reflexivity. }
    rewrite Ed. set (d' := set_head F _ _).
    assert (O : ONLY k m (po + offset F d) (ext kk (offset F d) (size F d)) d').
    { split; [reflexivity|]. split; [exact H2|]. now exists false. }
    pose proof (wf_inv F _ _ _ _ W) as (_ & Wo & _ & _ & Wk).
    unfold koff, ksize in *. cbn [tdata] in *.
    assert (K : forall c, In c cs ->
      alln F (ONLY k m) (po + offset F d + koff F c) (ext (ext kk (offset F d) (size F d)) (koff F c) (ksize F c)) (create_kid F d' c)
      /\ samef F c (create_kid F d' c)).
    { intros c Hc.
      refine (IH c Hc d' (po + offset F d) _ (only_hp _ _ _ _ _ O) _ (Wk c Hc) (U2 c Hc)).
      destruct Wo as [->|Wo]; [destruct Hc|]. exact Wo. }
    split.
    - constructor; auto. intros x Hx. apply in_map_iff in Hx as (c & <- & Hc).
      rewrite (skel_off F (create_kid F d' c) c), (skel_size F (create_kid F d' c) c) by apply create_kid_skel.
      apply K; auto.
    - constructor; auto. apply samef_map. intros c Hc. now apply K.
  Qed.

  Lemma keep_head_only k m o kk d : HP k m o kk d -> ONLY k m o kk (keep_head F d).
  Proof.
    intro H. destruct (hp_head_arr _ _ _ _ _ H) as (b & Hb). destruct H as (H1 & H2 & _).
    unfold keep_head. rewrite H1, Hb. split; [exact H1|]. split; auto. now exists b.
  Qed.

  Lemma keep_head_pend : keepsf F (keep_head F).
  Proof. intro d. unfold keep_head. destruct (head F d), (head_arr F d); reflexivity. Qed.

  Lemma clear_true_ok k m : forall t o kk,
    alln F (HP k m) o kk t ->
    alln F (ONLY k m) o kk (clear_tree F true t) /\ samef F t (clear_tree F true t).
  Proof.
    apply (tree_ind2 F (fun t => forall o kk, alln F (HP k m) o kk t ->
      alln F (ONLY k m) o kk (clear_tree F true t) /\ samef F t (clear_tree F true t))).
    intros n d cs IH o kk A. apply alln_inv in A as [A B]. rewrite clear_tree_eq.
    assert (E : clear_list F true cs = map (clear_tree F true) cs).
    { clear IH. induction cs as [|c cs IHc]; cbn; auto.
      assert (Hh : has_head F (tdata F c) = true).
      { specialize (B c (or_introl eq_refl)). destruct c as [cn cd ccs].
        apply alln_inv in B as [B _]. eapply hp_has_head; eauto. }
      rewrite Hh. f_equal. apply IHc. intros x Hx. apply B. now right. }
    rewrite E. split.
    - constructor; [now apply keep_head_only|]. intros x Hx. apply in_map_iff in Hx as (c & <- & Hc).
      rewrite (skel_off F (clear_tree F true c) c), (skel_size F (clear_tree F true c) c)
        by apply clear_tree_skel.
      apply IH; auto.
    - destruct (keep_head_keeps F d) as [Ez Eo]. constructor; auto; [now rewrite keep_head_pend|].
      apply samef_map. intros c Hc. eapply IH; eauto.
  Qed.

  Lemma clear_list_true_ok k m o kk cs :
    (forall c, In c cs -> alln F (HP k m) (o + koff F c) (ext kk (koff F c) (ksize F c)) c) ->
    clear_list F true cs = map (clear_tree F true) cs.
  Proof.
    induction cs as [|c cs IHc]; cbn; auto. intro B.
    assert (Hh : has_head F (tdata F c) = true).
    { specialize (B c (or_introl eq_refl)). destruct c as [cn cd ccs].
      apply alln_inv in B as [B _]. eapply hp_has_head; eauto. }
    rewrite Hh. f_equal. apply IHc. intros x Hx. apply B. now right.
  Qed.

  Lemma clear_desc_true_ok k m o kk t :
    alln F (HP k m) o kk t ->
    alln F (HP k m) o kk (clear_desc F true t) /\ samef F t (clear_desc F true t) /\
    forall c, In c (tkids F (clear_desc F true t)) ->
      alln F (ONLY k m) (o + koff F c) (ext kk (koff F c) (ksize F c)) c.
  Proof.
    intro A. destruct t as [n d cs]. apply alln_inv in A as [A B]. cbn.
    rewrite (clear_list_true_ok k m o kk cs B).
    assert (K : forall c, In c (map (clear_tree F true) cs) ->
      alln F (ONLY k m) (o + koff F c) (ext kk (koff F c) (ksize F c)) c).
    { intros x Hx. apply in_map_iff in Hx as (c & <- & Hc).
      rewrite (skel_off F (clear_tree F true c) c), (skel_size F (clear_tree F true c) c)
        by apply clear_tree_skel.
      now apply clear_true_ok, B. }
    split; [|split; [|exact K]].
    - constructor; auto. intros c Hc. eapply alln_impl; [|apply K; exact Hc].
      intros. now apply only_hp.
    - constructor; auto. apply samef_map. intros c Hc. eapply clear_true_ok; eauto.
  Qed.

  Lemma clear_false_ok k m : forall t o kk,
    alln F (HP k m) o kk t -> une (clear_tree F false t) /\ noflag F (clear_tree F false t).
  Proof.
    apply (tree_ind2 F (fun t => forall o kk, alln F (HP k m) o kk t ->
      une (clear_tree F false t) /\ noflag F (clear_tree F false t))).
    intros n d cs IH o kk A. apply alln_inv in A as [A B]. rewrite clear_tree_eq.
    assert (E : clear_list F false cs = map (clear_tree F false) cs).
    { clear IH. induction cs as [|c cs IHc]; cbn; auto.
      assert (Hh : has_head F (tdata F c) = true).
      { specialize (B c (or_introl eq_refl)). destruct c as [cn cd ccs].
        apply alln_inv in B as [B _]. eapply hp_has_head; eauto. }
      rewrite Hh. f_equal. apply IHc. intros x Hx. apply B. now right. }
    rewrite E. split; constructor; auto;
      intros x Hx; apply in_map_iff in Hx as (c & <- & Hc); eapply IH; eauto.
  Qed.

  Lemma clear_desc_false_ok k m o kk n d cs :
    (forall c, In c cs -> alln F (HP k m) (o + koff F c) (ext kk (koff F c) (ksize F c)) c) ->
    clear_desc F false (Node F n d cs) = Node F n d (map (clear_tree F false) cs) /\
    forall c, In c (map (clear_tree F false) cs) -> une c /\ noflag F c.
  Proof.
    intro B. cbn. assert (E : clear_list F false cs = map (clear_tree F false) cs).
    { induction cs as [|c cs IHc]; cbn; auto.
      assert (Hh : has_head F (tdata F c) = true).
      { specialize (B c (or_introl eq_refl)). destruct c as [cn cd ccs].
        apply alln_inv in B as [B _]. eapply hp_has_head; eauto. }
      rewrite Hh. f_equal. apply IHc. intros x Hx. apply B. now right. }
    rewrite E. split; auto. intros x Hx. apply in_map_iff in Hx as (c & <- & Hc).
    eapply clear_false_ok; eauto.
  Qed.

  (* clear_list false on kids that have no arrays does nothing. *)
  Lemma clear_desc_une n d cs :
    (forall c, In c cs -> une c) -> clear_desc F false (Node F n d cs) = Node F n d cs.
  Proof.
    intro U. cbn. f_equal. destruct cs as [|c cs]; auto. cbn.
    assert (Hh : has_head F (tdata F c) = false).
    { specialize (U c (or_introl eq_refl)). destruct c as [cn cd ccs].
      apply une_inv in U as [U _]. unfold has_head. cbn. rewrite U. now destruct (head F cd). }
    now rewrite Hh.
  Qed.
End P2.
