(** Lemmas about the two searches that prepare nn.grad. *)
From Coq Require Import List Arith Bool Lia Permutation.
From Verif Require Import CgModel CgSpec CgProofs BwModel BwSpec BwProofs GradModel GradSpec.
Import ListNotations.
Local Open Scope list_scope.

Lemma ofold_ok {A B} (f : A -> B -> option A) (P : A -> Prop) (Q : B -> A -> Prop) (R : A -> A -> Prop) l a :
  (forall x y z, R x y -> R y z -> R x z) -> (forall x, R x x) ->
  (forall b x y, Q b x -> R x y -> Q b y) ->
  (forall a x, In x l -> P a -> exists a', f a x = Some a' /\ P a' /\ Q x a' /\ R a a') ->
  P a -> exists a', ofold f l a = Some a' /\ P a' /\ (forall x, In x l -> Q x a') /\ R a a'.
Proof.
  intros Tr Re Qm. revert a. induction l as [|x l IH]; intros a H Pa; cbn [ofold].
  - exists a. repeat split; auto. intros x [].
  - destruct (H a x (or_introl eq_refl) Pa) as (a1 & E1 & P1 & Q1 & R1). rewrite E1.
    destruct (IH a1) as (a2 & E2 & P2 & Q2 & R2); auto.
    { intros b z Hz. apply H. right. exact Hz. }
    exists a2. repeat split; auto. 2: eauto.
    intros z [<-|Hz]; eauto.
Qed.

Lemma mem_in x l : mem_nat x l = true <-> In x l.
Proof.
  unfold mem_nat. rewrite existsb_exists. split.
  - intros (y & H & E). apply Nat.eqb_eq in E. subst. exact H.
  - intros H. exists x. split; auto. apply Nat.eqb_refl.
Qed.
Lemma mem_out x l : mem_nat x l = false <-> ~ In x l.
Proof. rewrite <- mem_in. destruct (mem_nat x l); split; congruence. Qed.

Lemma set_nth_len {A} i (x : A) l : length (set_nth i x l) = length l.
Proof. revert i. induction l as [|y l IH]; intros [|i]; cbn; auto. Qed.
Lemma set_nth_get {A} i j (x : A) l : nth_error (set_nth i x l) j =
  if Nat.eqb i j then match nth_error l j with Some _ => Some x | None => None end else nth_error l j.
Proof.
  revert i j. induction l as [|y l IH]; intros [|i] [|j]; cbn; auto;
    destruct (Nat.eqb i j); reflexivity.
Qed.

Section Search.
Context {V : Type}.
Variable g : graph V.
Variable vid : nat -> nat.
Hypothesis Hln : linked g.
Variable lvl : nat -> nat.
Hypothesis Hlvl : numbering g lvl.
Hypothesis Hown : own_grads g vid.
Notation nf := (length (g_fns g)).
Notation vl := (vl g lvl).

Lemma vl_le v : vl v <= nf.
Proof using Hln Hlvl.
  unfold BwProofs.vl. destruct (parent g v) as [q|] eqn:Eq; [|lia].
  destruct (ln_parent g Hln v q Eq) as (qd & Hq & _). apply (Hlvl q qd Hq).
Qed.
Lemma vl_in f fd u : fun_at g f = Some fd -> In u (f_ins fd) -> vl u <= lvl f.
Proof using Hln Hlvl.
  intros Hf Hu. unfold BwProofs.vl. destruct (parent g u) as [q|] eqn:Eq; [|lia].
  destruct (ln_parent g Hln u q Eq) as (qd & Hq & _). destruct (Hlvl f fd Hf) as (_ & HH).
  apply (HH u q); auto.
Qed.
Lemma is_var_in f fd u : fun_at g f = Some fd -> In u (f_ins fd) -> is_var g u.
Proof using Hln. intros. eapply ln_ins; eauto. Qed.
Lemma parent_var u q : parent g u = Some q -> is_var g u.
Proof using Hln. intros H. destruct (ln_parent g Hln u q H) as (fd & Hf & Hi). apply (ln_outs g Hln q fd u Hf Hi). Qed.
Lemma own_eq u v q : is_var g u -> parent g v = Some q -> vid u = vid v -> u = v.
Proof using Hln Hown. intros Hu Hv E. apply Hown; auto; [eapply parent_var; eauto|]. unfold is_leaf. congruence. Qed.

(** Upstream. *)
Section Up.
Variable inputs : list nat.
Hypothesis Hin : NoDup (map vid inputs).

Lemma last_index_some k l i j : last_index vid k l i = Some j -> i <= j /\ exists x, nth_error l (j - i) = Some x /\ vid x = k.
Proof using.
  revert i. induction l as [|x l IH]; intros i; cbn; [discriminate|].
  destruct (last_index vid k l (S i)) as [j'|] eqn:E.
  - intros H. inversion H; subst. destruct (IH _ E) as (L & z & Hz & Ez). split; [lia|].
    exists z. replace (j - i) with (S (j - S i)) by lia. auto.
  - destruct (Nat.eqb (vid x) k) eqn:Ek; [|discriminate]. intros H. inversion H; subst. split; [lia|].
    exists x. rewrite Nat.sub_diag. apply Nat.eqb_eq in Ek. auto.
Qed.
Lemma last_index_in k l i : In k (map vid l) -> exists j, last_index vid k l i = Some j.
Proof using.
  revert i. induction l as [|x l IH]; intros i; cbn; [tauto|]. intros [H|H].
  - destruct (last_index vid k l (S i)); eauto. rewrite H, Nat.eqb_refl. eauto.
  - destruct (IH (S i) H) as (j & ->). eauto.
Qed.
Lemma nth_inj i j x y : nth_error inputs i = Some x -> nth_error inputs j = Some y -> vid x = vid y -> i = j.
Proof using Hin.
  intros H1 H2 E. rewrite NoDup_nth_error in Hin. apply Hin.
  - rewrite map_length. apply nth_error_Some. congruence.
  - rewrite !nth_error_map, H1, H2. cbn. congruence.
Qed.
Lemma last_index_nth i x : nth_error inputs i = Some x -> last_index vid (vid x) inputs 0 = Some i.
Proof using Hin.
  intros H. destruct (last_index_in (vid x) inputs 0) as (j & Hj).
  { apply in_map. eapply nth_error_In; eauto. }
  rewrite Hj. f_equal. apply last_index_some in Hj as (_ & z & Hz & Ez). rewrite Nat.sub_0_r in Hz.
  eapply nth_inj; eauto.
Qed.

(** A set of addresses closed upstream, with the inputs in it found. *)
Definition isin v := exists f fd, fun_at g f = Some fd /\ In v (f_ins fd).
Definition found (ret : list (option nat)) (k : nat) : Prop :=
  forall i x, nth_error inputs i = Some x -> vid x = k ->
    exists v, nth_error ret i = Some (Some v) /\ vid v = k /\ isin v.
Definition sound (ret : list (option nat)) : Prop :=
  length ret = length inputs /\
  forall i v, nth_error ret i = Some (Some v) ->
    isin v /\ exists x, nth_error inputs i = Some x /\ vid v = vid x.
Definition upc (op : list nat) (v : nat) : Prop :=
  forall f fd u, parent g v = Some f -> fun_at g f = Some fd -> In u (f_ins fd) -> In (vid u) op.
Definition upok (st : list nat * list (option nat)) : Prop :=
  sound (snd st) /\
  (forall k, In k (fst st) -> found (snd st) k) /\
  (forall v, is_var g v -> In (vid v) (fst st) -> upc (fst st) v).
Definition uple (a b : list nat * list (option nat)) : Prop :=
  incl (fst a) (fst b) /\ forall k, found (snd a) k -> found (snd b) k.

Lemma bind_sound u ret : isin u -> sound ret -> sound (bind vid inputs u ret).
Proof using Hin.
  intros Hu (L & H). unfold bind. destruct (last_index vid (vid u) inputs 0) as [j|] eqn:E; [|split; auto].
  apply last_index_some in E as (_ & z & Hz & Ez). rewrite Nat.sub_0_r in Hz.
  split; [rewrite set_nth_len; auto|]. intros i v. rewrite set_nth_get.
  destruct (Nat.eqb j i) eqn:Ej; [|apply H]. apply Nat.eqb_eq in Ej. subst.
  destruct (nth_error ret i); [|discriminate]. intros X. inversion X; subst. split; eauto.
Qed.
Lemma bind_found u ret k : isin u -> sound ret -> (found ret k \/ vid u = k) -> found (bind vid inputs u ret) k.
Proof using Hin.
  intros Hu (L & _) H i x Hx Ek.
  assert (Li : i < length ret) by (rewrite L; apply nth_error_Some; congruence).
  unfold bind. destruct (last_index vid (vid u) inputs 0) as [j|] eqn:E.
  - rewrite set_nth_get. destruct (Nat.eqb j i) eqn:Ej.
    + apply Nat.eqb_eq in Ej. subst j. destruct (nth_error ret i) eqn:Er; [|apply nth_error_Some in Li; congruence].
      exists u. split; auto. split; auto. apply last_index_some in E as (_ & z & Hz & Ez).
      rewrite Nat.sub_0_r in Hz. congruence.
    + destruct H as [H|H]; [eapply H; eauto|]. exfalso. apply Nat.eqb_neq in Ej. apply Ej.
      rewrite <- Ek in H. rewrite H, (last_index_nth i x Hx) in E. congruence.
  - destruct H as [H|H]; [eapply H; eauto|]. exfalso. rewrite <- Ek in H. rewrite H, (last_index_nth i x Hx) in E. discriminate.
Qed.

Lemma found_notin k ret : ~ In k (map vid inputs) -> found ret k.
Proof using. intros H i x Hx E. exfalso. apply H. rewrite <- E. apply in_map. eapply nth_error_In; eauto. Qed.

Lemma dfs_up_ok : forall fuel node st, vl node < fuel -> is_var g node -> upok st ->
  exists st', dfs_up g vid fuel inputs node st = Some st' /\ upok st' /\ upc (fst st') node /\ uple st st'.
Proof using Hln Hlvl Hown Hin.
  induction fuel as [|fuel IH]; intros node st Hl Hv Hst; [lia|]. cbn [dfs_up].
  destruct (mem_nat (vid node) (fst st)) eqn:Em.
  { apply mem_in in Em. exists st. split; auto. split; auto. split; [|split; auto using incl_refl].
    destruct Hst as (_ & _ & H). apply H; auto. }
  destruct (parent g node) as [f|] eqn:Ep.
  2: { exists st. split; auto. split; auto. split; [intros f fd u H; congruence|split; auto using incl_refl]. }
  destruct (ln_parent g Hln node f Ep) as (fd & Hf & Ho). rewrite Hf.
  apply mem_out in Em.
  destruct (ofold_ok (fun st u =>
      if mem_nat (vid node) (fst st) then Some st
      else match dfs_up g vid fuel inputs u (fst st, bind vid inputs u (snd st)) with
           | Some st => Some (vid u :: fst st, snd st)
           | None => None
           end) upok (fun u st => In (vid u) (fst st)) uple (f_ins fd) st) as (st' & E & P & Q & R); auto.
  - intros x y z (A1 & A2) (B1 & B2). split; [eapply incl_tran; eauto|auto].
  - intros x. split; auto using incl_refl.
  - intros b x y H (A1 & _). auto.
  - intros a u Hu Ha. destruct (mem_nat (vid node) (fst a)) eqn:Em2.
    { exists a. apply mem_in in Em2. split; auto. split; auto. split; [|split; auto using incl_refl].
      destruct Ha as (_ & _ & H). eapply H; eauto. }
    assert (Iu : isin u) by (exists f, fd; auto).
    destruct Ha as (S1 & F1 & C1).
    assert (Ha' : upok (fst a, bind vid inputs u (snd a))).
    { split; [|split]; cbn [fst snd]; auto; [apply bind_sound; auto|]. intros k Hk. apply bind_found; auto. }
    assert (Hul : vl u < fuel).
    { pose proof (vl_in f fd u Hf Hu). unfold BwProofs.vl in Hl. rewrite Ep in Hl. lia. }
    destruct (IH u _ Hul (is_var_in f fd u Hf Hu) Ha') as (st1 & E1 & (S2 & F2 & C2) & U2 & R2 & R2').
    rewrite E1. exists (vid u :: fst st1, snd st1). split; auto.
    cbn [fst snd] in R2, R2'. split; [|split; [left; reflexivity|]].
    + split; [|split]; cbn [fst snd]; auto.
      * intros k [<-|Hk]; auto. apply R2'. apply bind_found; auto.
      * intros v Hvv [Hk|Hk] f' fd' u' Hp' Hf' Hu'; [|right; eapply C2; eauto].
        right. assert (u = v) by (eapply own_eq; eauto using is_var_in). subst v. eapply U2; eauto.
    + split; cbn [fst snd]; [intros k Hk; right; auto|]. intros k Hk. apply R2'. apply bind_found; auto.
  - exists st'. split; auto. split; auto. split; auto. intros f' fd' u H1 H2 H3.
    assert (f' = f) by congruence. subst f'. assert (fd' = fd) by congruence. subst fd'. auto.
Qed.

Lemma corresponding_ok outs : (forall o, In o outs -> is_var g o) ->
  exists wrt, corresponding g vid inputs outs = Some wrt /\ sound wrt /\
    forall o v, In o outs -> above g o v -> found wrt (vid v).
Proof using Hln Hlvl Hown Hin.
  intros Ho. unfold corresponding.
  destruct (ofold_ok (fun st o => dfs_up g vid (nfuel g) inputs o st) upok (fun o st => upc (fst st) o) uple outs
              ([], map (fun _ => None) inputs)) as (st & E & (P1 & P2 & P3) & Q & _).
  - intros x y z (A1 & A2) (B1 & B2). split; [eapply incl_tran; eauto|auto].
  - intros x. split; auto using incl_refl.
  - intros b x y H (A1 & _) f fd u H1 H2 H3. apply A1. eapply H; eauto.
  - intros a o Hi Ha. apply dfs_up_ok; auto. unfold nfuel. pose proof (vl_le o). lia.
  - split; [|split]; cbn [fst snd].
    + split; [apply map_length|]. intros i v H. rewrite nth_error_map in H. destruct (nth_error inputs i); discriminate.
    + intros k [].
    + intros v _ [].
  - rewrite E. exists (snd st). split; auto. split; auto. intros o v Hi Ha. apply P2.
    induction Ha as [f fd v H1 H2 H3|u f fd v Hu IH H1 H2 H3].
    + eapply (Q o); eauto.
    + apply (P3 u (parent_var u f H1) IH f fd v H1 H2 H3).
Qed.
End Up.

(** Downstream. *)
Section Down.
Variable wrt : list (option nat).
Inductive down : nat -> Prop :=
| down_in w f fd : In (Some w) wrt -> fun_at g f = Some fd -> In w (f_ins fd) -> down f
| down_step h o f fd : down h -> parent g o = Some h -> fun_at g f = Some fd -> In o (f_ins fd) -> down f.
Definition dnode v := In (Some v) wrt \/ exists h, parent g v = Some h /\ down h.

Lemma refs_in v h : In h (refs g v) <-> exists fd, fun_at g h = Some fd /\ In v (f_ins fd).
Proof using.
  unfold refs. rewrite filter_In, in_seq. split.
  - intros (_ & H). destruct (fun_at g h) as [fd|] eqn:E; [|discriminate]. apply mem_in in H. eauto.
  - intros (fd & H1 & H2). rewrite H1. split; [|apply mem_in; auto]. split; [lia|]. cbn. eapply fun_lt; eauto.
Qed.
Lemma outs_in h o : In o (outs_of g h) <-> parent g o = Some h.
Proof using Hln.
  unfold outs_of. split.
  - destruct (fun_at g h) as [fd|] eqn:E; [|intros []]. apply (ln_outs g Hln h fd o E).
  - intros H. destruct (ln_parent g Hln o h H) as (fd & -> & Hi). exact Hi.
Qed.

Definition dnc (ch : list nat) (v : nat) : Prop :=
  forall h o, In h (refs g v) -> In o (outs_of g h) -> In (vid o) ch.
Definition dnok (ch : list nat) : Prop :=
  (forall k, In k ch -> exists o h, vid o = k /\ parent g o = Some h /\ down h) /\
  (forall v h, parent g v = Some h -> In (vid v) ch -> dnc ch v).

Lemma dfs_down_ok : forall fuel node ch, nf < fuel + vl node -> is_var g node -> dnode node -> dnok ch ->
  exists ch', dfs_down g vid fuel node ch = Some ch' /\ dnok ch' /\ dnc ch' node /\ incl ch ch'.
Proof using Hln Hlvl Hown.
  induction fuel as [|fuel IH]; intros node ch Hl Hv Hd Hch; [pose proof (vl_le node); lia|]. cbn [dfs_down].
  destruct (mem_nat (vid node) ch) eqn:Em.
  { apply mem_in in Em. exists ch. split; auto. split; auto. split; auto using incl_refl.
    destruct Hch as (H1 & H2). destruct (H1 _ Em) as (o & h & E & Hp & _).
    assert (node = o) by (eapply own_eq; eauto). subst o. eapply H2; eauto. }
  destruct (ofold_ok (fun ch f =>
          ofold (fun ch o =>
            if mem_nat (vid o) ch then Some ch
            else match dfs_down g vid fuel o ch with
                 | Some ch => Some (vid o :: ch)
                 | None => None
                 end) (outs_of g f) ch)
      dnok (fun h ch => forall o, In o (outs_of g h) -> In (vid o) ch) (fun a b => incl a b) (refs g node) ch)
    as (ch' & E & P & Q & R); auto using incl_refl.
  - intros x y z. apply incl_tran.
  - intros a h Hh Ha.
    assert (Dh : down h).
    { apply refs_in in Hh as (fd & Hf & Hi). destruct Hd as [Hd|(q & Hq & Dq)]; [eapply down_in; eauto|eapply down_step; eauto]. }
    apply (ofold_ok _ dnok (fun o ch => In (vid o) ch) (fun a b => incl a b) (outs_of g h) a); auto using incl_refl.
    { intros x y z. apply incl_tran. }
    intros b o Ho Hb. destruct (mem_nat (vid o) b) eqn:Eo.
    { apply mem_in in Eo. exists b. auto using incl_refl. }
    apply outs_in in Ho.
    assert (Hol : nf < fuel + vl o).
    { apply refs_in in Hh as (fd & Hf & Hi). pose proof (vl_in h fd node Hf Hi). unfold BwProofs.vl at 1. rewrite Ho. lia. }
    destruct (IH o b Hol (parent_var o h Ho)) as (b' & E1 & (B1 & B2) & C1 & I1); auto; [right; eauto|].
    rewrite E1. exists (vid o :: b'). split; auto. split; [split|split; [left; auto|intros k Hk; right; auto]].
    + intros k [<-|Hk]; eauto.
    + intros v q Hq [Hk|Hk].
      * assert (o = v) by (eapply own_eq; eauto using parent_var). subst v.
        intros h' o' H1 H2. right. eapply C1; eauto.
      * intros h' o' H1 H2. right. eapply B2; eauto.
  - exists ch'. split; auto. split; auto. split; auto. intros h o H1 H2. eapply Q; eauto.
Qed.

Lemma children_ok : (forall w, In (Some w) wrt -> is_var g w) ->
  exists ch, children g vid wrt = Some ch /\
    forall v, is_var g v -> (In (vid v) ch <-> exists h, parent g v = Some h /\ down h).
Proof using Hln Hlvl Hown.
  intros Hw. unfold children.
  destruct (ofold_ok (fun ch w => match w with Some v => dfs_down g vid (nfuel g) v ch | None => Some ch end)
     dnok (fun w ch => forall v, w = Some v -> dnc ch v) (fun a b => incl a b) wrt []) as (ch & E & (P1 & P2) & Q & _);
    auto using incl_refl.
  - intros x y z. apply incl_tran.
  - intros b x y H I v Hv h o H1 H2. apply I. eapply H; eauto.
  - intros a [w|] Hi Ha.
    + destruct (dfs_down_ok (nfuel g) w a) as (a' & E1 & A1 & A2 & A3); auto.
      * unfold nfuel. lia.
      * left. exact Hi.
      * exists a'. split; auto. split; auto. split; auto. intros v Hv. inversion Hv; subst. auto.
    + exists a. split; auto. split; auto. split; auto using incl_refl. discriminate.
  - split; [intros k []|intros v h _ []].
  - exists ch. split; auto. intros v Hv. split.
    + intros Hk. destruct (P1 _ Hk) as (o & h & Eo & Hp & Dh). exists h. split; auto.
      assert (v = o) by (eapply own_eq; eauto). congruence.
    + intros (h & Hp & Dh). revert v Hv Hp. induction Dh as [w f fd H1 H2 H3|h o f fd Dh IH Ho H2 H3]; intros v Hv Hp.
      * eapply (Q (Some w)); eauto; [apply refs_in; eauto|apply outs_in; auto].
      * eapply (P2 o h); eauto; [apply IH; eauto using parent_var|apply refs_in; eauto|apply outs_in; auto].
Qed.
End Down.
End Search.
