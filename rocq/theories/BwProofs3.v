(** Proofs about backward propagation, part 3: the whole traversal. *)
From Coq Require Import List Arith Bool Lia Permutation.
From Verif Require Import CgModel CgSpec BwModel BwSpec BwProofs BwProofs2.
Import ListNotations.
Local Open Scope list_scope.

Lemma snoc_split {A} (l : list A) x l1 z l2 : l ++ [x] = l1 ++ z :: l2 ->
  (l2 = [] /\ z = x /\ l1 = l) \/ (exists l3, l = l1 ++ z :: l3).
Proof.
  destruct l2 as [|w l2 _] using rev_ind.
  - intros H. apply app_inj_tail in H as (-> & ->). auto.
  - intros H. right. exists l2. change (l1 ++ z :: l2 ++ [w]) with (l1 ++ (z :: l2) ++ [w]) in H.
    rewrite app_assoc in H. apply app_inj_tail in H as (-> & _). reflexivity.
Qed.

Section Loop.
Context {V G : Type}.
Variable add : G -> G -> G.
Variable zero : G.
Hypothesis M : comm_monoid add zero.
Variable g : graph V.
Variable s : st V.
Variable d : nat -> nat -> nat -> G -> G.
Hypothesis Hd : forall f o i, additive add zero (d f o i).
Variable garr : nat -> nat.
Variable cb ci : bool.
Variable y p : nat.
Variable given : bool.
Hypothesis Hln : linked g.
Variable lvl : nat -> nat.
Hypothesis Hlvl : numbering g lvl.
Hypothesis Hy : parent g y = Some p.
Hypothesis Hown : own_grads g garr.
Notation ng := (need_grad_state g s).
Notation gra := (gra g garr y p given).
Notation root_outs := (root_outs g p).
Notation gsum := (gsum add zero).
Notation reached := (reached g ng y).
Notation nf := (length (g_fns g)).
Hypothesis Hrk : forall f i v q, reached f -> reads g f i v -> parent g v = Some q -> frank s q < frank s f.
Hypothesis Hgf : forall f i v, reached f -> reads g f i v -> ng v = true -> fng s f = true.
Definition B (f : nat) : Prop := reached f /\ fng s f = true.
Hypothesis Hquiet : forall f fd v q, B f -> fun_at g f = Some fd -> In v (f_ins fd) ->
  parent g v = Some q -> B q -> ng v = true.
Variable m : nat -> option G.
Variable z : nat -> bool.
Variable x0 : G.
Hypothesis Hm : given = false -> m (garr y) = Some x0.
Hypothesis Hz : forall a, z a = true -> m a = Some zero.
Hypothesis Hready : forall f i v, reached f -> reads g f i v -> ng v = true -> is_leaf g v ->
  m (garr v) <> None.
Notation adj := (adj add zero g d ng y x0).
Notation contrib := (contrib add zero g d ng y x0).
Definition ends (A : garray) (v : nat) : bool := garray_eqb (gra v) A.
Definition SL (L : list nat) (A : garray) : G := gsum (map (contrib (ends A)) L).
Definition b0 : bst G := backward_start zero y m z x0.

Lemma reached_fun f : reached f -> exists fd, fun_at g f = Some fd.
Proof. intros (l & v & _ & H). destruct (ln_parent g Hln v f H) as (fd & Hf & _). eauto. Qed.
Lemma reached_lt f : reached f -> f < nf.
Proof. intros H. apply reached_fun in H as (fd & H). eapply fun_lt; eauto. Qed.
Lemma reached_p : reached p. Proof. exists [], y. split; auto. constructor. Qed.
Lemma root_iff v : In v root_outs <-> parent g v = Some p.
Proof.
  unfold BwModel.root_outs. destruct (ln_parent g Hln y p Hy) as (pd & Hp & _). rewrite Hp. split.
  - intros H. apply (ln_outs g Hln p pd v Hp H).
  - intros H. destruct (ln_parent g Hln v p H) as (pd' & Hp' & Hin). rewrite Hp in Hp'. inversion Hp'; subst. auto.
Qed.
Lemma parent_var v q : parent g v = Some q -> is_var g v.
Proof. intros H. destruct (ln_parent g Hln v q H) as (fd & Hf & Hin). apply (ln_outs g Hln q fd v Hf Hin). Qed.
Lemma gra_inj u v q : is_var g u -> parent g v = Some q -> gra u = gra v -> u = v.
Proof.
  intros Hu Hv. unfold BwModel.gra.
  assert (L : ~ is_leaf g v) by (unfold is_leaf; congruence).
  assert (Iv : is_var g v) by (eapply parent_var; eauto).
  destruct (mem_nat u root_outs), (mem_nat v root_outs), (Nat.eqb_spec u y), (Nat.eqb_spec v y);
    destruct given; intros H; try discriminate; try (injection H as H); subst; auto.
Qed.
Lemma reached_lvl f : reached f -> lvl f <= lvl p.
Proof.
  intros (l & v & Hp & Hv). revert f Hv.
  induction Hp as [|l f fd o i u v Hp IH Hf Ho Hr Hn]; intros q Hq.
  - rewrite Hy in Hq. inversion Hq; subst. auto.
  - assert (Eu : parent g u = Some f) by (apply (ln_outs g Hln f fd u Hf); eapply nth_error_In; eauto).
    specialize (IH _ Eu). destruct Hr as (fd' & Hf' & Hi & _). rewrite Hf in Hf'. inversion Hf'; subst fd'.
    assert (lvl q < lvl f) by (eapply (Hlvl f fd Hf); eauto; eapply nth_error_In; eauto). lia.
Qed.
Lemma root_not_in f fd v : reached f -> fun_at g f = Some fd -> In v (f_ins fd) -> parent g v <> Some p.
Proof.
  intros Hr Hf Hi Hv. apply reached_lvl in Hr. assert (lvl p < lvl f) by (eapply (Hlvl f fd Hf); eauto). lia.
Qed.
Lemma out_not_in f fd v : fun_at g f = Some fd -> In v (f_ins fd) -> parent g v <> Some f.
Proof. intros Hf Hi Hv. assert (lvl f < lvl f) by (eapply (Hlvl f fd Hf); eauto). lia. Qed.

(** Contributions to one array. *)
Lemma contrib_ext E E' f : (forall fd v, fun_at g f = Some fd -> In v (f_ins fd) -> E v = E' v) ->
  contrib E f = contrib E' f.
Proof.
  intros H. unfold BwProofs.contrib. destruct (fun_at g f) as [fd|] eqn:Ef; auto.
  apply gsum_ext. intros (i & v) Hi. cbn [fst snd]. apply in_combine_r in Hi. rewrite (H fd v); auto.
Qed.
Lemma contrib_0 E f : (forall fd i v, fun_at g f = Some fd -> nth_error (f_ins fd) i = Some v ->
    f_active fd i = true -> ng v = true -> E v = true -> False) ->
  contrib E f = zero.
Proof.
  intros H. unfold BwProofs.contrib. destruct (fun_at g f) as [fd|] eqn:Ef; auto.
  apply gsum_zero; auto. intros (i & v) Hi. cbn [fst snd]. apply in_pos in Hi.
  destruct (f_active fd i && ng v && E v) eqn:Ec; auto. exfalso.
  apply andb_true_iff in Ec as (Ec & E3). apply andb_true_iff in Ec as (E1 & E2). eapply H; eauto.
Qed.
Lemma ends_iff v q u fd f : parent g v = Some q -> fun_at g f = Some fd -> In u (f_ins fd) ->
  ends (gra v) u = Nat.eqb v u.
Proof.
  intros Hv Hf Hu. unfold ends. destruct (Nat.eqb_spec v u) as [->|Hn]; [apply geqb_refl|].
  apply geqb_neq. intros E. apply Hn. symmetry. eapply gra_inj; eauto. eapply ln_ins; eauto.
Qed.
(** Adjoints are complete once all consumers are processed. *)
Lemma total E L : NoDup L -> (forall f, In f L -> f < nf) ->
  (forall f, B f -> ~ In f L -> contrib E f = zero) ->
  gsum (map (contrib E) L) = gsum (map (contrib E) (seq 0 nf)).
Proof.
  intros H1 H2 H3. apply gsum_sub; auto. intros f Hf Hn.
  assert (D : reached f -> contrib E f = zero).
  { intros Hr. destruct (fng s f) eqn:Ef; [apply H3; auto; split; auto|].
    apply contrib_0. intros fd i v F1 F2 F3 F4 _.
    assert (fng s f = true); [|congruence]. apply (Hgf f i v); auto. exists fd. auto. }
  (* reachability is decidable through the enumeration of paths *)
  assert (Dec : {reached f} + {~ reached f}).
  { destruct (fun_at g f) as [fd|] eqn:Ef.
    - destruct (flat_map (fun o => paths g ng y (S nf) (Nat.eqb o)) (f_outs fd)) as [|l r] eqn:El.
      + right. intros (l & v & Hp & Hv). destruct (ln_parent g Hln v f Hv) as (fd' & Ef' & Hin).
        rewrite Ef in Ef'. inversion Ef'; subst fd'.
        assert (In l (flat_map (fun o => paths g ng y (S nf) (Nat.eqb o)) (f_outs fd))).
        { apply in_flat_map. exists v. split; auto. apply paths_in. exists v. split; auto.
          split; [apply Nat.eqb_refl|]. apply (path_len g ng y Hln lvl Hlvl) in Hp. lia. }
        rewrite El in H. destruct H.
      + left. assert (I : In l (l :: r)) by (left; auto). rewrite <- El in I.
        apply in_flat_map in I as (o & Ho & I). apply paths_in in I as (v & V1 & V2 & _).
        apply Nat.eqb_eq in V2. subst v. exists l, o. split; auto. apply (ln_outs g Hln f fd o Ef Ho).
    - right. intros Hr. apply reached_fun in Hr as (fd & Hfd). congruence. }
  destruct Dec as [Hr|Hr]; [auto|]. apply contrib_none; auto.
Qed.

Definition kept (v : nat) : Prop := cb = false \/ v_persistent (var_at g v) = true.
Definition touched (L : list nat) (v : nat) : Prop :=
  exists f fd, In f L /\ fun_at g f = Some fd /\ (In v (f_ins fd) \/ In v (f_outs fd)).
Definition inter (A : garray) : Prop := exists v q, parent g v = Some q /\ gra v = A.

Record Inv (open D L : list nat) (b : bst G) : Prop := mkInv {
  i_log : blog b = L;
  i_nodup : NoDup L;
  i_B : forall f, In f L -> B f;
  i_D : NoDup D;
  i_Dr : forall f, In f D -> reached f;
  i_LD : forall f, In f L -> In f D;
  i_open : forall f, In f open -> reached f /\ ~ In f D;
  i_root : fng s p = true -> In p L \/ In p open;
  i_close : forall h i v q, In h L -> reads g h i v -> ng v = true -> parent g v = Some q ->
              fng s q = true -> In q L \/ In q open;
  i_done : forall f h i v, In f D -> B h -> reads g h i v -> parent g v = Some f -> In h L;
  i_order : forall l1 f l2 h i v, L = l1 ++ f :: l2 -> B h -> reads g h i v -> parent g v = Some f -> In h l1;
  i_seen : forall v, seen_flag (seen b) v <> None <-> touched L v;
  i_leaf : forall A, ~ inter A -> gmem b A = match gmem b0 A with
             | Some x => Some (add x (SL L A)) | None => None end;
  i_mid : forall v q, parent g v = Some q -> q <> p -> touched L v -> (B q \/ ng v = true) ->
            (~ In q L \/ kept v) -> gmem b (gra v) = Some (SL L (gra v));
  i_top : forall v, parent g v = Some p -> ~ In p L -> gmem b (gra v) = Some (if Nat.eqb v y then x0 else zero);
  i_zero : forall A, gzero b A = true -> gmem b A = Some zero }.

(** Every function still to run is below an open one. *)
Lemma frontier open D L b h : Inv open D L b -> B h ->
  In h L \/ exists k, In k open /\ frank s h <= frank s k.
Proof.
  intros I ((l & v & Hp & Hv) & Hh). revert h Hv Hh.
  induction Hp as [|l f fd o i u v Hp IH Hf Ho Hr Hn]; intros q Hq Hgq.
  - rewrite Hy in Hq. inversion Hq; subst q. destruct (i_root _ _ _ _ I Hgq); [auto|right; exists p; auto].
  - assert (Eu : parent g u = Some f) by (apply (ln_outs g Hln f fd u Hf); eapply nth_error_In; eauto).
    assert (Rf : reached f) by (exists l, u; auto).
    assert (Gf : fng s f = true) by (apply (Hgf f i v); auto).
    assert (K : frank s q < frank s f) by (apply (Hrk f i v q); auto).
    destruct (IH f Eu Gf) as [HL|(k & K1 & K2)].
    + destruct (i_close _ _ _ _ I f i v q HL Hr Hn Hq Hgq) as [|Ho']; [auto|]. right. exists q. auto.
    + right. exists k. split; auto. lia.
Qed.
Lemma pick_some : forall open f, pick s open = Some f ->
  In f open /\ forall h, In h open -> frank s h <= frank s f.
Proof.
  induction open as [|a open IH]; intros f H; cbn [pick] in H; [discriminate|].
  destruct (pick s open) as [h|] eqn:E.
  - destruct (IH h eq_refl) as (I1 & I2). destruct (Nat.ltb_spec (frank s a) (frank s h)); inversion H; subst f.
    + split; [right; auto|]. intros k [<-|Hk]; [lia|auto].
    + split; [left; auto|]. intros k [<-|Hk]; [lia|]. specialize (I2 k Hk). lia.
  - inversion H; subst. destruct open as [|c open].
    + split; [left; auto|]. intros k [<-|[]]. auto.
    + cbn [pick] in E. destruct (pick s open); [destruct (Nat.ltb _ _)|]; discriminate.
Qed.
Lemma pick_none open : pick s open = None -> open = [].
Proof.
  destruct open as [|a open]; auto. cbn [pick]. destruct (pick s open); [destruct (Nat.ltb _ _)|]; discriminate.
Qed.
Lemma consumers_done open D L b f : Inv open D L b -> pick s open = Some f ->
  forall h i v, B h -> reads g h i v -> parent g v = Some f -> In h L.
Proof.
  intros I Hp h i v Hh Hr Hv. apply pick_some in Hp as (P1 & P2).
  destruct (frontier _ _ _ _ h I Hh) as [|(k & K1 & K2)]; auto. exfalso.
  assert (frank s f < frank s h) by (apply (Hrk h i v f); auto; apply Hh).
  specialize (P2 k K1). lia.
Qed.

Lemma in_insert open q x : In x (insert_open open q) <-> In x open \/ x = q.
Proof.
  unfold insert_open. destruct (mem_nat q open) eqn:E.
  - apply mem_nat_in in E. split; auto. intros [| ->]; auto.
  - rewrite in_app_iff. cbn. intuition.
Qed.
Lemma in_propagate (fd : fn V) : forall ins k open x, In x (propagate g s fd k ins open) <->
  In x open \/ exists j v, nth_error ins j = Some v /\ f_active fd (k + j) = true /\ ng v = true /\ parent g v = Some x.
Proof.
  induction ins as [|v ins IH]; intros k open x; cbn [propagate].
  - split; auto. intros [|(j & v & H & _)]; auto. destruct j; discriminate.
  - rewrite IH. clear IH.
    set (o1 := if f_active fd k && ng v then match parent g v with Some q => insert_open open q | None => open end else open).
    assert (O : In x o1 <-> In x open \/ (f_active fd k = true /\ ng v = true /\ parent g v = Some x)).
    { unfold o1. destruct (f_active fd k) eqn:E1, (ng v) eqn:E2; cbn [andb]; try (split; [auto|intros [|(?&?&?)]; auto; congruence]).
      destruct (parent g v) as [q|]; [rewrite in_insert|].
      - split; (intros [H|H]; [left; exact H|right]); [subst; auto|]. destruct H as (_ & _ & H). congruence.
      - split; [auto|]. intros [H|(_ & _ & H)]; [exact H|discriminate]. }
    rewrite O. split.
    + intros [[H|(H1 & H2 & H3)]|(j & u & H1 & H2 & H3)]; auto.
      * right. exists 0, v. rewrite Nat.add_0_r. auto.
      * right. exists (S j), u. replace (k + S j) with (S k + j) by lia. auto.
    + intros [H|(j & u & H1 & H2 & H3)]; auto. destruct j as [|j]; cbn [nth_error] in H1.
      * inversion H1; subst. rewrite Nat.add_0_r in H2. auto.
      * right. exists j, u. replace (S k + j) with (k + S j) by lia. auto.
Qed.

Lemma SL_snoc L f A : SL (L ++ [f]) A = add (SL L A) (contrib (ends A) f).
Proof.
  unfold SL. rewrite map_app, (gsum_app add zero M). f_equal. cbn. apply (add_0_r add zero M).
Qed.
Lemma SL_0 L A : (forall f, In f L -> contrib (ends A) f = zero) -> SL L A = zero.
Proof. intros H. apply gsum_zero; auto. Qed.

(** One function. *)
Lemma local_lgrad f i fd : local_grad add zero d f i (map adj (f_outs fd)) = lgrad add zero g d ng y x0 f i fd.
Proof.
  unfold local_grad, lgrad. rewrite map_length. unfold BwSpec.gsum. f_equal.
  generalize 0 as k. induction (f_outs fd) as [|o outs IH]; intros k; cbn; auto. f_equal. apply IH.
Qed.
Lemma wsum_contrib f fd A : fun_at g f = Some fd ->
  wsum add zero g s d garr y p given f fd (map adj (f_outs fd)) 0 (f_ins fd) A = contrib (ends A) f.
Proof.
  intros Hf. unfold wsum, BwProofs.contrib. rewrite Hf. apply gsum_ext. intros (i & v) _. cbn [fst snd].
  unfold ends. rewrite local_lgrad. reflexivity.
Qed.

Lemma touched_snoc L f fd v : fun_at g f = Some fd ->
  (touched (L ++ [f]) v <-> touched L v \/ In v (f_ins fd) \/ In v (f_outs fd)).
Proof.
  intros Hf. split.
  - intros (h & hd & H1 & H2 & H3). apply in_app_iff in H1 as [H1|[<-|[]]].
    + left. exists h, hd. auto.
    + rewrite Hf in H2. inversion H2; subst. auto.
  - intros [(h & hd & H1 & H2 & H3)|H].
    + exists h, hd. split; [apply in_app_iff; auto|auto].
    + exists f, fd. split; [apply in_app_iff; right; left; auto|auto].
Qed.
Lemma ends_other v q f : parent g v = Some q ->
  (forall fd, fun_at g f = Some fd -> ~ In v (f_ins fd)) -> contrib (ends (gra v)) f = zero.
Proof.
  intros Hv H. apply contrib_0. intros fd i u Hf Hi _ _ E. apply geqb_eq in E.
  assert (u = v). { eapply gra_inj; eauto. eapply ln_ins; eauto. eapply nth_error_In; eauto. }
  subst. apply (H fd Hf). eapply nth_error_In; eauto.
Qed.
Lemma untouched_0 L v q : parent g v = Some q -> ~ touched L v -> SL L (gra v) = zero.
Proof.
  intros Hv H. apply SL_0. intros f Hf. eapply ends_other; eauto. intros fd Hfd Hin. apply H. exists f, fd. auto.
Qed.

Lemma existsb_nth {A C} (P : A * C -> bool) (l : list A) (r : list C) : length r = length l ->
  (existsb P (combine l r) = true <-> exists i a c, nth_error l i = Some a /\ nth_error r i = Some c /\ P (a, c) = true).
Proof.
  revert r. induction l as [|x l IH]; intros [|w r] H; try discriminate; cbn [combine existsb].
  - split; [discriminate|]. intros (i & a & c & H1 & _). destruct i; discriminate.
  - rewrite orb_true_iff, IH by (cbn in H; lia). split.
    + intros [H1|(i & a & c & H1 & H2 & H3)]; [exists 0, x, w; auto|exists (S i), a, c; auto].
    + intros (i & a & c & H1 & H2 & H3). destruct i as [|i]; cbn [nth_error] in *.
      * inversion H1; inversion H2; subst. auto.
      * right. exists i, a, c. auto.
Qed.
Lemma nth_len {A C} (l : list A) (r : list C) i a : length r = length l -> nth_error l i = Some a ->
  exists c, nth_error r i = Some c.
Proof.
  intros H1 H2. assert (i < length r) by (rewrite H1; apply nth_error_Some; congruence).
  destruct (nth_error r i) eqn:E; eauto. apply nth_error_None in E. lia.
Qed.

Lemma step_ok open D L b f fd : Inv open D L b -> pick s open = Some f -> fng s f = true ->
  fun_at g f = Some fd ->
  exists b', backward_one add zero g s d garr cb ci y p given b f fd = Ok b' /\
    Inv (remove Nat.eq_dec f (propagate g s fd 0 (f_ins fd) open)) (f :: D) (L ++ [f]) b'.
Proof.
  intros I Hpick Hgff Hf.
  destruct (pick_some _ _ Hpick) as (Hop & Hmax).
  destruct (i_open _ _ _ _ I f Hop) as (Rf & NDf).
  assert (Bf : B f) by (split; auto).
  assert (NLf : ~ In f L) by (intros H; apply NDf; eapply i_LD; eauto).
  assert (Cons := consumers_done _ _ _ _ f I Hpick).
  assert (InV : forall v, In v (f_ins fd) -> is_var g v) by (intros; eapply ln_ins; eauto).
  assert (OutP : forall v, In v (f_outs fd) -> parent g v = Some f) by (intros; eapply ln_outs; eauto).
  assert (OutI : forall v, parent g v = Some f -> In v (f_outs fd)).
  { intros v Hv. destruct (ln_parent g Hln v f Hv) as (fd' & Hf' & H). rewrite Hf in Hf'. inversion Hf'; subst; auto. }
  assert (NInOut : forall v, In v (f_ins fd) -> ~ In v (f_outs fd)).
  { intros v H1 H2. apply OutP in H2. eapply out_not_in; eauto. }
  unfold backward_one.
  destruct (query_inputs fd (f_ins fd) (seen b)) as [firsts l1] eqn:Qi.
  destruct (query_inputs_ok fd _ _ _ _ Qi) as (Qi1 & Qi2 & Qi3).
  destruct (accum_flags_ok g s garr y p given b (f_ins fd) (f_ins fd) 0 firsts Qi1) as (Ac1 & Ac2).
  set (acc := accum_flags g s garr y p given b (f_ins fd) 0 (f_ins fd) firsts) in *.
  destruct (query_outputs g cb ci given (f_outs fd) l1) as [oflags l2] eqn:Qo.
  destruct (query_outputs_ok g cb ci given _ _ _ _ (ln_nodup g Hln f fd Hf) Qo) as (Qo1 & Qo2 & Qo3).
  set (b1 := mkBst (gmem b) (gzero b) l2 (blog b ++ [f])).
  destruct (zero_unseen_ok zero g garr y p given (f_outs fd) oflags b1) as (Zu1 & Zu2 & Zu3 & Zu4).
  set (b2 := zero_unseen zero g garr y p given b1 (f_outs fd) oflags) in *.
  destruct (zero_inputs_ok zero g s garr y p given (f_ins fd) acc b2) as (Zi1 & Zi2 & Zi3 & Zi4).
  set (b3 := zero_inputs zero g s garr y p given b2 (f_ins fd) acc) in *.
  (* accumulation flags *)
  assert (Acc : forall i v, nth_error (f_ins fd) i = Some v -> ng v = true ->
     exists a, nth_error acc i = Some a /\
       (a = false <-> (gzero b (gra v) = true /\ shared g garr y p given (f_ins fd) i (gra v) = false) \/
                      (parent g v <> None /\ seen_flag (seen b) v = None /\ ~ In v (firstn i (f_ins fd))))).
  { intros i v Hi Hn. pose proof (Qi2 _ _ Hi) as Hfi. pose proof (Ac2 _ _ _ Hi Hfi) as Ha.
    eexists. split; [exact Ha|]. unfold accum_flag. rewrite Hn. cbn [negb].
    rewrite Nat.add_0_l.
    destruct (gzero b (gra v) && negb (shared g garr y p given (f_ins fd) i (gra v))) eqn:E1.
    - apply andb_true_iff in E1 as (E1 & E2). apply negb_true_iff in E2. split; auto.
    - destruct (match parent g v with Some _ => true | None => false end &&
                match seen_flag (seen b) v with Some _ => false | None => negb (mem_nat v (firstn i (f_ins fd))) end) eqn:E2.
      + split; auto. intros _. right. apply andb_true_iff in E2 as (E2 & E3).
        destruct (parent g v); [|discriminate]. destruct (seen_flag (seen b) v); [discriminate|].
        apply negb_true_iff, mem_nat_not in E3. split; [discriminate|auto].
      + split; [discriminate|]. intros [(H1 & H2)|(H1 & H2 & H3)].
        * rewrite H1, H2 in E1. discriminate.
        * destruct (parent g v); [|congruence]. apply mem_nat_not in H3. rewrite H2, H3 in E2. discriminate. }
  assert (Zshared : forall i v u j, nth_error (f_ins fd) i = Some v -> shared g garr y p given (f_ins fd) i (gra v) = false ->
     nth_error (f_ins fd) j = Some u -> gra u = gra v -> j = i).
  { intros i v u j Hi Hs Hj Hg. destruct (Nat.eq_dec j i); auto. exfalso.
    assert (X : shared g garr y p given (f_ins fd) i (gra v) = true) by (apply shared_iff; exists j, u; auto). congruence. }
  (* after zeroing the unseen outputs *)
  assert (M2in : forall A, (forall v, In v (f_outs fd) -> parent g v <> Some p -> gra v <> A) -> gmem b2 A = gmem b A).
  { intros A HA. rewrite Zu1. destruct (existsb _ (combine (f_outs fd) oflags)) eqn:E; [|reflexivity].
    exfalso. apply existsb_nth in E; [|auto]. destruct E as (i & o & c & E1 & E2 & E3). cbn [fst snd] in E3.
    apply andb_true_iff in E3 as (E3 & E4). apply andb_true_iff in E3 as (E3 & E5).
    apply geqb_eq in E4. apply negb_true_iff, mem_nat_not in E5. rewrite root_iff in E5.
    apply nth_error_In in E1. eapply HA; eauto. }
  assert (Z2in : forall A, (forall v, In v (f_outs fd) -> parent g v <> Some p -> gra v <> A) -> gzero b2 A = gzero b A).
  { intros A HA. rewrite Zu2. destruct (existsb _ (combine (f_outs fd) oflags)) eqn:E; [|reflexivity].
    exfalso. apply existsb_nth in E; [|auto]. destruct E as (i & o & c & E1 & E2 & E3). cbn [fst snd] in E3.
    apply andb_true_iff in E3 as (E3 & E4). apply andb_true_iff in E3 as (E3 & E5).
    apply geqb_eq in E4. apply negb_true_iff, mem_nat_not in E5. rewrite root_iff in E5.
    apply nth_error_In in E1. eapply HA; eauto. }
  assert (OutA : forall o u, In o (f_outs fd) -> is_var g u -> gra o = gra u -> u = o).
  { intros o u Ho Hu E. eapply gra_inj; eauto. }
  assert (SeenL : forall v, seen_flag (seen b) v <> None <-> touched L v) by apply (i_seen _ _ _ _ I).
  assert (M2out : forall o, In o (f_outs fd) -> f <> p -> gmem b2 (gra o) = Some (SL L (gra o))).
  { intros o Ho Hp. pose proof (OutP o Ho) as Po.
    rewrite Zu1. apply In_nth_error in Ho as Hi. destruct Hi as (i & Hi).
    destruct (Qo2 _ _ Hi) as (c & C1 & _).
    assert (NI : ~ In o (f_ins fd)) by (intros H; eapply NInOut; eauto).
    destruct (existsb _ (combine (f_outs fd) oflags)) eqn:E.
    - apply existsb_nth in E; [|auto]. destruct E as (j & o' & c' & E1 & E2 & E3). cbn [fst snd] in E3.
      apply andb_true_iff in E3 as (E3 & E4). apply andb_true_iff in E3 as (E3 & E5).
      apply geqb_eq in E4. assert (o' = o).
      { eapply gra_inj; eauto. eapply parent_var. apply OutP. eapply nth_error_In; eauto. }
      subst o'. destruct (Qo2 _ _ E1) as (c2 & C2 & _). rewrite E2 in C2. inversion C2; subst c'. cbn [fst] in E3.
      f_equal. symmetry. eapply untouched_0; eauto. intros T. apply SeenL in T.
      assert (seen_flag l1 o <> None) by (apply Qi3; auto). destruct (seen_flag l1 o); congruence.
    - assert (Sn : touched L o).
      { apply SeenL. destruct (seen_flag (seen b) o) eqn:Es; [congruence|exfalso].
        assert (X : seen_flag l1 o = None).
        { destruct (seen_flag l1 o) eqn:E1; auto. exfalso.
          assert (Y : seen_flag (seen b) o <> None \/ In o (f_ins fd)) by (apply Qi3; congruence).
          destruct Y; [congruence|auto]. }
        rewrite X in C1. assert (Y : existsb (fun e => fst (snd e) && negb (mem_nat (fst e) root_outs) && garray_eqb (gra (fst e)) (gra o)) (combine (f_outs fd) oflags) = true).
        { apply existsb_nth; auto. exists i, o, (true, c). split; auto. split; auto. cbn [fst snd].
          rewrite geqb_refl. cbn [andb]. rewrite andb_true_r. apply negb_true_iff, mem_nat_not. rewrite root_iff. congruence. }
        congruence. }
      change (gmem b1 (gra o)) with (gmem b (gra o)).
      eapply i_mid; eauto. }
  assert (InNoOut : forall v w, In v (f_ins fd) -> In w (f_outs fd) -> gra w <> gra v).
  { intros v w Hv Hw E. assert (v = w) by (eapply OutA; eauto). subst. eapply NInOut; eauto. }
  assert (M2ins : forall v, In v (f_ins fd) -> gmem b2 (gra v) = gmem b (gra v)) by (intros v Hv; apply M2in; auto).
  (* after zeroing the inputs *)
  assert (M3false : forall i v, nth_error (f_ins fd) i = Some v -> ng v = true -> nth_error acc i = Some false ->
     gmem b3 (gra v) = Some zero).
  { intros i v Hi Hn Ha. rewrite Zi1.
    assert (E : existsb (fun e => ng (fst e) && negb (snd e) && garray_eqb (gra (fst e)) (gra v)) (combine (f_ins fd) acc) = true).
    { apply existsb_nth; auto. exists i, v, false. split; auto. split; auto. cbn [fst snd negb]. rewrite Hn, geqb_refl. reflexivity. }
    rewrite E. reflexivity. }
  assert (M3true : forall A, (forall i v, nth_error (f_ins fd) i = Some v -> ng v = true -> nth_error acc i = Some false -> gra v <> A) ->
     gmem b3 A = gmem b2 A /\ gzero b3 A = gzero b2 A).
  { intros A HA. assert (E : existsb (fun e => ng (fst e) && negb (snd e) && garray_eqb (gra (fst e)) A) (combine (f_ins fd) acc) = false).
    { destruct (existsb _ (combine (f_ins fd) acc)) eqn:E; auto. exfalso. apply existsb_nth in E; auto.
      destruct E as (i & v & a & E1 & E2 & E3). cbn [fst snd] in E3.
      apply andb_true_iff in E3 as (E3 & E4). apply andb_true_iff in E3 as (E3 & E5). apply geqb_eq in E4.
      apply negb_true_iff in E5. subst a. eapply HA; eauto. }
    rewrite Zi1, Zi2, E. auto. }
  (* arrays whose zeroing does not change the value *)
  assert (M3same : forall A, (forall i v, nth_error (f_ins fd) i = Some v -> gra v = A -> parent g v = None \/ touched L v) ->
     gmem b3 A = gmem b2 A).
  { intros A HA.
    destruct (existsb (fun e => ng (fst e) && negb (snd e) && garray_eqb (gra (fst e)) A) (combine (f_ins fd) acc)) eqn:E.
    - apply existsb_nth in E; auto. destruct E as (i & v & a & E1 & E2 & E3). cbn [fst snd] in E3.
      apply andb_true_iff in E3 as (E3 & E4). apply andb_true_iff in E3 as (E3 & E5). apply geqb_eq in E4.
      apply negb_true_iff in E5. subst a A. rewrite (M3false i v); auto.
      destruct (Acc i v E1 E3) as (a & A1 & A2). rewrite E2 in A1. inversion A1; subst a.
      destruct A2 as (A2 & _). destruct (A2 eq_refl) as [(A3 & _)|(A3 & A4 & _)].
      + rewrite M2ins by (eapply nth_error_In; eauto). symmetry. apply (i_zero _ _ _ _ I). auto.
      + exfalso. destruct (HA i v E1 eq_refl) as [|T]; [auto|]. apply SeenL in T. auto.
    - rewrite Zi1, E. reflexivity. }
  assert (M3new : forall v, In v (f_ins fd) -> ng v = true -> parent g v <> None -> ~ touched L v -> gmem b3 (gra v) = Some zero).
  { intros v Hv Hn Hpv Ht.
    assert (First : exists i, nth_error (f_ins fd) i = Some v /\ ~ In v (firstn i (f_ins fd))).
    { clear - Hv. induction (f_ins fd) as [|a l IH]; [destruct Hv|].
      destruct (Nat.eq_dec a v) as [->|Hne]; [exists 0; auto|]. destruct Hv as [|Hv]; [congruence|].
      destruct (IH Hv) as (i & I1 & I2). exists (S i). split; auto. cbn [firstn]. intros [|]; auto. }
    destruct First as (i & I1 & I2). destruct (Acc i v I1 Hn) as (a & A1 & A2).
    assert (a = false).
    { apply A2. right. split; auto. split; auto. destruct (seen_flag (seen b) v) eqn:Es; auto. exfalso. apply Ht, SeenL. congruence. }
    subst a. eapply M3false; eauto. }
  assert (Seen_q : forall v q i, nth_error (f_ins fd) i = Some v -> f_active fd i = true -> parent g v = Some q -> ~ In q L).
  { intros v q i Hi Ha Hq HL. apply NLf. apply (i_done _ _ _ _ I q f i v); auto; [eapply i_LD; eauto|exists fd; auto]. }
  (* reading the output gradients *)
  assert (M3out : forall o, In o (f_outs fd) -> gmem b3 (gra o) = gmem b2 (gra o)).
  { intros o Ho. refine (proj1 (M3true (gra o) _)). intros i v Hi _ _ E. apply (InNoOut v o); auto. eapply nth_error_In; eauto. }
  assert (Adj : forall o, In o (f_outs fd) -> gmem b3 (gra o) = Some (adj o)).
  { intros o Ho. rewrite M3out by auto. pose proof (OutP o Ho) as Po.
    assert (Tot : adj o = add (if Nat.eqb o y then x0 else zero) (SL L (gra o))).
    { unfold BwProofs.adj. rewrite (padj_eq add zero M g d Hd ng y Hln lvl Hlvl). f_equal.
      rewrite <- (total (Nat.eqb o) L).
      - unfold SL. apply gsum_ext. intros h Hh. apply contrib_ext. intros hd v Hhd Hv.
        symmetry. eapply ends_iff; eauto.
      - apply (i_nodup _ _ _ _ I).
      - intros h Hh. apply reached_lt. apply (i_B _ _ _ _ I h Hh).
      - intros h Hh Hn. apply contrib_0. intros hd i v H1 H2 H3 H4 H5. apply Nat.eqb_eq in H5. subst v.
        apply Hn. apply (Cons h i o); auto. exists hd. auto. }
    rewrite Tot. destruct (Nat.eq_dec f p) as [->|Hp].
    - rewrite M2in.
      + rewrite (i_top _ _ _ _ I o Po NLf). f_equal.
        rewrite SL_0; [symmetry; apply (add_0_r add zero M)|]. intros h Hh.
        eapply ends_other; eauto. intros hd Hhd Hin. eapply (root_not_in h hd o); eauto. apply (i_B _ _ _ _ I h Hh).
      + intros v Hv Hpv. exfalso. apply Hpv. auto.
    - rewrite M2out by auto. f_equal. destruct (Nat.eqb_spec o y) as [->|]; [exfalso; congruence|].
      symmetry. apply (add_0_l add zero M). }
  rewrite (read_grads_ok g garr y p given (gmem b3) adj (f_outs fd) Adj).
  (* writing the input gradients *)
  destruct (write_ok add zero M g s d garr y p given f fd (map adj (f_outs fd)) (f_ins fd) acc 0 b3 Ac1)
    as (b4 & W1 & W2 & W3 & W4 & W5).
  { intros j v Hj Ha Hac Hn. split; [eapply M3false; eauto|]. intros j' v' Hlt Hj' E.
    destruct (Acc j v Hj Hn) as (a & A1 & A2). rewrite Ha in A1. inversion A1; subst a.
    destruct A2 as (A2 & _). destruct (A2 eq_refl) as [(_ & A3)|(A3 & _ & A4)].
    - assert (j' = j) by (eapply Zshared; eauto). lia.
    - destruct (parent g v) as [q|] eqn:Eq; [|congruence].
      assert (v' = v) by (eapply gra_inj; eauto; apply InV; eapply nth_error_In; eauto). subst v'.
      apply A4. clear - Hlt Hj'. revert j j' Hlt Hj'. induction (f_ins fd) as [|a l IH]; intros j j' Hlt Hj'; [destruct j'; discriminate|].
      destruct j as [|j]; [lia|]. destruct j' as [|j']; cbn in *; [inversion Hj'; auto|right; eapply IH; eauto; lia]. }
  { intros j v Hj Hac Hn. rewrite Nat.add_0_l in Hac. assert (Hin : In v (f_ins fd)) by (eapply nth_error_In; eauto).
    assert (Hrd : reads g f j v) by (exists fd; auto).
    destruct (parent g v) as [q|] eqn:Eq.
    - destruct (seen_flag (seen b) v) eqn:Es.
      + assert (T : touched L v) by (apply SeenL; congruence).
        rewrite M3same.
        * rewrite M2ins by auto. rewrite (i_mid _ _ _ _ I v q); auto; [discriminate| |].
          -- intros ->. eapply root_not_in; eauto.
          -- left. eapply Seen_q; eauto.
        * intros i u Hi E. right. assert (u = v) by (eapply gra_inj; eauto; apply InV; eapply nth_error_In; eauto). subst; auto.
      + rewrite M3new; auto; [discriminate|congruence|]. intros T. apply SeenL in T. congruence.
    - assert (NI : ~ inter (gra v)).
      { intros (u & q & Hu & E). symmetry in E. assert (v = u) by (eapply gra_inj; eauto). congruence. }
      rewrite M3same.
      + rewrite M2ins by auto. rewrite (i_leaf _ _ _ _ I _ NI).
        assert (X : gmem b0 (gra v) <> None).
        { unfold BwModel.gra. destruct (mem_nat v root_outs) eqn:Er.
          - apply mem_nat_in in Er. rewrite root_iff in Er. congruence.
          - cbn. eapply Hready; eauto. }
        destruct (gmem b0 (gra v)); [discriminate|congruence].
      + intros i u Hi E. left. destruct (parent g u) as [q|] eqn:Eu; auto. exfalso. apply NI. exists u, q. auto. }
  rewrite W1.
  destruct (clear_outputs_ok g garr y p given (f_outs fd) oflags b4) as (C1 & C2 & C3 & C4).
  set (b5 := clear_outputs g garr y p given b4 (f_outs fd) oflags) in *.
  exists b5. split; [reflexivity|].
  assert (W2' : forall A, gmem b4 A = match gmem b3 A with Some x => Some (add x (contrib (ends A) f)) | None => None end).
  { intros A. rewrite W2, (wsum_contrib f fd A Hf). reflexivity. }
  assert (C1' : forall A, (forall o, In o (f_outs fd) -> gra o = A -> kept o) -> gmem b5 A = gmem b4 A).
  { intros A HA. rewrite C1. destruct (existsb _ (combine (f_outs fd) oflags)) eqn:E; auto. exfalso.
    apply existsb_nth in E; auto. destruct E as (i & o & c & E1 & E2 & E3). cbn [fst snd] in E3.
    apply andb_true_iff in E3 as (E3 & E4). apply geqb_eq in E4. destruct (Qo2 _ _ E1) as (c2 & Q1 & Q2).
    rewrite E2 in Q1. inversion Q1; subst c. cbn [snd] in E3. destruct (Q2 E3) as (Q3 & Q4).
    destruct (HA o); auto; [eapply nth_error_In; eauto| |]; congruence. }
  assert (RdP : forall q, In q (propagate g s fd 0 (f_ins fd) open) -> In q open \/
     exists i v, reads g f i v /\ ng v = true /\ parent g v = Some q).
  { intros q Hq. apply in_propagate in Hq as [|(j & v & J1 & J2 & J3 & J4)]; auto. right. exists j, v.
    split; auto. exists fd. auto. }
  constructor.
  - rewrite C4, W5, Zi4, Zu4. cbn [blog b1]. rewrite (i_log _ _ _ _ I). reflexivity.
  - apply nodup_app2; [apply (i_nodup _ _ _ _ I)|constructor; auto; constructor|]. intros x Hx [<-|[]]. auto.
  - intros h Hh. apply in_app_iff in Hh as [Hh|[<-|[]]]; auto. eapply i_B; eauto.
  - constructor; auto. apply (i_D _ _ _ _ I).
  - intros h [<-|Hh]; auto. eapply i_Dr; eauto.
  - intros h Hh. apply in_app_iff in Hh as [Hh|[<-|[]]]; [right; eapply i_LD; eauto|left; auto].
  - intros q Hq. apply in_remove in Hq as (Hq & Hne). apply RdP in Hq as [Hq|(i & v & R1 & R2 & R3)].
    + destruct (i_open _ _ _ _ I q Hq) as (O1 & O2). split; auto. intros [|]; auto.
    + split; [eapply reached_step; eauto|]. intros [|HD]; [auto|].
      apply NLf. eapply i_done; eauto.
  - intros Hp. destruct (Nat.eq_dec f p) as [->|Hne]; [left; apply in_app_iff; right; left; auto|].
    destruct (i_root _ _ _ _ I Hp) as [H|H]; [left; apply in_app_iff; auto|right].
    apply in_in_remove; auto. apply in_propagate. auto.
  - intros h i v q Hh Hr Hn Hq Hgq.
    destruct (Nat.eq_dec q f) as [->|Hne]; [left; apply in_app_iff; right; left; auto|].
    apply in_app_iff in Hh as [Hh|[<-|[]]].
    + destruct (i_close _ _ _ _ I h i v q Hh Hr Hn Hq Hgq) as [H|H]; [left; apply in_app_iff; auto|right].
      apply in_in_remove; auto. apply in_propagate. auto.
    + right. apply in_in_remove; auto. apply in_propagate. right.
      destruct Hr as (fd' & F1 & F2 & F3). rewrite Hf in F1. inversion F1; subst fd'. exists i, v. auto.
  - intros q h i v [<-|Hq] Hh Hr Hv; apply in_app_iff; left; eauto. eapply i_done; eauto.
  - intros l3 q l4 h i v E Hh Hr Hv. apply snoc_split in E as [(-> & -> & ->)|(l5 & ->)]; [eauto|].
    eapply (i_order _ _ _ _ I); eauto.
  - intros v. rewrite C3, W4, Zi3, Zu3. cbn [seen b1]. rewrite Qo3, Qi3, (touched_snoc L f fd v Hf), SeenL. tauto.
  - intros A HA. rewrite SL_snoc. rewrite C1'.
    + rewrite W2', M3same.
      * rewrite M2in.
        -- rewrite (i_leaf _ _ _ _ I A HA). destruct (gmem b0 A); auto. f_equal. symmetry. apply (add_assoc add zero M).
        -- intros v Hv _ E. apply HA. exists v, f. auto.
      * intros i v Hi E. left. destruct (parent g v) as [q|] eqn:Ev; auto. exfalso. apply HA. exists v, q. auto.
    + intros o Ho E. exfalso. apply HA. exists o, f. auto.
  - intros v q Hq Hqp Ht HB HK. rewrite SL_snoc. apply (touched_snoc L f fd v Hf) in Ht.
    assert (Iv : is_var g v) by (eapply parent_var; eauto).
    destruct (in_dec Nat.eq_dec v (f_outs fd)) as [Ho|Ho].
    + assert (q = f) by (apply OutP in Ho; congruence). subst q.
      destruct HK as [HK|HK]; [exfalso; apply HK, in_app_iff; right; left; auto|].
      rewrite C1'.
      * rewrite W2', M3out, M2out by auto. reflexivity.
      * intros o Ho' E. assert (v = o) by (eapply OutA; eauto). subst; auto.
    + rewrite C1' by (intros o Ho' E; exfalso; assert (v = o) by (eapply OutA; eauto); subst; auto).
      assert (M2v : gmem b2 (gra v) = gmem b (gra v)).
      { apply M2in. intros o Ho' _ E. assert (v = o) by (eapply OutA; eauto). subst; auto. }
      assert (KL : ~ In q L \/ kept v).
      { destruct HK as [HK|HK]; auto. left. intros H. apply HK, in_app_iff. auto. }
      assert (Dec : touched L v \/ ~ touched L v).
      { destruct (seen_flag (seen b) v) eqn:Es; [left|right; intros T]; [apply SeenL|apply SeenL in T]; congruence. }
      rewrite W2'. destruct Dec as [T|T].
      * rewrite M3same.
        -- rewrite M2v, (i_mid _ _ _ _ I v q); auto.
        -- intros i u Hi E. right. assert (u = v) by (eapply gra_inj; eauto; apply InV; eapply nth_error_In; eauto). subst; auto.
      * destruct Ht as [|[Hin|]]; [contradiction| |contradiction].
        assert (Hn : ng v = true) by (destruct HB as [HB|]; auto; apply (Hquiet f fd v q); auto).
        rewrite M3new; auto; [|congruence]. rewrite (untouched_0 L v q); auto.
  - intros v Hv Hp. assert (f <> p) by (intros ->; apply Hp, in_app_iff; right; left; auto).
    assert (~ In p L) by (intros H'; apply Hp, in_app_iff; auto).
    assert (NI : ~ In v (f_ins fd)) by (intros H'; eapply root_not_in; eauto).
    assert (NO : ~ In v (f_outs fd)) by (intros H'; apply OutP in H'; congruence).
    assert (Iv : is_var g v) by (eapply parent_var; eauto).
    rewrite C1' by (intros o Ho' E; exfalso; assert (v = o) by (eapply OutA; eauto); subst; auto).
    rewrite W2', M3same.
    + rewrite M2in by (intros o Ho' _ E; assert (v = o) by (eapply OutA; eauto); subst; auto).
      rewrite (i_top _ _ _ _ I v); auto. f_equal.
      rewrite (ends_other v p f Hv); [apply (add_0_r add zero M)|]. intros fd' Hf'. rewrite Hf in Hf'. inversion Hf'; subst; auto.
    + intros i u Hi E. exfalso. assert (u = v) by (eapply gra_inj; eauto; apply InV; eapply nth_error_In; eauto).
      subst. apply NI. eapply nth_error_In; eauto.
  - intros A HA. rewrite C1, C2 in *. destruct (existsb _ (combine (f_outs fd) oflags)); [discriminate|].
    destruct (W3 A HA) as (X1 & X2). rewrite X2. rewrite Zi2 in X1. rewrite Zi1.
    destruct (existsb _ (combine (f_ins fd) acc)); auto. rewrite Zu2 in X1. rewrite Zu1.
    destruct (existsb _ (combine (f_outs fd) oflags)); auto. apply (i_zero _ _ _ _ I). exact X1.
Qed.

Lemma skip_ok open D L b f : Inv open D L b -> pick s open = Some f -> fng s f = false ->
  Inv (remove Nat.eq_dec f open) (f :: D) L b.
Proof.
  intros I Hpick Hgff. destruct (pick_some _ _ Hpick) as (Hop & Hmax).
  destruct (i_open _ _ _ _ I f Hop) as (Rf & NDf).
  assert (Cons := consumers_done _ _ _ _ f I Hpick).
  constructor; try apply I.
  - constructor; auto. apply I.
  - intros h [<-|Hh]; auto. eapply i_Dr; eauto.
  - intros h Hh. right. eapply i_LD; eauto.
  - intros q Hq. apply in_remove in Hq as (Hq & Hne). destruct (i_open _ _ _ _ I q Hq) as (O1 & O2).
    split; auto. intros [|]; auto.
  - intros Hp. destruct (i_root _ _ _ _ I Hp); auto. right. apply in_in_remove; auto. congruence.
  - intros h i v q Hh Hr Hn Hq Hgq. destruct (i_close _ _ _ _ I h i v q Hh Hr Hn Hq Hgq); auto.
    right. apply in_in_remove; auto. congruence.
  - intros q h i v [<-|Hq] Hh Hr Hv; eauto. eapply i_done; eauto.
Qed.

Lemma loop_ok : forall n open D L b, Inv open D L b -> nf <= n + length D ->
  exists b', backward_loop add zero g s d garr cb ci y p given n open b = Ok b' /\
    exists D' L', Inv [] D' L' b'.
Proof.
  induction n as [|n IH]; intros open D L b I Hn; cbn [backward_loop].
  - destruct (pick s open) as [f|] eqn:Hpick.
    + exfalso. destruct (pick_some _ _ Hpick) as (Hop & _). destruct (i_open _ _ _ _ I f Hop) as (Rf & NDf).
      assert (X : length (f :: D) <= length (seq 0 nf)).
      { apply NoDup_incl_length; [constructor; auto; apply I|]. intros h Hh. apply in_seq. cbn.
        split; [lia|]. apply reached_lt. destruct Hh as [<-|Hh]; auto. eapply i_Dr; eauto. }
      rewrite seq_length in X. cbn in X. lia.
    + apply pick_none in Hpick. subst. eauto.
  - destruct (pick s open) as [f|] eqn:Hpick.
    + destruct (fng s f) eqn:Ef; cbn [negb].
      * destruct (pick_some _ _ Hpick) as (Hop & _). destruct (i_open _ _ _ _ I f Hop) as (Rf & NDf).
        destruct (reached_fun f Rf) as (fd & Hf). rewrite Hf.
        destruct (step_ok _ _ _ _ f fd I Hpick Ef Hf) as (b' & -> & I').
        apply (IH _ _ _ _ I'). cbn. lia.
      * apply (IH _ _ _ _ (skip_ok _ _ _ _ f I Hpick Ef)). cbn. lia.
    + apply pick_none in Hpick. subst. eauto.
Qed.

Lemma inv0 : Inv [p] [] [] b0.
Proof.
  constructor; try (intros; contradiction); auto using NoDup_nil.
  - intros f [<-|[]]. split; [apply reached_p|auto].
  - intros; right; left; auto.
  - intros l1 f l2 h i v E. destruct l1; discriminate.
  - intros v. cbn. split; [congruence|]. intros (f & fd & [] & _).
  - intros A _. destruct (gmem b0 A); auto. f_equal. symmetry. apply (add_0_r add zero M).
  - intros v q _ _ (f & fd & [] & _).
  - intros v Hv _. unfold BwModel.gra. apply root_iff in Hv. apply mem_nat_in in Hv. rewrite Hv. cbn.
    destruct (Nat.eqb_spec v y) as [->|]; cbn.
    + destruct given eqn:Eg; cbn; [rewrite Nat.eqb_refl; reflexivity|]. apply Hm. auto.
    + destruct (Nat.eqb_spec v y); [contradiction|reflexivity].
  - intros [a|v]; cbn; auto. destruct (Nat.eqb v y); [discriminate|auto].
Qed.

Lemma backward_ok : exists b, backward add zero g s d garr cb ci y p given m z x0 = Ok b /\
  NoDup (blog b) /\ (forall f, In f (blog b) <-> B f) /\
  (forall l1 f l2 h i v, blog b = l1 ++ f :: l2 -> B h -> reads g h i v -> parent g v = Some f -> In h l1) /\
  (forall A, ~ inter A -> gmem b A = match gmem b0 A with
     | Some x => Some (add x (padj add zero g d ng y x0 (ends A))) | None => None end) /\
  (forall v q f fd, parent g v = Some q -> B f -> fun_at g f = Some fd -> In v (f_ins fd) ->
     ng v = true -> (~ B q \/ kept v) -> gmem b (gra v) = Some (adj v)).
Proof.
  destruct (loop_ok nf [p] [] [] b0 inv0) as (b & E & D & L & I); [cbn; lia|].
  exists b. split; [exact E|]. rewrite (i_log _ _ _ _ I).
  assert (All : forall f, In f L <-> B f).
  { intros f. split; [apply (i_B _ _ _ _ I)|]. intros Hf. destruct (frontier _ _ _ _ f I Hf) as [|(k & [] & _)]; auto. }
  assert (Tot : forall E, gsum (map (contrib E) L) = gsum (map (contrib E) (seq 0 nf))).
  { intros E'. apply total; [apply I|intros f Hf; apply reached_lt; apply All; auto|].
    intros f Hf Hn. exfalso. apply Hn, All. auto. }
  split; [apply I|]. split; [exact All|]. split; [apply I|]. split.
  - intros A HA. rewrite (i_leaf _ _ _ _ I A HA). destruct (gmem b0 A); auto. f_equal. f_equal.
    rewrite (padj_eq add zero M g d Hd ng y Hln lvl Hlvl). unfold SL. rewrite Tot.
    assert (X : ends A y = false) by (apply geqb_neq; intros X; apply HA; exists y, p; auto).
    rewrite X. symmetry. apply (add_0_l add zero M).
  - intros v q f fd Hq Hf Hfd Hin Hn HK.
    assert (Hqp : q <> p) by (intros ->; eapply root_not_in; eauto; apply Hf).
    rewrite (i_mid _ _ _ _ I v q); auto.
    + f_equal. unfold BwProofs.adj. rewrite (padj_eq add zero M g d Hd ng y Hln lvl Hlvl). rewrite <- Tot.
      destruct (Nat.eqb_spec v y) as [->|]; [exfalso; congruence|].
      rewrite (add_0_l add zero M). unfold SL. apply gsum_ext. intros h Hh. apply contrib_ext.
      intros hd u Hhd Hu. eapply ends_iff; eauto.
    + exists f, fd. rewrite All. auto.
    + destruct HK; [left; rewrite All; auto|auto].
Qed.
End Loop.
