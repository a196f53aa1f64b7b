(** The loop of nn.grad. *)
From Coq Require Import List Arith Bool Lia Permutation.
From Verif Require Import CgModel CgSpec CgProofs BwModel BwSpec BwProofs GradModel GradSpec GradProofs GradProofs2.
Import ListNotations.
Local Open Scope list_scope.

Section Main.
Context {V G : Type}.
Variable add : G -> G -> G.
Variable zero : G.
Hypothesis M : comm_monoid add zero.
Variable g : graph V.
Variable vid : nat -> nat.
Variable vr fr : nat -> nat.
Variable vneed fneed : nat -> bool.
Variable d : nat -> nat -> nat -> G -> G.
Hypothesis Hd : forall f o i, additive add zero (d f o i).
Variable one : nat -> G.
Variable roots outs inputs : list nat.
Hypothesis Hln : linked g.
Variable lvl : nat -> nat.
Hypothesis Hlvl : numbering g lvl.
Hypothesis Hown : own_grads g vid.
Hypothesis Hfl : nn_flags g vneed fneed fr.
Hypothesis Hrt : grad_roots g vneed vr fr roots.
Hypothesis Hin : grad_inputs g vid vneed roots outs inputs.
Variable wrt : list (option nat).
Variable ch : list nat.
Hypothesis Hws : sound g vid inputs wrt.
Hypothesis Hwf : forall o v, In o outs -> above g o v -> found g vid inputs wrt (vid v).
Notation down := (down g wrt).
Hypothesis Hch : forall v, is_var g v -> (In (vid v) ch <-> exists h, parent g v = Some h /\ down h).
Notation gsum := (gsum add zero).
Notation nf := (length (g_fns g)).
Notation tpadj := (tpadj add zero g d vneed one roots).
Notation tlg := (tlg add zero g d vneed one roots).
Notation tcontrib := (tcontrib add zero g d vneed one roots).
Notation treached := (treached g vneed roots).
Notation valof := (valof add zero).
Notation getres := (getres zero).

Definition Ex (x : nat) : nat -> bool := fun v => Nat.eqb (vid v) (vid x).
Definition rootval (E : nat -> bool) : G := gsum (map (fun y => if E y then one y else zero) roots).

(** Functions the loop has seen or will see. *)
Definition cand (L : list nat) (f : nat) : Prop :=
  (exists y, In y roots /\ parent g y = Some f) \/
  (exists h i v, In h L /\ reads g h i v /\ vneed v = true /\ parent g v = Some f /\ down f).
Definition prio (op : list (nat * nat)) : Prop :=
  forall r f, In (r, f) op -> r = fr f \/ exists y, In y roots /\ parent g y = Some f /\ r = vr y.

Record Inv (L : list nat) (st : gst G) : Prop := mkInv {
  v_nodup : NoDup L;
  v_reach : forall f, In f L -> treached f;
  v_onodup : NoDup (map snd (gopen st));
  v_open : forall f, In f (map snd (gopen st)) <-> ~ In f L /\ cand L f;
  v_prio : prio (gopen st);
  v_dom : forall f, In f (map snd (gopen st)) -> lookup f (gvars st) <> None;
  v_val : forall f u, down f -> fneed f = true -> parent g u = Some f -> ~ In f L ->
    valof (gvars st) f (vid u) = add (rootval (Nat.eqb u)) (gsum (map (tcontrib (Nat.eqb u)) L));
  v_len : length (grads st) = length inputs;
  v_res : forall i x, nth_error inputs i = Some x ->
    getres (grads st) i = gsum (map (tcontrib (Ex x)) L);
  v_done : forall q u h i, In q L -> down q -> fneed q = true -> parent g u = Some q -> reads g h i u ->
    treached h -> In h L }.

Lemma reads_in f i v : reads g f i v -> exists fd, fun_at g f = Some fd /\ In v (f_ins fd).
Proof using. intros (fd & H1 & H2 & _). exists fd. split; auto. eapply nth_error_In; eauto. Qed.

Lemma cand_reached L f : (forall h, In h L -> treached h) -> cand L f -> treached f.
Proof using Hln.
  intros HL [(y & Hy & Hp)|(h & i & v & Hh & Hr & Hn & Hp & _)].
  - exists y, [], y. split; auto. split; auto. constructor.
  - destruct (treached_step g vneed Hln roots h i v (HL h Hh) Hr Hn) as (y & l & Hy & Hl & _).
    exists y, l, v. auto.
Qed.
Lemma treached_lt f : treached f -> f < nf.
Proof using Hln.
  intros (y & l & v & _ & _ & Hp). destruct (ln_parent g Hln v f Hp) as (fd & Hf & _). eapply fun_lt; eauto.
Qed.

Lemma behind L st (I : Inv L st) y l w : In y roots -> is_path g vneed y l w -> forall h, parent g w = Some h -> down h ->
  In h L \/ exists r h', In (r, h') (gopen st) /\ fr h <= r.
Proof using Hfl Hrt Hln.
  intros Hy Hp.
  assert (O : forall h, cand L h -> In h L \/ exists r h', In (r, h') (gopen st) /\ fr h <= r).
  { intros h Hc. destruct (in_dec Nat.eq_dec h L) as [|Hh]; auto. right.
    assert (X : In h (map snd (gopen st))) by (apply (v_open L st I); auto).
    apply in_map_iff in X as ((r & h') & E & X). cbn in E. subst h'. exists r, h. split; auto.
    destruct (v_prio L st I r h X) as [->|(z & Hz & Hpz & ->)]; auto.
    destruct (gr_fun g _ _ _ _ Hrt z Hz) as (p & Hp' & Hle). rewrite Hpz in Hp'. inversion Hp'; subst. auto. }
  induction Hp as [|l f fd o i u w Hp IH Hf Ho Hr Hn]; intros h Hh Dh.
  - apply O. left. eauto.
  - assert (Hu : parent g u = Some f) by (apply (ln_outs g Hln f fd u Hf); eapply nth_error_In; eauto).
    destruct (reads_in f i w Hr) as (fd' & Hf' & Hi).
    assert (Df : down f) by (eapply down_step; eauto).
    destruct (IH f Hu Df) as [HL|(r & h' & H1 & H2)].
    + apply O. right. exists f, i, w. auto.
    + right. exists r, h'. split; auto. pose proof (gf_rank g _ _ _ Hfl f i w h Hr Hh). lia.
Qed.

Lemma ready L st (I : Inv L st) r f : In (r, f) (gopen st) -> (forall r' f', In (r', f') (gopen st) -> r' <= r) ->
  down f -> fneed f = true -> forall u h i, parent g u = Some f -> reads g h i u -> treached h -> In h L.
Proof using Hfl Hrt Hln.
  intros Ho Hm Df Nf u h i Hu Hr Ht. destruct (in_dec Nat.eq_dec h L) as [|Hh]; auto. exfalso.
  destruct (reads_in h i u Hr) as (hd & Hhd & Hi).
  assert (Dh : down h) by (eapply down_step; eauto).
  pose proof (gf_rank g _ _ _ Hfl h i u f Hr Hu) as Hk.
  destruct Ht as (y & l & w & Hy & Hp & Hw).
  destruct (behind L st I y l w Hy Hp h Hw Dh) as [|(r' & h' & H1 & H2)]; auto.
  apply Hm in H1. destruct (v_prio L st I r f Ho) as [->|(z & Hz & Hpz & ->)]; [lia|].
  destruct (gr_rank g _ _ _ _ Hrt z f Hz Hpz) as [E|E]; [lia|].
  assert (Nu : vneed u = true) by (rewrite (gf_outs g _ _ _ Hfl u f Hu); auto).
  destruct (treached_step g vneed Hln roots h i u) as (y2 & l2 & Hy2 & Hp2 & Hl2); auto.
  { exists y, l, w. auto. }
  exact (E y2 l2 u Hy2 Hp2 Hl2 Hu).
Qed.

(** The gradients at the outputs of a function that is taken. *)
Lemma out_ready L st (I : Inv L st) f : ~ In f L -> down f -> fneed f = true ->
  (forall u h i, parent g u = Some f -> reads g h i u -> treached h -> In h L) ->
  forall mp o, lookup f (gvars st) = Some mp -> parent g o = Some f ->
  out_grad add zero vid mp o = tpadj (Nat.eqb o).
Proof using M Hd Hln Hlvl.
  intros Hf Df Nf Rd mp o Hm Ho. pose proof (v_val L st I f o Df Nf Ho Hf) as X.
  unfold GradProofs2.valof in X. rewrite Hm in X. unfold out_grad. rewrite X.
  rewrite (tpadj_eq add zero M g d Hd vneed Hln lvl Hlvl one roots). f_equal.
  apply gsum_sub; auto; [apply (v_nodup L st I)|intros x Hx; apply treached_lt, (v_reach L st I x Hx)|].
  intros x Hx Hxl. apply tcontrib_zero; auto. intros i v Hr Hn E Ht. apply Nat.eqb_eq in E. subst v.
  apply Hxl. eapply Rd; eauto.
Qed.
Lemma local_eq f fd mp i : (forall o, In o (f_outs fd) -> out_grad add zero vid mp o = tpadj (Nat.eqb o)) ->
  local add zero d f (map (out_grad add zero vid mp) (f_outs fd)) i = tlg f i fd.
Proof using.
  intros H. unfold local, GradProofs2.tlg. rewrite map_length, combine_map. fold gsum.
  change (fold_right add zero) with gsum. apply gsum_ext. intros (o & u) Hu. cbn [fst snd].
  apply in_combine_r in Hu. rewrite H; auto.
Qed.

Lemma add_open_in e l x : In x (add_open e l) <-> In x l \/ x = e.
Proof using.
  unfold add_open. destruct (existsb (entry_eqb e) l) eqn:E.
  - apply existsb_exists in E as (z & Hz & E). apply entry_eqb_eq in E. subst z. split; [auto|].
    intros [H| ->]; auto.
  - rewrite in_app_iff. cbn. split; [intros [H|[H|[]]]; auto|intros [H|H]; auto].
Qed.
Lemma add_open_nodup e l : ~ In (snd e) (map snd l) \/ In e l -> NoDup (map snd l) -> NoDup (map snd (add_open e l)).
Proof using.
  intros H N. unfold add_open. destruct (existsb (entry_eqb e) l) eqn:E; auto.
  destruct H as [H|H].
  - rewrite map_app. apply nodup_app2; auto; [constructor; [intros []|constructor]|].
    intros x Hx [<-|[]]. auto.
  - exfalso. assert (X : existsb (entry_eqb e) l = true); [|congruence].
    apply existsb_exists. exists e. split; auto. apply entry_eqb_eq. auto.
Qed.

Lemma visits f act : (forall iu, In iu act -> reads g f (fst iu) (snd iu)) -> treached f ->
  forall op ids, NoDup (map snd op) -> prio op ->
  let op' := fst (fold_left (fun oi iu => visit g vid fr vneed ch (snd iu) oi) act (op, ids)) in
  NoDup (map snd op') /\ prio op' /\
  forall p, In p (map snd op') <-> In p (map snd op) \/
     exists iu, In iu act /\ vneed (snd iu) = true /\ parent g (snd iu) = Some p /\ down p.
Proof using Hln Hrt Hch.
  induction act as [|(i & u) act IH]; intros Ha Hf op ids N P; cbn [fold_left].
  - cbn [fst]. split; auto. split; auto. intros p. split; [auto|]. intros [H|(iu & [] & _)]. auto.
  - pose proof (Ha (i, u) (or_introl eq_refl)) as Hr. cbn [fst snd] in *.
    assert (Iu : is_var g u). { destruct (reads_in f i u Hr) as (fd & H1 & H2). eapply ln_ins; eauto. }
    assert (Ha' : forall iu, In iu act -> reads g f (fst iu) (snd iu)) by (intros; apply Ha; right; auto).
    destruct (visit g vid fr vneed ch u (op, ids)) as (op1 & ids1) eqn:E.
    assert (K : NoDup (map snd op1) /\ prio op1 /\ forall p, In p (map snd op1) <-> In p (map snd op) \/
                 (vneed u = true /\ parent g u = Some p /\ down p)).
    { unfold visit in E. destruct (mem_nat (vid u) ch) eqn:Em; cbn [andb] in E.
      - apply mem_in in Em. apply Hch in Em as (h & Hh & Dh); auto. rewrite Hh in E.
        destruct (vneed u) eqn:Nu; cbn [fst snd] in E; inversion E; subst; clear E.
        + destruct (treached_step g vneed Hln roots f i u Hf Hr Nu) as (y & l & Hy & Hp & Hl).
          split; [|split].
          * apply add_open_nodup; auto. cbn [snd].
            destruct (in_dec Nat.eq_dec h (map snd op)) as [Hi|]; auto. right.
            apply in_map_iff in Hi as ((r & h') & E & Hi). cbn in E. subst h'.
            destruct (P r h Hi) as [->|(z & Hz & Hpz & ->)]; auto.
            destruct (gr_rank g _ _ _ _ Hrt z h Hz Hpz) as [<-|Hno]; auto.
            exfalso. exact (Hno y l u Hy Hp Hl Hh).
          * intros r q Hq. apply add_open_in in Hq as [Hq|Hq]; auto. inversion Hq; subst. auto.
          * intros p. rewrite in_map_iff. split.
            -- intros (e & Ee & He). apply add_open_in in He as [He|He].
               ++ left. apply in_map_iff. eauto.
               ++ subst e. cbn in Ee. subst p. auto.
            -- intros [Hi|(_ & Hp' & _)].
               ++ apply in_map_iff in Hi as (e & Ee & He). exists e. split; auto. apply add_open_in. auto.
               ++ assert (p = h) by congruence. subst p. exists (fr h, h). split; auto. apply add_open_in. auto.
        + split; auto. split; auto. intros p. split; [auto|intros [H|(H & _)]; [auto|discriminate]].
      - inversion E; subst. split; auto. split; auto. intros p. split; [auto|]. intros [H|(_ & H1 & H2)]; auto.
        exfalso. apply mem_out in Em. apply Em. apply Hch; eauto. }
    destruct K as (N1 & P1 & C1).
    destruct (IH Ha' Hf op1 ids1 N1 P1) as (N2 & P2 & C2).
    split; auto. split; auto. intros p. rewrite C2, C1. split.
    + intros [[H|H]|(iu & H1 & H2)]; auto; right; [exists (i, u); split; auto; left; auto|exists iu; split; auto; right; auto].
    + intros [H|(iu & [<-|H1] & H2)]; auto. right. eauto.
Qed.

Lemma target_ex i x u : nth_error inputs i = Some x -> target vid vneed wrt i u = true ->
  vneed u = true /\ Ex x u = true.
Proof using Hws.
  intros Hx. unfold target, Ex. destruct (windex vid (vid u) wrt 0) as [j|] eqn:E; [|discriminate].
  intros H. apply andb_true_iff in H as (H1 & H2). apply Nat.eqb_eq in H1. subst j. split; auto.
  apply windex_some in E as (_ & v & Hv & Ev). rewrite Nat.sub_0_r in Hv. destruct Hws as (_ & S).
  destruct (S i v Hv) as (_ & x' & Hx' & Exx). apply Nat.eqb_eq. congruence.
Qed.
Lemma ex_target i x f j u : nth_error inputs i = Some x -> treached f -> reads g f j u -> vneed u = true ->
  Ex x u = true -> target vid vneed wrt i u = true /\ down f.
Proof using Hws Hwf Hin Hln.
  intros Hx Hf Hr Hn E. apply Nat.eqb_eq in E.
  destruct (treached_step g vneed Hln roots f j u Hf Hr Hn) as (y & l & Hy & Hp & Hl).
  assert (Hxi : In x inputs) by (eapply nth_error_In; eauto).
  destruct (gi_seen g _ _ _ _ _ Hin x y l u Hxi Hy Hp E) as (_ & o & Ho & Ha).
  destruct (Hwf o u Ho Ha i x Hx (eq_sym E)) as (v & Hv & Ev & Iv).
  destruct (reads_in f j u Hr) as (fd & Hfd & Hi).
  assert (v = u). { eapply (gi_one g _ _ _ _ _ Hin x); eauto. congruence. }
  subst v.
  assert (Hw : In (Some u) wrt) by (eapply nth_error_In; eauto).
  split; [|eapply down_in; eauto].
  unfold target. destruct (windex_in vid (vid u) wrt 0 u Hw eq_refl) as (k & Hk). rewrite Hk, Hn, andb_true_r.
  apply Nat.eqb_eq. apply windex_some in Hk as (_ & v & Hkv & Ekv). rewrite Nat.sub_0_r in Hkv.
  destruct Hws as (_ & S). destruct (S k v Hkv) as (_ & x' & Hx' & Exx).
  eapply (nth_inj vid inputs (gi_own g _ _ _ _ _ Hin)); eauto. congruence.
Qed.

Lemma cand_cons f L p : cand (f :: L) p <-> cand L p \/
  exists i v, reads g f i v /\ vneed v = true /\ parent g v = Some p /\ down p.
Proof using.
  unfold cand. split.
  - intros [H|(h & i & v & [<-|Hh] & H)]; auto; [right; exists i, v; auto|left; right; exists h, i, v; auto].
  - intros [[H|(h & i & v & Hh & H)]|(i & v & H)]; auto; right; [exists h, i, v; split; auto; right; auto|].
    exists f, i, v. split; auto. left. auto.
Qed.

Lemma open_drop op (e : nat * nat) : NoDup (map snd op) -> In e op ->
  let op' := filter (fun x => negb (entry_eqb e x)) op in
  NoDup (map snd op') /\ (forall x, In x op' -> In x op) /\
  forall p, In p (map snd op') <-> In p (map snd op) /\ p <> snd e.
Proof using.
  intros N I op'. assert (S : forall x, In x op' -> In x op) by (intros x Hx; apply filter_In in Hx; tauto).
  split; [|split]; auto.
  - unfold op'. clear - N. induction op as [|x op IH]; cbn; [constructor|]. inversion N; subst.
    destruct (negb (entry_eqb e x)); cbn; auto. constructor; auto.
    intros X. apply H1. apply in_map_iff in X as (z & E & X). apply filter_In in X as (X & _).
    apply in_map_iff. eauto.
  - intros p. rewrite !in_map_iff. split.
    + intros (x & E & X). apply filter_In in X as (X1 & X2). split; [eauto|]. intros E2. subst p.
      assert (x = e).
      { clear - N I X1 E2. induction op as [|z op IH]; [destruct I|]. cbn in N. inversion N; subst.
        destruct I as [->|I], X1 as [->|X1]; auto.
        - exfalso. apply H1. rewrite <- E2. apply in_map; auto.
        - exfalso. apply H1. rewrite E2. apply in_map; auto. }
      subst x. rewrite (proj2 (entry_eqb_eq e e) eq_refl) in X2. discriminate.
    + intros ((x & E & X) & Np). exists x. split; auto. apply filter_In. split; auto.
      destruct (entry_eqb e x) eqn:Ee; auto. apply entry_eqb_eq in Ee. subst. contradiction.
Qed.

Lemma turn_ok L st (I : Inv L st) e0 rest : gopen st = e0 :: rest ->
  exists f st', turn add zero g vid fr vneed fneed d wrt ch st e0 rest = GOk st' /\ ~ In f L /\ Inv (f :: L) st'.
Proof using M Hd Hln Hlvl Hown Hfl Hrt Hin Hws Hwf Hch.
  intros Ho. unfold turn. set (e := best (gids st) e0 rest).
  assert (He : In e (gopen st)) by (rewrite Ho; apply best_in).
  assert (Hm : forall r' f', In (r', f') (gopen st) -> r' <= fst e).
  { intros r' f' H. rewrite Ho in H. apply (best_max (gids st) rest e0 (r', f') H). }
  clearbody e. destruct e as [r f]. cbn [snd fst] in *. exists f.
  assert (Hfo : In f (map snd (gopen st))) by (apply in_map_iff; exists (r, f); auto).
  pose proof (proj1 (v_open L st I f) Hfo) as (HfL & Hfc).
  assert (Tf : treached f) by (eapply cand_reached; [apply (v_reach L st I)|auto]).
  destruct (open_drop (gopen st) (r, f) (v_onodup L st I) He) as (N1 & S1 & C1). cbn [snd] in C1.
  set (op := filter (fun x => negb (entry_eqb (r, f) x)) (gopen st)) in *. clearbody op.
  assert (Pop : prio op) by (intros r' f' H; apply (v_prio L st I); auto).
  assert (NL : NoDup (f :: L)) by (constructor; auto; apply (v_nodup L st I)).
  assert (RL : forall h, In h (f :: L) -> treached h) by (intros h [<-|Hh]; auto; apply (v_reach L st I); auto).
  assert (DL : forall q u h i, In q (f :: L) -> down q -> fneed q = true -> parent g u = Some q -> reads g h i u ->
    treached h -> In h (f :: L)).
  { intros q u h i [<-|Hq] Dq Nq Hu Hr Ht; right.
    - eapply (ready L st I r f); eauto.
    - eapply (v_done L st I q); eauto. }
  destruct (fneed f) eqn:Nf; cbn [negb].
  - (* taken *)
    destruct (lookup f (gvars st)) as [mp|] eqn:Em; [|exfalso; apply (v_dom L st I f Hfo); auto].
    assert (Hfd : exists fd, fun_at g f = Some fd).
    { destruct Tf as (y & l & v & _ & _ & Hp). destruct (ln_parent g Hln v f Hp) as (fd & Hf & _). eauto. }
    destruct Hfd as (fd & Hf). rewrite Hf.
    set (lg := local add zero d f (map (out_grad add zero vid mp) (f_outs fd))).
    set (act := filter (fun iu => f_active fd (fst iu)) (items fd)).
    assert (Act : forall iu, In iu act <-> reads g f (fst iu) (snd iu)).
    { intros (i & u). unfold act. rewrite filter_In. cbn [fst snd]. unfold items. rewrite in_pos. split.
      - intros (H1 & H2). exists fd. auto.
      - intros (fd' & H0 & H1 & H2). assert (fd' = fd) by congruence. subst fd'. auto. }
    assert (LG : down f -> forall i, lg i = tlg f i fd).
    { intros Df i. apply local_eq. intros o Hoo. eapply (out_ready L st I f); eauto.
      - eapply ready; eauto.
      - apply (ln_outs g Hln f fd o Hf Hoo). }
    assert (TC : forall E (c : nat -> bool),
       (forall i u, reads g f i u -> c u = vneed u && E u) ->
       (forall i u, reads g f i u -> c u = true -> down f) ->
       gsum (map (fun iu => if c (snd iu) then lg (fst iu) else zero) act) = tcontrib E f).
    { intros E c Hc Hdn. unfold GradProofs2.tcontrib. rewrite Hf. unfold act. rewrite (gsum_filter add zero M).
      apply gsum_ext. intros (i & u) Hi. cbn [fst snd]. destruct (f_active fd i) eqn:Ea; cbn [andb]; auto.
      assert (Hr : reads g f i u) by (exists fd; repeat split; auto; apply in_pos; auto).
      rewrite <- (Hc i u Hr). destruct (c u) eqn:Ec; auto. apply LG. eauto. }
    destruct (visits f act (fun iu => proj1 (Act iu)) Tf op (gids st) N1 Pop) as (N2 & P2 & C2).
    eexists. split; [reflexivity|]. split; auto.
    constructor; cbn [gopen gvars grads gids]; auto.
    + (* open *)
      intros p. rewrite C2, C1, (v_open L st I p), cand_cons. split.
      * intros [((H1 & H2) & H3)|((i & u) & Hi & Hn & Hp & Dp)].
        -- split; auto. intros [->|H]; auto.
        -- apply Act in Hi. cbn [fst snd] in *. split; [|right; exists i, u; auto].
           assert (Nq : fneed p = true) by (rewrite <- (gf_outs g _ _ _ Hfl u p Hp); auto).
           intros [<-|Hpl].
           ++ pose proof (gf_rank g _ _ _ Hfl f i u f Hi Hp). lia.
           ++ apply HfL. eapply (v_done L st I p); eauto.
      * intros (H1 & [H2|(i & u & Hr & Hn & Hp & Dp)]).
        -- left. split; [split; auto|]; intros X; apply H1; [right; auto|left; auto].
        -- right. exists (i, u). cbn [fst snd]. split; auto. apply Act. auto.
    + (* dom *)
      intros p Hp. apply fold_dom. apply C2 in Hp as [Hp|(iu & H1 & H2 & H3 & H4)]; [|right; eauto].
      left. apply C1 in Hp as (Hp & Hne). rewrite lookup_remove. destruct (Nat.eqb f p) eqn:E.
      * apply Nat.eqb_eq in E. congruence.
      * apply (v_dom L st I). auto.
    + (* values *)
      intros q u Dq Nq Hu Hq. rewrite (fold_val add zero M).
      assert (Eq : valof (remove f (gvars st)) q (vid u) = valof (gvars st) q (vid u)).
      { unfold GradProofs2.valof. rewrite lookup_remove. destruct (Nat.eqb f q) eqn:E; auto.
        apply Nat.eqb_eq in E. exfalso. apply Hq. left. auto. }
      rewrite Eq, (v_val L st I q u) by (auto; intros X; apply Hq; right; auto).
      cbn [map]. rewrite gsum_cons. rewrite (TC (Nat.eqb u)).
      * rewrite <- (add_assoc add zero M). f_equal. apply add_comm with (1 := M).
      * intros i v Hr. unfold hits.
        assert (Iv : is_var g v). { destruct (reads_in f i v Hr) as (fd' & A & B). eapply ln_ins; eauto. }
        destruct (Nat.eqb u v) eqn:Euv.
        -- apply Nat.eqb_eq in Euv. subst v. rewrite Hu, !Nat.eqb_refl. rewrite (gf_outs g _ _ _ Hfl u q Hu), Nq. reflexivity.
        -- rewrite andb_false_r. destruct (parent g v) as [p|] eqn:Ev; auto.
           destruct (Nat.eqb p q) eqn:Epq; auto. destruct (Nat.eqb (vid v) (vid u)) eqn:Evv; auto.
           exfalso. apply Nat.eqb_eq in Evv. apply Nat.eqb_neq in Euv. apply Euv. symmetry.
           eapply (own_eq g vid Hln Hown); eauto.
      * intros i v Hr. unfold hits. destruct (parent g v) as [p|] eqn:Ev; [|discriminate].
        intros X. apply andb_true_iff in X as (X & _). apply Nat.eqb_eq in X. subst p.
        destruct (reads_in f i v Hr) as (fd' & A & B). eapply down_step; eauto.
    + rewrite fold_reslen. apply (v_len L st I).
    + (* results *)
      intros i x Hx. assert (Lw : length (grads st) = length wrt).
      { rewrite (v_len L st I). destruct Hws as (A & _). auto. }
      rewrite (fold_res add zero M) by auto. rewrite (v_res L st I i x Hx). cbn [map]. rewrite gsum_cons.
      rewrite (TC (Ex x)); [apply add_comm with (1 := M)| |].
      * intros j u Hr. destruct (target vid vneed wrt i u) eqn:Et.
        -- destruct (target_ex i x u Hx Et) as (-> & ->). reflexivity.
        -- destruct (vneed u) eqn:Nu; auto. destruct (Ex x u) eqn:Eu; auto.
           destruct (ex_target i x f j u Hx Tf Hr Nu Eu) as (X & _). congruence.
      * intros j u Hr Et. destruct (target_ex i x u Hx Et) as (Nu & Eu).
        apply (ex_target i x f j u Hx Tf Hr Nu Eu).
  - (* passed over *)
    assert (Z : forall E, tcontrib E f = zero).
    { intros E. apply tcontrib_zero; auto. intros i v Hr Hn _ _.
      pose proof (gf_reads g _ _ _ Hfl f i v Hr Hn). congruence. }
    eexists. split; [reflexivity|]. split; auto.
    constructor; cbn [gopen gvars grads gids]; auto.
    + intros p. rewrite C1, (v_open L st I p), cand_cons. split.
      * intros ((H1 & H2) & H3). split; auto. intros [->|H]; auto.
      * intros (H1 & [H2|(i & u & Hr & Hn & Hp & Dp)]).
        -- split; [split; auto|]; intros X; apply H1; [right; auto|left; auto].
        -- pose proof (gf_reads g _ _ _ Hfl f i u Hr Hn). congruence.
    + intros p Hp. apply C1 in Hp as (Hp & _). apply (v_dom L st I). auto.
    + intros q u Dq Nq Hu Hq. cbn [map]. rewrite gsum_cons, Z, (add_0_l add zero M).
      apply (v_val L st I q u); auto. intros X. apply Hq. right. auto.
    + apply (v_len L st I).
    + intros i x Hx. cbn [map]. rewrite gsum_cons, Z, (add_0_l add zero M). apply (v_res L st I); auto.
Qed.

Lemma len_le L : NoDup L -> (forall f, In f L -> treached f) -> length L <= nf.
Proof using Hln.
  intros N H. rewrite <- (seq_length nf 0). apply NoDup_incl_length; auto. intros f Hf. apply in_seq.
  pose proof (treached_lt f (H f Hf)). lia.
Qed.
Lemma loop_ok : forall fuel L st, Inv L st -> nf < fuel + length L ->
  exists L' st', loop add zero g vid fr vneed fneed d fuel wrt ch st = GOk st' /\ Inv L' st' /\ gopen st' = [].
Proof using M Hd Hln Hlvl Hown Hfl Hrt Hin Hws Hwf Hch.
  induction fuel as [|fuel IH]; intros L st I Hk; cbn [loop]; destruct (gopen st) as [|e0 rest] eqn:Eo.
  - exists L, st. auto.
  - exfalso. pose proof (len_le L (v_nodup L st I) (v_reach L st I)). lia.
  - exists L, st. auto.
  - destruct (turn_ok L st I e0 rest Eo) as (f & st1 & E1 & Hf & I1). rewrite E1. apply (IH (f :: L)); auto.
    cbn [length]. lia.
Qed.
Lemma loop_result L st (I : Inv L st) : gopen st = [] -> forall i x, nth_error inputs i = Some x ->
  getres (grads st) i = tpadj (Ex x).
Proof using M Hd Hln Hlvl Hfl Hrt Hin Hws Hwf.
  intros Ho i x Hx. rewrite (v_res L st I i x Hx), (tpadj_eq add zero M g d Hd vneed Hln lvl Hlvl one roots).
  assert (Hxi : In x inputs) by (eapply nth_error_In; eauto).
  rewrite (gsum_zero add zero M _ roots).
  2: { intros y Hy. destruct (Ex x y) eqn:E; auto. exfalso. apply Nat.eqb_eq in E.
       destruct (gi_seen g _ _ _ _ _ Hin x y [] y Hxi Hy (path_root g vneed y) E) as (X & _). auto. }
  rewrite (add_0_l add zero M).
  apply gsum_sub; auto; [apply (v_nodup L st I)|intros h Hh; apply treached_lt, (v_reach L st I h Hh)|].
  intros h Hh Hhl. apply tcontrib_zero; auto. intros j v Hr Hn E Ht.
  destruct (ex_target i x h j v Hx Ht Hr Hn E) as (_ & Dh). apply Hhl.
  destruct Ht as (y & l & w & Hy & Hp & Hw).
  destruct (behind L st I y l w Hy Hp h Hw Dh) as [|(r & h' & H1 & _)]; auto.
  rewrite Ho in H1. destruct H1.
Qed.

(** The start. *)
Record Start (dn : list nat) (st : gst G) : Prop := mkStart {
  s_nodup : NoDup (map snd (gopen st));
  s_open : forall p, In p (map snd (gopen st)) <-> exists y, In y dn /\ parent g y = Some p;
  s_prio : forall r f, In (r, f) (gopen st) -> exists y, In y dn /\ parent g y = Some f /\ r = vr y;
  s_some : forall y p, In y dn -> parent g y = Some p -> lookup p (gvars st) = Some [(vid y, [one y])];
  s_none : forall q, (forall y, In y dn -> parent g y <> Some q) -> lookup q (gvars st) = None }.
Lemma start_ok : forall l dn st, Start dn st -> NoDup (map (parent g) (dn ++ l)) ->
  (forall y, In y l -> exists p, parent g y = Some p) ->
  exists st', ofold (start_one g vid vr one) l st = Some st' /\ Start (dn ++ l) st' /\ grads st' = grads st.
Proof using.
  induction l as [|y l IH]; intros dn st S N Hp; cbn [ofold].
  - exists st. rewrite app_nil_r. auto.
  - destruct (Hp y (or_introl eq_refl)) as (p & Ep). unfold start_one at 1. rewrite Ep.
    assert (Np : forall z, In z dn -> parent g z <> Some p).
    { intros z Hz E. rewrite map_app in N. cbn [map] in N. apply NoDup_remove_2 in N. apply N.
      apply in_app_iff. left. rewrite Ep, <- E. apply in_map. auto. }
    assert (Npo : ~ In p (map snd (gopen st))).
    { intros X. apply (s_open dn st S) in X as (z & Hz & E). eapply Np; eauto. }
    set (st1 := mkGst _ _ _ _).
    destruct (IH (dn ++ [y]) st1) as (st' & E & S' & Eg).
    + unfold st1. constructor; cbn [gopen gvars].
      * apply add_open_nodup; [left; auto|apply (s_nodup dn st S)].
      * intros q. rewrite in_map_iff. split.
        -- intros (e & Ee & He). apply add_open_in in He as [He|He].
           ++ assert (X : In q (map snd (gopen st))) by (apply in_map_iff; eauto).
              apply (s_open dn st S) in X as (z & Hz & Ez). exists z. split; auto. apply in_app_iff. auto.
           ++ subst e. cbn in Ee. subst q. exists y. split; auto. apply in_app_iff. right. left. auto.
        -- intros (z & Hz & Ez). apply in_app_iff in Hz as [Hz|[<-|[]]].
           ++ assert (X : In q (map snd (gopen st))) by (apply (s_open dn st S); eauto).
              apply in_map_iff in X as (e & Ee & He). exists e. split; auto. apply add_open_in. auto.
           ++ exists (vr y, p). split; [cbn; congruence|]. apply add_open_in. auto.
      * intros r f X. apply add_open_in in X as [X|X].
        -- destruct (s_prio dn st S r f X) as (z & Hz & X2). exists z. split; auto. apply in_app_iff. auto.
        -- inversion X; subst. exists y. split; auto. apply in_app_iff. right. left. auto.
      * intros z q Hz Ez. rewrite lookup_put. apply in_app_iff in Hz as [Hz|[<-|[]]].
        -- destruct (Nat.eqb p q) eqn:Epq; [|apply (s_some dn st S); auto].
           apply Nat.eqb_eq in Epq. subst q. exfalso. eapply Np; eauto.
        -- assert (p = q) by congruence. subst q. rewrite Nat.eqb_refl. reflexivity.
      * intros q Hq. rewrite lookup_put. destruct (Nat.eqb p q) eqn:Epq.
        -- apply Nat.eqb_eq in Epq. subst q. exfalso. apply (Hq y); auto. apply in_app_iff. right. left. auto.
        -- apply (s_none dn st S). intros z Hz. apply Hq. apply in_app_iff. auto.
    + rewrite <- app_assoc. exact N.
    + intros z Hz. apply Hp. right. auto.
    + exists st'. rewrite <- app_assoc in S'. split; auto.
Qed.

Lemma start_inv st : Start roots st -> grads st = map (fun _ => None) inputs -> Inv [] st.
Proof using M Hln Hown Hrt.
  intros S Eg.
  assert (Pi : forall y z, In y roots -> In z roots -> parent g y = parent g z -> y = z).
  { clear - Hrt. pose proof (gr_own g _ _ _ _ Hrt) as N. revert N. generalize roots as l. clear.
    induction l as [|a l IH]; cbn [map]; intros N y z Hy Hz E; [destruct Hy|]. inversion N; subst.
    destruct Hy as [->|Hy], Hz as [->|Hz]; auto.
    - exfalso. apply H1. rewrite E. apply in_map; auto.
    - exfalso. apply H1. rewrite <- E. apply in_map; auto. }
  constructor.
  - constructor.
  - intros f [].
  - apply (s_nodup roots st S).
  - intros f. rewrite (s_open roots st S). unfold cand. split.
    + intros H. split; auto.
    + intros (_ & [H|(h & i & v & [] & _)]). auto.
  - intros r f H. right. apply (s_prio roots st S r f H).
  - intros f H. apply (s_open roots st S) in H as (y & Hy & Ep). rewrite (s_some roots st S y f Hy Ep). discriminate.
  - intros f u Df Nf Hu _. cbn [map]. rewrite gsum_nil, (add_0_r add zero M). unfold rootval, GradProofs2.valof.
    destruct (existsb (fun y => match parent g y with Some p => Nat.eqb p f | None => false end) roots) eqn:E.
    + apply existsb_exists in E as (y & Hy & E). destruct (parent g y) as [p|] eqn:Ep; [|discriminate].
      apply Nat.eqb_eq in E. subst p. rewrite (s_some roots st S y f Hy Ep). cbn [lookup].
      rewrite (gsum_single add zero M _ roots y); auto.
      * destruct (Nat.eqb (vid y) (vid u)) eqn:Ev.
        -- apply Nat.eqb_eq in Ev. assert (y = u) by (eapply (own_eq g vid Hln Hown); eauto using parent_var).
           subst u. rewrite Nat.eqb_refl. cbn [fold_left]. apply (add_0_l add zero M).
        -- destruct (Nat.eqb u y) eqn:Eu; auto. apply Nat.eqb_eq in Eu. subst u. rewrite Nat.eqb_refl in Ev. discriminate.
      * eapply NoDup_map_inv. apply (gr_own g _ _ _ _ Hrt).
      * intros z Hz Nz. destruct (Nat.eqb u z) eqn:Eu; auto. apply Nat.eqb_eq in Eu. subst z.
        exfalso. apply Nz. apply Pi; auto. congruence.
    + rewrite (s_none roots st S f).
      * symmetry. apply gsum_zero; auto. intros y Hy. destruct (Nat.eqb u y) eqn:Eu; auto. apply Nat.eqb_eq in Eu. subst y.
        exfalso. assert (X : existsb (fun y => match parent g y with Some p => Nat.eqb p f | None => false end) roots = true); [|congruence].
        apply existsb_exists. exists u. rewrite Hu, Nat.eqb_refl. auto.
      * intros y Hy Ep. assert (X : existsb (fun y => match parent g y with Some p => Nat.eqb p f | None => false end) roots = true); [|congruence].
        apply existsb_exists. exists y. rewrite Ep, Nat.eqb_refl. auto.
  - rewrite Eg. apply map_length.
  - intros i x Hx. rewrite Eg. cbn [map]. rewrite gsum_nil. unfold GradProofs2.getres.
    clear. revert i. induction inputs as [|a l IH]; intros [|i]; cbn; auto.
  - intros q u h i [].
Qed.
End Main.

Section Top.
Context {V G : Type}.
Variable add : G -> G -> G.
Variable zero : G.
Hypothesis M : comm_monoid add zero.
Variable g : graph V.

Theorem grad_ok vid vr fr vneed fneed d one roots outs inputs :
  (forall f o i, additive add zero (d f o i)) ->
  linked g -> acyclic g -> own_grads g vid ->
  nn_flags g vneed fneed fr -> grad_roots g vneed vr fr roots ->
  grad_inputs g vid vneed roots outs inputs -> (forall o, In o outs -> is_var g o) ->
  exists r, grad add zero g vid vr fr vneed fneed d one roots outs inputs = GOk r /\
    length r = length inputs /\
    forall i x ps, nth_error inputs i = Some x ->
      (forall y, In y roots -> all_paths g vneed y (fun v => vid v = vid x) (ps y)) ->
      nth_error r i = Some (gsum add zero (flat_map (fun y => map (path_val d (one y)) (ps y)) roots)).
Proof using M.
  intros Hd Hln (lvl & Hlvl) Hown Hfl Hrt Hin Hout. unfold grad.
  destruct (start_ok g vid vr one roots [] (mkGst [] [] [] (map (fun _ => None) inputs))) as (st & E & S & Eg).
  { constructor; cbn [gopen gvars map].
    - constructor.
    - intros p. split; [intros []|intros (y & [] & _)].
    - intros r f [].
    - intros y p [].
    - reflexivity. }
  { apply (gr_own g _ _ _ _ Hrt). }
  { intros y Hy. destruct (gr_fun g _ _ _ _ Hrt y Hy) as (p & Hp & _). eauto. }
  rewrite E. cbn [app] in S. cbn [grads] in Eg.
  destruct (corresponding_ok g vid Hln lvl Hlvl Hown inputs (gi_own g _ _ _ _ _ Hin) outs Hout) as (wrt & Ew & Hws & Hwf).
  rewrite Ew.
  destruct (children_ok g vid Hln lvl Hlvl Hown wrt) as (ch & Ec & Hch).
  { intros w Hw. apply In_nth_error in Hw as (i & Hi). destruct Hws as (_ & X). destruct (X i w Hi) as ((f & fd & Hf & Hv) & _).
    eapply ln_ins; eauto. }
  rewrite Ec.
  pose proof (start_inv add zero M g vid vr fr vneed fneed d one roots inputs Hln Hown Hrt wrt st S Eg) as I.
  destruct (loop_ok add zero M g vid vr fr vneed fneed d Hd one roots outs inputs Hln lvl Hlvl Hown Hfl Hrt Hin
     wrt ch Hws Hwf Hch (Datatypes.S (length roots + length (g_fns g))) [] st I) as (L & st' & El & I' & Eo).
  { cbn [length]. lia. }
  rewrite El. eexists. split; [reflexivity|]. split.
  { rewrite map_length. apply (v_len _ _ _ _ _ _ _ _ _ _ _ _ _ _ _ I'). }
  intros i x ps Hx Hps.
  pose proof (loop_result add zero M g vid vr fr vneed fneed d Hd one roots outs inputs Hln lvl Hlvl Hfl Hrt Hin
     wrt Hws Hwf L st' I' Eo i x Hx) as R.
  assert (Li : i < length (grads st')).
  { rewrite (v_len _ _ _ _ _ _ _ _ _ _ _ _ _ _ _ I'). apply nth_error_Some. congruence. }
  rewrite nth_error_map. destruct (nth_error (grads st') i) as [o|] eqn:Eoi; [|apply nth_error_None in Eoi; lia].
  cbn [option_map]. f_equal. unfold getres in R. rewrite (nth_error_nth _ _ None Eoi) in R. rewrite R.
  unfold tpadj. rewrite (gsum_flat add zero M). apply gsum_ext. intros y Hy. unfold padj.
  apply (gsum_perm add zero M). apply Permutation_map.
  eapply (all_paths_perm g vneed y (fun v => vid v = vid x)); [|apply Hps; auto].
  pose proof (paths_all g vneed y Hln lvl Hlvl (Datatypes.S (length (g_fns g))) (Ex vid x) (Nat.lt_succ_diag_r _)) as (A & B).
  split; auto. intros l. rewrite B. unfold Ex. split; intros (v & H1 & H2); exists v; split; auto; apply Nat.eqb_eq; auto.
Qed.
End Top.
Print Assumptions grad_ok.
