(** The invariant of forward propagation and its proof. *)
From Coq Require Import List Arith Bool Lia.
From Verif Require Import CgModel CgSpec CgProofs.
Import ListNotations.
Local Open Scope list_scope.

Lemma NoDup_snoc {A} (l : list A) x : NoDup l -> ~ In x l -> NoDup (l ++ [x]).
Proof.
  induction l as [|y l IH]; cbn; intros Hn Hx; [constructor; auto; constructor|].
  apply NoDup_cons_iff in Hn as [Hy Hn]. constructor; [|apply IH; tauto].
  rewrite in_app_iff. cbn. intuition congruence.
Qed.
Lemma NoDup_app_parts {A} (a b : list A) :
  NoDup (a ++ b) -> NoDup b /\ (forall x, In x a -> ~ In x b).
Proof.
  induction a as [|y a IH]; cbn; intros Hn; [split; auto|].
  apply NoDup_cons_iff in Hn as [Hy Hn]. destruct (IH Hn) as [H1 H2]. split; auto.
  intros x [->|Hx]; auto. intros Hb. apply Hy. apply in_app_iff. auto.
Qed.

Lemma nth_error_skipn_cg {A} (l : list A) n m : nth_error (skipn n l) m = nth_error l (n + m).
Proof. revert l. induction n as [|n IH]; intros [|x l]; cbn; auto. now destruct m. Qed.

Section Invariant.
Context {V : Type}.
Variable g : graph V.
Variables (cb cng : bool).
Variable lvl : nat -> nat.
Variable vals : nat -> V.
Variables need keep : nat -> Prop.
Variable gf : nat -> bool.
Variable rk : nat -> nat.
Variable L0 : list nat.          (* functions executed by earlier calls *)
Variable s0 : st V.              (* state at the start *)

Hypothesis Hwf : wf g.
Hypothesis Hlvl : numbering g lvl.
Hypothesis Hvals : forall f fd, fun_at g f = Some fd -> f_op fd (args vals fd) = map vals (f_outs fd).
Hypothesis Hneed : forall f i u q, need f -> reads g f i u -> parent g u = Some q -> need q.
Hypothesis Hfun : forall f, need f -> exists fd, fun_at g f = Some fd.
Hypothesis Hhaz : no_hazard g need keep.
Hypothesis Hmask : masked_ok g need s0.
Hypothesis Hgf : grad_flags g gf.
Hypothesis Hrk : ranks g rk.
Hypothesis HL0 : forall k kd b, In k L0 -> fun_at g k = Some kd -> f_outs kd = [b] ->
  v_persistent (var_at g b) = true \/
  exists h hd, In h L0 /\ fun_at g h = Some hd /\ In b (f_ins hd).
Hypothesis Hkeep : forall v, keep v ->
  (forall h hd, need h -> fun_at g h = Some hd -> ~ In v (f_ins hd)) \/
  v_persistent (var_at g v) = true \/ is_leaf g v \/
  (cb = false /\ v_recompute (var_at g v) = false /\
   (grad_reads_input g need gf v \/
    (grad_reads_output g need gf v /\
     ((forall p, parent g v = Some p -> ~ In p L0) \/
      exists p pd, parent g v = Some p /\ fun_at g p = Some pd /\ f_outs pd = [v])))).

Definition produced (l : list nat) (v : nat) : Prop :=
  match parent g v with None => True | Some p => In p l end.
Definition pending (l : list nat) (v : nat) : Prop :=
  exists h j, need h /\ reads g h j v /\ ~ In h l.
Definition okv (s : st V) (v : nat) : Prop :=
  need_grad_state g s v = ng_of g gf v /\
  vrank s v = match parent g v with Some p => rk p | None => 0 end.

Record Inv (C : list nat) (s : st V) : Prop := mkInv {
  I_log : log s = L0 ++ C;
  I_nodup : NoDup (log s);
  I_need : forall f, In f (log s) -> need f;
  I_closed : forall f, In f (log s) -> In f (closed s);
  I_order : in_order g (log s);
  I_seen : forall v, 2 <= v_refs (var_at g v) ->
     vseen s v = expect (visits g C v) (v_refs (var_at g v));
  I_ip : forall k i a b, In k C -> inplace_pair g k i a b -> In a (ipset s) /\ In b (ipset s);
  I_ngi : forall k kd i v, In k C -> fun_at g k = Some kd -> gf k = true ->
     nth_error (f_ins kd) i = Some v -> dep_data (f_dep_in kd) kd i = true -> In v (ngset s);
  I_ngo : forall k kd i v, In k C -> fun_at g k = Some kd -> gf k = true ->
     nth_error (f_outs kd) i = Some v -> dep_data (f_dep_out kd) kd i = true -> In v (ngset s);
  I_mem : forall v, is_var g v -> produced (log s) v -> (keep v \/ pending (log s) v) ->
     mem s (arr g v) = Some (vals v);
  I_leafrank : forall v, is_leaf g v -> vrank s0 v = 0 -> vrank s v = 0;
  I_fng : forall f, In f (log s) -> fng s f = gf f;
  I_frank : forall f, In f (log s) -> frank s f = rk f;
  I_okv : forall f i v, In f (log s) -> reads g f i v -> okv s v }.

Lemma same_data_vals u v : same_data g u v -> vals u = vals v.
Proof.
  induction 1 as [v|u v _ IH|u v w _ IH1 _ IH2|f fd i a b Hf Ha Hi Ho]; try congruence.
  assert (E := Hvals f fd Hf). rewrite Ho in E. cbn in E.
  assert (Hact : f_active fd i = true).
  { eapply wf_inplace; eauto. now rewrite Hi. }
  rewrite (wf_not_modify g Hwf f fd i a (args vals fd) (vals a) Hf Ha Hi) in E; [congruence|].
  unfold args. erewrite map_nth_error with (d := (i, a)).
  - cbn. now rewrite Hact.
  - rewrite combine_seq_nth, Ha. reflexivity.
Qed.

Lemma needs_in l p f : in_order g l -> In p l -> needs g p f -> In f l.
Proof.
  intros Ho Hp Hn. induction Hn as [p|p i u q f Hr Hq Hn IH]; auto. apply IH.
  apply in_split in Hp as (l1 & l2 & E).
  assert (In q l1) by (eapply Ho; eauto). rewrite E. apply in_app_iff. auto.
Qed.

Lemma reads_lvl f i u q : reads g f i u -> parent g u = Some q -> lvl q < lvl f.
Proof.
  intros (fd & Hf & Hu & _) Hq. eapply Hlvl; eauto. now apply nth_error_In in Hu.
Qed.
Lemma fun_lvl f fd : fun_at g f = Some fd -> lvl f < length (g_fns g).
Proof. intros H. now apply (Hlvl f fd). Qed.
Lemma needs_lvl p f : needs g p f -> f = p \/ lvl f < lvl p.
Proof.
  induction 1 as [|p i u q f Hr Hq Hn IH]; auto. assert (H := reads_lvl _ _ _ _ Hr Hq).
  right. destruct IH as [->|]; lia.
Qed.

(** One execution of the callback. *)
Lemma callback_ok C s f fd :
  Inv C s -> fun_at g f = Some fd -> need f -> In f (closed s) -> ~ In f (log s) ->
  (forall i u q, reads g f i u -> parent g u = Some q -> In q (log s)) ->
  (forall i u, reads g f i u -> okv s u) ->
  fng s f = gf f -> frank s f = rk f ->
  exists s', callback g cb cng false s f fd = Ok s' /\ Inv (C ++ [f]) s' /\
             closed s' = closed s /\ (forall v, okv s v -> okv s' v).
Proof.
  intros HI Hf Hnf Hcl Hnl Hpar Hokv Hfng Hfrank. unfold callback.
  assert (Hargs : read_inputs g (mem s) fd 0 (f_ins fd) = Some (args vals fd)).
  { apply read_inputs_ok. intros j u Hu Ha. cbn in Ha.
    assert (R : reads g f j u) by (exists fd; auto).
    apply (I_mem _ _ HI).
    - eapply wf_ins; eauto. now apply nth_error_In in Hu.
    - unfold produced. destruct (parent g u) as [q|] eqn:Eq; auto. eapply Hpar; eauto.
    - right. exists f, j. auto. }
  rewrite Hargs. rewrite (Hvals f fd Hf).
  set (m1 := write_outputs g (mem s) (f_outs fd) (map vals (f_outs fd))).
  set (s1 := push_log (set_mem s m1) f).
  destruct (mark_outputs_ok f fd (f_outs fd) 0 s1) as (M1 & M2 & M3 & M4 & M5).
  set (s2 := mark_outputs s1 f fd 0 (f_outs fd)) in *.
  destruct M1 as (C1 & C2 & C3 & C4 & C5 & C6 & C7 & C8).
  cbn in C1, C2, C3, C4, C5, C6, C7, C8, M2, M3, M4.
  assert (HND : NoDup (log s ++ [f])) by (apply NoDup_snoc; auto; apply (I_nodup _ _ HI)).
  assert (HNDC : NoDup (C ++ [f]) /\ forall x, In x L0 -> ~ In x (C ++ [f])).
  { rewrite (I_log _ _ HI), <- app_assoc in HND. now apply NoDup_app_parts. }
  destruct HNDC as [HNDC HL0C].
  assert (Hlt : forall k, In k (C ++ [f]) -> k < length (g_fns g)).
  { intros k Hk. assert (need k) as Hk'.
    { apply in_app_iff in Hk as [Hk|[<-|[]]]; auto. apply (I_need _ _ HI).
      rewrite (I_log _ _ HI). apply in_app_iff. auto. }
    destruct (Hfun k Hk') as (kd & E). eapply fun_at_lt; eauto. }
  assert (CF := clear_flags_ok g cb cng C f fd Hf HNDC Hlt (wf_refs g Hwf)
                  (f_ins fd) [] s2 eq_refl).
  cbn [length] in CF.
  destruct (clear_flags g cb cng false s2 f fd 0 (f_ins fd)) as [s3 bs].
  destruct CF as (K1 & K2 & K3 & K4 & K5 & K6 & K7).
  { intros v Hv. rewrite M2. cbn. rewrite Nat.add_0_r. now apply (I_seen _ _ HI). }
  destruct K1 as (D1 & D2 & D3 & D4 & D5 & D6 & D7 & D8).
  eexists. split; [reflexivity|].
  assert (Hfng2 : fng s2 f = gf f) by (rewrite C5; exact Hfng).
  assert (Hvr : vrank s2 = vrank s) by (rewrite C2; reflexivity).
  assert (Hlog : log s3 = log s ++ [f]) by (rewrite D8, C8; reflexivity).
  assert (Hmem3 : mem s3 = m1) by (rewrite D1, C1; reflexivity).
  assert (Hdeps : forall h, needs g f h -> h = f \/ In h (log s)).
  { intros h Hh. inversion Hh as [|? i u q ? Hr Hq Hn]; subst; auto. right.
    eapply needs_in; eauto using I_order. }
  assert (Horder : in_order g (log s ++ [f])).
  { intros l1 k l2 i u q E Hr Hq.
    destruct (exists_last (l := k :: l2)) as (l3 & z & E3); [discriminate|].
    rewrite E3, app_assoc in E. apply app_inj_tail in E as [E <-].
    destruct l2 as [|z l2].
    - destruct l3 as [|? [|]]; cbn in E3; try discriminate. injection E3 as <-.
      rewrite app_nil_r in E. subst l1. eapply Hpar; eauto.
    - assert (exists l4, l3 = k :: l4) as (l4 & ->).
      { destruct l3; cbn in E3; [discriminate|]. injection E3 as <- _. eauto. }
      eapply (I_order _ _ HI); eauto. }
  (* what a set clear flag means *)
  assert (Hflag : forall j u, nth_error (f_ins fd) j = Some u -> nth_error bs j = Some true ->
     forall v, is_var g v -> arr g u = arr g v -> produced (log s ++ [f]) v ->
       ~ keep v /\ ~ pending (log s ++ [f]) v).
  { intros j u Hu Hb v Hv Harr Hprod.
    destruct (K7 j u Hu Hb) as (ng & ip & F & Hnip & Ing & Iip & Hng & Hip). cbn in F, Hng, Hip.
    destruct F as (F1 & F2 & F3 & F4 & F5 & F6 & F7).
    assert (Huv : is_var g u) by (eapply wf_ins; eauto; now apply nth_error_In in Hu).
    assert (Hpre : f_ins fd = firstn (S j) (f_ins fd) ++ skipn (S j) (f_ins fd))
      by now rewrite firstn_skipn.
    assert (Hcons : forall h hd, fun_at g h = Some hd -> In u (f_ins hd) -> In h (C ++ [f])).
    { intros h hd Hh Hin.
      apply (all_visited g C f fd u (firstn (S j) (f_ins fd)) h HNDC Hlt Hf); auto.
      - assert (E := count_occ_app Nat.eq_dec (firstn (S j) (f_ins fd)) (skipn (S j) (f_ins fd)) u).
        rewrite <- Hpre in E. lia.
      - unfold occ. rewrite Hh. now apply count_occ_In. }
    assert (Hlater : forall i, nth_error (f_ins fd) i = Some u -> i <= j).
    { intros i Hi. destruct (le_lt_dec i j) as [|Hlt']; auto. exfalso.
      apply (none_left g C f fd u _ _ HNDC Hlt Hf Hpre F1).
      apply nth_error_In with (n := i - S j). rewrite nth_error_skipn_cg.
      now replace (S j + (i - S j)) with i by lia. }
    assert (HuL0 : forall p pd, parent g u = Some p -> fun_at g p = Some pd -> f_outs pd = [u] ->
                     ~ In p L0).
    { intros p pd Hp Hpd Ho HpL. destruct (HL0 p pd u HpL Hpd Ho) as [Hpe|(h & hd & Hh1 & Hh2 & Hh3)].
      - congruence.
      - apply (HL0C h Hh1). eapply Hcons; eauto. }
    assert (Hrank0 : is_leaf g u -> False).
    { intros Hl. apply F3. rewrite Hvr. destruct (f_active fd j) eqn:Ha.
      - assert (R : reads g f j u) by (exists fd; auto). destruct (Hokv j u R) as [_ E].
        rewrite E. unfold is_leaf in Hl. now rewrite Hl.
      - apply (I_leafrank _ _ HI); auto. eapply Hmask; eauto. }
    destruct (Nat.eq_dec u v) as [<-|Hne].
    - split.
      + intros Hk. destruct (Hkeep u Hk) as [Hk1|[Hk2|[Hk3|(Hk4 & Hk5 & Hk6)]]].
        * eapply Hk1; eauto. now apply nth_error_In in Hu.
        * congruence.
        * auto.
        * destruct F7 as [F7|[F7|[F7 F8]]]; [congruence|congruence|]. apply F8.
          destruct Hk6 as [(k & kd & i & i' & G1 & G2 & G3 & G4 & G5 & G6)|
                           ((k & kd & o & i' & G1 & G2 & G3 & G4 & G5 & G6) & Hpk)].
          -- assert (Hd : dep_data (f_dep_in kd) kd i = true).
             { unfold dep_data. apply existsb_exists. exists i'. split; auto. apply in_seq. lia. }
             assert (Hkc : In k (C ++ [f])) by (eapply Hcons; eauto; now apply nth_error_In in G4).
             apply in_app_iff in Hkc as [Hkc|[<-|[]]].
             ++ apply Ing. apply M4. eapply (I_ngi _ _ HI); eauto.
             ++ rewrite G2 in Hf. injection Hf as ->. apply (Hng i); auto. congruence.
          -- assert (Hd : dep_data (f_dep_out kd) kd o = true).
             { unfold dep_data. apply existsb_exists. exists i'. split; auto. apply in_seq. lia. }
             assert (Hpu : parent g u = Some k).
             { eapply (wf_outs g Hwf); eauto. now apply nth_error_In in G4. }
             assert (HkL : ~ In k L0).
             { destruct Hpk as [Hpk|(p & pd & P1 & P2 & P3)]; [now apply Hpk|].
               assert (p = k) by congruence. subst p. eapply HuL0; eauto. }
             unfold produced in Hprod. rewrite Hpu in Hprod.
             rewrite (I_log _ _ HI), <- app_assoc in Hprod.
             apply in_app_iff in Hprod as [|Hkc]; [contradiction|].
             apply in_app_iff in Hkc as [Hkc|[<-|[]]].
             ++ apply Ing. apply M4. eapply (I_ngo _ _ HI); eauto.
             ++ rewrite G2 in Hf. injection Hf as ->. apply Ing. apply (M5 o); auto.
                change (fng s1 f) with (fng s f). congruence.
      + intros (h & i & Hh & (hd & R1 & R2 & R3) & Hnl'). apply Hnl'.
        assert (Hc : In h (C ++ [f])) by (eapply Hcons; eauto; now apply nth_error_In in R2).
        rewrite (I_log _ _ HI), <- app_assoc. apply in_app_iff. auto.
    - exfalso.
      destruct (wf_alias g Hwf u v Huv Hv Hne Harr) as (k & i & a & b & (kd & P1 & P2 & P3 & P4) & Hab).
      assert (Hpair : inplace_pair g k i a b) by (exists kd; auto).
      destruct Hab as [<-|<-].
      + assert (Hkc : In k (C ++ [f])) by (eapply Hcons; eauto; now apply nth_error_In in P2).
        apply in_app_iff in Hkc as [Hkc|[<-|[]]].
        * apply Hnip, Iip. rewrite M3. exact (proj1 (I_ip _ _ HI k i u b Hkc Hpair)).
        * rewrite P1 in Hf. injection Hf as ->. apply Hnip. apply (Hip i); auto.
      + assert (Hpu : parent g u = Some k) by (eapply (wf_outs g Hwf); eauto; rewrite P4; now left).
        destruct (f_active fd j) eqn:Ha.
        * assert (R : reads g f j u) by (exists fd; auto).
          assert (Hkl := Hpar j u k R Hpu). rewrite (I_log _ _ HI) in Hkl.
          apply in_app_iff in Hkl as [Hkl|Hkl]; [eapply HuL0; eauto|].
          apply Hnip, Iip. rewrite M3. exact (proj2 (I_ip _ _ HI k i a u Hkl Hpair)).
        * destruct (Hmask f fd j u Hnf Hf Hu Ha) as [Hown _]. apply Hne. symmetry. now apply Hown. }
  split; [|split].
  - apply mkInv; cbn [set_mem mem vrank vng frank fng vallow closed log vseen ngset ipset owset];
      rewrite ?Hlog.
    + rewrite (I_log _ _ HI). now rewrite app_assoc.
    + exact HND.
    + intros k Hk. apply in_app_iff in Hk as [Hk|[<-|[]]]; auto. now apply (I_need _ _ HI).
    + intros k Hk. rewrite D7, C7. apply in_app_iff in Hk as [Hk|[<-|[]]]; auto.
      now apply (I_closed _ _ HI).
    + exact Horder.
    + intros v Hv. rewrite K4 by auto. f_equal. rewrite visits_app, visits_cons.
      unfold occ. rewrite Hf. change (visits g [] v) with 0. lia.
    + intros k i a b Hk Hp. apply in_app_iff in Hk as [Hk|[<-|[]]].
      * destruct (I_ip _ _ HI k i a b Hk Hp). rewrite <- M3 in *. auto.
      * destruct Hp as (fd' & P1 & P2 & P3 & P4). rewrite P1 in Hf. injection Hf as ->.
        destruct (K6 i a P2 P3) as [Q1 Q2]. split; auto. cbn in Q2.
        destruct (wf_inplace g Hwf f fd i a P1 P2 P3) as (_ & E & _).
        rewrite E, P4 in Q2. exact Q2.
    + intros k kd i v Hk Hkd Hg Hi Hd. apply in_app_iff in Hk as [Hk|[<-|[]]].
      * apply K2, M4. eapply (I_ngi _ _ HI); eauto.
      * rewrite Hkd in Hf. injection Hf as ->. apply (K5 i); auto. congruence.
    + intros k kd i v Hk Hkd Hg Hi Hd. apply in_app_iff in Hk as [Hk|[<-|[]]].
      * apply K2, M4. eapply (I_ngo _ _ HI); eauto.
      * rewrite Hkd in Hf. injection Hf as ->. apply K2. apply (M5 i); auto.
        change (fng s1 f) with (fng s f). congruence.
    + intros v Hv Hprod Hwant. rewrite Hmem3.
      assert (E1 : m1 (arr g v) = Some (vals v)).
      { unfold m1. destruct (in_dec Nat.eq_dec v (f_outs fd)) as [Ho|Ho].
        - apply write_outputs_in; auto. eapply wf_out_arrays; eauto.
        - assert (Hprod' : produced (log s) v).
          { unfold produced in *. destruct (parent g v) as [q|] eqn:Eq; auto.
            apply in_app_iff in Hprod as [|[<-|[]]]; auto. exfalso. apply Ho.
            destruct (wf_parent g Hwf v f Eq) as (fd' & E & Hin).
            rewrite E in Hf. injection Hf as ->. auto. }
          assert (Hwant' : keep v \/ pending (log s) v).
          { destruct Hwant as [|(h & j & H1 & H2 & H3)]; auto. right. exists h, j.
            split; auto. split; auto. intros H. apply H3. apply in_app_iff. auto. }
          assert (Old := I_mem _ _ HI v Hv Hprod' Hwant').
          destruct (in_dec Nat.eq_dec (arr g v) (map (arr g) (f_outs fd))) as [Ha|Ha];
            [|now rewrite write_outputs_other].
          apply in_map_iff in Ha as (o & Eo & Hin).
          assert (Hvo : v <> o) by (intros ->; contradiction).
          rewrite <- Eo, write_outputs_in; auto; [|eapply wf_out_arrays; eauto]. f_equal.
          destruct (Hhaz f fd o v Hnf Hf Hin Hv Hvo (eq_sym Eo)) as [Hs|[(q & Hq & Hn)|(Hk & Hc)]].
          + symmetry. now apply same_data_vals.
          + exfalso. apply Hnl. unfold produced in Hprod'. rewrite Hq in Hprod'.
            eapply needs_in; eauto using I_order.
          + exfalso. destruct Hwant as [|(h & j & H1 & H2 & H3)]; [contradiction|].
            apply H3. destruct (Hdeps h (Hc h j H1 H2)) as [->|]; apply in_app_iff; cbn; auto. }
      destruct (clear_inputs_cases g m1 (f_ins fd) bs (arr g v)) as [E|(j & u & H1 & H2 & H3)].
      * now rewrite E.
      * exfalso. destruct (Hflag j u H1 H2 v Hv H3 Hprod). tauto.
    + intros v Hl H0. rewrite D2, Hvr. now apply (I_leafrank _ _ HI).
    + intros k Hk. rewrite D5, C5. apply in_app_iff in Hk as [Hk|[<-|[]]]; auto.
      now apply (I_fng _ _ HI).
    + intros k Hk. rewrite D4, C4. apply in_app_iff in Hk as [Hk|[<-|[]]]; auto.
      now apply (I_frank _ _ HI).
    + intros k i v Hk Hr. assert (okv s v) as [E1 E2].
      { apply in_app_iff in Hk as [Hk|[<-|[]]]; eauto using I_okv. }
      split; unfold need_grad_state in *; cbn; [rewrite D3, C3|rewrite D2, Hvr]; auto.
  - cbn. now rewrite D7, C7.
  - intros v [E1 E2]. split; unfold need_grad_state in *; cbn; [rewrite D3, C3|rewrite D2, Hvr]; auto.
Qed.

(** Some needed function is in-placed with modification. *)
Definition modifies : Prop :=
  exists k kd j, need k /\ fun_at g k = Some kd /\ j < length (f_ins kd) /\
                 f_inplace kd j = INPLACE_MODIFY.

Definition visit_post (C : list nat) (f : nat) (s : st V) (r : res (st V)) : Prop :=
  match r with
  | Ok s' => exists C', Inv (C ++ C') s' /\ In f C' /\
      (forall k, In k (closed s') <-> In k (closed s) \/ In k C') /\
      (forall k, In k C' -> needs g f k) /\
      (forall v, okv s v -> okv s' v)
  | Err e => e = EVerify /\ modifies
  end.
Definition visit_pre (C : list nat) (f : nat) (s : st V) : Prop :=
  Inv C s /\ need f /\ ~ In f (closed s) /\
  (forall k, In k (closed s) -> ~ In k (log s) -> lvl f < lvl k).

(** Updating the rank and state of a variable to the right values. *)
Lemma set_var_okv s v r b :
  r = (match parent g v with Some p => rk p | None => 0 end) ->
  b = (match parent g v with Some p => gf p | None => false end) ->
  okv (set_vng (set_vrank s v r) v b) v /\
  (forall u, okv s u -> okv (set_vng (set_vrank s v r) v b) u).
Proof.
  intros Hr Hb.
  assert (K : okv (set_vng (set_vrank s v r) v b) v).
  { unfold okv, need_grad_state, ng_of. cbn. rewrite !upd_same. subst. split; auto. }
  split; auto. intros u Hu. destruct (Nat.eq_dec u v) as [->|Hne]; auto.
  unfold okv, need_grad_state in *. cbn. now rewrite !upd_other.
Qed.
Lemma set_var_inv C s v r b :
  r = (match parent g v with Some p => rk p | None => 0 end) ->
  b = (match parent g v with Some p => gf p | None => false end) ->
  Inv C s -> Inv C (set_vng (set_vrank s v r) v b).
Proof.
  intros Hr Hb HI. destruct (set_var_okv s v r b Hr Hb) as [_ K].
  destruct HI. apply mkInv; cbn; auto.
  - intros u Hl H0. destruct (Nat.eq_dec u v) as [->|Hne]; [|rewrite upd_other; auto].
    rewrite upd_same. unfold is_leaf in Hl. rewrite Hl in Hr. auto.
  - intros f i u Hf Hu. apply K. eauto.
Qed.

Lemma visit_inputs_ok (rec : nat -> st V -> res (st V)) f fd :
  fun_at g f = Some fd -> need f ->
  (forall q s C, lvl q < lvl f -> visit_pre C q s -> visit_post C q s (rec q s)) ->
  forall post pre s C rank ng,
  f_ins fd = pre ++ post -> Inv C s ->
  In f (closed s) -> ~ In f (log s) ->
  (forall k, In k (closed s) -> ~ In k (log s) -> lvl f <= lvl k) ->
  (* the inputs already visited *)
  (forall j u, nth_error pre j = Some u -> f_active fd j = true ->
     okv s u /\ (forall q, parent g u = Some q -> In q (log s) /\ rk q <= rank) /\
     (ng_of g gf u = true -> ng = true)) ->
  (rank = 0 \/ exists i u q, reads g f i u /\ parent g u = Some q /\ rank = rk q) ->
  (ng = true -> exists i u, reads g f i u /\ ng_of g gf u = true) ->
  match visit_inputs g rec fd (length pre) post rank ng s with
  | Ok (s', rank', ng') => exists C', Inv (C ++ C') s' /\ ~ In f C' /\
      (forall k, In k (closed s') <-> In k (closed s) \/ In k C') /\
      (forall k, In k C' -> needs g f k) /\
      (forall v, okv s v -> okv s' v) /\
      (forall j u, nth_error (f_ins fd) j = Some u -> f_active fd j = true ->
         okv s' u /\ (forall q, parent g u = Some q -> In q (log s') /\ rk q <= rank') /\
         (ng_of g gf u = true -> ng' = true)) /\
      (rank' = 0 \/ exists i u q, reads g f i u /\ parent g u = Some q /\ rank' = rk q) /\
      (ng' = true -> exists i u, reads g f i u /\ ng_of g gf u = true)
  | Err e => e = EVerify /\ modifies
  end.
Proof.
  intros Hf Hnf Hrec post. induction post as [|v post IH];
    intros pre s C rank ng Hins HI Hfc Hfl Hstk Hpre Hrank Hng; cbn [visit_inputs].
  { exists []. rewrite app_nil_r in *. subst. split; auto. split; auto.
    split; [cbn; tauto|]. split; [cbn; tauto|]. split; auto. }
  assert (Hv : nth_error (f_ins fd) (length pre) = Some v)
    by (rewrite Hins, nth_error_app2, Nat.sub_diag by lia; reflexivity).
  assert (Hins' : f_ins fd = (pre ++ [v]) ++ post) by now rewrite <- app_assoc.
  assert (Hlen : length (pre ++ [v]) = S (length pre)) by (rewrite app_length; cbn; lia).
  assert (Hsplit : forall j u, nth_error (pre ++ [v]) j = Some u ->
            (nth_error pre j = Some u) \/ (j = length pre /\ u = v)).
  { intros j u Hj. destruct (lt_dec j (length pre)).
    - rewrite nth_error_app1 in Hj by auto. auto.
    - rewrite nth_error_app2 in Hj by lia. destruct (j - length pre) as [|[|n']] eqn:E; cbn in Hj;
        try discriminate. right. injection Hj as <-. split; auto. lia. }
  destruct (f_active fd (length pre)) eqn:Ha; cbn [negb].
  2:{ specialize (IH (pre ++ [v]) s C rank ng Hins' HI Hfc Hfl Hstk). rewrite Hlen in IH.
      apply IH; auto. intros j u Hj Hja. destruct (Hsplit j u Hj) as [Hj'|[-> ->]]; [apply (Hpre j u Hj' Hja)|congruence]. }
  assert (R : reads g f (length pre) v) by (exists fd; auto).
  destruct (parent g v) as [p|] eqn:Ep.
  - assert (Hlp : lvl p < lvl f) by (eapply reads_lvl; eauto).
    assert (Hnp : need p) by (eapply Hneed; eauto).
    (* the state after a possible recursive call *)
    assert (Step : match (if mem_nat p (closed s) then Ok s else rec p s) with
            | Ok s1 => exists C1, Inv (C ++ C1) s1 /\ In p (log s1) /\ ~ In f C1 /\
                (forall k, In k (closed s1) <-> In k (closed s) \/ In k C1) /\
                (forall k, In k C1 -> needs g f k) /\ (forall u, okv s u -> okv s1 u)
            | Err e => e = EVerify /\ modifies end).
    { destruct (mem_nat p (closed s)) eqn:Em.
      - apply mem_nat_true in Em. exists []. rewrite app_nil_r. split; auto. split.
        + destruct (in_dec Nat.eq_dec p (log s)) as [|Hno]; auto.
          specialize (Hstk p Em Hno). lia.
        + split; auto. split; [cbn; tauto|]. split; [cbn; tauto|auto].
      - apply mem_nat_false in Em. specialize (Hrec p s C Hlp).
        assert (Pre : visit_pre C p s).
        { split; auto. split; auto. split; auto. intros k Hk Hk'. specialize (Hstk k Hk Hk'). lia. }
        specialize (Hrec Pre). unfold visit_post in Hrec. destruct (rec p s) as [s1|e]; auto.
        destruct Hrec as (C1 & H1 & H2 & H3 & H4 & H5). exists C1. split; auto.
        assert (In p (log s1)) as Hpl.
        { rewrite (I_log _ _ H1), !in_app_iff. auto. }
        split; auto. split.
        { intros HfC. apply H4 in HfC. apply needs_lvl in HfC as [->|]; lia. }
        split; auto. split; auto. intros k Hk. eapply needs_step; eauto. }
    destruct (if mem_nat p (closed s) then Ok s else rec p s) as [s1|e]; auto.
    destruct Step as (C1 & HI1 & Hp1 & HfC1 & Hc1 & Hn1 & Ho1).
    assert (Er : frank s1 p = match parent g v with Some p => rk p | None => 0 end)
      by (rewrite Ep; now apply (I_frank _ _ HI1)).
    assert (En : fng s1 p = match parent g v with Some p => gf p | None => false end)
      by (rewrite Ep; now apply (I_fng _ _ HI1)).
    destruct (set_var_okv s1 v _ _ Er En) as [Kv Ku].
    assert (HI2 := set_var_inv _ s1 v _ _ Er En HI1).
    set (s2 := set_vng (set_vrank s1 v (frank s1 p)) v (fng s1 p)) in *.
    change (frank s2 p) with (frank s1 p).
    assert (Erp : frank s1 p = rk p) by now apply (I_frank _ _ HI1).
    rewrite Erp. assert (Eng : need_grad_state g s2 v = ng_of g gf v) by apply Kv. rewrite Eng.
    specialize (IH (pre ++ [v]) s2 (C ++ C1) (Nat.max (rk p) rank) (ng || ng_of g gf v) Hins' HI2).
    rewrite Hlen in IH.
    assert (Hfl1 : ~ In f (log s1)).
    { rewrite (I_log _ _ HI1), !in_app_iff. rewrite (I_log _ _ HI), in_app_iff in Hfl. tauto. }
    assert (Hmono : forall k, In k (log s) -> In k (log s1)).
    { intros k. rewrite (I_log _ _ HI1), (I_log _ _ HI), !in_app_iff. tauto. }
    destruct (visit_inputs g rec fd (S (length pre)) post (Nat.max (rk p) rank)
                (ng || ng_of g gf v) s2) as [[[s3 rank3] ng3]|e].
    + destruct IH as (C2 & J1 & J2 & J3 & J4 & J5 & J6 & J7 & J8).
      * change (closed s2) with (closed s1). apply Hc1. auto.
      * exact Hfl1.
      * intros k Hk Hk'. change (log s2) with (log s1) in Hk'. apply Hc1 in Hk as [Hk|Hk].
        -- apply Hstk; auto.
        -- exfalso. apply Hk'. rewrite (I_log _ _ HI1), !in_app_iff. auto.
      * intros j u Hj Hja. destruct (Hsplit j u Hj) as [Hj'|[-> ->]].
        -- destruct (Hpre j u Hj' Hja) as (O1 & O2 & O3). split; [auto|]. split.
           ++ intros q Hq. destruct (O2 q Hq). split; [now apply Hmono|lia].
           ++ intros Hg. rewrite O3 by auto. reflexivity.
        -- split; auto. split.
           ++ intros q Hq. assert (q = p) by congruence. subst. split; auto. lia.
           ++ intros ->. now rewrite orb_true_r.
      * destruct (Nat.max_spec (rk p) rank) as [[_ ->]|[_ ->]]; auto. right. eauto 10.
      * intros H. apply orb_true_iff in H as [H|H]; auto. eauto.
      * exists (C1 ++ C2). rewrite app_assoc. split; auto. split; [rewrite in_app_iff; tauto|].
        split.
        { intros k. rewrite J3. change (closed s2) with (closed s1). rewrite Hc1, in_app_iff. tauto. }
        split; [intros k; rewrite in_app_iff; intros [|]; auto|]. split; auto.
    + apply IH; auto.
      * change (closed s2) with (closed s1). apply Hc1. auto.
      * intros k Hk Hk'. change (log s2) with (log s1) in Hk'. apply Hc1 in Hk as [Hk|Hk].
        -- apply Hstk; auto.
        -- exfalso. apply Hk'. rewrite (I_log _ _ HI1), !in_app_iff. auto.
      * intros j u Hj Hja. destruct (Hsplit j u Hj) as [Hj'|[-> ->]].
        -- destruct (Hpre j u Hj' Hja) as (O1 & O2 & O3). split; [auto|]. split.
           ++ intros q Hq. destruct (O2 q Hq). split; [now apply Hmono|lia].
           ++ intros Hg. rewrite O3 by auto. reflexivity.
        -- split; auto. split.
           ++ intros q Hq. assert (q = p) by congruence. subst. split; auto. lia.
           ++ intros ->. now rewrite orb_true_r.
      * destruct (Nat.max_spec (rk p) rank) as [[_ ->]|[_ ->]]; auto. right. eauto 10.
      * intros H. apply orb_true_iff in H as [H|H]; auto. eauto.
  - assert (Er : 0 = match parent g v with Some p => rk p | None => 0 end) by now rewrite Ep.
    assert (En : false = match parent g v with Some p => gf p | None => false end) by now rewrite Ep.
    destruct (set_var_okv s v _ _ Er En) as [Kv Ku].
    assert (HI2 := set_var_inv _ s v _ _ Er En HI).
    set (s2 := set_vng (set_vrank s v 0) v false) in *.
    assert (Eng : need_grad_state g s2 v = ng_of g gf v) by apply Kv. rewrite Eng.
    change (Nat.max 0 rank) with rank.
    specialize (IH (pre ++ [v]) s2 C rank (ng || ng_of g gf v) Hins' HI2).
    rewrite Hlen in IH.
    assert (Pre2 : forall j u, nth_error (pre ++ [v]) j = Some u -> f_active fd j = true ->
      okv s2 u /\ (forall q, parent g u = Some q -> In q (log s2) /\ rk q <= rank) /\
      (ng_of g gf u = true -> ng || ng_of g gf v = true)).
    { intros j u Hj Hja. destruct (Hsplit j u Hj) as [Hj'|[-> ->]].
      - destruct (Hpre j u Hj' Hja) as (O1 & O2 & O3). split; auto. split; auto.
        intros Hg. rewrite O3 by auto. reflexivity.
      - split; auto. split; [intros q Hq; congruence|]. intros ->. now rewrite orb_true_r. }
    assert (Ng2 : ng || ng_of g gf v = true -> exists i u, reads g f i u /\ ng_of g gf u = true).
    { intros H. apply orb_true_iff in H as [H|H]; auto. eauto. }
    specialize (IH Hfc Hfl Hstk Pre2 Hrank Ng2).
    destruct (visit_inputs g rec fd (S (length pre)) post rank (ng || ng_of g gf v) s2)
      as [[[s3 rank3] ng3]|e]; auto.
    destruct IH as (C2 & J1 & J2 & J3 & J4 & J5 & J6).
    exists C2. split; auto. split; auto. split; auto.
Qed.

Lemma visit_ok : forall n f s C, lvl f < n -> visit_pre C f s ->
  visit_post C f s (visit g cb cng n f s).
Proof.
  induction n as [|n IHn]; intros f s C Hn (HI & Hnf & Hcl & Hstk); [lia|]. cbn [visit].
  destruct (Hfun f Hnf) as (fd & Hf). rewrite Hf.
  assert (Hfl : ~ In f (log s)) by (intros H; apply Hcl; now apply (I_closed _ _ HI)).
  assert (HIc : Inv C (close s f)).
  { destruct HI. apply mkInv; cbn; auto. }
  assert (VI := visit_inputs_ok (visit g cb cng n) f fd Hf Hnf).
  specialize (VI ltac:(intros q s1 C1 Hq Hp; apply IHn; auto; lia)).
  specialize (VI (f_ins fd) [] (close s f) C 0 false eq_refl HIc ltac:(now left) Hfl).
  specialize (VI ltac:(intros k [->|Hk] Hk'; [lia|specialize (Hstk k Hk Hk'); lia])).
  specialize (VI ltac:(intros [|j] u H; discriminate) ltac:(now left) ltac:(discriminate)).
  cbn [length] in VI.
  destruct (visit_inputs g (visit g cb cng n) fd 0 (f_ins fd) 0 false (close s f))
    as [[[s1 rank] ng]|e]; [|exact VI].
  destruct VI as (C1 & J1 & J2 & J3 & J4 & J5 & J6 & J7 & J8).
  assert (Erank : S rank = rk f).
  { destruct (Hrk f fd Hf) as (R1 & R2 & R3).
    assert (Hup : forall i u q, reads g f i u -> parent g u = Some q -> rk q <= rank).
    { intros i u q (fd' & E1 & E2 & E3) Hq. rewrite E1 in Hf. injection Hf as ->.
      now apply (J6 i u E2 E3). }
    assert (Hpos : forall q qd, fun_at g q = Some qd -> 0 < rk q) by (intros q qd Hq; apply (Hrk q qd Hq)).
    destruct R1 as [R1|(i & u & q & Hr & Hq & R1)].
    - destruct J7 as [->|(i & u & q & Hr & Hq & ->)]; [lia|].
      specialize (R3 _ _ _ Hr Hq). destruct (wf_parent g Hwf u q Hq) as (qd & Hqd & _).
      specialize (Hpos q qd Hqd). lia.
    - specialize (Hup _ _ _ Hr Hq). destruct J7 as [->|(i' & u' & q' & Hr' & Hq' & ->)].
      + destruct (wf_parent g Hwf u q Hq) as (qd & Hqd & _). specialize (Hpos q qd Hqd). lia.
      + specialize (R3 _ _ _ Hr' Hq'). lia. }
  assert (Eng : ng = gf f).
  { destruct (Hgf f fd Hf) as [G1 G2]. destruct (gf f) eqn:Eg.
    - destruct (G1 eq_refl) as (i & u & (fd' & E1 & E2 & E3) & Hu).
      rewrite E1 in Hf. injection Hf as ->. now apply (J6 i u E2 E3).
    - destruct ng; auto. specialize (G2 (J8 eq_refl)). discriminate. }
  assert (Hfl1 : ~ In f (log s1)).
  { rewrite (I_log _ _ J1), !in_app_iff. rewrite (I_log _ _ HI), in_app_iff in Hfl. tauto. }
  set (s2 := set_frank (set_fng s1 f ng) f (S rank)).
  assert (I2 : Inv (C ++ C1) s2).
  { destruct J1. apply mkInv; cbn; auto.
    - intros k Hk. destruct (Nat.eq_dec k f) as [->|Hne]; [contradiction|].
      rewrite upd_other; auto.
    - intros k Hk. destruct (Nat.eq_dec k f) as [->|Hne]; [contradiction|].
      rewrite upd_other; auto. }
  assert (Vf := verify_sba g fd s2).
  destruct (verify g s2 fd) as [s3|e].
  2:{ destruct Vf as (-> & j & Hj & Hm). split; auto. exists f, fd, j. auto. }
  destruct Vf as (V1 & V2 & V3 & V4 & V5 & V6 & V7 & V8 & V9 & V10 & V11).
  assert (Ok3 : forall v, okv s2 v -> okv s3 v).
  { intros v [E1 E2]. unfold okv, need_grad_state in *. now rewrite V2, V3. }
  assert (I3 : Inv (C ++ C1) s3).
  { destruct I2. apply mkInv; rewrite ?V1, ?V2, ?V3, ?V4, ?V5, ?V6, ?V7, ?V8, ?V9, ?V10, ?V11;
      auto. intros k i v Hk Hr. apply Ok3. eauto. }
  assert (Rd : forall i u, reads g f i u -> nth_error (f_ins fd) i = Some u /\ f_active fd i = true).
  { intros i u (fd' & E1 & E2 & E3). rewrite E1 in Hf. injection Hf as ->. auto. }
  destruct (callback_ok (C ++ C1) s3 f fd I3 Hf Hnf) as (s4 & Hs4 & I4 & Hc4 & Ho4).
  - rewrite V6. cbn. apply J3. left. now left.
  - rewrite V7. exact Hfl1.
  - intros i u q Hr Hq. rewrite V7. cbn. destruct (Rd i u Hr). now apply (J6 i u).
  - intros i u Hr. apply Ok3. destruct (Rd i u Hr). now apply (J6 i u).
  - rewrite V5. cbn. now rewrite upd_same.
  - rewrite V4. cbn. now rewrite upd_same.
  - rewrite Hs4. cbn. exists (C1 ++ [f]). rewrite app_assoc. split; auto.
    split; [rewrite in_app_iff; cbn; auto|]. split.
    { intros k. rewrite Hc4, V6. change (closed s2) with (closed s1). rewrite J3. cbn.
      rewrite in_app_iff. cbn. tauto. }
    split.
    { intros k. rewrite in_app_iff. intros [Hk|[<-|[]]]; auto. constructor. }
    intros v Hv. apply Ho4, Ok3. apply (J5 v Hv).
Qed.
End Invariant.
