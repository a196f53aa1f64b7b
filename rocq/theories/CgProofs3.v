(** forward and forward_all from the invariant; existence of values, ranks and
    gradient flags in acyclic graphs. *)
From Coq Require Import List Arith Bool Lia.
From Verif Require Import CgModel CgSpec CgProofs CgProofs2.
Import ListNotations.
Local Open Scope list_scope.

Section Exist.
Context {V : Type}.
Variable g : graph V.
Variable lvl : nat -> nat.
Hypothesis Hwf : wf g.
Hypothesis Hlvl : numbering g lvl.

Definition positions (fd : fn V) : list (nat * nat) :=
  combine (seq 0 (length (f_ins fd))) (f_ins fd).
Lemma in_positions fd i u : In (i, u) (positions fd) <-> nth_error (f_ins fd) i = Some u.
Proof.
  unfold positions. split; intros H.
  - apply In_nth_error in H as (n & Hn). rewrite combine_seq_nth in Hn.
    destruct (nth_error (f_ins fd) n) eqn:E; [|discriminate]. injection Hn as <- <-. auto.
  - apply nth_error_In with (n := i). rewrite combine_seq_nth, H. reflexivity.
Qed.

(** Gradient flags. *)
Fixpoint gfn (n f : nat) : bool :=
  match n with
  | 0 => false
  | S n =>
      match fun_at g f with
      | None => false
      | Some fd => existsb (fun iu => f_active fd (fst iu) && ng_of g (gfn n) (snd iu)) (positions fd)
      end
  end.
Lemma gfn_stable : forall n m f, lvl f < n -> lvl f < m -> gfn n f = gfn m f.
Proof.
  induction n as [|n IH]; intros [|m] f Hn Hm; try lia. cbn.
  destruct (fun_at g f) as [fd|] eqn:Hf; auto.
  assert (K : forall iu, In iu (positions fd) ->
    (f_active fd (fst iu) && ng_of g (gfn n) (snd iu)) = (f_active fd (fst iu) && ng_of g (gfn m) (snd iu))).
  { intros [i u] Hi. apply in_positions in Hi. cbn [fst snd]. f_equal. unfold ng_of.
    destruct (v_need_grad (var_at g u)); auto. destruct (parent g u) as [q|] eqn:Hq; auto.
    assert (lvl q < lvl f) by (eapply Hlvl; eauto; now apply nth_error_In in Hi).
    apply IH; lia. }
  induction (positions fd) as [|x l IHl]; cbn; auto. rewrite K by now left.
  rewrite IHl; auto. intros iu Hi. apply K. now right.
Qed.
Definition gflag (f : nat) : bool := gfn (S (lvl f)) f.
Lemma gflag_ok : grad_flags g gflag.
Proof.
  intros f fd Hf. unfold gflag at 1. cbn [gfn]. rewrite Hf, existsb_exists.
  assert (K : forall i u, nth_error (f_ins fd) i = Some u -> ng_of g (gfn (lvl f)) u = ng_of g gflag u).
  { intros i u Hi. unfold ng_of. destruct (v_need_grad (var_at g u)); auto.
    destruct (parent g u) as [q|] eqn:Hq; auto.
    assert (lvl q < lvl f) by (eapply Hlvl; eauto; now apply nth_error_In in Hi).
    unfold gflag. apply gfn_stable; lia. }
  split.
  - intros ([i u] & Hi & H). apply in_positions in Hi. cbn in H. apply andb_true_iff in H as [Ha H].
    exists i, u. split; [exists fd; auto|]. now rewrite <- (K i).
  - intros (i & u & (fd' & E & Hi & Ha) & H). rewrite E in Hf. injection Hf as ->.
    exists (i, u). split; [now apply in_positions|]. cbn. now rewrite Ha, (K i).
Qed.

(** Ranks. *)
Fixpoint rkn (n f : nat) : nat :=
  match n with
  | 0 => 1
  | S n =>
      match fun_at g f with
      | None => 1
      | Some fd =>
          S (list_max (map (fun iu => if f_active fd (fst iu)
                                      then match parent g (snd iu) with Some q => rkn n q | None => 0 end
                                      else 0) (positions fd)))
      end
  end.
Lemma rkn_stable : forall n m f, lvl f < n -> lvl f < m -> rkn n f = rkn m f.
Proof.
  induction n as [|n IH]; intros [|m] f Hn Hm; try lia. cbn [rkn].
  destruct (fun_at g f) as [fd|] eqn:Hf; auto. do 2 f_equal. apply map_ext_in.
  intros [i u] Hi. apply in_positions in Hi. cbn [fst snd]. destruct (f_active fd i); auto.
  destruct (parent g u) as [q|] eqn:Hq; auto.
  assert (lvl q < lvl f) by (eapply Hlvl; eauto; now apply nth_error_In in Hi).
  apply IH; lia.
Qed.
Definition rank_of (f : nat) : nat := rkn (S (lvl f)) f.
Lemma list_max_in l : list_max l = 0 \/ In (list_max l) l.
Proof.
  induction l as [|x l IH]; cbn; auto. fold (list_max l).
  destruct (Nat.max_spec x (list_max l)) as [[H ->]|[H ->]]; auto.
  destruct IH as [E|]; [lia|auto].
Qed.
Lemma list_max_ge l x : In x l -> x <= list_max l.
Proof.
  induction l as [|y l IH]; cbn; [tauto|]. fold (list_max l).
  intros [->|H]; [lia|]. specialize (IH H). lia.
Qed.
Lemma rank_of_ok : ranks g rank_of.
Proof.
  intros f fd Hf.
  set (l := map (fun iu => if f_active fd (fst iu)
                           then match parent g (snd iu) with Some q => rkn (lvl f) q | None => 0 end
                           else 0) (positions fd)).
  assert (Er : rank_of f = S (list_max l)) by (unfold rank_of; cbn [rkn]; now rewrite Hf).
  rewrite Er.
  assert (K : forall i u q, nth_error (f_ins fd) i = Some u -> parent g u = Some q ->
            rkn (lvl f) q = rank_of q).
  { intros i u q Hi Hq.
    assert (lvl q < lvl f) by (eapply Hlvl; eauto; now apply nth_error_In in Hi).
    unfold rank_of. apply rkn_stable; lia. }
  split; [|split; [lia|]].
  - destruct (list_max_in l) as [->|Hin]; auto.
    unfold l in Hin at 2. apply in_map_iff in Hin as ([i u] & E & Hi). apply in_positions in Hi.
    cbn [fst snd] in E. destruct (f_active fd i) eqn:Ha; [|left; lia].
    destruct (parent g u) as [q|] eqn:Hq; [|left; lia].
    right. exists i, u, q. split; [exists fd; auto|]. split; auto.
    rewrite <- E. f_equal. eapply K; eauto.
  - intros i u q (fd' & E & Hi & Ha) Hq. rewrite E in Hf. injection Hf as ->.
    rewrite <- (K i u q Hi Hq).
    assert (In (rkn (lvl f) q) l).
    { unfold l. apply in_map_iff. exists (i, u). cbn [fst snd]. rewrite Ha, Hq. split; auto.
      now apply in_positions. }
    apply list_max_ge in H. lia.
Qed.

(** Values: every acyclic graph whose functions return as many values as they have
    outputs has exactly the values [solution] describes. *)
Fixpoint valn (leaf : nat -> V) (n v : nat) : V :=
  match n with
  | 0 => leaf v
  | S n =>
      match parent g v with
      | None => leaf v
      | Some f =>
          match fun_at g f with
          | None => leaf v
          | Some fd =>
              let ys := f_op fd (args (valn leaf n) fd) in
              match find (fun ox => Nat.eqb (fst ox) v) (combine (f_outs fd) ys) with
              | Some (_, y) => y
              | None => leaf v
              end
          end
      end
  end.
Lemma args_ext (a b : nat -> V) fd :
  (forall u, In u (f_ins fd) -> a u = b u) -> args a fd = args b fd.
Proof.
  intros H. unfold args. apply map_ext_in. intros [i u] Hi. apply in_positions in Hi.
  cbn. destruct (f_active fd i); auto. f_equal. apply H. now apply nth_error_In in Hi.
Qed.
Definition vlvl (v : nat) : nat := match parent g v with None => 0 | Some f => S (lvl f) end.
Lemma valn_stable leaf : forall n m v, vlvl v <= n -> vlvl v <= m -> valn leaf n v = valn leaf m v.
Proof.
  unfold vlvl. induction n as [|n IH]; intros m v Hn Hm; cbn.
  - destruct (parent g v) eqn:Hp; [lia|]. destruct m; cbn; auto. now rewrite Hp.
  - destruct (parent g v) as [f|] eqn:Hp.
    + destruct m as [|m]; [lia|]. cbn. rewrite Hp. destruct (fun_at g f) as [fd|] eqn:Hf; auto.
      rewrite (args_ext (valn leaf n) (valn leaf m)); auto.
      intros u Hu. destruct (parent g u) as [q|] eqn:Hq.
      * assert (lvl q < lvl f) by (eapply Hlvl; eauto). apply IH; rewrite Hq; lia.
      * apply IH; rewrite Hq; lia.
    + destruct m; cbn; auto. now rewrite Hp.
Qed.
Definition value (leaf : nat -> V) (v : nat) : V := valn leaf (vlvl v) v.
Lemma find_combine (outs : list nat) (ys : list V) (leaf : nat -> V) :
  NoDup outs -> length ys = length outs ->
  map (fun v => match find (fun ox => Nat.eqb (fst ox) v) (combine outs ys) with
                | Some (_, y) => y | None => leaf v end) outs = ys.
Proof.
  revert ys. induction outs as [|o outs IH]; intros [|y ys] Hn Hl; cbn in *; try lia; auto.
  apply NoDup_cons_iff in Hn as [Ho Hn]. rewrite Nat.eqb_refl. f_equal.
  etransitivity; [|apply (IH ys); [assumption|lia]]. apply map_ext_in. intros v Hv.
  destruct (Nat.eqb_spec o v) as [->|]; [contradiction|reflexivity].
Qed.
Lemma value_ok leaf :
  (forall f fd xs, fun_at g f = Some fd -> length (f_op fd xs) = length (f_outs fd)) ->
  solution g leaf (value leaf).
Proof.
  intros Hlen. split.
  - intros v Hv. unfold value, vlvl. unfold is_leaf in Hv. rewrite Hv. reflexivity.
  - intros f fd Hf.
    assert (Hnd : NoDup (f_outs fd)) by (eapply NoDup_map_inv; eapply wf_out_arrays; eauto).
    set (n := lvl f).
    assert (Ea : args (value leaf) fd = args (valn leaf n) fd).
    { apply args_ext. intros u Hu. unfold value. apply valn_stable; auto. unfold vlvl.
      destruct (parent g u) as [q|] eqn:Hq; [|lia].
      assert (lvl q < lvl f) by (eapply Hlvl; eauto). unfold n. lia. }
    rewrite Ea.
    symmetry. etransitivity;
      [|apply (find_combine (f_outs fd) (f_op fd (args (valn leaf n) fd)) leaf); [assumption|eapply Hlen; eauto]].
    apply map_ext_in. intros v Hv.
    destruct (wf_outs g Hwf f fd v Hf Hv) as [_ Hp].
    unfold value, vlvl. rewrite Hp. cbn [valn]. rewrite Hp, Hf. reflexivity.
Qed.
Lemma solution_unique leaf a b : solution g leaf a -> solution g leaf b -> forall v, a v = b v.
Proof.
  intros [A1 A2] [B1 B2].
  assert (K : forall n v, vlvl v <= n -> a v = b v).
  { unfold vlvl. induction n as [|n IH]; intros v Hv; destruct (parent g v) as [f|] eqn:Hp; try lia;
      try (rewrite A1, B1 by auto; reflexivity).
    destruct (wf_parent g Hwf v f Hp) as (fd & Hf & Hin).
    assert (E : map a (f_outs fd) = map b (f_outs fd)).
    { rewrite <- (A2 f), <- (B2 f) by auto. f_equal. apply args_ext. intros u Hu. apply IH.
      destruct (parent g u) as [q|] eqn:Hq; [|lia].
      assert (lvl q < lvl f) by (eapply Hlvl; eauto). lia. }
    clear -E Hin. induction (f_outs fd) as [|o l IHl]; cbn in *; [contradiction|].
    injection E as E1 E2. destruct Hin as [->|]; auto. }
  intros v. now apply (K (vlvl v)).
Qed.
End Exist.

Section Calls.
Context {V : Type}.

Lemma needs_trans (g : graph V) p q f : needs g p q -> needs g q f -> needs g p f.
Proof. induction 1; intros; auto. eapply needs_step; eauto. Qed.
Lemma needs_last (g : graph V) p f :
  needs g p f -> f = p \/ exists h i u, needs g p h /\ reads g h i u /\ parent g u = Some f.
Proof.
  induction 1 as [p|p i u q f Hr Hq Hn IH]; auto. right.
  destruct IH as [->|(h & j & w & H1 & H2 & H3)].
  - exists p, i, u. split; [constructor|auto].
  - exists h, j, w. split; auto. eapply needs_step; eauto.
Qed.
Lemma needs_reads (g : graph V) p f i u q :
  needs g p f -> reads g f i u -> parent g u = Some q -> needs g p q.
Proof. intros. eapply needs_trans; eauto. eapply needs_step; eauto. constructor. Qed.
Lemma needs_fun (g : graph V) p f : wf g -> (exists fd, fun_at g p = Some fd) -> needs g p f ->
  exists fd, fun_at g f = Some fd.
Proof.
  intros Hwf Hp. induction 1; auto. apply IHneeds.
  destruct (wf_parent g Hwf u q H0) as (qd & E & _). eauto.
Qed.

(** What may be kept through a call that asks for [y]. *)
Definition keepable (g : graph V) (cb : bool) (need : nat -> Prop) (gf : nat -> bool) (y v : nat) : Prop :=
  v = y \/ v_persistent (var_at g v) = true \/ is_leaf g v \/
  (cb = false /\ v_recompute (var_at g v) = false /\
   (grad_reads_input g need gf v \/ grad_reads_output g need gf v)).

Lemma forward_ok (g : graph V) cb cng leaf vals gf (s : st V) y p (keep : nat -> Prop) :
  wf g -> acyclic g -> solution g leaf vals -> grad_flags g gf ->
  parent g y = Some p ->
  (forall v, keep v -> keepable g cb (needs g p) gf y v) ->
  no_hazard g (needs g p) keep -> masked_ok g (needs g p) s ->
  loaded g (needs g p) keep leaf s ->
  match forward g cb cng y s with
  | Ok s' =>
      NoDup (log s') /\ (forall f, In f (log s') <-> needs g p f) /\ in_order g (log s') /\
      (forall v, is_var g v -> keep v -> (forall q, parent g v = Some q -> needs g p q) ->
         mem s' (arr g v) = Some (vals v)) /\
      (forall f, needs g p f -> fng s' f = gf f) /\
      (forall rk, ranks g rk -> forall f, needs g p f -> frank s' f = rk f) /\
      (forall f i v, needs g p f -> reads g f i v -> need_grad_state g s' v = ng_of g gf v)
  | Err e => e = EVerify /\ modifies g (needs g p)
  end.
Proof.
  intros Hwf (lvl & Hlvl) (Hleaf & Hsol) Hgf Hy Hkeep Hhaz Hmask Hload.
  unfold forward, forward_from. rewrite Hy.
  destruct (wf_parent g Hwf y p Hy) as (pd & Hpd & Hyo).
  set (s1 := fresh_callback (unclosed s)).
  assert (Lv : lvl p < length (g_fns g)) by (eapply fun_lvl; eauto).
  assert (Keep' : forall v, keep v ->
    (forall h hd, needs g p h -> fun_at g h = Some hd -> ~ In v (f_ins hd)) \/
    v_persistent (var_at g v) = true \/ is_leaf g v \/
    (cb = false /\ v_recompute (var_at g v) = false /\
     (grad_reads_input g (needs g p) gf v \/
      (grad_reads_output g (needs g p) gf v /\
       ((forall q, parent g v = Some q -> ~ In q []) \/
        exists q qd, parent g v = Some q /\ fun_at g q = Some qd /\ f_outs qd = [v]))))).
  { intros v Hv. destruct (Hkeep v Hv) as [->|[|[|(K1 & K2 & K3)]]]; auto.
    - left. intros h hd Hh Hhd Hin.
      assert (lvl p < lvl h) by (eapply Hlvl; eauto).
      apply (needs_lvl g lvl Hlvl) in Hh as [->|]; lia.
    - right. right. right. split; auto. split; auto. destruct K3; auto. }
  assert (Fn : forall f, needs g p f -> exists fd, fun_at g f = Some fd).
  { intros f Hf. eapply needs_fun; eauto. }
  assert (Nc : forall f i u q, needs g p f -> reads g f i u -> parent g u = Some q -> needs g p q)
    by (intros; eapply needs_reads; eauto).
  assert (Main : forall rk, ranks g rk ->
     visit_post g vals (needs g p) keep gf rk [] s [] p s1
       (visit g cb cng (length (g_fns g)) p s1)).
  { intros rk Hrk.
    apply (visit_ok g cb cng lvl vals (needs g p) keep gf rk [] s); auto;
      try (intros k kd b []; fail).
    split; [|split; [constructor|split; [intros []|intros k []]]].
    apply mkInv; cbn; auto; try (intros; contradiction).
    - constructor.
    - intros l1 f l2 i u q E. now destruct l1.
    - intros v Hv Hprod Hwant. unfold produced in Hprod.
      destruct (parent g v) as [q|] eqn:Hq; [destruct Hprod|].
      rewrite Hleaf by auto. apply Hload; auto.
      destruct Hwant as [|(h & j & H1 & H2 & _)]; eauto. }
  assert (M0 := Main _ (rank_of_ok g lvl Hlvl)).
  unfold visit_post in Main, M0.
  destruct (visit g cb cng (length (g_fns g)) p s1) as [s'|e]; [|exact M0].
  destruct M0 as (C & HI & HpC & Hcl & HC & _). cbn in HI.
  assert (Elog := I_log _ _ _ _ _ _ _ _ _ _ HI). cbn in Elog.
  assert (Hin : forall f, In f (log s') <-> needs g p f).
  { intros f. rewrite Elog. split; [apply HC|]. intros Hf.
    rewrite <- Elog. eapply needs_in; eauto using I_order. rewrite Elog. auto. }
  split; [apply (I_nodup _ _ _ _ _ _ _ _ _ _ HI)|]. split; auto.
  split; [apply (I_order _ _ _ _ _ _ _ _ _ _ HI)|]. split; [|split; [|split]].
  - intros v Hv Hk Hprod. apply (I_mem _ _ _ _ _ _ _ _ _ _ HI); auto.
    unfold produced. destruct (parent g v) as [q|]; auto. apply Hin. now apply Hprod.
  - intros f Hf. apply (I_fng _ _ _ _ _ _ _ _ _ _ HI). now apply Hin.
  - intros rk Hrk f Hf. destruct (Main rk Hrk) as (C2 & HI2 & _).
    apply (I_frank _ _ _ _ _ _ _ _ _ _ HI2). now apply Hin.
  - intros f i v Hf Hr. apply (I_okv _ _ _ _ _ _ _ _ _ _ HI f i v); auto. now apply Hin.
Qed.

(** forward_loop on a graph whose requested variables are persistent. *)
Definition asked (g : graph V) (ys : list nat) (f : nat) : Prop :=
  exists y p, In y ys /\ parent g y = Some p /\ needs g p f.

Definition keepable_all (g : graph V) (cb : bool) (need : nat -> Prop) (gf : nat -> bool) (v : nat) : Prop :=
  v_persistent (var_at g v) = true \/ is_leaf g v \/
  (cb = false /\ v_recompute (var_at g v) = false /\
   (grad_reads_input g need gf v \/
    (grad_reads_output g need gf v /\
     exists p pd, parent g v = Some p /\ fun_at g p = Some pd /\ f_outs pd = [v]))).

Lemma forward_loop_ok (g : graph V) cb cng leaf vals gf rk (s0 : st V) ys (keep : nat -> Prop) lvl :
  wf g -> numbering g lvl -> solution g leaf vals -> grad_flags g gf -> ranks g rk ->
  (forall y, In y ys -> v_persistent (var_at g y) = true) ->
  (forall v, keep v -> keepable_all g cb (asked g ys) gf v) ->
  no_hazard g (asked g ys) keep -> masked_ok g (asked g ys) s0 ->
  forall rest done s L,
  ys = done ++ rest ->
  Inv g vals (asked g ys) keep gf rk L s0 [] (fresh_callback s) ->
  (forall k, In k (closed s) <-> In k L) ->
  (forall f, In f L <-> asked g done f) ->
  match forward_loop g cb cng rest s with
  | Ok s' => exists L', Inv g vals (asked g ys) keep gf rk L' s0 [] (fresh_callback s') /\
               (forall f, In f L' <-> asked g ys f)
  | Err e => e = EVerify /\ modifies g (asked g ys)
  end.
Proof.
  intros Hwf Hlvl (Hleaf & Hsol) Hgf Hrk Hpers Hkeep Hhaz Hmask.
  assert (Fn : forall f, asked g ys f -> exists fd, fun_at g f = Some fd).
  { intros f (y & p & Hy & Hp & Hf). eapply needs_fun; eauto.
    destruct (wf_parent g Hwf y p Hp) as (pd & E & _). eauto. }
  assert (Nc : forall f i u q, asked g ys f -> reads g f i u -> parent g u = Some q -> asked g ys q).
  { intros f i u q (y & p & Hy & Hp & Hf) Hr Hq. exists y, p. split; auto. split; auto.
    eapply needs_reads; eauto. }
  induction rest as [|y rest IH]; intros done s L Hys HI Hcl HL; cbn [forward_loop].
  { exists L. rewrite app_nil_r in Hys. subst done. auto. }
  assert (Hyin : In y ys) by (rewrite Hys, in_app_iff; cbn; auto).
  assert (Hys' : ys = (done ++ [y]) ++ rest) by now rewrite <- app_assoc.
  destruct (parent g y) as [p|] eqn:Hp.
  2:{ apply (IH (done ++ [y]) s L); auto. intros f. rewrite HL. split.
      - intros (z & q & Hz & R). exists z, q. rewrite in_app_iff. tauto.
      - intros (z & q & Hz & Hq & R). exists z, q.
        apply in_app_iff in Hz as [Hz|[<-|[]]]; [tauto|congruence]. }
  destruct (mem_nat p (closed s)) eqn:Em.
  { apply mem_nat_true in Em. apply (IH (done ++ [y]) s L); auto. intros f. rewrite HL. split.
    - intros (z & q & Hz & R). exists z, q. rewrite in_app_iff. tauto.
    - intros (z & q & Hz & Hq & Hf).
      apply in_app_iff in Hz as [Hz|[<-|[]]]; [exists z, q; tauto|].
      assert (q = p) by congruence. subst q. apply HL.
      assert (Ho := I_order _ _ _ _ _ _ _ _ _ _ HI). cbn in Ho.
      assert (El := I_log _ _ _ _ _ _ _ _ _ _ HI). cbn in El. rewrite app_nil_r in El.
      rewrite <- El. eapply needs_in; eauto. rewrite El. now apply Hcl. }
  apply mem_nat_false in Em.
  unfold forward_from. rewrite Hp.
  destruct (wf_parent g Hwf y p Hp) as (pd & Hpd & Hyo).
  assert (Lv : lvl p < length (g_fns g)) by (eapply fun_lvl; eauto).
  assert (El := I_log _ _ _ _ _ _ _ _ _ _ HI). cbn in El. rewrite app_nil_r in El.
  assert (HL0 : forall k kd b, In k L -> fun_at g k = Some kd -> f_outs kd = [b] ->
     v_persistent (var_at g b) = true \/
     exists h hd, In h L /\ fun_at g h = Some hd /\ In b (f_ins hd)).
  { intros k kd b Hk Hkd Hb. apply HL in Hk as (z & q & Hz & Hq & Hn).
    assert (Out : forall w, parent g w = Some k -> w = b).
    { intros w Hw. destruct (wf_parent g Hwf w k Hw) as (kd' & E & Hin). rewrite E in Hkd.
      injection Hkd as ->. rewrite Hb in Hin. destruct Hin as [->|[]]; auto. }
    destruct (needs_last g q k Hn) as [->|(h & i & u & H1 & (hd & R1 & R2 & R3) & H3)].
    - left. rewrite <- (Out z Hq). apply Hpers. rewrite Hys, in_app_iff. auto.
    - right. exists h, hd. split; [apply HL; exists z, q; auto|]. split; auto.
      rewrite <- (Out u H3). now apply nth_error_In in R2. }
  assert (Keep' : forall v, keep v ->
    (forall h hd, asked g ys h -> fun_at g h = Some hd -> ~ In v (f_ins hd)) \/
    v_persistent (var_at g v) = true \/ is_leaf g v \/
    (cb = false /\ v_recompute (var_at g v) = false /\
     (grad_reads_input g (asked g ys) gf v \/
      (grad_reads_output g (asked g ys) gf v /\
       ((forall q, parent g v = Some q -> ~ In q L) \/
        exists q qd, parent g v = Some q /\ fun_at g q = Some qd /\ f_outs qd = [v]))))).
  { intros v Hv. destruct (Hkeep v Hv) as [|[|(K1 & K2 & K3)]]; auto.
    right. right. right. split; auto. split; auto. destruct K3 as [|[]]; auto. }
  assert (VP := visit_ok g cb cng lvl vals (asked g ys) keep gf rk L s0 Hwf Hlvl Hsol Nc Fn Hhaz
                 Hmask Hgf Hrk HL0 Keep' (length (g_fns g)) p (fresh_callback s) [] Lv).
  assert (Pre : visit_pre g lvl vals (asked g ys) keep gf rk L s0 [] p (fresh_callback s)).
  { split; auto. split; [exists y, p; split; auto; split; auto; constructor|]. split; auto.
    intros k Hk Hk'. exfalso. apply Hk'. cbn. rewrite El. now apply Hcl. }
  specialize (VP Pre). unfold visit_post in VP. cbn [app] in VP.
  destruct (visit g cb cng (length (g_fns g)) p (fresh_callback s)) as [s1|e]; auto.
  destruct VP as (C & HI1 & HpC & Hcl1 & HC & Hok).
  assert (El1 := I_log _ _ _ _ _ _ _ _ _ _ HI1).
  apply (IH (done ++ [y]) s1 (L ++ C)); auto.
  - destruct HI1. apply mkInv; cbn; auto; try (intros; contradiction).
    now rewrite app_nil_r.
  - intros k. rewrite Hcl1, in_app_iff. cbn. rewrite Hcl. tauto.
  - intros f. rewrite in_app_iff, HL. split.
    + intros [(z & q & Hz & R)|Hf].
      * exists z, q. rewrite in_app_iff. tauto.
      * exists y, p. rewrite in_app_iff. cbn. split; auto.
    + intros (z & q & Hz & Hq & Hf). apply in_app_iff in Hz as [Hz|[<-|[]]].
      * left. exists z, q. auto.
      * assert (q = p) by congruence. subst q.
        assert (Hfl : In f (log s1)).
        { eapply needs_in; eauto using I_order. rewrite El1, in_app_iff. auto. }
        rewrite El1, in_app_iff in Hfl. destruct Hfl as [Hfl|]; auto. left. now apply HL.
Qed.
End Calls.
