(** C30: settings scopes nest.  C40: the scopes of graph_def. *)
From Coq Require Import List Arith Bool Lia.
From Verif Require Import ScopeModel.
Import ListNotations.
Local Open Scope list_scope.

(** * C30 *)
Section C30.
Context {ctx : Type}.

(** The setting a scope is about. *)
Definition setting_of (s : scope ctx) (st : settings ctx) : ctx + bool :=
  match s with
  | CtxScope _ => inl (s_ctx st)
  | NoGrad _ => inr (s_no_grad st)
  | Auto _ => inr (s_auto st)
  | Recompute _ => inr (s_recompute st)
  end.

Definition kind (s : scope ctx) : nat :=
  match s with CtxScope _ => 0 | NoGrad _ => 1 | Auto _ => 2 | Recompute _ => 3 end.

(** Programs that change settings only through scopes, and what they see when every
    setting is the one of the innermost enclosing scope. *)
Fixpoint scopes_only (p : prog ctx) : Prop :=
  match p with
  | Observe | Raise _ => True
  | SetDefaultContext _ | SetAuto _ | SetRecompute _ => False
  | Seq p q | Try p q => scopes_only p /\ scopes_only q
  | With _ p => scopes_only p
  end.
Definition override (s : scope ctx) (v : @view ctx) : @view ctx :=
  let '(c, n, a, r) := v in
  match s with CtxScope c => (c, n, a, r) | NoGrad n => (c, n, a, r) | Auto a => (c, n, a, r) | Recompute r => (c, n, a, r) end.
Fixpoint sees (p : prog ctx) (v : @view ctx) : list (@view ctx) * outcome :=
  match p with
  | Observe => ([v], Done)
  | Raise n => ([], Raised (User n))
  | SetDefaultContext _ | SetAuto _ | SetRecompute _ => ([], Done)
  | Seq p q => match sees p v with (o, Done) => let (o', r) := sees q v in (o ++ o', r) | x => x end
  | With s p => sees p (override s v)
  | Try p q => match sees p v with (o, Raised _) => let (o', r) := sees q v in (o ++ o', r) | x => x end
  end.

Lemma settings_eta (st : settings ctx) :
  {| s_ctx := s_ctx st; s_level := s_level st; s_no_grad := s_no_grad st; s_auto := s_auto st; s_recompute := s_recompute st |} = st.
Proof. destruct st; reflexivity. Qed.
Lemma look_enter s (st : settings ctx) : look (enter s st) = override s (look st).
Proof. destruct s; reflexivity. Qed.
Lemma leave_enter s (st : settings ctx) : leave s st (enter s st) = st.
Proof. destruct s, st; reflexivity. Qed.

Lemma run_sees p : scopes_only p -> forall st : settings ctx, run p st = (st, fst (sees p (look st)), snd (sees p (look st))).
Proof.
  induction p as [|n|c|b|b|p IHp q IHq|s p IHp|p IHp q IHq]; cbn; intros H st; try contradiction; auto.
  - destruct H as [H1 H2]. rewrite (IHp H1). destruct (sees p (look st)) as [o [|e]]; cbn; auto.
    rewrite (IHq H2). destruct (sees q (look st)); auto.
  - rewrite (IHp H). rewrite look_enter, leave_enter. auto.
  - destruct H as [H1 H2]. rewrite (IHp H1). destruct (sees p (look st)) as [o [|e]]; cbn; auto.
    rewrite (IHq H2). destruct (sees q (look st)); auto.
Qed.
Lemma run_level p : forall st : settings ctx, s_level (fst (fst (run p st))) = s_level st.
Proof.
  induction p as [|n|c|b|b|p IHp q IHq|s p IHp|p IHp q IHq]; cbn; intros st; auto.
  - destruct (s_level st =? 0); auto.
  - specialize (IHp st). destruct (run p st) as [[st' o] [|e]]; cbn in *; auto.
    specialize (IHq st'). destruct (run q st') as [[st'' o'] r]; cbn in *. congruence.
  - specialize (IHp (enter s st)). destruct (run p (enter s st)) as [[st' o] r]; cbn in *.
    destruct s; cbn in *; try congruence. rewrite IHp. reflexivity.
  - specialize (IHp st). destruct (run p st) as [[st' o] [|e]]; cbn in *; auto.
    specialize (IHq st'). destruct (run q st') as [[st'' o'] r]; cbn in *. congruence.
Qed.
Lemma run_ctx p : forall st : settings ctx, s_level st <> 0 -> s_ctx (fst (fst (run p st))) = s_ctx st.
Proof.
  induction p as [|n|c|b|b|p IHp q IHq|s p IHp|p IHp q IHq]; cbn; intros st L; auto.
  - destruct (Nat.eqb_spec (s_level st) 0); [contradiction|auto].
  - specialize (IHp st L). pose proof (run_level p st) as Lp. destruct (run p st) as [[st' o] [|e]]; cbn in *; auto.
    specialize (IHq st'). destruct (run q st') as [[st'' o'] r]; cbn in *. rewrite IHq; congruence.
  - destruct s; cbn.
    + destruct (run p _) as [[st' o] r]; reflexivity.
    + specialize (IHp (enter (NoGrad b) st) L). cbn in IHp. destruct (run p _) as [[st' o] r]; cbn in *. auto.
    + specialize (IHp (enter (Auto b) st) L). cbn in IHp. destruct (run p _) as [[st' o] r]; cbn in *. auto.
    + specialize (IHp (enter (Recompute b) st) L). cbn in IHp. destruct (run p _) as [[st' o] r]; cbn in *. auto.
  - specialize (IHp st L). pose proof (run_level p st) as Lp. destruct (run p st) as [[st' o] [|e]]; cbn in *; auto.
    specialize (IHq st'). destruct (run q st') as [[st'' o'] r]; cbn in *. rewrite IHq; congruence.
Qed.
End C30.

(** Every with block of any of the four scopes, around any program and however it ends,
    leaves its own setting (and the nesting level) as it was before, the other settings as
    the program left them, and does not swallow or add exceptions or observations. *)
Theorem C30_restores :
  forall (ctx : Type) (s : scope ctx) (p : prog ctx) (st st' : settings ctx) o r,
  run (With s p) st = (st', o, r) ->
  setting_of s st' = setting_of s st /\ s_level st' = s_level st
  /\ exists st'', run p (enter s st) = (st'', o, r)
     /\ forall s' : scope ctx, kind s' <> kind s -> setting_of s' st' = setting_of s' st''.
Proof.
  intros ctx s p st st' o r H. pose proof (run_level (With s p) st) as L. rewrite H in L. cbn in L.
  cbn in H. destruct (run p (enter s st)) as [[st'' o'] r'] eqn:E. injection H as <- <- <-.
  split; [destruct s; reflexivity|]. split; [exact L|]. exists st''. split; [reflexivity|].
  intros s'. destruct s, s'; cbn; congruence.
Qed.
Print Assumptions C30_restores.

(** A program that changes settings only through scopes sees, at every point, the value of
    the innermost enclosing scope, and leaves all settings unchanged, whatever is raised and
    caught inside. *)
Theorem C30_lexical :
  forall (ctx : Type) (p : prog ctx) (st : settings ctx), scopes_only p ->
  run p st = (st, fst (sees p (look st)), snd (sees p (look st))).
Proof. exact (fun ctx p st H => run_sees p H st). Qed.
Print Assumptions C30_lexical.

(** set_default_context works outside all context scopes, and inside one no program can
    change the context of the scope. *)
Theorem C30_default_context :
  forall (ctx : Type) (c : ctx) (st : settings ctx),
  (s_level st = 0 -> exists st', run (SetDefaultContext c) st = (st', [], Done) /\ look st' = (c, s_no_grad st, s_auto st, s_recompute st))
  /\ (forall p c' o r st', run p (enter (CtxScope c') st) = (st', o, r) -> s_ctx st' = c')
  /\ (forall c', run (With (CtxScope c') (SetDefaultContext c)) st = (st, [], Raised Assertion)).
Proof.
  intros ctx c st. split; [|split].
  - intros H. cbn. rewrite H. cbn. eexists. split; reflexivity.
  - intros p c' o r st' H. pose proof (run_ctx p (enter (CtxScope c') st)) as L. rewrite H in L. apply L. cbn. lia.
  - intros c'. cbn. destruct st; reflexivity.
Qed.
Print Assumptions C30_default_context.

Definition st0 : settings nat := {| s_ctx := 0; s_level := 0; s_no_grad := false; s_auto := false; s_recompute := false |}.
Example C30_example :
  run (Seq (Try (With (CtxScope 1) (Seq (With (NoGrad true) (Seq Observe (With (CtxScope 2) (Seq Observe (Raise 7))))) Observe)) Observe)
           (Seq (SetDefaultContext 5) (With (Auto true) (Seq (SetAuto false) (Seq Observe (SetRecompute true)))))) st0
  = ({| s_ctx := 5; s_level := 0; s_no_grad := false; s_auto := false; s_recompute := true |},
     [(1, true, false, false); (2, true, false, false); (0, false, false, false); (5, false, false, false)], Done).
Proof. reflexivity. Qed.

(** Scopes that are not left in the opposite order of entering (threads, generators) do
    not restore: after both scopes are left the context of the first remains. *)
Theorem C30_interleaved_refuted :
  s_ctx (play [Enter 0 (CtxScope 1); Enter 1 (CtxScope 2); Leave 0; Leave 1] [] st0) = 1 /\ s_ctx st0 = 0.
Proof. split; reflexivity. Qed.
Print Assumptions C30_interleaved_refuted.

(** * C40 *)
Fixpoint no_graph (p : gprog) : Prop :=
  match p with
  | GCall | GRaise | GObserve => True
  | GSeq p q | GTry p q => no_graph p /\ no_graph q
  | GGraph _ _ => False
  | GName _ p | GModule _ p => no_graph p
  end.

Lemma set_nth_length {A} (l : list A) i x : length (set_nth l i x) = length l.
Proof. revert i. induction l as [|y l IH]; intros [|i]; cbn; auto. Qed.
Lemma nth_set_nth {A} (l : list A) i j x d : j < length l -> nth i (set_nth l j x) d = if i =? j then x else nth i l d.
Proof.
  revert i j. induction l as [|y l IH]; intros i j H; cbn in H; [lia|].
  destruct j as [|j], i as [|i]; cbn; auto. apply IH. lia.
Qed.
Definition ok (g : globals) : Prop := g_current g < length (g_builders g).
(** What a program without graph scopes keeps. *)
Definition kept (g g' : globals) : Prop :=
  g_current g' = g_current g /\ g_previous g' = g_previous g /\ length (g_builders g') = length (g_builders g).
Lemma kept_refl g : kept g g. Proof. repeat split. Qed.
Lemma kept_trans a b c : kept a b -> kept b c -> kept a c.
Proof. intros (A & B & C) (D & E & F). repeat split; congruence. Qed.
Lemma kept_set_b i b g : kept g (set_b i b g).
Proof. repeat split. apply set_nth_length. Qed.
Lemma kept_commit i g : kept g (commit i g).
Proof. repeat split. apply set_nth_length. Qed.
Lemma kept_dirty g : kept g (commit_if_dirty g).
Proof. unfold commit_if_dirty. destruct (b_dirty _); [apply kept_commit|apply kept_refl]. Qed.
Lemma grun_kept p : no_graph p -> forall g g' o r, grun p g = (g', o, r) -> kept g g'.
Proof.
  induction p as [| | |p IHp q IHq|n p IHp|n p IHp|m p IHp|p IHp q IHq]; cbn [no_graph grun]; intros H g g' o r E; try contradiction.
  - injection E as <- _ _. apply kept_set_b.
  - injection E as <- _ _. apply kept_refl.
  - injection E as <- _ _. apply kept_refl.
  - destruct H as [Hp Hq]. destruct (grun p g) as [[g1 o1] [|]] eqn:E1.
    + destruct (grun q g1) as [[g2 o2] r2] eqn:E2. injection E as <- _ _. eapply kept_trans; eauto.
    + injection E as <- _ _. eauto.
  - destruct (grun p _) as [[g1 o1] [|]] eqn:E1; injection E as <- _ _; apply IHp in E1; auto.
    + eapply kept_trans; [apply kept_set_b|]. eapply kept_trans; [exact E1|]. eapply kept_trans; [apply kept_dirty|apply kept_set_b].
    + eapply kept_trans; [apply kept_set_b|exact E1].
  - destruct (grun p _) as [[g1 o1] [|]] eqn:E1; injection E as <- _ _; apply IHp in E1; auto.
    + eapply kept_trans; [apply kept_set_b|]. eapply kept_trans; [exact E1|].
      destruct (tl _); [eapply kept_trans; [apply kept_set_b|apply kept_commit]|apply kept_set_b].
    + eapply kept_trans; [apply kept_set_b|exact E1].
  - destruct H as [Hp Hq]. destruct (grun p g) as [[g1 o1] [|]] eqn:E1.
    + injection E as <- _ _. eauto.
    + destruct (grun q g1) as [[g2 o2] r2] eqn:E2. injection E as <- _ _. eapply kept_trans; eauto.
Qed.

(** A graph scope without other graph scopes inside that ends normally restores the
    builder. *)
Theorem C40_graph_partial :
  forall name p g g' o, no_graph p -> grun (GGraph name p) g = (g', o, true) -> g_current g' = g_current g.
Proof.
  intros name p g g' o N H. cbn [grun] in H.
  match type of H with match grun p ?g1 with _ => _ end = _ => destruct (grun p g1) as [[g2 o2] [|]] eqn:E end; [|discriminate].
  injection H as <- _. apply (grun_kept p N) in E. destruct (kept_dirty g2) as (_ & D & _).
  cbn [g_current]. rewrite D. destruct E as (_ & E & _). rewrite E. reflexivity.
Qed.
Print Assumptions C40_graph_partial.

(** The name of the current builder is restored by a graph_name scope without graph scopes
    inside that ends normally. *)
Theorem C40_name_partial :
  forall name p g g' o, no_graph p -> g_current g < length (g_builders g) ->
  grun (GName name p) g = (g', o, true) ->
  g_current g' = g_current g /\ b_name (nth (g_current g') (g_builders g') b0) = b_name (nth (g_current g) (g_builders g) b0).
Proof.
  intros name p g g' o N K H. cbn [grun] in H.
  match type of H with match grun p ?g1 with _ => _ end = _ => destruct (grun p g1) as [[g2 o2] [|]] eqn:E end; [|discriminate].
  injection H as <- _. apply (grun_kept p N) in E.
  match type of E with kept ?a _ => assert (T : kept g (commit_if_dirty g2)) by
    (eapply kept_trans; [apply (kept_set_b (g_current g))|eapply kept_trans; [exact E|apply kept_dirty]]) end.
  destruct T as (T1 & _ & T3). split; [cbn; exact T1|]. cbn [set_b g_current g_builders].
  rewrite nth_set_nth by (rewrite T1, T3; exact K). rewrite Nat.eqb_refl. reflexivity.
Qed.
Print Assumptions C40_name_partial.

(** The stack of modules of the current builder is restored by every module scope that
    ends normally. *)
Fixpoint no_escape (p : gprog) : Prop :=
  match p with
  | GCall | GRaise | GObserve => True
  | GSeq p q => no_escape p /\ no_escape q
  | GGraph _ _ | GTry _ _ => False
  | GName _ p | GModule _ p => no_escape p
  end.
Lemma no_escape_graph p : no_escape p -> no_graph p.
Proof. induction p; cbn; tauto. Qed.
Definition stack_at (i : nat) (g : globals) := b_stack (get_b i g).
Lemma stack_set_b i b g : i < length (g_builders g) -> stack_at i (set_b i b g) = b_stack b.
Proof. intros H. unfold stack_at, get_b, set_b. cbn. rewrite nth_set_nth, Nat.eqb_refl; auto. Qed.
Lemma stack_commit i g : i < length (g_builders g) -> stack_at i (commit i g) = stack_at i g.
Proof. intros H. unfold commit. change (stack_at i (set_b i {| b_name := None; b_dirty := false; b_stack := b_stack (get_b i g) |} g) = stack_at i g). rewrite stack_set_b; auto. Qed.
Lemma stack_kept p : no_escape p -> forall g g' o, ok g -> grun p g = (g', o, true) -> stack_at (g_current g) g' = stack_at (g_current g) g.
Proof.
  induction p as [| | |p IHp q IHq|n p IHp|n p IHp|m p IHp|p IHp q IHq]; cbn [no_escape]; intros N g g' o K H; try contradiction.
  - cbn in H. injection H as <- _. rewrite stack_set_b by exact K. reflexivity.
  - discriminate.
  - cbn in H. injection H as <- _. reflexivity.
  - destruct N as [Np Nq]. cbn in H. destruct (grun p g) as [[g1 o1] [|]] eqn:E1; [|discriminate].
    destruct (grun q g1) as [[g2 o2] r2] eqn:E2. injection H as <- _ ->.
    pose proof (grun_kept p (no_escape_graph p Np) _ _ _ _ E1) as (C1 & _ & L1).
    assert (K1 : ok g1) by (unfold ok in *; rewrite C1, L1; exact K).
    apply IHp in E1; auto. apply IHq in E2; auto. rewrite C1 in E2. congruence.
  - cbn [grun] in H.
    match type of H with match grun p ?g1 with _ => _ end = _ => set (g1' := g1) in H; destruct (grun p g1') as [[g2 o2] [|]] eqn:E end; [|discriminate].
    injection H as <- _.
    pose proof (grun_kept p (no_escape_graph p N) _ _ _ _ E) as (C1 & _ & L1).
    assert (L0 : length (g_builders g1') = length (g_builders g)) by apply set_nth_length.
    assert (K1 : ok g1') by (unfold ok in *; rewrite L0; exact K).
    apply IHp in E; auto. change (g_current g1') with (g_current g) in *.
    assert (K2 : g_current g < length (g_builders g2)) by (rewrite L1, L0; exact K).
    assert (S : stack_at (g_current g) (commit_if_dirty g2) = stack_at (g_current g) g2).
    { unfold commit_if_dirty. destruct (b_dirty (get_b (g_current g2) g2)); auto. rewrite C1. apply stack_commit; auto. }
    destruct (kept_dirty g2) as (C2 & _ & L2). rewrite C2, C1. rewrite stack_set_b by (rewrite L2; exact K2).
    cbn [b_stack]. fold (stack_at (g_current g) (commit_if_dirty g2)). rewrite S, E. unfold g1'. rewrite stack_set_b by exact K. reflexivity.
  - cbn [grun] in H.
    match type of H with match grun p ?g1 with _ => _ end = _ => set (g1' := g1) in H; destruct (grun p g1') as [[g2 o2] [|]] eqn:E end; [|discriminate].
    injection H as <- _.
    pose proof (grun_kept p (no_escape_graph p N) _ _ _ _ E) as (C1 & _ & L1).
    assert (L0 : length (g_builders g1') = length (g_builders g)) by apply set_nth_length.
    assert (K1 : ok g1') by (unfold ok in *; rewrite L0; exact K).
    apply IHp in E; auto. change (g_current g1') with (g_current g) in *.
    assert (K2 : g_current g < length (g_builders g2)) by (rewrite L1, L0; exact K).
    assert (T : tl (b_stack (get_b (g_current g) g2)) = stack_at (g_current g) g).
    { fold (stack_at (g_current g) g2). rewrite E. unfold g1'. rewrite stack_set_b by exact K. reflexivity. }
    rewrite T. destruct (stack_at (g_current g) g) eqn:Sg.
    + rewrite stack_commit by (cbn; rewrite set_nth_length; exact K2). rewrite stack_set_b by exact K2. reflexivity.
    + rewrite stack_set_b by exact K2. reflexivity.
Qed.
Theorem C40_module_partial :
  forall m p g g' o, no_escape p -> g_current g < length (g_builders g) ->
  grun (GModule m p) g = (g', o, true) ->
  b_stack (nth (g_current g) (g_builders g') b0) = b_stack (nth (g_current g) (g_builders g) b0).
Proof. exact (fun m p g g' o N K H => stack_kept (GModule m p) N g g' o K H). Qed.
Print Assumptions C40_module_partial.

Definition g0 : globals := {| g_current := 0; g_previous := None; g_builders := [b0]; g_commits := [] |}.
Example C40_example :
  grun (GGraph (Some 7) (GSeq (GModule 3 GCall) GObserve)) g0
  = ({| g_current := 0; g_previous := Some 0; g_builders := [b0; b0]; g_commits := [(1, Some 7)] |}, [1], true).
Proof. reflexivity. Qed.

(** Nested graph scopes: there is one previous_graph_builder for all levels, so a graph
    scope with another one inside never gives the builder back. *)
Theorem C40_nested_refuted :
  forall n1 n2 p q r g g' o, no_graph p -> no_graph q -> no_graph r ->
  grun (GGraph n1 (GSeq p (GSeq (GGraph n2 q) r))) g = (g', o, true) ->
  g_current g < length (g_builders g) ->
  g_current g' = length (g_builders g) /\ g_current g' <> g_current g.
Proof.
  intros n1 n2 p q r g g' o Np Nq Nr H K.
  assert (G : g_current g' = length (g_builders g)); [|split; [exact G|lia]].
  cbn [grun] in H.
  match type of H with context[grun p ?g1] => set (g1' := g1) in H; destruct (grun p g1') as [[g2 o2] [|]] eqn:E end; [|discriminate].
  match type of H with context[grun q ?g1] => set (g3 := g1) in H; destruct (grun q g3) as [[g4 o4] [|]] eqn:E2 end; [|discriminate].
  match type of H with context[grun r ?g1] => set (g5 := g1) in H; destruct (grun r g5) as [[g6 o6] [|]] eqn:E3 end; [|discriminate].
  injection H as <- _. cbn [g_current].
  apply (grun_kept _ Np) in E as (A1 & A2 & A3). apply (grun_kept _ Nq) in E2 as (B1 & B2 & B3). apply (grun_kept _ Nr) in E3 as (D1 & D2 & D3).
  destruct (kept_dirty g6) as (_ & P6 & _). destruct (kept_dirty g4) as (_ & P4 & _).
  rewrite P6, D2. unfold g5. cbn [g_previous]. rewrite P4, B2. unfold g3. cbn [g_previous]. rewrite A1. reflexivity.
Qed.
Print Assumptions C40_nested_refuted.
Example C40_nested_example :
  let '(g, o, r) := grun (GSeq (GGraph None (GSeq (GGraph None GCall) GObserve)) GObserve) g0 in (g_current g, o, r) = (1, [1; 1], true).
Proof. reflexivity. Qed.

(** An exception in the body leaves the new builder, the new name or the module in place;
    after that modules at the top level are no longer committed. *)
Theorem C40_exception_refuted :
  (forall name p g g' o, no_graph p -> grun (GGraph name p) g = (g', o, false) -> g_current g' = length (g_builders g))
  /\ (let '(g, _, r) := grun (GTry (GName 1 GRaise) GObserve) g0 in r = true /\ b_name (get_b 0 g) = Some 1)
  /\ (let '(g, _, r) := grun (GSeq (GTry (GModule 1 GRaise) GObserve) (GModule 2 GCall)) g0 in r = true /\ g_commits g = [] /\ b_stack (get_b 0 g) = [1])
  /\ (let '(g, _, r) := grun (GModule 2 GCall) g0 in r = true /\ g_commits g = [(0, None)] /\ b_stack (get_b 0 g) = []).
Proof.
  split; [|repeat split]. intros name p g g' o N H. cbn [grun] in H.
  match type of H with match grun p ?g1 with _ => _ end = _ => destruct (grun p g1) as [[g2 o2] [|]] eqn:E end; [discriminate|].
  injection H as <- _. apply (grun_kept p N) in E as (E & _). exact E.
Qed.
Print Assumptions C40_exception_refuted.
