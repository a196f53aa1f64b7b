(** One round of GraphConverter.convert. *)
From Coq Require Import String List Arith Bool Lia.
From Verif Require Import IdxModel GcvModel GcvSpec GcvProofs1 GcvProofs2.
Import ListNotations.
Local Open Scope list_scope.

Section Round.
Context {V : Type} (blank : V) (min_outputs : op -> nat -> option nat).
Variables (g0 : graph V) (outs : list nat).
Hypothesis C : convertible min_outputs g0 outs.

Let N := length (g_fns g0).
Definition sunk : graph V :=
  Graph (g_vars g0 ++ [Var (length (g_store g0)) (Some (length (g_fns g0)))]) (g_fns g0 ++ [Fn sink outs [length (g_vars g0)]]) (g_store g0 ++ [blank]) (g_params g0).
Let G := sunk.

Lemma call_sink : call blank min_outputs g0 sink outs = Some (G, [length (g_vars g0)]).
Proof. unfold call. rewrite (conv_sink _ _ _ C). reflexivity. Qed.

Lemma fn_old f y : nth_error (g_fns g0) f = Some y -> fn_of G f = Some y.
Proof. intros H. unfold fn_of. cbn [g_fns G sunk]. rewrite nth_error_app1; [exact H|]. apply nth_error_Some. congruence. Qed.
Lemma fn_sink : fn_of G N = Some (Fn sink outs [length (g_vars g0)]).
Proof. unfold fn_of. cbn [g_fns G sunk]. rewrite nth_error_app2, Nat.sub_diag by (unfold N; lia). reflexivity. Qed.
Lemma fn_cases f y : fn_of G f = Some y -> nth_error (g_fns g0) f = Some y \/ f = N /\ y = Fn sink outs [length (g_vars g0)].
Proof.
  unfold fn_of. cbn [g_fns G sunk]. intros H. destruct (Nat.lt_ge_cases f N) as [Hf|Hf].
  - rewrite nth_error_app1 in H by exact Hf. auto.
  - rewrite nth_error_app2 in H by exact Hf. right. destruct (f - length (g_fns g0)) as [|k] eqn:E; [|destruct k; discriminate]. injection H as <-. split; [unfold N in *; lia|reflexivity].
Qed.
Lemma var_old v x : nth_error (g_vars g0) v = Some x -> nth_error (g_vars G) v = Some x.
Proof. intros H. cbn [g_vars G sunk]. rewrite nth_error_app1; [exact H|]. apply nth_error_Some. congruence. Qed.
Lemma var_cases v x : nth_error (g_vars G) v = Some x -> nth_error (g_vars g0) v = Some x \/ v = length (g_vars g0) /\ x = Var (length (g_store g0)) (Some N).
Proof.
  cbn [g_vars G sunk]. intros H. destruct (Nat.lt_ge_cases v (length (g_vars g0))) as [Hf|Hf].
  - rewrite nth_error_app1 in H by exact Hf. auto.
  - rewrite nth_error_app2 in H by exact Hf. right. destruct (v - length (g_vars g0)) as [|k] eqn:E; [|destruct k; discriminate]. injection H as <-. split; [lia|reflexivity].
Qed.
Lemma old_lt v x : nth_error (g_vars g0) v = Some x -> v < length (g_vars g0).
Proof. intros H. apply nth_error_Some. congruence. Qed.

Lemma parent_old_lt v x p : nth_error (g_vars g0) v = Some x -> v_parent x = Some p -> p < N.
Proof. intros H1 H2. destruct (built_parent _ (conv_built _ _ _ C) v x p H1 H2) as (y & Hy & _). apply nth_error_Some. congruence. Qed.

Lemma built_sunk : built G.
Proof.
  pose proof (conv_built _ _ _ C) as B. split.
  - intros f y v Hf Hv. apply fn_cases in Hf. destruct Hf as [Hf|(-> & ->)].
    + destruct (built_in _ B f y v Hf Hv) as (x & Hx & Hp). exists x. split; [exact (var_old _ _ Hx)|exact Hp].
    + cbn [f_in] in Hv. destruct (conv_outs _ _ _ C v Hv) as (x & Hx). exists x. split; [exact (var_old _ _ Hx)|]. intros p Hp. exact (parent_old_lt _ _ _ Hx Hp).
  - intros f y v Hf Hv. apply fn_cases in Hf. destruct Hf as [Hf|(-> & ->)].
    + destruct (built_out _ B f y v Hf Hv) as (d & Hd). exists d. exact (var_old _ _ Hd).
    + cbn [f_out] in Hv. destruct Hv as [<-|[]]. exists (length (g_store g0)). cbn [g_vars G sunk]. rewrite nth_error_app2, Nat.sub_diag by lia. reflexivity.
  - intros v x p Hv Hp. apply var_cases in Hv. destruct Hv as [Hv|(-> & ->)].
    + destruct (built_parent _ B v x p Hv Hp) as (y & Hy & Ho). exists y. split; [exact (fn_old _ _ Hy)|exact Ho].
    + cbn [v_parent] in Hp. injection Hp as <-. exists (Fn sink outs [length (g_vars g0)]). split; [exact fn_sink|left; reflexivity].
  - intros v x Hv. cbn [g_store G sunk]. rewrite app_length. cbn [length]. apply var_cases in Hv. destruct Hv as [Hv|(-> & ->)]; [|cbn; lia].
    pose proof (built_data _ B v x Hv). lia.
  - intros f y Hf. apply fn_cases in Hf. destruct Hf as [Hf|(-> & ->)]; [exact (built_nodup _ B f y Hf)|]. cbn. constructor; [tauto|constructor].
Qed.

Lemma used_references v : used g0 outs v <-> references G v <> [].
Proof.
  split.
  - intros H He. assert (Hin : exists f, In f (references G v)).
    { destruct H as [H|(f & y & Hf & Hv)].
      - exists N. apply references_in. exists (Fn sink outs [length (g_vars g0)]). split; [exact fn_sink|exact H].
      - exists f. apply references_in. exists y. split; [exact (fn_old _ _ Hf)|exact Hv]. }
    destruct Hin as (f & Hf). rewrite He in Hf. destruct Hf.
  - intros H. destruct (references G v) as [|f l] eqn:E; [congruence|]. assert (Hf : In f (references G v)) by (rewrite E; left; reflexivity).
    apply references_in in Hf. destruct Hf as (y & Hy & Hv). apply fn_cases in Hy. destruct Hy as [Hy|(-> & ->)]; [right; eauto|left; exact Hv].
Qed.
Lemma unused_references v : ~ used g0 outs v -> references G v = [].
Proof. intros H. destruct (references G v) eqn:E; [reflexivity|]. exfalso. apply H, used_references. congruence. Qed.

Definition Ord (f : nat) : Prop := below g0 outs f \/ f = N.
Lemma below_fn f : below g0 outs f -> exists y, nth_error (g_fns g0) f = Some y.
Proof.
  intros H. assert (K : exists v x, nth_error (g_vars g0) v = Some x /\ v_parent x = Some f) by (destruct H; eauto).
  destruct K as (v & x & Hx & Hp). destruct (built_parent _ (conv_built _ _ _ C) v x f Hx Hp) as (y & Hy & _). eauto.
Qed.
Lemma below_lt f : below g0 outs f -> f < N.
Proof. intros H. destruct (below_fn f H) as (y & Hy). apply nth_error_Some. congruence. Qed.
Lemma ord_in f y v : Ord f -> fn_of G f = Some y -> In v (f_in y) -> relevant g0 outs v /\ exists x, nth_error (g_vars g0) v = Some x.
Proof.
  intros [H| ->] Hy Hv.
  - apply fn_cases in Hy. destruct Hy as [Hy|(-> & _)]; [|pose proof (below_lt _ H); lia].
    split; [right; exists f, y; auto|]. destruct (built_in _ (conv_built _ _ _ C) f y v Hy Hv) as (x & Hx & _). eauto.
  - rewrite fn_sink in Hy. injection Hy as <-. cbn [f_in] in Hv. split; [left; exact Hv|exact (conv_outs _ _ _ C v Hv)].
Qed.

Variable R : graph V -> nat -> nat -> Prop.
Variable P : graph V -> table -> Prop.
Hypothesis R_mono : forall g g' o v, ext G g g' -> R g o v -> R g' o v.
Hypothesis R_leaf : forall g o d v, ext G G g -> relevant g0 outs o -> nth_error (g_vars g0) o = Some (Var d None) -> nth_error (g_vars g) v = Some (Var d None) -> R g o v.
Hypothesis R_alias : forall g o o' x x' v, ext G G g -> relevant g0 outs o -> relevant g0 outs o' -> nth_error (g_vars g0) o = Some x -> nth_error (g_vars g0) o' = Some x' ->
  v_parent x <> None -> v_data x = v_data x' -> R g o v -> R g o' v.
Hypothesis P_stable : forall g t g' t', P g t -> g_params g' = g_params g -> prefix (g_store g) (g_store g') -> t_cnt t' = t_cnt t -> P g' t'.
Hypothesis P_start : P G (Table (fun _ => None) 0).
Variable m : modifier V.
Hypothesis m_ok : forall f x, below g0 outs f -> nth_error (g_fns g0) f = Some x -> sound_modify blank min_outputs G R P m f x.
Hypothesis m_sink : forall g t inputs, ext G G g -> P g t -> Forall2 (R g) outs inputs -> Forall (clean G) inputs -> Forall (fun v => v < length (g_vars g)) inputs ->
  exists g' t' o, m g t N inputs = Some (g', t', o) /\ ext G g g' /\
    match o with None => True | Some v => exists p y, parent g' v = Some p /\ fn_of g' p = Some y /\ Forall2 (R g') outs (f_in y) end.

Lemma R_alias' : forall g p x h y o o' v, ext G G g -> Ord p -> fn_of G p = Some x -> In o (f_out x) -> Ord h -> fn_of G h = Some y -> In o' (f_in y) ->
  same G o o' = true -> R g o v -> R g o' v.
Proof.
  intros g p x h y o o' v E Hp Hx Ho Hh Hy Ho' Hs HR. destruct (ord_in h y o' Hh Hy Ho') as (R' & x' & Hx'). unfold same, data, var_of in Hs. rewrite (var_old _ _ Hx') in Hs.
  apply fn_cases in Hx. destruct Hx as [Hx|(-> & ->)].
  - destruct (built_out _ (conv_built _ _ _ C) p x o Hx Ho) as (d & Hd). rewrite (var_old _ _ Hd) in Hs. cbn [v_data] in Hs. apply Nat.eqb_eq in Hs.
    apply (R_alias g o o' (Var d (Some p)) x' v E); auto; [|discriminate]. right. exists p, x. split; [|auto].
    destruct Hp as [Hp| ->]; [exact Hp|]. exfalso. assert (N < N); [|lia]. unfold N at 1. apply nth_error_Some. unfold N in *. congruence.
  - exfalso. cbn [f_out] in Ho. destruct Ho as [<-|[]].
    assert (Hl : nth_error (g_vars G) (length (g_vars g0)) = Some (Var (length (g_store g0)) (Some N))) by (cbn [g_vars G sunk]; rewrite nth_error_app2, Nat.sub_diag by lia; reflexivity).
    rewrite Hl in Hs. cbn [v_data] in Hs. apply Nat.eqb_eq in Hs. pose proof (built_data _ (conv_built _ _ _ C) o' x' Hx'). lia.
Qed.
Lemma R_leaf' : forall g h y o d v, ext G G g -> Ord h -> fn_of G h = Some y -> In o (f_in y) ->
  nth_error (g_vars G) o = Some (Var d None) -> nth_error (g_vars g) v = Some (Var d None) -> R g o v.
Proof.
  intros g h y o d v E Hh Hy Ho Hd Hv. destruct (ord_in h y o Hh Hy Ho) as (H1 & x & Hx). pose proof (var_old _ _ Hx) as Hx'. rewrite Hx' in Hd. injection Hd as ->.
  exact (R_leaf g o d v E H1 Hx Hv).
Qed.
Lemma Ord_fn f : Ord f -> exists y, fn_of G f = Some y /\ f_in y <> [].
Proof.
  intros [H| ->].
  - destruct (below_fn f H) as (y & Hy). exists y. split; [exact (fn_old _ _ Hy)|exact (conv_in _ _ _ C f y H Hy)].
  - exists (Fn sink outs [length (g_vars g0)]). split; [exact fn_sink|]. exact (conv_some _ _ _ C).
Qed.
Lemma Ord_used f y i j a b : Ord f -> fn_of G f = Some y -> i < j -> nth_error (f_out y) i = Some a -> nth_error (f_out y) j = Some b -> references G b <> [] -> references G a <> [].
Proof.
  intros Hf Hy Hij Ha Hb Hr. apply used_references. apply used_references in Hr. apply fn_cases in Hy. destruct Hy as [Hy|(-> & ->)].
  - destruct Hf as [Hf| ->]; [|exfalso; assert (N < N); [|lia]; unfold N at 1; apply nth_error_Some; unfold N in *; congruence].
    exact (conv_used _ _ _ C f y Hf Hy i j a b Hij Ha Hb Hr).
  - cbn [f_out] in Hb. destruct j as [|j]; [lia|]. destruct j; discriminate.
Qed.

Theorem round_ok : exists g' outs', convert1 blank min_outputs m g0 outs = Some (g', outs') /\ ext G G g' /\ Forall2 (R g') outs outs'.
Proof.
  pose proof built_sunk as BG. unfold convert1. rewrite call_sink. cbn [obind].
  destruct (visit_ok G Ord BG) with (fuel := S N) (f := N) (s := (@nil nat, @nil nat)) as (s' & order & A1 & A2 & A3 & A4 & _ & _).
  - intros f y v p Hf Hy Hv Hp. destruct (ord_in f y v Hf Hy Hv) as (_ & x & Hx). unfold parent, var_of in Hp. rewrite (var_old _ _ Hx) in Hp. left.
    destruct Hf as [Hf| ->].
    + apply fn_cases in Hy. destruct Hy as [Hy|(-> & _)]; [|pose proof (below_lt _ Hf); lia]. exact (below_in g0 outs f y v x p Hf Hy Hv Hx Hp).
    + rewrite fn_sink in Hy. injection Hy as <-. exact (below_out g0 outs v x p Hv Hx Hp).
  - lia.
  - eexists. exact fn_sink.
  - right. reflexivity.
  - intros q [].
  - intros [].
  - fold N. rewrite A1. cbn [obind]. destruct s' as (seen, ord). cbn [snd app] in A2. subst ord.
    cbn [snd] in A3. apply sorted_app in A3. destruct A3 as (A3 & A3'). cbn [app] in A3'. destruct A3' as (A3' & _).
    assert (I0 : inv G Ord R P G (Table (fun _ => None) 0) []).
    { split; [apply ext_refl|exact P_start|discriminate|intros ? ? ? ? ? ? []]. }
    destruct (steps_ok blank min_outputs G BG Ord R P R_mono R_leaf' R_alias' P_stable Ord_fn Ord_used m order G (Table (fun _ => None) 0) [] [] I0) as (g1 & t1 & o1 & B1 & B2 & B3).
    + intros p [].
    + intros p Hp. apply A4, Hp.
    + exact A3.
    + intros f x Hf Hx. destruct (A4 f Hf) as (Hlt & Of). apply fn_cases in Hx. destruct Hx as [Hx|(-> & _)]; [|lia]. apply m_ok; [|exact Hx]. destruct Of as [Of| ->]; [exact Of|lia].
    + cbn [app] in B2.
      assert (S1 : forall l s, steps blank min_outputs m (l ++ [N]) s = obind (steps blank min_outputs m l s) (step blank min_outputs m N)).
      { induction l as [|a l IHl]; intros s; cbn [app steps obind]; [destruct (step blank min_outputs m N s); reflexivity|].
        destruct (step blank min_outputs m a s); cbn [obind]; [apply IHl|reflexivity]. }
      rewrite S1, B1. cbn [obind]. unfold step. replace (fn_of g1 N) with (Some (Fn sink outs [length (g_vars g0)])) by (symmetry; exact (ext_fn _ _ _ _ _ (inv_ext _ _ _ _ _ _ _ B2) fn_sink)).
      cbn [obind].
      destruct (prepare_ok G BG Ord R P R_mono R_leaf' P_stable Ord_fn g1 t1 order N _ B2 (or_intror eq_refl) fn_sink A3') as (g2 & t2 & inputs & D1 & D2 & D3 & D4 & D5 & D6 & D7 & D8).
      { intros p Hp. apply A4, Hp. }
      rewrite D1. cbn [obind]. cbn [f_in] in D6.
      destruct (m_sink g2 t2 inputs (inv_ext _ _ _ _ _ _ _ D2) (inv_P _ _ _ _ _ _ _ D2) D6 D7 D8) as (g3 & t3 & o & F1 & F2 & F3). rewrite F1. cbn [obind].
      destruct o as [v|]; cbn [obind].
      * destruct F3 as (p & y & H1 & H2 & H3). cbn [nth_error obind]. rewrite H1. cbn [obind]. rewrite H2. cbn [obind]. exists g3, (f_in y). split; [reflexivity|]. split; [|exact H3].
        exact (ext_trans _ _ _ _ (inv_ext _ _ _ _ _ _ _ D2) F2).
      * destruct (call blank min_outputs g3 (f_op (Fn sink outs [length (g_vars g0)])) inputs) as [(g4, l4)|] eqn:Ec.
        { cbn [obind]. pose proof (call_ext blank min_outputs G _ _ _ _ _ Ec D7) as E4.
          unfold call in Ec. cbn [f_op] in Ec. rewrite <- (Forall2_length _ _ _ D6), (conv_sink _ _ _ C) in Ec. cbn [obind seq map repeat] in Ec. injection Ec as <- <-. cbn [nth_error obind].
          unfold parent, var_of at 1. cbn [g_vars]. rewrite nth_error_app2, Nat.sub_diag by lia. cbn [nth_error v_parent obind].
          unfold fn_of. cbn [g_fns]. rewrite nth_error_app2, Nat.sub_diag by lia. cbn [nth_error obind f_in].
          eexists _, _. split; [reflexivity|]. split; [exact (ext_trans _ _ _ _ (ext_trans _ _ _ _ (inv_ext _ _ _ _ _ _ _ D2) F2) E4)|].
          apply forall2_nth in D6. apply forall2_nth. split; [tauto|]. intros i a b Ha Hb. apply (R_mono g2); [exact (ext_trans _ _ _ _ F2 E4)|]. exact (proj2 D6 i a b Ha Hb). }
        { exfalso. unfold call in Ec. cbn [f_op] in Ec. rewrite <- (Forall2_length _ _ _ D6), (conv_sink _ _ _ C) in Ec. discriminate. }
Qed.
End Round.
