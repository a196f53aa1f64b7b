(** Modifiers that keep the parameters. *)
From Coq Require Import String List Arith Bool Lia.
From Verif Require Import IdxModel GcvModel GcvSpec GcvProofs1 GcvProofs2 GcvProofs3.
Import ListNotations.
Local Open Scope list_scope.

Lemma Forall2_impl {A B : Type} (R S : A -> B -> Prop) l m : (forall a b, R a b -> S a b) -> Forall2 R l m -> Forall2 S l m.
Proof. intros H. induction 1; constructor; auto. Qed.

Section Values.
Context {V : Type} (sem : op -> list V -> option (list V)) (blank : V) (min_outputs : op -> nat -> option nat).
Implicit Types g : graph V.

Lemma computes_mono (G : graph V) g g' : ext G g g' -> forall v x, computes sem g v x -> computes sem g' v x.
Proof.
  intros E. fix IH 3. intros v x [v0 d x0 H1 H2|v0 d f y k xs zs x0 H1 H2 H3 H4 H5 H6].
  - exact (computes_leaf sem g' v0 d x0 (ext_var _ _ _ _ _ E H1) (ext_store _ _ _ _ _ E H2)).
  - refine (computes_output sem g' v0 d f y k xs zs x0 (ext_var _ _ _ _ _ E H1) (ext_fn _ _ _ _ _ E H2) H3 _ H5 H6).
    clear H1 H2 H3 H5 H6. induction H4 as [|a b l l' Hab Hl IHl]; constructor; [exact (IH a b Hab)|exact IHl].
Qed.
Lemma computes_var g v x : computes sem g v x -> v < length (g_vars g).
Proof. intros []; apply nth_error_Some; congruence. Qed.

Lemma call_some g o inputs n : min_outputs o (length inputs) = Some n -> exists g' outs, call blank min_outputs g o inputs = Some (g', outs) /\ length outs = n.
Proof. intros H. unfold call. rewrite H. cbn [obind]. eexists _, _. split; [reflexivity|apply seq_length]. Qed.
Lemma call_computes (G : graph V) g o inputs xs zs g' outs : call blank min_outputs g o inputs = Some (g', outs) -> Forall (clean G) inputs ->
  Forall2 (computes sem g) inputs xs -> sem o xs = Some zs -> length outs = length zs -> Forall2 (computes sem g') outs zs.
Proof.
  intros Hc Hcl Hi Hs Hl. pose proof (call_ext blank min_outputs G _ _ _ _ _ Hc Hcl) as E. unfold call in Hc.
  destruct (min_outputs o (length inputs)) as [n|]; [|discriminate]. cbn [obind] in Hc. injection Hc as <- <-. rewrite seq_length in Hl.
  apply forall2_nth. split; [rewrite seq_length; exact Hl|]. intros k a b Ha Hb.
  assert (Hk : k < n). { rewrite <- (seq_length n (length (g_vars g))). apply nth_error_Some. congruence. }
  assert (Ha' : a = length (g_vars g) + k). { rewrite (nth_error_nth' _ 0) in Ha by (rewrite seq_length; exact Hk). rewrite seq_nth in Ha by exact Hk. congruence. }
  apply (computes_output sem _ a (length (g_store g) + k) (length (g_fns g)) (Fn o inputs (seq (length (g_vars g)) n)) k xs zs b).
  - cbn [g_vars]. rewrite nth_error_app2 by lia. replace (a - length (g_vars g)) with k by lia. rewrite nth_error_map.
    rewrite (nth_error_nth' _ 0) by (rewrite seq_length; exact Hk). rewrite seq_nth by exact Hk. reflexivity.
  - cbn [g_fns]. rewrite nth_error_app2, Nat.sub_diag by lia. reflexivity.
  - exact Ha.
  - cbn [f_in]. eapply Forall2_impl; [|exact Hi]. exact (computes_mono G _ _ E).
  - exact Hs.
  - exact Hb.
Qed.
End Values.

Lemma forall2_map {A B C : Type} (R : B -> C -> Prop) (f : A -> C) l m : Forall2 (fun a b => R b (f a)) l m -> Forall2 R m (map f l).
Proof. induction 1; constructor; assumption. Qed.
Lemma map_forall2 {A B C : Type} (R : B -> C -> Prop) (f : A -> C) l m : Forall2 R m (map f l) -> Forall2 (fun a b => R b (f a)) l m.
Proof. revert m. induction l as [|a l IH]; intros m H; inversion H; subst; constructor; [assumption|apply IH; assumption]. Qed.

Section Modifiers.
Context {V : Type} (sem : op -> list V -> option (list V)) (blank : V) (min_outputs : op -> nat -> option nat).
Variables (g0 : graph V) (outs : list nat).
Hypothesis C : convertible min_outputs g0 outs.
Let G := sunk blank g0 outs.
Implicit Types g : graph V.

(** All functions are computed as before. *)
Lemma same_fn (R : graph V -> nat -> nat -> Prop) (val : nat -> V) (f : nat) (x : fn) g' inputs :
  below g0 outs f -> nth_error (g_fns g0) f = Some x -> sem (f_op x) (map val (f_in x)) = Some (map val (f_out x)) ->
  Forall2 (fun o v => computes sem g' v (val o)) (f_in x) inputs -> Forall (clean G) inputs ->
  exists g'' l, call blank min_outputs g' (f_op x) inputs = Some (g'', l) /\ length l = length (f_out x) /\ Forall2 (fun o v => computes sem g'' v (val o)) (f_out x) l.
Proof.
  intros Hf Hx Hs Hi Hc.
  destruct (call_some blank min_outputs g' (f_op x) inputs (length (f_out x))) as (g'' & l & A1 & A2).
  { rewrite <- (Forall2_length _ _ _ Hi). exact (conv_call _ _ _ C f x Hf Hx). }
  exists g'', l. split; [exact A1|]. split; [exact A2|]. apply map_forall2.
  apply (call_computes sem blank min_outputs G g' (f_op x) inputs (map val (f_in x)) (map val (f_out x)) g'' l A1 Hc); [apply forall2_map, Hi|exact Hs|rewrite map_length; exact A2].
Qed.

Definition noP (g : graph V) (t : table) : Prop := True.

(** A modifier that changes only some functions. *)
Definition vR (val : nat -> V) (g : graph V) (o v : nat) : Prop := computes sem g v (val o).
Lemma vR_leaf val g o d v : (forall v d, relevant g0 outs v -> nth_error (g_vars g0) v = Some (Var d None) -> nth_error (g_store g0) d = Some (val v)) ->
  ext G G g -> relevant g0 outs o -> nth_error (g_vars g0) o = Some (Var d None) -> nth_error (g_vars g) v = Some (Var d None) -> vR val g o v.
Proof.
  intros Hv E Hr Ho Hn. apply (computes_leaf sem g v d); [exact Hn|]. apply (ext_store _ _ _ _ _ E). cbn [g_store G sunk].
  pose proof (Hv o d Hr Ho) as H. rewrite nth_error_app1; [exact H|]. apply nth_error_Some. congruence.
Qed.

Theorem round_value (P : graph V -> table -> Prop) (val : nat -> V) (m : modifier V) :
  (forall v d, relevant g0 outs v -> nth_error (g_vars g0) v = Some (Var d None) -> nth_error (g_store g0) d = Some (val v)) ->
  (forall v w a b, relevant g0 outs v -> relevant g0 outs w -> nth_error (g_vars g0) v = Some a -> nth_error (g_vars g0) w = Some b -> v_parent a <> None -> v_data a = v_data b -> val v = val w) ->
  (forall g t g' t', P g t -> g_params g' = g_params g -> prefix (g_store g) (g_store g') -> t_cnt t' = t_cnt t -> P g' t') ->
  P G (Table (fun _ => None) 0) ->
  (forall f x, below g0 outs f -> nth_error (g_fns g0) f = Some x -> sound_modify blank min_outputs G (vR val) P m f x) ->
  (forall g t inputs, ext G G g -> P g t -> Forall2 (vR val g) outs inputs -> Forall (clean G) inputs -> Forall (fun v => v < length (g_vars g)) inputs ->
    exists g' t' o, m g t (length (g_fns g0)) inputs = Some (g', t', o) /\ ext G g g' /\
    match o with None => True | Some v => exists p y, parent g' v = Some p /\ fn_of g' p = Some y /\ Forall2 (vR val g') outs (f_in y) end) ->
  exists g' outs', convert1 blank min_outputs m g0 outs = Some (g', outs') /\ ext G G g' /\ Forall2 (fun o v => computes sem g' v (val o)) outs outs'.
Proof.
  intros H1 H2 H3 H4 H5 H6. apply (round_ok blank min_outputs g0 outs C (vR val) P); auto.
  - intros g g' o v E. apply (computes_mono sem G g g' E).
  - intros g o d v E. exact (vR_leaf val g o d v H1 E).
  - intros g o o' x x' v E Ho Ho' Hx Hx' Hp Hd H. unfold vR in *. rewrite <- (H2 o o' x x'); auto.
Qed.

Lemma unchanged_ok (P : graph V -> table -> Prop) val m f x : below g0 outs f -> nth_error (g_fns g0) f = Some x ->
  sem (f_op x) (map val (f_in x)) = Some (map val (f_out x)) ->
  (forall g t inputs, ext G G g -> P g t -> Forall2 (vR val g) (f_in x) inputs -> m g t f inputs = Some (g, t, None)) ->
  sound_modify blank min_outputs G (vR val) P m f x.
Proof.
  intros Hf Hx Hs Hm g t inputs E HP Hi Hc _. exists g, t, None. split; [apply Hm; assumption|]. split; [apply ext_refl|]. split; [exact HP|]. split; [auto|].
  exact (same_fn (vR val) val f x g inputs Hf Hx Hs Hi Hc).
Qed.

(** IdentityModifier without dictionary *)
Theorem identity_ok (val : nat -> V) : valuation sem g0 outs val ->
  exists g' outs', convert1 blank min_outputs (identity blank min_outputs []) g0 outs = Some (g', outs') /\ ext G G g' /\ Forall2 (fun o v => computes sem g' v (val o)) outs outs'.
Proof.
  intros Hv.
  assert (K : forall f x g t inputs, fn_of G f = Some x -> ext G G g -> Forall2 (vR val g) (f_in x) inputs -> f_in x <> [] -> identity blank min_outputs [] g t f inputs = Some (g, t, None)).
  { intros f x g t inputs Hx E Hi Hne. unfold identity. destruct inputs as [|i l]; [inversion Hi; congruence|]. destruct (parent g i); [reflexivity|].
    replace (fn_of g f) with (Some x) by (symmetry; exact (ext_fn _ _ _ _ _ E Hx)). cbn [obind]. destruct (f_in x) as [|o r]; [congruence|]. reflexivity. }
  apply (round_value noP).
  - exact (val_leaf _ _ _ _ Hv).
  - exact (val_data _ _ _ _ Hv).
  - intros. exact I.
  - exact I.
  - intros f x Hf Hx. apply unchanged_ok; auto; [exact (val_fn _ _ _ _ Hv f x Hf Hx)|]. intros g t inputs E _ Hi. apply (K f x); auto; [exact (fn_old blank g0 outs f x Hx)|exact (conv_in _ _ _ C f x Hf Hx)].
  - intros g t inputs E _ Hi _ _. exists g, t, None. split; [|split; [apply ext_refl|exact I]].
    apply (K _ (Fn sink outs [length (g_vars g0)])); auto; [exact (fn_sink blank g0 outs)|exact (conv_some _ _ _ C)].
Qed.

Lemma below_used f x : below g0 outs f -> nth_error (g_fns g0) f = Some x -> exists v, In v (f_out x) /\ used g0 outs v.
Proof.
  intros Hf Hx. assert (K : exists v y, nth_error (g_vars g0) v = Some y /\ v_parent y = Some f /\ used g0 outs v).
  { destruct Hf as [v y f Hv Hy Hp|h z v y f Hh Hz Hv Hy Hp]; exists v, y; (split; [exact Hy|split; [exact Hp|]]); [left; exact Hv|right; eauto]. }
  destruct K as (v & y & Hy & Hp & Hu). exists v. split; [|exact Hu]. destruct (built_parent _ (conv_built _ _ _ C) v y f Hy Hp) as (x' & Hx' & Ho). congruence.
Qed.
Lemma first_used f x : below g0 outs f -> nth_error (g_fns g0) f = Some x -> (forall k o, nth_error (f_out x) (S k) = Some o -> ~ used g0 outs o) ->
  exists o0, nth_error (f_out x) 0 = Some o0 /\ used g0 outs o0.
Proof.
  intros Hf Hx H. destruct (below_used f x Hf Hx) as (v & Hv & Hu). destruct (nth_of _ _ Hv) as ([|k] & Hk); [eauto|]. exfalso. exact (H k v Hk Hu).
Qed.
Lemma refs_ext g o : ext G G g -> references G o <> [] -> references g o <> [].
Proof.
  intros (_ & (r & Hr & _) & _) H He. apply H. destruct (references G o) as [|f l] eqn:E; [reflexivity|]. exfalso.
  assert (Hf : In f (references G o)) by (rewrite E; left; reflexivity). apply references_in in Hf. destruct Hf as (y & Hy & Ho).
  assert (Hin : In f (references g o)). { unfold references, takes. apply filter_In. unfold fn_of in *. split.
    - apply in_seq. split; [lia|]. rewrite Hr, app_length. assert (f < length (g_fns G)) by (apply nth_error_Some; congruence). lia.
    - rewrite Hr, nth_error_app1 by (apply nth_error_Some; congruence). rewrite Hy. apply member_in, Ho. }
  rewrite He in Hin. destruct Hin.
Qed.

(** RemoveFunctionModifier *)
Theorem remove_ok (names : list string) (val : nat -> V) :
  (forall v d, relevant g0 outs v -> nth_error (g_vars g0) v = Some (Var d None) -> nth_error (g_store g0) d = Some (val v)) ->
  (forall v w a b, relevant g0 outs v -> relevant g0 outs w -> nth_error (g_vars g0) v = Some a -> nth_error (g_vars g0) w = Some b -> v_parent a <> None -> v_data a = v_data b -> val v = val w) ->
  (forall f x, below g0 outs f -> nth_error (g_fns g0) f = Some x -> ~ In (op_type (f_op x)) names -> sem (f_op x) (map val (f_in x)) = Some (map val (f_out x))) ->
  (forall f x i o, below g0 outs f -> nth_error (g_fns g0) f = Some x -> In (op_type (f_op x)) names -> nth_error (f_in x) 0 = Some i -> nth_error (f_out x) 0 = Some o -> val o = val i) ->
  (forall f x k o, below g0 outs f -> nth_error (g_fns g0) f = Some x -> In (op_type (f_op x)) names -> nth_error (f_out x) (S k) = Some o -> ~ used g0 outs o) ->
  ~ In "Sink"%string names ->
  exists g' outs', convert1 blank min_outputs (remove names) g0 outs = Some (g', outs') /\ ext G G g' /\ Forall2 (fun o v => computes sem g' v (val o)) outs outs'.
Proof.
  intros H1 H2 H3 H4 H5 H6.
  assert (Hex : forall n, existsb (String.eqb n) names = true <-> In n names).
  { intros n. rewrite existsb_exists. split; [intros (y & Hy & He); apply String.eqb_eq in He; congruence|]. intros H. exists n. split; [exact H|apply String.eqb_refl]. }
  apply (round_value noP).
  - exact H1.
  - exact H2.
  - intros. exact I.
  - exact I.
  - intros f x Hf Hx. pose proof (fn_old blank g0 outs f x Hx) as Hx'. fold G in Hx'. destruct (in_dec string_dec (op_type (f_op x)) names) as [Hn|Hn].
    + intros g t inputs E _ Hi Hc Hl. unfold remove, type_of. replace (fn_of g f) with (Some x) by (symmetry; exact (ext_fn _ _ _ _ _ E Hx')). cbn [obind].
      rewrite (proj2 (Hex _) Hn). unfold first_output. replace (fn_of g f) with (Some x) by (symmetry; exact (ext_fn _ _ _ _ _ E Hx')). cbn [obind].
      destruct (first_used f x Hf Hx) as (o0 & Ho0 & Hu). { intros k o. apply (H5 f x k o Hf Hx Hn). }
      rewrite Ho0. cbn [obind]. apply (used_references blank) in Hu. apply (refs_ext g o0 E) in Hu. destruct (references g o0) as [|r rs]; [congruence|].
      pose proof (conv_in _ _ _ C f x Hf Hx) as Hne. destruct (f_in x) as [|i ri] eqn:Ei; [congruence|]. inversion Hi as [|? v ? l Hv Hl' Ea Eb]; subst.
      exists g, t, (Some v). split; [reflexivity|]. split; [apply ext_refl|]. split; [exact I|]. split; [auto|]. exists o0. split; [first [exact Ho0|reflexivity]|].
      inversion Hc; subst. inversion Hl; subst. split; [|split; [assumption|split; [assumption|]]].
      * unfold vR. rewrite (H4 f x i o0 Hf Hx Hn); [exact Hv|rewrite Ei; reflexivity|exact Ho0].
      * intros k o Ho. apply (unused_references blank g0 outs). exact (H5 f x k o Hf Hx Hn Ho).
    + apply unchanged_ok; [exact Hf|exact Hx|exact (H3 f x Hf Hx Hn)|]. intros g t inputs E _ Hi. unfold remove, type_of. replace (fn_of g f) with (Some x) by (symmetry; exact (ext_fn _ _ _ _ _ E Hx')). cbn [obind].
      destruct (existsb (String.eqb (op_type (f_op x))) names) eqn:Ex; [|reflexivity]. apply Hex in Ex. contradiction.
  - intros g t inputs E _ Hi _ _. exists g, t, None. split; [|split; [apply ext_refl|exact I]]. unfold remove, type_of.
    replace (fn_of g (length (g_fns g0))) with (Some (Fn sink outs [length (g_vars g0)])) by (symmetry; exact (ext_fn _ _ _ _ _ E (fn_sink blank g0 outs))). cbn [obind f_op op_type sink].
    destruct (existsb (String.eqb "Sink") names) eqn:Ex; [|reflexivity]. apply Hex in Ex. contradiction.
Qed.

(** BatchNormBatchStatModifier *)
Definition stat_op (off : list nat -> list nat) (o : op) : op :=
  if existsb (String.eqb (op_type o)) batch_norms then Op (op_type o) (off (op_args o)) else o.
Theorem batch_stat_ok (off : list nat -> list nat) (val : nat -> V) :
  (forall v d, relevant g0 outs v -> nth_error (g_vars g0) v = Some (Var d None) -> nth_error (g_store g0) d = Some (val v)) ->
  (forall v w a b, relevant g0 outs v -> relevant g0 outs w -> nth_error (g_vars g0) v = Some a -> nth_error (g_vars g0) w = Some b -> v_parent a <> None -> v_data a = v_data b -> val v = val w) ->
  (forall f x, below g0 outs f -> nth_error (g_fns g0) f = Some x -> sem (stat_op off (f_op x)) (map val (f_in x)) = Some (map val (f_out x))) ->
  (forall f x, below g0 outs f -> nth_error (g_fns g0) f = Some x -> In (op_type (f_op x)) batch_norms -> length (f_out x) = 1 /\ min_outputs (stat_op off (f_op x)) (length (f_in x)) = Some 1) ->
  exists g' outs', convert1 blank min_outputs (batch_stat blank min_outputs off) g0 outs = Some (g', outs') /\ ext G G g' /\ Forall2 (fun o v => computes sem g' v (val o)) outs outs'.
Proof.
  intros H1 H2 H3 H4.
  assert (Hex : forall n, existsb (String.eqb n) batch_norms = true <-> In n batch_norms).
  { intros n. rewrite existsb_exists. split; [intros (y & Hy & He); apply String.eqb_eq in He; congruence|]. intros H. exists n. split; [exact H|apply String.eqb_refl]. }
  apply (round_value noP).
  - exact H1.
  - exact H2.
  - intros. exact I.
  - exact I.
  - intros f x Hf Hx. pose proof (fn_old blank g0 outs f x Hx) as Hx'. fold G in Hx'. pose proof (H3 f x Hf Hx) as Hs. unfold stat_op in Hs.
    destruct (existsb (String.eqb (op_type (f_op x))) batch_norms) eqn:Ex.
    + destruct (H4 f x Hf Hx (proj1 (Hex _) Ex)) as (Hlen & Hmin). unfold stat_op in Hmin. rewrite Ex in Hmin.
      intros g t inputs E _ Hi Hc Hl. unfold batch_stat. replace (fn_of g f) with (Some x) by (symmetry; exact (ext_fn _ _ _ _ _ E Hx')). cbn [obind]. rewrite Ex.
      rewrite (Forall2_length _ _ _ Hi) in Hmin. destruct (call_some blank min_outputs g _ inputs 1 Hmin) as (g' & l & A1 & A2). rewrite A1. unfold returned. cbn [obind].
      destruct l as [|v [|? ?]]; try discriminate. exists g', t, (Some v). split; [reflexivity|]. pose proof (call_ext blank min_outputs G _ _ _ _ _ A1 Hc) as E'. split; [exact E'|]. split; [exact I|]. split; [auto|].
      destruct (f_out x) as [|o0 [|? ?]] eqn:Eo; try discriminate. exists o0. split; [reflexivity|].
      pose proof (call_computes sem blank min_outputs G g _ inputs _ _ g' [v] A1 Hc (forall2_map _ _ _ _ Hi) Hs A2) as Hcv. cbn [map] in Hcv. inversion Hcv; subst.
      destruct (call_outs _ _ _ _ _ _ _ A1) as (D1 & _). inversion D1 as [|? ? Hv _]; subst. pose proof (ext_vars_le _ _ _ E). split; [assumption|]. split; [apply clean_new; lia|]. split; [lia|].
      intros [|k] o Hk; discriminate.
    + apply unchanged_ok; auto. intros g t inputs E _ Hi. unfold batch_stat. replace (fn_of g f) with (Some x) by (symmetry; exact (ext_fn _ _ _ _ _ E Hx')). cbn [obind]. rewrite Ex. reflexivity.
  - intros g t inputs E _ Hi _ _. exists g, t, None. split; [|split; [apply ext_refl|exact I]]. unfold batch_stat.
    replace (fn_of g (length (g_fns g0))) with (Some (Fn sink outs [length (g_vars g0)])) by (symmetry; exact (ext_fn _ _ _ _ _ E (fn_sink blank g0 outs))). reflexivity.
Qed.
End Modifiers.
