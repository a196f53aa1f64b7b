(** Conversion of a graph, for any relation between old and new variables. *)
From Coq Require Import String List Arith Bool Lia.
From Verif Require Import IdxModel GcvModel GcvSpec GcvProofs1.
Import ListNotations.
Local Open Scope list_scope.

Definition prefix {A : Type} (l l' : list A) : Prop := exists r, l' = l ++ r.
Lemma prefix_refl {A : Type} (l : list A) : prefix l l.
Proof. exists []. symmetry. apply app_nil_r. Qed.
Lemma prefix_app {A : Type} (l r : list A) : prefix l (l ++ r).
Proof. exists r. reflexivity. Qed.
Lemma prefix_trans {A : Type} (a b c : list A) : prefix a b -> prefix b c -> prefix a c.
Proof. intros (r & ->) (q & ->). exists (r ++ q). symmetry. apply app_assoc. Qed.
Lemma prefix_nth {A : Type} (l l' : list A) i x : prefix l l' -> nth_error l i = Some x -> nth_error l' i = Some x.
Proof. intros (r & ->) H. rewrite nth_error_app1; [exact H|]. apply nth_error_Some. congruence. Qed.

Lemma nth_of {A : Type} (l : list A) v : In v l -> exists i, nth_error l i = Some v.
Proof. apply In_nth_error. Qed.
Lemma Forall2_length {A B : Type} (R : A -> B -> Prop) l m : Forall2 R l m -> length l = length m.
Proof. induction 1; cbn; congruence. Qed.
Lemma forall2_nth {A B : Type} (R : A -> B -> Prop) l m : Forall2 R l m <->
  length l = length m /\ forall i a b, nth_error l i = Some a -> nth_error m i = Some b -> R a b.
Proof.
  split.
  - intros H. split; [exact (Forall2_length _ _ _ H)|]. induction H; intros [|i] p q Hp Hq; cbn in Hp, Hq; try discriminate.
    + injection Hp as <-. injection Hq as <-. assumption.
    + eauto.
  - revert m. induction l as [|a l IH]; intros [|b m] (H1 & H2); try discriminate; constructor.
    + exact (H2 0 a b eq_refl eq_refl).
    + apply IH. split; [cbn in H1; lia|]. intros i. exact (H2 (S i)).
Qed.
Lemma nth_len {A B : Type} (l : list A) (m : list B) i a : length l = length m -> nth_error l i = Some a -> exists b, nth_error m i = Some b.
Proof.
  intros H1 H2. assert (i < length m) by (rewrite <- H1; apply nth_error_Some; congruence).
  destruct (nth_error m i) eqn:E; [eauto|]. apply nth_error_None in E. lia.
Qed.
Lemma nth_combine {A B : Type} (l : list A) (m : list B) i a b : nth_error l i = Some a -> nth_error m i = Some b -> nth_error (combine l m) i = Some (a, b).
Proof. revert l m. induction i as [|i IH]; intros [|x l] [|y m]; cbn; try discriminate; [congruence|apply IH]. Qed.
Lemma nth_combine_inv {A B : Type} (l : list A) (m : list B) i a b : nth_error (combine l m) i = Some (a, b) -> nth_error l i = Some a /\ nth_error m i = Some b.
Proof. revert l m. induction i as [|i IH]; intros [|x l] [|y m]; cbn; try discriminate; [intros [= -> ->]; auto|apply IH]. Qed.
Lemma nth_repeat_none {A : Type} (n i : nat) (x : option A) : nth_error (repeat None n) i = Some x -> x = None.
Proof. intros H. apply nth_error_In, repeat_spec in H. exact H. Qed.

Section Step.
Context {V : Type} (blank : V) (min_outputs : op -> nat -> option nat).
Variable G : graph V.
Hypothesis BG : built G.
Implicit Types g : graph V.

(** Not an output of an old function. *)
Definition clean (v : nat) : Prop := forall x, nth_error (g_vars G) v = Some x -> v_parent x = None.
Definition ext g g' : Prop :=
  prefix (g_vars g) (g_vars g') /\ (exists r, g_fns g' = g_fns g ++ r /\ Forall (fun x => Forall clean (f_in x)) r) /\ prefix (g_store g) (g_store g').
Lemma ext_refl g : ext g g.
Proof. split; [apply prefix_refl|]. split; [exists []; rewrite app_nil_r; auto|apply prefix_refl]. Qed.
Lemma ext_trans a b c : ext a b -> ext b c -> ext a c.
Proof.
  intros (A1 & (r & A2 & A3) & A4) (B1 & (q & B2 & B3) & B4). split; [exact (prefix_trans _ _ _ A1 B1)|]. split; [|exact (prefix_trans _ _ _ A4 B4)].
  exists (r ++ q). split; [rewrite B2, A2, app_assoc; reflexivity|apply Forall_app; auto].
Qed.
Lemma ext_var g g' v x : ext g g' -> nth_error (g_vars g) v = Some x -> nth_error (g_vars g') v = Some x.
Proof. intros (H & _). apply prefix_nth, H. Qed.
Lemma ext_fn g g' f x : ext g g' -> nth_error (g_fns g) f = Some x -> nth_error (g_fns g') f = Some x.
Proof. intros (_ & (r & H & _) & _). apply prefix_nth. exists r. exact H. Qed.
Lemma ext_store g g' d x : ext g g' -> nth_error (g_store g) d = Some x -> nth_error (g_store g') d = Some x.
Proof. intros (_ & _ & H). apply prefix_nth, H. Qed.
Lemma ext_parent g g' v x : ext g g' -> nth_error (g_vars g) v = Some x -> parent g' v = v_parent x.
Proof. intros H1 H2. unfold parent, var_of. rewrite (ext_var _ _ _ _ H1 H2). reflexivity. Qed.

(** The references to an old output do not change. *)
Lemma ext_references g o x p : ext G g -> nth_error (g_vars G) o = Some x -> v_parent x = Some p -> references g o = references G o.
Proof.
  intros (_ & (r & H1 & H2) & _) Hx Hp. unfold references. rewrite H1, app_length, seq_app, filter_app. cbn [Nat.add].
  assert (E : filter (takes g o) (seq (length (g_fns G)) (length r)) = []).
  { destruct (filter (takes g o) (seq (length (g_fns G)) (length r))) as [|f l] eqn:E; [reflexivity|exfalso].
    assert (Hf : In f (filter (takes g o) (seq (length (g_fns G)) (length r)))) by (rewrite E; left; reflexivity).
    apply filter_In in Hf. destruct Hf as (Hf & Ht). apply in_seq in Hf. unfold takes, fn_of in Ht. rewrite H1, nth_error_app2 in Ht by lia.
    destruct (nth_error r (f - length (g_fns G))) as [y|] eqn:Ey; [|discriminate].
    apply member_in in Ht. apply nth_error_In in Ey. rewrite Forall_forall in H2. specialize (H2 y Ey). rewrite Forall_forall in H2.
    specialize (H2 o Ht x Hx). congruence. }
  rewrite E, app_nil_r. apply filter_ext_in. intros f Hf. apply in_seq in Hf. unfold takes, fn_of. rewrite H1, nth_error_app1 by lia. reflexivity.
Qed.
Lemma references_in o f : In f (references G o) <-> exists y, fn_of G f = Some y /\ In o (f_in y).
Proof.
  unfold references, takes. rewrite filter_In, in_seq. unfold fn_of. split.
  - intros (_ & H). destruct (nth_error (g_fns G) f) as [y|]; [|discriminate]. apply member_in in H. eauto.
  - intros (y & Hy & Ho). rewrite Hy. split; [split; [lia|]|apply member_in, Ho].
    cbn [Nat.add]. apply nth_error_Some. congruence.
Qed.

Variable Ord : nat -> Prop.
Variable R : graph V -> nat -> nat -> Prop.
Variable P : graph V -> table -> Prop.
Hypothesis R_mono : forall g g' o v, ext g g' -> R g o v -> R g' o v.
Hypothesis R_leaf : forall g h y o d v, ext G g -> Ord h -> fn_of G h = Some y -> In o (f_in y) ->
  nth_error (g_vars G) o = Some (Var d None) -> nth_error (g_vars g) v = Some (Var d None) -> R g o v.
Hypothesis R_alias : forall g p x h y o o' v, ext G g -> Ord p -> fn_of G p = Some x -> In o (f_out x) -> Ord h -> fn_of G h = Some y -> In o' (f_in y) ->
  same G o o' = true -> R g o v -> R g o' v.
Hypothesis P_stable : forall g t g' t', P g t -> g_params g' = g_params g -> prefix (g_store g) (g_store g') -> t_cnt t' = t_cnt t -> P g' t'.
Hypothesis Ord_fn : forall f, Ord f -> exists y, fn_of G f = Some y /\ f_in y <> [].
Hypothesis Ord_used : forall f y i j a b, Ord f -> fn_of G f = Some y -> i < j -> nth_error (f_out y) i = Some a -> nth_error (f_out y) j = Some b ->
  references G b <> [] -> references G a <> [].

Definition entry_ok g (y : fn) (es : list (option nat)) : Prop :=
  length es = length (f_in y) /\
  (forall i v o, nth_error es i = Some (Some v) -> nth_error (f_in y) i = Some o -> R g o v /\ clean v /\ v < length (g_vars g)) /\
  (exists i v, nth_error es i = Some (Some v)).
Record inv (g : graph V) (t : table) (done : list nat) : Prop := Inv {
  inv_ext : ext G g;
  inv_P : P g t;
  inv_sound : forall h y es, Ord h -> fn_of G h = Some y -> t_inputs t h = Some es -> entry_ok g y es;
  inv_complete : forall p x o h y i, In p done -> Ord p -> fn_of G p = Some x -> In o (f_out x) -> Ord h -> fn_of G h = Some y ->
    nth_error (f_in y) i = Some o -> exists es v, t_inputs t h = Some es /\ nth_error es i = Some (Some v) }.

Lemma entry_mono g g' y es : ext g g' -> entry_ok g y es -> entry_ok g' y es.
Proof.
  intros E (H1 & H2 & H3). split; [exact H1|]. split; [|exact H3]. intros i v o Hv Ho. destruct (H2 i v o Hv Ho) as (A & B & C).
  split; [exact (R_mono _ _ _ _ E A)|]. split; [exact B|]. destruct E as ((r & ->) & _). rewrite app_length. lia.
Qed.
Lemma inv_grow g g' t done : inv g t done -> ext g g' -> g_params g' = g_params g -> inv g' t done.
Proof.
  intros [I1 I2 I3 I4] E Hp. split.
  - exact (ext_trans _ _ _ I1 E).
  - apply (P_stable g t); auto. apply E.
  - intros h y es Hh Hy Hes. exact (entry_mono _ _ _ _ E (I3 h y es Hh Hy Hes)).
  - exact I4.
Qed.

Lemma ext_leaf g d : ext g (fst (new_leaf g d)).
Proof. unfold new_leaf. cbn [fst]. split; [apply prefix_app|]. split; [exists []; rewrite app_nil_r; auto|apply prefix_refl]. Qed.

Lemma copy_ok l : forall g, ext G g -> (forall o, In o l -> exists d, nth_error (g_vars G) o = Some (Var d None)) ->
  exists g' ws, copy_inputs g l = Some (g', ws) /\ ext g g' /\ g_params g' = g_params g /\
    Forall2 (fun o w => exists d, nth_error (g_vars G) o = Some (Var d None) /\ nth_error (g_vars g') w = Some (Var d None) /\ length (g_vars G) <= w < length (g_vars g')) l ws.
Proof.
  induction l as [|o l IH]; intros g E H.
  - exists g, []. split; [reflexivity|]. split; [apply ext_refl|]. split; [reflexivity|constructor].
  - destruct (H o (or_introl eq_refl)) as (d & Hd). cbn [copy_inputs]. unfold unlinked, data, var_of.
    rewrite (ext_var _ _ _ _ E Hd). cbn [obind v_data]. unfold new_leaf.
    set (g1 := Graph _ _ _ _). assert (E1 : ext g g1) by (exact (ext_leaf g d)).
    destruct (IH g1 (ext_trans _ _ _ E E1)) as (g' & ws & A1 & A2 & A3 & A4).
    { intros o' Ho. apply H. right. exact Ho. }
    rewrite A1. cbn [obind]. exists g', (length (g_vars g) :: ws). split; [reflexivity|]. split; [exact (ext_trans _ _ _ E1 A2)|].
    split; [rewrite A3; reflexivity|]. constructor; [|exact A4]. exists d. split; [exact Hd|].
    assert (Hn : nth_error (g_vars g1) (length (g_vars g)) = Some (Var d None)).
    { cbn [g_vars g1]. rewrite nth_error_app2 by lia. rewrite Nat.sub_diag. reflexivity. }
    pose proof (ext_var _ _ _ _ A2 Hn) as Hn'. split; [exact Hn'|]. split.
    + destruct E as ((r & ->) & _). rewrite app_length. lia.
    + apply nth_error_Some. congruence.
Qed.

Lemma clean_new v : length (g_vars G) <= v -> clean v.
Proof. intros H x Hx. assert (v < length (g_vars G)) by (apply nth_error_Some; congruence). lia. Qed.
Lemma clean_leaf o d : nth_error (g_vars G) o = Some (Var d None) -> clean o.
Proof. intros H x Hx. rewrite H in Hx. injection Hx as <-. reflexivity. Qed.

Lemma fill_ok several : forall es old, length es = length old -> (several = false -> forall i, nth_error es i <> Some None) ->
  exists l, fill several es old = Some l /\ length l = length old /\
    (forall i v, nth_error l i = Some v -> nth_error es i = Some (Some v) \/ nth_error es i = Some None /\ nth_error old i = Some v).
Proof.
  induction es as [|e es IH]; intros [|o old] Hl H; try discriminate.
  - exists []. split; [reflexivity|]. split; [reflexivity|]. intros [|i] v; discriminate.
  - cbn in Hl. destruct (IH old) as (l & A1 & A2 & A3); [lia|intros Hs i; exact (H Hs (S i))|]. destruct e as [w|]; cbn [fill tl].
    + rewrite A1. cbn [obind]. exists (w :: l). split; [reflexivity|]. split; [cbn; lia|]. intros [|i] v Hv; cbn in Hv |- *; [left; congruence|auto].
    + destruct several eqn:Es; [|exfalso; exact (H eq_refl 0 eq_refl)]. rewrite A1. cbn [obind]. exists (o :: l). split; [reflexivity|]. split; [cbn; lia|].
      intros [|i] v Hv; cbn in Hv |- *; [right; auto|auto].
Qed.

Theorem prepare_ok g t done f y : inv g t done -> Ord f -> fn_of G f = Some y -> after G done f -> (forall p, In p done -> Ord p) ->
  exists g' t' inputs, prepare g t f y = Some (g', t', inputs) /\ inv g' t' done /\ ext g g' /\ g_params g' = g_params g /\ t_cnt t' = t_cnt t /\
    Forall2 (R g') (f_in y) inputs /\ Forall clean inputs /\ Forall (fun v => v < length (g_vars g')) inputs.
Proof.
  intros I Hf Hy Ha Hd. pose proof (inv_ext _ _ _ I) as E. destruct (Ord_fn f Hf) as (y' & Hy' & Hne). rewrite Hy in Hy'. injection Hy' as <-.
  unfold prepare. destruct (f_in y) as [|first rest] eqn:Ein; [congruence|]. clear Hne.
  assert (Hvar : forall o, In o (first :: rest) -> exists x, nth_error (g_vars G) o = Some x).
  { intros o Ho. rewrite <- Ein in Ho. destruct (built_in G BG f y o Hy Ho) as (x & Hx & _). eauto. }
  (* inputs with a parent are in the table *)
  assert (Hmap : forall i o x p, nth_error (first :: rest) i = Some o -> nth_error (g_vars G) o = Some x -> v_parent x = Some p ->
                   exists es v, t_inputs t f = Some es /\ nth_error es i = Some (Some v)).
  { intros i o x p Ho Hx Hp. assert (Hpar : parent G o = Some p) by (unfold parent, var_of; rewrite Hx; exact Hp).
    assert (Hin : In o (f_in y)) by (rewrite Ein; exact (nth_error_In _ _ Ho)).
    pose proof (Ha y o p Hy Hin Hpar) as Hpd. destruct (parent_fn G o p BG Hpar) as (xp & Hxp & Hout).
    apply (inv_complete _ _ _ I p xp o f y i); auto. rewrite Ein. exact Ho. }
  destruct (Hvar first (or_introl eq_refl)) as (x0 & Hx0).
  rewrite (ext_parent _ _ _ _ E Hx0).
  assert (TableCase : forall es, t_inputs t f = Some es ->
    exists inputs, fill (1 <? length (first :: rest)) es (first :: rest) = Some inputs /\
      Forall2 (R g) (first :: rest) inputs /\ Forall clean inputs /\ Forall (fun v => v < length (g_vars g)) inputs).
  { intros es Hes. destruct (inv_sound _ _ _ I f y es Hf Hy Hes) as (L1 & L2 & (i0 & v0 & L3)). rewrite Ein in L1, L2.
    destruct (fill_ok (1 <? length (first :: rest)) es (first :: rest) L1) as (l & A1 & A2 & A3).
    { intros Hlt i Hi. apply Nat.ltb_ge in Hlt. assert (i < length es) by (apply nth_error_Some; congruence). assert (i0 < length es) by (apply nth_error_Some; congruence).
      assert (i = i0) by lia. subst i0. congruence. }
    exists l. split; [exact A1|].
    assert (K : forall i o v, nth_error (first :: rest) i = Some o -> nth_error l i = Some v -> R g o v /\ clean v /\ v < length (g_vars g)).
    { intros i o v Ho Hv. destruct (A3 i v Hv) as [H|(H & H')]; [exact (L2 i v o H Ho)|]. rewrite Ho in H'. injection H' as <-.
      destruct (Hvar o (nth_error_In _ _ Ho)) as (x & Hx).
      destruct (v_parent x) as [p|] eqn:Ep.
      - destruct (Hmap i o x p Ho Hx Ep) as (es' & v' & E1 & E2). rewrite Hes in E1. injection E1 as <-. congruence.
      - destruct x as [d q]. cbn [v_parent] in Ep. subst q. split; [|split].
        + apply (R_leaf g f y o d o); auto; [rewrite Ein; exact (nth_error_In _ _ Ho)|]. exact (ext_var _ _ _ _ E Hx).
        + exact (clean_leaf _ _ Hx).
        + apply nth_error_Some. rewrite (ext_var _ _ _ _ E Hx). discriminate. }
    split; [|split].
    - apply forall2_nth. split; [lia|]. intros i o v Ho Hv. exact (proj1 (K i o v Ho Hv)).
    - apply Forall_forall. intros v Hv. destruct (nth_of _ _ Hv) as (i & Hi). destruct (nth_len l (first :: rest) i v A2 Hi) as (o & Ho). exact (proj1 (proj2 (K i o v Ho Hi))).
    - apply Forall_forall. intros v Hv. destruct (nth_of _ _ Hv) as (i & Hi). destruct (nth_len l (first :: rest) i v A2 Hi) as (o & Ho). exact (proj2 (proj2 (K i o v Ho Hi))). }
  assert (Done : forall es, t_inputs t f = Some es -> exists g' t' inputs,
    obind (Some (g, t)) (fun '(g, t) => let new := match t_inputs t f with Some l => l | None => [] end in
      obind (fill (1 <? length (first :: rest)) new (first :: rest)) (fun inputs => Some (g, t, inputs))) = Some (g', t', inputs) /\
    inv g' t' done /\ ext g g' /\ g_params g' = g_params g /\ t_cnt t' = t_cnt t /\
    Forall2 (R g') (first :: rest) inputs /\ Forall clean inputs /\ Forall (fun v => v < length (g_vars g')) inputs).
  { intros es Hes. destruct (TableCase es Hes) as (l & A1 & A2 & A3 & A4). exists g, t, l. cbn [obind]. rewrite Hes. cbv zeta. rewrite A1. cbn [obind].
    split; [reflexivity|]. split; [exact I|]. split; [apply ext_refl|]. repeat split; auto. }
  destruct (v_parent x0) as [p0|] eqn:Ep0.
  - destruct (Hmap 0 first x0 p0 eq_refl Hx0 Ep0) as (es & v & Hes & _). exact (Done es Hes).
  - destruct (t_inputs t f) as [es|] eqn:Et; [exact (Done es eq_refl)|].
    destruct (copy_ok (first :: rest) g E) as (g' & ws & A1 & A2 & A3 & A4).
    { intros o Ho. destruct (Hvar o Ho) as (x & Hx). destruct x as [d [p|]]; [|eauto]. exfalso.
      destruct (nth_of _ _ Ho) as (i & Hi). destruct (Hmap i o _ p Hi Hx eq_refl) as (es & v & H & _). congruence. }
    rewrite A1. cbn [obind]. unfold set_inputs at 1. cbn [t_inputs]. rewrite Nat.eqb_refl. cbv zeta.
    pose proof (Forall2_length _ _ _ A4) as Hlen.
    assert (Hfill : forall ws old, length ws = length old -> fill (1 <? length (first :: rest)) (map Some ws) old = Some ws).
    { induction ws0 as [|w ws0 IHw]; intros old Hl; [reflexivity|]. destruct old as [|o old]; [discriminate|]. cbn [map fill tl]. rewrite IHw; [reflexivity|cbn in Hl; lia]. }
    rewrite Hfill by congruence. cbn [obind].
    exists g', (set_inputs t f (map Some ws)), ws. split; [reflexivity|].
    assert (Hall : Forall2 (fun o v => R g' o v /\ clean v /\ v < length (g_vars g')) (first :: rest) ws).
    { apply forall2_nth. split; [exact Hlen|]. intros i o v Ho Hv. apply forall2_nth in A4. destruct A4 as (_ & A4). destruct (A4 i o v Ho Hv) as (d & B1 & B2 & B3).
      split; [|split; [apply clean_new; lia|lia]]. apply (R_leaf g' f y o d v); auto; [exact (ext_trans _ _ _ E A2)|rewrite Ein; exact (nth_error_In _ _ Ho)]. }
    split.
    { pose proof (inv_grow g g' t done I A2 A3) as I'. destruct I' as [J1 J2 J3 J4]. split.
      - exact J1.
      - apply (P_stable g' t); auto. apply prefix_refl.
      - intros h yh es Hh Hyh. unfold set_inputs. cbn [t_inputs]. destruct (h =? f) eqn:Eh; [|apply J3; auto].
        apply Nat.eqb_eq in Eh. subst h. rewrite Hy in Hyh. injection Hyh as <-. intros [= <-]. split; [rewrite map_length, Ein; congruence|]. split.
        + rewrite Ein. intros i v o Hv Ho. rewrite nth_error_map in Hv. destruct (nth_error ws i) as [w|] eqn:Ew; [|discriminate]. cbn in Hv. injection Hv as <-.
          apply forall2_nth in Hall. exact (proj2 Hall i o w Ho Ew).
        + exists 0. destruct ws as [|w ws]; [discriminate|]. exists w. reflexivity.
      - intros p x o h yh i Hp Op Hx Ho Oh Hyh Hi. unfold set_inputs. cbn [t_inputs]. destruct (h =? f) eqn:Eh; [|eapply J4; eauto].
        apply Nat.eqb_eq in Eh. subst h. destruct (J4 p x o f yh i Hp Op Hx Ho Oh Hyh Hi) as (es & v & H & _). congruence. }
    split; [exact A2|]. split; [exact A3|]. split; [reflexivity|]. split; [|split].
    + apply forall2_nth. apply forall2_nth in Hall. split; [tauto|]. intros i o v Ho Hv. exact (proj1 (proj2 Hall i o v Ho Hv)).
    + apply Forall_forall. intros v Hv. destruct (nth_of _ _ Hv) as (i & Hi). destruct (nth_len ws (first :: rest) i v (eq_sym Hlen) Hi) as (o & Ho).
      apply forall2_nth in Hall. exact (proj1 (proj2 (proj2 Hall i o v Ho Hi))).
    + apply Forall_forall. intros v Hv. destruct (nth_of _ _ Hv) as (i & Hi). destruct (nth_len ws (first :: rest) i v (eq_sym Hlen) Hi) as (o & Ho).
      apply forall2_nth in Hall. exact (proj2 (proj2 (proj2 Hall i o v Ho Hi))).
Qed.

(** The table after an output is entered for one function. *)
Definition table_ok g (t : table) : Prop := forall h y es, Ord h -> fn_of G h = Some y -> t_inputs t h = Some es -> entry_ok g y es.
Definition keeps (t t' : table) : Prop :=
  t_cnt t' = t_cnt t /\ forall h es i v, Ord h -> t_inputs t h = Some es -> nth_error es i = Some (Some v) -> exists es' v', t_inputs t' h = Some es' /\ nth_error es' i = Some (Some v').
Lemma keeps_refl t : keeps t t.
Proof. split; [reflexivity|eauto]. Qed.
Lemma keeps_trans a b c : keeps a b -> keeps b c -> keeps a c.
Proof. intros (A1 & A2) (B1 & B2). split; [congruence|]. intros h es i v Hh H1 H2. destruct (A2 h es i v Hh H1 H2) as (es' & v' & H3 & H4). eauto. Qed.

Lemma same_G g o o' x x' : ext G g -> nth_error (g_vars G) o = Some x -> nth_error (g_vars G) o' = Some x' -> same g o o' = same G o o'.
Proof. intros E H1 H2. unfold same, data, var_of. rewrite (ext_var _ _ _ _ E H1), (ext_var _ _ _ _ E H2), H1, H2. reflexivity. Qed.

Lemma link_fn_ok g t f x o0 o1 h0 : ext G g -> table_ok g t -> Ord f -> fn_of G f = Some x -> In o0 (f_out x) -> R g o0 o1 -> clean o1 -> o1 < length (g_vars g) ->
  In h0 (references G o0) ->
  table_ok g (link_fn g o0 o1 t h0) /\ keeps t (link_fn g o0 o1 t h0) /\
  (forall y i, Ord h0 -> fn_of G h0 = Some y -> nth_error (f_in y) i = Some o0 -> exists es v, t_inputs (link_fn g o0 o1 t h0) h0 = Some es /\ nth_error es i = Some (Some v)).
Proof.
  intros E T Hf Hx Ho HR Hc Hlt Href. apply references_in in Href. destruct Href as (y & Hy & Hin).
  destruct (built_out G BG f x o0 Hx Ho) as (d0 & Hd0).
  assert (Hsame : forall o', In o' (f_in y) -> same g o0 o' = same G o0 o').
  { intros o' H. destruct (built_in G BG h0 y o' Hy H) as (x' & Hx' & _). exact (same_G _ _ _ _ _ E Hd0 Hx'). }
  assert (Hself : same g o0 o0 = true). { unfold same, data, var_of. rewrite (ext_var _ _ _ _ E Hd0). apply Nat.eqb_refl. }
  unfold link_fn. replace (fn_of g h0) with (Some y) by (symmetry; exact (ext_fn _ _ _ _ E Hy)).
  set (l := match t_inputs t h0 with Some (e :: l) => e :: l | _ => repeat None (length (f_in y)) end).
  set (es' := map (fun '(i, v) => if same g o0 i then Some o1 else v) (combine (f_in y) l)).
  assert (Hl : Ord h0 -> length l = length (f_in y)).
  { intros Hh. unfold l. destruct (t_inputs t h0) as [[|e es]|] eqn:Et; try apply repeat_length. exact (proj1 (T h0 y _ Hh Hy Et)). }
  assert (Hes : forall i o', Ord h0 -> nth_error (f_in y) i = Some o' -> exists e, nth_error l i = Some e /\ nth_error es' i = Some (if same g o0 o' then Some o1 else e)).
  { intros i o' Hh Hi. destruct (nth_len (f_in y) l i o' (eq_sym (Hl Hh)) Hi) as (e & He). exists e. split; [exact He|]. unfold es'. rewrite nth_error_map, (nth_combine _ _ _ _ _ Hi He). reflexivity. }
  assert (Hlen : Ord h0 -> length es' = length (f_in y)).
  { intros Hh. unfold es'. rewrite map_length, combine_length, (Hl Hh). lia. }
  destruct (nth_of _ _ Hin) as (i0 & Hi0). split; [|split].
  - intros h yh es Hh Hyh. unfold set_inputs. cbn [t_inputs]. destruct (h =? h0) eqn:Eh; [|apply T; auto]. apply Nat.eqb_eq in Eh. subst h. rewrite Hy in Hyh. injection Hyh as <-.
    intros [= <-]. split; [exact (Hlen Hh)|]. split.
    + intros i v o' Hv Ho'. destruct (Hes i o' Hh Ho') as (e & He & He'). fold es' in Hv. rewrite He' in Hv. destruct (same g o0 o') eqn:Es.
      * injection Hv as <-. split; [|split; assumption]. pose proof (nth_error_In _ _ Ho') as Hin'. rewrite (Hsame o' Hin') in Es.
        exact (R_alias g f x h0 y o0 o' o1 E Hf Hx Ho Hh Hy Hin' Es HR).
      * injection Hv as ->. unfold l in He. destruct (t_inputs t h0) as [[|e0 es]|] eqn:Et; try (apply nth_repeat_none in He; discriminate).
        exact (proj1 (proj2 (T h0 y _ Hh Hy Et)) i v o' He Ho').
    + destruct (Hes i0 o0 Hh Hi0) as (e & _ & He'). rewrite Hself in He'. exists i0, o1. exact He'.
  - split; [reflexivity|]. intros h es i v Hh Ht Hv. unfold set_inputs. cbn [t_inputs]. destruct (h =? h0) eqn:Eh; [|eauto]. apply Nat.eqb_eq in Eh. subst h. exists es'.
    pose proof (proj1 (T h0 y es Hh Hy Ht)) as Hle. destruct (nth_len es (f_in y) i _ Hle Hv) as (o' & Ho'). destruct (Hes i o' Hh Ho') as (e & He & He'). rewrite He'.
    assert (e = Some v). { unfold l in He. rewrite Ht in He. destruct es as [|e0 es]; [destruct i; discriminate|]. congruence. }
    subst e. destruct (same g o0 o'); eauto.
  - intros yh i Hh Hyh Hi. rewrite Hy in Hyh. injection Hyh as <-. unfold set_inputs. cbn [t_inputs]. rewrite Nat.eqb_refl. exists es', o1. split; [reflexivity|].
    destruct (Hes i o0 Hh Hi) as (e & _ & He'). rewrite Hself in He'. exact He'.
Qed.

Lemma link_fns_ok g f x o0 o1 : ext G g -> Ord f -> fn_of G f = Some x -> In o0 (f_out x) -> R g o0 o1 -> clean o1 -> o1 < length (g_vars g) ->
  forall l t, incl l (references G o0) -> table_ok g t ->
  table_ok g (fold_left (link_fn g o0 o1) l t) /\ keeps t (fold_left (link_fn g o0 o1) l t) /\
  (forall h y i, In h l -> Ord h -> fn_of G h = Some y -> nth_error (f_in y) i = Some o0 -> exists es v, t_inputs (fold_left (link_fn g o0 o1) l t) h = Some es /\ nth_error es i = Some (Some v)).
Proof.
  intros E Hf Hx Ho HR Hc Hlt. induction l as [|h0 l IH]; intros t Hl T; cbn [fold_left].
  - split; [exact T|]. split; [apply keeps_refl|]. intros ? ? ? [].
  - destruct (link_fn_ok g t f x o0 o1 h0 E T Hf Hx Ho HR Hc Hlt (Hl h0 (or_introl eq_refl))) as (A1 & A2 & A3).
    destruct (IH (link_fn g o0 o1 t h0)) as (B1 & B2 & B3); [intros q Hq; apply Hl; right; exact Hq|exact A1|].
    split; [exact B1|]. split; [exact (keeps_trans _ _ _ A2 B2)|]. intros h y i [<-|Hh] Oh Hy Hi; [|exact (B3 h y i Hh Oh Hy Hi)].
    destruct (A3 y i Oh Hy Hi) as (es & v & H1 & H2). exact (proj2 B2 h0 es i v Oh H1 H2).
Qed.

Lemma link_ok g f x : ext G g -> Ord f -> fn_of G f = Some x ->
  forall l t, (forall o0 o1, In (o0, o1) l -> In o0 (f_out x) /\ R g o0 o1 /\ clean o1 /\ o1 < length (g_vars g)) -> table_ok g t ->
  table_ok g (link g l t) /\ keeps t (link g l t) /\
  (forall k o0 o1 h y i, nth_error l k = Some (o0, o1) -> (forall j a b, j <= k -> nth_error l j = Some (a, b) -> references G a <> []) ->
     Ord h -> fn_of G h = Some y -> nth_error (f_in y) i = Some o0 -> exists es v, t_inputs (link g l t) h = Some es /\ nth_error es i = Some (Some v)).
Proof.
  intros E Hf Hx. induction l as [|(o0, o1) l IH]; intros t Hl T; cbn [link].
  - split; [exact T|]. split; [apply keeps_refl|]. intros [|k]; discriminate.
  - destruct (Hl o0 o1 (or_introl eq_refl)) as (Ho & HR & Hc & Hlt). destruct (built_out G BG f x o0 Hx Ho) as (d0 & Hd0).
    rewrite (ext_references g o0 _ f E Hd0 eq_refl).
    destruct (references G o0) as [|r rs] eqn:Er.
    + split; [exact T|]. split; [apply keeps_refl|]. intros k a b h y i _ H. exfalso. exact (H 0 o0 o1 (Nat.le_0_l _) eq_refl Er).
    + destruct (link_fns_ok g f x o0 o1 E Hf Hx Ho HR Hc Hlt (r :: rs) t) as (A1 & A2 & A3); [rewrite Er; intros q Hq; exact Hq|exact T|].
      destruct (IH (fold_left (link_fn g o0 o1) (r :: rs) t)) as (B1 & B2 & B3); [intros a b H; apply Hl; right; exact H|exact A1|].
      split; [exact B1|]. split; [exact (keeps_trans _ _ _ A2 B2)|].
      intros [|k] a b h y i Hk Hall Oh Hy Hi.
      * cbn in Hk. injection Hk as -> ->. assert (Hh : In h (r :: rs)). { rewrite <- Er. apply references_in. exists y. split; [exact Hy|exact (nth_error_In _ _ Hi)]. }
        destruct (A3 h y i Hh Oh Hy Hi) as (es & v & H1 & H2). exact (proj2 B2 h es i v Oh H1 H2).
      * apply (B3 k a b h y i Hk); auto. intros j a' b' Hj Hjl. apply (Hall (S j) a' b'); [lia|exact Hjl].
Qed.

(** What a modifier has to do for a function. *)
Definition sound_modify (m : modifier V) (f : nat) (x : fn) : Prop := forall g t inputs, ext G g -> P g t -> Forall2 (R g) (f_in x) inputs -> Forall clean inputs ->
  Forall (fun v => v < length (g_vars g)) inputs ->
  exists g' t' o, m g t f inputs = Some (g', t', o) /\ ext g g' /\ P g' t' /\
    (forall h, t_inputs t' h = t_inputs t h \/ h = f /\ exists es, t_inputs t' h = Some (map Some es) /\ Forall2 (R g') (f_in x) es /\ Forall clean es /\ Forall (fun v => v < length (g_vars g')) es) /\
    match o with
    | Some v => exists o0, nth_error (f_out x) 0 = Some o0 /\ R g' o0 v /\ clean v /\ v < length (g_vars g') /\ (forall k o, nth_error (f_out x) (S k) = Some o -> references G o = [])
    | None => exists g'' outs, call blank min_outputs g' (f_op x) inputs = Some (g'', outs) /\ length outs = length (f_out x) /\ Forall2 (R g'') (f_out x) outs
    end.

Lemma call_ext g o inputs g' outs : call blank min_outputs g o inputs = Some (g', outs) -> Forall clean inputs -> ext g g'.
Proof.
  unfold call. destruct (min_outputs o (length inputs)) as [n|]; [|discriminate]. cbn [obind]. intros [= <- <-] Hc. cbn.
  split; [apply prefix_app|]. split; [|apply prefix_app]. exists [Fn o inputs (seq (length (g_vars g)) n)]. split; [reflexivity|]. constructor; [exact Hc|constructor].
Qed.
Lemma call_outs g o inputs g' outs : call blank min_outputs g o inputs = Some (g', outs) ->
  Forall (fun v => length (g_vars g) <= v < length (g_vars g')) outs /\ g_params g' = g_params g.
Proof.
  unfold call. destruct (min_outputs o (length inputs)) as [n|]; [|discriminate]. cbn [obind]. intros [= <- <-]. cbn. split; [|reflexivity].
  apply Forall_forall. intros v Hv. apply in_seq in Hv. rewrite app_length, map_length, seq_length. lia.
Qed.
Lemma ext_vars_le g g' : ext g g' -> length (g_vars g) <= length (g_vars g').
Proof. intros ((r & ->) & _). rewrite app_length. lia. Qed.

Theorem step_ok m g t done f x last : inv g t done -> Ord f -> fn_of G f = Some x -> after G done f -> (forall p, In p done -> Ord p) -> sound_modify m f x ->
  exists g' t' outs, step blank min_outputs m f (g, t, last) = Some (g', t', outs) /\ inv g' t' (done ++ [f]) /\ ext g g'.
Proof.
  intros I Hf Hx Ha Hd Hm. unfold step. replace (fn_of g f) with (Some x) by (symmetry; exact (ext_fn _ _ _ _ (inv_ext _ _ _ I) Hx)). cbn [obind].
  destruct (prepare_ok g t done f x I Hf Hx Ha Hd) as (g1 & t1 & inputs & A1 & A2 & A3 & A4 & A5 & A6 & A7 & A8). rewrite A1. cbn [obind].
  destruct (Hm g1 t1 inputs (inv_ext _ _ _ A2) (inv_P _ _ _ A2) A6 A7 A8) as (g2 & t2 & o & B1 & B2 & B3 & B4 & B5). rewrite B1. cbn [obind].
  pose proof (ext_trans _ _ _ (inv_ext _ _ _ A2) B2) as E2.
  (* the new outputs *)
  assert (O : exists g3 outs, match o with Some v => Some (g2, [v]) | None => call blank min_outputs g2 (f_op x) inputs end = Some (g3, outs) /\ ext g2 g3 /\ P g3 t2 /\
    (forall k o0 o1, nth_error (combine (f_out x) outs) k = Some (o0, o1) -> In o0 (f_out x) /\ R g3 o0 o1 /\ clean o1 /\ o1 < length (g_vars g3)) /\
    (forall k o0, nth_error (f_out x) k = Some o0 -> references G o0 <> [] -> exists o1, nth_error (combine (f_out x) outs) k = Some (o0, o1))).
  { destruct o as [v|].
    - destruct B5 as (o0 & C1 & C2 & C3 & C4 & C5). exists g2, [v]. split; [reflexivity|]. split; [apply ext_refl|]. split; [exact B3|].
      destruct (f_out x) as [|a outs] eqn:Eo; [discriminate|]. cbn in C1. injection C1 as ->. split.
      + intros [|k] a b Hk; cbn in Hk; [|destruct outs; destruct k; discriminate]. injection Hk as <- <-. split; [left; reflexivity|auto].
      + intros [|k] a Hk Hr; [cbn in Hk; injection Hk as <-; exists v; reflexivity|]. exfalso. apply Hr. apply (C5 k). exact Hk.
    - destruct B5 as (g3 & outs & C1 & C2 & C3). exists g3, outs. split; [exact C1|]. pose proof (call_ext _ _ _ _ _ C1 A7) as E3. destruct (call_outs _ _ _ _ _ C1) as (D1 & D2).
      split; [exact E3|]. split; [apply (P_stable g2 t2); auto; apply E3|]. split.
      + intros k a b Hk. apply nth_combine_inv in Hk. destruct Hk as (Hk1 & Hk2). split; [exact (nth_error_In _ _ Hk1)|]. apply forall2_nth in C3. split; [exact (proj2 C3 k a b Hk1 Hk2)|].
        rewrite Forall_forall in D1. specialize (D1 b (nth_error_In _ _ Hk2)). pose proof (ext_vars_le _ _ E2). split; [apply clean_new; lia|lia].
      + intros k a Hk _. destruct (nth_len (f_out x) outs k a (eq_sym C2) Hk) as (b & Hb). exists b. exact (nth_combine _ _ _ _ _ Hk Hb). }
  destruct O as (g3 & outs & O1 & O2 & O3 & O4 & O5). rewrite O1. cbn [obind].
  exists g3, (link g3 (combine (f_out x) outs) t2), outs. split; [reflexivity|].
  pose proof (ext_trans _ _ _ E2 O2) as E3. split; [|exact (ext_trans _ _ _ A3 (ext_trans _ _ _ B2 O2))].
  assert (T2 : table_ok g3 t2).
  { intros h y es Hh Hy Hes. destruct (B4 h) as [H|(-> & es' & H & F1 & F2 & F3)].
    - rewrite H in Hes. apply (entry_mono g1); [exact (ext_trans _ _ _ B2 O2)|]. exact (inv_sound _ _ _ A2 h y es Hh Hy Hes).
    - rewrite H in Hes. injection Hes as <-. rewrite Hx in Hy. injection Hy as <-. apply (entry_mono g2); [exact O2|].
      pose proof (Forall2_length _ _ _ F1) as Hlen. split; [rewrite map_length; congruence|]. split.
      + intros i v o' Hv Ho'. rewrite nth_error_map in Hv. destruct (nth_error es' i) as [w|] eqn:Ew; [|discriminate]. cbn in Hv. injection Hv as <-.
        apply forall2_nth in F1. rewrite Forall_forall in F2, F3. pose proof (nth_error_In _ _ Ew). split; [exact (proj2 F1 i o' w Ho' Ew)|]. split; [apply F2|apply F3]; assumption.
      + destruct (Ord_fn f Hf) as (x' & Hx' & Hne). rewrite Hx in Hx'. injection Hx' as <-. destruct (f_in x); [congruence|]. destruct es' as [|w es']; [discriminate|].
        exists 0, w. reflexivity. }
  destruct (link_ok g3 f x E3 Hf Hx (combine (f_out x) outs) t2) as (L1 & L2 & L3); [|exact T2|].
  { intros a b Hab. destruct (nth_of _ _ Hab) as (k & Hk). exact (O4 k a b Hk). }
  split.
  - exact E3.
  - apply (P_stable g3 t2); auto; [apply prefix_refl|apply L2].
  - exact L1.
  - intros p xp o' h y i Hp Op Hxp Ho' Oh Hy Hi. apply in_app_or in Hp. destruct Hp as [Hp|[<-|[]]].
    + destruct (inv_complete _ _ _ A2 p xp o' h y i Hp Op Hxp Ho' Oh Hy Hi) as (es & v & H1 & H2).
      destruct (B4 h) as [H|(-> & es' & H & F1 & _)].
      * rewrite <- H in H1. exact (proj2 L2 h es i v Oh H1 H2).
      * rewrite Hx in Hy. injection Hy as <-. destruct (nth_len (f_in x) es' i o' (Forall2_length _ _ _ F1) Hi) as (w & Hw).
        apply (proj2 L2 f (map Some es') i w Oh H). rewrite nth_error_map, Hw. reflexivity.
    + rewrite Hx in Hxp. injection Hxp as <-. destruct (nth_of _ _ Ho') as (k & Hk).
      assert (Hr : references G o' <> []). { intros He. assert (Hin : In h (references G o')) by (apply references_in; exists y; split; [exact Hy|exact (nth_error_In _ _ Hi)]). rewrite He in Hin. destruct Hin. }
      destruct (O5 k o' Hk Hr) as (o1 & Ho1). apply (L3 k o' o1 h y i Ho1); auto.
      intros j a b Hj Hjl. apply nth_combine_inv in Hjl. destruct Hjl as (Hja & _). destruct (Nat.eq_dec j k) as [->|Hne].
      * rewrite Hk in Hja. injection Hja as <-. exact Hr.
      * apply (Ord_used f x j k a o' Hf Hx); auto; lia.
Qed.

Theorem steps_ok m : forall l g t done last, inv g t done -> (forall p, In p done -> Ord p) -> (forall p, In p l -> Ord p) -> sorted G done l ->
  (forall f x, In f l -> fn_of G f = Some x -> sound_modify m f x) ->
  exists g' t' outs, steps blank min_outputs m l (g, t, last) = Some (g', t', outs) /\ inv g' t' (done ++ l) /\ ext g g'.
Proof.
  induction l as [|f l IH]; intros g t done last I Hd Hl Hs Hm; cbn [steps].
  - exists g, t, last. rewrite app_nil_r. split; [reflexivity|]. split; [exact I|apply ext_refl].
  - destruct Hs as (Ha & Hs). destruct (Ord_fn f (Hl f (or_introl eq_refl))) as (x & Hx & _).
    destruct (step_ok m g t done f x last I (Hl f (or_introl eq_refl)) Hx Ha Hd (Hm f x (or_introl eq_refl) Hx)) as (g1 & t1 & o1 & A1 & A2 & A3).
    rewrite A1. cbn [obind]. destruct (IH g1 t1 (done ++ [f]) o1 A2) as (g2 & t2 & o2 & B1 & B2 & B3).
    + intros p Hp. apply in_app_or in Hp. destruct Hp as [Hp|[<-|[]]]; [auto|]. apply Hl. left. reflexivity.
    + intros p Hp. apply Hl. right. exact Hp.
    + exact Hs.
    + intros q y Hq. apply Hm. right. exact Hq.
    + exists g2, t2, o2. rewrite <- app_assoc in B2. split; [exact B1|]. split; [exact B2|exact (ext_trans _ _ _ A3 B3)].
Qed.
End Step.
