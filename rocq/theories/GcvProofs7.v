(** Folding batch normalizations into the functions before them. *)
From Coq Require Import String List Arith Bool Lia.
From Verif Require Import IdxModel GcvModel GcvSpec GcvProofs1 GcvProofs2 GcvProofs3 GcvProofs4 GcvProofs5 GcvProofs6.
Import ListNotations.
Local Open Scope list_scope.

Lemma references_fn {V : Type} (g : graph V) o h : In h (references g o) -> exists y, fn_of g h = Some y /\ In o (f_in y).
Proof. unfold references, takes. rewrite filter_In. intros (_ & H). destruct (fn_of g h) as [y|]; [|discriminate]. apply member_in in H. eauto. Qed.
Lemma ip_not_bn n : is_ip n = true -> is_bn n = false.
Proof.
  unfold is_ip, is_bn, inner_products, bn_type. cbn [existsb]. intros H.
  destruct (String.eqb n "BatchNormalization") eqn:E; [|reflexivity]. apply String.eqb_eq in E. subst n. discriminate.
Qed.
Lemma bn_not_ip : is_ip "BatchNormalization" = false.
Proof. reflexivity. Qed.

Lemma ip_spec o : inner_product o <-> is_ip (op_type o) = true.
Proof.
  unfold inner_product, is_ip, inner_products. rewrite existsb_exists. split.
  - intros H. exists (op_type o). split; [exact H|apply String.eqb_refl].
  - intros (n & H & E). apply String.eqb_eq in E. rewrite E. exact H.
Qed.
Lemma folds_ip {V} (g : graph V) outs f x b y i w c o z ps : folds g outs f x b y i w c o z ps -> is_ip (op_type (f_op x)) = true.
Proof. intros F. apply ip_spec. exact (folds_type _ _ _ _ _ _ _ _ _ _ _ _ F). Qed.

Section FoldBn.
Context {V : Type} (sem : op -> list V -> option (list V)) (blank : V) (min_outputs : op -> nat -> option nat).
Variables (g0 : graph V) (outs : list nat).
Hypothesis C : convertible min_outputs g0 outs.
Let G := sunk blank g0 outs.
Implicit Types g : graph V.
Variables (need_grad : nat -> bool) (fold : op -> op -> V -> option V -> list V -> option (V * V)) (val : nat -> V).
Hypothesis Hv : valuation sem g0 outs val.
Hypothesis Hown : own_buffers g0 outs.
Hypothesis Hbn : forall b y, below g0 outs b -> nth_error (g_fns g0) b = Some y -> op_type (f_op y) = "BatchNormalization"%string ->
  exists o d p x, nth_error (f_in y) 0 = Some o /\ nth_error (g_vars g0) o = Some (Var d (Some p)) /\ nth_error (g_fns g0) p = Some x /\
    (is_ip (op_type (f_op x)) = true -> exists i w c z ps, folds g0 outs p x b y i w c o z ps) /\
    (forall f xf i w c o' z ps, ~ folds g0 outs f xf p x i w c o' z ps).
Hypothesis Hip : forall f x o h y, below g0 outs f -> nth_error (g_fns g0) f = Some x -> is_ip (op_type (f_op x)) = true -> nth_error (f_out x) 0 = Some o ->
  nth_error (g_fns g0) h = Some y -> In o (f_in y) -> op_type (f_op y) = "BatchNormalization"%string -> exists i w c z ps, folds g0 outs f x h y i w c o z ps.
Hypothesis Hlaw : forall f x b y i w c o z ps, folds g0 outs f x b y i w c o z ps -> exists wn bn,
  fold (f_op x) (f_op y) (val w) (Some (val c)) (map val (firstn 4 ps)) = Some (wn, bn) /\ sem (f_op x) [val i; wn; bn] = Some [val z] /\
  holds g0 (parameter_scope g0 w) "w-folded" 0 wn /\ holds g0 (parameter_scope g0 w) "b-folded" 0 bn.
Hypothesis Hscope : forall f x b y i w c o z ps f' x' b' y' i' w' c' o' z' ps',
  folds g0 outs f x b y i w c o z ps -> folds g0 outs f' x' b' y' i' w' c' o' z' ps' -> parameter_scope g0 w = parameter_scope g0 w' ->
  fold (f_op x) (f_op y) (val w) (Some (val c)) (map val (firstn 4 ps)) = fold (f_op x') (f_op y') (val w') (Some (val c')) (map val (firstn 4 ps')).

(** The value that the new variable has. *)
Definition tval (o : nat) (r : V) : Prop :=
  (exists f x b y i w c z ps, folds g0 outs f x b y i w c o z ps /\ r = val z) \/ (forall f x b y i w c z ps, ~ folds g0 outs f x b y i w c o z ps) /\ r = val o.
Definition folded_bn (b : nat) : Prop := exists f x y i w c o z ps, folds g0 outs f x b y i w c o z ps.
Definition fR (g : graph V) (o v : nat) : Prop :=
  (exists r, tval o r /\ computes sem g v r) /\
  (forall d p x, nth_error (g_vars g0) o = Some (Var d (Some p)) -> nth_error (g_fns g0) p = Some x ->
     exists q y, parent g v = Some q /\ fn_of g q = Some y /\ (is_ip (op_type (f_op y)) = true <-> is_ip (op_type (f_op x)) = true \/ folded_bn p)) /\
  (forall d, nth_error (g_vars g0) o = Some (Var d None) -> data g v = Some d).

Lemma folds_parent f x b y i w c o z ps : folds g0 outs f x b y i w c o z ps -> exists d, nth_error (g_vars g0) o = Some (Var d (Some f)).
Proof. intros F. apply (out_parent min_outputs g0 outs C f x o (folds_fn _ _ _ _ _ _ _ _ _ _ _ _ F)). rewrite (folds_out _ _ _ _ _ _ _ _ _ _ _ _ F). left. reflexivity. Qed.
Lemma folds_same f x b y i w c o z ps f' x' b' y' i' w' c' z' ps' : folds g0 outs f x b y i w c o z ps -> folds g0 outs f' x' b' y' i' w' c' o z' ps' ->
  f = f' /\ x = x' /\ b = b' /\ y = y' /\ z = z'.
Proof.
  intros F F'. destruct (folds_parent _ _ _ _ _ _ _ _ _ _ F) as (d & H1). destruct (folds_parent _ _ _ _ _ _ _ _ _ _ F') as (d' & H2). rewrite H1 in H2. injection H2 as _ <-.
  pose proof (folds_fn _ _ _ _ _ _ _ _ _ _ _ _ F) as X. pose proof (folds_fn _ _ _ _ _ _ _ _ _ _ _ _ F') as X'. rewrite X in X'. injection X' as <-.
  assert (Hb : b' = b).
  { apply (folds_alone _ _ _ _ _ _ _ _ _ _ _ _ F b' y' (folds_bn_fn _ _ _ _ _ _ _ _ _ _ _ _ F')). rewrite (folds_bn_in _ _ _ _ _ _ _ _ _ _ _ _ F'). left. reflexivity. }
  subst b'. pose proof (folds_bn_fn _ _ _ _ _ _ _ _ _ _ _ _ F) as Y. pose proof (folds_bn_fn _ _ _ _ _ _ _ _ _ _ _ _ F') as Y'. rewrite Y in Y'. injection Y' as <-.
  pose proof (folds_bn_out _ _ _ _ _ _ _ _ _ _ _ _ F) as Z. pose proof (folds_bn_out _ _ _ _ _ _ _ _ _ _ _ _ F') as Z'. rewrite Z in Z'. injection Z' as <-. auto.
Qed.

Lemma leaf_tval o d r : nth_error (g_vars g0) o = Some (Var d None) -> tval o r <-> r = val o.
Proof.
  intros Ho. split.
  - intros [(f & x & b & y & i & w & c & z & ps & F & _)|(_ & H)]; [|exact H]. destruct (folds_parent _ _ _ _ _ _ _ _ _ _ F) as (d' & Hd). congruence.
  - intros ->. right. split; [|reflexivity]. intros f x b y i w c z ps F. destruct (folds_parent _ _ _ _ _ _ _ _ _ _ F) as (d' & Hd). congruence.
Qed.

Lemma fR_mono g g' o v : ext G g g' -> fR g o v -> fR g' o v.
Proof.
  intros E ((r & A1 & A2) & B & D). split; [exists r; split; [exact A1|exact (computes_mono sem G g g' E v r A2)]|]. split.
  - intros d p x H1 H2. destruct (B d p x H1 H2) as (q & y & Hq & Hy & Hi). exists q, y. split; [|split; [exact (ext_fn _ _ _ _ _ E Hy)|exact Hi]].
    apply parent_spec in Hq. destruct Hq as (xv & Hxv & Hp). rewrite (ext_parent _ _ _ _ _ E Hxv). exact Hp.
  - intros d Hd. exact (data_mono blank g0 outs _ _ _ _ E (D d Hd)).
Qed.
Lemma fR_leaf g o d v : ext G G g -> relevant g0 outs o -> nth_error (g_vars g0) o = Some (Var d None) -> nth_error (g_vars g) v = Some (Var d None) -> fR g o v.
Proof.
  intros E Hr Ho Hn. destruct (lR_leaf sem blank g0 outs val g o d v (val_leaf _ _ _ _ Hv o d Hr Ho) E Ho Hn) as (A & B). split; [|split].
  - exists (val o). split; [|exact A]. apply (leaf_tval o d); auto.
  - intros d' p x H. congruence.
  - exact B.
Qed.

(** An input that is not the output of a folded function. *)
Lemma fR_val g o v : fR g o v -> (forall f x b y i w c z ps, ~ folds g0 outs f x b y i w c o z ps) -> computes sem g v (val o).
Proof. intros ((r & [(f & x & b & y & i & w & c & z & ps & F & _)|(_ & ->)] & H) & _) Hn; [exfalso; exact (Hn _ _ _ _ _ _ _ _ _ F)|exact H]. Qed.

Definition P (g : graph V) (t : table) : Prop := kept g0 g /\ forall f x b y i w c o z ps, folds g0 outs f x b y i w c o z ps -> forall wn bn,
  fold (f_op x) (f_op y) (val w) (Some (val c)) (map val (firstn 4 ps)) = Some (wn, bn) ->
  holds g (parameter_scope g0 w) "w-folded" 0 wn /\ holds g (parameter_scope g0 w) "b-folded" 0 bn.

Definition goal f x g t inputs (r : option (graph V * table * option nat)) : Prop := exists g' t' o, r = Some (g', t', o) /\ ext G g g' /\ P g' t' /\
  (forall h, t_inputs t' h = t_inputs t h \/ h = f /\ exists es, t_inputs t' h = Some (map Some es) /\ Forall2 (fR g') (f_in x) es /\ Forall (clean G) es /\ Forall (fun v => v < length (g_vars g')) es) /\
  match o with
  | Some v => exists o0, nth_error (f_out x) 0 = Some o0 /\ fR g' o0 v /\ clean G v /\ v < length (g_vars g') /\ (forall k o, nth_error (f_out x) (S k) = Some o -> references G o = [])
  | None => exists g'' outs, call blank min_outputs g' (f_op x) inputs = Some (g'', outs) /\ length outs = length (f_out x) /\ Forall2 (fR g'') (f_out x) outs
  end.

(** A function that is neither folded nor a folded batch normalization is called again. *)
Lemma fold_same f x g t inputs : below g0 outs f -> nth_error (g_fns g0) f = Some x -> ext G G g -> P g t -> Forall2 (fR g) (f_in x) inputs -> Forall (clean G) inputs ->
  ~ folded_bn f -> (forall b y i w c o z ps, ~ folds g0 outs f x b y i w c o z ps) -> goal f x g t inputs (unchanged g t).
Proof.
  intros Hf Hx E HP Hi Hc Hnb Hnf. exists g, t, None. split; [reflexivity|]. split; [apply ext_refl|]. split; [exact HP|]. split; [auto|].
  assert (Hin : Forall2 (fun o v => computes sem g v (val o)) (f_in x) inputs).
  { apply forall2_nth in Hi. apply forall2_nth. split; [tauto|]. intros k o v Ho Hv'. apply fR_val; [exact (proj2 Hi k o v Ho Hv')|].
    intros f' x' b y i w c z ps F. apply Hnb. assert (f = b) by (apply (folds_alone _ _ _ _ _ _ _ _ _ _ _ _ F f x Hx); exact (nth_error_In _ _ Ho)). subst b. unfold folded_bn. eauto 12. }
  destruct (same_fn sem blank min_outputs g0 outs C fR val f x g inputs Hf Hx (val_fn _ _ _ _ Hv f x Hf Hx) Hin Hc) as (g'' & l & A1 & A2 & A3).
  exists g'', l. split; [exact A1|]. split; [exact A2|]. apply forall2_nth. apply forall2_nth in A3. split; [tauto|]. intros k a b Ha Hb.
  destruct (out_parent min_outputs g0 outs C f x a Hx (nth_error_In _ _ Ha)) as (d & Hd). split; [|split].
  - exists (val a). split; [|exact (proj2 A3 k a b Ha Hb)]. right. split; [|reflexivity]. intros f' x' b' y i w c z ps F. destruct (folds_parent _ _ _ _ _ _ _ _ _ _ F) as (d' & Hd'). rewrite Hd in Hd'.
    injection Hd' as _ <-. pose proof (folds_fn _ _ _ _ _ _ _ _ _ _ _ _ F) as X. rewrite Hx in X. injection X as <-. exact (Hnf _ _ _ _ _ _ _ _ F).
  - intros d' p xp Hdp Hp. rewrite Hd in Hdp. injection Hdp as _ <-. rewrite Hx in Hp. injection Hp as <-.
    unfold call in A1. destruct (min_outputs (f_op x) (length inputs)) as [n|]; [|discriminate]. cbn [obind] in A1. injection A1 as <- <-. rewrite seq_length in A2.
    exists (length (g_fns g)), (Fn (f_op x) inputs (seq (length (g_vars g)) n)). split; [|split].
    + assert (Hk : k < n) by (rewrite <- (seq_length n (length (g_vars g))); apply nth_error_Some; congruence).
      rewrite (nth_error_nth' _ 0) in Hb by (rewrite seq_length; exact Hk). rewrite seq_nth in Hb by exact Hk. injection Hb as <-.
      unfold parent, var_of. cbn [g_vars]. rewrite nth_error_app2 by lia. replace (length (g_vars g) + k - length (g_vars g)) with k by lia. rewrite nth_error_map.
      rewrite (nth_error_nth' _ 0) by (rewrite seq_length; exact Hk). reflexivity.
    + unfold fn_of. cbn [g_fns]. rewrite nth_error_app2, Nat.sub_diag by lia. reflexivity.
    + cbn [f_op]. split; [auto|]. intros [H|H]; [exact H|contradiction].
  - intros d' H. congruence.
Qed.

Lemma only_reference f x b y i w c o z ps g : ext G G g -> folds g0 outs f x b y i w c o z ps -> references g o = [b].
Proof.
  intros E F. rewrite (refs_out blank min_outputs g0 outs C g f x o E (folds_fn _ _ _ _ _ _ _ _ _ _ _ _ F)) by (rewrite (folds_out _ _ _ _ _ _ _ _ _ _ _ _ F); left; reflexivity). fold G.
  assert (Hb : In b (references G o)).
  { apply references_in. exists y. split; [exact (fn_old blank g0 outs b y (folds_bn_fn _ _ _ _ _ _ _ _ _ _ _ _ F))|]. rewrite (folds_bn_in _ _ _ _ _ _ _ _ _ _ _ _ F). left. reflexivity. }
  assert (Hall : forall h, In h (references G o) -> h = b).
  { intros h Hh. apply references_in in Hh. destruct Hh as (yh & Hyh & Ho). apply (fn_cases blank g0 outs) in Hyh. destruct Hyh as [Hyh|(-> & ->)].
    - exact (folds_alone _ _ _ _ _ _ _ _ _ _ _ _ F h yh Hyh Ho).
    - exfalso. exact (folds_not_out _ _ _ _ _ _ _ _ _ _ _ _ F Ho). }
  assert (ND : NoDup (references G o)) by (unfold references; apply NoDup_filter, seq_NoDup).
  destruct (references G o) as [|h [|h' l]]; [destruct Hb| |].
  - rewrite (Hall h (or_introl eq_refl)). reflexivity.
  - exfalso. inversion ND as [|? ? Hn _]; subst. apply Hn. left. rewrite (Hall h (or_introl eq_refl)), (Hall h' (or_intror (or_introl eq_refl))). reflexivity.
Qed.

Lemma leaf_content g v : ext G G g -> relevant g0 outs v -> leaf g0 v -> content g v = Some (val v).
Proof. intros E Hr (d & Hd). exact (content_leaf blank g0 outs g v d (val v) E Hd (val_leaf _ _ _ _ Hv v d Hr Hd)). Qed.

Theorem fold_bn_modify f x : below g0 outs f -> nth_error (g_fns g0) f = Some x -> sound_modify blank min_outputs G fR P (fold_bn blank min_outputs need_grad fold) f x.
Proof.
  intros Hf Hx g t inputs E HP Hi Hc Hl. change (goal f x g t inputs (fold_bn blank min_outputs need_grad fold g t f inputs)).
  unfold fold_bn. rewrite (fn_ext blank g0 outs g f x E Hx). cbn [obind]. destruct (below_used min_outputs g0 outs C f x Hf Hx) as (ou & Hou & _).
  destruct (f_out x) as [|o ot] eqn:Eo; [destruct Hou|]. cbn [nth_error obind]. clear ou Hou.
  assert (Hrefs : references g o = references G o) by (apply (refs_out blank min_outputs g0 outs C g f x o E Hx); rewrite Eo; left; reflexivity).
  destruct (is_bn (op_type (f_op x))) eqn:Ebn.
  - (* a batch normalization *)
    apply String.eqb_eq in Ebn. destruct (Hbn f x Hf Hx Ebn) as (oi & d & p & xp & A1 & A2 & A3 & A4 & A5).
    destruct (f_in x) as [|oi' ri] eqn:Ein; [discriminate|]. cbn in A1. injection A1 as ->. inversion Hi as [|? v0 ? l0 Hv0 Hl0 E1 E2]; subst. cbn [nth_error obind].
    destruct Hv0 as ((r & Hr & Hcomp) & Hpar & Hdat). destruct (Hpar d p xp A2 A3) as (q & y & Hq & Hy & Hiff).
    assert (Hnip : forall b y i w c o z ps, ~ folds g0 outs f x b y i w c o z ps).
    { intros b0 y0 i w c o0 z ps F. pose proof (folds_ip _ _ _ _ _ _ _ _ _ _ _ _ F) as H. rewrite Ebn in H. discriminate. }
    destruct (is_ip (op_type (f_op xp))) eqn:Eip.
    + destruct (A4 eq_refl) as (i & w & c & z & ps & F). pose proof (folds_bn_out _ _ _ _ _ _ _ _ _ _ _ _ F) as Ho. rewrite Eo in Ho. injection Ho as -> ->.
      assert (Hrz : references g z <> []).
      { destruct (first_used min_outputs g0 outs C f x Hf Hx) as (o0 & Ho0 & Hu); [rewrite Eo; intros [|k] o1; discriminate|]. rewrite Eo in Ho0. injection Ho0 as <-.
        apply (used_references blank) in Hu. exact (refs_ext blank g0 outs g z E Hu). }
      destruct (references g z) as [|n rs]; [congruence|]. rewrite Hq. cbn [obind]. unfold type_of. rewrite Hy. cbn [obind]. rewrite (proj2 Hiff (or_introl eq_refl)).
      inversion Hc; subst. inversion Hl; subst. exists g, t, (Some v0). split; [reflexivity|]. split; [apply ext_refl|]. split; [exact HP|]. split; [auto|]. exists z. rewrite Eo. split; [reflexivity|].
      assert (Hfb : folded_bn f) by (unfold folded_bn; eauto 12).
      destruct (out_parent min_outputs g0 outs C f x z Hx) as (dz & Hdz); [rewrite Eo; left; reflexivity|].
      split; [|split; [assumption|split; [assumption|intros [|k] o1; discriminate]]]. split; [|split].
      * exists (val z). split.
        { right. split; [|reflexivity]. intros f' x' b' y' i' w' c' z' ps' F'. destruct (folds_parent _ _ _ _ _ _ _ _ _ _ F') as (d' & Hd'). rewrite Hdz in Hd'. injection Hd' as _ <-.
          pose proof (folds_fn _ _ _ _ _ _ _ _ _ _ _ _ F') as X. rewrite Hx in X. injection X as <-. exact (Hnip _ _ _ _ _ _ _ _ F'). }
        { destruct Hr as [(f' & x' & b' & y' & i' & w' & c' & z' & ps' & F' & ->)|(Hn & _)]; [|exfalso; exact (Hn _ _ _ _ _ _ _ _ _ F)].
          destruct (folds_same _ _ _ _ _ _ _ _ _ _ _ _ _ _ _ _ _ _ _ F F') as (_ & _ & _ & _ & <-). exact Hcomp. }
      * intros d' p' x' Hz1 Hz2. rewrite Hdz in Hz1. injection Hz1 as _ <-. exists q, y. split; [exact Hq|]. split; [exact Hy|]. split; [auto|]. intros _. apply Hiff. auto.
      * intros d' H. congruence.
    + assert (Hnb : ~ folded_bn f).
      { intros (f' & x' & y' & i & w & c & o' & z & ps & F). pose proof (folds_bn_fn _ _ _ _ _ _ _ _ _ _ _ _ F) as Y. rewrite Hx in Y. injection Y as <-.
        pose proof (folds_bn_in _ _ _ _ _ _ _ _ _ _ _ _ F) as I'. rewrite Ein in I'. injection I' as <- <-. destruct (folds_parent _ _ _ _ _ _ _ _ _ _ F) as (d' & Hd'). rewrite A2 in Hd'. injection Hd' as _ <-.
        pose proof (folds_fn _ _ _ _ _ _ _ _ _ _ _ _ F) as X. rewrite A3 in X. injection X as <-. pose proof (folds_ip _ _ _ _ _ _ _ _ _ _ _ _ F). congruence. }
      assert (Hny : is_ip (op_type (f_op y)) = false).
      { destruct (is_ip (op_type (f_op y))); [|reflexivity]. destruct (proj1 Hiff eq_refl) as [H|(f' & x' & y' & i & w & c & o' & z & ps & F)]; [discriminate|].
        pose proof (folds_bn_fn _ _ _ _ _ _ _ _ _ _ _ _ F) as Y. rewrite A3 in Y. injection Y as <-. exfalso. exact (A5 _ _ _ _ _ _ _ _ F). }
      assert (S0 : goal f x g t (v0 :: l0) (unchanged g t)). { apply fold_same; auto. rewrite Ein. exact Hi. }
      destruct (references g o) as [|n rs] eqn:Er; [exact S0|]. rewrite Hq. cbn [obind]. unfold type_of. rewrite Hy. cbn [obind]. rewrite Hny.
      assert (Hn : In n (references g o)) by (rewrite Er; left; reflexivity). apply references_fn in Hn. destruct Hn as (yn & Hyn & _). rewrite Hyn. cbn [obind].
      destruct (negb (is_bn (op_type (f_op yn)))); [exact S0|]. destruct (negb match rs with [] => true | _ :: _ => false end); [exact S0|]. rewrite Ebn. change (is_ip bn_type) with false. exact S0.
  - (* another function *)
    assert (Hnb : ~ folded_bn f).
    { intros (f' & x' & y' & i & w & c & o' & z & ps & F). pose proof (folds_bn_fn _ _ _ _ _ _ _ _ _ _ _ _ F) as Y. rewrite Hx in Y. injection Y as <-.
      pose proof (folds_bn _ _ _ _ _ _ _ _ _ _ _ _ F) as H. rewrite H in Ebn. discriminate. }
    assert (S0 : (forall b y i w c o z ps, ~ folds g0 outs f x b y i w c o z ps) -> goal f x g t inputs (unchanged g t)) by (intros Hn; apply fold_same; auto).
    assert (Hfo : forall b y i w c o' z ps, folds g0 outs f x b y i w c o' z ps -> o' = o /\ ot = []).
    { intros b y i w c o' z ps F. pose proof (folds_out _ _ _ _ _ _ _ _ _ _ _ _ F) as H. rewrite Eo in H. injection H as -> ->. auto. }
    destruct (references g o) as [|n rs] eqn:Er.
    { apply S0. intros b y i w c o' z ps F. destruct (Hfo _ _ _ _ _ _ _ _ F) as (-> & _). rewrite (only_reference _ _ _ _ _ _ _ _ _ _ g E F) in Er. discriminate. }
    cbn [obind]. assert (Hn : In n (references G o)) by (rewrite <- Hrefs; left; reflexivity). apply references_in in Hn. destruct Hn as (yn & Hyn & Hon).
    replace (fn_of g n) with (Some yn) by (symmetry; exact (ext_fn _ _ _ _ _ E Hyn)). cbn [obind].
    destruct (is_bn (op_type (f_op yn))) eqn:Eyn; cbn [negb].
    2:{ apply S0. intros b y i w c o' z ps F. destruct (Hfo _ _ _ _ _ _ _ _ F) as (-> & _). rewrite (only_reference _ _ _ _ _ _ _ _ _ _ g E F) in Er. injection Er as <- <-.
        pose proof (fn_old blank g0 outs b y (folds_bn_fn _ _ _ _ _ _ _ _ _ _ _ _ F)) as Y. fold G in Y. rewrite Hyn in Y. injection Y as <-. rewrite (folds_bn _ _ _ _ _ _ _ _ _ _ _ _ F) in Eyn. discriminate. }
    destruct rs as [|r1 rs]; cbn [negb].
    2:{ apply S0. intros b y i w c o' z ps F. destruct (Hfo _ _ _ _ _ _ _ _ F) as (-> & _). rewrite (only_reference _ _ _ _ _ _ _ _ _ _ g E F) in Er. discriminate. }
    destruct (is_ip (op_type (f_op x))) eqn:Eip; cbn [negb].
    2:{ apply S0. intros b y i w c o' z ps F. pose proof (folds_ip _ _ _ _ _ _ _ _ _ _ _ _ F). congruence. }
    apply String.eqb_eq in Eyn. assert (Hyn0 : nth_error (g_fns g0) n = Some yn).
    { apply (fn_cases blank g0 outs) in Hyn. destruct Hyn as [Hyn|(_ & ->)]; [exact Hyn|]. discriminate Eyn. }
    destruct (Hip f x o n yn Hf Hx Eip) as (i & w & c & z & ps & F); auto; [rewrite Eo; reflexivity|].
    rewrite (folds_in _ _ _ _ _ _ _ _ _ _ _ _ F). cbn [nth_error obind].
    assert (Rel : forall v, In v [i; w; c] -> relevant g0 outs v) by (intros v Hvv; right; exists f, x; rewrite (folds_in _ _ _ _ _ _ _ _ _ _ _ _ F); auto).
    assert (Bb : below g0 outs n).
    { destruct (below_used min_outputs g0 outs C f x Hf Hx) as (ou & Hou & Hu). rewrite Eo in Hou. destruct (Hfo _ _ _ _ _ _ _ _ F) as (_ & ->). destruct Hou as [<-|[]].
      assert (K : forall v yv, nth_error (g_vars g0) v = Some yv -> v_parent yv = Some f -> v = o).
      { intros v yv Hv1 Hv2. destruct (built_parent _ (conv_built _ _ _ C) v yv f Hv1 Hv2) as (x' & Hx' & Hv3). rewrite Hx in Hx'. injection Hx' as <-. rewrite Eo in Hv3. destruct Hv3 as [<-|[]]. reflexivity. }
      inversion Hf as [v yv f1 B1 B2 B3|h yh v yv f1 B1 B2 B3 B4 B5]; subst.
      - exfalso. rewrite (K v yv B2 B3) in B1. exact (folds_not_out _ _ _ _ _ _ _ _ _ _ _ _ F B1).
      - rewrite (K v yv B4 B5) in B3. rewrite <- (folds_alone _ _ _ _ _ _ _ _ _ _ _ _ F h yh B2 B3). exact B1. }
    rewrite (leaf_content g w E (Rel w (or_intror (or_introl eq_refl))) (folds_w _ _ _ _ _ _ _ _ _ _ _ _ F)). cbn [obind].
    rewrite (leaf_content g c E (Rel c (or_intror (or_intror (or_introl eq_refl)))) (folds_c _ _ _ _ _ _ _ _ _ _ _ _ F)). cbn [obind].
    rewrite (folds_bn_in _ _ _ _ _ _ _ _ _ _ _ _ F). cbn [tl].
    rewrite (contents_leaf blank g0 outs g (firstn 4 ps) (map val (firstn 4 ps)) E).
    2:{ apply forall2_map. pose proof (folds_ps _ _ _ _ _ _ _ _ _ _ _ _ F) as B3.
        assert (Hin : forall v, In v (firstn 4 ps) -> relevant g0 outs v).
        { intros v H. right. exists n, yn. split; [exact Bb|]. split; [exact Hyn0|]. left. rewrite (folds_bn_in _ _ _ _ _ _ _ _ _ _ _ _ F). right. rewrite <- (firstn_skipn 4 ps). apply in_or_app. auto. }
        clear -B3 Hin Hv. induction (firstn 4 ps) as [|v l IH]; constructor.
        - destruct (B3 v (or_introl eq_refl)) as (d & Hd). exists d. split; [exact Hd|]. apply (val_leaf _ _ _ _ Hv); [apply Hin; left; reflexivity|exact Hd].
        - apply IH; intros v' Hv'; [apply B3|apply Hin]; right; exact Hv'. }
    cbn [obind]. destruct (Hlaw _ _ _ _ _ _ _ _ _ _ F) as (wn & bn & L1 & L2 & _ & _). rewrite L1. cbn [obind].
    destruct (proj2 HP _ _ _ _ _ _ _ _ _ _ F wn bn L1) as (HW & HB).
    rewrite (folds_in _ _ _ _ _ _ _ _ _ _ _ _ F) in Hi. inversion Hi as [|? iv ? l1 Hiv Hl1 X1 X2]; subst. inversion Hl1 as [|? wv ? l2 Hwv Hl2 X3 X4]; subst. inversion Hl2 as [|? cv ? l3 Hcv Hl3 X5 X6]; subst. inversion Hl3; subst.
    destruct (folds_w _ _ _ _ _ _ _ _ _ _ _ _ F) as (dw & Hdw).
    assert (Hd0 : dw < length (g_store g0)) by (apply nth_error_Some; rewrite (val_leaf _ _ _ _ Hv w dw (Rel w (or_intror (or_introl eq_refl))) Hdw); discriminate).
    assert (Hsc : parameter_scope g wv = parameter_scope g0 w). { apply (scope_kept g0 g w wv dw (proj1 HP) Hd0); [unfold data, var_of; rewrite Hdw; reflexivity|]. exact (proj2 (proj2 Hwv) dw Hdw). }
    rewrite Hsc. destruct (goc_ok G g (parameter_scope g0 w) "w-folded" 0 (need_grad wv) wn HW) as (g1 & w1 & d1 & D1 & D2 & D3 & D4 & D5 & D6 & D7 & D8 & D9). rewrite D1.
    assert (HB1 : holds g1 (parameter_scope g0 w) "b-folded" 0 bn).
    { destruct D9 as [D9|(_ & D9 & D9')]; [exact (holds_stable g g1 _ _ _ _ HB D9 D8)|]. apply (holds_other g g1 _ _ _ _ _ _ _ _ wn _ D9' D8 D7 HB). intros _ H. discriminate. }
    destruct (goc_ok G g1 (parameter_scope g0 w) "b-folded" 0 (need_grad cv) bn HB1) as (g2 & b2 & d2 & F1 & F2 & F3 & F4 & F5 & F6 & F7 & F8 & F9). rewrite F1.
    pose proof (ext_trans _ _ _ _ E D2) as E1. pose proof (ext_trans _ _ _ _ E1 F2) as E2. pose proof (ext_vars_le _ _ _ E) as LE. pose proof (ext_vars_le _ _ _ D2) as LE1.
    inversion Hc as [|? ? Hc1 _]; subst.
    assert (Hi0 : computes sem g iv (val i)).
    { apply (fR_val g i iv Hiv). intros f' x' b' y' i' w' c' z' ps' F'. apply Hnb. assert (f = b') by (apply (folds_alone _ _ _ _ _ _ _ _ _ _ _ _ F' f x Hx); rewrite (folds_in _ _ _ _ _ _ _ _ _ _ _ _ F); left; reflexivity). subst b'. unfold folded_bn. eauto 12. }
    destruct (returned_one sem blank min_outputs g0 outs g2 t (f_op x) [iv; length (g_vars g); length (g_vars g1)] [val i; wn; bn] (val z)) as (g3 & ov & K1 & K2 & K3 & K4 & K5 & K6 & K7 & K8 & K9); [|exact E2| |exact L2| |].
    { constructor; [exact Hc1|]. constructor; [apply clean_new; exact LE|]. constructor; [apply clean_new; fold G; lia|]. constructor. }
    { constructor; [exact (computes_mono sem G g g2 (ext_trans _ _ _ _ D2 F2) _ _ Hi0)|]. constructor; [|constructor; [|constructor]].
      - exact (computes_leaf sem g2 _ d1 wn (ext_var _ _ _ _ _ F2 D6) (ext_store _ _ _ _ _ F2 D7)).
      - exact (computes_leaf sem g2 _ d2 bn F6 F7). }
    { pose proof (conv_call _ _ _ C f x Hf Hx) as H. rewrite (folds_in _ _ _ _ _ _ _ _ _ _ _ _ F), (folds_out _ _ _ _ _ _ _ _ _ _ _ _ F) in H. exact H. }
    rewrite K2. exists g3, t, (Some ov). split; [reflexivity|]. split; [exact (ext_trans _ _ _ _ (ext_trans _ _ _ _ D2 F2) K3)|]. split.
    { destruct HP as (HK & HH). pose proof K3 as (_ & _ & K3s).
      assert (K1' : kept g0 g1). { destruct D9 as [D9|(_ & D9 & D9')]; [destruct HK as (ad & Q1 & Q2); exists ad; rewrite D9; auto|].
        apply (kept_goc g0 g g1 (Param (parameter_scope g0 w) "w-folded" 0 (need_grad wv) d1) d1 HK (prefix_sunk blank g0 outs g E) (or_intror eq_refl) D9 D9'). }
      assert (K2' : kept g0 g2). { destruct F9 as [F9|(_ & F9 & F9')]; [destruct K1' as (ad & Q1 & Q2); exists ad; rewrite F9; auto|].
        apply (kept_goc g0 g1 g2 (Param (parameter_scope g0 w) "b-folded" 0 (need_grad cv) d2) d2 K1' (prefix_sunk blank g0 outs g1 E1) (or_intror eq_refl) F9 F9'). }
      split; [destruct K2' as (ad & Q1 & Q2); exists ad; rewrite K4; auto|].
      intros f' x' b' y' i' w' c' o' z' ps' F' wn' bn' Hfold. destruct (HH _ _ _ _ _ _ _ _ _ _ F' wn' bn' Hfold) as (HW' & HB').
      assert (Heq : parameter_scope g0 w' = parameter_scope g0 w -> wn' = wn /\ bn' = bn).
      { intros Hs. pose proof (Hscope _ _ _ _ _ _ _ _ _ _ _ _ _ _ _ _ _ _ _ _ F' F Hs) as H. rewrite Hfold, L1 in H. injection H as -> ->. auto. }
      split.
      - apply (holds_stable g2 g3 _ _ _ _); [|exact K4|exact K3s].
        assert (holds g1 (parameter_scope g0 w') "w-folded" 0 wn').
        { destruct D9 as [D9|(_ & D9 & D9')]; [exact (holds_stable g g1 _ _ _ _ HW' D9 D8)|]. apply (holds_other g g1 _ _ _ _ _ _ _ _ wn _ D9' D8 D7 HW'). intros Hs _ _. apply Heq, Hs. }
        destruct F9 as [F9|(_ & F9 & F9')]; [exact (holds_stable g1 g2 _ _ _ _ H F9 F8)|]. apply (holds_other g1 g2 _ _ _ _ _ _ _ _ bn _ F9' F8 F7 H). intros _ Hs. discriminate.
      - apply (holds_stable g2 g3 _ _ _ _); [|exact K4|exact K3s].
        assert (holds g1 (parameter_scope g0 w') "b-folded" 0 bn').
        { destruct D9 as [D9|(_ & D9 & D9')]; [exact (holds_stable g g1 _ _ _ _ HB' D9 D8)|]. apply (holds_other g g1 _ _ _ _ _ _ _ _ wn _ D9' D8 D7 HB'). intros _ Hs. discriminate. }
        destruct F9 as [F9|(_ & F9 & F9')]; [exact (holds_stable g1 g2 _ _ _ _ H F9 F8)|]. apply (holds_other g1 g2 _ _ _ _ _ _ _ _ bn _ F9' F8 F7 H). intros Hs _ _. apply Heq, Hs. }
    split; [auto|]. exists o. rewrite Eo. split; [reflexivity|]. destruct (Hfo _ _ _ _ _ _ _ _ F) as (_ & ->).
    destruct (folds_parent _ _ _ _ _ _ _ _ _ _ F) as (d & Hd). split; [|split; [exact K6|split; [exact K7|intros [|k] o1; discriminate]]]. split; [|split].
    + exists (val z). split; [left; eauto 12|exact K5].
    + intros d' p' x' Hz1 Hz2. rewrite Hd in Hz1. injection Hz1 as _ <-. rewrite Hx in Hz2. injection Hz2 as <-. eexists _, _. split; [unfold parent, var_of; rewrite K8; reflexivity|]. split; [exact K9|]. cbn [f_op]. tauto.
    + intros d' H. congruence.
Qed.

Theorem fold_bn_ok : exists g' outs', convert1 blank min_outputs (fold_bn blank min_outputs need_grad fold) g0 outs = Some (g', outs') /\ ext G G g' /\ Forall2 (fun o v => computes sem g' v (val o)) outs outs'.
Proof.
  destruct (round_ok blank min_outputs g0 outs C fR P) with (m := fold_bn blank min_outputs need_grad fold) as (g' & outs' & R1 & R2 & R3).
  - exact fR_mono.
  - exact fR_leaf.
  - intros g o o' x x' v E Ho Ho' Hx Hx' Hp Hd H. rewrite <- (Hown o o' x x' Ho Ho' Hx Hx' Hp Hd). exact H.
  - intros g t g' t' ((ad & HA & HB) & HH) Hp Hs _. split; [exists ad; rewrite Hp; auto|]. intros f x b y i w c o z ps F wn bn H.
    destruct (HH _ _ _ _ _ _ _ _ _ _ F wn bn H) as (H1 & H2). split; [exact (holds_stable g g' _ _ _ _ H1 Hp Hs)|exact (holds_stable g g' _ _ _ _ H2 Hp Hs)].
  - split; [exists []; rewrite app_nil_r; auto|]. intros f x b y i w c o z ps F wn bn H. destruct (Hlaw _ _ _ _ _ _ _ _ _ _ F) as (wn' & bn' & H1 & _ & H2 & H3). rewrite H in H1. injection H1 as -> ->.
    split; [apply (holds_stable g0 (sunk blank g0 outs) _ _ _ _ H2 eq_refl); apply prefix_app|apply (holds_stable g0 (sunk blank g0 outs) _ _ _ _ H3 eq_refl); apply prefix_app].
  - exact fold_bn_modify.
  - intros g t inputs E _ Hi _ _. exists g, t, None. split; [|split; [apply ext_refl|exact I]]. unfold fold_bn.
    replace (fn_of g (length (g_fns g0))) with (Some (Fn sink outs [length (g_vars g0)])) by (symmetry; exact (ext_fn _ _ _ _ _ E (fn_sink blank g0 outs))). cbn [obind f_out nth_error].
    destruct (references g (length (g_vars g0))) as [|n rs] eqn:Er; [reflexivity|]. assert (Hn : In n (references g (length (g_vars g0)))) by (rewrite Er; left; reflexivity).
    apply references_fn in Hn. destruct Hn as (yn & Hyn & _). cbn [f_op op_type sink is_bn String.eqb]. change (is_bn "Sink") with false. cbn [obind]. rewrite Hyn. cbn [obind].
    destruct (negb (is_bn (op_type (f_op yn)))); [reflexivity|]. destruct (negb match rs with [] => true | _ :: _ => false end); reflexivity.
  - exists g', outs'. split; [exact R1|]. split; [exact R2|]. apply forall2_nth. apply forall2_nth in R3. split; [tauto|]. intros k o v Ho Hvv. apply (fR_val g' o v (proj2 R3 k o v Ho Hvv)).
    intros f x b y i w c z ps F. exact (folds_not_out _ _ _ _ _ _ _ _ _ _ _ _ F (nth_error_In _ _ Ho)).
Qed.
End FoldBn.
