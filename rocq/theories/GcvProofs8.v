(** Replacing inputs of a network, and making a network without parameters. *)
From Coq Require Import String List Arith Bool Lia.
From Verif Require Import IdxModel GcvModel GcvSpec GcvProofs1 GcvProofs2 GcvProofs3 GcvProofs4 GcvProofs5 GcvProofs6.
Import ListNotations.
Local Open Scope list_scope.

Section Replace.
Context {V : Type} (sem : op -> list V -> option (list V)) (blank : V) (min_outputs : op -> nat -> option nat).
Variables (g0 : graph V) (outs : list nat).
Hypothesis C : convertible min_outputs g0 outs.
Let G := sunk blank g0 outs.
Implicit Types g : graph V.

Lemma same_ext g k o a b : ext G G g -> nth_error (g_vars g0) k = Some a -> nth_error (g_vars g0) o = Some b -> same g k o = same g0 k o.
Proof. intros E Ha Hb. unfold same. rewrite (data_ext blank g0 outs g k a E Ha), (data_ext blank g0 outs g o b E Hb). unfold data, var_of. rewrite Ha, Hb. reflexivity. Qed.
Lemma find_ext_in {A} (p q : A -> bool) l : (forall a, In a l -> p a = q a) -> find p l = find q l.
Proof. induction l as [|a l IH]; intros H; cbn [find]; [reflexivity|]. rewrite (H a (or_introl eq_refl)), IH; [reflexivity|]. intros; apply H; right; assumption. Qed.

Section Dictionary.
Variables (repl : list (nat * nat)) (val : nat -> V).
(** The replacement of a variable. *)
Definition swapped (o : nat) : option nat := option_map snd (find (fun '(k, _) => same g0 k o) repl).
Hypothesis Hown : own_buffers g0 outs.
Hypothesis Hfn : forall h y, below g0 outs h -> nth_error (g_fns g0) h = Some y -> sem (f_op y) (map val (f_in y)) = Some (map val (f_out y)).
Hypothesis Hleaf : forall v d, relevant g0 outs v -> nth_error (g_vars g0) v = Some (Var d None) ->
  match swapped v with Some r => exists e, nth_error (g_vars g0) r = Some (Var e None) /\ nth_error (g_store g0) e = Some (val v) | None => nth_error (g_store g0) d = Some (val v) end.
Hypothesis Hkeys : forall k r, In (k, r) repl -> exists x, nth_error (g_vars g0) k = Some x.
Hypothesis Hfirst : forall h y i v, below g0 outs h -> nth_error (g_fns g0) h = Some y -> nth_error (f_in y) i = Some v -> leaf g0 v -> swapped v <> None -> i = 0 /\ exists o, f_out y = [o].
Hypothesis Houts : forall v, In v outs -> leaf g0 v -> swapped v = None.

Definition iR g (o v : nat) : Prop :=
  match nth_error (g_vars g0) o with
  | Some (Var _ None) => (exists d, nth_error (g_vars g) v = Some (Var d None)) /\ (swapped o = None -> computes sem g v (val o))
  | _ => (exists d p, nth_error (g_vars g) v = Some (Var d (Some p))) /\ computes sem g v (val o)
  end.
Lemma iR_val g o v : iR g o v -> (leaf g0 o -> swapped o = None) -> computes sem g v (val o).
Proof. unfold iR. intros H Hs. destruct (nth_error (g_vars g0) o) as [[d [p|]]|] eqn:E; try tauto. apply H, Hs. exists d. exact E. Qed.

Lemma out_iR g o d p v : nth_error (g_vars g0) o = Some (Var d (Some p)) -> (exists e q, nth_error (g_vars g) v = Some (Var e (Some q))) -> computes sem g v (val o) -> iR g o v.
Proof. unfold iR. intros ->. auto. Qed.
Lemma outs_iR f x g g' inputs l : nth_error (g_fns g0) f = Some x -> call blank min_outputs g (f_op x) inputs = Some (g', l) ->
  Forall2 (fun o v => computes sem g' v (val o)) (f_out x) l -> Forall2 (iR g') (f_out x) l.
Proof.
  intros Hx Hc H. apply forall2_nth. apply forall2_nth in H. split; [tauto|]. intros k a b Ha Hb.
  destruct (out_parent min_outputs g0 outs C f x a Hx (nth_error_In _ _ Ha)) as (d & Hd). apply (out_iR g' a d f b Hd); [|exact (proj2 H k a b Ha Hb)].
  unfold call in Hc. destruct (min_outputs (f_op x) (length inputs)) as [n|]; [|discriminate]. cbn [obind] in Hc. injection Hc as <- <-.
  assert (Hk : k < n) by (rewrite <- (seq_length n (length (g_vars g))); apply nth_error_Some; congruence).
  rewrite (nth_error_nth' _ 0) in Hb by (rewrite seq_length; exact Hk). rewrite seq_nth in Hb by exact Hk. injection Hb as <-. exists (length (g_store g) + k), (length (g_fns g)).
  cbn [g_vars]. rewrite nth_error_app2 by lia. replace (length (g_vars g) + k - length (g_vars g)) with k by lia. rewrite nth_error_map.
  rewrite (nth_error_nth' _ 0) by (rewrite seq_length; exact Hk). rewrite seq_nth by exact Hk. reflexivity.
Qed.

Lemma iR_mono g g' o v : ext G g g' -> iR g o v -> iR g' o v.
Proof.
  unfold iR. intros E H. destruct (nth_error (g_vars g0) o) as [[d [p|]]|].
  - destruct H as ((e & q & H1) & H2). split; [exists e, q; exact (ext_var _ _ _ _ _ E H1)|exact (computes_mono sem G g g' E _ _ H2)].
  - destruct H as ((e & H1) & H2). split; [exists e; exact (ext_var _ _ _ _ _ E H1)|]. intros Hs. exact (computes_mono sem G g g' E _ _ (H2 Hs)).
  - destruct H as ((e & q & H1) & H2). split; [exists e, q; exact (ext_var _ _ _ _ _ E H1)|exact (computes_mono sem G g g' E _ _ H2)].
Qed.

Lemma find_same g o b : ext G G g -> nth_error (g_vars g0) o = Some b -> find (fun '(k, _) => same g k o) repl = find (fun '(k, _) => same g0 k o) repl.
Proof. intros E Hb. apply find_ext_in. intros (k, r) Hk. destruct (Hkeys k r Hk) as (a & Ha). exact (same_ext g k o a b E Ha Hb). Qed.

Theorem identity_replace : exists g' outs', convert1 blank min_outputs (identity blank min_outputs repl) g0 outs = Some (g', outs') /\ ext G G g' /\ Forall2 (fun o v => computes sem g' v (val o)) outs outs'.
Proof.
  destruct (round_ok blank min_outputs g0 outs C iR (fun _ _ => True)) with (m := identity blank min_outputs repl) as (g' & outs' & R1 & R2 & R3); auto.
  - exact iR_mono.
  - intros g o d v E Hr Ho Hn. unfold iR. rewrite Ho. split; [eauto|]. intros Hs. pose proof (Hleaf o d Hr Ho) as H. rewrite Hs in H.
    apply (computes_leaf sem g v d); [exact Hn|]. apply (ext_store _ _ _ _ _ E). cbn [g_store sunk]. rewrite nth_error_app1; [exact H|]. apply nth_error_Some. congruence.
  - intros g o o' x x' v E Ho Ho' Hx Hx' Hp Hd H. rewrite <- (Hown o o' x x' Ho Ho' Hx Hx' Hp Hd). exact H.
  - intros f x Hf Hx g t inputs E _ Hi Hc Hl. pose proof (conv_in _ _ _ C f x Hf Hx) as Hne. destruct (f_in x) as [|oi ri] eqn:Ein; [congruence|]. clear Hne.
    inversion Hi as [|? v0 ? l0 Hv0 Hl0 E1 E2]; subst. inversion Hc as [|? ? Hc0 Hc1]; subst. inversion Hl as [|? ? Hk0 Hk1]; subst.
    assert (Hrest : Forall2 (fun o v => computes sem g v (val o)) ri l0).
    { apply forall2_nth. apply forall2_nth in Hl0. split; [tauto|]. intros k a b Ha Hb. apply iR_val; [exact (proj2 Hl0 k a b Ha Hb)|]. intros Hlf.
      destruct (swapped a) eqn:Es; [|reflexivity]. destruct (Hfirst f x (S k) a Hf Hx) as (Hk & _); [rewrite Ein; exact Ha|exact Hlf|congruence|discriminate]. }
    assert (Hu : (leaf g0 oi -> swapped oi = None) -> exists g'' l, call blank min_outputs g (f_op x) (v0 :: l0) = Some (g'', l) /\ length l = length (f_out x) /\ Forall2 (iR g'') (f_out x) l).
    { intros Hs. destruct (same_fn sem blank min_outputs g0 outs C iR val f x g (v0 :: l0) Hf Hx (Hfn f x Hf Hx)) as (g'' & l & A1 & A2 & A3); [rewrite Ein; constructor; [exact (iR_val _ _ _ Hv0 Hs)|exact Hrest]|exact Hc|].
      exists g'', l. split; [exact A1|]. split; [exact A2|]. exact (outs_iR f x g g'' _ l Hx A1 A3). }
    assert (U : (leaf g0 oi -> swapped oi = None) -> exists g' t' o, unchanged g t = Some (g', t', o) /\ ext G g g' /\ True /\
      (forall h, t_inputs t' h = t_inputs t h \/ h = f /\ exists es, t_inputs t' h = Some (map Some es) /\ Forall2 (iR g') (oi :: ri) es /\ Forall (clean G) es /\ Forall (fun v => v < length (g_vars g')) es) /\
      match o with
      | Some v => exists o0, nth_error (f_out x) 0 = Some o0 /\ iR g' o0 v /\ clean G v /\ v < length (g_vars g') /\ (forall k o, nth_error (f_out x) (S k) = Some o -> references G o = [])
      | None => exists g'' outs, call blank min_outputs g' (f_op x) (v0 :: l0) = Some (g'', outs) /\ length outs = length (f_out x) /\ Forall2 (iR g'') (f_out x) outs
      end).
    { intros Hs. exists g, t, None. split; [reflexivity|]. split; [apply ext_refl|]. split; [exact I|]. split; [auto|]. exact (Hu Hs). }
    fold G. unfold identity. unfold parent at 1, var_of. unfold iR in Hv0. destruct (built_in _ (conv_built _ _ _ C) f x oi Hx) as (xi & Hxi & _); [rewrite Ein; left; reflexivity|]. rewrite Hxi in Hv0.
    destruct xi as (di, [pi|]).
    { destruct Hv0 as ((e & q & Hq) & _). rewrite Hq. cbn [v_parent]. apply U. intros (d & Hd). congruence. }
    destruct Hv0 as ((e & He) & Hcv). rewrite He. cbn [v_parent]. rewrite (fn_ext blank g0 outs g f x E Hx). cbn [obind]. rewrite Ein. cbn [nth_error obind].
    rewrite (find_same g oi _ E Hxi). destruct (find (fun '(k, _) => same g0 k oi) repl) as [(k, r)|] eqn:Ef.
    2:{ apply U. intros _. unfold swapped. rewrite Ef. reflexivity. }
    assert (Hsw : swapped oi = Some r) by (unfold swapped; rewrite Ef; reflexivity).
    assert (Hrel : relevant g0 outs oi) by (right; exists f, x; rewrite Ein; split; [exact Hf|split; [exact Hx|left; left; reflexivity]]).
    pose proof (Hleaf oi di Hrel Hxi) as HL. rewrite Hsw in HL. destruct HL as (er & Hr1 & Hr2).
    destruct (Hfirst f x 0 oi Hf Hx) as (_ & o & Ho); [rewrite Ein; reflexivity|exists di; exact Hxi|congruence|].
    assert (Hrg : nth_error (g_vars g) r = Some (Var er None)) by exact (ext_var _ _ _ _ _ E (var_old blank g0 outs _ _ Hr1)).
    assert (Hcr : clean G r) by exact (clean_leaf _ _ _ (var_old blank g0 outs _ _ Hr1)).
    assert (Hrc : computes sem g r (val oi)).
    { apply (computes_leaf sem g r er _ Hrg). apply (ext_store _ _ _ _ _ E). cbn [g_store sunk]. rewrite nth_error_app1; [exact Hr2|]. apply nth_error_Some. congruence. }
    assert (Hmin : min_outputs (f_op x) (length (r :: l0)) = Some 1).
    { pose proof (conv_call _ _ _ C f x Hf Hx) as H. rewrite Ho, Ein in H. cbn [length] in *. rewrite <- (Forall2_length _ _ _ Hl0). exact H. }
    destruct (returned_one sem blank min_outputs g0 outs g (set_inputs t f (map Some (r :: l0))) (f_op x) (r :: l0) (map val (oi :: ri)) (val o)) as (g3 & ov & K1 & K2 & K3 & K4 & K5 & K6 & K7 & K8 & K9).
    { constructor; assumption. }
    { exact E. }
    { cbn [map]. constructor; [exact Hrc|]. clear -Hrest. induction Hrest; constructor; auto. }
    { pose proof (Hfn f x Hf Hx) as H. rewrite Ein, Ho in H. exact H. }
    { exact Hmin. }
    rewrite K2. exists g3, (set_inputs t f (map Some (r :: l0))), (Some ov). split; [reflexivity|]. split; [exact K3|]. split; [exact I|]. split.
    + intros h. unfold set_inputs. cbn [t_inputs]. destruct (Nat.eqb_spec h f) as [->|Hne]; [right|left; reflexivity]. split; [reflexivity|]. exists (r :: l0). split; [reflexivity|]. split; [|split].
      * constructor; [unfold iR; rewrite Hxi; split; [exists er; exact (ext_var _ _ _ _ _ K3 Hrg)|congruence]|]. apply forall2_nth. apply forall2_nth in Hl0. split; [tauto|]. intros j a b Ha Hb. exact (iR_mono _ _ _ _ K3 (proj2 Hl0 j a b Ha Hb)).
      * constructor; assumption.
      * pose proof (ext_vars_le _ _ _ K3). constructor; [assert (r < length (g_vars g)) by (apply nth_error_Some; congruence); lia|]. eapply Forall_impl; [|exact Hk1]. intros; cbn beta in *; lia.
    + exists o. rewrite Ho. split; [reflexivity|]. destruct (out_parent min_outputs g0 outs C f x o Hx) as (d & Hd); [rewrite Ho; left; reflexivity|].
      split; [apply (out_iR g3 o d f ov Hd); [eauto|exact K5]|]. split; [exact K6|]. split; [exact K7|]. intros [|j] a; discriminate.
  - intros g t inputs E _ Hi _ _. exists g, t, None. split; [|split; [apply ext_refl|exact I]]. unfold identity. pose proof (conv_some _ _ _ C) as Hne. destruct inputs as [|i0 l0]; [inversion Hi; congruence|].
    destruct (parent g i0) eqn:Ep; [reflexivity|].
    replace (fn_of g (length (g_fns g0))) with (Some (Fn sink outs [length (g_vars g0)])) by (symmetry; exact (ext_fn _ _ _ _ _ E (fn_sink blank g0 outs))). cbn [obind f_in].
    assert (H0 : exists o0, nth_error outs 0 = Some o0 /\ In o0 outs /\ iR g o0 i0).
    { apply forall2_nth in Hi. destruct (nth_error outs 0) as [o0|] eqn:Eo; [|destruct outs; [congruence|discriminate]]. exists o0. split; [reflexivity|]. split; [exact (nth_error_In _ _ Eo)|]. apply (proj2 Hi 0 o0 i0 Eo). reflexivity. }
    destruct H0 as (o0 & Ho0 & Hin & H1). rewrite Ho0. cbn [obind].
    destruct (conv_outs _ _ _ C o0 Hin) as (x0 & Hx0). rewrite (find_same g o0 _ E Hx0). unfold iR in H1. rewrite Hx0 in H1. unfold parent, var_of in Ep. destruct x0 as (d0, [p0|]).
    + destruct H1 as ((e & q & Hq) & _). rewrite Hq in Ep. discriminate.
    + pose proof (Houts o0 Hin (ex_intro _ d0 Hx0)) as Hs. unfold swapped in Hs. destruct (find (fun '(k, _) => same g0 k o0) repl); [discriminate|reflexivity].
  - exists g', outs'. split; [exact R1|]. split; [exact R2|]. apply forall2_nth. apply forall2_nth in R3. split; [tauto|]. intros k o v Ho Hvv. apply (iR_val g' o v (proj2 R3 k o v Ho Hvv)). exact (Houts o (nth_error_In _ _ Ho)).
Qed.
End Dictionary.

Section NoGrad.
Variable val : nat -> V.
Hypothesis Hv : valuation sem g0 outs val.
Hypothesis Hown : own_buffers g0 outs.
Hypothesis Hone : forall h y, below g0 outs h -> nth_error (g_fns g0) h = Some y -> exists o, f_out y = [o].
Hypothesis Hparams : forall p, In p (g_params g0) -> p_data p < length (g_store g0).

Definition nR g (o v : nat) : Prop := computes sem g v (val o) /\ forall d p, nth_error (g_vars g) v = Some (Var d (Some p)) -> length (g_store g0) <= d.
Lemma computes_var g v x : computes sem g v x -> exists y, nth_error (g_vars g) v = Some y.
Proof. intros H. inversion H; subst; eauto. Qed.
Lemma nR_mono g g' o v : ext G g g' -> nR g o v -> nR g' o v.
Proof.
  intros E (H1 & H2). split; [exact (computes_mono sem G g g' E _ _ H1)|]. intros d p H. destruct (computes_var _ _ _ H1) as (y & Hy). rewrite (ext_var _ _ _ _ _ E Hy) in H. injection H as ->. exact (H2 d p Hy).
Qed.

Lemma unlink_ok : forall os l g, ext G G g -> g_params g = g_params g0 -> Forall2 (nR g) os l -> Forall (clean G) l ->
  exists g' l', unlink_params g l = Some (g', l') /\ ext G g g' /\ g_params g' = g_params g /\ Forall2 (nR g') os l' /\ Forall (clean G) l'.
Proof.
  induction os as [|o os IH]; intros l g E HP H Hc; inversion H as [|? v ? l' Hv0 Hl E1 E2]; subst; cbn [unlink_params].
  - exists g, []. repeat split; auto using ext_refl. apply prefix_refl. exists []. rewrite app_nil_r. auto. apply prefix_refl.
  - inversion Hc as [|? ? Hc0 Hc1]; subst. destruct Hv0 as (Hcv & Hd). destruct (computes_var _ _ _ Hcv) as ((d & p) & Hy). unfold data at 1, var_of. rewrite Hy. cbn [obind v_data].
    assert (K : exists g1 w, (if existsb (fun q => p_data q =? d) (g_params g) then unlinked g v else Some (g, v)) = Some (g1, w) /\ ext G g g1 /\ g_params g1 = g_params g /\ nR g1 o w /\ clean G w).
    { destruct (existsb _ _) eqn:Ee.
      - apply existsb_exists in Ee. destruct Ee as (q & Hq & Hqd). apply Nat.eqb_eq in Hqd. rewrite HP in Hq. specialize (Hparams q Hq).
        destruct p as [p|]; [specialize (Hd d p Hy); lia|]. unfold unlinked, data, var_of. rewrite Hy. cbn [obind v_data].
        exists (fst (new_leaf g d)), (length (g_vars g)). split; [reflexivity|]. split; [apply ext_leaf|]. split; [reflexivity|]. pose proof (ext_vars_le _ _ _ E). split; [|apply clean_new; assumption].
        assert (Hw : nth_error (g_vars (fst (new_leaf g d))) (length (g_vars g)) = Some (Var d None)) by (cbn [new_leaf fst g_vars]; rewrite nth_error_app2, Nat.sub_diag by lia; reflexivity).
        split; [|intros d' p' H'; congruence].
        inversion Hcv as [? d1 ? Y1 Y2|? d1 f1 ? ? ? ? ? Y1]; subst; rewrite Hy in Y1; [injection Y1 as Ydd; subst d1|discriminate].
        exact (computes_leaf sem _ _ _ _ Hw Y2).
      - exists g, v. split; [reflexivity|]. split; [apply ext_refl|]. split; [reflexivity|]. split; [split; assumption|assumption]. }
    destruct K as (g1 & w & K1 & K2 & K3 & K4 & K5). rewrite K1. cbn [obind].
    destruct (IH l' g1 (ext_trans _ _ _ _ E K2)) as (g2 & l2 & L1 & L2 & L3 & L4 & L5); [congruence| |exact Hc1|].
    { apply forall2_nth. apply forall2_nth in Hl. split; [tauto|]. intros k a b Ha Hb. exact (nR_mono _ _ _ _ K2 (proj2 Hl k a b Ha Hb)). }
    rewrite L1. cbn [obind]. exists g2, (w :: l2). split; [reflexivity|]. split; [exact (ext_trans _ _ _ _ K2 L2)|]. split; [congruence|]. split; constructor; auto. exact (nR_mono _ _ _ _ L2 K4).
Qed.

Theorem no_grad_ok : exists g' outs', convert1 blank min_outputs (no_grad blank min_outputs) g0 outs = Some (g', outs') /\ ext G G g' /\ Forall2 (fun o v => computes sem g' v (val o)) outs outs'.
Proof.
  destruct (round_ok blank min_outputs g0 outs C nR (fun g _ => g_params g = g_params g0)) with (m := no_grad blank min_outputs) as (g' & outs' & R1 & R2 & R3).
  - exact nR_mono.
  - intros g o d v E Hr Ho Hn. split; [exact (vR_leaf sem blank g0 outs val g o d v (val_leaf _ _ _ _ Hv) E Hr Ho Hn)|]. intros d' p H. congruence.
  - intros g o o' x x' v E Ho Ho' Hx Hx' Hp Hd H. rewrite <- (Hown o o' x x' Ho Ho' Hx Hx' Hp Hd). exact H.
  - intros g t g' t' H H1 _ _. congruence.
  - reflexivity.
  - intros f x Hf Hx g t inputs E HP Hi Hc Hl. unfold no_grad. rewrite (fn_ext blank g0 outs g f x E Hx). cbn [obind].
    destruct (unlink_ok _ _ g E HP Hi Hc) as (g1 & l1 & A1 & A2 & A3 & A4 & A5). rewrite A1. cbn [obind]. destruct (Hone f x Hf Hx) as (o & Ho).
    destruct (returned_one sem blank min_outputs g0 outs g1 t (f_op x) l1 (map val (f_in x)) (val o)) as (g3 & ov & K1 & K2 & K3 & K4 & K5 & K6 & K7 & K8 & K9).
    { exact A5. }
    { exact (ext_trans _ _ _ _ E A2). }
    { clear -A4. induction A4 as [|a b la lb H]; constructor; auto. exact (proj1 H). }
    { pose proof (val_fn _ _ _ _ Hv f x Hf Hx) as H. rewrite Ho in H. exact H. }
    { pose proof (conv_call _ _ _ C f x Hf Hx) as H. rewrite Ho in H. rewrite <- (Forall2_length _ _ _ A4). exact H. }
    rewrite K2. exists g3, t, (Some ov). split; [reflexivity|]. split; [exact (ext_trans _ _ _ _ A2 K3)|]. split; [congruence|]. split; [auto|]. exists o. rewrite Ho. split; [reflexivity|].
    split; [|split; [exact K6|split; [exact K7|intros [|j] a; discriminate]]]. split; [exact K5|]. intros d p H. rewrite K8 in H. injection H as <- _.
    pose proof (ext_trans _ _ _ _ E A2) as (_ & _ & (r & Hr)). rewrite Hr. cbn [g_store G sunk]. rewrite !app_length. lia.
  - intros g t inputs E HP Hi Hc Hl. unfold no_grad.
    replace (fn_of g (length (g_fns g0))) with (Some (Fn sink outs [length (g_vars g0)])) by (symmetry; exact (ext_fn _ _ _ _ _ E (fn_sink blank g0 outs))). cbn [obind f_op].
    destruct (unlink_ok _ _ g E HP Hi Hc) as (g1 & l1 & A1 & A2 & A3 & A4 & A5). rewrite A1. cbn [obind].
    assert (Hm : min_outputs sink (length l1) = Some 1) by (rewrite <- (Forall2_length _ _ _ A4); exact (conv_sink _ _ _ C)).
    unfold returned, call. rewrite Hm. cbn [obind seq map repeat]. eexists _, _, _. split; [reflexivity|]. split.
    + apply (ext_trans _ _ _ _ A2). apply (call_ext blank min_outputs G g1 sink l1 _ [length (g_vars g1)]); [|exact A5]. unfold call. rewrite Hm. reflexivity.
    + eexists _, _. split; [unfold parent, var_of; cbn [g_vars]; rewrite nth_error_app2, Nat.sub_diag by lia; reflexivity|].
      split; [unfold fn_of; cbn [g_fns]; rewrite nth_error_app2, Nat.sub_diag by lia; reflexivity|]. cbn [f_in].
      apply forall2_nth. apply forall2_nth in A4. split; [tauto|]. intros k a b Ha Hb. refine (nR_mono _ _ _ _ _ (proj2 A4 k a b Ha Hb)).
      apply (call_ext blank min_outputs G g1 sink l1 _ [length (g_vars g1)]); [|exact A5]. unfold call. rewrite Hm. reflexivity.
  - exists g', outs'. split; [exact R1|]. split; [exact R2|]. apply forall2_nth. apply forall2_nth in R3. split; [tauto|]. intros k o v Ho Hvv. exact (proj1 (proj2 R3 k o v Ho Hvv)).
Qed.
End NoGrad.
End Replace.
