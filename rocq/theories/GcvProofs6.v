(** Adding biases and folding batch normalizations. *)
From Coq Require Import String List Arith Bool Lia.
From Verif Require Import IdxModel GcvModel GcvSpec GcvProofs1 GcvProofs2 GcvProofs3 GcvProofs4 GcvProofs5.
Import ListNotations.
Local Open Scope list_scope.

Section Folding.
Context {V : Type} (sem : op -> list V -> option (list V)) (blank : V) (min_outputs : op -> nat -> option nat).
Variables (g0 : graph V) (outs : list nat).
Hypothesis C : convertible min_outputs g0 outs.
Let G := sunk blank g0 outs.
Implicit Types g : graph V.

Lemma type_ext g f x : ext G G g -> nth_error (g_fns g0) f = Some x -> type_of g f = Some (op_type (f_op x)).
Proof. intros E Hx. unfold type_of. replace (fn_of g f) with (Some x) by (symmetry; exact (ext_fn _ _ _ _ _ E (fn_old blank g0 outs f x Hx))). reflexivity. Qed.
Lemma fn_ext g f x : ext G G g -> nth_error (g_fns g0) f = Some x -> fn_of g f = Some x.
Proof. intros E Hx. exact (ext_fn _ _ _ _ _ E (fn_old blank g0 outs f x Hx)). Qed.
Lemma data_ext g v x : ext G G g -> nth_error (g_vars g0) v = Some x -> data g v = Some (v_data x).
Proof. intros E Hx. unfold data, var_of. rewrite (ext_var _ _ _ _ _ E (var_old blank g0 outs _ _ Hx)). reflexivity. Qed.
Lemma data_mono g g' v d : ext G g g' -> data g v = Some d -> data g' v = Some d.
Proof. intros E. unfold data, var_of. destruct (nth_error (g_vars g) v) as [x|] eqn:Ex; [|discriminate]. rewrite (ext_var _ _ _ _ _ E Ex). auto. Qed.

(** Leaves keep their buffers. *)
Definition lR (T : nat -> V) (g : graph V) (o v : nat) : Prop :=
  computes sem g v (T o) /\ (forall d, nth_error (g_vars g0) o = Some (Var d None) -> data g v = Some d).
Lemma lR_mono T g g' o v : ext G g g' -> lR T g o v -> lR T g' o v.
Proof. intros E (A & B). split; [exact (computes_mono sem G g g' E v _ A)|]. intros d Hd. exact (data_mono _ _ _ _ E (B d Hd)). Qed.
Lemma lR_leaf T g o d v : nth_error (g_store g0) d = Some (T o) -> ext G G g -> nth_error (g_vars g0) o = Some (Var d None) -> nth_error (g_vars g) v = Some (Var d None) -> lR T g o v.
Proof.
  intros Hs E Ho Hv. split.
  - apply (computes_leaf sem g v d); [exact Hv|]. destruct (prefix_sunk blank g0 outs g E) as (r & ->). rewrite nth_error_app1; [exact Hs|]. apply nth_error_Some. congruence.
  - intros d' Hd. rewrite Ho in Hd. injection Hd as <-. unfold data, var_of. rewrite Hv. reflexivity.
Qed.
Lemma out_parent f x o : nth_error (g_fns g0) f = Some x -> In o (f_out x) -> exists d, nth_error (g_vars g0) o = Some (Var d (Some f)).
Proof. intros Hx Ho. exact (built_out _ (conv_built _ _ _ C) f x o Hx Ho). Qed.
Lemma lR_out T f x o g v : nth_error (g_fns g0) f = Some x -> In o (f_out x) -> computes sem g v (T o) -> lR T g o v.
Proof. intros Hx Ho Hv. split; [exact Hv|]. intros d Hd. destruct (out_parent f x o Hx Ho) as (d' & Hd'). congruence. Qed.
Lemma refs_some g o : ext G G g -> used g0 outs o -> exists h l, references g o = h :: l.
Proof. intros E Hu. apply (used_references blank) in Hu. apply (refs_ext blank g0 outs g o E) in Hu. destruct (references g o) as [|h l]; [congruence|eauto]. Qed.
Lemma refs_out g f x o : ext G G g -> nth_error (g_fns g0) f = Some x -> In o (f_out x) -> references g o = references G o.
Proof. intros E Hx Ho. destruct (out_parent f x o Hx Ho) as (d & Hd). exact (ext_references G g o _ f E (var_old blank g0 outs _ _ Hd) eq_refl). Qed.

Theorem add_bias_ok (zeros : string -> V -> V) (val : nat -> V) : valuation sem g0 outs val -> own_buffers g0 outs ->
  (forall f x, below g0 outs f -> nth_error (g_fns g0) f = Some x -> is_ip (op_type (f_op x)) = true ->
     length (f_in x) = 3 /\ (exists o, f_out x = [o]) \/
     exists i w o d, f_in x = [i; w] /\ f_out x = [o] /\ nth_error (g_vars g0) w = Some (Var d None) /\
       sem (f_op x) [val i; val w; zeros (op_type (f_op x)) (val w)] = Some [val o] /\ min_outputs (f_op x) 3 = Some 1 /\
       holds g0 (parameter_scope g0 w) "b" 0 (zeros (op_type (f_op x)) (val w))) ->
  (forall f x i w f' x' i' w', below g0 outs f -> nth_error (g_fns g0) f = Some x -> is_ip (op_type (f_op x)) = true -> f_in x = [i; w] ->
     below g0 outs f' -> nth_error (g_fns g0) f' = Some x' -> is_ip (op_type (f_op x')) = true -> f_in x' = [i'; w'] ->
     parameter_scope g0 w = parameter_scope g0 w' -> zeros (op_type (f_op x)) (val w) = zeros (op_type (f_op x')) (val w')) ->
  exists g' outs', convert1 blank min_outputs (add_bias blank min_outputs zeros) g0 outs = Some (g', outs') /\ ext G G g' /\ Forall2 (fun o v => computes sem g' v (val o)) outs outs'.
Proof.
  intros Hv Hown Hip Hsc.
  set (P := fun (g : graph V) (t : table) => kept g0 g /\ forall f x i w, below g0 outs f -> nth_error (g_fns g0) f = Some x -> is_ip (op_type (f_op x)) = true -> f_in x = [i; w] ->
              holds g (parameter_scope g0 w) "b" 0 (zeros (op_type (f_op x)) (val w))).
  destruct (round_ok blank min_outputs g0 outs C (lR val) P) with (m := add_bias blank min_outputs zeros) as (g' & outs' & R1 & R2 & R3).
  - intros g g' o v. apply lR_mono.
  - intros g o d v E Hr Ho Hn. exact (lR_leaf val g o d v (val_leaf _ _ _ _ Hv o d Hr Ho) E Ho Hn).
  - intros g o o' x x' v E Ho Ho' Hx Hx' Hp Hd H. rewrite <- (Hown o o' x x' Ho Ho' Hx Hx' Hp Hd). exact H.
  - intros g t g' t' ((ad & HA & HB) & HH) Hp Hs _. split; [exists ad; rewrite Hp; auto|]. intros f x i w H1 H2 H3 H4. exact (holds_stable g g' _ _ _ _ (HH f x i w H1 H2 H3 H4) Hp Hs).
  - split; [exists []; rewrite app_nil_r; auto|]. intros f x i w H1 H2 H3 H4. destruct (Hip f x H1 H2 H3) as [(H5 & _)|(i' & w' & o & d & H5 & _ & _ & _ & _ & H6)]; [rewrite H4 in H5; discriminate|].
    rewrite H4 in H5. injection H5 as <- <-. exact (holds_stable g0 (sunk blank g0 outs) _ _ _ _ H6 eq_refl (prefix_app _ _)).
  - intros f x Hf Hx g t inputs E HP Hi Hc Hl. fold G in E, Hc |- *.
    set (Q := fun r : option (graph V * table * option nat) => exists g' t' o, r = Some (g', t', o) /\ ext G g g' /\ P g' t' /\
      (forall h, t_inputs t' h = t_inputs t h \/ h = f /\ exists es, t_inputs t' h = Some (map Some es) /\ Forall2 (lR val g') (f_in x) es /\ Forall (clean G) es /\ Forall (fun v => v < length (g_vars g')) es) /\
      match o with
      | Some v => exists o0, nth_error (f_out x) 0 = Some o0 /\ lR val g' o0 v /\ clean G v /\ v < length (g_vars g') /\ (forall k o, nth_error (f_out x) (S k) = Some o -> references G o = [])
      | None => exists g'' outs, call blank min_outputs g' (f_op x) inputs = Some (g'', outs) /\ length outs = length (f_out x) /\ Forall2 (lR val g'') (f_out x) outs
      end).
    change (Q (add_bias blank min_outputs zeros g t f inputs)). unfold add_bias. rewrite (fn_ext g f x E Hx). cbn [obind].
    assert (Same : Q (unchanged g t)).
    { exists g, t, None. split; [reflexivity|]. split; [apply ext_refl|]. split; [exact HP|]. split; [auto|].
      destruct (same_fn sem blank min_outputs g0 outs C (lR val) val f x g inputs Hf Hx (val_fn _ _ _ _ Hv f x Hf Hx)) as (g'' & l & A1 & A2 & A3); [|exact Hc|].
      { eapply Forall2_impl; [|exact Hi]. intros a b (H & _). exact H. }
      exists g'', l. split; [exact A1|]. split; [exact A2|]. apply forall2_nth. apply forall2_nth in A3. split; [tauto|]. intros k a b Ha Hb. apply (lR_out val f x a g'' b Hx (nth_error_In _ _ Ha)). exact (proj2 A3 k a b Ha Hb). }
    destruct (is_ip (op_type (f_op x))) eqn:Eip; cbn [negb]; [|exact Same].
    assert (Hout : exists o, f_out x = [o]). { destruct (Hip f x Hf Hx Eip) as [(_ & H)|(i & w & o & d & _ & H & _)]; [exact H|eauto]. }
    destruct Hout as (o & Hout). rewrite Hout. cbn [nth_error obind].
    destruct (first_used min_outputs g0 outs C f x Hf Hx) as (o0 & Ho0 & Hu). { rewrite Hout. intros [|k] o1; discriminate. }
    rewrite Hout in Ho0. cbn in Ho0. injection Ho0 as <-. destruct (refs_some g o E Hu) as (h & rs & Hrefs).
    assert (Hh : In h (references G o)). { rewrite <- (refs_out g f x o E Hx); [rewrite Hrefs; left; reflexivity|rewrite Hout; left; reflexivity]. }
    rewrite Hrefs. cbn [nth_error obind]. apply references_in in Hh. destruct Hh as (y & Hy & _).
    assert (Ty : type_of g h = Some (op_type (f_op y))). { unfold type_of. replace (fn_of g h) with (Some y) by (symmetry; exact (ext_fn _ _ _ _ _ E Hy)). reflexivity. }
    rewrite Ty. cbn [obind]. pose proof (conv_in _ _ _ C f x Hf Hx) as Hne. destruct (f_in x) as [|i rest] eqn:Ein; [congruence|]. cbn [nth_error obind].
    assert (Hb : exists b, match parent g i with None => Some false | Some p => obind (type_of g p) (fun n => Some (is_bn n)) end = Some b).
    { destruct (built_in _ (conv_built _ _ _ C) f x i Hx) as (xi & Hxi & _); [rewrite Ein; left; reflexivity|].
      rewrite (ext_parent _ _ _ _ _ E (var_old blank g0 outs _ _ Hxi)). destruct (v_parent xi) as [p|] eqn:Ep; [|eauto].
      destruct (built_parent _ (conv_built _ _ _ C) i xi p Hxi Ep) as (yp & Hyp & _). rewrite (type_ext g p yp E Hyp). cbn [obind]. eauto. }
    destruct Hb as (b & Hb). rewrite Hb. cbn [obind]. destruct (negb b && negb (is_bn (op_type (f_op y)))); [exact Same|].
    destruct (Hip f x Hf Hx Eip) as [(H3 & _)|(i' & w & o' & d & A1 & A2 & A3 & A4 & A5 & A6)].
    + pose proof (Forall2_length _ _ _ Hi) as HL. rewrite Ein in H3. rewrite H3 in HL. destruct inputs as [|a [|a' [|a'' [|? ?]]]]; try discriminate HL. exact Same.
    + rewrite Ein in A1. injection A1 as <- ->. rewrite Hout in A2. injection A2 as <-. inversion Hi as [|? iv ? l1 Hiv Hl1 E1 E2]; subst. inversion Hl1 as [|? wv ? l2 Hwv Hl2 E3 E4]; subst. inversion Hl2; subst.
      assert (Hw0 : nth_error (g_store g0) d = Some (val w)). { apply (val_leaf _ _ _ _ Hv); [|exact A3]. right. exists f, x. split; [exact Hf|]. split; [exact Hx|]. left. rewrite Ein. right. left. reflexivity. }
      assert (Hwd : data g wv = Some d) by (apply (proj2 Hwv), A3).
      assert (Hwc : content g wv = Some (val w)). { unfold content. rewrite Hwd. cbn [obind]. destruct (prefix_sunk blank g0 outs g E) as (r & ->). rewrite nth_error_app1; [exact Hw0|]. apply nth_error_Some. congruence. }
      rewrite Hwc. cbn [obind].
      assert (Hd0 : d < length (g_store g0)) by (apply nth_error_Some; congruence).
      assert (Hscope : parameter_scope g wv = parameter_scope g0 w). { apply (scope_kept g0 g w wv d (proj1 HP) Hd0); [|exact Hwd]. unfold data, var_of. rewrite A3. reflexivity. }
      rewrite Hscope. set (z := zeros (op_type (f_op x)) (val w)).
      destruct (goc_ok G g (parameter_scope g0 w) "b" 0 true z) as (g1 & bv & db & D1 & D2 & D3 & D4 & D5 & D6 & D7 & D8 & D9). { exact (proj2 HP f x i w Hf Hx Eip Ein). }
      rewrite D1. pose proof (ext_trans _ _ _ _ E D2) as E1. pose proof (ext_vars_le _ _ _ E) as LE.
      inversion Hc as [|? ? Hc1 Hc']; subst. inversion Hc' as [|? ? Hc2 _]; subst.
      destruct (returned_one sem blank min_outputs g0 outs g1 t (f_op x) [iv; wv; length (g_vars g)] [val i; val w; z] (val o)) as (g2 & ov & K1 & K2 & K3 & K4 & K5 & K6 & K7 & _ & _); [|exact E1| |exact A4|exact A5|].
      { repeat constructor; auto. apply clean_new. exact LE. }
      { constructor; [exact (computes_mono sem G g g1 D2 _ _ (proj1 Hiv))|]. constructor; [exact (computes_mono sem G g g1 D2 _ _ (proj1 Hwv))|]. constructor; [|constructor]. exact (computes_leaf sem g1 _ db z D6 D7). }
      rewrite K2. exists g2, t, (Some ov). split; [reflexivity|]. split; [exact (ext_trans _ _ _ _ D2 K3)|]. split.
      { destruct HP as (HK & HH). pose proof K3 as (_ & _ & K3s). split.
        - assert (kept g0 g1) as (ad & Q1 & Q2).
          { destruct D9 as [D9|(_ & D9 & D9')]; [destruct HK as (ad & Q1 & Q2); exists ad; rewrite D9; auto|]. apply (kept_goc g0 g g1 (Param (parameter_scope g0 w) "b" 0 true db) db HK (prefix_sunk blank g0 outs g E) (or_intror eq_refl) D9 D9'). }
          exists ad. rewrite K4. auto.
        - intros f' x' i' w' H1 H2 H3 H4. apply (holds_stable g1 g2); [|exact K4|exact K3s]. destruct D9 as [D9|(_ & D9 & D9')].
          + exact (holds_stable g g1 _ _ _ _ (HH f' x' i' w' H1 H2 H3 H4) D9 D8).
          + apply (holds_other g g1 _ _ _ _ _ _ _ _ z _ D9' D8 D7); [exact (HH f' x' i' w' H1 H2 H3 H4)|]. intros Hs _ _. unfold z. symmetry. apply (Hsc f x i w f' x' i' w'); auto. }
      split; [auto|]. rewrite Hout. exists o. split; [reflexivity|]. split; [apply (lR_out val f x o g2 ov Hx); [rewrite Hout; left; reflexivity|exact K5]|]. split; [exact K6|]. split; [exact K7|].
      intros [|k] o1 Hk; discriminate.
  - intros g t inputs E _ Hi _ _. exists g, t, None. split; [|split; [apply ext_refl|exact I]]. unfold add_bias.
    replace (fn_of g (length (g_fns g0))) with (Some (Fn sink outs [length (g_vars g0)])) by (symmetry; exact (ext_fn _ _ _ _ _ E (fn_sink blank g0 outs))). reflexivity.
  - exists g', outs'. split; [exact R1|]. split; [exact R2|]. eapply Forall2_impl; [|exact R3]. intros a b (H & _). exact H.
Qed.
End Folding.
