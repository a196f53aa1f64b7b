(** Modifiers that make parameters. *)
From Coq Require Import String List Arith Bool Lia.
From Verif Require Import IdxModel GcvModel GcvSpec GcvProofs1 GcvProofs2 GcvProofs3 GcvProofs4.
Import ListNotations.
Local Open Scope list_scope.

Lemma find_app {A : Type} (f : A -> bool) l m : find f (l ++ m) = match find f l with Some x => Some x | None => find f m end.
Proof. induction l as [|a l IH]; cbn; [reflexivity|]. destruct (f a); [reflexivity|exact IH]. Qed.
Lemma find_none {A : Type} (f : A -> bool) l : (forall x, In x l -> f x = false) -> find f l = None.
Proof. induction l as [|a l IH]; intros H; [reflexivity|]. cbn. rewrite (H a (or_introl eq_refl)). apply IH. intros x Hx. apply H. right. exact Hx. Qed.

Section Params.
Context {V : Type} (sem : op -> list V -> option (list V)).
Implicit Types g : graph V.

(** The parameters of before, and new ones with new buffers. *)
Definition kept g0 g : Prop := exists added, g_params g = g_params g0 ++ added /\ Forall (fun p => length (g_store g0) <= p_data p) added.
Lemma kept_refl g : kept g g.
Proof. exists []. rewrite app_nil_r. auto. Qed.

Lemma scope_kept g0 g w v d : kept g0 g -> d < length (g_store g0) -> data g0 w = Some d -> data g v = Some d -> parameter_scope g v = parameter_scope g0 w.
Proof.
  intros (added & H1 & H2) Hd Hw Hv. unfold parameter_scope. rewrite H1, Hw, Hv, find_app.
  destruct (find (fun p => p_grad p && (p_data p =? d)) (g_params g0)); [reflexivity|]. rewrite find_none; [reflexivity|].
  intros p Hp. rewrite Forall_forall in H2. specialize (H2 p Hp). apply andb_false_intro2. apply Nat.eqb_neq. lia.
Qed.

Definition holds g (scope name : string) (num : nat) (x : V) : Prop := forall d, registered g scope name num = Some d -> nth_error (g_store g) d = Some x.
Lemma holds_stable g g' scope name num x : holds g scope name num x -> g_params g' = g_params g -> prefix (g_store g) (g_store g') -> holds g' scope name num x.
Proof. intros H E Hp d Hd. apply (prefix_nth _ _ _ _ Hp). apply H. unfold registered in *. rewrite E in Hd. exact Hd. Qed.

Theorem goc_ok (G : graph V) g scope name num ng x : holds g scope name num x ->
  exists g' v d, get_or_create g scope name num ng x = (g', v) /\ ext G g g' /\ v = length (g_vars g) /\ v < length (g_vars g') /\ g_fns g' = g_fns g /\
    nth_error (g_vars g') v = Some (Var d None) /\ nth_error (g_store g') d = Some x /\ prefix (g_store g) (g_store g') /\
    (g_params g' = g_params g \/ registered g scope name num = None /\ d = length (g_store g) /\ g_params g' = g_params g ++ [Param scope name num ng d]).
Proof.
  intros H. unfold get_or_create. destruct (registered g scope name num) as [d|] eqn:E.
  - exists (fst (new_leaf g d)), (length (g_vars g)), d. split; [reflexivity|]. split; [apply ext_leaf|]. split; [reflexivity|]. cbn. rewrite app_length. cbn.
    split; [lia|]. split; [reflexivity|]. split; [rewrite nth_error_app2, Nat.sub_diag by lia; reflexivity|]. split; [apply H, E|]. split; [apply prefix_refl|]. auto.
  - set (g1 := Graph (g_vars g) (g_fns g) (g_store g ++ [x]) (g_params g ++ [Param scope name num ng (length (g_store g))])).
    exists (fst (new_leaf g1 (length (g_store g)))), (length (g_vars g)), (length (g_store g)). split; [reflexivity|]. split.
    { apply (ext_trans G g g1); [|apply ext_leaf]. split; [apply prefix_refl|]. split; [exists []; rewrite app_nil_r; auto|apply prefix_app]. }
    split; [reflexivity|]. cbn. rewrite app_length. cbn. split; [lia|]. split; [reflexivity|]. split; [rewrite nth_error_app2, Nat.sub_diag by lia; reflexivity|].
    split; [rewrite nth_error_app2, Nat.sub_diag by lia; reflexivity|]. split; [apply prefix_app|]. auto.
Qed.
Lemma holds_other g g' scope name num ng d scope' name' num' x y : g_params g' = g_params g ++ [Param scope name num ng d] -> prefix (g_store g) (g_store g') ->
  nth_error (g_store g') d = Some x -> holds g scope' name' num' y -> (scope' = scope -> name' = name -> num' = num -> y = x) -> holds g' scope' name' num' y.
Proof.
  intros Hp Hs Hx H Heq e. unfold registered. rewrite Hp, find_app. specialize (H e). unfold registered in H.
  destruct (find (fun p => String.eqb (p_scope p) scope' && String.eqb (p_name p) name' && (p_num p =? num')) (g_params g)) as [p|].
  - intros E. apply (prefix_nth _ _ _ _ Hs), H, E.
  - cbn. destruct (String.eqb scope scope') eqn:E1; [|discriminate]. destruct (String.eqb name name') eqn:E2; [|discriminate]. destruct (num =? num') eqn:E3; [|discriminate].
    cbn. intros [= <-]. apply String.eqb_eq in E1, E2. apply Nat.eqb_eq in E3. rewrite Hx. rewrite (Heq (eq_sym E1) (eq_sym E2) (eq_sym E3)). reflexivity.
Qed.
Lemma registered_other g g' scope name num ng d scope' name' num' : g_params g' = g_params g ++ [Param scope name num ng d] -> (name', num') <> (name, num) ->
  registered g scope' name' num' = None -> registered g' scope' name' num' = None.
Proof.
  intros Hp Hne H. unfold registered in *. rewrite Hp, find_app.
  destruct (find (fun p => String.eqb (p_scope p) scope' && String.eqb (p_name p) name' && (p_num p =? num')) (g_params g)); [discriminate|]. cbn.
  destruct (String.eqb name name') eqn:E2; [|rewrite andb_false_r; reflexivity]. destruct (num =? num') eqn:E3; [|rewrite andb_false_r; reflexivity].
  apply String.eqb_eq in E2. apply Nat.eqb_eq in E3. congruence.
Qed.
Lemma kept_goc g0 g g' (p : param) d : kept g0 g -> prefix (g_store g0) (g_store g) -> p_data p = length (g_store g) \/ p_data p = d -> d = length (g_store g) -> g_params g' = g_params g ++ [p] -> kept g0 g'.
Proof.
  intros (added & H1 & H2) (r & Hr) Hp Hd E. exists (added ++ [p]). split; [rewrite E, H1, app_assoc; reflexivity|]. apply Forall_app. split; [exact H2|]. constructor; [|constructor].
  rewrite Hr, app_length in *. lia.
Qed.
End Params.

Section Making.
Context {V : Type} (sem : op -> list V -> option (list V)) (blank : V) (min_outputs : op -> nat -> option nat).
Variables (g0 : graph V) (outs : list nat).
Hypothesis C : convertible min_outputs g0 outs.
Let G := sunk blank g0 outs.
Implicit Types g : graph V.

Lemma content_leaf g v d x : ext G G g -> nth_error (g_vars g0) v = Some (Var d None) -> nth_error (g_store g0) d = Some x -> content g v = Some x.
Proof.
  intros E Hv Hx. unfold content, data, var_of. rewrite (ext_var _ _ _ _ _ E (var_old blank g0 outs _ _ Hv)). cbn [v_data obind].
  apply (ext_store _ _ _ _ _ E). cbn [g_store G sunk]. rewrite nth_error_app1; [exact Hx|]. apply nth_error_Some. congruence.
Qed.
Lemma contents_leaf g l xs : ext G G g -> Forall2 (fun v x => exists d, nth_error (g_vars g0) v = Some (Var d None) /\ nth_error (g_store g0) d = Some x) l xs ->
  fold_right (fun v l => obind (content g v) (fun c => obind l (fun l => Some (c :: l)))) (Some []) l = Some xs.
Proof.
  intros E. induction 1 as [|v x l xs (d & H1 & H2) Hl IH]; [reflexivity|]. cbn [fold_right]. rewrite IH, (content_leaf g v d x E H1 H2). reflexivity.
Qed.
Lemma prefix_sunk g : ext G G g -> prefix (g_store g0) (g_store g).
Proof. intros (_ & _ & H). apply (prefix_trans _ (g_store G)); [apply prefix_app|exact H]. Qed.

(** A call with one result. *)
Lemma returned_one g t o inputs xs z : Forall (clean G) inputs -> ext G G g -> Forall2 (computes sem g) inputs xs -> sem o xs = Some [z] -> min_outputs o (length inputs) = Some 1 ->
  exists g' v, call blank min_outputs g o inputs = Some (g', [v]) /\ returned t (call blank min_outputs g o inputs) = Some (g', t, Some v) /\ ext G g g' /\ g_params g' = g_params g /\
    computes sem g' v z /\ clean G v /\ v < length (g_vars g') /\ nth_error (g_vars g') v = Some (Var (length (g_store g)) (Some (length (g_fns g)))) /\ fn_of g' (length (g_fns g)) = Some (Fn o inputs [v]).
Proof.
  intros Hc E Hi Hs Hm. destruct (call_some blank min_outputs g o inputs 1 Hm) as (g' & l & A1 & A2). destruct l as [|v [|? ?]]; try discriminate.
  exists g', v. split; [exact A1|]. unfold returned. rewrite A1. cbn [obind]. split; [reflexivity|]. pose proof (call_ext blank min_outputs G _ _ _ _ _ A1 Hc) as E'. split; [exact E'|].
  destruct (call_outs _ _ _ _ _ _ _ A1) as (D1 & D2). split; [exact D2|]. pose proof (call_computes sem blank min_outputs G g o inputs xs [z] g' [v] A1 Hc Hi Hs A2) as Hcv.
  inversion Hcv; subst. inversion D1 as [|? ? Hv _]; subst. pose proof (ext_vars_le _ _ _ E). split; [assumption|]. split; [apply clean_new; lia|]. split; [lia|].
  unfold call in A1. rewrite Hm in A1. cbn [obind seq map repeat] in A1. injection A1 as <- <-. cbn [g_vars]. rewrite nth_error_app2, Nat.sub_diag by lia. split; [reflexivity|].
  unfold fn_of. cbn [g_fns]. rewrite nth_error_app2, Nat.sub_diag by lia. reflexivity.
Qed.

(** BatchNormalizationSelfFoldingModifier *)
Theorem self_fold_ok (name : string) (scale : op -> list V -> option (V * V)) (val : nat -> V) : valuation sem g0 outs val ->
  (forall k, registered g0 name "c0" k = None) -> (forall k, registered g0 name "c1" k = None) ->
  min_outputs mul2 2 = Some 1 -> min_outputs add2 2 = Some 1 ->
  (forall f x, below g0 outs f -> nth_error (g_fns g0) f = Some x -> op_type (f_op x) = "BatchNormalization"%string ->
     exists i ps o c0 c1 h, f_in x = i :: ps /\ f_out x = [o] /\
       (forall v, In v (firstn 4 ps) -> exists d, nth_error (g_vars g0) v = Some (Var d None)) /\
       scale (f_op x) (map val (firstn 4 ps)) = Some (c0, c1) /\ sem mul2 [c0; val i] = Some [h] /\ sem add2 [h; c1] = Some [val o]) ->
  exists g' outs', convert1 blank min_outputs (self_fold blank min_outputs name scale) g0 outs = Some (g', outs') /\ ext G G g' /\ Forall2 (fun o v => computes sem g' v (val o)) outs outs'.
Proof.
  intros Hv Hr0 Hr1 Hm2 Ha2 Hbn.
  set (P := fun (g : graph V) (t : table) => forall k, t_cnt t <= k -> registered g name "c0" k = None /\ registered g name "c1" k = None).
  assert (Hrel : forall f x v, below g0 outs f -> nth_error (g_fns g0) f = Some x -> In v (f_in x) -> relevant g0 outs v) by (intros f x v Hf Hx Hi; right; exists f, x; auto).
  destruct (round_value sem blank min_outputs g0 outs C P val (self_fold blank min_outputs name scale)) as (g' & outs' & R1 & R2 & R3).
  - exact (val_leaf _ _ _ _ Hv).
  - exact (val_data _ _ _ _ Hv).
  - intros g t g' t' HP Hp _ Ht k Hk. unfold registered. rewrite Hp. rewrite Ht in Hk. exact (HP k Hk).
  - intros k _. split; [apply Hr0|apply Hr1].
  - intros f x Hf Hx. pose proof (fn_old blank g0 outs f x Hx) as Hx'. fold G in Hx' |- *. destruct (is_bn (op_type (f_op x))) eqn:Eb.
    + apply String.eqb_eq in Eb. destruct (Hbn f x Hf Hx Eb) as (i & ps & o & c0 & c1 & h & B1 & B2 & B3 & B4 & B5 & B6).
      intros g t inputs E HP Hi Hc Hl. unfold self_fold. replace (fn_of g f) with (Some x) by (symmetry; exact (ext_fn _ _ _ _ _ E Hx')). cbn [obind]. unfold is_bn. rewrite Eb. cbn [negb String.eqb].
      change (String.eqb "BatchNormalization" bn_type) with true. cbn [negb]. rewrite B1. cbn [tl].
      rewrite (contents_leaf g (firstn 4 ps) (map val (firstn 4 ps)) E).
      2:{ apply forall2_map. clear -B3 B1 Hv Hrel Hf Hx. assert (Hin : forall v, In v (firstn 4 ps) -> In v ps) by (intros v H; rewrite <- (firstn_skipn 4 ps); apply in_or_app; auto).
          induction (firstn 4 ps) as [|v l IH]; constructor.
          - destruct (B3 v (or_introl eq_refl)) as (d & Hd). exists d. split; [exact Hd|]. apply (val_leaf _ _ _ _ Hv); [|exact Hd]. apply (Hrel f x); auto. rewrite B1. right. apply Hin. left. reflexivity.
          - apply IH; intros w Hw; [apply B3|apply Hin]; right; exact Hw. }
      cbn [obind]. rewrite B4. cbn [obind]. rewrite B1 in Hi. inversion Hi as [|? v ? l Hv0 Hl0 Ea1 Ea2]; subst. cbn [nth_error obind].
      inversion Hc as [|? ? Hcv Hcl]; subst. inversion Hl as [|? ? Hlv Hll]; subst.
      destruct (goc_ok G g name "c0" (t_cnt t) true c0) as (g1 & a & da & D1 & D2 & D3 & D4 & D5 & D6 & D7 & D8 & D9). { intros d Hd. rewrite (proj1 (HP (t_cnt t) (le_n _))) in Hd. discriminate. }
      rewrite D1. pose proof (ext_trans _ _ _ _ E D2) as E1.
      assert (HP1 : forall k, t_cnt t < k -> registered g1 name "c0" k = None /\ registered g1 name "c1" k = None).
      { intros k Hk. destruct (HP k (Nat.lt_le_incl _ _ Hk)) as (HA & HB). destruct D9 as [D9|(_ & _ & D9)].
        - unfold registered. rewrite D9. auto.
        - split; apply (registered_other _ _ _ _ _ _ _ _ _ _ D9); auto; intros [= Hx1]; lia. }
      assert (HP1' : registered g1 name "c1" (t_cnt t) = None).
      { destruct (HP (t_cnt t) (le_n _)) as (HA & HB). destruct D9 as [D9|(_ & _ & D9)].
        - unfold registered. rewrite D9. auto.
        - apply (registered_other _ _ _ _ _ _ _ _ _ _ D9); auto. discriminate. }
      destruct (goc_ok G g1 name "c1" (t_cnt t) true c1) as (g2 & b & db & F1 & F2 & F3 & F4 & F5 & F6 & F7 & F8 & F9). { intros d Hd. rewrite HP1' in Hd. discriminate. }
      rewrite F1. pose proof (ext_trans _ _ _ _ E1 F2) as E2.
      assert (HP2 : forall k, t_cnt t < k -> registered g2 name "c0" k = None /\ registered g2 name "c1" k = None).
      { intros k Hk. destruct (HP1 k Hk) as (HA & HB). destruct F9 as [F9|(_ & _ & F9)].
        - unfold registered. rewrite F9. auto.
        - split; apply (registered_other _ _ _ _ _ _ _ _ _ _ F9); auto; intros [= Hx1]; lia. }
      pose proof (ext_vars_le _ _ _ E) as LE. pose proof (ext_vars_le _ _ _ D2) as LE1.
      assert (Ca : clean G a) by (apply clean_new; lia). assert (Cb : clean G b) by (apply clean_new; lia).
      destruct (returned_one g2 t mul2 [a; v] [c0; val i] h) as (g3 & hv & K1 & _ & K3 & K4 & K5 & K6 & K7 & _ & _); [repeat constructor; assumption|exact E2| |exact B5|exact Hm2|].
      { constructor; [|constructor; [|constructor]].
        - exact (computes_leaf sem g2 a da c0 (ext_var _ _ _ _ _ F2 D6) (ext_store _ _ _ _ _ F2 D7)).
        - apply (computes_mono sem G g g2 (ext_trans _ _ _ _ D2 F2)). exact Hv0. }
      rewrite K1. cbn [obind nth_error]. pose proof (ext_trans _ _ _ _ E2 K3) as E3.
      destruct (returned_one g3 (Table (t_inputs t) (S (t_cnt t))) add2 [hv; b] [h; c1] (val o)) as (g4 & ov & L1 & L2 & L3 & L4 & L5 & L6 & L7 & _ & _); [repeat constructor; assumption|exact E3| |exact B6|exact Ha2|].
      { constructor; [exact K5|constructor; [|constructor]]. exact (computes_leaf sem g3 b db c1 (ext_var _ _ _ _ _ K3 F6) (ext_store _ _ _ _ _ K3 F7)). }
      rewrite L2. eexists g4, _, (Some ov). split; [reflexivity|]. split; [exact (ext_trans _ _ _ _ (ext_trans _ _ _ _ D2 F2) (ext_trans _ _ _ _ K3 L3))|]. split.
      { intros k Hk. cbn [t_cnt] in Hk. unfold registered. rewrite L4, K4. apply HP2. lia. }
      split; [auto|]. rewrite B2. exists o. split; [reflexivity|]. split; [exact L5|]. split; [exact L6|]. split; [exact L7|]. intros [|k] o' Hk; discriminate.
    + apply (unchanged_ok sem blank min_outputs g0 outs C); auto; [exact (val_fn _ _ _ _ Hv f x Hf Hx)|]. intros g t inputs E _ _. unfold self_fold.
      replace (fn_of g f) with (Some x) by (symmetry; exact (ext_fn _ _ _ _ _ E Hx')). cbn [obind]. rewrite Eb. reflexivity.
  - intros g t inputs E _ Hi _ _. exists g, t, None. split; [|split; [apply ext_refl|exact I]]. unfold self_fold.
    replace (fn_of g (length (g_fns g0))) with (Some (Fn sink outs [length (g_vars g0)])) by (symmetry; exact (ext_fn _ _ _ _ _ E (fn_sink blank g0 outs))). reflexivity.
  - exists g', outs'. auto.
Qed.
End Making.
