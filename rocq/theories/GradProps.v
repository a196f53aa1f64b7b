(** Properties of nn.grad (C14). *)
From Coq Require Import List Arith Bool Lia Permutation.
From Verif Require Import CgModel CgSpec CgProofs BwModel BwSpec BwProofs BwProps GradModel GradSpec GradProofs GradProofs2 GradProofs3.
Import ListNotations.
Local Open Scope list_scope.

Lemma path_above {V} (g : graph V) ng y l v : linked g -> is_path g ng y l v -> l <> [] -> above g y v.
Proof.
  intros Hln H. induction H as [|l f fd o i u v Hp IH Hf Ho Hr Hn]; intros Hl; [congruence|].
  assert (Hu : parent g u = Some f) by (apply (ln_outs g Hln f fd u Hf); eapply nth_error_In; eauto).
  destruct Hr as (fd' & Hf' & Hi & _). apply nth_error_In in Hi.
  inversion Hp; subst.
  - eapply above_in; eauto.
  - eapply above_up; eauto. apply IH. intros X. destruct l0; discriminate.
Qed.
Lemma path_step_parent {V} (g : graph V) ng lvl y l v p q : linked g -> numbering g lvl ->
  is_path g ng y l v -> parent g y = Some p -> parent g v = Some q -> (l = [] /\ q = p) \/ lvl q < lvl p.
Proof.
  intros Hln Hlvl H Hy. revert q. induction H as [|l f fd o i u v Hp IH Hf Ho Hr Hn]; intros q Hq.
  - left. split; auto. congruence.
  - right. assert (Hu : parent g u = Some f) by (apply (ln_outs g Hln f fd u Hf); eapply nth_error_In; eauto).
    destruct Hr as (fd' & Hf' & Hi & _). apply nth_error_In in Hi.
    destruct (Hlvl f fd' Hf') as (_ & X). specialize (X v q Hi Hq).
    destruct (IH f Hu) as [(_ & ->)|]; lia.
Qed.

(** C14, in full: for every acyclic graph and all lists of outputs and inputs, the value
    returned for input x is the sum, over the outputs y and over all paths from y to x, of
    the chain rule along the path.  This fails in the ways shown at the end of this
    file; here it is proved for outputs computed by different functions and inputs that
    are different variables, none of them an output, each standing for one variable of
    the graph.  [roots] are the outputs multiplied by grad_outputs. *)
Theorem C14_grad_partial : forall V G (add : G -> G -> G) zero (g : graph V)
    vid vr fr vneed fneed d one roots outs inputs,
  comm_monoid add zero -> (forall f o i, additive add zero (d f o i)) ->
  linked g -> acyclic g -> own_grads g vid ->
  nn_flags g vneed fneed fr -> grad_roots g vneed vr fr roots ->
  grad_inputs g vid vneed roots outs inputs -> (forall o, In o outs -> is_var g o) ->
  exists r, grad add zero g vid vr fr vneed fneed d one roots outs inputs = GOk r /\
    length r = length inputs /\
    forall i x ps, nth_error inputs i = Some x ->
      (forall y, In y roots -> all_paths g vneed y (fun v => vid v = vid x) (ps y)) ->
      nth_error r i = Some (gsum add zero (flat_map (fun y => map (path_val d (one y)) (ps y)) roots)).
Proof. intros V G add zero g vid vr fr vneed fneed d one roots outs inputs M. apply (grad_ok add zero M g). Qed.
Print Assumptions C14_grad_partial.

(** Without grad_outputs, after a forward: any outputs with different functions. *)
Theorem C14_after_forward_partial : forall V G (add : G -> G -> G) zero (g : graph V)
    vid vr fr vneed fneed d one outs inputs,
  comm_monoid add zero -> (forall f o i, additive add zero (d f o i)) ->
  linked g -> acyclic g -> own_grads g vid -> built_flags g vneed fneed -> forward_ranks g vr fr ->
  (forall y, In y outs -> ~ is_leaf g y) -> NoDup (map (parent g) outs) ->
  NoDup (map vid inputs) -> (forall x y, In x inputs -> In y outs -> vid x <> vid y) ->
  (forall x u v f fd h hd, In x inputs -> fun_at g f = Some fd -> In u (f_ins fd) ->
     fun_at g h = Some hd -> In v (f_ins hd) -> vid u = vid x -> vid v = vid x -> u = v) ->
  exists r, grad add zero g vid vr fr vneed fneed d one outs outs inputs = GOk r /\
    length r = length inputs /\
    forall i x ps, nth_error inputs i = Some x ->
      (forall y, In y outs -> all_paths g vneed y (fun v => vid v = vid x) (ps y)) ->
      nth_error r i = Some (gsum add zero (flat_map (fun y => map (path_val d (one y)) (ps y)) outs)).
Proof.
  intros V G add zero g vid vr fr vneed fneed d one outs inputs M Hd Hln Hac Hown (F1 & F2) (R1 & R2) Hleaf Hnd Hni Hio Hone.
  assert (Hpar : forall y, In y outs -> exists p, parent g y = Some p).
  { intros y Hy. specialize (Hleaf y Hy). unfold is_leaf in Hleaf. destruct (parent g y); eauto. congruence. }
  apply C14_grad_partial; auto.
  - constructor; auto. intros f i v q (fd & Hf & Hi & _) Hq. apply nth_error_In in Hi. eauto.
  - constructor; auto.
    intros y Hy. destruct (Hpar y Hy) as (p & Hp). exists p. split; auto. rewrite (R2 y p Hp). auto.
  - constructor; auto.
    + intros x u v Hx (f & fd & A & B) (h & hd & C & D) E1 E2. eapply (Hone x u v f fd h hd); eauto.
    + intros x y l v Hx Hy Hp E.
      assert (l <> []). { intros ->. inversion Hp; subst; [eapply Hio; eauto; congruence|destruct l; discriminate]. }
      split; auto. exists y. split; auto. eapply path_above; eauto.
  - intros o Ho. destruct (Hpar o Ho) as (p & Hp). eapply parent_var; eauto.
Qed.
Print Assumptions C14_after_forward_partial.

(** Before any forward: one output. *)
Theorem C14_single_output_partial : forall V G (add : G -> G -> G) zero (g : graph V)
    vid vr fr vneed fneed d one y inputs,
  comm_monoid add zero -> (forall f o i, additive add zero (d f o i)) ->
  linked g -> acyclic g -> own_grads g vid -> built_flags g vneed fneed -> built_ranks g vr fr ->
  ~ is_leaf g y ->
  NoDup (map vid inputs) -> (forall x, In x inputs -> vid x <> vid y) ->
  (forall x u v f fd h hd, In x inputs -> fun_at g f = Some fd -> In u (f_ins fd) ->
     fun_at g h = Some hd -> In v (f_ins hd) -> vid u = vid x -> vid v = vid x -> u = v) ->
  exists r, grad add zero g vid vr fr vneed fneed d one [y] [y] inputs = GOk r /\
    length r = length inputs /\
    forall i x ps, nth_error inputs i = Some x ->
      all_paths g vneed y (fun v => vid v = vid x) ps ->
      nth_error r i = Some (gsum add zero (map (path_val d (one y)) ps)).
Proof.
  intros V G add zero g vid vr fr vneed fneed d one y inputs M Hd Hln Hac Hown (F1 & F2) (R1 & R2) Hleaf Hni Hio Hone.
  assert (Hpar : exists p, parent g y = Some p).
  { unfold is_leaf in Hleaf. destruct (parent g y); eauto. congruence. }
  destruct Hpar as (p & Hp). destruct Hac as (lvl & Hlvl).
  destruct (C14_grad_partial V G add zero g vid vr fr vneed fneed d one [y] [y] inputs) as (r & E & L & R); auto.
  - exists lvl. auto.
  - constructor; auto. intros f i v q (fd & Hf & Hi & _) Hq. apply nth_error_In in Hi.
    specialize (R1 f fd v Hf Hi). rewrite (R2 v q Hq) in R1. lia.
  - constructor.
    + intros z [<-|[]]. exists p. split; auto. rewrite (R2 y p Hp). auto.
    + cbn. constructor; [intros []|constructor].
    + intros z q [<-|[]] Hq. right. intros z' l v [<-|[]] Hpath Hl E.
      assert (q = p) by congruence. subst q.
      destruct (path_step_parent g vneed lvl y l v p p Hln Hlvl Hpath Hp E) as [(X & _)|X]; [auto|lia].
  - constructor; auto.
    + intros x u v Hx (f & fd & A & B) (h & hd & C & D) E1 E2. eapply (Hone x u v f fd h hd); eauto.
    + intros x z l v Hx [<-|[]] Hpath E.
      assert (l <> []). { intros ->. inversion Hpath; subst; [eapply Hio; eauto; congruence|destruct l; discriminate]. }
      split; auto. exists y. split; [left; auto|]. eapply path_above; eauto.
  - intros o [<-|[]]. eapply parent_var; eauto.
  - exists r. split; auto. split; auto. intros i x ps Hx Hps. rewrite (R i x (fun _ => ps) Hx).
    + cbn [flat_map]. rewrite app_nil_r. reflexivity.
    + intros z [<-|[]]. exact Hps.
Qed.
Print Assumptions C14_single_output_partial.

(** nn.grad and backward agree: what backward adds to the gradient of a parameter is the
    value nn.grad gives for it. *)
Theorem C14_agrees_with_backward_partial : forall V G (add : G -> G -> G) zero (g : graph V)
    gf (s : st V) vid vr fr fneed d one y p inputs cb ci given m z,
  comm_monoid add zero -> (forall f o i, additive add zero (d f o i)) ->
  linked g -> acyclic g -> own_grads g vid ->
  CgSpec.grad_flags g gf -> parent g y = Some p -> marked g gf p s -> uncut g p ->
  (given = false -> m (vid y) = Some (one y)) ->
  (forall a, z a = true -> m a = Some zero) ->
  (forall f i v, needs g p f -> reads g f i v -> is_leaf g v -> m (vid v) <> None) ->
  built_flags g (ng_of g gf) fneed -> built_ranks g vr fr ->
  NoDup (map vid inputs) -> (forall x, In x inputs -> is_var g x /\ is_leaf g x) ->
  (forall x u v f fd h hd, In x inputs -> fun_at g f = Some fd -> In u (f_ins fd) ->
     fun_at g h = Some hd -> In v (f_ins hd) -> vid u = vid x -> vid v = vid x -> u = v) ->
  exists b r, backward add zero g s d vid cb ci y p given m z (one y) = Ok b /\
    grad add zero g vid vr fr (ng_of g gf) fneed d one [y] [y] inputs = GOk r /\
    forall i x, nth_error inputs i = Some x -> exists v, nth_error r i = Some v /\
      forall x0, m (vid x) = Some x0 -> gmem b (Own (vid x)) = Some (add x0 v).
Proof.
  intros V G add zero g gf s vid vr fr fneed d one y p inputs cb ci given m z M Hd Hln Hac Hown Hgf Hy Hm Hun Hr Hz Hl Hbf Hbr Hni Hlf Hone.
  destruct (C13_backward_partial V G add zero g gf s d vid cb ci given y p m z (one y)) as (b & Eb & B); auto.
  assert (Lf : forall x u, In x inputs -> is_var g u -> vid u = vid x -> is_leaf g u).
  { intros x u Hx Hu E. unfold is_leaf. destruct (parent g u) as [q|] eqn:Eq; auto. exfalso.
    destruct (Hlf x Hx) as (A1 & A2). assert (x = u) by (eapply own_eq; eauto). subst u. unfold is_leaf in A2. congruence. }
  destruct (C14_single_output_partial V G add zero g vid vr fr (ng_of g gf) fneed d one y inputs) as (r & E & L & R); auto.
  - unfold is_leaf. congruence.
  - intros x Hx E. pose proof (Lf x y Hx (parent_var g Hln y p Hy) (eq_sym E)) as X. unfold is_leaf in X. congruence.
  - exists b, r. split; auto. split; auto. intros i x Hx. assert (Hxi : In x inputs) by (eapply nth_error_In; eauto).
    destruct (Hlf x Hxi) as (A1 & A2).
    destruct (C13_paths_exist V g (ng_of g gf) y (fun v => vid v = vid x) Hln Hac) as (ps & P1 & P2).
    { intros v. apply Nat.eq_dec. }
    exists (gsum add zero (map (path_val d (one y)) ps)). split.
    { apply (R i x ps Hx). split; auto. }
    intros x0 Hx0. rewrite (B x ps A1 A2), Hx0; auto. split; auto. intros l. rewrite P2. split.
    + intros (v & Q1 & Q2). exists v. split; auto. split; auto. apply (Lf x v Hxi); auto.
      inversion Q1 as [|l' f fd o i' u v' Hp' Hf Ho Hr' Hn]; subst.
      * eapply parent_var; eauto.
      * destruct Hr' as (fd' & H1 & H2 & _). apply nth_error_In in H2. eapply ln_ins; eauto.
    + intros (v & Q1 & _ & Q2). exists v. auto.
Qed.
Print Assumptions C14_agrees_with_backward_partial.

(** Deciding the structural conditions on concrete graphs. *)
Section Check.
Variable g : graph unit.
Variable vid : nat -> nat.
Variable vneed fneed : nat -> bool.
Definition nodupb (l : list nat) : bool := Nat.eqb (length (nodup Nat.eq_dec l)) (length l).
Definition fun_okb (f : nat) (fd : fn unit) : bool :=
  forallb (fun v => Nat.ltb v (length (g_vars g))) (f_ins fd ++ f_outs fd) &&
  forallb (fun v => match parent g v with Some p => Nat.eqb p f | None => false end) (f_outs fd) &&
  nodupb (f_outs fd) &&
  forallb (fun v => match parent g v with Some p => Nat.ltb p f | None => true end) (f_ins fd).
Definition fns_okb : bool :=
  forallb (fun f => match fun_at g f with Some fd => fun_okb f fd | None => true end) (seq 0 (length (g_fns g))).
Definition vars_okb : bool :=
  forallb (fun v => match parent g v with
     | None => true
     | Some p => match fun_at g p with Some fd => mem_nat v (f_outs fd) && Bool.eqb (vneed v) (fneed p) | None => false end
     end) (seq 0 (length (g_vars g))).
Definition own_okb : bool :=
  forallb (fun u => forallb (fun v => match parent g v with
     | None => true | Some _ => negb (Nat.eqb (vid u) (vid v)) || Nat.eqb u v end)
     (seq 0 (length (g_vars g)))) (seq 0 (length (g_vars g))).
Definition reads_okb : bool :=
  forallb (fun f => match fun_at g f with Some fd => fneed f || forallb (fun v => negb (vneed v)) (f_ins fd) | None => true end)
    (seq 0 (length (g_fns g))).
Lemma parent_default v : length (g_vars g) <= v -> parent g v = None.
Proof. intros H. unfold parent, var_at. rewrite nth_overflow; auto. Qed.
Lemma check_ok : fns_okb && vars_okb && own_okb && reads_okb = true ->
  linked g /\ acyclic g /\ own_grads g vid /\ built_flags g vneed fneed.
Proof.
  intros H. apply andb_true_iff in H as (H & H4). apply andb_true_iff in H as (H & H3).
  apply andb_true_iff in H as (H1 & H2).
  unfold fns_okb in H1. unfold vars_okb in H2. unfold own_okb in H3. unfold reads_okb in H4.
  rewrite forallb_forall in H1, H2, H3, H4.
  assert (F : forall f fd, fun_at g f = Some fd -> fun_okb f fd = true).
  { intros f fd Hf. specialize (H1 f). rewrite Hf in H1. apply H1. apply in_seq. split; [lia|]. cbn. eapply fun_lt; eauto. }
  assert (P : forall v p, parent g v = Some p -> exists fd, fun_at g p = Some fd /\ In v (f_outs fd) /\ vneed v = fneed p).
  { intros v p Hp. assert (Hv : v < length (g_vars g)).
    { destruct (le_lt_dec (length (g_vars g)) v) as [X|X]; auto. apply parent_default in X. congruence. }
    assert (Hs : In v (seq 0 (length (g_vars g)))) by (apply in_seq; lia).
    specialize (H2 v Hs). rewrite Hp in H2. destruct (fun_at g p) as [fd|]; [|discriminate].
    apply andb_true_iff in H2 as (A & B). exists fd. split; auto. split; [apply mem_in; auto|apply eqb_prop; auto]. }
  assert (FF : forall f fd, fun_at g f = Some fd ->
     (forall v, In v (f_ins fd ++ f_outs fd) -> v < length (g_vars g)) /\
     (forall v, In v (f_outs fd) -> parent g v = Some f) /\ NoDup (f_outs fd) /\
     (forall v p, In v (f_ins fd) -> parent g v = Some p -> p < f)).
  { intros f fd Hf. pose proof (F f fd Hf) as X. unfold fun_okb in X.
    apply andb_true_iff in X as (X & X4). apply andb_true_iff in X as (X & X3). apply andb_true_iff in X as (X1 & X2).
    rewrite forallb_forall in X1, X2, X4. split; [|split; [|split]].
    - intros v Hv. apply Nat.ltb_lt. auto.
    - intros v Hv. specialize (X2 v Hv). destruct (parent g v); [|discriminate]. apply Nat.eqb_eq in X2. congruence.
    - apply Nat.eqb_eq in X3. eapply NoDup_incl_NoDup; [apply (NoDup_nodup Nat.eq_dec)|rewrite X3; auto|].
      intros v Hv. apply nodup_In in Hv. auto.
    - intros v p Hv Hp. specialize (X4 v Hv). rewrite Hp in X4. apply Nat.ltb_lt. auto. }
  split; [|split; [|split; [|split]]].
  - constructor.
    + intros f fd v Hf Hv. destruct (FF f fd Hf) as (A & _). apply A. apply in_app_iff. auto.
    + intros f fd v Hf Hv. destruct (FF f fd Hf) as (A & B & _). split; [apply A; apply in_app_iff; auto|auto].
    + intros v p Hp. destruct (P v p Hp) as (fd & A & B & _). eauto.
    + intros f fd Hf. apply (FF f fd Hf).
  - exists (fun f => f). intros f fd Hf. split; [eapply fun_lt; eauto|]. intros u q Hu Hq.
    destruct (FF f fd Hf) as (_ & _ & _ & A). eauto.
  - intros u v Hu Hv Hl E.
    assert (X := H3 u). rewrite forallb_forall in X. specialize (X (proj2 (in_seq _ _ _) (conj (Nat.le_0_l _) Hu)) v).
    specialize (X (proj2 (in_seq _ _ _) (conj (Nat.le_0_l _) Hv))).
    destruct (parent g v) eqn:Ep; [|exfalso; apply Hl; exact Ep].
    rewrite E, Nat.eqb_refl in X. cbn in X. apply Nat.eqb_eq. auto.
  - intros f i v (fd & Hf & Hi & _) Hn. apply nth_error_In in Hi.
    specialize (H4 f). rewrite Hf in H4.
    assert (X : fneed f || forallb (fun v => negb (vneed v)) (f_ins fd) = true).
    { apply H4. apply in_seq. split; [lia|]. cbn. eapply fun_lt; eauto. }
    apply orb_true_iff in X as [X|X]; auto. rewrite forallb_forall in X. specialize (X v Hi). rewrite Hn in X. discriminate.
  - intros v q Hq. destruct (P v q Hq) as (_ & _ & _ & A). auto.
Qed.
End Check.

(** x and w are leaves; h = f0(x, w), k = f1(h, w), y = f2(h, k, h), u = f3(k). *)
Definition gr_g : graph unit :=
  mkGraph [op0 [0; 1] [2]; op0 [2; 1] [3]; op0 [2; 3; 2] [4]; op0 [3] [5]]
          [bvar None 0 (Some true) 1; bvar None 1 (Some true) 2;
           bvar (Some 0) 2 None 3; bvar (Some 1) 3 None 2; bvar (Some 2) 4 None 0; bvar (Some 3) 5 None 0].
Definition gid (v : nat) := v.
Definition yes (v : nat) := true.
Definition fwd_vr (v : nat) : nat := match parent gr_g v with Some f => S f | None => 0 end.
Notation ngrad g vid vr fr roots := (grad Nat.add 0 g vid vr fr yes yes bw_d (fun _ => 10) roots roots).
(** Inputs: the parameter w, and the intermediate h. *)
Example C14_example : ngrad gr_g gid fwd_vr S [4; 5] [1; 2] = GOk [gsum Nat.add 0
      (map (path_val bw_d 10) (paths gr_g yes 4 5 (Nat.eqb 1) ++ paths gr_g yes 5 5 (Nat.eqb 1)));
    gsum Nat.add 0 (map (path_val bw_d 10) (paths gr_g yes 4 5 (Nat.eqb 2) ++ paths gr_g yes 5 5 (Nat.eqb 2)))] /\
  ngrad gr_g gid fwd_vr S [4; 5] [1; 2] = GOk [1200; 280].
Proof. split; vm_compute; reflexivity. Qed.
Lemma gr_ok : linked gr_g /\ acyclic gr_g /\ own_grads gr_g gid /\ built_flags gr_g yes yes.
Proof. apply check_ok. vm_compute. reflexivity. Qed.
Example C14_example_applies : exists r, ngrad gr_g gid fwd_vr S [4; 5] [1; 2] = GOk r /\ length r = 2 /\
  forall i x ps, nth_error [1; 2] i = Some x ->
    (forall y, In y [4; 5] -> all_paths gr_g yes y (fun v => v = x) (ps y)) ->
    nth_error r i = Some (gsum Nat.add 0 (flat_map (fun y => map (path_val bw_d 10) (ps y)) [4; 5])).
Proof.
  destruct gr_ok as (A & B & C & D).
  apply (C14_after_forward_partial unit nat Nat.add 0 gr_g gid fwd_vr S yes yes bw_d (fun _ => 10) [4; 5] [1; 2]);
    auto using nat_monoid, bw_additive.
  - split.
    + intros f fd v q Hf Hv Hq. apply le_n_S.
      destruct f as [|[|[|[|f]]]]; cbn in Hf; try (destruct f; discriminate); injection Hf as <-; cbn in Hv;
        repeat (destruct Hv as [<-|Hv]; [cbn in Hq; try discriminate; injection Hq as <-; lia|]); contradiction.
    + intros v f Hv. unfold fwd_vr. rewrite Hv. reflexivity.
  - intros y [<-|[<-|[]]]; discriminate.
  - repeat constructor; cbn; intuition discriminate.
  - repeat constructor; cbn; intuition discriminate.
  - intros x y [<-|[<-|[]]] [<-|[<-|[]]]; discriminate.
  - intros x u v f fd h hd _ _ _ _ _ E1 E2. unfold gid in *. congruence.
Qed.
Definition built_vr := fwd_vr.
Definition built_fr (f : nat) := f.
Example C14_single_example : ngrad gr_g gid built_vr built_fr [4] [0; 1] = GOk [200; 800].
Proof. vm_compute. reflexivity. Qed.

(** Violations.  Each theorem gives a graph that satisfies the structural conditions, and
    a call whose result differs from the sum over all paths. *)
Definition path_total (g : graph unit) (roots : list nat) (vid : nat -> nat) (x t : nat) : Prop :=
  forall ps, (forall y, In y roots -> all_paths g yes y (fun v => vid v = vid x) (ps y)) ->
    gsum Nat.add 0 (flat_map (fun y => map (path_val bw_d 10) (ps y)) roots) = t.
Lemma path_total_ok g roots vid x : linked g -> acyclic g ->
  path_total g roots vid x (gsum Nat.add 0 (flat_map (fun y => map (path_val bw_d 10)
     (paths g yes y (S (length (g_fns g))) (fun v => Nat.eqb (vid v) (vid x)))) roots)).
Proof.
  intros Hln (lvl & Hlvl) ps H. rewrite !(gsum_flat Nat.add 0 nat_monoid). apply gsum_ext. intros y Hy.
  apply (gsum_perm Nat.add 0 nat_monoid). apply Permutation_map.
  eapply (all_paths_perm g yes y (fun v => vid v = vid x)); [apply H; auto|].
  pose proof (paths_all g yes y Hln lvl Hlvl (S (length (g_fns g))) (fun v => Nat.eqb (vid v) (vid x)) (Nat.lt_succ_diag_r _)) as (A & B).
  split; auto. intros l. rewrite B. split; intros (v & H1 & H2); exists v; split; auto; apply Nat.eqb_eq; auto.
Qed.
Ltac total := match goal with |- path_total ?g ?r ?v ?x _ =>
  exact (path_total_ok g r v x (proj1 (check_ok g v yes yes eq_refl)) (proj1 (proj2 (check_ok g v yes yes eq_refl)))) end.

(** Two outputs of one function: the gradient of the first is overwritten (line 273). *)
Definition two_g : graph unit :=
  mkGraph [op0 [0] [1; 2]] [bvar None 0 (Some true) 1; bvar (Some 0) 1 None 0; bvar (Some 0) 2 None 0].
Theorem C14_same_function_refuted : exists g : graph unit,
  linked g /\ acyclic g /\ own_grads g gid /\ built_flags g yes yes /\
  path_total g [1; 2] gid 0 20 /\ ngrad g gid (Nat.min 1) (fun f => f) [1; 2] [0] = GOk [10].
Proof.
  exists two_g. destruct (check_ok two_g gid yes yes eq_refl) as (A & B & C & D).
  split; [|split; [|split; [|split; [|split]]]]; auto; try (vm_compute; reflexivity); total.
Qed.
(** The same output twice. *)
Theorem C14_output_twice_refuted : exists g : graph unit,
  linked g /\ acyclic g /\ own_grads g gid /\ built_flags g yes yes /\
  path_total g [1; 1] gid 0 20 /\ ngrad g gid (Nat.min 1) (fun f => f) [1; 1] [0] = GOk [10].
Proof.
  exists two_g. destruct (check_ok two_g gid yes yes eq_refl) as (A & B & C & D).
  split; [|split; [|split; [|split; [|split]]]]; auto; try (vm_compute; reflexivity); total.
Qed.

(** Before a forward, an output that another output is computed from: its function is
    entered twice, under the rank of the output and under its own, and the second pop
    raises KeyError. *)
Definition chain_g : graph unit :=
  mkGraph [op0 [0] [1]; op0 [1] [2]] [bvar None 0 (Some true) 1; bvar (Some 0) 1 None 1; bvar (Some 1) 2 None 0].
Theorem C14_nested_outputs_refuted : exists (g : graph unit) vr fr,
  linked g /\ acyclic g /\ own_grads g gid /\ built_flags g yes yes /\ built_ranks g vr fr /\
  path_total g [1; 2] gid 0 30 /\ ngrad g gid vr fr [1; 2] [0] = GErr EKey.
Proof.
  exists chain_g, (fun v => v), (fun f => f). destruct (check_ok chain_g gid yes yes eq_refl) as (A & B & C & D).
  split; [exact A|split; [exact B|split; [exact C|split; [exact D|split; [split|split; [|vm_compute; reflexivity]]]]]].
  - intros f fd v Hf Hv. destruct f as [|[|f]]; cbn in Hf; try (destruct f; discriminate); injection Hf as <-; cbn in Hv;
      destruct Hv as [<-|[]]; lia.
  - intros v f Hv. destruct v as [|[|[|v]]]; cbn in Hv; try discriminate; try (injection Hv as <-; lia). destruct v; discriminate.
  - total.
Qed.
(** After a forward the same call is right. *)
Example C14_nested_after_forward : ngrad chain_g gid (fun v => pred v) (fun f => f) [1; 2] [0] = GOk [30].
Proof. vm_compute. reflexivity. Qed.

(** A parameter used through two unlinked variables (variables 1 and 2 hold the same
    nbla::Variable): h = f0(x, w), y = f1(h, w').  Only the last one found is followed. *)
Definition share_g : graph unit :=
  mkGraph [op0 [0; 1] [3]; op0 [3; 2] [4]]
          [bvar None 0 (Some true) 1; bvar None 1 (Some true) 1; bvar None 1 (Some true) 1;
           bvar (Some 0) 3 None 1; bvar (Some 1) 4 None 0].
Definition share_id (v : nat) : nat := if Nat.eqb v 2 then 1 else v.
Theorem C14_shared_parameter_refuted : exists (g : graph unit) vid,
  linked g /\ acyclic g /\ own_grads g vid /\ built_flags g yes yes /\
  path_total g [4] vid 1 100 /\ ngrad g vid (fun v => v - 2) (fun f => f) [4] [1] = GOk [40].
Proof.
  exists share_g, share_id. destruct (check_ok share_g share_id yes yes eq_refl) as (A & B & C & D).
  split; [|split; [|split; [|split; [|split]]]]; auto; try (vm_compute; reflexivity); total.
Qed.
(** Asking for x as well brings the missing path back. *)
Example C14_shared_with_x : ngrad share_g share_id (fun v => v - 2) (fun f => f) [4] [0; 1] = GOk [20; 100].
Proof. vm_compute. reflexivity. Qed.

(** An output among the inputs: the path of length zero is not counted. *)
Theorem C14_output_as_input_refuted : exists g : graph unit,
  linked g /\ acyclic g /\ own_grads g gid /\ built_flags g yes yes /\
  path_total g [2] gid 2 10 /\ ngrad g gid (fun v => v) (fun f => f) [2] [2] = GOk [0].
Proof.
  exists chain_g. destruct (check_ok chain_g gid yes yes eq_refl) as (A & B & C & D).
  split; [|split; [|split; [|split; [|split]]]]; auto; try (vm_compute; reflexivity); total.
Qed.
(** An input listed twice: the first gets zero. *)
Theorem C14_input_twice_refuted : exists g : graph unit,
  linked g /\ acyclic g /\ own_grads g gid /\ built_flags g yes yes /\
  path_total g [2] gid 0 20 /\ ngrad g gid (fun v => v) (fun f => f) [2] [0; 0] = GOk [0; 20].
Proof.
  exists chain_g. destruct (check_ok chain_g gid yes yes eq_refl) as (A & B & C & D).
  split; [|split; [|split; [|split; [|split]]]]; auto; try (vm_compute; reflexivity); total.
Qed.
Print Assumptions C14_same_function_refuted.
Print Assumptions C14_output_twice_refuted.
Print Assumptions C14_nested_outputs_refuted.
Print Assumptions C14_shared_parameter_refuted.
Print Assumptions C14_output_as_input_refuted.
Print Assumptions C14_input_twice_refuted.
