(** Properties of backward propagation (C13). *)
From Coq Require Import List Arith Bool Lia Permutation.
From Verif Require Import CgModel CgSpec CgProofs CgProofs2 CgProofs3 BwModel BwSpec BwProofs BwProofs2 BwProofs3.
Import ListNotations.
Local Open Scope list_scope.

Lemma wf_linked {V} (g : graph V) : wf g -> linked g.
Proof.
  intros H. constructor; try apply H. intros f fd Hf.
  pose proof (wf_out_arrays g H f fd Hf) as N. revert N. apply NoDup_map_inv.
Qed.

Section Main.
Context {V G : Type}.
Variable add : G -> G -> G.
Variable zero : G.
Variable g : graph V.
Variable s : st V.
Variable d : nat -> nat -> nat -> G -> G.
Variable garr : nat -> nat.
Variable cb ci given : bool.
Variable y p : nat.
Variable gf : nat -> bool.
Hypothesis M : comm_monoid add zero.
Hypothesis Hd : forall f o i, additive add zero (d f o i).
Hypothesis Hln : linked g.
Hypothesis Hac : acyclic g.
Hypothesis Hgf : grad_flags g gf.
Hypothesis Hy : parent g y = Some p.
Hypothesis Hm : marked g gf p s.
Notation ng := (need_grad_state g s).

Lemma path_needs ng' l v f : is_path g ng' y l v -> parent g v = Some f -> needs g p f.
Proof.
  intros H. revert f. induction H as [|l h hd o i u v Hp IH Hh Ho Hr Hn]; intros f Hf.
  - rewrite Hy in Hf. inversion Hf; subst. constructor.
  - eapply needs_reads; eauto. apply IH. apply (ln_outs g Hln h hd u Hh). eapply nth_error_In; eauto.
Qed.
Lemma path_ng l v : is_path g ng y l v <-> is_path g (ng_of g gf) y l v.
Proof.
  split; induction 1 as [|l h hd o i u v Hp IH Hh Ho Hr Hn]; try constructor;
    econstructor; eauto; assert (needs g p h) by
      (eapply path_needs; eauto; apply (ln_outs g Hln h hd u Hh); eapply nth_error_In; eauto);
    destruct Hm as (_ & H2 & _); specialize (H2 h i v H Hr); congruence.
Qed.
Lemma reached_needs f : reached g ng y f -> needs g p f.
Proof. intros (l & v & H1 & H2). eapply path_needs; eauto. Qed.

Hypothesis Hun : uncut g p.
Hypothesis Hown : own_grads g garr.
Variable m : nat -> option G.
Variable z : nat -> bool.
Variable x0 : G.
Hypothesis Hroot : given = false -> m (garr y) = Some x0.
Hypothesis Hz : forall a, z a = true -> m a = Some zero.
Hypothesis Hready : forall f i v, needs g p f -> reads g f i v -> is_leaf g v -> m (garr v) <> None.

Lemma main : exists b, backward add zero g s d garr cb ci y p given m z x0 = Ok b /\
  NoDup (blog b) /\
  (forall f, In f (blog b) <-> gf f = true /\ exists l v, is_path g (ng_of g gf) y l v /\ parent g v = Some f) /\
  (forall l1 f l2 h i v, blog b = l1 ++ f :: l2 -> In h (blog b) -> reads g h i v ->
     parent g v = Some f -> In h l1) /\
  (forall v, is_var g v -> is_leaf g v ->
     forall ps, all_paths g (ng_of g gf) y (fun u => is_leaf g u /\ garr u = garr v) ps ->
     gmem b (Own (garr v)) = match m (garr v) with
       | Some x => Some (add x (gsum add zero (map (path_val d x0) ps)))
       | None => None end) /\
  (forall v h i, In h (blog b) -> reads g h i v -> ~ is_leaf g v -> ng_of g gf v = true ->
     cb = false \/ v_persistent (var_at g v) = true ->
     forall ps, all_paths g (ng_of g gf) y (fun u => u = v) ps ->
     gmem b (Own (garr v)) = Some (gsum add zero (map (path_val d x0) ps))).
Proof.
  destruct Hac as (lvl & Hlvl). destruct Hm as (M1 & M2 & M3). destruct Hun as (U1 & U2).
  assert (Q1 : forall f i v q, reached g ng y f -> reads g f i v -> parent g v = Some q -> frank s q < frank s f).
  { intros f i v q Hr. apply M3. apply reached_needs. auto. }
  assert (Q2 : forall f i v, reached g ng y f -> reads g f i v -> ng v = true -> fng s f = true).
  { intros f i v Hr Hrd Hn. apply reached_needs in Hr. rewrite M1 by auto.
    destruct Hrd as (fd & F1 & F2). apply (Hgf f fd F1). exists i, v. split; [exists fd; auto|].
    rewrite <- (M2 f i v Hr); auto. exists fd. auto. }
  assert (Bgf : forall f, B g s y f <-> gf f = true /\ reached g ng y f).
  { intros f. unfold B. split; intros (H1 & H2); split; auto; [rewrite <- M1|rewrite M1]; auto; apply reached_needs; auto. }
  assert (Q3 : forall f fd v q, B g s y f -> fun_at g f = Some fd -> In v (f_ins fd) ->
     parent g v = Some q -> B g s y q -> ng v = true).
  { intros f fd v q Bf Hf Hin Hq Bq. apply In_nth_error in Hin as (i & Hi).
    assert (Nf : needs g p f) by (apply reached_needs; apply Bf).
    apply Bgf in Bq as (Gq & _).
    assert (X : ng_of g gf v = true).
    { unfold ng_of. specialize (U1 v q Hq). destruct (v_need_grad (var_at g v)) as [[|]|]; [reflexivity|congruence|]. rewrite Hq. exact Gq. }
    destruct (f_active fd i) eqn:Ea.
    - rewrite (M2 f i v); auto. exists fd. auto.
    - destruct (U2 f fd i v q Nf Hf Hi Ea Hq) as (h & j & H1 & H2). rewrite (M2 h j v); auto. }
  assert (Q4 : forall f i v, reached g ng y f -> reads g f i v -> ng v = true -> is_leaf g v -> m (garr v) <> None).
  { intros f i v Hr Hrd _. apply (Hready f i v); auto. apply reached_needs; auto. }
  destruct (backward_ok add zero M g s d Hd garr cb ci y p given Hln lvl Hlvl Hy Hown Q1 Q2 Q3 m z x0 Hroot Hz Q4)
    as (b & E & B1 & B2 & B3 & B4 & B5).
  exists b. split; [exact E|]. split; [exact B1|]. split; [|split; [|split]].
  - intros f. rewrite B2, Bgf. split; intros (H1 & l & v & H2 & H3); (split; [auto|]); exists l, v;
      (split; [apply path_ng|]; auto).
  - intros l1 f l2 h i v E1 Hh Hr Hv. apply B2 in Hh. eapply B3; eauto.
  - intros v Hv Hl ps Hps.
    assert (Lg : forall u, is_leaf g u -> gra g garr y p given u = Own (garr u)).
    { intros u Hu. unfold gra. destruct (mem_nat u (root_outs g p)) eqn:E1; auto.
      apply mem_nat_in in E1. apply (root_iff g y p Hln Hy) in E1. unfold is_leaf in Hu. congruence. }
    assert (NI : ~ inter g garr y p given (Own (garr v))).
    { intros (u & q & Hu & E1). rewrite <- (Lg v Hl) in E1. symmetry in E1.
      assert (v = u) by (eapply gra_inj; eauto). unfold is_leaf in Hl. congruence. }
    rewrite (B4 _ NI). cbn [gmem b0 backward_start]. destruct (m (garr v)); auto. f_equal. f_equal.
    unfold padj. apply gsum_perm; auto. apply Permutation_map.
    eapply (all_paths_perm g ng y (fun u => ends g garr y p given (Own (garr v)) u = true)).
    + apply (paths_all g ng y Hln lvl Hlvl). lia.
    + destruct Hps as (P1 & P2). split; auto. intros l. rewrite P2. split; intros (u & H1 & H2); exists u.
      * destruct H2 as (H2 & H3). split; [apply path_ng; auto|]. unfold ends. rewrite (Lg u H2), H3. apply geqb_refl.
      * split; [apply path_ng; auto|]. unfold ends in H2. apply geqb_eq in H2.
        destruct (parent g u) as [q|] eqn:Eu; [exfalso; apply NI; exists u, q; auto|].
        split; [exact Eu|]. rewrite (Lg u Eu) in H2. congruence.
  - intros v h i Hh Hr Hl Hn Hk ps Hps. apply B2 in Hh. unfold is_leaf in Hl.
    destruct (parent g v) as [q|] eqn:Eq; [|congruence].
    assert (Gv : gra g garr y p given v = Own (garr v)).
    { unfold gra. destruct (mem_nat v (root_outs g p)) eqn:E1; auto. exfalso.
      apply mem_nat_in in E1. apply (root_iff g y p Hln Hy) in E1. destruct Hr as (hd & H1 & H2 & _).
      eapply (root_not_in g s y p Hln lvl Hlvl Hy h hd v); eauto; [apply Hh|eapply nth_error_In; eauto]. }
    rewrite <- Gv. pose proof Hr as Hr'. destruct Hr as (hd & H1 & H2 & _).
    rewrite (B5 v q h hd); auto.
    + f_equal. unfold adj, padj. apply gsum_perm; auto. apply Permutation_map.
      eapply (all_paths_perm g ng y (fun u => Nat.eqb v u = true)).
      * apply (paths_all g ng y Hln lvl Hlvl). lia.
      * destruct Hps as (P1 & P2). split; auto. intros l. rewrite P2. split; intros (u & X1 & X2); exists u;
          (split; [apply path_ng; auto|]).
        -- subst. apply Nat.eqb_refl.
        -- apply Nat.eqb_eq in X2. auto.
    + eapply nth_error_In; eauto.
    + rewrite (M2 h i v); auto. apply reached_needs. apply Hh.
Qed.
End Main.

(** ** C13: backward adds to every leaf gradient the sum over paths. *)

(** forward leaves the state that backward relies on. *)
Theorem C13_marked : forall V (g : graph V) leaf vals gf rk (s : st V) cb cng y p s',
  wf g -> acyclic g -> solution g leaf vals -> grad_flags g gf -> ranks g rk ->
  is_var g y -> parent g y = Some p ->
  no_hazard g (needs g p) (fun v => v = y) -> masked_ok g (needs g p) s ->
  loaded g (needs g p) (fun v => v = y) leaf s ->
  forward g cb cng y s = Ok s' -> marked g gf p s'.
Proof.
  intros V g leaf vals gf rk s cb cng y p s' Hwf Hac Hsol Hgf Hrk Hv Hp Hhaz Hmask Hload H.
  assert (F := forward_ok g cb cng leaf vals gf s y p (fun v => v = y) Hwf Hac Hsol Hgf Hp
                 (fun v E => or_introl E) Hhaz Hmask Hload).
  rewrite H in F. destruct F as (_ & _ & _ & _ & F5 & F6 & F7). split; [exact F5|]. split; [exact F7|].
  intros f i v q Hf Hr Hq. rewrite (F6 rk Hrk f Hf). rewrite (F6 rk Hrk q).
  - destruct Hr as (fd & R1 & R2). apply (proj2 (proj2 (Hrk f fd R1)) i v q); [exists fd; auto|exact Hq].
  - eapply needs_reads; eauto.
Qed.
Print Assumptions C13_marked.

(** The paths can be listed. *)
Theorem C13_paths_exist : forall V (g : graph V) ng y ends, linked g -> acyclic g ->
  (forall v, {ends v} + {~ ends v}) -> exists ps, all_paths g ng y ends ps.
Proof.
  intros V g ng y ends Hln (lvl & Hlvl) Dec.
  destruct (paths_all g ng y Hln lvl Hlvl (S (length (g_fns g))) (fun v => if Dec v then true else false)) as (P1 & P2); [lia|].
  exists (paths g ng y (S (length (g_fns g))) (fun v => if Dec v then true else false)). split; auto.
  intros l. rewrite P2. split; intros (v & H1 & H2); exists v; (split; [auto|]); destruct (Dec v); auto; discriminate.
Qed.
Print Assumptions C13_paths_exist.

Theorem C13_backward_partial : forall V G (add : G -> G -> G) zero (g : graph V) gf (s : st V) d garr
    cb ci given y p m z x0,
  comm_monoid add zero -> (forall f o i, additive add zero (d f o i)) ->
  linked g -> acyclic g -> grad_flags g gf -> parent g y = Some p -> marked g gf p s -> uncut g p ->
  own_grads g garr ->
  (given = false -> m (garr y) = Some x0) ->
  (forall a, z a = true -> m a = Some zero) ->
  (forall f i v, needs g p f -> reads g f i v -> is_leaf g v -> m (garr v) <> None) ->
  exists b, backward add zero g s d garr cb ci y p given m z x0 = Ok b /\
    forall v ps, is_var g v -> is_leaf g v ->
      all_paths g (ng_of g gf) y (fun u => is_leaf g u /\ garr u = garr v) ps ->
      gmem b (Own (garr v)) = match m (garr v) with
        | Some x => Some (add x (gsum add zero (map (path_val d x0) ps)))
        | None => None end.
Proof.
  intros. destruct (main add zero g s d garr cb ci given y p gf) with (m := m) (z := z) (x0 := x0)
    as (b & E & _ & _ & _ & B4 & _); auto.
  exists b. split; [exact E|]. intros v ps Hv Hl Hps. apply B4; auto.
Qed.
Print Assumptions C13_backward_partial.

(** The functions run are those with gradients on some path from the root, each once,
    consumers before producers. *)
Theorem C13_each_once_partial : forall V G (add : G -> G -> G) zero (g : graph V) gf (s : st V) d garr
    cb ci given y p m z x0 b,
  comm_monoid add zero -> (forall f o i, additive add zero (d f o i)) ->
  linked g -> acyclic g -> grad_flags g gf -> parent g y = Some p -> marked g gf p s -> uncut g p ->
  own_grads g garr ->
  (given = false -> m (garr y) = Some x0) ->
  (forall a, z a = true -> m a = Some zero) ->
  (forall f i v, needs g p f -> reads g f i v -> is_leaf g v -> m (garr v) <> None) ->
  backward add zero g s d garr cb ci y p given m z x0 = Ok b ->
  NoDup (blog b) /\
  (forall f, In f (blog b) <->
     gf f = true /\ exists l v, is_path g (ng_of g gf) y l v /\ parent g v = Some f) /\
  (forall l1 f l2 h i v, blog b = l1 ++ f :: l2 -> In h (blog b) -> reads g h i v ->
     parent g v = Some f -> In h l1).
Proof.
  intros. destruct (main add zero g s d garr cb ci given y p gf) with (m := m) (z := z) (x0 := x0)
    as (b' & E & B1 & B2 & B3 & _); auto.
  rewrite E in H11. inversion H11; subst b'. auto.
Qed.
Print Assumptions C13_each_once_partial.

(** Gradients of intermediate variables, when they are not cleared. *)
Theorem C13_intermediate_partial : forall V G (add : G -> G -> G) zero (g : graph V) gf (s : st V) d garr
    cb ci given y p m z x0 b,
  comm_monoid add zero -> (forall f o i, additive add zero (d f o i)) ->
  linked g -> acyclic g -> grad_flags g gf -> parent g y = Some p -> marked g gf p s -> uncut g p ->
  own_grads g garr ->
  (given = false -> m (garr y) = Some x0) ->
  (forall a, z a = true -> m a = Some zero) ->
  (forall f i v, needs g p f -> reads g f i v -> is_leaf g v -> m (garr v) <> None) ->
  backward add zero g s d garr cb ci y p given m z x0 = Ok b ->
  forall v h i ps, In h (blog b) -> reads g h i v -> ~ is_leaf g v -> ng_of g gf v = true ->
    cb = false \/ v_persistent (var_at g v) = true ->
    all_paths g (ng_of g gf) y (fun u => u = v) ps ->
    gmem b (Own (garr v)) = Some (gsum add zero (map (path_val d x0) ps)).
Proof.
  intros. destruct (main add zero g s d garr cb ci given y p gf) with (m := m) (z := z) (x0 := x0)
    as (b' & E & _ & _ & _ & _ & B5); auto.
  rewrite E in H11. inversion H11; subst b'. eapply B5; eauto.
Qed.
Print Assumptions C13_intermediate_partial.

(** ** Concrete graphs *)
Definition op0 (ins outs : list nat) : fn unit :=
  mkFn ins outs (fun _ => map (fun _ => tt) outs) (fun _ => true) (fun _ => NOT_INPLACE) (fun _ => 0) false
       (fun _ _ => false) (fun _ _ => false) (fun _ => false).
Definition bvar (p : option nat) (a : nat) (b : option bool) (refs : nat) : var :=
  mkVar p a b false false false refs.
Definition bstart : st unit :=
  mkSt (fun _ => Some tt) (fun _ => 0) (fun _ => false) (fun _ => 0) (fun _ => false) (fun _ => true) [] []
       (fun _ => None) [] [] [].
Definition after (g : graph unit) (y : nat) : st unit :=
  match forward g true false y bstart with Ok s => s | Err _ => bstart end.

(** x, w and w' (an unlinked copy of w with the same gradient array) are leaves;
    h = f0(x, w), k = f1(h, w'), y = f2(h, k, h). *)
Definition bw_g : graph unit :=
  mkGraph [op0 [0; 1] [3]; op0 [3; 2] [4]; op0 [3; 4; 3] [5]]
          [bvar None 0 (Some true) 1; bvar None 1 (Some true) 1; bvar None 2 (Some true) 1;
           bvar (Some 0) 3 None 3; bvar (Some 1) 4 None 1; bvar (Some 2) 5 None 0].
Definition bw_garr (v : nat) : nat := if Nat.eqb v 2 then 1 else v.
(** The derivative of f with respect to its input i is multiplication by f + 2i + 1. *)
Definition bw_d (f o i : nat) (x : nat) : nat := (f + 2 * i + 1) * x.
Definition bw_m (a : nat) : option nat := if Nat.leb a 1 then Some 100 else None.

Lemma nat_monoid : comm_monoid Nat.add 0.
Proof. split; [|split]; intros; lia. Qed.
Lemma bw_additive f o i : additive Nat.add 0 (bw_d f o i).
Proof. split; unfold bw_d; [lia|intros; lia]. Qed.
Ltac fns H f := destruct f as [|[|[|f]]]; cbn in H; try (destruct f; discriminate); injection H as <-.
Lemma bw_linked : linked bw_g.
Proof.
  constructor.
  - intros f fd v Hf Hv. unfold is_var. fns Hf f; cbn in *; lia.
  - intros f fd v Hf Hv. unfold is_var. fns Hf f; destruct Hv as [<-|[]]; cbn; split; auto; lia.
  - intros v p Hp. destruct v as [|[|[|[|[|[|v]]]]]]; cbn in Hp; try discriminate; try (injection Hp as <-);
      try (eexists; split; [reflexivity|cbn; auto]). destruct v; discriminate.
  - intros f fd Hf. fns Hf f; cbn; repeat constructor; auto.
Qed.
Lemma bw_acyclic : acyclic bw_g.
Proof.
  exists (fun f => f). intros f fd Hf. split.
  - cbn. fns Hf f; lia.
  - intros u q Hu Hq. fns Hf f; cbn in Hu; repeat (destruct Hu as [<-|Hu]); cbn in Hq; try discriminate;
      try (injection Hq as <-; lia); contradiction.
Qed.
Definition bw_gf (f : nat) : bool := Nat.ltb f 3.
Ltac rds Hr := let fd := fresh "fd" in let H1 := fresh in let H2 := fresh in
  destruct Hr as (fd & H1 & H2 & _); apply nth_error_In in H2.
Lemma bw_flags : grad_flags bw_g bw_gf.
Proof.
  intros f fd Hf. fns Hf f; (split; [intros _|reflexivity]).
  - exists 0, 0. split; [eexists; split; [reflexivity|split; reflexivity]|reflexivity].
  - exists 0, 3. split; [eexists; split; [reflexivity|split; reflexivity]|reflexivity].
  - exists 0, 3. split; [eexists; split; [reflexivity|split; reflexivity]|reflexivity].
Qed.
Lemma bw_marked : marked bw_g bw_gf 2 (after bw_g 5).
Proof.
  assert (Fn : forall f, needs bw_g 2 f -> f < 3).
  { intros f Hf. destruct (needs_last bw_g 2 f Hf) as [->|H]; [lia|].
    assert (K : forall p f, needs bw_g p f -> p < 3 -> f < 3).
    { induction 1 as [|p i u q f' Hr Hq Hn IH]; auto. intros Hp. apply IH. rds Hr.
      fns H0 p; cbn in H1; repeat (destruct H1 as [<-|H1]); cbn in Hq; try discriminate;
        try (injection Hq as <-; lia); contradiction. }
    apply (K 2 f); auto. }
  split; [|split].
  - intros f Hf. apply Fn in Hf. destruct f as [|[|[|f]]]; try lia; vm_compute; reflexivity.
  - intros f i v Hf Hr. rds Hr. fns H f; cbn in H0; repeat (destruct H0 as [<-|H0]); try contradiction; vm_compute; reflexivity.
  - intros f i v q Hf Hr Hq. rds Hr. fns H f; cbn in H0; repeat (destruct H0 as [<-|H0]); try contradiction; cbn in Hq;
      try discriminate; injection Hq as <-; vm_compute; lia.
Qed.
Lemma bw_uncut : uncut bw_g 2.
Proof.
  split.
  - intros v q Hq. destruct v as [|[|[|[|[|[|v]]]]]]; cbn in *; try discriminate. destruct v; discriminate.
  - intros f fd i v q _ Hf _ Ha. fns Hf f; discriminate.
Qed.
Lemma bw_own : own_grads bw_g bw_garr.
Proof.
  intros u v Hu Hv Hl E. unfold is_var in *. cbn in Hu, Hv. unfold bw_garr in E.
  assert (v <> 1) by (intros ->; apply Hl; reflexivity). assert (v <> 2) by (intros ->; apply Hl; reflexivity).
  destruct (Nat.eqb_spec u 2), (Nat.eqb_spec v 2); lia.
Qed.

(** Non-vacuity of C13: the hypotheses hold for this graph, and the result is the
    expected one: there are three paths to x and to w, and one to w'. *)
Example C13_example :
  exists b, backward Nat.add 0 bw_g (after bw_g 5) bw_d bw_garr true false 5 2 true bw_m (fun _ => false) 10 = Ok b /\
    blog b = [2; 1; 0] /\ gmem b (Own 0) = Some 300 /\ gmem b (Own 1) = Some 900 /\
    gmem b (Own 3) = None /\
    map (path_val bw_d 10) (paths bw_g (ng_of bw_g bw_gf) 5 4 (fun v => Nat.eqb (bw_garr v) 1)) = [300; 90; 210; 200].
Proof. eexists; split; [vm_compute; reflexivity|]. vm_compute. auto 10. Qed.
Example C13_example_applies : exists b,
  backward Nat.add 0 bw_g (after bw_g 5) bw_d bw_garr true false 5 2 true bw_m (fun _ => false) 10 = Ok b /\
  forall v ps, is_var bw_g v -> is_leaf bw_g v ->
    all_paths bw_g (ng_of bw_g bw_gf) 5 (fun u => is_leaf bw_g u /\ bw_garr u = bw_garr v) ps ->
    gmem b (Own (bw_garr v)) = match bw_m (bw_garr v) with
        | Some x => Some (x + gsum Nat.add 0 (map (path_val bw_d 10) ps)) | None => None end.
Proof.
  apply C13_backward_partial; auto using nat_monoid, bw_additive, bw_linked, bw_acyclic, bw_flags, bw_marked, bw_uncut, bw_own; try discriminate.
  intros f i v _ Hr Hl. rds Hr. fns H f; cbn in H0; repeat (destruct H0 as [<-|H0]); try contradiction; discriminate.
Qed.

(** Without [uncut] the property fails: f0 has two outputs, the second with
    need_grad = False, and f1 reads both.  f0 is run backward with whatever the gradient
    array of its second output contained before (here 7). *)
Definition cut_g : graph unit :=
  mkGraph [op0 [0] [1; 2]; op0 [1; 2] [3]]
          [bvar None 0 (Some true) 1; bvar (Some 0) 1 None 1; bvar (Some 0) 2 (Some false) 1;
           bvar (Some 1) 3 None 0].
Theorem C13_cut_refuted :
  exists (g : graph unit) gf s d garr y p m x0 b ps,
    linked g /\ acyclic g /\ grad_flags g gf /\ parent g y = Some p /\ marked g gf p s /\ own_grads g garr /\
    (forall f o i, additive Nat.add 0 (d f o i)) /\ (forall a, m a <> None) /\
    backward Nat.add 0 g s d garr false false y p true m (fun _ => false) x0 = Ok b /\
    is_leaf g 0 /\ all_paths g (ng_of g gf) y (fun u => is_leaf g u /\ garr u = garr 0) ps /\
    m 0 = Some 0 /\ gsum Nat.add 0 (map (path_val d x0) ps) = 1 /\ gmem b (Own (garr 0)) = Some 8.
Proof.
  assert (Ln : linked cut_g).
  { constructor.
    - intros f fd v Hf Hv. unfold is_var. destruct f as [|[|f]]; cbn in Hf; try (destruct f; discriminate); injection Hf as <-; cbn in *; lia.
    - intros f fd v Hf Hv. unfold is_var. destruct f as [|[|f]]; cbn in Hf; try (destruct f; discriminate); injection Hf as <-;
        cbn in Hv; repeat (destruct Hv as [<-|Hv]; [cbn; split; auto; lia|]); contradiction.
    - intros v p Hp. destruct v as [|[|[|[|v]]]]; cbn in Hp; try discriminate; try (injection Hp as <-);
        try (eexists; split; [reflexivity|cbn; auto]). destruct v; discriminate.
    - intros f fd Hf. destruct f as [|[|f]]; cbn in Hf; try (destruct f; discriminate); injection Hf as <-; cbn;
        repeat constructor; cbn; intuition discriminate. }
  assert (Lv : numbering cut_g (fun f => f)).
  { intros f fd Hf. split; [cbn; destruct f as [|[|f]]; cbn in Hf; try (destruct f; discriminate); lia|].
    intros u q Hu Hq. destruct f as [|[|f]]; cbn in Hf; try (destruct f; discriminate); injection Hf as <-; cbn in Hu;
      repeat (destruct Hu as [<-|Hu]); cbn in Hq; try discriminate; try (injection Hq as <-; lia); contradiction. }
  exists cut_g, (fun f => Nat.ltb f 2), (after cut_g 3), (fun _ _ _ x => x), (fun v => v), 3, 1,
    (fun a => Some (if Nat.eqb a 2 then 7 else 0)), 1.
  eexists. exists (paths cut_g (ng_of cut_g (fun f => Nat.ltb f 2)) 3 3 (fun u => Nat.eqb u 0)).
  split; [exact Ln|]. split; [exists (fun f => f); exact Lv|]. split.
  { intros f fd Hf. destruct f as [|[|f]]; cbn in Hf; try (destruct f; discriminate); injection Hf as <-;
      (split; [intros _|reflexivity]); [exists 0, 0|exists 0, 1];
      (split; [eexists; split; [reflexivity|split; reflexivity]|reflexivity]). }
  split; [reflexivity|]. split.
  { assert (K : forall p f, needs cut_g p f -> p < 2 -> f < 2).
    { induction 1 as [|p i u q f' Hr Hq Hn IH]; auto. intros Hp. apply IH. rds Hr.
      destruct p as [|[|p]]; cbn in H; try (destruct p; discriminate); injection H as <-; cbn in H0;
        repeat (destruct H0 as [<-|H0]); cbn in Hq; try discriminate; try (injection Hq as <-; lia); contradiction. }
    split; [|split].
    - intros f Hf. apply K in Hf; [|lia]. destruct f as [|[|f]]; try lia; vm_compute; reflexivity.
    - intros f i v Hf Hr. rds Hr. destruct f as [|[|f]]; cbn in H; try (destruct f; discriminate); injection H as <-;
        cbn in H0; repeat (destruct H0 as [<-|H0]); try contradiction; vm_compute; reflexivity.
    - intros f i v q Hf Hr Hq. rds Hr. destruct f as [|[|f]]; cbn in H; try (destruct f; discriminate); injection H as <-;
        cbn in H0; repeat (destruct H0 as [<-|H0]); try contradiction; cbn in Hq;
        try discriminate; injection Hq as <-; vm_compute; lia. }
  split; [intros u v _ _ _ E; exact E|]. split; [intros; split; auto|]. split; [discriminate|].
  split; [vm_compute; reflexivity|]. split; [reflexivity|]. split; [|vm_compute; auto].
  destruct (paths_all cut_g (ng_of cut_g (fun f => Nat.ltb f 2)) 3 Ln (fun f => f) Lv 3 (fun u => Nat.eqb u 0)) as (P1 & P2);
    [cbn; lia|].
  split; [exact P1|]. intros l. rewrite P2. split; intros (u & H1 & H2); exists u; (split; [exact H1|]).
  - apply Nat.eqb_eq in H2. subst. split; reflexivity.
  - destruct H2 as (_ & ->). reflexivity.
Qed.
Print Assumptions C13_cut_refuted.
