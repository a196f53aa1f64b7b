(** Proofs about backward propagation, part 1: enumerating paths. *)
From Coq Require Import List Arith Bool Lia Permutation.
From Verif Require Import CgModel CgSpec BwModel BwSpec.
Import ListNotations.
Local Open Scope list_scope.

Lemma nodup_app2 {A} (a b : list A) : NoDup a -> NoDup b -> (forall x, In x a -> ~ In x b) ->
  NoDup (a ++ b).
Proof.
  induction a as [|x a IH]; cbn [app]; intros NA NB D; [exact NB|]. inversion NA; subst. constructor.
  - intros I. apply in_app_iff in I as [I|I]; [contradiction|]. exact (D x (or_introl eq_refl) I).
  - apply IH; [assumption|assumption|]. intros z Hz. apply D. right. exact Hz.
Qed.

Section Sums.
Context {G : Type}.
Variable add : G -> G -> G.
Variable zero : G.
Hypothesis M : comm_monoid add zero.
Notation gsum := (gsum add zero).
Lemma add_comm a b : add a b = add b a. Proof. apply M. Qed.
Lemma add_assoc a b c : add a (add b c) = add (add a b) c. Proof. apply M. Qed.
Lemma add_0_l a : add zero a = a. Proof. apply M. Qed.
Lemma add_0_r a : add a zero = a. Proof. rewrite add_comm. apply add_0_l. Qed.
Lemma gsum_nil : gsum [] = zero. Proof. reflexivity. Qed.
Lemma gsum_cons x l : gsum (x :: l) = add x (gsum l). Proof. reflexivity. Qed.
Lemma gsum_app l r : gsum (l ++ r) = add (gsum l) (gsum r).
Proof.
  induction l as [|x l IH]; cbn [app]; [symmetry; apply add_0_l|].
  rewrite !gsum_cons, IH. apply add_assoc.
Qed.
Lemma gsum_perm l r : Permutation l r -> gsum l = gsum r.
Proof.
  induction 1; rewrite ?gsum_cons; auto.
  - congruence.
  - rewrite !add_assoc. rewrite (add_comm y x). reflexivity.
  - congruence.
Qed.
Lemma gsum_flat {A} (f : A -> list G) l : gsum (flat_map f l) = gsum (map (fun x => gsum (f x)) l).
Proof. induction l as [|x l IH]; cbn [flat_map map]; auto. rewrite gsum_app, gsum_cons, IH. reflexivity. Qed.
Lemma gsum_zero {A} (f : A -> G) l : (forall x, In x l -> f x = zero) -> gsum (map f l) = zero.
Proof.
  induction l as [|x l IH]; cbn [map In]; intros H; auto. rewrite gsum_cons.
  rewrite H, IH; auto. apply add_0_l.
Qed.
Lemma gsum_ext {A} (f h : A -> G) l : (forall x, In x l -> f x = h x) ->
  gsum (map f l) = gsum (map h l).
Proof. intros H. f_equal. apply map_ext_in. auto. Qed.
Lemma additive_sum h l : additive add zero h -> h (gsum l) = gsum (map h l).
Proof.
  intros (H0 & H1). induction l as [|x l IH]; cbn [map]; auto. rewrite !gsum_cons, H1, IH. reflexivity.
Qed.
(** Summing over a sublist outside of which the terms vanish. *)
Lemma gsum_sub (f : nat -> G) L n : NoDup L -> (forall x, In x L -> x < n) ->
  (forall x, x < n -> ~ In x L -> f x = zero) ->
  gsum (map f L) = gsum (map f (seq 0 n)).
Proof.
  intros Hn Hl H0.
  assert (P : Permutation (seq 0 n) (L ++ filter (fun x => negb (mem_nat x L)) (seq 0 n))).
  { apply NoDup_Permutation; [apply seq_NoDup| |].
    - clear H0. revert Hn. generalize (seq_NoDup n 0). generalize (seq 0 n) as l.
      assert (X : forall l, NoDup l -> NoDup L -> NoDup (L ++ filter (fun x => negb (mem_nat x L)) l)).
      { intros l N1 N2. 
        apply nodup_app2; [exact N2|apply NoDup_filter; exact N1|].
        intros x Hx I. apply filter_In in I as (_ & I). apply negb_true_iff in I.
        assert (mem_nat x L = true) by (apply existsb_exists; exists x; split; auto; apply Nat.eqb_refl). congruence. }
      auto.
    - intros x. rewrite in_app_iff, filter_In, in_seq, negb_true_iff. split.
      + intros Hx. destruct (mem_nat x L) eqn:E; [left|right; split; auto].
        apply existsb_exists in E as (z & Z1 & Z2). apply Nat.eqb_eq in Z2. subst. auto.
      + intros [Hx|(Hx & _)]; [|lia]. specialize (Hl x Hx). lia. }
  rewrite (gsum_perm _ _ (Permutation_map f P)). rewrite map_app, gsum_app.
  rewrite (gsum_zero f (filter _ _)); [symmetry; apply add_0_r|].
  intros x Hx. apply filter_In in Hx as (H1 & H2). apply in_seq in H1. apply negb_true_iff in H2.
  apply H0; [lia|]. intros I.
  assert (mem_nat x L = true) by (apply existsb_exists; exists x; split; auto; apply Nat.eqb_refl). congruence.
Qed.
End Sums.

Lemma in_pos {A} (l : list A) i v : In (i, v) (combine (seq 0 (length l)) l) <-> nth_error l i = Some v.
Proof.
  assert (X : forall (l : list A) k, In (i, v) (combine (seq k (length l)) l) <-> k <= i /\ nth_error l (i - k) = Some v).
  { clear. induction l as [|a l IH]; intros k; cbn.
    - split; [tauto|]. intros (_ & H). destruct (i - k); discriminate.
    - rewrite IH. split.
      + intros [H|(H1 & H2)].
        * inversion H; subst. rewrite Nat.sub_diag. auto.
        * split; [lia|]. replace (i - k) with (S (i - S k)) by lia. exact H2.
      + intros (H1 & H2). destruct (i - k) as [|n] eqn:E.
        * left. cbn in H2. inversion H2; subst. f_equal. lia.
        * right. split; [lia|]. replace (i - S k) with n by lia. exact H2. }
  rewrite X. rewrite Nat.sub_0_r. intuition lia.
Qed.
Lemma nodup_pos {A} (l : list A) : NoDup (combine (seq 0 (length l)) l).
Proof.
  assert (X : forall (l : list A) k, NoDup (combine (seq k (length l)) l)).
  { clear. induction l as [|a l IH]; intros k; cbn; constructor; auto.
    intros I. apply in_combine_l in I. apply in_seq in I. lia. }
  apply X.
Qed.

Section Paths.
Context {V G : Type}.
Variable add : G -> G -> G.
Variable zero : G.
Hypothesis M : comm_monoid add zero.
Variable g : graph V.
Variable d : nat -> nat -> nat -> G -> G.
Hypothesis Hd : forall f o i, additive add zero (d f o i).
Variable ng : nat -> bool.
Variable y : nat.
Hypothesis Hln : linked g.
Variable lvl : nat -> nat.
Hypothesis Hlvl : numbering g lvl.
Notation gsum := (gsum add zero).
Notation nf := (length (g_fns g)).

Lemma fun_lt f fd : fun_at g f = Some fd -> f < nf.
Proof. unfold fun_at. intros H. apply nth_error_Some. congruence. Qed.

(** All the paths of less than [n] steps to the variables in [E]. *)
Fixpoint paths (n : nat) (E : nat -> bool) : list (list step) :=
  match n with
  | 0 => []
  | S n =>
      (if E y then [[]] else []) ++
      flat_map (fun f =>
        match fun_at g f with
        | None => []
        | Some fd =>
            flat_map (fun iv =>
              if f_active fd (fst iv) && ng (snd iv) && E (snd iv) then
                flat_map (fun ou => map (fun l => l ++ [(f, fst ou, fst iv)]) (paths n (Nat.eqb (snd ou))))
                         (combine (seq 0 (length (f_outs fd))) (f_outs fd))
              else [])
              (combine (seq 0 (length (f_ins fd))) (f_ins fd))
        end) (seq 0 nf)
  end.

Lemma paths_in : forall n E l, In l (paths n E) <-> exists v, is_path g ng y l v /\ E v = true /\ length l < n.
Proof.
  induction n as [|n IH]; intros E l; [cbn; split; [tauto|intros (v & _ & _ & H); lia]|].
  cbn [paths]. rewrite in_app_iff, in_flat_map. split.
  - intros [H|(f & Hf & H)].
    + destruct (E y) eqn:Ey; [|destruct H]. destruct H as [<-|[]]. exists y. cbn. repeat split; auto; [constructor|lia].
    + destruct (fun_at g f) as [fd|] eqn:Ef; [|destruct H].
      apply in_flat_map in H as ((i & v) & Hi & H). cbn [fst snd] in H. apply in_pos in Hi.
      destruct (f_active fd i && ng v && E v) eqn:Ec; [|destruct H].
      apply andb_true_iff in Ec as (Ec & E3). apply andb_true_iff in Ec as (E1 & E2).
      apply in_flat_map in H as ((o & u) & Ho & H). cbn [fst snd] in H. apply in_pos in Ho.
      apply in_map_iff in H as (l' & <- & H). apply IH in H as (u' & H1 & H2 & H3).
      apply Nat.eqb_eq in H2. subst u'. exists v. repeat split; auto.
      * econstructor; eauto. exists fd. auto.
      * rewrite app_length. cbn [length]. lia.
  - intros (v & Hp & Ev & Hl). destruct Hp as [|l f fd o i u v Hp Hf Ho Hr Hn].
    + left. rewrite Ev. left. reflexivity.
    + right. exists f. split; [apply in_seq; apply fun_lt in Hf; lia|]. rewrite Hf.
      destruct Hr as (fd' & Hf' & Hi & Ha). rewrite Hf in Hf'. inversion Hf'; subst fd'.
      apply in_flat_map. exists (i, v). split; [apply in_pos; auto|]. cbn [fst snd]. rewrite Ha, Hn, Ev. cbn [andb].
      apply in_flat_map. exists (o, u). split; [apply in_pos; auto|]. cbn [fst snd].
      apply in_map_iff. exists l. split; auto. apply IH. exists u. rewrite app_length in Hl. cbn [length] in Hl.
      split; [exact Hp|split; [apply Nat.eqb_refl|lia]].
Qed.

Lemma path_end l u v : is_path g ng y l u -> is_path g ng y l v -> u = v.
Proof.
  intros H1 H2. destruct H1 as [|l f fd o i u' u Hp Hf Ho Hr Hn].
  - inversion H2; subst; auto. destruct l; discriminate.
  - remember (l ++ [(f, o, i)]) as L. destruct H2 as [|l2 f2 fd2 o2 i2 u2 v Hp2 Hf2 Ho2 Hr2 Hn2].
    + destruct l; discriminate.
    + apply app_inj_tail in HeqL as (-> & E). inversion E; subst.
      destruct Hr as (a & A1 & A2 & _), Hr2 as (b & B1 & B2 & _). rewrite A1 in B1. inversion B1; subst. congruence.
Qed.

Lemma nodup_flat {A B} (f : A -> list B) l : NoDup l -> (forall x, In x l -> NoDup (f x)) ->
  (forall x x' z, In x l -> In x' l -> In z (f x) -> In z (f x') -> x = x') -> NoDup (flat_map f l).
Proof.
  induction l as [|x l IH]; cbn; intros Hn H1 H2; [constructor|]. inversion Hn; subst.
  apply nodup_app2; auto.
  - apply IH; auto. intros. eapply H2; eauto.
  - intros z Hz I. apply in_flat_map in I as (x' & I1 & I2). assert (x = x') by (eapply H2; eauto). subst. auto.
Qed.

Lemma paths_nodup : forall n E, NoDup (paths n E).
Proof.
  induction n as [|n IH]; intros E; [constructor|]. cbn [paths].
  assert (D : NoDup (flat_map (fun f =>
        match fun_at g f with
        | None => []
        | Some fd =>
            flat_map (fun iv =>
              if f_active fd (fst iv) && ng (snd iv) && E (snd iv) then
                flat_map (fun ou => map (fun l => l ++ [(f, fst ou, fst iv)]) (paths n (Nat.eqb (snd ou))))
                         (combine (seq 0 (length (f_outs fd))) (f_outs fd))
              else [])
              (combine (seq 0 (length (f_ins fd))) (f_ins fd))
        end) (seq 0 nf))).
  { apply nodup_flat; [apply seq_NoDup| |].
    - intros f _. destruct (fun_at g f) as [fd|]; [|constructor].
      apply nodup_flat; [apply nodup_pos| |].
      + intros (i & v) _. cbn [fst snd]. destruct (_ && _); [|constructor].
        apply nodup_flat; [apply nodup_pos| |].
        * intros (o & u) _. apply FinFun.Injective_map_NoDup; auto. intros a b H. apply app_inj_tail in H. tauto.
        * intros (o & u) (o' & u') z H1 H2 I1 I2. cbn [fst snd] in *.
          apply in_map_iff in I1 as (a & <- & _). apply in_map_iff in I2 as (b & I2 & _).
          apply app_inj_tail in I2 as (_ & I2). inversion I2; subst.
          apply in_pos in H1. apply in_pos in H2. congruence.
      + intros (i & v) (i' & v') z H1 H2 I1 I2. cbn [fst snd] in *.
        destruct (f_active fd i && _ && _); [|destruct I1]. destruct (f_active fd i' && _ && _); [|destruct I2].
        apply in_flat_map in I1 as (ou & _ & I1). apply in_map_iff in I1 as (a & <- & _).
        apply in_flat_map in I2 as (ou' & _ & I2). apply in_map_iff in I2 as (b & I2 & _).
        apply app_inj_tail in I2 as (_ & I2). inversion I2; subst.
        apply in_pos in H1. apply in_pos in H2. congruence.
    - intros f f' z _ _ I1 I2. destruct (fun_at g f) as [fd|]; [|destruct I1].
      destruct (fun_at g f') as [fd'|]; [|destruct I2].
      apply in_flat_map in I1 as (iv & _ & I1). destruct (_ && _) in I1; [|destruct I1].
      apply in_flat_map in I1 as (ou & _ & I1). apply in_map_iff in I1 as (a & <- & _).
      apply in_flat_map in I2 as (iv' & _ & I2). destruct (_ && _) in I2; [|destruct I2].
      apply in_flat_map in I2 as (ou' & _ & I2). apply in_map_iff in I2 as (b & I2 & _).
      apply app_inj_tail in I2 as (_ & I2). inversion I2; subst. auto. }
  destruct (E y); cbn [app]; [|exact D]. constructor; [|exact D].
  intros I. apply in_flat_map in I as (f & _ & I). destruct (fun_at g f) as [fd|]; [|destruct I].
  apply in_flat_map in I as (iv & _ & I). destruct (_ && _); [|destruct I].
  apply in_flat_map in I as (ou & _ & I). apply in_map_iff in I as (a & I & _). destruct a; discriminate.
Qed.

(** Paths cannot be longer than the number of functions. *)
Definition vl (v : nat) : nat := match parent g v with None => 0 | Some f => S (lvl f) end.
Lemma path_len l v : is_path g ng y l v -> length l + vl v <= nf.
Proof.
  assert (Y : forall v, vl v <= nf).
  { intros w. unfold vl. destruct (parent g w) as [q|] eqn:Eq; [|lia].
    destruct (ln_parent g Hln w q Eq) as (qd & Hq & _). apply (Hlvl q qd Hq). }
  induction 1 as [|l f fd o i u v Hp IH Hf Ho Hr Hn]; [apply Y|].
  rewrite app_length. cbn [length].
  assert (Eu : parent g u = Some f) by (apply (ln_outs g Hln f fd u Hf); eapply nth_error_In; eauto).
  unfold vl in IH at 1. rewrite Eu in IH.
  destruct Hr as (fd' & Hf' & Hi & _). rewrite Hf in Hf'. inversion Hf'; subst fd'.
  unfold vl. destruct (parent g v) as [q|] eqn:Eq; [|lia].
  assert (lvl q < lvl f); [|lia]. eapply (Hlvl f fd Hf); eauto. eapply nth_error_In; eauto.
Qed.
Lemma paths_all n E : nf < n -> all_paths g ng y (fun v => E v = true) (paths n E).
Proof.
  intros Hn. split; [apply paths_nodup|]. intros l. rewrite paths_in. split.
  - intros (v & H1 & H2 & _). eauto.
  - intros (v & H1 & H2). exists v. repeat split; auto. apply path_len in H1. lia.
Qed.
Lemma all_paths_perm ends a b : all_paths g ng y ends a -> all_paths g ng y ends b -> Permutation a b.
Proof. intros (A1 & A2) (B1 & B2). apply NoDup_Permutation; auto. intros l. rewrite A2, B2. tauto. Qed.

Variable x0 : G.
Notation val := (path_val d x0).
(** The adjoint of a set of variables, and the contribution of one function. *)
Definition padj (E : nat -> bool) : G := gsum (map val (paths (S nf) E)).
Definition adj (v : nat) : G := padj (Nat.eqb v).
Definition lgrad (f i : nat) (fd : fn V) : G :=
  gsum (map (fun ou => d f (fst ou) i (adj (snd ou))) (combine (seq 0 (length (f_outs fd))) (f_outs fd))).
Definition contrib (E : nat -> bool) (f : nat) : G :=
  match fun_at g f with
  | None => zero
  | Some fd =>
      gsum (map (fun iv => if f_active fd (fst iv) && ng (snd iv) && E (snd iv)
                           then lgrad f (fst iv) fd else zero)
                (combine (seq 0 (length (f_ins fd))) (f_ins fd)))
  end.
Lemma padj_eq E : padj E = add (if E y then x0 else zero) (gsum (map (contrib E) (seq 0 nf))).
Proof.
  unfold padj at 1.
  assert (P : Permutation (paths (S nf) E) (paths (S (S nf)) E)).
  { eapply all_paths_perm; apply paths_all; lia. }
  rewrite (gsum_perm add zero M _ _ (Permutation_map val P)).
  cbn [paths]. fold paths. rewrite map_app, gsum_app by auto. f_equal.
  - destruct (E y); cbn; auto. apply add_0_r; auto.
  - rewrite flat_map_concat_map, concat_map, map_map, <- flat_map_concat_map, (gsum_flat add zero M).
    apply gsum_ext. intros f _. unfold contrib. destruct (fun_at g f) as [fd|]; [|reflexivity].
    rewrite flat_map_concat_map, concat_map, map_map, <- flat_map_concat_map, (gsum_flat add zero M).
    apply gsum_ext. intros (i & v) _. cbn [fst snd]. destruct (_ && _); [|reflexivity].
    rewrite flat_map_concat_map, concat_map, map_map, <- flat_map_concat_map, (gsum_flat add zero M).
    unfold lgrad. apply gsum_ext. intros (o & u) _. cbn [fst snd]. unfold adj, padj.
    rewrite (additive_sum add zero _ _ (Hd f o i)). rewrite !map_map. apply gsum_ext. intros l _.
    unfold path_val. rewrite fold_left_app. reflexivity.
Qed.
(** Functions that no path enters contribute nothing. *)
Lemma adj_none v : (forall l, ~ is_path g ng y l v) -> adj v = zero.
Proof.
  intros H. unfold adj, padj. apply gsum_zero; auto. intros l Hl. apply paths_in in Hl as (u & H1 & H2 & _).
  apply Nat.eqb_eq in H2. subst. exfalso. eapply H; eauto.
Qed.
Definition reached (f : nat) : Prop := exists l v, is_path g ng y l v /\ parent g v = Some f.
Lemma contrib_none E f : ~ reached f -> contrib E f = zero.
Proof.
  intros H. unfold contrib. destruct (fun_at g f) as [fd|] eqn:Ef; auto.
  apply gsum_zero; auto. intros (i & v) _. cbn [fst snd]. destruct (_ && _); auto.
  unfold lgrad. apply gsum_zero; auto. intros (o & u) Hu. cbn [fst snd]. apply in_combine_r in Hu.
  rewrite adj_none; [apply Hd|]. intros l Hl. apply H. exists l, u. split; auto.
  apply (ln_outs g Hln f fd u Ef Hu).
Qed.
Lemma reached_step f i v q : reached f -> reads g f i v -> ng v = true -> parent g v = Some q -> reached q.
Proof.
  intros (l & u & Hp & Hu) Hr Hn Hq. destruct (ln_parent g Hln u f Hu) as (fd & Hf & Hin).
  apply In_nth_error in Hin as (o & Ho). exists (l ++ [(f, o, i)]), v. split; auto. econstructor; eauto.
Qed.
End Paths.
