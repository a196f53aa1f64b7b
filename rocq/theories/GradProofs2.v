(** Sums and folds for nn.grad. *)
From Coq Require Import List Arith Bool Lia Permutation.
From Verif Require Import CgModel CgSpec CgProofs BwModel BwSpec BwProofs GradModel GradSpec GradProofs.
Import ListNotations.
Local Open Scope list_scope.

Section Sums.
Context {G : Type}.
Variable add : G -> G -> G.
Variable zero : G.
Hypothesis M : comm_monoid add zero.
Notation gsum := (gsum add zero).
Lemma gsum_add {A} (f h : A -> G) l :
  gsum (map (fun x => add (f x) (h x)) l) = add (gsum (map f l)) (gsum (map h l)).
Proof using M.
  induction l as [|x l IH]; cbn [map].
  - symmetry. apply add_0_l with (1 := M).
  - rewrite !gsum_cons, IH, !(add_assoc add zero M). f_equal.
    rewrite <- !(add_assoc add zero M). f_equal. apply add_comm with (1 := M).
Qed.
Lemma gsum_swap {A B} (F : A -> B -> G) a b :
  gsum (map (fun x => gsum (map (fun y => F x y) b)) a) = gsum (map (fun y => gsum (map (fun x => F x y) a)) b).
Proof using M.
  induction a as [|x a IH]; cbn [map].
  - symmetry. apply gsum_zero; auto.
  - rewrite gsum_cons, IH, <- gsum_add. apply gsum_ext. intros y _. reflexivity.
Qed.
Lemma gsum_filter {A} (p : A -> bool) (f : A -> G) l :
  gsum (map f (filter p l)) = gsum (map (fun x => if p x then f x else zero) l).
Proof using M.
  induction l as [|x l IH]; cbn [map filter]; auto. rewrite gsum_cons. destruct (p x); cbn [map].
  - rewrite gsum_cons, IH. reflexivity.
  - rewrite IH. symmetry. apply add_0_l with (1 := M).
Qed.
Lemma gsum_single {A} (f : A -> G) l y : NoDup l -> In y l -> (forall x, In x l -> x <> y -> f x = zero) ->
  gsum (map f l) = f y.
Proof using M.
  induction l as [|x l IH]; cbn [map In]; intros N I H; [destruct I|]. inversion N; subst. rewrite gsum_cons.
  destruct I as [->|I].
  - rewrite gsum_zero; [apply add_0_r with (1 := M)|exact M|]. intros z Hz. apply H; auto. intros ->. auto.
  - rewrite IH; auto. rewrite H; auto; [apply add_0_l with (1 := M)|]. intros ->. auto.
Qed.
Lemma gsum_if_pull {A} (c : bool) (f : A -> G) l :
  gsum (map (fun x => if c then f x else zero) l) = if c then gsum (map f l) else zero.
Proof using M. destruct c; auto. apply gsum_zero; auto. Qed.
End Sums.

Lemma lookup_remove {A} k j (m : list (nat * A)) : lookup k (remove j m) = if Nat.eqb j k then None else lookup k m.
Proof.
  unfold remove. induction m as [|(i & x) m IH]; cbn; [destruct (Nat.eqb j k); reflexivity|].
  destruct (Nat.eqb i j) eqn:E1; cbn.
  - rewrite IH. apply Nat.eqb_eq in E1. subst. destruct (Nat.eqb j k); reflexivity.
  - destruct (Nat.eqb i k) eqn:E2; [|apply IH]. apply Nat.eqb_eq in E2. subst. rewrite Nat.eqb_sym, E1. reflexivity.
Qed.
Lemma lookup_put {A} k j x (m : list (nat * A)) : lookup k (put j x m) = if Nat.eqb j k then Some x else lookup k m.
Proof. unfold put. cbn. rewrite lookup_remove. destruct (Nat.eqb j k); reflexivity. Qed.

Lemma combine_map {A B C} (h : A -> B) (F : nat * B -> C) (l : list A) n k :
  map F (combine (seq k n) (map h l)) = map (fun ou => F (fst ou, h (snd ou))) (combine (seq k n) l).
Proof.
  revert k n. induction l as [|x l IH]; intros k [|n]; cbn; auto. rewrite IH. reflexivity.
Qed.

Lemma entry_eqb_eq a b : entry_eqb a b = true <-> a = b.
Proof.
  destruct a as [a1 a2], b as [b1 b2]. unfold entry_eqb. cbn [fst snd]. rewrite andb_true_iff, !Nat.eqb_eq.
  split; [intros (-> & ->); auto|intros H; inversion H; auto].
Qed.
Lemma best_in ids l e : In (best ids e l) (e :: l).
Proof.
  revert e. induction l as [|x l IH]; intros e; cbn [best]; [left; auto|].
  destruct (IH (if before ids x e then x else e)) as [H|H]; [|right; right; exact H].
  rewrite <- H. destruct (before ids x e); [right; left|left]; auto.
Qed.
Lemma best_max ids l : forall e x, In x (e :: l) -> fst x <= fst (best ids e l).
Proof.
  induction l as [|z l IH]; intros e x H; cbn [best].
  - destruct H as [->|[]]. lia.
  - assert (B : forall a b, before ids a b = false -> fst a <= fst b).
    { intros a b. unfold before. intros E. apply orb_false_iff in E as (E & _). apply Nat.ltb_ge in E. exact E. }
    assert (C : forall a b, before ids a b = true -> fst b <= fst a).
    { intros a b. unfold before. rewrite orb_true_iff, andb_true_iff, Nat.ltb_lt, Nat.eqb_eq. lia. }
    assert (S0 : fst (if before ids z e then z else e) <= fst (best ids (if before ids z e then z else e) l)).
    { apply IH. left. reflexivity. }
    destruct H as [<-|[<-|H]].
    + destruct (before ids z e) eqn:E; [apply C in E; lia|lia].
    + destruct (before ids z e) eqn:E; [lia|apply B in E; lia].
    + apply IH. right. exact H.
Qed.

Section Vals.
Context {V G : Type}.
Variable add : G -> G -> G.
Variable zero : G.
Hypothesis M : comm_monoid add zero.
Variable g : graph V.
Variable vid : nat -> nat.
Notation gsum := (gsum add zero).

Definition valof (m : list (nat * list (nat * list G))) (q k : nat) : G :=
  match lookup q m with
  | Some mp => match lookup k mp with Some l => fold_left add l zero | None => zero end
  | None => zero
  end.
Definition hits (q k u : nat) : bool :=
  match parent g u with Some p => Nat.eqb p q && Nat.eqb (vid u) k | None => false end.
Lemma push_val u x m q k : valof (push g vid u x m) q k =
  if hits q k u then add (valof m q k) x else valof m q k.
Proof using M.
  unfold push, hits. destruct (parent g u) as [p|]; auto. unfold valof at 1. rewrite lookup_put.
  destruct (Nat.eqb p q) eqn:E; cbn [andb]; auto. apply Nat.eqb_eq in E. subst p. rewrite lookup_put.
  destruct (Nat.eqb (vid u) k) eqn:Ek.
  - apply Nat.eqb_eq in Ek. subst k. rewrite fold_left_app. cbn [fold_left]. f_equal. unfold valof.
    destruct (lookup q m) as [mp|]; auto. destruct (lookup (vid u) mp); auto.
  - unfold valof. destruct (lookup q m) as [mp|]; auto.
Qed.
Lemma push_dom u (x : G) m q : lookup q (push g vid u x m) <> None <-> lookup q m <> None \/ parent g u = Some q.
Proof using.
  unfold push. destruct (parent g u) as [p|]; [|split; [auto|intros [H|H]; [auto|discriminate]]].
  rewrite lookup_put. destruct (Nat.eqb p q) eqn:E.
  - apply Nat.eqb_eq in E. subst. split; [auto|discriminate].
  - apply Nat.eqb_neq in E. split; [auto|intros [H|H]; [auto|congruence]].
Qed.
Lemma fold_val (lg : nat -> G) act m q k :
  valof (fold_left (fun m iu => push g vid (snd iu) (lg (fst iu)) m) act m) q k =
  add (valof m q k) (gsum (map (fun iu => if hits q k (snd iu) then lg (fst iu) else zero) act)).
Proof using M.
  revert m. induction act as [|a act IH]; intros m; cbn [fold_left map].
  - rewrite gsum_nil. symmetry. apply add_0_r with (1 := M).
  - rewrite IH, push_val, gsum_cons, (add_assoc add zero M). f_equal. destruct (hits q k (snd a)); auto.
    symmetry. apply add_0_r with (1 := M).
Qed.
Lemma fold_dom (lg : nat -> G) act m q :
  lookup q (fold_left (fun m iu => push g vid (snd iu) (lg (fst iu)) m) act m) <> None <->
  lookup q m <> None \/ exists iu, In iu act /\ parent g (snd iu) = Some q.
Proof using.
  revert m. induction act as [|a act IH]; intros m; cbn [fold_left].
  - split; [auto|]. intros [H|(iu & [] & _)]. auto.
  - rewrite IH, push_dom. split.
    + intros [[H|H]|(iu & H1 & H2)]; auto; right; [exists a; split; auto; left; auto|exists iu; split; auto; right; auto].
    + intros [H|(iu & [<-|H1] & H2)]; auto. right. eauto.
Qed.

Variable vneed : nat -> bool.
Variable wrt : list (option nat).
Definition getres (r : list (option G)) (i : nat) : G := match nth i r None with Some x => x | None => zero end.
Lemma set_nth_nth {A} i j (x dflt : A) l : i < length l ->
  nth j (set_nth i x l) dflt = if Nat.eqb i j then x else nth j l dflt.
Proof using.
  revert i j. induction l as [|y l IH]; intros i j; cbn; [lia|]. destruct i, j; cbn; auto.
  intros H. apply IH. lia.
Qed.
Lemma windex_some k w i j : windex vid k w i = Some j -> i <= j /\ exists v, nth_error w (j - i) = Some (Some v) /\ vid v = k.
Proof using.
  revert i. induction w as [|[v|] w IH]; intros i; cbn; [discriminate| |].
  - destruct (Nat.eqb (vid v) k) eqn:E.
    + intros H. inversion H; subst. split; [lia|]. rewrite Nat.sub_diag. exists v. apply Nat.eqb_eq in E. auto.
    + intros H. destruct (IH _ H) as (L & z & Hz). split; [lia|]. exists z. replace (j - i) with (S (j - S i)) by lia. auto.
  - intros H. destruct (IH _ H) as (L & z & Hz). split; [lia|]. exists z. replace (j - i) with (S (j - S i)) by lia. auto.
Qed.
Lemma windex_in k w i v : In (Some v) w -> vid v = k -> exists j, windex vid k w i = Some j.
Proof using.
  clear vneed wrt. revert i. induction w as [|[z|] w IH]; intros i; cbn; [tauto| |].
  - intros H E. destruct (Nat.eqb (vid z) k) eqn:Ez; eauto. destruct H as [H|H]; eauto.
    inversion H; subst. rewrite Nat.eqb_refl in Ez. discriminate.
  - intros [H|H] E; [discriminate|eauto].
Qed.
Definition target (i u : nat) : bool :=
  match windex vid (vid u) wrt 0 with Some j => Nat.eqb j i && vneed u | None => false end.
Lemma accum_len u x r : length (accum add vid vneed wrt u x r) = length r.
Proof using. unfold accum. destruct (windex vid (vid u) wrt 0); auto. destruct (vneed u); auto. apply set_nth_len. Qed.
Lemma accum_get u x r i : length r = length wrt ->
  getres (accum add vid vneed wrt u x r) i = if target i u then add (getres r i) x else getres r i.
Proof using M.
  intros L. unfold accum, target. destruct (windex vid (vid u) wrt 0) as [j|] eqn:E; auto.
  destruct (vneed u); [|rewrite andb_false_r; auto]. rewrite andb_true_r.
  apply windex_some in E as (_ & v & Hv & _). rewrite Nat.sub_0_r in Hv.
  assert (j < length r) by (rewrite L; apply nth_error_Some; congruence).
  unfold getres. rewrite set_nth_nth by auto. destruct (Nat.eqb j i) eqn:Ej; auto.
  apply Nat.eqb_eq in Ej. subst. destruct (nth i r None); auto. symmetry. apply add_0_l with (1 := M).
Qed.
Lemma fold_res (lg : nat -> G) act r i : length r = length wrt ->
  getres (fold_left (fun r iu => accum add vid vneed wrt (snd iu) (lg (fst iu)) r) act r) i =
  add (getres r i) (gsum (map (fun iu => if target i (snd iu) then lg (fst iu) else zero) act)).
Proof using M.
  revert r. induction act as [|a act IH]; intros r L; cbn [fold_left map].
  - rewrite gsum_nil. symmetry. apply add_0_r with (1 := M).
  - rewrite IH by (rewrite accum_len; auto). rewrite accum_get by auto.
    rewrite gsum_cons, (add_assoc add zero M). f_equal. destruct (target i (snd a)); auto.
    symmetry. apply add_0_r with (1 := M).
Qed.
Lemma fold_reslen (lg : nat -> G) act r :
  length (fold_left (fun r iu => accum add vid vneed wrt (snd iu) (lg (fst iu)) r) act r) = length r.
Proof using. revert r. induction act as [|a act IH]; intros r; cbn [fold_left]; auto. rewrite IH. apply accum_len. Qed.
End Vals.

Section Total.
Context {V G : Type}.
Variable add : G -> G -> G.
Variable zero : G.
Hypothesis M : comm_monoid add zero.
Variable g : graph V.
Variable d : nat -> nat -> nat -> G -> G.
Hypothesis Hd : forall f o i, additive add zero (d f o i).
Variable vneed : nat -> bool.
Hypothesis Hln : linked g.
Variable lvl : nat -> nat.
Hypothesis Hlvl : numbering g lvl.
Variable one : nat -> G.
Variable roots : list nat.
Notation gsum := (gsum add zero).
Notation nf := (length (g_fns g)).

(** The adjoint summed over the outputs. *)
Definition tpadj (E : nat -> bool) : G := gsum (map (fun y => padj add zero g d vneed y (one y) E) roots).
Definition tlg (f i : nat) (fd : fn V) : G :=
  gsum (map (fun ou => d f (fst ou) i (tpadj (Nat.eqb (snd ou)))) (combine (seq 0 (length (f_outs fd))) (f_outs fd))).
Definition tcontrib (E : nat -> bool) (f : nat) : G :=
  match fun_at g f with
  | None => zero
  | Some fd =>
      gsum (map (fun iv => if f_active fd (fst iv) && vneed (snd iv) && E (snd iv)
                           then tlg f (fst iv) fd else zero) (items fd))
  end.
Definition treached (f : nat) : Prop := exists y l v, In y roots /\ is_path g vneed y l v /\ parent g v = Some f.

Lemma tcontrib_eq E f : tcontrib E f = gsum (map (fun y => contrib add zero g d vneed y (one y) E f) roots).
Proof using M Hd.
  unfold tcontrib, contrib. destruct (fun_at g f) as [fd|].
  2: { symmetry. apply gsum_zero; auto. }
  rewrite (gsum_swap add zero M). apply gsum_ext. intros (i & v) _. cbn [fst snd].
  rewrite (gsum_if_pull add zero M). destruct (_ && _); auto.
  unfold tlg, lgrad. rewrite (gsum_swap add zero M). apply gsum_ext. intros (o & u) _. cbn [fst snd].
  unfold tpadj. rewrite (additive_sum add zero _ _ (Hd f o i)), map_map. reflexivity.
Qed.
Lemma tpadj_eq E : tpadj E = add (gsum (map (fun y => if E y then one y else zero) roots))
  (gsum (map (tcontrib E) (seq 0 nf))).
Proof using M Hd Hln Hlvl.
  unfold tpadj.
  rewrite (gsum_ext add zero _ (fun y => add (if E y then one y else zero)
     (gsum (map (contrib add zero g d vneed y (one y) E) (seq 0 nf))))).
  2: { intros y _. apply (padj_eq add zero M g d Hd vneed y Hln lvl Hlvl). }
  rewrite (gsum_add add zero M). f_equal. rewrite (gsum_swap add zero M). apply gsum_ext. intros f _.
  rewrite tcontrib_eq. reflexivity.
Qed.
Lemma tpadj_none v : (forall y l, In y roots -> ~ is_path g vneed y l v) -> tpadj (Nat.eqb v) = zero.
Proof using M.
  intros H. unfold tpadj. apply gsum_zero; auto. intros y Hy.
  apply adj_none; auto.
Qed.
Lemma tlg_none f fd i : fun_at g f = Some fd -> ~ treached f -> tlg f i fd = zero.
Proof using M Hd Hln.
  intros Hf H. unfold tlg. apply gsum_zero; auto. intros (o & u) Hu. cbn [fst snd].
  rewrite tpadj_none; [apply Hd|]. intros y l Hy Hp. apply H. exists y, l, u. split; auto. split; auto.
  apply in_combine_r in Hu. apply (ln_outs g Hln f fd u Hf Hu).
Qed.
Lemma tcontrib_zero E f : (forall i v, reads g f i v -> vneed v = true -> E v = true -> ~ treached f) -> tcontrib E f = zero.
Proof using M Hd Hln.
  intros H. unfold tcontrib. destruct (fun_at g f) as [fd|] eqn:Ef; auto. apply gsum_zero; auto.
  intros (i & v) Hi. cbn [fst snd]. destruct (f_active fd i && vneed v && E v) eqn:E1; auto.
  apply andb_true_iff in E1 as (E1 & E3). apply andb_true_iff in E1 as (E1 & E2).
  apply tlg_none; auto. apply in_pos in Hi. apply (H i v); auto. exists fd. auto.
Qed.
Lemma treached_step f i v : treached f -> reads g f i v -> vneed v = true ->
  exists y l, In y roots /\ is_path g vneed y l v /\ l <> [].
Proof using Hln.
  intros (y & l & u & Hy & Hp & Hu) Hr Hn. destruct (ln_parent g Hln u f Hu) as (fd & Hf & Hin).
  apply In_nth_error in Hin as (o & Ho). exists y, (l ++ [(f, o, i)]). split; auto. split; [econstructor; eauto|].
  destruct l; discriminate.
Qed.
End Total.
