(** forward_all: the persistent flags it sets and restores. *)
From Coq Require Import List Arith Bool Lia.
From Verif Require Import CgModel CgSpec CgProofs CgProofs2 CgProofs3.
Import ListNotations.
Local Open Scope list_scope.

Definition dvar : var := mkVar None 0 None false false false 0.
Definition with_flag (x : var) (b : bool) : var :=
  mkVar (v_parent x) (v_arr x) (v_need_grad x) b (v_recompute x) (v_prohibit x) (v_refs x).

Lemma set_flag_length vs v b : length (set_flag vs v b) = length vs.
Proof. unfold set_flag. rewrite map_length, combine_length, seq_length. lia. Qed.
Lemma set_flag_nth_error vs v b u :
  nth_error (set_flag vs v b) u =
  match nth_error vs u with
  | Some x => Some (if Nat.eqb u v then with_flag x b else x)
  | None => None
  end.
Proof.
  unfold set_flag. rewrite nth_error_map, combine_seq_nth.
  destruct (nth_error vs u); reflexivity.
Qed.
Lemma nth_of_error {A} (l : list A) n d : nth n l d = match nth_error l n with Some x => x | None => d end.
Proof. revert n. induction l as [|x l IH]; intros [|n]; cbn; auto. Qed.
Lemma list_ext {A} (l l' : list A) : (forall n, nth_error l n = nth_error l' n) -> l = l'.
Proof.
  revert l'. induction l as [|x l IH]; intros [|y l'] H; auto.
  - specialize (H 0). discriminate.
  - specialize (H 0). discriminate.
  - assert (E := H 0). injection E as ->. f_equal. apply IH. intros n. exact (H (S n)).
Qed.

Definition agree (vs vs' : list var) : Prop :=
  length vs' = length vs /\
  forall u, let x := nth u vs dvar in let x' := nth u vs' dvar in
    v_parent x' = v_parent x /\ v_arr x' = v_arr x /\ v_need_grad x' = v_need_grad x /\
    v_recompute x' = v_recompute x /\ v_prohibit x' = v_prohibit x /\ v_refs x' = v_refs x.
Lemma agree_refl vs : agree vs vs.
Proof. split; auto. intros u. cbn. auto 10. Qed.
Lemma agree_trans a b c : agree a b -> agree b c -> agree a c.
Proof.
  intros [L1 H1] [L2 H2]. split; [congruence|]. intros u. specialize (H1 u). specialize (H2 u).
  cbn in *. intuition congruence.
Qed.
Lemma agree_set vs v b : agree vs (set_flag vs v b).
Proof.
  split; [apply set_flag_length|]. intros u. cbn. rewrite !nth_of_error, set_flag_nth_error.
  destruct (nth_error vs u); [destruct (Nat.eqb u v)|]; cbn; auto 10.
Qed.
Lemma set_persistents_agree ys : forall vs, agree vs (fst (set_persistents vs ys)).
Proof.
  induction ys as [|y ys IH]; intros vs; cbn; [apply agree_refl|].
  specialize (IH (set_flag vs y true)).
  destruct (set_persistents (set_flag vs y true) ys) as [vs' bs]. cbn in *.
  eapply agree_trans; [apply agree_set|exact IH].
Qed.
Lemma set_persistents_flag ys : forall vs u, u < length vs ->
  v_persistent (nth u (fst (set_persistents vs ys)) dvar) =
  v_persistent (nth u vs dvar) || mem_nat u ys.
Proof.
  induction ys as [|y ys IH]; intros vs u Hu; cbn [set_persistents]; [cbn; now rewrite orb_false_r|].
  specialize (IH (set_flag vs y true) u). rewrite set_flag_length in IH. specialize (IH Hu).
  destruct (set_persistents (set_flag vs y true) ys) as [vs' bs]. cbn [fst mem_nat existsb] in *.
  rewrite IH, !nth_of_error, set_flag_nth_error.
  destruct (nth_error vs u) eqn:E; [|apply nth_error_None in E; lia].
  destruct (Nat.eqb u y); cbn; auto. now rewrite orb_true_r.
Qed.

(** Entries outside [ys] are not touched, and restoring distinct variables gives the
    original list back. *)
Lemma set_persistents_other ys : forall vs u, ~ In u ys ->
  nth_error (fst (set_persistents vs ys)) u = nth_error vs u.
Proof.
  induction ys as [|y ys IH]; intros vs u Hu; cbn; auto.
  specialize (IH (set_flag vs y true) u).
  destruct (set_persistents (set_flag vs y true) ys) as [vs' bs]. cbn in *.
  rewrite IH by tauto. rewrite set_flag_nth_error.
  destruct (nth_error vs u); auto. destruct (Nat.eqb_spec u y) as [->|]; [tauto|auto].
Qed.
Lemma restore_other ys : forall vs bs u, ~ In u ys ->
  nth_error (restore_persistents vs ys bs) u = nth_error vs u.
Proof.
  induction ys as [|y ys IH]; intros vs [|b bs] u Hu; cbn; auto.
  rewrite IH by (cbn in Hu; tauto). rewrite set_flag_nth_error.
  destruct (nth_error vs u); auto. destruct (Nat.eqb_spec u y) as [->|]; [cbn in Hu; tauto|auto].
Qed.
Lemma with_flag_same x : with_flag x (v_persistent x) = x.
Proof. now destruct x. Qed.
Lemma restore_in ys : forall vs0 vs bs u, NoDup ys -> In u ys ->
  (forall y, In y ys -> exists x c, nth_error vs0 y = Some x /\ nth_error vs y = Some (with_flag x c)) ->
  bs = map (fun y => v_persistent (nth y vs0 dvar)) ys ->
  nth_error (restore_persistents vs ys bs) u = nth_error vs0 u.
Proof.
  induction ys as [|y ys IH]; intros vs0 vs bs u Hn Hu Hv Hb; [destruct Hu|].
  apply NoDup_cons_iff in Hn as [Hy Hn]. subst bs. cbn [map restore_persistents].
  destruct (Nat.eq_dec u y) as [->|Hne].
  - rewrite restore_other by auto. rewrite set_flag_nth_error.
    destruct (Hv y (or_introl eq_refl)) as (x & c & E0 & E1). rewrite E1, Nat.eqb_refl, E0.
    rewrite nth_of_error, E0. f_equal. rewrite <- (with_flag_same x) at 3. reflexivity.
  - apply IH; auto.
    + destruct Hu as [|]; [congruence|auto].
    + intros z Hz. destruct (Hv z (or_intror Hz)) as (x & c & E0 & E1).
      exists x, c. split; auto. rewrite set_flag_nth_error, E1.
      destruct (Nat.eqb_spec z y) as [->|]; [contradiction|auto].
Qed.
Lemma set_persistents_bs ys : forall vs, NoDup ys ->
  snd (set_persistents vs ys) = map (fun y => v_persistent (nth y vs dvar)) ys.
Proof.
  induction ys as [|y ys IH]; intros vs Hn; cbn; auto.
  apply NoDup_cons_iff in Hn as [Hy Hn]. specialize (IH (set_flag vs y true) Hn).
  destruct (set_persistents (set_flag vs y true) ys) as [vs' bs]. cbn in *. f_equal.
  rewrite IH. apply map_ext_in. intros z Hz. rewrite !nth_of_error, set_flag_nth_error.
  destruct (nth_error vs z); auto. destruct (Nat.eqb_spec z y) as [->|]; [contradiction|auto].
Qed.
Lemma set_persistents_in ys : forall vs u x, nth_error vs u = Some x ->
  exists c, nth_error (fst (set_persistents vs ys)) u = Some (with_flag x c).
Proof.
  induction ys as [|y ys IH]; intros vs u x Hx; cbn.
  - exists (v_persistent x). now rewrite with_flag_same.
  - assert (E := set_flag_nth_error vs y true u). rewrite Hx in E.
    destruct (IH _ _ _ E) as (c & Hc). exists c.
    destruct (set_persistents (set_flag vs y true) ys) as [vs' bs]. cbn in *. rewrite Hc.
    now destruct (Nat.eqb u y).
Qed.
Lemma restored vs ys : NoDup ys -> (forall y, In y ys -> y < length vs) ->
  let (vs', bs) := set_persistents vs ys in restore_persistents vs' ys bs = vs.
Proof.
  intros Hn Hy. assert (B := set_persistents_bs ys vs Hn).
  assert (O := set_persistents_other ys vs). assert (I := set_persistents_in ys vs).
  destruct (set_persistents vs ys) as [vs' bs]. cbn in *. apply list_ext. intros u.
  destruct (in_dec Nat.eq_dec u ys) as [Hu|Hu].
  - apply restore_in; auto. intros z Hz.
    destruct (nth_error vs z) as [x|] eqn:E.
    + destruct (I z x E) as (c & Hc). exists x, c. auto.
    + apply nth_error_None in E. specialize (Hy z Hz). lia.
  - rewrite restore_other by auto. now apply O.
Qed.

(** Facts about a graph carry over to the graph with other persistent flags. *)
Section Transfer.
Context {V : Type}.
Variable g : graph V.
Variable vs : list var.
Hypothesis Hag : agree (g_vars g) vs.
Let g' := mkGraph (g_fns g) vs.

Lemma t_parent v : parent g' v = parent g v.
Proof. unfold parent, var_at, g'. cbn. exact (proj1 (proj2 Hag v)). Qed.
Lemma t_arr v : arr g' v = arr g v.
Proof. unfold arr, var_at, g'. cbn. exact (proj1 (proj2 (proj2 Hag v))). Qed.
Lemma t_ng v : v_need_grad (var_at g' v) = v_need_grad (var_at g v).
Proof. unfold var_at, g'. cbn. exact (proj1 (proj2 (proj2 (proj2 Hag v)))). Qed.
Lemma t_rec v : v_recompute (var_at g' v) = v_recompute (var_at g v).
Proof. unfold var_at, g'. cbn. exact (proj1 (proj2 (proj2 (proj2 (proj2 Hag v))))). Qed.
Lemma t_refs v : v_refs (var_at g' v) = v_refs (var_at g v).
Proof. unfold var_at, g'. cbn. exact (proj2 (proj2 (proj2 (proj2 (proj2 (proj2 Hag v)))))). Qed.
Lemma t_is_var v : is_var g' v <-> is_var g v.
Proof. unfold is_var, g'. cbn. now rewrite (proj1 Hag). Qed.
Lemma t_needs p f : needs g' p f <-> needs g p f.
Proof.
  split; induction 1 as [p|p i u q f Hr Hq Hn IH]; try constructor.
  - eapply needs_step; [exact Hr| |exact IH]. now rewrite t_parent in Hq.
  - eapply needs_step; [exact Hr| |exact IH]. now rewrite t_parent.
Qed.
Lemma t_asked ys f : asked g' ys f <-> asked g ys f.
Proof.
  split; intros (y & p & Hy & Hp & Hn); exists y, p; rewrite t_parent, t_needs in *; auto.
Qed.
Lemma t_same_data u v : same_data g u v -> same_data g' u v.
Proof.
  induction 1; [constructor|now apply same_sym|eapply same_trans; eauto|].
  exact (same_pair g' f fd i a b H H0 H1 H2).
Qed.
Lemma t_wf : wf g -> wf g'.
Proof.
  intros W. destruct W as [W1 W2 W3 W4 W5 W6 W7 W8]. apply mkWf.
  - intros f fd v Hf Hv. apply t_is_var. eauto.
  - intros f fd v Hf Hv. rewrite t_is_var, t_parent. eauto.
  - intros v p. rewrite t_parent. apply W3.
  - intros f fd Hf. rewrite (map_ext _ (arr g) t_arr). exact (W4 f fd Hf).
  - intros v. rewrite t_refs. apply W5.
  - exact W6.
  - exact W7.
  - intros u v. rewrite !t_is_var, !t_arr. apply W8.
Qed.
Lemma t_numbering lvl : numbering g lvl -> numbering g' lvl.
Proof.
  intros H f fd Hf. destruct (H f fd Hf) as [H1 H2]. split; auto.
  intros u q Hu. rewrite t_parent. now apply H2.
Qed.
Lemma t_solution leaf vals : solution g leaf vals -> solution g' leaf vals.
Proof. intros [H1 H2]. split; [|exact H2]. intros v. unfold is_leaf. rewrite t_parent. apply H1. Qed.
Lemma t_ng_of gf v : ng_of g' gf v = ng_of g gf v.
Proof. unfold ng_of. now rewrite t_ng, t_parent. Qed.
Lemma t_grad_flags gf : grad_flags g gf -> grad_flags g' gf.
Proof.
  intros H f fd Hf. rewrite (H f fd Hf).
  split; intros (i & v & Hr & Hv); exists i, v; rewrite t_ng_of in *; auto.
Qed.
Lemma t_ranks rk : ranks g rk -> ranks g' rk.
Proof.
  intros H f fd Hf. destruct (H f fd Hf) as (H1 & H2 & H3). split; [|split; auto].
  - destruct H1 as [|(i & v & p & A & B & C)]; auto. right. exists i, v, p.
    rewrite t_parent. auto.
  - intros i v p Hr. rewrite t_parent. eapply H3; eauto.
Qed.
Lemma t_no_hazard need need' keep : (forall f, need' f <-> need f) ->
  no_hazard g need keep -> no_hazard g' need' keep.
Proof.
  intros En H f fd o v Hn Hf Ho Hv Hne Ha. rewrite !t_arr in Ha. apply t_is_var in Hv.
  apply En in Hn. destruct (H f fd o v Hn Hf Ho Hv Hne Ha) as [S|[(q & Hq & Hqf)|(K & R)]].
  - left. now apply t_same_data.
  - right. left. exists q. rewrite t_parent, t_needs. auto.
  - right. right. split; auto. intros h j Hh Hr. apply t_needs. apply (R h j); auto. now apply En.
Qed.
Lemma t_masked need need' s : (forall f, need' f <-> need f) ->
  masked_ok g need s -> masked_ok g' need' s.
Proof.
  intros En H f fd i u Hn Hf Hi Ha. apply En in Hn. destruct (H f fd i u Hn Hf Hi Ha) as [A B]. split.
  - intros v. rewrite t_is_var, !t_arr. apply A.
  - unfold is_leaf. rewrite t_parent. apply B.
Qed.
Lemma t_in_order l : in_order g' l -> in_order g l.
Proof. intros H l1 f l2 i u q E Hr Hq. apply (H l1 f l2 i u q); auto. now rewrite t_parent. Qed.
End Transfer.

Lemma forward_all_ok {V} (g : graph V) cb cng leaf vals gf (s : st V) ys (keep : nat -> Prop) :
  wf g -> acyclic g -> solution g leaf vals -> grad_flags g gf ->
  (forall y, In y ys -> is_var g y) ->
  (forall v, keep v -> In v ys \/ keepable_all g cb (asked g ys) gf v) ->
  no_hazard g (asked g ys) keep -> masked_ok g (asked g ys) s ->
  loaded g (asked g ys) keep leaf s ->
  match fst (forward_all g cb cng ys s) with
  | Ok s' =>
      NoDup (log s') /\ (forall f, In f (log s') <-> asked g ys f) /\ in_order g (log s') /\
      (forall v, is_var g v -> keep v -> (forall q, parent g v = Some q -> asked g ys q) ->
         mem s' (arr g v) = Some (vals v)) /\
      (forall f, asked g ys f -> fng s' f = gf f) /\
      (forall rk, ranks g rk -> forall f, asked g ys f -> frank s' f = rk f)
  | Err e => e = EVerify /\ modifies g (asked g ys)
  end.
Proof.
  intros Hwf (lvl & Hlvl) Hsol Hgf Hvar Hkeep Hhaz Hmask Hload.
  unfold forward_all.
  assert (Hag := set_persistents_agree ys (g_vars g)).
  assert (Hfl := set_persistents_flag ys (g_vars g)).
  destruct (set_persistents (g_vars g) ys) as [vs bs]. cbn [fst snd] in *.
  set (g' := mkGraph (g_fns g) vs).
  assert (Pers : forall y, In y ys -> v_persistent (var_at g' y) = true).
  { intros y Hy. unfold var_at, g'. cbn. change (mkVar None 0 None false false false 0) with dvar.
    rewrite Hfl by (now apply Hvar). apply orb_true_iff. right.
    unfold mem_nat. apply existsb_exists. exists y. split; auto. apply Nat.eqb_refl. }
  assert (Pers' : forall v, v_persistent (var_at g v) = true -> v_persistent (var_at g' v) = true).
  { intros v Hv. unfold var_at, g' in *. cbn in *. change (mkVar None 0 None false false false 0) with dvar in *.
    destruct (le_lt_dec (length (g_vars g)) v) as [L|L].
    - rewrite nth_overflow in Hv by auto. discriminate.
    - rewrite Hfl by auto. now rewrite Hv. }
  assert (En := t_asked g vs Hag ys). fold g' in En.
  assert (Main : forall rk, ranks g rk ->
    match forward_loop g' cb cng ys (unclosed s) with
    | Ok s' => exists L', Inv g' vals (asked g' ys) keep gf rk L' s [] (fresh_callback s') /\
                 (forall f, In f L' <-> asked g' ys f)
    | Err e => e = EVerify /\ modifies g' (asked g' ys)
    end).
  { intros rk Hrk.
    apply (forward_loop_ok g' cb cng leaf vals gf rk s ys keep lvl) with (done := []) (L := []); auto.
    - now apply t_wf.
    - now apply t_numbering.
    - now apply t_solution.
    - now apply t_grad_flags.
    - now apply t_ranks.
    - intros v Hv. destruct (Hkeep v Hv) as [Hy|[|[Hl|(K1 & K2 & K3)]]].
      + left. auto.
      + left. auto.
      + right. left. unfold is_leaf in *. now rewrite (t_parent g vs Hag).
      + right. right. rewrite (t_rec g vs Hag). split; auto. split; auto. destruct K3 as [K3|[K3 (p & pd & P1 & P2 & P3)]].
        * left. destruct K3 as (f & fd & i & j & A & R). exists f, fd, i, j. rewrite En. auto.
        * right. split.
          -- destruct K3 as (f & fd & i & j & A & R). exists f, fd, i, j. rewrite En. auto.
          -- exists p, pd. rewrite (t_parent g vs Hag). auto.
    - eapply t_no_hazard; eauto.
    - eapply t_masked; eauto.
    - apply mkInv; cbn; auto; try (intros; contradiction).
      + constructor.
      + intros l1 f l2 i u q E. now destruct l1.
      + intros v Hv Hprod Hwant. unfold produced in Hprod.
        destruct (parent g' v) as [q|] eqn:Hq; [destruct Hprod|].
        unfold g' in Hq. rewrite (t_parent g vs Hag) in Hq. unfold g'. rewrite (t_arr g vs Hag).
        rewrite (proj1 Hsol) by auto. apply Hload; auto; [now apply (t_is_var g vs Hag)|].
        destruct Hwant as [|(h & j & H1 & H2 & _)]; auto. right. exists h, j. rewrite <- En. auto.
    - tauto.
    - intros f. split; [intros []|]. intros (y & p & [] & _). }
  assert (M0 := Main _ (rank_of_ok g lvl Hlvl)).
  destruct (forward_loop g' cb cng ys (unclosed s)) as [s'|e].
  2:{ destruct M0 as [E M]. split; auto. destruct M as (f & fd & i & H1 & H2). exists f, fd, i.
      rewrite <- En. auto. }
  destruct M0 as (L & HI & HL).
  assert (Elog := I_log _ _ _ _ _ _ _ _ _ _ HI). cbn in Elog. rewrite app_nil_r in Elog.
  assert (Hin : forall f, In f (log s') <-> asked g ys f) by (intros f; rewrite Elog, HL; apply En).
  split; [exact (I_nodup _ _ _ _ _ _ _ _ _ _ HI)|]. split; auto.
  split; [apply (t_in_order g vs Hag); exact (I_order _ _ _ _ _ _ _ _ _ _ HI)|].
  split; [|split].
  - intros v Hv Hk Hprod.
    assert (E := I_mem _ _ _ _ _ _ _ _ _ _ HI v). cbn in E. unfold g' in E. rewrite (t_arr g vs Hag) in E.
    apply E; auto; [now apply t_is_var|].
    unfold produced. rewrite (t_parent g vs Hag). destruct (parent g v) as [q|]; auto.
    apply Hin. now apply Hprod.
  - intros f Hf. apply (I_fng _ _ _ _ _ _ _ _ _ _ HI). now apply Hin.
  - intros rk Hrk f Hf. destruct (Main rk Hrk) as (L2 & HI2 & _).
    apply (I_frank _ _ _ _ _ _ _ _ _ _ HI2). now apply Hin.
Qed.
