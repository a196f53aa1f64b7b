(** What the statements about graph converters need besides. *)
From Coq Require Import String List Arith Bool Lia.
From Verif Require Import IdxModel GcvModel GcvSpec GcvProofs1 GcvProofs2 GcvProofs3 GcvProofs4 GcvProofs5 GcvProofs6.
Import ListNotations.
Local Open Scope list_scope.

Section Tools.
Context {V : Type} (sem : op -> list V -> option (list V)).
Implicit Types g : graph V.

Lemma ext_extends (blank : V) g0 outs g : ext (sunk blank g0 outs) (sunk blank g0 outs) g -> extends g0 g.
Proof.
  intros ((vs & Hv) & (fs & Hf & _) & (xs & Hx)). cbn [g_vars g_fns g_store sunk] in *. rewrite <- app_assoc in Hv, Hf, Hx. eexists _, _, _. eauto.
Qed.
Lemma scope_in g v s : in_scope g v s -> parameter_scope g v = s.
Proof.
  intros (x & Hx & (p & Hp & Hg & Hd) & Hall). unfold parameter_scope, data, var_of. rewrite Hx. destruct (find _ (g_params g)) as [q|] eqn:E.
  - apply find_some in E. destruct E as (Hq & Hb). apply andb_true_iff in Hb. destruct Hb as (Hb & Hc). apply Nat.eqb_eq in Hc. exact (Hall q Hq Hb Hc).
  - exfalso. pose proof (List.find_none _ _ E p Hp) as H. cbn beta in H. rewrite Hg, Hd, Nat.eqb_refl in H. discriminate.
Qed.
Lemma registered_none g scope name num : no_name g scope name -> registered g scope name num = None.
Proof.
  intros H. unfold registered. destruct (find _ (g_params g)) as [q|] eqn:E; [|reflexivity]. apply find_some in E. destruct E as (Hq & Hb).
  apply andb_true_iff in Hb. destruct Hb as (Hb & _). apply andb_true_iff in Hb. destruct Hb as (Hs & Hb). apply String.eqb_eq in Hb, Hs. destruct (H q Hq Hs Hb).
Qed.
Lemma holds_none g scope name num x : no_name g scope name -> holds g scope name num x.
Proof. intros H d Hd. rewrite (registered_none g scope name num H) in Hd. discriminate. Qed.

Lemma nodup_nth (l : list nat) i j v : NoDup l -> nth_error l i = Some v -> nth_error l j = Some v -> i = j.
Proof. intros H Hi Hj. rewrite NoDup_nth_error in H. apply H; [apply nth_error_Some; congruence|congruence]. Qed.

(** A variable has at most one value. *)
Theorem computes_fun g : (forall f y, nth_error (g_fns g) f = Some y -> NoDup (f_out y)) -> forall v x, computes sem g v x -> forall y, computes sem g v y -> x = y.
Proof.
  intros ND. fix IH 3. intros v x [v0 d x0 H1 H2|v0 d f y k xs zs x0 H1 H2 H3 H4 H5 H6] y' H'.
  - inversion H' as [? d' ? A1 A2|? d' f' ? ? ? ? ? A1]; subst; rewrite H1 in A1; [injection A1 as Ed; subst; congruence|discriminate].
  - inversion H' as [? d' ? A1 A2|? d' f' yf k' xs' zs' ? A1 A2 A3 A4 A5 A6]; subst; rewrite H1 in A1; [discriminate|injection A1 as Ed Ef; subst f' d'].
    rewrite H2 in A2. injection A2 as Ey. subst yf.
    assert (Hx : xs = xs').
    { clear -IH H4 A4. revert xs' A4. induction H4 as [|a b la lb Hab Hl IHl]; intros xs' A4; inversion A4; subst; [reflexivity|]. f_equal; [exact (IH _ _ Hab _ H1)|apply IHl; assumption]. }
    subst xs'. rewrite H5 in A5. injection A5 as Ez. subst zs'. rewrite (nodup_nth _ k k' v0 (ND _ _ H2) H3 A3) in H6. congruence.
Qed.

(** Computing a variable. *)
Fixpoint all {A} (l : list (option A)) : option (list A) :=
  match l with [] => Some [] | x :: l => obind x (fun x => obind (all l) (fun l => Some (x :: l))) end.
Fixpoint index (v : nat) (l : list nat) : option nat :=
  match l with [] => None | a :: l => if a =? v then Some 0 else obind (index v l) (fun k => Some (S k)) end.
Fixpoint eval (fuel : nat) (g : graph V) (v : nat) : option V :=
  match fuel with
  | 0 => None
  | S fuel =>
      obind (nth_error (g_vars g) v) (fun x =>
      match v_parent x with
      | None => nth_error (g_store g) (v_data x)
      | Some f =>
          obind (nth_error (g_fns g) f) (fun y => obind (all (map (eval fuel g) (f_in y))) (fun xs => obind (sem (f_op y) xs) (fun zs =>
          obind (index v (f_out y)) (nth_error zs))))
      end)
  end.
Lemma index_nth v l : forall k, index v l = Some k -> nth_error l k = Some v.
Proof.
  induction l as [|a l IH]; intros k H; [discriminate|]. cbn in H. destruct (Nat.eqb_spec a v) as [->|]; [injection H as <-; reflexivity|].
  destruct (index v l) as [j|]; [|discriminate]. injection H as <-. exact (IH j eq_refl).
Qed.
Theorem eval_computes fuel : forall g v x, eval fuel g v = Some x -> computes sem g v x.
Proof.
  induction fuel as [|fuel IH]; intros g v x H; [discriminate|]. cbn [eval] in H. destruct (nth_error (g_vars g) v) as [(d, [f|])|] eqn:Ev; [| |discriminate]; cbn [obind v_parent v_data] in H.
  - destruct (nth_error (g_fns g) f) as [y|] eqn:Ef; [|discriminate]. cbn [obind] in H. destruct (all (map (eval fuel g) (f_in y))) as [xs|] eqn:Ea; [|discriminate]. cbn [obind] in H.
    destruct (sem (f_op y) xs) as [zs|] eqn:Es; [|discriminate]. cbn [obind] in H. destruct (index v (f_out y)) as [k|] eqn:Ek; [|discriminate]. cbn [obind] in H.
    apply (computes_output sem g v d f y k xs zs x Ev Ef (index_nth _ _ _ Ek)); [|exact Es|exact H]. clear -IH Ea. revert xs Ea. induction (f_in y) as [|i l IHl]; intros xs Ea; cbn [map all] in Ea.
    + injection Ea as <-. constructor.
    + destruct (eval fuel g i) as [a|] eqn:Ei; [|discriminate]. cbn [obind] in Ea. destruct (all (map (eval fuel g) l)) as [r|]; [|discriminate]. injection Ea as <-. constructor; [exact (IH _ _ _ Ei)|apply IHl; reflexivity].
  - exact (computes_leaf sem g v d x Ev H).
Qed.
End Tools.
