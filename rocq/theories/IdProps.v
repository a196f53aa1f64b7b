(** C29: removing identity functions. *)
From Coq Require Import String List Bool Arith Lia.
From Verif Require Import Assoc IdModel IdSpec IdProofs1 IdProofs2 IdProofs3 IdProofs4.
Import ListNotations.
Local Open Scope string_scope.
Local Open Scope list_scope.

(** In a well-formed network every variable has exactly one value. *)
Lemma value_unique sel N rank A sem env : wf sel N rank ->
  (forall v c, value A sem env N v c -> forall d, value A sem env N v d -> c = d) /\
  (forall vs l, values A sem env N vs l -> forall m, values A sem env N vs m -> l = m).
Proof.
  intros W. apply (value_both A sem env N (fun v c _ => forall d, value A sem env N v d -> c = d) (fun vs l _ => forall m, values A sem env N vs m -> l = m)).
  - intros v H d V. inversion V as [? ?|f fi i ? args E Hn]; subst; auto. destruct (H f). exists fi. split; auto. eapply nth_error_In; eauto.
  - intros f fi i v args E Hn Ha IH d V. assert (P : produces N f v) by (exists fi; split; [auto|eapply nth_error_In; eauto]).
    inversion V as [? H|g gi j ? args' E' Hn' Ha']; subst; [destruct (H f P)|].
    assert (g = f) as ->. { apply (producer_unique sel N rank W g f v); auto. exists gi. split; [auto|eapply nth_error_In; eauto]. }
    rewrite E in E'. injection E' as <-. rewrite (IH args' Ha'). f_equal.
    pose proof (w_nodup _ _ _ W f fi E) as ND. rewrite (NoDup_nth_error (f_out fi)) in ND. apply ND; [|congruence]. apply nth_error_Some. congruence.
  - intros m V. inversion V. auto.
  - intros v vs c l _ H1 _ H2 m V. inversion V; subst. f_equal; auto.
Qed.
Lemma value_exists sel N rank A sem env : wf sel N rank -> forall v, exists c, value A sem env N v c.
Proof.
  intros W.
  assert (K : forall k v, (forall f, produces N f v -> rank f < k) -> exists c, value A sem env N v c).
  { induction k as [|k IH]; intros v H.
    - exists (env v). apply value_leaf. intros f P. specialize (H f P). lia.
    - destruct (producer_dec sel N rank W v) as [(f & P)|P]; [|exists (env v); apply value_leaf; auto].
      pose proof (H f P) as Hf. destruct P as (fi & E & Hv). apply In_nth_error in Hv as (i & Hi).
      assert (Args : exists l, values A sem env N (f_in fi) l).
      { assert (Hu : forall u, In u (f_in fi) -> exists c, value A sem env N u c).
        { intros u Hu. apply IH. intros g P. enough (rank g < rank f) by lia. apply (w_rank _ _ _ W f g u); auto. apply (uses_in N f fi u E). auto. }
        clear - Hu. induction (f_in fi) as [|u us IHu]; [exists []; constructor|].
        destruct (Hu u (or_introl eq_refl)) as (c & Vc). destruct IHu as (l & Vl). { intros w Hw. apply Hu. cbn. auto. }
        exists (c :: l). constructor; auto. }
      destruct Args as (l & Vl). exists (sem f i l). eapply value_fun; eauto. }
  intros v. destruct (producer_dec sel N rank W v) as [(f & P)|P].
  - apply (K (S (rank f))). intros g Q. rewrite (producer_unique sel N rank W g f v Q P). lia.
  - apply (K 0). intros g Q. destruct (P g Q).
Qed.

(** C29.  For every well-formed network ([wf]; in particular no two outputs come from the same
    variable through identities, and no output comes through identities from an input or a
    parameter), removing the selected identities
    - ends without an error, for any sufficient number of turns,
    - leaves the inputs and outputs of the network as they are and existing,
    - leaves no name without a variable,
    - records renamings that lead from every variable to an existing variable with the same
      value, for every meaning of the other functions and every value of the inputs,
    - keeps every other function, and no selected identity that an output depends on.
    The full statement (any acyclic network) is refuted below. *)
Theorem C29_remove_partial sel N rank : wf sel N rank ->
  exists fuel0 N' ren t,
    (forall fuel, fuel0 <= fuel -> remove_identities fuel sel N = Some (Ok (N', ren)))
    /\ n_in N' = n_in N /\ n_out N' = n_out N
    /\ (forall v, In v (n_in N') \/ In v (n_out N') -> aget v (n_vars N') <> None)
    /\ (forall f fi v, aget f (n_funs N') = Some fi -> In v (f_in fi ++ f_out fi) -> lookup N' v <> None)
    /\ (forall v, lookup N v <> None ->
          leads ren v (t v) /\ lookup N' (t v) <> None /\
          forall A (sem : string -> nat -> list A -> A) env, (forall f c, is_rem sel N f -> sem f 0 [c] = c) ->
            forall c, value A sem env N v c <-> value A sem env N' (t v) c)
    /\ (forall o, In o (n_out N) -> t o = o)
    /\ (forall f, aget f (n_funs N) <> None -> ~ is_rem sel N f -> aget f (n_funs N') <> None)
    /\ (forall f, needed N' f -> ~ is_rem sel N' f).
Proof.
  intros W. destruct (walk_all sel rank N W) as (fuel0 & s' & t & F & I & (k & X) & Nr).
  pose proof (i_wf _ _ _ I) as W'.
  exists fuel0, (w_net s'), (w_renamed s'), t. split; [exact F|].
  split; [apply (e_in _ _ _ _ _ _ X)|]. split; [apply (e_out _ _ _ _ _ _ X)|]. split.
  { intros v [H|H]; [apply (w_nin _ _ _ W' v H)|apply (w_nout _ _ _ W' v H)]. }
  split.
  { intros f fi v E H. apply in_app_iff in H as [H|H].
    - apply (w_in _ _ _ W' f). apply (uses_in _ f fi v E). auto.
    - destruct (w_out _ _ _ W' f v) as (p & Ep & _); [exists fi; auto|]. unfold lookup. rewrite Ep. discriminate. }
  split.
  { intros v L. split; [|split].
    - apply (e_lead _ _ _ _ _ _ X); [apply leads_end; reflexivity|exact L].
    - apply (e_look _ _ _ _ _ _ X). exact L.
    - intros A sem env Hs. pose proof (e_val _ _ _ _ _ _ X A sem env Hs) as Fw. cbn [w_net] in Fw.
      intros c. split; [apply Fw|]. intros V. destruct (value_exists sel N rank A sem env W v) as (d & Vd).
      rewrite (proj1 (value_unique sel (w_net s') rank A sem env W') (t v) c V d (Fw v d Vd)). auto. }
  split; [apply (e_out _ _ _ _ _ _ X)|]. split; [|exact Nr].
  intros f E H. apply (e_keep _ _ _ _ _ _ X f); auto.
Qed.
Print Assumptions C29_remove_partial.

(** Non-vacuity: x -> F -> h -> Id1 -> y, (y, h) -> G -> z -> Id2 -> o.  The first identity keeps
    its input, the second its output. *)
Definition chain : pnet :=
  {| n_vars := [("x", {| v_parent := None; v_req := ["F"] |}); ("h", {| v_parent := Some "F"; v_req := ["Id1"; "G"] |});
                ("y", {| v_parent := Some "Id1"; v_req := ["G"] |}); ("z", {| v_parent := Some "G"; v_req := ["Id2"] |});
                ("o", {| v_parent := Some "Id2"; v_req := [] |})];
     n_params := [("w", {| v_parent := None; v_req := ["G"] |})];
     n_funs := [("F", {| f_id := false; f_in := ["x"]; f_out := ["h"] |}); ("Id1", {| f_id := true; f_in := ["h"]; f_out := ["y"] |});
                ("G", {| f_id := false; f_in := ["y"; "w"; "h"]; f_out := ["z"] |}); ("Id2", {| f_id := true; f_in := ["z"]; f_out := ["o"] |})];
     n_in := ["x"]; n_out := ["o"] |}.
Definition chain_rank (f : string) : nat := if String.eqb f "F" then 0 else if String.eqb f "Id1" then 1 else if String.eqb f "G" then 2 else 3.

Local Ltac split_eqb x := match goal with
  | H : context [String.eqb x ?k] |- _ => destruct (String.eqb_spec x k) as [->|]
  | |- context [String.eqb x ?k] => destruct (String.eqb_spec x k) as [->|] end.
Lemma chain_produces f v : produces chain f v <-> In (f, v) [("F", "h"); ("Id1", "y"); ("G", "z"); ("Id2", "o")].
Proof.
  unfold produces. cbn [chain n_funs aget]. split.
  - intros (fi & E & H). repeat (split_eqb f; [injection E as <-; cbn in H; destruct H as [<-|[]]; cbn; auto 6|]). discriminate.
  - cbn [In]. intros H. repeat (destruct H as [H|H]; [injection H as <- <-; eexists; split; [reflexivity|cbn; auto]|]). contradiction.
Qed.
Lemma chain_rem f : is_rem (fun _ => true) chain f <-> In f ["Id1"; "Id2"].
Proof.
  unfold is_rem. cbn [chain n_funs aget]. split.
  - intros (fi & E & H & _). repeat (split_eqb f; [injection E as <-; cbn in H; try discriminate; cbn; auto|]). discriminate.
  - cbn [In]. intros H. repeat (destruct H as [H|H]; [subst f; eexists; split; [reflexivity|auto]|]). contradiction.
Qed.
Lemma chain_uses f v : uses chain f v > 0 <-> In (f, v) [("F", "x"); ("Id1", "h"); ("G", "y"); ("G", "w"); ("G", "h"); ("Id2", "z")].
Proof.
  unfold uses. cbn [chain n_funs aget]. split.
  - intros H. repeat (split_eqb f; [cbn [f_in] in H; apply count_in in H; cbn in H;
      repeat (destruct H as [<-|H]; [cbn; auto 8|]); contradiction|]). lia.
  - cbn [In]. intros H. repeat (destruct H as [H|H]; [injection H as <- <-; vm_compute; lia|]). contradiction.
Qed.
Lemma chain_exact v pv : lookup chain v = Some pv -> forall g, occurrences g (v_req pv) = uses chain g v.
Proof.
  unfold lookup, uses. cbn [chain n_vars n_params n_funs aget]. intros L g.
  repeat (split_eqb v; [injection L as <-; cbn [v_req];
    repeat (split_eqb g; [reflexivity|]); apply count_0; cbn; intuition congruence|]).
  discriminate.
Qed.
Lemma chain_wf : wf (fun _ => true) chain chain_rank.
Proof.
  constructor.
  - intros f v H. apply chain_uses in H. cbn in H. repeat (destruct H as [H|H]; [injection H as <- <-; vm_compute; discriminate|]). contradiction.
  - intros f v H. apply chain_produces in H. cbn in H. repeat (destruct H as [H|H]; [injection H as <- <-; eexists; split; reflexivity|]). contradiction.
  - intros v pv f L P. apply chain_produces. unfold lookup in L. cbn [chain n_vars n_params aget] in L.
    repeat (split_eqb v; [injection L as <-; cbn in P; try discriminate; injection P as <-; cbn; auto 6|]). discriminate.
  - intros v f H P. apply chain_produces in P. cbn in P. repeat (destruct P as [P|P]; [injection P as <- <-; apply H; reflexivity|]). contradiction.
  - intros f fi E. cbn [chain n_funs aget] in E. repeat (split_eqb f; [injection E as <-; cbn; repeat constructor; auto|]). discriminate.
  - intros v pv g L. rewrite (chain_exact v pv L g). auto.
  - intros v pv L _ g. apply (chain_exact v pv L g).
  - intros f g v U P. apply chain_uses in U. apply chain_produces in P. cbn in U, P.
    repeat (destruct U as [U|U]; [injection U as <- <-; repeat (destruct P as [P|P]; [try discriminate P; injection P as <-; vm_compute; lia|]); contradiction|]). contradiction.
  - intros f fi R E. apply chain_rem in R. cbn in R. destruct R as [<-|[<-|[]]]; injection E as <-; cbn; eauto.
  - intros v [<-|[]]. split; [vm_compute; discriminate|]. intros f P. apply chain_produces in P. cbn in P.
    repeat (destruct P as [P|P]; [discriminate P|]). contradiction.
  - intros v [<-|[]]. vm_compute. discriminate.
  - intros f y py R P L. apply chain_rem in R. apply chain_produces in P. cbn in R, P.
    repeat (destruct P as [P|P]; [injection P as <- <-; cbn in L; injection L as <-; cbn; try (destruct R as [R|[R|[]]]; discriminate); split; intros H; try discriminate; auto; destruct H as [H|[]]; discriminate|]). contradiction.
  - intros o1 o2 r [<-|[]] [<-|[]] _ _. reflexivity.
  - intros o r f [<-|[]] R P Ro. exists "G". apply chain_produces.
    assert (E : r = "z").
    { inversion Ro as [v H|g u v r' Hg Hu Hp H]; subst.
      - exfalso. apply (H "Id2"); [apply chain_produces|apply chain_rem]; cbn; auto 6.
      - apply chain_produces in Hp. cbn in Hp. apply chain_uses in Hu. cbn in Hu.
        assert (g = "Id2") as -> by (repeat (destruct Hp as [Hp|Hp]; [congruence|]); contradiction).
        assert (u = "z") as -> by (repeat (destruct Hu as [Hu|Hu]; [congruence|]); contradiction).
        inversion H as [v H'|g' u' v r' Hg' Hu' Hp' H']; subst; auto. exfalso.
        apply chain_produces in Hp'. apply chain_rem in Hg'. cbn in Hp', Hg'.
        assert (g' = "G") as -> by (repeat (destruct Hp' as [Hp'|Hp']; [congruence|]); contradiction).
        destruct Hg' as [Hg'|[Hg'|[]]]; discriminate. }
    subst r. cbn. auto.
Qed.
Example chain_removed : remove_identities 20 (fun _ => true) chain
  = Some (Ok ({| n_vars := [("x", {| v_parent := None; v_req := ["F"] |}); ("h", {| v_parent := Some "F"; v_req := ["G"; "G"] |});
                            ("o", {| v_parent := Some "G"; v_req := [] |})];
                 n_params := [("w", {| v_parent := None; v_req := ["G"] |})];
                 n_funs := [("F", {| f_id := false; f_in := ["x"]; f_out := ["h"] |}); ("G", {| f_id := false; f_in := ["h"; "w"; "h"]; f_out := ["o"] |})];
                 n_in := ["x"]; n_out := ["o"] |}, [("y", "h"); ("z", "o")])).
Proof. reflexivity. Qed.

(** Refutations of the full statement. *)

(** An identity between an input and an output: the input of the network is deleted. *)
Definition direct : pnet :=
  {| n_vars := [("x", {| v_parent := None; v_req := ["Id"] |}); ("o", {| v_parent := Some "Id"; v_req := [] |})];
     n_params := []; n_funs := [("Id", {| f_id := true; f_in := ["x"]; f_out := ["o"] |})]; n_in := ["x"]; n_out := ["o"] |}.
Theorem C29_input_refuted : exists N' ren, remove_identities 9 (fun _ => true) direct = Some (Ok (N', ren))
  /\ In "x" (n_in N') /\ lookup N' "x" = None.
Proof. eexists. eexists. split; [vm_compute; reflexivity|]. split; [cbn; auto|reflexivity]. Qed.

(** An identity between a parameter and an output: an exception. *)
Theorem C29_parameter_refuted :
  remove_identities 9 (fun _ => true)
    {| n_vars := [("o", {| v_parent := Some "Id"; v_req := [] |})]; n_params := [("w", {| v_parent := None; v_req := ["Id"] |})];
       n_funs := [("Id", {| f_id := true; f_in := ["w"]; f_out := ["o"] |})]; n_in := []; n_out := ["o"] |}
  = Some (Err KeyError).
Proof. reflexivity. Qed.

(** Two outputs that are identities of one variable: the removal ends, but one output of the
    network no longer exists. *)
Definition twice : pnet :=
  {| n_vars := [("x", {| v_parent := None; v_req := ["F"] |}); ("h", {| v_parent := Some "F"; v_req := ["Id1"; "Id2"] |});
                ("o1", {| v_parent := Some "Id1"; v_req := [] |}); ("o2", {| v_parent := Some "Id2"; v_req := [] |})];
     n_params := [];
     n_funs := [("F", {| f_id := false; f_in := ["x"]; f_out := ["h"] |}); ("Id1", {| f_id := true; f_in := ["h"]; f_out := ["o1"] |});
                ("Id2", {| f_id := true; f_in := ["h"]; f_out := ["o2"] |})]; n_in := ["x"]; n_out := ["o1"; "o2"] |}.
Theorem C29_two_outputs_refuted : exists N' ren, remove_identities 20 (fun _ => true) twice = Some (Ok (N', ren))
  /\ In "o2" (n_out N') /\ lookup N' "o2" = None.
Proof. eexists. eexists. split; [vm_compute; reflexivity|]. split; [cbn; auto|reflexivity]. Qed.

(** The readers of the kept output are not recorded: the list of required functions is empty
    although a function reads it. *)
Definition shared : pnet :=
  {| n_vars := [("x", {| v_parent := None; v_req := ["F"] |}); ("h", {| v_parent := Some "F"; v_req := ["Id"; "G"] |});
                ("o", {| v_parent := Some "Id"; v_req := [] |}); ("z", {| v_parent := Some "G"; v_req := [] |})];
     n_params := [];
     n_funs := [("F", {| f_id := false; f_in := ["x"]; f_out := ["h"] |}); ("Id", {| f_id := true; f_in := ["h"]; f_out := ["o"] |});
                ("G", {| f_id := false; f_in := ["h"]; f_out := ["z"] |})]; n_in := ["x"]; n_out := ["o"; "z"] |}.
Theorem C29_readers_refuted : exists N' ren pv, remove_identities 20 (fun _ => true) shared = Some (Ok (N', ren))
  /\ aget "o" (n_vars N') = Some pv /\ v_req pv = [] /\ uses N' "G" "o" = 1.
Proof. eexists. eexists. eexists. split; [vm_compute; reflexivity|]. split; [vm_compute; reflexivity|]. split; reflexivity. Qed.
