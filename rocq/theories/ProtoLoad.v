(** C27 for networks read from a message. *)
From Coq Require Import List Arith Bool Lia Permutation.
From Verif Require Import ProtoModel ProtoProps.
Import ListNotations.
Local Open Scope list_scope.

(** Messages: distinct function names, every variable written by at most one function, every
    function writes something, written variables are buffers, and [rank] decreases from each
    function to the functions that write its inputs. *)
Record good (vars : list nat) (fs : list pfunc) (rank : nat -> nat) : Prop := {
  g_names : NoDup (map p_name fs);
  g_writers : forall f g v, In f fs -> In g fs -> In v (p_out f) -> In v (p_out g) -> f = g;
  g_outs : forall f, In f fs -> p_out f <> [];
  g_vars : forall f v, In f fs -> In v (p_out f) -> In v vars;
  g_rank : forall f g v, In f fs -> In g fs -> In v (p_in f) -> In v (p_out g) -> rank (p_name g) < rank (p_name f) }.

Lemma find_unique (P : pfunc -> bool) fs f : In f fs -> P f = true -> (forall g, In g fs -> P g = true -> g = f) ->
  last_with P fs = Some f.
Proof.
  intros H1 H2 U. unfold last_with. destruct (find P (rev fs)) as [g|] eqn:E.
  - apply find_some in E as (Hg & Pg). apply in_rev in Hg. f_equal. auto.
  - apply (find_none P (rev fs)) with (x := f) in E; [congruence|]. apply -> in_rev. auto.
Qed.
Lemma last_with_some P fs f : last_with P fs = Some f -> In f fs /\ P f = true.
Proof. intros H. apply find_some in H as (H1 & H2). apply in_rev in H1. auto. Qed.

Section Load.
Variables (vars : list nat) (fs : list pfunc) (rank : nat -> nat).
Hypothesis G : good vars fs rank.
Let N := from_proto vars fs.

Lemma name_inj f g : In f fs -> In g fs -> p_name f = p_name g -> f = g.
Proof using G.
  pose proof (g_names _ _ _ G) as D. clear - D. induction fs as [|h l IH]; [intros []|].
  cbn in D. apply NoDup_cons_iff in D as (D1 & D2). intros [->|Hf] [->|Hg] E; auto.
  - destruct D1. rewrite E. apply in_map. auto.
  - destruct D1. rewrite <- E. apply in_map. auto.
Qed.
Lemma find_fn f : In f fs -> last_with (fun g => Nat.eqb (p_name g) (p_name f)) fs = Some f.
Proof using G.
  intros H. apply find_unique; auto. { apply Nat.eqb_refl. }
  intros g Hg E. apply Nat.eqb_eq in E. apply name_inj; auto.
Qed.
Lemma ins_of f : In f fs -> fn_inputs N (p_name f) = p_in f.
Proof using G. intros H. cbn [N from_proto fn_inputs]. rewrite (find_fn f H). reflexivity. Qed.
Lemma outs_of f : In f fs -> fn_outputs N (p_name f) = p_out f.
Proof using G. intros H. cbn [N from_proto fn_outputs]. rewrite (find_fn f H). reflexivity. Qed.
Lemma fn_of n v : In v (fn_inputs N n) \/ In v (fn_outputs N n) -> exists f, In f fs /\ p_name f = n.
Proof using.
  cbn [N from_proto fn_inputs fn_outputs]. destruct (last_with _ fs) as [f|] eqn:E; [|intros [[]|[]]].
  intros _. apply last_with_some in E as (H & E). apply Nat.eqb_eq in E. eauto.
Qed.
Lemma parent_of v f : In f fs -> In v (p_out f) -> parent N v = Some (p_name f).
Proof using G.
  intros H Hv. cbn [N from_proto parent]. rewrite (find_unique _ fs f); auto. { apply mem_true. auto. }
  intros g Hg M. apply mem_true in M. eapply (g_writers _ _ _ G); eauto.
Qed.
Lemma parent_some v n : parent N v = Some n -> exists f, In f fs /\ p_name f = n /\ In v (p_out f).
Proof using.
  cbn [N from_proto parent]. destruct (last_with _ fs) as [f|] eqn:E; [|discriminate]. cbn. intros [= <-].
  apply last_with_some in E as (H & E). apply mem_true in E. eauto.
Qed.

Lemma loaded_wf : wf N rank.
Proof using G.
  constructor.
  - intros v n. split.
    + intros H. apply parent_some in H as (f & Hf & <- & Hv). rewrite outs_of; auto.
    + intros H. destruct (fn_of n v) as (f & Hf & <-); auto. rewrite outs_of in H; auto. apply parent_of; auto.
  - intros v H. cbn [N from_proto net_inputs] in H. apply filter_In in H as (_ & H). cbn [parent].
    destruct (option_map _ _) eqn:E; [discriminate|]. exact E.
  - intros n v m Hv Pm. apply parent_some in Pm as (g & Hg & <- & Gv). destruct (fn_of n v) as (f & Hf & <-); auto.
    rewrite ins_of in Hv; auto. eapply (g_rank _ _ _ G); eauto.
Qed.

Lemma all_needed f : In f fs -> needed N (p_name f).
Proof using G.
  (** from the highest rank down *)
  assert (B : exists b, forall g, In g fs -> rank (p_name g) <= b).
  { clear. induction fs as [|g l (b & IH)]; [exists 0; intros g []|].
    exists (rank (p_name g) + b). intros h [<-|H]; [lia|]. specialize (IH h H). lia. }
  destruct B as (b & B).
  enough (H : forall k f, b - rank (p_name f) < k -> In f fs -> needed N (p_name f)) by (intros Hf; apply (H (S (b - rank (p_name f)))); auto).
  clear f. induction k as [|k IH]; intros f Hk Hf; [lia|].
  destruct (p_out f) as [|v vs] eqn:E; [destruct (g_outs _ _ _ G f Hf E)|].
  assert (Hv : In v (p_out f)) by (rewrite E; cbn; auto).
  destruct (existsb (fun g => mem v (p_in g)) fs) eqn:R.
  - apply existsb_exists in R as (g & Hg & M). apply mem_true in M.
    pose proof (g_rank _ _ _ G g f v Hg Hf M Hv) as L. pose proof (B g Hg).
    apply needed_in with (f := p_name g) (v := v).
    + apply IH; auto. lia.
    + rewrite ins_of; auto.
    + apply parent_of; auto.
  - apply needed_out with (v := v); [|apply parent_of; auto].
    pose proof (parent_of v f Hf Hv) as P. cbn [N from_proto parent] in P.
    cbn [N from_proto net_outputs]. apply filter_In. split; [eapply (g_vars _ _ _ G); eauto|]. rewrite R, P. reflexivity.
Qed.
Lemma needed_name n : needed N n -> In n (map p_name fs).
Proof using.
  intros H. destruct H as [v n Hv P|m v n Nm Hv P]; apply parent_some in P as (f & Hf & <- & _); apply in_map; auto.
Qed.
End Load.

Lemma cost_names N fs : (forall f, In f fs -> fn_inputs N (p_name f) = p_in f) ->
  fold_right (fun n k => S (length (fn_inputs N n)) + k) 0 (map p_name fs) = fold_right (fun f n => S (length (p_in f)) + n) 0 fs.
Proof.
  induction fs as [|f fs IH]; intros H; [reflexivity|]. cbn [map fold_right]. rewrite IH; [|intros g Hg; apply H; right; auto].
  rewrite (H f (or_introl eq_refl)). reflexivity.
Qed.

(** C27 for loaded networks: every function of the message is called back exactly once, after
    the functions that write its inputs. *)
Theorem C27_loaded vars fs rank fuel :
  good vars fs rank ->
  length vars + fold_right (fun f n => S (length (p_in f)) + n) 0 fs < fuel ->
  exists order, execute_on_proto fuel (from_proto vars fs) (fun _ => false) = Some (Some order)
  /\ Permutation order (map p_name fs)
  /\ (forall a n b, order = a ++ n :: b -> forall f g v, In f fs -> p_name f = n -> In g fs ->
        In v (p_in f) -> In v (p_out g) -> In (p_name g) a).
Proof.
  intros G Hf. set (N := from_proto vars fs).
  assert (C : fold_right (fun n k => S (length (fn_inputs N n)) + k) 0 (map p_name fs) = fold_right (fun f n => S (length (p_in f)) + n) 0 fs).
  { apply cost_names. intros f H. apply (ins_of vars fs rank G f H). }
  assert (L : length (net_outputs N) <= length vars).
  { unfold N. cbn [from_proto net_outputs]. generalize (fun v => negb (existsb (fun f => mem v (p_in f)) fs) &&
      match option_map p_name (last_with (fun f => mem v (p_out f)) fs) with Some _ => true | None => false end). clear.
    intros P. induction vars as [|v l IH]; cbn; auto. destruct (P v); cbn; lia. }
  destruct (C27_walk_all N rank (map p_name fs) fuel (loaded_wf vars fs rank G)) as (o & E & D & I & O).
  { apply needed_name. } { rewrite C. lia. }
  exists o. split; [exact E|]. split.
  - apply NoDup_Permutation; auto. { apply (g_names _ _ _ G). }
    intros n. rewrite I. split; [apply needed_name|]. intros H. apply in_map_iff in H as (f & <- & Hin). apply (all_needed vars fs rank G). auto.
  - intros a n b Eo f g v Hin <- Hg Hv Gv. apply (O a (p_name f) b Eo v).
    + unfold N. rewrite (ins_of vars fs rank G f Hin). auto.
    + apply (parent_of vars fs rank G); auto.
Qed.
Print Assumptions C27_loaded.

(** Non-vacuity: three functions listed out of order; 0 is the only input and 3 the output. *)
Definition message : list pfunc :=
  [ {| p_name := 3; p_in := [1; 2]; p_out := [3] |};
    {| p_name := 2; p_in := [1; 9]; p_out := [2] |};
    {| p_name := 1; p_in := [0]; p_out := [1] |} ].
Lemma message_good : good [0; 1; 2; 3] message (fun n => n).
Proof.
  constructor.
  - repeat constructor; cbn; intuition discriminate.
  - intros f g v Hf Hg Fv Gv. cbn in Hf, Hg.
    destruct Hf as [<-|[<-|[<-|[]]]], Hg as [<-|[<-|[<-|[]]]]; cbn in Fv, Gv; intuition (try reflexivity; try congruence).
  - intros f Hf. cbn in Hf. destruct Hf as [<-|[<-|[<-|[]]]]; discriminate.
  - intros f v Hf Hv. cbn in Hf. destruct Hf as [<-|[<-|[<-|[]]]]; cbn in Hv; destruct Hv as [<-|[]]; cbn; auto.
  - intros f g v Hf Hg Fv Gv. cbn in Hf, Hg.
    destruct Hf as [<-|[<-|[<-|[]]]], Hg as [<-|[<-|[<-|[]]]]; cbn in *; intuition (try lia; try congruence).
Qed.
Example message_ports : net_inputs (from_proto [0; 1; 2; 3] message) = [0] /\ net_outputs (from_proto [0; 1; 2; 3] message) = [3].
Proof. split; reflexivity. Qed.
Example message_walk : execute_on_proto 20 (from_proto [0; 1; 2; 3] message) (fun _ => false) = Some (Some [1; 2; 3]).
Proof. reflexivity. Qed.

(** A function without outputs is never called. *)
Theorem C27_sink_refuted :
  execute_on_proto 20 (from_proto [0; 1] [{| p_name := 1; p_in := [0]; p_out := [1] |}; {| p_name := 2; p_in := [0]; p_out := [] |}]) (fun _ => false)
  = Some (Some [1]).
Proof. reflexivity. Qed.
(** A variable written twice (an in-place function that keeps the name): the first writer is
    never called. *)
Theorem C27_rewritten_refuted :
  execute_on_proto 20 (from_proto [0; 1; 2] [{| p_name := 1; p_in := [0]; p_out := [1] |}; {| p_name := 2; p_in := [0]; p_out := [1] |};
                                         {| p_name := 3; p_in := [1]; p_out := [2] |}]) (fun _ => false)
  = Some (Some [2; 3]).
Proof. reflexivity. Qed.
