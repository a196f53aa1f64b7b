(** C27: walking a proto network. *)
From Coq Require Import List Arith Bool Lia.
From Verif Require Import ProtoModel.
Import ListNotations.
Local Open Scope list_scope.

(** A well-formed acyclic network: [parent] is exactly the function that has the variable as
    output, inputs of the network have no parent, and [rank] decreases from each function to
    the producers of its inputs. *)
Record wf (N : net) (rank : nat -> nat) : Prop := {
  w_parent : forall v f, parent N v = Some f <-> In v (fn_outputs N f);
  w_inputs : forall v, In v (net_inputs N) -> parent N v = None;
  w_rank : forall f v g, In v (fn_inputs N f) -> parent N v = Some g -> rank g < rank f }.

(** [needed f]: some output of the network depends on function f. *)
Inductive needed (N : net) : nat -> Prop :=
| needed_out v f : In v (net_outputs N) -> parent N v = Some f -> needed N f
| needed_in f v g : needed N f -> In v (fn_inputs N f) -> parent N v = Some g -> needed N g.
(** [stopped v]: v is marked, or computed from a stopped variable. *)
Inductive stopped (N : net) (stop0 : nat -> bool) : nat -> Prop :=
| stopped_mark v : stop0 v = true -> stopped N stop0 v
| stopped_in f u v : In u (fn_inputs N f) -> stopped N stop0 u -> In v (fn_outputs N f) -> stopped N stop0 v.
(** Functions that read no stopped variable. *)
Definition runs (N : net) (stop0 : nat -> bool) (f : nat) : Prop :=
  forall v, In v (fn_inputs N f) -> ~ stopped N stop0 v.

Lemma mem_true x l : mem x l = true <-> In x l.
Proof.
  unfold mem. rewrite existsb_exists. split.
  - intros (y & H & E). apply Nat.eqb_eq in E. subst. auto.
  - intros H. exists x. split; auto. apply Nat.eqb_refl.
Qed.
Lemma mem_false x l : mem x l = false <-> ~ In x l.
Proof. rewrite <- mem_true. destruct (mem x l); split; congruence. Qed.

Section Walk.
Variables (N : net) (rank : nat -> nat) (stop0 : nat -> bool).
Hypothesis W : wf N rank.

(** [evalf s f]: the outputs of f are evaluated. *)
Definition evalf (s : state) (f : nat) : Prop := forall v, In v (fn_outputs N f) -> In v (evaluated s).

Record inv (s : state) : Prop := {
  i_inputs : incl (net_inputs N) (evaluated s);
  (** a variable with a producer is evaluated together with all the outputs of the producer,
      after the producers of its inputs *)
  i_closed : forall v f, In v (evaluated s) -> parent N v = Some f ->
     evalf s f /\ (forall u g, In u (fn_inputs N f) -> parent N u = Some g -> In u (evaluated s)) /\ needed N f;
  i_sound : forall v, stops s v = true -> stopped N stop0 v;
  i_marks : forall v, stop0 v = true -> stops s v = true;
  i_exact : forall v, In v (evaluated s) \/ parent N v = None -> stopped N stop0 v -> stops s v = true;
  i_nodup : NoDup (calls s);
  i_calls : forall f, In f (calls s) <-> (exists v, In v (fn_outputs N f) /\ In v (evaluated s)) /\ runs N stop0 f;
  (** every called function comes after the producers of its inputs *)
  i_order : forall a f b, calls s = a ++ f :: b -> forall v g, In v (fn_inputs N f) -> parent N v = Some g -> In g a }.

Lemma stopped_parentless v : parent N v = None -> stopped N stop0 v -> stop0 v = true.
Proof.
  intros H S. destruct S as [v S|f u v Hu S Hv]; auto. apply (w_parent N rank W) in Hv. congruence.
Qed.

Lemma evaluated_dec s f : inv s -> (exists v, In v (fn_outputs N f)) -> evalf s f \/ (forall v, In v (fn_outputs N f) -> ~ In v (evaluated s)).
Proof.
  intros I (v & Hv). destruct (in_dec Nat.eq_dec v (evaluated s)) as [E|E].
  - left. eapply (i_closed s I); eauto. apply (w_parent N rank W); auto.
  - right. intros u Hu Eu. apply E. apply (w_parent N rank W) in Hu. apply (i_closed s I u f) in Eu as (Eu & _); auto.
Qed.

(** The cost of a list of functions: one turn each and one per input. *)
Definition cost (l : list nat) : nat := fold_right (fun f n => S (length (fn_inputs N f)) + n) 0 l.
Lemma cost_app a b : cost (a ++ b) = cost a + cost b.
Proof. unfold cost. induction a as [|x a IH]; cbn [fold_right app]; auto. rewrite IH. lia. Qed.

Definition steps (n : nat) (s s' : state) : Prop := forall fuel, loop (n + fuel) N s = loop fuel N s'.
Lemma steps_0 s : steps 0 s s. Proof. intros fuel. reflexivity. Qed.
Lemma steps_trans n m a b c : steps n a b -> steps m b c -> steps (n + m) a c.
Proof. intros H1 H2 fuel. rewrite <- Nat.add_assoc, H1, H2. reflexivity. Qed.
Lemma steps_1 s s' : step N s = Next s' -> steps 1 s s'.
Proof. intros H fuel. cbn. rewrite H. reflexivity. Qed.

(** The producers still to be walked before f. *)
Definition unresolved (s : state) (f : nat) : list nat :=
  filter (fun v => match parent N v with Some _ => negb (mem v (evaluated s)) | None => false end) (fn_inputs N f).
Definition producers (l : list nat) : list nat := flat_map (fun v => match parent N v with Some g => [g] | None => [] end) l.

Definition new_stops (s : state) (f : nat) : nat -> bool :=
  fun v => if mem v (fn_outputs N f) then stops s v || existsb (stops s) (fn_inputs N f) else stops s v.

Lemma inv_stops s f stack' : inv s -> 
  inv {| stack := stack'; evaluated := evaluated s; stops := new_stops s f; calls := calls s |}.
Proof.
  intros I. destruct I as [I1 I2 I3 I4 I5 I6 I7 I8]. constructor; cbn; auto.
  - intros v H. unfold new_stops in H. destruct (mem v (fn_outputs N f)) eqn:M; auto.
    apply orb_true_iff in H as [H|H]; auto. apply existsb_exists in H as (u & Hu & Su). apply mem_true in M.
    eapply stopped_in; eauto.
  - intros v H. unfold new_stops. rewrite (I4 v H). destruct (mem v _); auto.
  - intros v H S. unfold new_stops. rewrite (I5 v H S). destruct (mem v _); auto.
Qed.

(** What walking some functions gives: a state reached in [n] turns, and the list of functions
    that became evaluated. *)
Record walked (k : nat) (s s' : state) (n len : nat) (new : list nat) : Prop := {
  k_steps : steps n s s';
  k_inv : inv s';
  k_mono : incl (evaluated s) (evaluated s');
  k_nodup : NoDup new;
  k_new : forall g, In g new -> needed N g /\ (exists v, In v (fn_outputs N g))
          /\ (forall v, In v (fn_outputs N g) -> ~ In v (evaluated s)) /\ evalf s' g /\ rank g < k;
  k_all : forall v g, In v (evaluated s') -> parent N v = Some g -> In v (evaluated s) \/ In g new;
  k_cost : n <= len + cost new }.

Lemma evalf_mono s s' f : incl (evaluated s) (evaluated s') -> evalf s f -> evalf s' f.
Proof. intros H E v Hv. apply H, E, Hv. Qed.

Lemma nodup_app_intro (a b : list nat) : NoDup a -> NoDup b -> (forall x, In x a -> ~ In x b) -> NoDup (a ++ b).
Proof.
  induction 1 as [|x a Hx Ha IH]; intros Hb D; cbn; auto. constructor.
  - rewrite in_app_iff. intros [H|H]; auto. apply (D x); cbn; auto.
  - apply IH; auto. intros y Hy. apply D. cbn; auto.
Qed.

Lemma walked_app k s1 s2 s3 n1 n2 l1 l2 new1 new2 :
  walked k s1 s2 n1 l1 new1 -> walked k s2 s3 n2 l2 new2 -> walked k s1 s3 (n1 + n2) (l1 + l2) (new1 ++ new2).
Proof.
  intros [A1 A2 A3 A4 A5 A7 A6] [B1 B2 B3 B4 B5 B7 B6]. constructor.
  - eapply steps_trans; eauto.
  - auto.
  - eapply incl_tran; eauto.
  - apply nodup_app_intro; auto. intros g H1 H2. destruct (A5 g H1) as (_ & (v & Hv) & _ & E & _).
    destruct (B5 g H2) as (_ & _ & F & _). apply (F v Hv), (E v Hv).
  - intros g Hg. apply in_app_iff in Hg as [Hg|Hg].
    + destruct (A5 g Hg) as (X1 & X2 & X3 & X4 & X5). split; [auto|]. split; [auto|]. split; [auto|]. split; auto. eapply evalf_mono; eauto.
    + destruct (B5 g Hg) as (X1 & X2 & X3 & X4 & X5). split; [auto|]. split; [auto|]. split; auto. intros v Hv E. apply (X3 v Hv), A3, E.
  - intros v g Hv Pv. destruct (B7 v g Hv Pv) as [H|H].
    + destruct (A7 v g H Pv); auto. right. apply in_app_iff. auto.
    + right. apply in_app_iff. auto.
  - rewrite cost_app. lia.
Qed.

Lemma unresolved_in s f v : In v (unresolved s f) <-> In v (fn_inputs N f) /\ (exists g, parent N v = Some g) /\ ~ In v (evaluated s).
Proof.
  unfold unresolved. rewrite filter_In. destruct (parent N v) as [g|].
  - rewrite negb_true_iff, mem_false. split; intros (H1 & H2); [split; [auto|split; [exists g; auto|auto]]|destruct H2; auto].
  - split; [intros (_ & H); discriminate|intros (_ & (g & H) & _); discriminate].
Qed.
Lemma producers_in l g : In g (producers l) <-> exists v, In v l /\ parent N v = Some g.
Proof.
  unfold producers. rewrite in_flat_map. split; intros (v & Hv & H); exists v; split; auto.
  - destruct (parent N v) as [g'|]; cbn in H; [destruct H as [->|[]]; auto|contradiction].
  - rewrite H. cbn. auto.
Qed.
Lemma producers_length l : length (producers l) <= length l.
Proof. induction l as [|v l IH]; cbn; auto. destruct (parent N v); cbn; unfold producers in IH; lia. Qed.

(** When nothing is unresolved, one turn evaluates the function. *)
Lemma walk_ready f rest s : inv s -> needed N f -> (exists v, In v (fn_outputs N f)) -> stack s = f :: rest -> unresolved s f = [] ->
  exists s' new, walked (S (rank f)) s s' 1 1 new /\ stack s' = rest /\ evalf s' f
    /\ (new = [] \/ (new = [f] /\ ~ evalf s f)).
Proof.
  intros I Nf Of Es U. destruct (evaluated_dec s f I Of) as [E|E].
  - exists {| stack := rest; evaluated := evaluated s; stops := new_stops s f; calls := calls s |}, [].
    split; [|split; [auto|split; auto]]. constructor.
    + apply steps_1. unfold step. rewrite Es. fold (unresolved s f). rewrite U.
      assert (F : forallb (fun v => mem v (evaluated s)) (fn_outputs N f) = true) by (apply forallb_forall; intros v Hv; apply mem_true, E, Hv).
      rewrite F. reflexivity.
    + apply inv_stops. auto.
    + apply incl_refl.
    + constructor.
    + intros g [].
    + auto.
    + cbn. lia.
  - pose (stop := existsb (stops s) (fn_inputs N f)).
    exists {| stack := rest; evaluated := fn_outputs N f ++ evaluated s; stops := new_stops s f;
              calls := if stop then calls s else calls s ++ [f] |}, [f].
    assert (Rin : forall u g, In u (fn_inputs N f) -> parent N u = Some g -> In u (evaluated s)).
    { intros u g Hu Pu. destruct (in_dec Nat.eq_dec u (evaluated s)) as [?|n]; auto. exfalso.
      assert (H : In u (unresolved s f)) by (apply unresolved_in; split; [auto|split; eauto]). rewrite U in H. contradiction. }
    assert (St : stop = true <-> exists v, In v (fn_inputs N f) /\ stopped N stop0 v).
    { unfold stop. rewrite existsb_exists. split; intros (v & Hv & H); exists v; split; auto.
      - apply (i_sound s I); auto.
      - apply (i_exact s I); auto. destruct (parent N v) as [g|] eqn:P; auto. left. eauto. }
    assert (Sr : stop = false <-> runs N stop0 f).
    { split.
      - intros H v Hv S. assert (X : stop = true) by (apply St; eauto). congruence.
      - intros H. destruct stop eqn:X; auto. destruct (proj1 St eq_refl) as (v & Hv & S). destruct (H v Hv S). }
    assert (Nc : ~ In f (calls s)).
    { intros H. apply (i_calls s I) in H as ((v & Hv & Ev) & _). apply (E v Hv Ev). }
    destruct Of as (v0 & Hv0).
    split; [|split; [auto|split]].
    + constructor.
      * apply steps_1. unfold step. rewrite Es. fold (unresolved s f). rewrite U.
        assert (F : forallb (fun v => mem v (evaluated s)) (fn_outputs N f) = false).
        { apply not_true_is_false. intros F. rewrite forallb_forall in F. apply (E v0 Hv0). apply mem_true, F, Hv0. }
        assert (G : forallb (fun v => negb (mem v (evaluated s))) (fn_outputs N f) = true).
        { apply forallb_forall. intros v Hv. apply negb_true_iff, mem_false, E, Hv. }
        rewrite F, G. reflexivity.
      * destruct I as [I1 I2 I3 I4 I5 I6 I7 I8]. constructor; cbn [evaluated stops calls].
        -- intros v Hv. apply in_app_iff. right. auto.
        -- intros v g Hv Pv. apply in_app_iff in Hv as [Hv|Hv].
           ++ apply (w_parent N rank W) in Hv. assert (g = f) by congruence. subst g. split; [|split; auto].
              ** intros u Hu. apply in_app_iff. auto.
              ** intros u g Hu Pu. apply in_app_iff. right. eapply Rin; eauto.
           ++ destruct (I2 v g Hv Pv) as (X & Y & Z). split; [|split; auto].
              ** intros u Hu. apply in_app_iff. right. apply X, Hu.
              ** intros u h Hu Pu. apply in_app_iff. right. eapply Y; eauto.
        -- intros v H. unfold new_stops in H. destruct (mem v (fn_outputs N f)) eqn:M; auto.
           apply orb_true_iff in H as [H|H]; auto. apply existsb_exists in H as (u & Hu & Su). apply mem_true in M.
           eapply stopped_in; eauto.
        -- intros v H. unfold new_stops. rewrite (I4 v H). destruct (mem v _); auto.
        -- intros v H S. unfold new_stops. destruct (mem v (fn_outputs N f)) eqn:M.
           ++ fold stop. apply mem_true in M. destruct S as [v S|h u v Hu S Hv].
              ** rewrite (I4 v S). reflexivity.
              ** apply (w_parent N rank W) in Hv. apply (w_parent N rank W) in M. assert (h = f) by congruence. subst h.
                 assert (X : stop = true) by (apply St; eauto). rewrite X. apply orb_true_r.
           ++ apply mem_false in M. apply I5; auto. destruct H as [H|H]; auto. apply in_app_iff in H as [H|H]; [contradiction|auto].
        -- destruct stop; auto. apply nodup_app_intro; auto. { repeat constructor; auto. } intros x Hx [->|[]]. auto.
        -- intros g. assert (X : In g (if stop then calls s else calls s ++ [f]) <-> In g (calls s) \/ (stop = false /\ g = f)).
           { destruct stop. { split; auto. intros [H|(H & _)]; [auto|discriminate]. }
             rewrite in_app_iff. cbn. split; [intros [H|[H|[]]]; auto|intros [H|(_ & H)]; auto]. }
           rewrite X, I7. split.
           ++ intros [((v & Hv & Ev) & R)|(Z & ->)].
              ** split; auto. exists v. split; auto. apply in_app_iff. auto.
              ** split; [|apply Sr; auto]. exists v0. split; auto. apply in_app_iff. auto.
           ++ intros ((v & Hv & Ev) & R). apply in_app_iff in Ev as [Ev|Ev].
              ** right. apply (w_parent N rank W) in Hv. apply (w_parent N rank W) in Ev. assert (g = f) by congruence. subst g.
                 split; auto. apply Sr. auto.
              ** left. split; eauto.
        -- intros a g b Hc v h Hv Pv.
           assert (X : (stop = false /\ a = calls s /\ g = f) \/ exists b', calls s = a ++ g :: b').
           { destruct stop. { right. eauto. }
             destruct (exists_last (l := g :: b)) as (b' & y & Eb); [discriminate|].
             rewrite Eb, app_assoc in Hc. apply app_inj_tail in Hc as (Hc & ->).
             destruct b' as [|z b'].
             - cbn in Eb. injection Eb as Eb1 Eb2. left. rewrite Hc, app_nil_r. auto.
             - cbn in Eb. injection Eb as Eb1 Eb2. subst z. right. exists b'. auto. }
           destruct X as [(X & -> & ->)|(b' & X)]; [|eapply I8; eauto].
           pose proof (Rin v h Hv Pv) as Ev. apply I7. split.
           ++ exists v. split; auto. apply (w_parent N rank W). auto.
           ++ intros u Hu Su. apply (proj1 Sr X v Hv). eapply stopped_in; eauto. apply (w_parent N rank W). auto.
      * intros v Hv. apply in_app_iff. auto.
      * repeat constructor. auto.
      * intros g [<-|[]]. split; [auto|]. split; [eauto|]. split; [auto|]. split; [|lia]. intros v Hv. apply in_app_iff. auto.
      * intros v g Hv Pv. apply in_app_iff in Hv as [Hv|Hv]; auto. right. apply (w_parent N rank W) in Hv. left. congruence.
      * cbn. lia.
    + intros v Hv. apply in_app_iff. auto.
    + right. split; auto. intros F. apply (E v0 Hv0), (F v0 Hv0).
Qed.

Lemma walked_weaken k k' s s' n l new : k <= k' -> walked k s s' n l new -> walked k' s s' n l new.
Proof.
  intros Hk [A1 A2 A3 A4 A5 A7 A6]. constructor; auto. intros g Hg. destruct (A5 g Hg) as (X1 & X2 & X3 & X4 & X5).
  split; [auto|]. split; [auto|]. split; [auto|]. split; [auto|]. lia.
Qed.

(** Walking the functions [gs] from the top of the stack, given how to walk one. *)
Lemma walk_list k :
  (forall f rest s, rank f < k -> inv s -> needed N f -> (exists v, In v (fn_outputs N f)) -> stack s = f :: rest ->
     exists n s' new, walked (S (rank f)) s s' n 1 new /\ stack s' = rest /\ evalf s' f) ->
  forall gs rest s, inv s -> (forall g, In g gs -> rank g < k /\ needed N g /\ exists v, In v (fn_outputs N g)) -> stack s = gs ++ rest ->
    exists n s' new, walked k s s' n (length gs) new /\ stack s' = rest /\ (forall g, In g gs -> evalf s' g).
Proof.
  intros H. induction gs as [|g gs IH]; intros rest s I G Es.
  - exists 0, s, []. split; [|split; [exact Es|intros g []]]. constructor.
    + apply steps_0.
    + auto.
    + apply incl_refl.
    + constructor.
    + intros g [].
    + auto.
    + cbn. lia.
  - destruct (G g (or_introl eq_refl)) as (G1 & G2 & G3).
    destruct (H g (gs ++ rest) s G1 I G2 G3 Es) as (n1 & s1 & new1 & W1 & E1 & F1).
    destruct (IH rest s1 (k_inv _ _ _ _ _ _ W1)) as (n2 & s2 & new2 & W2 & E2 & F2).
    { intros x Hx. apply G. right. auto. } { auto. }
    exists (n1 + n2), s2, (new1 ++ new2). split; [|split; auto].
    + change (length (g :: gs)) with (1 + length gs). eapply walked_app; eauto. eapply walked_weaken; [|eauto]. lia.
    + intros x [<-|Hx]; auto. eapply evalf_mono; [apply (k_mono _ _ _ _ _ _ W2)|auto].
Qed.

Lemma walk_one : forall k f rest s, rank f < k -> inv s -> needed N f -> (exists v, In v (fn_outputs N f)) -> stack s = f :: rest ->
  exists n s' new, walked (S (rank f)) s s' n 1 new /\ stack s' = rest /\ evalf s' f.
Proof.
  induction k as [|k IH]; intros f rest s Hk I Nf Of Es; [lia|].
  destruct (unresolved s f) as [|u0 us] eqn:U.
  { destruct (walk_ready f rest s I Nf Of Es U) as (s' & new & W1 & E1 & F1 & _). exists 1, s', new. auto. }
  pose (gs := rev (producers (unresolved s f))).
  pose (s1 := {| stack := gs ++ f :: rest; evaluated := evaluated s; stops := new_stops s f; calls := calls s |}).
  assert (S1 : steps 1 s s1).
  { apply steps_1. unfold step. rewrite Es. fold (unresolved s f). unfold s1, gs, producers. rewrite U. reflexivity. }
  assert (I1 : inv s1) by (apply inv_stops; auto).
  destruct (walk_list (rank f)) with (gs := gs) (rest := f :: rest) (s := s1) as (n & s2 & new & W2 & E2 & F2); auto.
  { intros h r t Hh. apply IH. lia. }
  { intros g Hg. apply in_rev in Hg. apply producers_in in Hg as (v & Hv & Pv). apply unresolved_in in Hv as (Hv & _ & _).
    split; [eapply (w_rank N rank W); eauto|]. split; [eapply needed_in; eauto|]. exists v. apply (w_parent N rank W). auto. }
  assert (U2 : unresolved s2 f = []).
  { destruct (unresolved s2 f) as [|w ws] eqn:X; auto. exfalso.
    assert (Hw : In w (unresolved s2 f)) by (rewrite X; cbn; auto).
    apply unresolved_in in Hw as (Hw & (g & Pw) & Ew).
    destruct (in_dec Nat.eq_dec w (evaluated s)) as [y|y].
    - apply Ew. apply (k_mono _ _ _ _ _ _ W2). auto.
    - apply Ew. apply (F2 g).
      + apply -> in_rev. apply producers_in. exists w. split; auto. apply unresolved_in. eauto.
      + apply (w_parent N rank W). auto. }
  assert (Nf2 : ~ evalf s2 f -> ~ evalf s f) by (intros H H'; apply H; eapply evalf_mono; [apply (k_mono _ _ _ _ _ _ W2)|exact H']).
  destruct (walk_ready f rest s2 (k_inv _ _ _ _ _ _ W2) Nf Of E2 U2) as (s3 & new3 & W3 & E3 & F3 & N3).
  (** f is not yet evaluated: one of its inputs is not *)
  assert (Nf1 : forall v, In v (fn_outputs N f) -> ~ In v (evaluated s)).
  { intros v Hv Ev. assert (Hu : In u0 (unresolved s f)) by (rewrite U; cbn; auto). apply unresolved_in in Hu as (Hu & (g & Pu) & Eu).
    apply Eu. apply (w_parent N rank W) in Hv. destruct (i_closed s I v f Ev Hv) as (_ & X & _). eapply X; eauto. }
  assert (Nn : ~ In f new).
  { intros H. destruct (k_new _ _ _ _ _ _ W2 f H) as (_ & _ & _ & _ & H'). lia. }
  destruct W2 as [A1 A2 A3 A4 A5 A7 A6]. destruct W3 as [B1 B2 B3 B4 B5 B7 B6].
  assert (Hf : new3 = [f]).
  { destruct N3 as [->|(-> & _)]; auto. exfalso. destruct Of as (v & Hv). pose proof (F3 v Hv) as Ev.
    pose proof Hv as Pv. apply (w_parent N rank W) in Pv. destruct (B7 v f Ev Pv) as [H|[]].
    destruct (A7 v f H Pv) as [H'|H']; [apply (Nf1 v Hv H')|auto]. }
  subst new3.
  exists (1 + (n + 1)), s3, (new ++ [f]). split; [|split; auto]. constructor.
  - eapply steps_trans; [exact S1|]. eapply steps_trans; eauto.
  - auto.
  - eapply incl_tran; [|exact B3]. exact A3.
  - apply nodup_app_intro; auto. intros x Hx [->|[]]. auto.
  - intros g Hg. apply in_app_iff in Hg as [Hg|Hg].
    + destruct (A5 g Hg) as (X1 & X2 & X3 & X4 & X5). split; [auto|]. split; [auto|]. split; [exact X3|]. split; [|lia]. eapply evalf_mono; eauto.
    + destruct (B5 g Hg) as (X1 & X2 & X3 & X4 & X5). split; [auto|]. split; [auto|]. split; auto.
      destruct Hg as [<-|[]]. exact Nf1.
  - intros v g Hv Pv. destruct (B7 v g Hv Pv) as [H|H]; [destruct (A7 v g H Pv); auto|]; right; apply in_app_iff; auto.
  - rewrite cost_app. cbn [cost fold_right]. rewrite Nat.add_0_r.
    assert (X : length gs <= length (fn_inputs N f)).
    { unfold gs. rewrite rev_length. etransitivity; [apply producers_length|]. unfold unresolved. clear.
      induction (fn_inputs N f) as [|v l IH]; cbn; auto. destruct (match parent N v with Some _ => _ | None => _ end); cbn; lia. }
    lia.
Qed.

Lemma inv_start : inv (start N stop0).
Proof.
  constructor; cbn [start evaluated stops calls].
  - apply incl_refl.
  - intros v f Hv Pv. rewrite (w_inputs N rank W v Hv) in Pv. discriminate.
  - intros v H. apply stopped_mark. auto.
  - auto.
  - intros v [H|H] S; apply stopped_parentless; auto. apply (w_inputs N rank W). auto.
  - constructor.
  - intros f. split; [intros []|]. intros ((v & Hv & Ev) & _). apply (w_parent N rank W) in Hv.
    rewrite (w_inputs N rank W v Ev) in Hv. discriminate.
  - intros [|x a] f b H; discriminate.
Qed.

Lemma needed_evaluated s : inv s -> (forall v f, In v (net_outputs N) -> parent N v = Some f -> evalf s f) ->
  forall f, needed N f -> evalf s f.
Proof.
  intros I H f Nf. induction Nf as [v f Hv Pv|f v g Nf IH Hv Pv]; [eauto|].
  (** f is the producer of something: it is needed *)
  assert (Of : exists u, In u (fn_outputs N f)).
  { destruct Nf as [u f Hu Pu|h u f Nh Hu Pu]; exists u; apply (w_parent N rank W); auto. }
  destruct Of as (u & Hu). pose proof (IH u Hu) as Eu. apply (w_parent N rank W) in Hu.
  destruct (i_closed s I u f Eu Hu) as (_ & X & _). pose proof (X v g Hv Pv) as Ev.
  destruct (i_closed s I v g Ev Pv) as (Y & _). exact Y.
Qed.

Theorem walk_all : exists n s', steps n (start N stop0) s' /\ inv s' /\ stack s' = []
  /\ (forall f, needed N f -> evalf s' f)
  /\ exists new, NoDup new /\ (forall f, In f new -> needed N f) /\ n <= length (net_outputs N) + cost new.
Proof.
  pose (gs := rev (producers (net_outputs N))).
  assert (M : exists k, forall g, In g gs -> rank g < k).
  { clear. induction gs as [|g gs (k & IH)]; [exists 0; intros g []|].
    exists (S (rank g) + k). intros h [<-|H]; [lia|]. specialize (IH h H). lia. }
  destruct M as (k & M).
  assert (G : forall g, In g gs -> rank g < k /\ needed N g /\ (exists v, In v (fn_outputs N g))).
  { intros g Hg. split; [auto|]. apply in_rev in Hg. apply producers_in in Hg as (v & Hv & Pv).
    split; [eapply needed_out; eauto|]. exists v. apply (w_parent N rank W). auto. }
  destruct (walk_list k (walk_one k) gs [] (start N stop0) inv_start G) as (n & s' & new & W1 & E1 & F1).
  { cbn [start stack]. rewrite app_nil_r. reflexivity. }
  exists n, s'. split; [apply (k_steps _ _ _ _ _ _ W1)|]. split; [apply (k_inv _ _ _ _ _ _ W1)|]. split; [exact E1|]. split.
  - apply needed_evaluated; [apply (k_inv _ _ _ _ _ _ W1)|]. intros v f Hv Pv. apply F1. apply -> in_rev. apply producers_in. eauto.
  - exists new. split; [apply (k_nodup _ _ _ _ _ _ W1)|]. split; [intros f Hf; apply (k_new _ _ _ _ _ _ W1 f Hf)|].
    pose proof (k_cost _ _ _ _ _ _ W1) as C. unfold gs in C. rewrite rev_length in C. pose proof (producers_length (net_outputs N)). lia.
Qed.
End Walk.

Lemma cost_incl N new all : NoDup new -> incl new all -> cost N new <= cost N all.
Proof.
  intros D. revert all. induction D as [|f new Hf D IH]; intros all H; [cbn; lia|].
  destruct (in_split f all) as (a & b & ->). { apply H. cbn; auto. }
  assert (X : cost N new <= cost N (a ++ b)).
  { apply IH. intros g Hg. specialize (H g (or_intror Hg)). rewrite in_app_iff in *. destruct H as [H|[H|H]]; auto. subst. contradiction. }
  rewrite cost_app in *. cbn [cost fold_right] in *. unfold cost in *. lia.
Qed.

(** C27.  Walking a well-formed acyclic network ends without an assertion failure, within as
    many turns as the outputs, the functions and their inputs together (plus one to notice
    that the stack is empty); it calls back exactly the functions that some output depends on
    and that read nothing stopped, each once, and each after the producers of its inputs. *)
Theorem C27_walk N rank stop0 funcs fuel :
  wf N rank -> (forall f, needed N f -> In f funcs) ->
  length (net_outputs N) + fold_right (fun f n => S (length (fn_inputs N f)) + n) 0 funcs < fuel ->
  exists order, execute_on_proto fuel N stop0 = Some (Some order)
  /\ NoDup order
  /\ (forall f, In f order <-> needed N f /\ runs N stop0 f)
  /\ (forall a f b, order = a ++ f :: b -> forall v g, In v (fn_inputs N f) -> parent N v = Some g -> In g a).
Proof.
  intros W Fs Hfuel. destruct (walk_all N rank stop0 W) as (n & s' & S & I & Es & Ev & new & D & Hn & C).
  assert (X : cost N new <= cost N funcs) by (apply cost_incl; auto; intros f Hf; auto).
  unfold cost in X at 2. 
  exists (calls s'). split; [|split; [apply (i_nodup _ _ _ I)|split; [|apply (i_order _ _ _ I)]]].
  - unfold execute_on_proto. replace fuel with (n + Datatypes.S (fuel - n - 1)) by lia. rewrite S. cbn [loop]. unfold step. rewrite Es. reflexivity.
  - intros f. rewrite (i_calls _ _ _ I). split.
    + intros ((v & Hv & Evv) & R). split; auto. apply (w_parent N rank W) in Hv. apply (i_closed _ _ _ I v f Evv Hv).
    + intros (Nf & R). split; auto.
      assert (Of : exists u, In u (fn_outputs N f)).
      { destruct Nf as [u f Hu Pu|h u f Nh Hu Pu]; exists u; apply (w_parent N rank W); auto. }
      destruct Of as (u & Hu). exists u. split; auto. apply (Ev f Nf). auto.
Qed.
Print Assumptions C27_walk.

(** Without stop flags every function that an output depends on is called. *)
Theorem C27_walk_all N rank funcs fuel :
  wf N rank -> (forall f, needed N f -> In f funcs) ->
  length (net_outputs N) + fold_right (fun f n => S (length (fn_inputs N f)) + n) 0 funcs < fuel ->
  exists order, execute_on_proto fuel N (fun _ => false) = Some (Some order)
  /\ NoDup order
  /\ (forall f, In f order <-> needed N f)
  /\ (forall a f b, order = a ++ f :: b -> forall v g, In v (fn_inputs N f) -> parent N v = Some g -> In g a).
Proof.
  intros W Fs Hf. destruct (C27_walk N rank (fun _ => false) funcs fuel W Fs Hf) as (o & E & D & I & O).
  exists o. split; [auto|]. split; [auto|]. split; auto. intros f. rewrite I. split; [intros (H & _); auto|].
  intros H. split; auto. intros v _ S. induction S; [discriminate|auto].
Qed.
Print Assumptions C27_walk_all.

(** Non-vacuity: two outputs that share functions.  Function 1 reads variable 0 and writes 1
    and 2; function 2 reads 1 twice and writes 3; function 3 reads 2, 3 and the parameter 9 and
    writes 4; function 4 reads 5 and writes 6 and no output depends on it; function 5 has no
    inputs and writes 7, which function 3 also reads.  The outputs are 3 and 4. *)
Definition diamond : net :=
  {| fn_inputs := fun f => match f with 1 => [0] | 2 => [1; 1] | 3 => [2; 3; 9; 7] | 4 => [5] | _ => [] end;
     fn_outputs := fun f => match f with 1 => [1; 2] | 2 => [3] | 3 => [4] | 4 => [6] | 5 => [7] | _ => [] end;
     parent := fun v => match v with 1 => Some 1 | 2 => Some 1 | 3 => Some 2 | 4 => Some 3 | 6 => Some 4 | 7 => Some 5 | _ => None end;
     net_inputs := [0; 5]; net_outputs := [3; 4] |}.
Lemma diamond_wf : wf diamond (fun f => match f with 2 => 1 | 3 => 2 | _ => 0 end).
Proof.
  constructor.
  - intros v f. cbn. split.
    + intros H. do 8 (destruct v as [|v]; [try discriminate; injection H as <-; cbn; auto|]). discriminate.
    + intros H. do 6 (destruct f as [|f]; [cbn in H; intuition (subst; auto)|]). cbn in H. contradiction.
  - intros v [<-|[<-|[]]]; reflexivity.
  - intros f v g Hv Pv. do 5 (destruct f as [|f]; [cbn in Hv; intuition (subst; cbn in Pv; try discriminate; injection Pv as <-; cbn; lia)|]).
    cbn in Hv. contradiction.
Qed.
Example diamond_walk : execute_on_proto 30 diamond (fun _ => false) = Some (Some [5; 1; 2; 3]).
Proof. reflexivity. Qed.
(** With variable 2 stopped, function 3 is not called; the producer of 2 still is. *)
Example diamond_stop : execute_on_proto 30 diamond (Nat.eqb 2) = Some (Some [5; 1; 2]).
Proof. reflexivity. Qed.
Example diamond_needed : needed diamond 1 /\ ~ needed diamond 4.
Proof.
  split.
  - eapply needed_in with (f := 2) (v := 1); [eapply needed_out with (v := 3)|..]; cbn; auto.
  - intros H. remember 4 as x. destruct H as [v f Hv Pv|f v g Nf Hv Pv]; subst.
    + cbn in Hv. destruct Hv as [<-|[<-|[]]]; discriminate.
    + do 5 (destruct f as [|f]; [cbn in Hv; intuition (subst; discriminate)|]). cbn in Hv. contradiction.
Qed.

(** Without acyclicity the walk does not end. *)
Definition cyclic : net :=
  {| fn_inputs := fun f => match f with 1 => [2] | 2 => [1] | _ => [] end;
     fn_outputs := fun f => match f with 1 => [1] | 2 => [2] | _ => [] end;
     parent := fun v => match v with 1 => Some 1 | 2 => Some 2 | _ => None end;
     net_inputs := []; net_outputs := [1] |}.
Theorem C27_cyclic_refuted : forall fuel, execute_on_proto fuel cyclic (fun _ => false) = None.
Proof.
  intros fuel. unfold execute_on_proto.
  enough (H : forall fuel s, evaluated s = [] -> (exists r, stack s = 1 :: r \/ stack s = 2 :: r) -> loop fuel cyclic s = None).
  { rewrite H; auto. exists []. left. reflexivity. }
  clear. induction fuel as [|fuel IH]; intros s E (r & R); [reflexivity|].
  cbn [loop]. unfold step. destruct R as [->| ->]; cbn; rewrite E; cbn; apply IH; cbn; eauto.
Qed.
(** Without the condition on the inputs the assertion can fail: an input of the network that
    is one of two outputs of a needed function. *)
Definition half_input : net :=
  {| fn_inputs := fun _ => []; fn_outputs := fun f => match f with 1 => [1; 2] | _ => [] end;
     parent := fun v => match v with 1 | 2 => Some 1 | _ => None end;
     net_inputs := [1]; net_outputs := [2] |}.
Theorem C27_input_refuted : execute_on_proto 9 half_input (fun _ => false) = Some None.
Proof. reflexivity. Qed.
