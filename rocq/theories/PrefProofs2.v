(** Nothing is kept or read needlessly. *)
From Coq Require Import String List Bool Arith ZArith Lia.
From Verif Require Import PrefModel PrefSpec PrefProofs.
Import ListNotations.
Local Open Scope string_scope.
Local Open Scope list_scope.

Section Tidy.
Variable content : string -> option arrays.
Variable failures : string -> nat.
Variable schedule : nat -> list nat.

Notation wstep := (worker_step content failures).

Definition rest (p : pf) : Prop := pq p = [] /\ work p = None /\ pdata p = SNone.
Definition fresh (p : pf) : Prop := work p <> None -> pdata p = SEmpty.

(** What a worker can do to its prefetcher. *)
Definition K (p p' : pf) : Prop := fname p' = fname p /\ (rest p -> p' = p) /\ (fresh p -> fresh p').
Lemma K_refl p : K p p.
Proof. repeat split; auto. Qed.
Lemma K_trans a b c : K a b -> K b c -> K a c.
Proof.
  intros (A1 & A2 & A3) (B1 & B2 & B3). split; [congruence|]. split; [|auto].
  intros R. rewrite B2; [auto|]. rewrite (A2 R). exact R.
Qed.
Lemma K_step p p' : wstep p = Some p' -> K p p'.
Proof.
  unfold worker_step, K, rest, fresh. destruct (alive p); cbn [negb]; [|intros [= <-]; auto].
  destruct (work p) as [f|] eqn:W.
  - destruct (read_cache content failures f) as [d|]; [|discriminate]. intros [= <-]; cbn [fname pq work pdata].
    split; [reflexivity|]. split; [intros (_ & X & _); discriminate|]. intros _ X. now destruct X.
  - destruct (pq p) as [|[g|] q] eqn:Q; intros [= <-]; cbn [fname pq work pdata].
    + rewrite W. auto.
    + split; [reflexivity|]. split; [intros (X & _); discriminate|]. auto.
    + split; [reflexivity|]. split; [intros (X & _); discriminate|]. auto.
Qed.

Definition KL (l l' : list pf) : Prop := Forall2 K l l'.
Lemma KL_refl l : KL l l.
Proof. induction l; constructor; auto using K_refl. Qed.
Lemma KL_trans a b c : KL a b -> KL b c -> KL a c.
Proof.
  intros H. revert c. induction H as [|x y l l' Hxy H IH]; intros c H'; inversion H'; subst; constructor.
  - eapply K_trans; eassumption.
  - apply IH. assumption.
Qed.
Lemma KL_nth l l' : KL l l' -> forall i p', nth_error l' i = Some p' -> exists p, nth_error l i = Some p /\ K p p'.
Proof.
  induction 1 as [|p q l l' Hpq H IH]; intros [|i] p' E; try discriminate; cbn in *.
  - inversion E; subst. eauto.
  - eauto.
Qed.
Lemma step_worker_K l i l' : step_worker content failures l i = Some l' -> KL l l'.
Proof.
  unfold step_worker. destruct (nth_error l i) as [p|] eqn:E; [|intros [= <-]; apply KL_refl].
  destruct (wstep p) as [p'|] eqn:W; [|discriminate]. intros [= <-].
  eapply set_nth_Forall2; [exact K_refl|exact E|now apply K_step].
Qed.
Lemma step_workers_K is : forall l l', step_workers content failures l is = Some l' -> KL l l'.
Proof.
  induction is as [|i is IH]; intros l l'; cbn [step_workers]; [intros [= <-]; apply KL_refl|].
  destruct (step_worker content failures l i) as [l1|] eqn:E; [|discriminate].
  intros H. eapply KL_trans; [apply (step_worker_K _ _ _ E)|apply (IH _ _ H)].
Qed.
Lemma tick_K s s' : tick content failures schedule s = Done s' -> KL (pfs s) (pfs s').
Proof.
  unfold tick. destruct (step_workers _ _ _ _) as [l|] eqn:E; [|discriminate]. intros [= <-]. now apply step_workers_K in E.
Qed.
Lemma bind_done {A B} (x : outcome A) (f : A -> outcome B) b : bind x f = Done b -> exists a, x = Done a /\ f a = Done b.
Proof. destruct x; cbn; try discriminate. eauto. Qed.

Lemma join_K fuel : forall s i s', join content failures schedule fuel s i = Done s' ->
  KL (pfs s) (pfs s') /\ forall p, nth_error (pfs s') i = Some p -> pq p = [] /\ work p = None.
Proof.
  induction fuel as [|fuel IH]; intros s i s' H; cbn [join] in H.
  - destruct (nth_error (pfs s) i) as [p|] eqn:E.
    + destruct (pq p) eqn:Q, (work p) eqn:W; try (destruct (negb (alive p)); discriminate).
      inversion H; subst. split; [apply KL_refl|]. intros q Eq. rewrite E in Eq. inversion Eq; subst. auto.
    + inversion H; subst. split; [apply KL_refl|]. intros q Eq. rewrite E in Eq. discriminate.
  - destruct (nth_error (pfs s) i) as [p|] eqn:E.
    + assert (G : (if negb (alive p) then Blocked else
          match step_worker content failures (pfs s) i with
          | None => Killed
          | Some l => bind (tick content failures schedule {| pfs := l; clock := clock s |}) (fun s' => join content failures schedule fuel s' i)
          end) = Done s' -> KL (pfs s) (pfs s') /\ forall p, nth_error (pfs s') i = Some p -> pq p = [] /\ work p = None).
      { destruct (negb (alive p)); [discriminate|]. destruct (step_worker content failures (pfs s) i) as [l|] eqn:S; [|discriminate].
        intros G. apply bind_done in G as (s1 & T & J). apply tick_K in T. apply IH in J as [J1 J2]. cbn [pfs] in T.
        split; [|exact J2]. eapply KL_trans; [apply (step_worker_K _ _ _ S)|]. eapply KL_trans; eauto. }
      destruct (pq p) eqn:Q, (work p) eqn:W; try (exact (G H)).
      inversion H; subst. split; [apply KL_refl|]. intros q Eq. rewrite E in Eq. inversion Eq; subst. auto.
    + inversion H; subst. split; [apply KL_refl|]. intros q Eq. rewrite E in Eq. discriminate.
Qed.

(** Between the operations; [i] is exempt from being at rest. *)
Definition TidyBut (i : option nat) (l : list pf) : Prop :=
  (forall j p, nth_error l j = Some p -> (fname p = None -> i = Some j \/ rest p) /\ fresh p) /\
  (forall j k p q f, nth_error l j = Some p -> nth_error l k = Some q -> fname p = Some f -> fname q = Some f -> j = k).

Lemma Tidy_K i l l' : TidyBut i l -> KL l l' -> TidyBut i l'.
Proof.
  intros [T1 T2] H. split.
  - intros j p' E. destruct (KL_nth _ _ H j p' E) as (p & Ep & (A1 & A2 & A3)). destruct (T1 j p Ep) as [B1 B2].
    split; [|auto]. intros F. rewrite A1 in F. destruct (B1 F) as [B|B]; [auto|]. right. rewrite (A2 B). exact B.
  - intros j k p' q' f Ej Ek Fj Fk. destruct (KL_nth _ _ H j p' Ej) as (p & Ep & (A1 & _)).
    destruct (KL_nth _ _ H k q' Ek) as (q & Eq & (B1 & _)). apply (T2 j k p q f); congruence.
Qed.
Lemma Tidy_weaken i l : TidyBut None l -> TidyBut i l.
Proof. intros [T1 T2]. split; [|exact T2]. intros j p E. destruct (T1 j p E) as [A B]. split; [|exact B]. intros F. destruct (A F); [discriminate|auto]. Qed.

Lemma upd_pfs s i g j : nth_error (pfs (upd s i g)) j =
  if Nat.eqb i j then option_map g (nth_error (pfs s) j) else nth_error (pfs s) j.
Proof.
  unfold upd. destruct (nth_error (pfs s) i) as [p|] eqn:E; cbn [pfs].
  - rewrite set_nth_get. destruct (Nat.eqb_spec i j) as [->|]; [|reflexivity]. rewrite E. reflexivity.
  - destruct (Nat.eqb_spec i j) as [->|]; [|reflexivity]. rewrite E. reflexivity.
Qed.

(** A prefetcher without a name, or with a name nobody else has. *)
Lemma Tidy_upd i s g : TidyBut i (pfs s) -> forall k,
  (forall p, nth_error (pfs s) k = Some p -> fresh p -> (fname p = None -> i = Some k \/ rest p) -> fresh (g p) /\
     (fname (g p) = None -> rest (g p)) /\
     (forall f, fname (g p) = Some f -> fname p = Some f \/
        forall j q, nth_error (pfs s) j = Some q -> fname q <> Some f)) ->
  (i = None \/ i = Some k) -> TidyBut None (pfs (upd s k g)).
Proof.
  intros [T1 T2] k G Hi. split.
  - intros j p E. rewrite upd_pfs in E. destruct (Nat.eqb_spec k j) as [->|N].
    + destruct (nth_error (pfs s) j) as [p0|] eqn:E0; [|discriminate]. cbn in E. inversion E; subst.
      destruct (T1 j p0 E0) as [A B]. destruct (G p0 eq_refl B A) as (G1 & G2 & _). auto.
    + destruct (T1 j p E) as [A B]. split; [|exact B]. intros F. destruct (A F) as [X|X]; [|auto]. destruct Hi; congruence.
  - intros j j' p q f Ej Ek Fj Fk. rewrite upd_pfs in Ej, Ek.
    destruct (Nat.eqb_spec k j) as [<-|N], (Nat.eqb_spec k j') as [<-|N']; [reflexivity| | |eauto].
    + destruct (nth_error (pfs s) k) as [p0|] eqn:E0; [|discriminate]. cbn in Ej. inversion Ej; subst.
      destruct (T1 k p0 E0) as [A B]. destruct (G p0 eq_refl B A) as (_ & _ & G3). destruct (G3 f Fj) as [X|X].
      * exact (T2 k j' p0 q f E0 Ek X Fk).
      * exfalso. exact (X j' q Ek Fk).
    + destruct (nth_error (pfs s) k) as [p0|] eqn:E0; [|discriminate]. cbn in Ek. inversion Ek; subst.
      destruct (T1 k p0 E0) as [A B]. destruct (G p0 eq_refl B A) as (_ & _ & G3). destruct (G3 f Fk) as [X|X].
      * exact (T2 j k p p0 f Ej E0 Fj X).
      * exfalso. exact (X j p Ej Fj).
Qed.

(** Names are only forgotten. *)
Definition Fewer (l l' : list pf) : Prop :=
  forall j p', nth_error l' j = Some p' -> exists p, nth_error l j = Some p /\ (fname p' = None \/ fname p' = fname p).
Lemma Fewer_K l l' : KL l l' -> Fewer l l'.
Proof. intros H j p' E. destruct (KL_nth _ _ H j p' E) as (p & Ep & (A & _)). eauto. Qed.
Lemma Fewer_trans a b c : Fewer a b -> Fewer b c -> Fewer a c.
Proof.
  intros H H' j p E. destruct (H' j p E) as (q & Eq & A). destruct (H j q Eq) as (r & Er & B). exists r. split; [exact Er|].
  destruct A as [A|A]; [auto|]. rewrite A. exact B.
Qed.

Lemma pf_read_tidy s i r : pf_read content failures schedule s i = Done r -> TidyBut (Some i) (pfs s) ->
  TidyBut None (pfs (fst r)) /\ Fewer (pfs s) (pfs (fst r)).
Proof.
  unfold pf_read. intros H T. apply bind_done in H as (s1 & T1 & H). apply bind_done in H as (s2 & J & H).
  apply tick_K in T1. apply join_K in J as [J1 J2].
  assert (A : TidyBut (Some i) (pfs s2)) by (eapply Tidy_K; [eapply Tidy_K; eauto|exact J1]).
  assert (F : Fewer (pfs s) (pfs s2)) by (apply Fewer_K; eapply KL_trans; eauto).
  destruct (nth_error (pfs s2) i) as [p|] eqn:E; inversion H; subst; cbn [fst].
  - split.
    + apply (Tidy_upd (Some i) s2); [exact A| |auto]. intros q Eq _ _. rewrite E in Eq. destruct (J2 q Eq) as [Q W].
      unfold fresh, rest. cbn [fname pq work pdata]. split; [congruence|]. split; [auto|]. discriminate.
    + eapply Fewer_trans; [exact F|]. intros j q Eq. rewrite upd_pfs in Eq. destruct (Nat.eqb_spec i j) as [->|].
      * destruct (nth_error (pfs s2) j) as [q0|]; [|discriminate]. cbn in Eq. inversion Eq; subst. eauto.
      * eauto.
  - split; [|exact F]. destruct A as [A1 A2]. split; [|exact A2]. intros j q Eq. destruct (A1 j q Eq) as [B1 B2].
    split; [|exact B2]. intros N. destruct (B1 N) as [X|X]; [|auto]. inversion X; subst. congruence.
Qed.

Lemma find_hit_tidy f : forall n i s r, find_hit content failures schedule n i s f = Done r -> TidyBut None (pfs s) ->
  TidyBut None (pfs (fst r)).
Proof.
  induction n as [|n IH]; intros i s r H T; cbn [find_hit] in H.
  - inversion H; subst. exact T.
  - apply bind_done in H as (s1 & T1 & H). apply tick_K in T1. assert (A := Tidy_K _ _ _ T T1).
    destruct (nth_error (pfs s1) i) as [p|] eqn:E; [|inversion H; subst; exact A].
    destruct (names_eq (fname p) f); [|eapply IH; eauto].
    eapply pf_read_tidy; [exact H|]. destruct A as [A1 A2]. split.
    + intros j q Eq. rewrite upd_pfs in Eq. destruct (Nat.eqb_spec i j) as [->|].
      * rewrite E in Eq. cbn in Eq. inversion Eq; subst. cbn. split; [auto|]. apply (A1 j p E).
      * destruct (A1 j q Eq) as [B1 B2]. split; [|exact B2]. intros N. destruct (B1 N); [discriminate|auto].
    + intros j k q q' g Ej Ek Fj Fk. rewrite upd_pfs in Ej, Ek.
      destruct (Nat.eqb_spec i j) as [X1|X1], (Nat.eqb_spec i k) as [X2|X2].
      * congruence.
      * rewrite <- X1, E in Ej. cbn in Ej. inversion Ej; subst. discriminate.
      * rewrite <- X2, E in Ek. cbn in Ek. inversion Ek; subst. discriminate.
      * exact (A2 j k q q' g Ej Ek Fj Fk).
Qed.

Lemma Fewer_refl l : Fewer l l.
Proof. intros j p E. eauto. Qed.
Lemma waste_tidy wanted names : forall i s s', waste content failures schedule names i s wanted = Done s' ->
  TidyBut None (pfs s) -> TidyBut None (pfs s') /\ Fewer (pfs s) (pfs s').
Proof.
  induction names as [|fn names IH]; intros i s s' H T; cbn [waste] in H.
  - inversion H; subst. split; [exact T|apply Fewer_refl].
  - assert (G : waste content failures schedule names (S i) s wanted = Done s' -> TidyBut None (pfs s') /\ Fewer (pfs s) (pfs s'))
      by (intros X; eapply IH; eauto).
    destruct fn as [f|]; [|exact (G H)]. destruct (_ && _); [|exact (G H)].
    apply bind_done in H as (r & R & H). apply pf_read_tidy in R as [R1 R2]; [|now apply Tidy_weaken].
    destruct (IH _ _ _ H R1) as [W1 W2]. split; [exact W1|]. eapply Fewer_trans; eauto.
Qed.

(** The snapshot of names is an upper bound of the names announced. *)
Definition Snap (names : list (option string)) (l : list pf) : Prop :=
  forall j p, nth_error l j = Some p -> exists n, nth_error names j = Some n /\ (fname p = None \/ fname p = n).

Lemma index_none_spec names : forall i, index_none names = Some i -> nth_error names i = Some None.
Proof.
  induction names as [|[f|] names IH]; intros i H; cbn in H; try discriminate.
  - destruct (index_none names) as [k|] eqn:E; [|discriminate]. inversion H; subst. cbn. auto.
  - inversion H; subst. reflexivity.
Qed.
Lemma set_name_get names : forall i f j, nth_error (set_name names i f) j =
  if Nat.eqb i j then match nth_error names j with Some _ => Some (Some f) | None => None end else nth_error names j.
Proof. induction names as [|x names IH]; intros [|i] f [|j]; cbn; auto. now destruct (Nat.eqb i j). Qed.

Lemma prefetch_tidy : forall wanted names s s', prefetch content failures schedule wanted names s = Done s' ->
  TidyBut None (pfs s) -> Snap names (pfs s) -> TidyBut None (pfs s').
Proof.
  induction wanted as [|f wanted IH]; intros names s s' H T S; cbn [prefetch] in H.
  - inversion H; subst. exact T.
  - destruct (existsb (fun n => names_eq n f) names) eqn:Ex; [eapply IH; eauto|].
    destruct (index_none names) as [i|] eqn:Ei; [|eapply IH; eauto].
    apply bind_done in H as (s1 & R & H). apply index_none_spec in Ei.
    assert (New : forall j q, nth_error (pfs s) j = Some q -> fname q <> Some f).
    { intros j q E N. destruct (S j q E) as (n & En & [X|X]); [congruence|].
      rewrite <- not_true_iff_false in Ex. apply Ex, existsb_exists. exists n. split; [now apply nth_error_In in En|].
      rewrite <- X, N. cbn. apply String.eqb_refl. }
    unfold pf_request in R. apply bind_done in R as (s2 & Tk & R). inversion R; subst s1. clear R.
    apply tick_K in Tk.
    (* announcing *)
    assert (A0 : TidyBut None (pfs (upd s i (fun p => {| fname := Some f; pq := pq p; work := work p; pdata := pdata p;
                                 alive := alive p; pclosed := pclosed p |})))).
    { apply (Tidy_upd None s); [exact T| |auto]. intros p E F _. split; [exact F|]. split; [discriminate|].
      cbn [fname]. intros g [= <-]. right. exact New. }
    assert (A1 := Tidy_K _ _ _ A0 Tk).
    assert (Name : forall j q, nth_error (pfs s2) j = Some q -> exists p, nth_error (pfs s) j = Some p /\
                   (if Nat.eqb i j then fname q = Some f /\ (rest p -> rest q) else fname q = fname p)).
    { intros j q E. destruct (KL_nth _ _ Tk j q E) as (p & Ep & (B1 & B2 & _)). rewrite upd_pfs in Ep.
      destruct (Nat.eqb i j); [|eauto]. destruct (nth_error (pfs s) j) as [p0|]; [|discriminate]. cbn in Ep.
      exists p0. split; [reflexivity|]. inversion Ep; subst p. cbn in B1. split; [exact B1|]. intros X. rewrite B2; exact X. }
    refine (IH _ _ _ H _ _).
    + apply (Tidy_upd None s2); [exact A1| |auto]. intros p E F _. destruct (Name i p E) as (p0 & E0 & N). rewrite Nat.eqb_refl in N.
      destruct N as [N _]. split; [exact F|]. cbn [fname]. split; [congruence|]. auto.
    + intros j q Eq. rewrite upd_pfs in Eq. rewrite set_name_get.
      assert (X : exists q', nth_error (pfs s2) j = Some q' /\ fname q = fname q').
      { destruct (Nat.eqb i j); [|eauto]. destruct (nth_error (pfs s2) j) as [q'|]; [|discriminate]. cbn in Eq. inversion Eq; subst. eauto. }
      destruct X as (q' & Eq' & Fq). destruct (Name j q' Eq') as (p & Ep & N). destruct (S j p Ep) as (n & En & D). rewrite En.
      destruct (Nat.eqb i j); [exists (Some f)|exists n]; split; try reflexivity; rewrite Fq; [right; tauto|]. rewrite N. exact D.
Qed.

Lemma open_tidy s f wanted r : open_cache content failures schedule s f wanted = Done r -> TidyBut None (pfs s) ->
  TidyBut None (pfs (fst r)).
Proof.
  unfold open_cache. intros H T. apply bind_done in H as (r1 & F & H). apply bind_done in H as (d & _ & H).
  apply bind_done in H as (s2 & W & H). apply bind_done in H as (s3 & P & H). inversion H; subst. cbn [fst].
  apply find_hit_tidy in F; [|exact T]. apply waste_tidy in W as [W1 W2]; [|exact F].
  eapply prefetch_tidy; [exact P|exact W1|]. intros j p E. destruct (W2 j p E) as (q & Eq & D).
  exists (fname q). split; [|exact D]. rewrite nth_error_map, Eq. reflexivity.
Qed.

Lemma run_tidy m : forall ops s, TidyBut None (pfs (reader s)) ->
  TidyBut None (pfs (reader (snd (run content failures schedule m s ops)))).
Proof.
  induction ops as [|[pos|ord] ops IH]; intros s T; cbn [run]; [exact T| |now apply IH].
  destruct (get_data content failures schedule m s pos) as [[s' x]| | | | |] eqn:E; try exact T.
  assert (T' : TidyBut None (pfs (reader s'))).
  { unfold get_data in E. destruct (nth_error (order s) pos) as [[f index]|]; [|discriminate].
    apply bind_done in E as (s1 & O & E). apply bind_done in E as (y & _ & E). inversion E; subst.
    destruct (names_eq (cur_name s) f); [inversion O; subst; exact T|].
    apply bind_done in O as (r & O & R). inversion R; subst. cbn [reader]. eapply open_tidy; eauto. }
  specialize (IH s' T'). destruct (run content failures schedule m s' ops) as [l sf]. exact IH.
Qed.
Lemma new_tidy threads ord : TidyBut None (pfs (reader (new_source threads ord))).
Proof.
  cbn [reader new_source pfs]. split.
  - intros j p E. apply nth_error_In, repeat_spec in E. subst. split; [right|]; repeat split; auto. unfold fresh. cbn. congruence.
  - intros j k p q f E _ F. apply nth_error_In, repeat_spec in E. subst. discriminate.
Qed.
End Tidy.
