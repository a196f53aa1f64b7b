(** Every interleaving delivers what was asked for. *)
From Coq Require Import String List Bool Arith ZArith Lia.
From Verif Require Import PrefModel PrefSpec.
Import ListNotations.
Local Open Scope string_scope.
Local Open Scope list_scope.

Section Proofs.
Variable content : string -> option arrays.
Variable failures : string -> nat.
Variable schedule : nat -> list nat.
Variable ok : string -> Prop.

Notation rc := (read_cache content failures).
Notation wstep := (worker_step content failures).

Lemma try_read_some k f d : content f = Some d -> forall n, try_read content n k f = if Nat.ltb k n then Some d else None.
Proof.
  intros H. induction k as [|k IH]; intros n; destruct n as [|n]; try reflexivity.
  - cbn. now rewrite H.
  - cbn [try_read]. rewrite IH. reflexivity.
Qed.
Lemma try_read_none f : content f = None -> forall n k, try_read content n k f = None.
Proof.
  intros H. induction n as [|n IH]; intros k; [reflexivity|]. cbn [try_read].
  destruct k; [rewrite H|]; apply IH.
Qed.
Lemma read_cache_spec f d : rc f = Some d <-> content f = Some d /\ failures f < 10.
Proof.
  unfold read_cache. destruct (content f) as [d'|] eqn:E.
  - rewrite (try_read_some _ _ _ E). destruct (Nat.ltb_spec (failures f) 10).
    + split; [intros [= ->]; auto|intros [[= ->] _]; auto].
    + split; [discriminate|lia].
  - rewrite (try_read_none _ E). split; [discriminate|intros [? _]; discriminate].
Qed.
Lemma read_cache_none f : rc f = None -> ~ readable content failures f.
Proof.
  intros H [H1 H2]. destruct (content f) as [d|] eqn:E; [|congruence].
  assert (rc f = Some d) by (apply read_cache_spec; auto). congruence.
Qed.

(** The outcome is as required, or the process was killed because a file that may
    be read cannot be. *)
Definition good {A} (x : outcome A) (Q : A -> Prop) : Prop :=
  match x with
  | Done a => Q a
  | Killed => exists f, ok f /\ ~ readable content failures f
  | _ => False
  end.
Lemma good_bind {A B} (x : outcome A) (f : A -> outcome B) P Q :
  good x P -> (forall a, P a -> good (f a) Q) -> good (bind x f) Q.
Proof. destruct x; cbn; intros H K; auto; contradiction. Qed.
Lemma good_weaken {A} (x : outcome A) (P Q : A -> Prop) : good x P -> (forall a, P a -> Q a) -> good x Q.
Proof. destruct x; cbn; auto. Qed.

(** ** One prefetcher *)
Definition Base (p : pf) : Prop :=
  (forall f, In (Some f) (pq p) -> ok f) /\ (forall f, work p = Some f -> ok f) /\
  (alive p = false -> pq p = [] /\ work p = None) /\
  (forall q1 q2, pq p = q1 ++ None :: q2 -> q2 = []).
Definition Open (p : pf) : Prop := (alive p = true /\ pclosed p = false) /\ ~ In None (pq p).
Definition last_pending (p : pf) : option string := last (pq p) (work p).
Definition Exp (p : pf) (f : string) : Prop :=
  match last_pending p with
  | Some g => g = f
  | None => exists d, pdata p = SData d /\ rc f = Some d
  end.
Definition Named (p : pf) : Prop := forall f, fname p = Some f -> Exp p f.

(** Asked to stop, or stopped. *)
Definition Stopping (p : pf) : Prop := alive p = true -> In None (pq p).

Definition Le (p p' : pf) : Prop :=
  fname p' = fname p /\ pclosed p' = pclosed p /\ pending p' <= pending p /\
  (Base p -> Base p') /\ (alive p = false -> p' = p) /\
  (Stopping p -> Stopping p') /\
  (Open p -> Open p' /\ forall f, Exp p f -> Exp p' f).

Lemma Le_refl p : Le p p.
Proof. unfold Le. intuition. Qed.
Lemma Le_trans a b c : Le a b -> Le b c -> Le a c.
Proof.
  intros (A1 & A2 & A3 & A4 & A5 & A7 & A6) (B1 & B2 & B3 & B4 & B5 & B7 & B6).
  split; [congruence|]. split; [congruence|]. split; [lia|]. split; [auto|]. split.
  - intros H. assert (b = a) by auto. subst b. auto.
  - split; [auto|]. intros H. destruct (A6 H) as [H1 H2]. destruct (B6 H1) as [H3 H4]. auto.
Qed.

Lemma last_cons {A} (a d : A) l : last (a :: l) d = last l a.
Proof. revert a. induction l as [|b l IH]; intros a; [reflexivity|]. cbn. destruct l; [reflexivity|]. apply IH. Qed.

Lemma worker_Le p : Base p -> match wstep p with
  | Some p' => Le p p' /\ (alive p = true -> pending p <> 0 -> pending p' < pending p)
  | None => exists f, ok f /\ ~ readable content failures f
  end.
Proof.
  intros (B1 & B2 & B3 & B4). unfold worker_step. destruct (alive p) eqn:Al; cbn [negb].
  2:{ split; [apply Le_refl|discriminate]. }
  destruct (work p) as [f|] eqn:W.
  - destruct (rc f) as [d|] eqn:R.
    + split.
      * split; [reflexivity|]. split; [reflexivity|]. split; [unfold pending; cbn; rewrite W; lia|].
        split; [|split; [|split]].
        -- intros _. split; [exact B1|]. split; [discriminate|]. split; [discriminate|exact B4].
        -- congruence.
        -- intros St _. cbn. exact (St Al).
        -- intros [[_ Hc] Hn]. split; [split; [split; [reflexivity|exact Hc]|exact Hn]|]. intros g. unfold Exp, last_pending. cbn.
           rewrite W. destruct (pq p) as [|[h|] q] eqn:Q.
           ++ cbn. intros ->. eauto.
           ++ rewrite !last_cons. destruct (last q (Some h)) eqn:Lq; [auto|]. intros _. exfalso. apply Hn. right.
              destruct q as [|x q _] using rev_ind; [discriminate|]. rewrite last_last in Lq. subst x. apply in_app_iff. right. now left.
           ++ exfalso. apply Hn. now left.
      * intros _ _. unfold pending. cbn. rewrite W. lia.
    + exists f. split; [auto|]. now apply read_cache_none.
  - destruct (pq p) as [|[f|] q] eqn:Q.
    + split; [apply Le_refl|]. intros _ H. exfalso. apply H. unfold pending. now rewrite Q, W.
    + split.
      * split; [reflexivity|]. split; [reflexivity|]. split; [unfold pending; cbn; rewrite Q, W; cbn; lia|].
        split; [|split; [|split]].
        -- intros _. split; [intros g Hg; apply B1; now right|]. split; [cbn; intros g [= <-]; apply B1; now left|].
           split; [discriminate|]. intros q1 q2 E. cbn in E. apply (B4 (Some f :: q1)). cbn. now rewrite E.
        -- congruence.
        -- intros St _. cbn. specialize (St Al). rewrite Q in St. destruct St as [St|St]; [discriminate|exact St].
        -- intros [[_ Hc] Hn]. rewrite Q in Hn. split; [split; [split; [reflexivity|exact Hc]|intros Hi; apply Hn; now right]|].
           intros g. unfold Exp, last_pending. cbn [pq work pdata]. rewrite Q, W, last_cons.
           destruct (last q (Some f)) as [h|] eqn:L; [auto|]. exfalso. apply Hn.
           destruct q as [|x q] using rev_ind; [discriminate|]. rewrite last_last in L. subst x.
           right. apply in_app_iff. right. now left.
      * intros _ _. unfold pending. cbn. rewrite Q, W. cbn. lia.
    + assert (q = []) by (apply (B4 [] q); reflexivity). subst q. split.
      * split; [reflexivity|]. split; [reflexivity|]. split; [unfold pending; cbn; rewrite Q, W; cbn; lia|].
        split; [|split; [|split]].
        -- intros _. split; [intros g []|]. split; [discriminate|]. split; [auto|]. intros [|] q2 E; discriminate.
        -- congruence.
        -- intros _ H. discriminate H.
        -- intros [_ Hn]. exfalso. apply Hn. rewrite Q. now left.
      * intros _ _. unfold pending. cbn. rewrite Q, W. cbn. lia.
Qed.

(** ** All of them *)
Lemma set_nth_length l : forall i p, List.length (set_nth l i p) = List.length l.
Proof. induction l as [|x l IH]; intros [|i] p; cbn; auto. Qed.
Lemma set_nth_get l : forall i p j, nth_error (set_nth l i p) j =
  if Nat.eqb i j then match nth_error l j with Some _ => Some p | None => None end else nth_error l j.
Proof.
  induction l as [|x l IH]; intros [|i] p [|j]; cbn; auto.
  now destruct (Nat.eqb i j).
Qed.
Lemma set_nth_Forall (P : pf -> Prop) l i p : Forall P l -> P p -> Forall P (set_nth l i p).
Proof. intros H. revert i. induction H; intros [|i] Hp; cbn; constructor; auto. Qed.
Lemma set_nth_Forall2 (R : pf -> pf -> Prop) l : forall i p p', (forall x, R x x) ->
  nth_error l i = Some p -> R p p' -> Forall2 R l (set_nth l i p').
Proof.
  induction l as [|x l IH]; intros [|i] p p' Rr E HR; try discriminate; cbn.
  - inversion E; subst. constructor; [exact HR|]. clear -Rr. induction l; constructor; auto.
  - constructor; [auto|]. eapply IH; eauto.
Qed.
Lemma Les_refl l : Forall2 Le l l.
Proof. induction l; constructor; auto using Le_refl. Qed.
Lemma Les_trans a b c : Forall2 Le a b -> Forall2 Le b c -> Forall2 Le a c.
Proof.
  intros H. revert c. induction H; intros c K; inversion K; subst; constructor; eauto using Le_trans.
Qed.
Lemma Les_Base l l' : Forall2 Le l l' -> Forall Base l -> Forall Base l'.
Proof. induction 1; intros K; inversion K; subst; constructor; auto. now apply H. Qed.
Lemma Les_Open l l' : Forall2 Le l l' -> Forall Open l -> Forall Open l'.
Proof. induction 1; intros K; inversion K; subst; constructor; auto. now apply H. Qed.
Lemma Les_Named l l' : Forall2 Le l l' -> Forall Open l -> Forall Named l -> Forall Named l'.
Proof.
  induction 1; intros K N; inversion K; subst; inversion N; subst; constructor; auto.
  intros f E. destruct H as (H & _ & _ & _ & _ & _ & HX). destruct (HX ltac:(assumption)) as [_ HE].
  apply HE. match goal with HN : Named x |- _ => apply HN end. congruence.
Qed.
Lemma Les_nth l l' : Forall2 Le l l' -> forall i p, nth_error l i = Some p ->
  exists p', nth_error l' i = Some p' /\ Le p p'.
Proof.
  induction 1; intros [|i] p E; try discriminate; cbn in *; [inversion E; subst; eauto|eauto].
Qed.
Lemma Les_length l l' : Forall2 Le l l' -> List.length l' = List.length l.
Proof. induction 1; cbn; auto. Qed.

Lemma step_worker_Le l i : Forall Base l -> match step_worker content failures l i with
  | Some l' => Forall2 Le l l' /\
      (forall p, nth_error l i = Some p -> alive p = true -> pending p <> 0 ->
         exists p', nth_error l' i = Some p' /\ pending p' < pending p)
  | None => exists f, ok f /\ ~ readable content failures f
  end.
Proof.
  intros B. unfold step_worker. destruct (nth_error l i) as [p|] eqn:E.
  - assert (Bp : Base p) by (rewrite Forall_forall in B; apply B; eapply nth_error_In; eauto).
    assert (X := worker_Le p Bp). destruct (wstep p) as [p'|]; [|exact X]. destruct X as [L S]. split.
    + eapply set_nth_Forall2; eauto using Le_refl.
    + intros p0 [= <-] Al Pn. exists p'. rewrite set_nth_get, Nat.eqb_refl, E. auto.
  - split; [apply Les_refl|]. intros p0 H. discriminate.
Qed.

Lemma step_workers_Le is : forall l, Forall Base l -> match step_workers content failures l is with
  | Some l' => Forall2 Le l l'
  | None => exists f, ok f /\ ~ readable content failures f
  end.
Proof.
  induction is as [|i is IH]; intros l B; cbn; [apply Les_refl|].
  assert (X := step_worker_Le l i B). destruct (step_worker content failures l i) as [l1|]; [|exact X].
  destruct X as [X _]. specialize (IH l1 (Les_Base _ _ X B)).
  destruct (step_workers content failures l1 is); [eapply Les_trans; eauto|exact IH].
Qed.

Notation tick' := (tick content failures schedule).
Notation join' := (join content failures schedule).

Lemma tick_good s : Forall Base (pfs s) -> good (tick' s) (fun s' => Forall2 Le (pfs s) (pfs s')).
Proof.
  intros B. unfold tick. assert (X := step_workers_Le (schedule (clock s)) (pfs s) B).
  destruct (step_workers content failures (pfs s) (schedule (clock s))); exact X.
Qed.

Lemma pending_zero p : pending p = 0 <-> pq p = [] /\ work p = None.
Proof.
  unfold pending. destruct (pq p), (work p); cbn; split; try lia; try tauto; intros [? ?]; congruence.
Qed.

Lemma join_good fuel : forall s i p, Forall Base (pfs s) -> nth_error (pfs s) i = Some p -> pending p <= fuel ->
  good (join' fuel s i) (fun s' => Forall2 Le (pfs s) (pfs s') /\
    exists p', nth_error (pfs s') i = Some p' /\ Le p p' /\ pending p' = 0).
Proof.
  induction fuel as [|fuel IH]; intros s i p B E F.
  - assert (Z : pending p = 0) by lia. assert (Z' := Z). apply pending_zero in Z' as [Z1 Z2].
    cbn [join]. rewrite E, Z1, Z2. cbn. split; [apply Les_refl|]. exists p. auto using Le_refl.
  - destruct (Nat.eq_dec (pending p) 0) as [Z|Z].
    + assert (Z' := Z). apply pending_zero in Z' as [Z1 Z2].
      cbn [join]. rewrite E, Z1, Z2. cbn. split; [apply Les_refl|]. exists p. auto using Le_refl.
    + assert (Bp : Base p) by (rewrite Forall_forall in B; apply B; eapply nth_error_In; eauto).
      assert (Al : alive p = true).
      { destruct (alive p) eqn:Al; [reflexivity|]. exfalso. apply Z, pending_zero. now apply Bp. }
      assert (G : good (match step_worker content failures (pfs s) i with
                        | None => Killed
                        | Some l => bind (tick' {| pfs := l; clock := clock s |}) (fun s' => join' fuel s' i)
                        end) (fun s' => Forall2 Le (pfs s) (pfs s') /\
                          exists p', nth_error (pfs s') i = Some p' /\ Le p p' /\ pending p' = 0)).
      { assert (X := step_worker_Le (pfs s) i B).
        destruct (step_worker content failures (pfs s) i) as [l|]; [|exact X]. destruct X as [X Y].
        destruct (Y p E Al Z) as (p1 & E1 & L1).
        eapply good_bind; [apply tick_good; cbn; eapply Les_Base; eauto|]. cbn. intros s2 L2.
        destruct (Les_nth _ _ L2 _ _ E1) as (p2 & E2 & Le2).
        destruct (Les_nth _ _ X _ _ E) as (p1' & E1' & Le1). assert (p1' = p1) by congruence. subst p1'.
        eapply good_weaken.
        - apply (IH s2 i p2); [eapply Les_Base; [exact L2|]; eapply Les_Base; eauto|exact E2|].
          destruct Le2 as (_ & _ & H & _). lia.
        - intros s3 (L3 & p3 & E3 & Le3 & Z3). split; [eapply Les_trans; [exact X|]; eapply Les_trans; eauto|].
          exists p3. split; [exact E3|]. split; [|exact Z3]. eapply Le_trans; [exact Le1|]. eapply Le_trans; eauto. }
      cbn [join]. rewrite E, Al. cbn [negb]. destruct (pq p) as [|x q] eqn:Q; [destruct (work p) eqn:W|].
      * exact G.
      * exfalso. apply Z, pending_zero. auto.
      * exact G.
Qed.

(** The state between calls of the main thread: everything is open and every
    announced file is on its way. *)
Definition Ready (n : nat) (s : sys) : Prop :=
  Forall Base (pfs s) /\ Forall Open (pfs s) /\ Forall Named (pfs s) /\ List.length (pfs s) = n.

Lemma upd_get s i p g : nth_error (pfs s) i = Some p -> pfs (upd s i g) = set_nth (pfs s) i (g p).
Proof. intros E. unfold upd. now rewrite E. Qed.

Lemma Ready_Le n s s' : Ready n s -> Forall2 Le (pfs s) (pfs s') -> Ready n s'.
Proof.
  intros (A & B & C & D) L. split; [eapply Les_Base; eauto|]. split; [eapply Les_Open; eauto|].
  split; [eapply Les_Named; eauto|]. rewrite (Les_length _ _ L). exact D.
Qed.

Lemma Forall_nth {A} (P : A -> Prop) l i x : Forall P l -> nth_error l i = Some x -> P x.
Proof. rewrite Forall_forall. intros H E. apply H. eapply nth_error_In; eauto. Qed.

Lemma pf_read_good n s i p : Ready n s -> nth_error (pfs s) i = Some p ->
  good (pf_read content failures schedule s i) (fun r => Ready n (fst r) /\
    forall f, Exp p f -> exists d, snd r = SData d /\ rc f = Some d).
Proof.
  intros R E. unfold pf_read. assert (B : Forall Base (pfs s)) by apply R.
  eapply good_bind; [apply tick_good; exact B|]. intros s1 L1.
  destruct (Les_nth _ _ L1 _ _ E) as (p1 & E1 & Le1). assert (R1 := Ready_Le _ _ _ R L1).
  unfold join_fuel. rewrite E1.
  eapply good_bind; [apply (join_good (pending p1) s1 i p1); [apply R1|exact E1|lia]|].
  intros s2 (L2 & p2 & E2 & Le2 & Z). rewrite E2. cbn [good fst snd].
  assert (R2 := Ready_Le _ _ _ R1 L2). assert (Z' := Z). apply pending_zero in Z' as [Z1 Z2].
  split.
  - destruct R2 as (B2 & O2 & N2 & Ln). rewrite <- Ln. clear Ln.
    assert (P1 := Forall_nth _ _ _ _ B2 E2). assert (P2 := Forall_nth _ _ _ _ O2 E2).
    split; [|split; [|split]].
    + rewrite (upd_get _ _ _ _ E2). apply set_nth_Forall; auto.
    + rewrite (upd_get _ _ _ _ E2). apply set_nth_Forall; auto.
    + rewrite (upd_get _ _ _ _ E2). apply set_nth_Forall; auto. intros f H. discriminate.
    + rewrite (upd_get _ _ _ _ E2), set_nth_length. reflexivity.
  - intros f X. assert (Op : Open p) by (apply (Forall_nth Open (pfs s) i); [apply R|exact E]).
    destruct (Le_trans _ _ _ Le1 Le2) as (_ & _ & _ & _ & _ & _ & K). destruct (K Op) as [_ K'].
    apply K' in X. unfold Exp, last_pending in X. rewrite Z1, Z2 in X. cbn in X. exact X.
Qed.

Lemma Ready_forget n s i p : Ready n s -> nth_error (pfs s) i = Some p ->
  Ready n (upd s i (fun p => {| fname := None; pq := pq p; work := work p; pdata := pdata p;
                                alive := alive p; pclosed := pclosed p |})).
Proof.
  intros (B & O & N & Ln) E. rewrite <- Ln. clear Ln.
  assert (P1 := Forall_nth _ _ _ _ B E). assert (P2 := Forall_nth _ _ _ _ O E).
  split; [|split; [|split]]; rewrite (upd_get _ _ _ _ E);
    [apply set_nth_Forall; auto|apply set_nth_Forall; auto|apply set_nth_Forall; auto; intros f H; discriminate|
     now rewrite set_nth_length].
Qed.

Lemma find_hit_good n f : forall k i s, Ready n s ->
  good (find_hit content failures schedule k i s f) (fun r => Ready n (fst r) /\
    (snd r = SNone \/ exists d, snd r = SData d /\ rc f = Some d)).
Proof.
  induction k as [|k IH]; intros i s R; cbn [find_hit]; [cbn; auto|].
  eapply good_bind; [apply tick_good; apply R|]. intros s1 L1. assert (R1 := Ready_Le _ _ _ R L1).
  destruct (nth_error (pfs s1) i) as [p|] eqn:E; [|cbn; auto].
  destruct (names_eq (fname p) f) eqn:Hn; [|now apply IH].
  assert (Hf : fname p = Some f).
  { unfold names_eq in Hn. destruct (fname p) as [g|]; [|discriminate]. apply String.eqb_eq in Hn. congruence. }
  assert (X : Exp p f) by (apply (Forall_nth Named (pfs s1) i p); [apply R1|exact E|exact Hf]).
  eapply good_weaken.
  - eapply pf_read_good; [eapply Ready_forget; eauto|].
    rewrite (upd_get _ _ _ _ E), set_nth_get, Nat.eqb_refl, E. reflexivity.
  - cbn. intros [s2 r] [R2 K]. split; [exact R2|]. right. apply K. exact X.
Qed.

Lemma waste_good n wanted names : forall i s, Ready n s -> i + List.length names <= n ->
  good (waste content failures schedule names i s wanted) (Ready n).
Proof.
  induction names as [|fn names IH]; intros i s R L; cbn [waste]; [exact R|]. cbn in L.
  destruct (match fn with Some f => _ | None => false end).
  - destruct (nth_error (pfs s) i) as [p|] eqn:E.
    2:{ apply nth_error_None in E. destruct R as (_ & _ & _ & R). lia. }
    eapply good_bind; [eapply pf_read_good; eauto|]. intros [s1 r] [R1 _]. cbn. apply IH; [exact R1|lia].
  - apply IH; [exact R|lia].
Qed.

Lemma request_good n s i f : Ready n s -> i < n -> ok f ->
  good (pf_request content failures schedule s i f) (Ready n).
Proof.
  intros (B & O & N & Ln) Hi Hok. unfold pf_request.
  destruct (nth_error (pfs s) i) as [p|] eqn:E; [|apply nth_error_None in E; lia].
  assert (P1 := Forall_nth _ _ _ _ B E). assert (P2 := Forall_nth _ _ _ _ O E).
  set (p0 := {| fname := Some f; pq := pq p; work := work p; pdata := pdata p; alive := alive p; pclosed := pclosed p |}).
  eapply good_bind.
  - apply tick_good. rewrite (upd_get _ _ _ _ E). apply set_nth_Forall; auto.
  - intros s2 L2. rewrite (upd_get _ _ _ _ E) in L2. fold p0 in L2.
    assert (B2 : Forall Base (pfs s2)) by (eapply Les_Base; [exact L2|apply set_nth_Forall; auto]).
    assert (O2 : Forall Open (pfs s2)) by (eapply Les_Open; [exact L2|apply set_nth_Forall; auto]).
    assert (E0 : nth_error (set_nth (pfs s) i p0) i = Some p0) by (now rewrite set_nth_get, Nat.eqb_refl, E).
    destruct (Les_nth _ _ L2 _ _ E0) as (p2 & E2 & Le2).
    assert (Q1 := Forall_nth _ _ _ _ B2 E2). assert (Q2 := Forall_nth _ _ _ _ O2 E2).
    assert (N2 : forall j x, j <> i -> nth_error (pfs s2) j = Some x -> Named x).
    { intros j x Hj Ex.
      assert (exists x0, nth_error (set_nth (pfs s) i p0) j = Some x0) as [x0 Ex0].
      { destruct (nth_error (set_nth (pfs s) i p0) j) eqn:Z; [eauto|]. exfalso.
        apply nth_error_None in Z. assert (H := Les_length _ _ L2).
        assert (j < List.length (pfs s2)) by (apply nth_error_Some; congruence). lia. }
      destruct (Les_nth _ _ L2 _ _ Ex0) as (x1 & Ex1 & Lx). assert (x1 = x) by congruence. subst x1.
      rewrite set_nth_get in Ex0. destruct (Nat.eqb_spec i j); [congruence|].
      destruct Lx as (F & _ & _ & _ & _ & _ & K).
      destruct (K (Forall_nth _ _ _ _ O Ex0)) as [_ K']. intros g Hg. apply K'.
      apply (Forall_nth _ _ _ _ N Ex0). congruence. }
    cbn [good]. split; [|split; [|split]].
    + rewrite (upd_get _ _ _ _ E2). apply set_nth_Forall; [exact B2|].
      destruct Q1 as (C1 & C2 & C3 & C4). destruct Q2 as [[D1 _] D2]. split; [|split; [|split]]; cbn.
      * intros g Hg. apply in_app_iff in Hg as [Hg|[[= <-]|[]]]; auto.
      * exact C2.
      * congruence.
      * intros q1 q2 Eq. exfalso. assert (In None (pq p2 ++ [Some f])) by (rewrite Eq; apply in_app_iff; right; now left).
        apply in_app_iff in H as [H|[H|[]]]; [contradiction|discriminate].
    + rewrite (upd_get _ _ _ _ E2). apply set_nth_Forall; [exact O2|]. destruct Q2 as [D1 D2]. split; [exact D1|].
      cbn. intros H. apply in_app_iff in H as [H|[H|[]]]; [contradiction|discriminate].
    + rewrite (upd_get _ _ _ _ E2), Forall_forall. intros x Hx. apply In_nth_error in Hx as [j Hx].
      rewrite set_nth_get in Hx. destruct (Nat.eqb_spec i j) as [Hij|Hne].
      * subst j. rewrite E2 in Hx. injection Hx as <-. intros g Hg. cbn in Hg.
        destruct Le2 as (F2 & _). cbn in F2. unfold Exp, last_pending. cbn. rewrite last_last. congruence.
      * eapply N2; eauto.
    + rewrite (upd_get _ _ _ _ E2), set_nth_length, (Les_length _ _ L2), set_nth_length. exact Ln.
Qed.

Lemma index_none_lt names : forall i, index_none names = Some i -> i < List.length names.
Proof.
  induction names as [|[x|] names IH]; intros i H; cbn in H; [discriminate| |injection H as <-; cbn; lia].
  destruct (index_none names) as [j|]; [|discriminate]. injection H as <-. specialize (IH j eq_refl). cbn. lia.
Qed.
Lemma set_name_length names : forall i f, List.length (set_name names i f) = List.length names.
Proof. induction names as [|x l IH]; intros [|i] f; cbn; auto. Qed.

Lemma prefetch_good n wanted : forall names s, Ready n s -> List.length names <= n ->
  (forall f, In f wanted -> ok f) ->
  good (prefetch content failures schedule wanted names s) (Ready n).
Proof.
  induction wanted as [|f wanted IH]; intros names s R L Hok; cbn [prefetch]; [exact R|].
  assert (Hok' : forall g, In g wanted -> ok g) by (intros g Hg; apply Hok; now right).
  destruct (existsb _ names); [now apply IH|]. destruct (index_none names) as [i|] eqn:Ei; [|now apply IH].
  eapply good_bind; [apply request_good; [exact R| |apply Hok; now left]|].
  - apply index_none_lt in Ei. lia.
  - intros s' R'. apply IH; [exact R'|now rewrite set_name_length|exact Hok'].
Qed.

Lemma open_good n s f wanted : Ready (S n) s -> ok f -> (forall g, In g wanted -> ok g) ->
  good (open_cache content failures schedule s f wanted) (fun r => Ready (S n) (fst r) /\ rc f = Some (snd r)).
Proof.
  intros R Hf Hw. unfold open_cache. assert (Ln : List.length (pfs s) = S n) by apply R.
  eapply good_bind; [apply find_hit_good; exact R|]. intros [s1 r] [R1 K]. cbn [fst snd] in *.
  assert (G : good (match r with
        | SData (a :: d) => Done (a :: d)
        | _ => match pfs s1 with
               | [] => NameError
               | _ => match rc f with Some d => Done d | None => Killed end
               end
        end) (fun d => rc f = Some d)).
  { assert (D : good (match pfs s1 with
               | [] => NameError
               | _ => match rc f with Some d => Done d | None => Killed end
               end) (fun d => rc f = Some d)).
    { destruct (pfs s1) eqn:E; [destruct R1 as (_ & _ & _ & R1); rewrite E in R1; discriminate|].
      destruct (rc f) as [d|] eqn:Er; cbn; [reflexivity|]. exists f. split; [exact Hf|]. now apply read_cache_none. }
    destruct r as [| |[|a d]]; try exact D. destruct K as [K|(d' & [= <-] & K)]; [discriminate|]. exact K. }
  eapply good_bind; [exact G|]. intros d Hd. cbn beta.
  assert (L1 : List.length (map fname (pfs s1)) = S n) by (rewrite map_length; apply R1).
  eapply good_bind; [apply (waste_good (S n)); [exact R1|lia]|]. intros s2 R2.
  eapply good_bind; [apply (prefetch_good (S n)); [exact R2|lia|exact Hw]|]. intros s3 R3. cbn. auto.
Qed.

(** ** The data source *)
Definition SrcInv (n : nat) (s : source) : Prop :=
  Ready (S n) (reader s) /\ (forall f, In f (map fst (order s)) -> ok f) /\
  (forall f, cur_name s = Some f -> rc f = Some (cur_data s)).

Lemma pick_row d i : pick d i = row d i.
Proof.
  induction d as [|a d IH]; [reflexivity|]. cbn [pick]. rewrite IH. unfold row. cbn [forallb map].
  destruct (nth_error a i) as [x|] eqn:E.
  - assert (H : i < List.length a) by (apply nth_error_Some; congruence).
    destruct (Nat.ltb_spec i (List.length a)); [|lia]. cbn [andb].
    destruct (forallb _ d); [|reflexivity]. now rewrite (nth_error_nth _ _ _ E).
  - apply nth_error_None in E. destruct (Nat.ltb_spec i (List.length a)); [lia|]. reflexivity.
Qed.

Lemma to_prefetch_in ord m t pos f : In f (to_prefetch ord m t pos) -> In f (map fst ord).
Proof.
  unfold to_prefetch. rewrite in_flat_map. intros (k & _ & H).
  destruct (nth_error ord (pos + k * m)) as [o|] eqn:E; [|destruct H]. destruct H as [<-|[]].
  apply in_map. eapply nth_error_In; eauto.
Qed.

Lemma get_data_spec n m s pos : SrcInv n s ->
  (exists s' x, get_data content failures schedule m s pos = Done (s', x) /\
     direct content (order s) pos = Some x /\ SrcInv n s' /\ order s' = order s) \/
  (get_data content failures schedule m s pos = IndexError /\ direct content (order s) pos = None) \/
  (get_data content failures schedule m s pos = Killed /\ exists f, ok f /\ ~ readable content failures f).
Proof.
  intros (R & Hok & C). unfold get_data, direct. destruct (nth_error (order s) pos) as [[f i]|] eqn:E; [|auto].
  assert (Hf : ok f) by (apply Hok, in_map_iff; exists (f, i); split; [reflexivity|eapply nth_error_In; eauto]).
  set (step := if names_eq (cur_name s) f then Done s else _).
  assert (G : good step (fun s1 => SrcInv n s1 /\ order s1 = order s /\ rc f = Some (cur_data s1))).
  { unfold step. destruct (names_eq (cur_name s) f) eqn:Hn.
    - cbn. split; [split; auto|]. split; [reflexivity|]. apply C.
      unfold names_eq in Hn. destruct (cur_name s) as [g|]; [|discriminate]. apply String.eqb_eq in Hn. congruence.
    - eapply good_bind; [apply (open_good n); [exact R|exact Hf|]|].
      + intros g Hg. apply Hok. eapply to_prefetch_in; eauto.
      + intros [s1 d] [R1 Hd]. cbn in *. split; [|auto]. split; [exact R1|]. split; [exact Hok|].
        cbn. intros g [= <-]. exact Hd. }
  destruct step as [s1| | | | |]; cbn [good bind] in G |- *; try contradiction.
  - destruct G as (I1 & O1 & Hd). apply read_cache_spec in Hd as [Hd _]. rewrite Hd.
    unfold picked. rewrite pick_row. destruct (row (cur_data s1) i) as [x|]; cbn.
    + left. exists s1, x. auto.
    + right. left. auto.
  - right. right. auto.
Qed.

Lemma run_spec n m : forall ops s, SrcInv n s ->
  (forall f, In f (files_of (order s) ops) -> ok f) ->
  let answers := fst (run content failures schedule m s ops) in
  answers = direct_answers content (order s) ops \/
  (exists k, answers = firstn k (direct_answers content (order s) ops) ++ [Killed]) /\
  exists f, ok f /\ ~ readable content failures f.
Proof.
  induction ops as [|[pos|ord] ops IH]; intros s I Hf; cbn [run direct_answers]; [now left| |].
  - assert (Hf' : forall g, In g (files_of (order s) ops) -> ok g).
    { intros g Hg. destruct ops as [|o ops].
      - cbn in *. apply Hf. rewrite in_app_iff. left. rewrite app_nil_r in Hg. exact Hg.
      - cbn in Hg. apply in_app_iff in Hg as [Hg|Hg]; apply Hf; cbn; apply in_app_iff; [now left|now right]. }
    destruct (get_data_spec n m s pos I) as [(s' & x & -> & -> & I' & O')|[[-> ->]|[-> K]]].
    + specialize (IH s' I'). rewrite O' in IH. specialize (IH Hf').
      destruct (run content failures schedule m s' ops) as [l sf]. cbn in *.
      destruct IH as [-> |[(k & ->) K]]; [now left|]. right. split; [|exact K]. exists (S k). reflexivity.
    + left. reflexivity.
    + right. split; [|exact K]. exists 0. reflexivity.
  - apply (IH (reset s ord)).
    + destruct I as (R & Ho & C). split; [exact R|]. split; [|discriminate]. cbn.
      intros g Hg. apply Hf. cbn. apply in_app_iff. right. destruct ops as [|[|] ops]; cbn; apply in_app_iff; now left.
    + cbn. intros g Hg. apply Hf. cbn. apply in_app_iff. now right.
Qed.

Lemma run_inv n m : forall ops s, SrcInv n s ->
  (forall f, In f (files_of (order s) ops) -> ok f) -> SrcInv n (snd (run content failures schedule m s ops)).
Proof.
  induction ops as [|[pos|ord] ops IH]; intros s I Hf; cbn [run]; [exact I| |].
  - assert (Hf' : forall g, In g (files_of (order s) ops) -> ok g).
    { intros g Hg. destruct ops as [|o ops].
      - cbn in *. apply Hf. rewrite in_app_iff. left. rewrite app_nil_r in Hg. exact Hg.
      - cbn in Hg. apply in_app_iff in Hg as [Hg|Hg]; apply Hf; cbn; apply in_app_iff; [now left|now right]. }
    destruct (get_data_spec n m s pos I) as [(s' & x & -> & _ & I' & O')|[[-> _]|[-> K]]]; [|exact I|exact I].
    specialize (IH s' I'). rewrite O' in IH. specialize (IH Hf').
    destruct (run content failures schedule m s' ops) as [l sf]. exact IH.
  - apply (IH (reset s ord)).
    + destruct I as (R & Ho & C). split; [exact R|]. split; [|discriminate]. cbn.
      intros g Hg. apply Hf. cbn. apply in_app_iff. right. destruct ops as [|[|] ops]; cbn; apply in_app_iff; now left.
    + cbn. intros g Hg. apply Hf. cbn. apply in_app_iff. now right.
Qed.

Lemma new_source_inv n ord : (forall f, In f (map fst ord) -> ok f) -> SrcInv n (new_source (S n) ord).
Proof.
  intros H. split; [|split; [exact H|discriminate]]. cbn [reader new_source].
  assert (X : Base new_pf /\ Open new_pf /\ Named new_pf).
  { split; [|split].
    - split; [intros f []|]. split; [discriminate|]. split; [discriminate|]. intros [|] q2 E; discriminate.
    - split; [split; reflexivity|intros []].
    - intros f E. discriminate. }
  destruct X as (X1 & X2 & X3).
  split; [|split; [|split]]; cbn [pfs]; try (apply Forall_forall; intros p Hp; apply repeat_spec in Hp; now subst).
  apply repeat_length.
Qed.

(** ** Closing *)
Definition closed (p : pf) : Prop := alive p = false /\ pclosed p = true /\ pq p = [] /\ work p = None.

Lemma Le_closed p p' : Le p p' -> closed p -> closed p'.
Proof. intros (_ & _ & _ & _ & L & _ & _) C. rewrite (L (proj1 C)). exact C. Qed.

Definition CloseInv (k : nat) (l : list pf) : Prop :=
  Forall Base l /\ forall i p, nth_error l i = Some p ->
    (i < k -> closed p) /\ (k <= i -> Open p).

Lemma CloseInv_Le k l l' : CloseInv k l -> Forall2 Le l l' -> CloseInv k l'.
Proof.
  intros [B C] L. split; [eapply Les_Base; eauto|]. intros i p' E'.
  assert (exists p, nth_error l i = Some p) as [p E].
  { destruct (nth_error l i) eqn:Z; [eauto|]. exfalso. apply nth_error_None in Z.
    assert (i < List.length l') by (apply nth_error_Some; congruence). rewrite (Les_length _ _ L) in H. lia. }
  destruct (Les_nth _ _ L _ _ E) as (p1 & E1 & Lp). assert (p1 = p') by congruence. subst p1.
  destruct (C i p E) as [C1 C2]. split.
  - intros H. eapply Le_closed; eauto.
  - intros H. destruct Lp as (_ & F & _ & _ & _ & _ & K). apply K. auto.
Qed.

Lemma pf_close_good k s : CloseInv k (pfs s) -> k < List.length (pfs s) ->
  good (pf_close content failures schedule s k)
       (fun s' => CloseInv (S k) (pfs s') /\ List.length (pfs s') = List.length (pfs s)).
Proof.
  intros CI Hk. unfold pf_close. destruct (nth_error (pfs s) k) as [p|] eqn:E; [|apply nth_error_None in E; lia].
  destruct (proj2 CI k p E) as [_ C]. assert (Op := C (le_n _)). rewrite (proj2 (proj1 Op)).
  eapply good_bind; [apply tick_good; apply CI|]. intros s0 L0. assert (CI0 := CloseInv_Le _ _ _ CI L0).
  destruct (Les_nth _ _ L0 _ _ E) as (p0 & E0 & Le0). unfold join_fuel at 1. rewrite E0.
  eapply good_bind; [apply (join_good (pending p0) s0 k p0); [apply CI0|exact E0|lia]|].
  intros s1 (L1 & p1 & E1 & Le1 & Z1). assert (CI1 := CloseInv_Le _ _ _ CI0 L1). cbn zeta.
  destruct (proj2 CI1 k p1 E1) as [_ C1]. assert (Op1 := C1 (le_n _)).
  apply pending_zero in Z1 as [Q1 W1].
  set (p2 := {| fname := fname p1; pq := pq p1 ++ [None]; work := work p1; pdata := pdata p1;
                alive := alive p1; pclosed := pclosed p1 |}).
  assert (B2 : Base p2).
  { split; [|split; [|split]]; unfold p2; cbn; rewrite ?Q1, ?W1; cbn.
    - intros f [H|[]]. discriminate.
    - discriminate.
    - destruct Op1 as [[Op1 _] _]. congruence.
    - intros [|x [|]] q2 Eq; inversion Eq; auto. }
  eapply good_bind; [apply tick_good; rewrite (upd_get _ _ _ _ E1); apply set_nth_Forall; [apply CI1|exact B2]|].
  intros s3 L3. rewrite (upd_get _ _ _ _ E1) in L3. fold p2 in L3.
  assert (E2 : nth_error (set_nth (pfs s1) k p2) k = Some p2) by (now rewrite set_nth_get, Nat.eqb_refl, E1).
  destruct (Les_nth _ _ L3 _ _ E2) as (p3 & E3 & Le3). unfold join_fuel. rewrite E3.
  assert (B3 : Forall Base (pfs s3)) by (eapply Les_Base; [exact L3|apply set_nth_Forall; [apply CI1|exact B2]]).
  eapply good_bind; [apply (join_good (pending p3) s3 k p3); [exact B3|exact E3|lia]|].
  intros s4 (L4 & p4 & E4 & Le4 & Z4). cbn [good].
  assert (L24 := Les_trans _ _ _ L3 L4).
  assert (X : Le p2 p4) by (eapply Le_trans; eauto).
  apply pending_zero in Z4 as [Q4 W4].
  assert (Dead : alive p4 = false).
  { destruct X as (_ & _ & _ & _ & _ & St & _). destruct (alive p4) eqn:A4; [|reflexivity]. exfalso.
    assert (H : In None (pq p4)); [|rewrite Q4 in H; destruct H].
    apply St; [|exact A4]. intros _. unfold p2. cbn. apply in_app_iff. right. now left. }
  set (p5 := {| fname := fname p4; pq := pq p4; work := work p4; pdata := pdata p4;
                alive := alive p4; pclosed := true |}).
  assert (B4 := Les_Base _ _ L4 B3).
  rewrite (upd_get _ _ _ _ E4). fold p5. split; [split|].
  - apply set_nth_Forall; [exact B4|]. exact (Forall_nth _ _ _ _ B4 E4).
  - intros i q Eq. rewrite set_nth_get in Eq. destruct (Nat.eqb_spec k i) as [Hij|Hne].
    + subst i. rewrite E4 in Eq. injection Eq as <-. split; [|lia]. intros _. unfold closed, p5. cbn. split; [exact Dead|]. split; [reflexivity|]. split; assumption.
    + assert (exists x, nth_error (pfs s1) i = Some x) as [x Ex].
      { destruct (nth_error (pfs s1) i) eqn:Z; [eauto|]. exfalso. apply nth_error_None in Z.
        assert (i < List.length (pfs s4)) by (apply nth_error_Some; congruence).
        rewrite (Les_length _ _ L24), set_nth_length in H. lia. }
      assert (Ex' : nth_error (set_nth (pfs s1) k p2) i = Some x).
      { rewrite set_nth_get. destruct (Nat.eqb_spec k i); [congruence|exact Ex]. }
      destruct (Les_nth _ _ L24 _ _ Ex') as (y & Ey & Ly). assert (y = q) by congruence. subst y.
      destruct (proj2 CI1 i x Ex) as [D1 D2]. split.
      * intros H. eapply Le_closed; [exact Ly|]. apply D1. lia.
      * intros H. destruct Ly as (_ & F & _ & _ & _ & _ & K). apply K, D2. lia.
  - rewrite set_nth_length, (Les_length _ _ L24), set_nth_length, (Les_length _ _ L1), (Les_length _ _ L0). reflexivity.
Qed.

Lemma close_all_good : forall m k s, CloseInv k (pfs s) -> k + m = List.length (pfs s) ->
  good (close_all content failures schedule m k s) (fun s' => CloseInv (k + m) (pfs s') /\
    List.length (pfs s') = List.length (pfs s)).
Proof.
  induction m as [|m IH]; intros k s C L; cbn [close_all].
  - rewrite Nat.add_0_r. cbn. auto.
  - eapply good_bind; [apply pf_close_good; [exact C|lia]|]. intros s' [C' L'].
    eapply good_weaken; [apply (IH (S k) s' C'); lia|]. intros s2 [C2 L2].
    replace (k + S m) with (S k + m) by lia. split; [exact C2|congruence].
Qed.

Lemma closed_forall l : CloseInv (List.length l) l -> Forall closed l.
Proof.
  intros [_ C]. rewrite Forall_forall. intros p Hp. apply In_nth_error in Hp as [i E].
  apply (C i p E). apply nth_error_Some. congruence.
Qed.

Lemma Ready_CloseInv n s : Ready n s -> CloseInv 0 (pfs s).
Proof.
  intros (B & O & _). split; [exact B|]. intros i p E. split; [lia|]. intros _. exact (Forall_nth _ _ _ _ O E).
Qed.

Lemma close_again : forall m k s, Forall closed (pfs s) -> close_all content failures schedule m k s = Done s.
Proof.
  induction m as [|m IH]; intros k s C; cbn [close_all]; [reflexivity|].
  unfold pf_close. destruct (nth_error (pfs s) k) as [p|] eqn:E.
  - destruct (Forall_nth _ _ _ _ C E) as (_ & -> & _). cbn. now apply IH.
  - cbn. now apply IH.
Qed.
End Proofs.
