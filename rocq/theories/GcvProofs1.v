(** Order of a visit. *)
From Coq Require Import String List Arith Bool Lia.
From Verif Require Import IdxModel GcvModel GcvSpec.
Import ListNotations.
Local Open Scope list_scope.

Lemma member_in v l : member v l = true <-> In v l.
Proof.
  unfold member. rewrite existsb_exists. split.
  - intros (x & H1 & H2). apply Nat.eqb_eq in H2. subst. exact H1.
  - intros H. exists v. split; [exact H|apply Nat.eqb_refl].
Qed.
Lemma member_out v l : member v l = false <-> ~ In v l.
Proof. rewrite <- member_in. destruct (member v l); split; intros; congruence. Qed.

Section Visit.
Context {V : Type}.
Implicit Types g : graph V.

Definition after g (done : list nat) (q : nat) : Prop :=
  forall y v p, fn_of g q = Some y -> In v (f_in y) -> parent g v = Some p -> In p done.
Fixpoint sorted g (done l : list nat) : Prop :=
  match l with [] => True | q :: l => after g done q /\ sorted g (done ++ [q]) l end.
Lemma sorted_app g l1 : forall done l2, sorted g done (l1 ++ l2) <-> sorted g done l1 /\ sorted g (done ++ l1) l2.
Proof.
  induction l1 as [|q l1 IH]; intros done l2; cbn [app sorted].
  - rewrite app_nil_r. tauto.
  - rewrite IH, <- app_assoc. cbn [app]. tauto.
Qed.

Lemma parent_spec g v p : parent g v = Some p -> exists x, nth_error (g_vars g) v = Some x /\ v_parent x = Some p.
Proof. unfold parent, var_of. destruct (nth_error (g_vars g) v) as [x|]; [|discriminate]. intros H. exists x. auto. Qed.
Lemma parent_lt g f y v p : built g -> fn_of g f = Some y -> In v (f_in y) -> parent g v = Some p -> p < f.
Proof.
  intros B H1 H2 H3. destruct (built_in g B f y v H1 H2) as (x & Hx & Hlt).
  apply parent_spec in H3. destruct H3 as (x' & Hx' & Hp). rewrite Hx in Hx'. injection Hx' as <-. apply Hlt, Hp.
Qed.
Lemma parent_fn g v p : built g -> parent g v = Some p -> exists y, fn_of g p = Some y /\ In v (f_out y).
Proof. intros B H. apply parent_spec in H. destruct H as (x & Hx & Hp). exact (built_parent g B v x p Hx Hp). Qed.

Definition visited g (Q : nat -> Prop) (f : nat) (s s' : list nat * list nat) : Prop :=
  exists ext, snd s' = snd s ++ ext /\ sorted g (snd s) ext /\ (forall q, In q ext -> q < f /\ Q q) /\
    (forall q, In q (fst s') -> In q (fst s) \/ In q (snd s')) /\ incl (fst s) (fst s').
Lemma visited_refl g Q f s : visited g Q f s s.
Proof. exists []. rewrite app_nil_r. cbn. repeat split; try tauto. intros x H. exact H. Qed.
Lemma visited_trans g Q f s1 s2 s3 : visited g Q f s1 s2 -> visited g Q f s2 s3 -> visited g Q f s1 s3.
Proof.
  intros (e1 & A1 & B1 & C1 & D1 & E1) (e2 & A2 & B2 & C2 & D2 & E2). exists (e1 ++ e2). rewrite app_assoc, <- A1.
  split; [exact A2|]. split; [apply sorted_app; rewrite <- A1; auto|]. split.
  - intros q H. apply in_app_or in H. destruct H; auto.
  - split.
    + intros q H. destruct (D2 q H) as [H1|H1]; [|auto]. destruct (D1 q H1) as [H2|H2]; [auto|]. right. rewrite A2. apply in_or_app. auto.
    + intros q H. apply E2, E1, H.
Qed.

Theorem visit_ok g (Q : nat -> Prop) : built g ->
  (forall f y v p, Q f -> fn_of g f = Some y -> In v (f_in y) -> parent g v = Some p -> Q p) ->
  forall fuel f s, f < fuel -> (exists y, fn_of g f = Some y) -> Q f -> (forall q, In q (fst s) -> q <= f -> In q (snd s)) -> ~ In f (fst s) ->
  exists s' ext, visit fuel g f s = Some s' /\ snd s' = snd s ++ ext ++ [f] /\ sorted g (snd s) (ext ++ [f]) /\
    (forall q, In q ext -> q < f /\ Q q) /\ (forall q, In q (fst s') -> In q (fst s) \/ In q (snd s')) /\ incl (fst s) (fst s').
Proof.
  intros B HQ. induction fuel as [|fuel IH]; intros f s Hf (y & Hy) Qf Hs Hnew; [lia|].
  cbn [visit]. rewrite Hy. cbn [obind].
  set (F := fun (s : option (list nat * list nat)) v => obind s (fun s => match parent g v with None => Some s | Some p => if member p (fst s) then Some s else visit fuel g p s end)).
  assert (L : forall l s1, incl l (f_in y) -> (forall q, In q (fst s1) -> q < f -> In q (snd s1)) ->
    exists s2, fold_left F l (Some s1) = Some s2 /\ visited g Q f s1 s2 /\ (forall v p, In v l -> parent g v = Some p -> In p (snd s2)) /\ (forall q, In q (fst s2) -> q < f -> In q (snd s2))).
  { induction l as [|v l IHl]; intros s1 Hl Hs1.
    - exists s1. split; [reflexivity|]. split; [apply visited_refl|]. split; [intros ? ? []|exact Hs1].
    - cbn [fold_left].
      assert (V1 : exists s2, F (Some s1) v = Some s2 /\ visited g Q f s1 s2 /\ (forall p, parent g v = Some p -> In p (snd s2)) /\ (forall q, In q (fst s2) -> q < f -> In q (snd s2))).
      { unfold F. cbn [obind]. destruct (parent g v) as [p|] eqn:Ep.
        - assert (Hv : In v (f_in y)) by (apply Hl; left; reflexivity).
          pose proof (parent_lt g f y v p B Hy Hv Ep) as Hlt.
          destruct (member p (fst s1)) eqn:Em.
          + apply member_in in Em. exists s1. split; [reflexivity|]. split; [apply visited_refl|]. split; [|exact Hs1].
            intros p' [= <-]. apply Hs1; assumption.
          + apply member_out in Em. destruct (parent_fn g v p B Ep) as (yp & Hyp & _).
            destruct (IH p s1) as (s2 & ext & E1 & E2 & E3 & E4 & E5 & E6); [lia|eauto|exact (HQ f y v p Qf Hy Hv Ep)| |exact Em|].
            { intros q Hq Hle. apply Hs1; [exact Hq|lia]. }
            exists s2. split; [exact E1|]. split.
            { exists (ext ++ [p]). split; [exact E2|]. split; [exact E3|]. split; [|split; [exact E5|exact E6]].
              intros q Hq. apply in_app_or in Hq. destruct Hq as [Hq|[<-|[]]].
              - destruct (E4 q Hq). split; [lia|assumption].
              - split; [lia|exact (HQ f y v p Qf Hy Hv Ep)]. }
            split.
            { intros p' [= <-]. rewrite E2. apply in_or_app. right. apply in_or_app. right. left. reflexivity. }
            { intros q Hq Hqf. destruct (E5 q Hq) as [H|H]; [|exact H]. rewrite E2. apply in_or_app. left. apply Hs1; assumption. }
        - exists s1. split; [reflexivity|]. split; [apply visited_refl|]. split; [discriminate|exact Hs1]. }
      destruct V1 as (s2 & E1 & E2 & E3 & E4). rewrite E1.
      destruct (IHl s2) as (s3 & F1 & F2 & F3 & F4); [intros q Hq; apply Hl; right; exact Hq|exact E4|].
      exists s3. split; [exact F1|]. split; [exact (visited_trans _ _ _ _ _ _ E2 F2)|]. split; [|exact F4].
      intros w p [<-|Hw] Hp; [|exact (F3 w p Hw Hp)].
      destruct F2 as (e & Fe & _). rewrite Fe. apply in_or_app. left. exact (E3 p Hp). }
  destruct (L (f_in y) (f :: fst s, snd s)) as (s2 & E1 & (ext & A1 & A2 & A3 & A4 & A5) & E3 & E4).
  { intros q Hq. exact Hq. }
  { cbn [fst snd]. intros q [<-|Hq] Hlt; [lia|]. apply Hs; [exact Hq|lia]. }
  cbn [fst snd] in *. exists (fst s2, snd s2 ++ [f]), ext. split.
  { rewrite E1. reflexivity. }
  cbn [fst snd]. split; [rewrite A1, app_assoc; reflexivity|]. split.
  { apply sorted_app. split; [exact A2|]. cbn [sorted]. split; [|exact I]. rewrite <- A1.
    intros y' v p Hy' Hv Hp. rewrite Hy in Hy'. injection Hy' as <-. exact (E3 v p Hv Hp). }
  split; [exact A3|]. split.
  - intros q Hq. destruct (A4 q Hq) as [[<-|H]|H].
    + right. apply in_or_app. right. left. reflexivity.
    + auto.
    + right. apply in_or_app. auto.
  - intros q Hq. apply A5. right. exact Hq.
Qed.
End Visit.
