(** Proofs about SwapSpec: happenings and the memory they take. *)
From Coq Require Import List ZArith Bool Arith Lia.
From Verif Require Import SwapModel SwapSpec SwapProofs1.
Import ListNotations.
Local Open Scope list_scope.
Local Open Scope Z_scope.

Section replay.
Variables (order : list record) (ends : list nat) (weight : nat -> Z) (limit : Z) (strict : Prop).
Notation at_ := (at_ order).
Notation act := (act order).
Notation after := (after order).
Notation body := (body order ends).
Notation through := (through order ends).
Notation at_start := (at_start order ends).
Notation memory := (memory order weight).
Notation now := (after at_start).

Lemma after_app st a b s : after st (a ++ b) s = fold_left (fun p h => act s h p) b (after st a s).
Proof. unfold SwapSpec.after. apply fold_left_app. Qed.
Lemma after_snoc st a h s : after st (a ++ [h]) s = act s h (after st a s).
Proof. rewrite after_app. reflexivity. Qed.
Lemma memory_total w : memory w = total (fun s => if occupied (w s) then weight s else 0) (arrays order).
Proof. unfold SwapSpec.memory. induction (arrays order) as [| s l IH]; [reflexivity |]. rewrite total_cons, <- IH. reflexivity. Qed.
Lemma memory_ext w w' : (forall s, occupied (w s) = occupied (w' s)) -> memory w = memory w'.
Proof. intros H. rewrite !memory_total. apply total_ext. intros s _. rewrite H. reflexivity. Qed.

(** Happenings that do no more to array [s] than clearing it. *)
Definition quiet (s : nat) (h : happening) : Prop :=
  match h with Planned (_, i) => said (at_ i) <> s | Used i => said (at_ i) = s -> is_clear (at_ i) = true | Dropped _ => True end.
Lemma quiet_act s h a : quiet s h -> act s h a = a \/ forall b, act s h b = Absent.
Proof.
  destruct h as [(t, i) | i | s']; cbn [quiet SwapSpec.act]; intros Q.
  - fold (at_ i). destruct (Nat.eqb_spec (said (at_ i)) s); [contradiction | left; reflexivity].
  - fold (at_ i). destruct (Nat.eqb_spec (said (at_ i)) s) as [E |]; [| left; reflexivity]. specialize (Q E). unfold is_clear in Q. destruct (tag (at_ i)); try discriminate. right. reflexivity.
  - destruct (Nat.eqb s' s); [right | left]; reflexivity.
Qed.
Lemma quiet_leave s l a : Forall (quiet s) l -> fold_left (fun p h => act s h p) l (leave a) = leave (fold_left (fun p h => act s h p) l a).
Proof.
  intros F. revert a. induction F as [| h l Q F IH]; intros a; [reflexivity |]. cbn [fold_left]. destruct (quiet_act s h a Q) as [E | E].
  - destruct (quiet_act s h (leave a) Q) as [E' | E']; [rewrite E, E'; apply IH |]. rewrite !E'. apply (IH Absent).
  - rewrite !E. apply (IH Absent).
Qed.
Lemma quiet_stays s l a : Forall (quiet s) l -> fold_left (fun p h => act s h p) l a = a \/ fold_left (fun p h => act s h p) l a = Absent.
Proof.
  intros F. revert a. induction F as [| h l Q F IH]; intros a; [left; reflexivity |]. cbn [fold_left]. destruct (quiet_act s h a Q) as [E | E]; rewrite E; [apply IH |]. right. destruct (IH Absent); assumption.
Qed.
Lemma leave_occupied a : occupied (leave a) = occupied a.
Proof. destruct a; reflexivity. Qed.
Lemma other_act s t i a : said (at_ i) <> s -> act s (Planned (t, i)) a = a.
Proof. intros N. cbn [SwapSpec.act]. fold (at_ i). destruct (Nat.eqb_spec (said (at_ i)) s); [contradiction | reflexivity]. Qed.

(** * Good runs *)
Definition fine (hs : list happening) : Prop := forall a b, hs = a ++ b ->
  memory (now a) <= limit /\ forall i c, b = Used i :: c -> strict -> demands order i -> now a (said (at_ i)) = Resident.
Lemma fine_snoc hs h : fine hs -> memory (now (hs ++ [h])) <= limit -> (forall i, h = Used i -> strict -> demands order i -> now hs (said (at_ i)) = Resident) -> fine (hs ++ [h]).
Proof.
  intros F M D a b E. induction b as [| x b _] using rev_ind.
  - rewrite app_nil_r in E. subst a. split; [exact M |]. intros i c X. discriminate.
  - rewrite app_assoc in E. apply app_inj_tail in E as (E & <-). destruct (F a b E) as (F1 & F2). split; [exact F1 |]. intros i c X. destruct b as [| y b].
    + cbn in X. injection X as X _. rewrite app_nil_r in E. subst a. intros St. apply D; [exact X | exact St].
    + cbn in X. injection X as -> _. apply (F2 i b eq_refl).
Qed.
Lemma fine_nil : memory at_start <= limit -> fine [].
Proof. intros M a b E. symmetry in E. apply app_eq_nil in E as (-> & ->). split; [exact M |]. intros i c X. discriminate. Qed.

(** A swap out followed by nothing but clears of its array may be put in and taken out. *)
Section swap_out.
Variables (k : nat) (A B : list happening).
Hypothesis Q : Forall (quiet (said (at_ k))) B.
Notation with_it := (A ++ Planned (SwapOut, k) :: B).
Notation without := (A ++ B).
Lemma act_out a : act (said (at_ k)) (Planned (SwapOut, k)) a = leave a.
Proof. cbn [SwapSpec.act]. unfold SwapModel.at_. rewrite Nat.eqb_refl. reflexivity. Qed.
Lemma out_self B' : Forall (quiet (said (at_ k))) B' -> now (A ++ Planned (SwapOut, k) :: B') (said (at_ k)) = leave (now (A ++ B') (said (at_ k))).
Proof. intros F. rewrite !after_app. cbn [fold_left]. rewrite act_out. apply quiet_leave. exact F. Qed.
Lemma out_others B' s : s <> said (at_ k) -> now (A ++ Planned (SwapOut, k) :: B') s = now (A ++ B') s.
Proof. intros N. rewrite !after_app. cbn [fold_left]. rewrite other_act by congruence. reflexivity. Qed.
Lemma out_memory B' : Forall (quiet (said (at_ k))) B' -> memory (now (A ++ Planned (SwapOut, k) :: B')) = memory (now (A ++ B')).
Proof. intros F. apply memory_ext. intros s. destruct (Nat.eq_dec s (said (at_ k))) as [-> | N]; [rewrite out_self, leave_occupied by exact F; reflexivity | rewrite out_others by exact N; reflexivity]. Qed.
Lemma app_cases (X : Type) (a b c d : list X) : a ++ b = c ++ d -> (exists e, c = a ++ e /\ b = e ++ d) \/ (exists e, a = c ++ e /\ d = e ++ b).
Proof. revert c. induction a as [| x a IH]; intros c E; [left; exists c; auto |]. destruct c as [| y c]; [right; exists (x :: a); auto |]. injection E as -> E. destruct (IH c E) as [(e & -> & ->) | (e & -> & ->)]; [left | right]; exists e; auto. Qed.
Lemma quiet_not_demanded B1 i c : B = B1 ++ Used i :: c -> demands order i -> said (at_ i) <> said (at_ k).
Proof.
  intros E (D & _) S. rewrite E in Q. apply Forall_app in Q as (_ & Q'). inversion Q'; subst. cbn [quiet] in H1. specialize (H1 S). apply D. unfold is_clear in H1. fold (at_ i). destruct (tag (at_ i)); [discriminate | discriminate | reflexivity].
Qed.
Lemma fine_out : fine with_it <-> fine without.
Proof using Q.
  split; intros F a b E.
  - apply app_cases in E as [(e & -> & E) | (e & -> & E)].
    + destruct (F (A ++ Planned (SwapOut, k) :: e) b) as (F1 & F2); [rewrite E, <- app_assoc; reflexivity |]. assert (Qe : Forall (quiet (said (at_ k))) e) by (rewrite E in Q; apply Forall_app in Q as (Q1 & _); exact Q1).
      rewrite out_memory in F1 by exact Qe. split; [exact F1 |]. intros i c -> St D. rewrite <- (F2 i c eq_refl St D). symmetry. apply out_others. eapply quiet_not_demanded; eassumption.
    + destruct (F a (e ++ Planned (SwapOut, k) :: B)) as (F1 & F2); [rewrite app_assoc; reflexivity |]. split; [exact F1 |]. intros i c -> St D. destruct e as [| x e].
      * cbn in E. destruct (F (a ++ [Planned (SwapOut, k)]) (Used i :: c)) as (_ & F3); [rewrite app_nil_r, <- app_assoc, E; reflexivity |].
        rewrite <- (F3 i c eq_refl St D). rewrite after_snoc. symmetry. rewrite other_act; [reflexivity |]. intros X. apply (quiet_not_demanded [] i c (eq_sym E) D). congruence.
      * injection E as <- E. apply (F2 i _ eq_refl St D).
  - apply app_cases in E as [(e & -> & E) | (e & -> & E)].
    + destruct e as [| x e].
      * cbn in E. subst b. rewrite app_nil_r. destruct (F A B eq_refl) as (F1 & _). split; [exact F1 |]. intros i c X. discriminate.
      * injection E as <- E. destruct (F (A ++ e) b) as (F1 & F2); [rewrite E; apply app_assoc |]. assert (Qe : Forall (quiet (said (at_ k))) e) by (rewrite E in Q; apply Forall_app in Q as (Q1 & _); exact Q1).
        rewrite out_memory by exact Qe. split; [exact F1 |]. intros i c -> St D. rewrite <- (F2 i c eq_refl St D). apply out_others. eapply quiet_not_demanded; [exact E | exact D].
    + destruct (F a (e ++ B)) as (F1 & F2); [rewrite app_assoc; reflexivity |]. split; [exact F1 |]. intros i c -> St D. destruct e as [| x e]; [discriminate |]. injection E as <- E. apply (F2 i _ eq_refl St D).
Qed.
End swap_out.

(** * The part of a run that a schedule in the making determines *)
Definition sofar (b e : nat -> list event) (g : nat) : list happening := through b e g ++ map Planned (e g) ++ map Planned (b (S g)).
Lemma sofar_S b e g : sofar b e (S g) = sofar b e g ++ body (S g) ++ map Planned (e (S g)) ++ map Planned (b (S (S g))).
Proof. unfold sofar. cbn [SwapSpec.through]. rewrite <- !app_assoc. reflexivity. Qed.
Lemma through_ext b e b' e' g : (forall k, (k <= g)%nat -> b k = b' k) -> (forall k, (k < g)%nat -> e k = e' k) -> through b e g = through b' e' g.
Proof. induction g as [| g IH]; intros B E; [reflexivity |]. cbn [SwapSpec.through]. rewrite IH, (B (S g)), (E g); auto. Qed.
Lemma sofar_begin b e g x : sofar (push b (S g) x) e g = sofar b e g ++ [Planned x].
Proof.
  unfold sofar. rewrite (through_ext (push b (S g) x) e b e); [| intros k K; unfold push; apply set_other; lia | reflexivity].
  unfold push. rewrite set_same, map_app, <- !app_assoc. reflexivity.
Qed.
Lemma sofar_final b e g x : b (S g) = [] -> sofar b (push e g x) g = sofar b e g ++ [Planned x].
Proof.
  intros N. unfold sofar. rewrite (through_ext b (push e g x) b e); [| reflexivity | intros k K; unfold push; apply set_other; lia].
  unfold push. rewrite set_same, N, map_app, <- !app_assoc. reflexivity.
Qed.
Lemma sofar_split b e g h : (h <= g)%nat -> exists pre post, (forall x, sofar b (set e h x) g = pre ++ map Planned x ++ post) /\
  (forall y, List.In y post -> (exists k ev, (h < k)%nat /\ List.In ev (b k) /\ y = Planned ev) \/ (exists k ev, (h < k)%nat /\ List.In ev (e k) /\ y = Planned ev) \/ (exists k, (h < k <= g)%nat /\ List.In y (body k))) /\
  (forall x, pre = through b (set e h x) h).
Proof.
  intros H. induction H as [| g H (pre & post & E & P & T)].
  - exists (through b e h), (map Planned (b (S h))). split; [| split].
    + intros x. unfold sofar. rewrite set_same. f_equal. apply through_ext; [reflexivity | intros k K; apply set_other; lia].
    + intros y Y. left. apply in_map_iff in Y as (ev & <- & I). exists (S h), ev. split; [lia | auto].
    + intros x. apply through_ext; [reflexivity | intros k K; symmetry; apply set_other; lia].
  - exists pre, (post ++ body (S g) ++ map Planned (e (S g)) ++ map Planned (b (S (S g)))). split; [| split; [| exact T]].
    + intros x. rewrite sofar_S, E, set_other by lia. rewrite <- !app_assoc. reflexivity.
    + intros y Y. rewrite !in_app_iff, !in_map_iff in Y. destruct Y as [Y | [Y | [(ev & <- & I) | (ev & <- & I)]]].
      * destruct (P y Y) as [Z | [Z | (k & K & I)]]; [auto | auto | right; right; exists k; split; [lia | exact I]].
      * right. right. exists (S g). split; [lia | exact Y].
      * right. left. exists (S g), ev. split; [lia | auto].
      * left. exists (S (S g)), ev. split; [lia | auto].
Qed.

(** Nothing happens to [s] after the end of function [h] other than clears. *)
Definition still (s h g : nat) (b e : nat -> list event) : Prop :=
  (forall k ev, (h < k)%nat -> List.In ev (b k) -> said (at_ (snd ev)) <> s) /\
  (forall k ev, (h < k)%nat -> List.In ev (e k) -> said (at_ (snd ev)) <> s) /\
  (forall k i, (h < k <= g)%nat -> List.In i (accesses ends k) -> uses order s i = false).
Lemma quiet_events s l : (forall ev, List.In ev l -> said (at_ (snd ev)) <> s) -> Forall (quiet s) (map Planned l).
Proof. intros H. apply Forall_forall. intros y Y. apply in_map_iff in Y as ((t, i) & <- & I). apply (H _ I). Qed.
Lemma quiet_body s f : (forall i, List.In i (accesses ends f) -> uses order s i = false) -> Forall (quiet s) (body f).
Proof.
  intros H. apply Forall_forall. intros y Y. unfold SwapSpec.body in Y. apply in_app_iff in Y as [Y | Y]; apply in_map_iff in Y as (i & <- & I).
  - cbn [quiet]. intros S. specialize (H i I). unfold uses in H. rewrite S, Nat.eqb_refl, andb_true_r in H. destruct (is_clear (at_ i)); [reflexivity | discriminate].
  - exact Logic.I.
Qed.
Lemma sofar_out k h g b e (l1 l2 : list event) : (h <= g)%nat -> still (said (at_ k)) h g b e -> (forall ev, List.In ev l2 -> said (at_ (snd ev)) <> said (at_ k)) ->
  let w := sofar b (set e h (l1 ++ (SwapOut, k) :: l2)) g in let w' := sofar b (set e h (l1 ++ l2)) g in
  (fine w <-> fine w') /\ now w (said (at_ k)) = leave (now w' (said (at_ k))) /\ (forall s, s <> said (at_ k) -> now w s = now w' s) /\
  exists post, Forall (quiet (said (at_ k))) post /\ (forall x, w' = through b (set e h x) h ++ map Planned l1 ++ post).
Proof.
  intros H (S1 & S2 & S3) N2. destruct (sofar_split b e g h H) as (pre & post & E & P & T). cbv zeta. rewrite !E, !map_app. cbn [map]. rewrite <- !app_assoc.
  assert (Q : Forall (quiet (said (at_ k))) (map Planned l2 ++ post)).
  { apply Forall_app. split; [apply quiet_events; exact N2 |]. apply Forall_forall. intros y Y. destruct (P y Y) as [(k' & (t, i) & K & I & ->) | [(k' & (t, i) & K & I & ->) | (k' & K & I)]].
    - apply (S1 _ _ K I).
    - apply (S2 _ _ K I).
    - pose proof (quiet_body (said (at_ k)) k' (fun i => S3 k' i K)) as Q. rewrite Forall_forall in Q. apply Q. exact I. }
  rewrite (app_assoc pre (map Planned l1)), (app_assoc pre (map Planned l1)). cbn [app]. split; [apply fine_out; exact Q | split; [apply out_self; exact Q | split; [intros s Ns; apply out_others; exact Ns |]]].
  exists (map Planned l2 ++ post). split; [exact Q |]. intros x. rewrite <- (T x), <- app_assoc. reflexivity.
Qed.
End replay.
