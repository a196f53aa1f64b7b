(** Proofs about SwapModel: arrays that are cleared in advance, and the order after reconfirmation. *)
From Coq Require Import List ZArith Bool Arith Lia.
From Verif Require Import SwapModel SwapSpec SwapProofs1 SwapProofs2 SwapProofs3 SwapProofs4 SwapProofs5 SwapProofs6 SwapProofs7 SwapProofs8 SwapProofs9 SwapProofs10.
Import ListNotations.
Local Open Scope list_scope.
Local Open Scope Z_scope.

Section early.
Variables (order : list record) (ends : list nat) (sizeof : nat -> Z) (max_bytes max_prefetch : Z) (cast_prefetch : bool) (head0 : nat -> option nat).
Variable good : nat -> nat -> Prop.
Definition early (p : params) : Prop := (forall f i, List.In (Preclear, i) (finals p f) -> good f i) /\ forall f i, ~ List.In (Preclear, i) (begins p f).
Lemma push_in m f e g x : List.In x (push m f e g) -> List.In x (m g) \/ g = f /\ x = e.
Proof. unfold push, set. destruct (Nat.eqb_spec g f) as [-> |]; [| auto]. intros I. apply in_app_or in I as [I | [<- | []]]; auto. Qed.
Lemma early_same p p' : early p -> (forall f i, List.In (Preclear, i) (finals p' f) -> List.In (Preclear, i) (finals p f)) -> (forall f i, List.In (Preclear, i) (begins p' f) -> List.In (Preclear, i) (begins p f)) -> early p'.
Proof. intros (E1 & E2) H1 H2. split; [intros f i I; apply E1, H1, I | intros f i I; apply (E2 f i), H2, I]. Qed.
Lemma early_keep p p' : early p -> finals p' = finals p -> begins p' = begins p -> early p'.
Proof. intros E H1 H2. apply (early_same p p' E); rewrite ?H1, ?H2; auto. Qed.
Lemma early_wait p : early p -> early (wait order sizeof p).
Proof.
  intros E. unfold wait. destruct (_ && _)%bool; [| apply (early_keep p); auto]. apply (early_same p _ E); cbn [finals begins]; [auto |]. intros f i I. apply push_in in I as [I | (_ & I)]; [exact I | discriminate].
Qed.
Lemma early_free n : forall p needed, early p -> early (free_memory order sizeof max_bytes n p needed).
Proof. induction n as [| n IH]; intros p needed E; cbn [free_memory]; [exact E |]. destruct (_ <? _); [apply IH, early_wait, E | exact E]. Qed.
Lemma early_wait_all n : forall p, early p -> early (wait_all order sizeof n p).
Proof. induction n as [| n IH]; intros p E; cbn [wait_all]; [exact E | apply IH, early_wait, E]. Qed.
Lemma erase_in s l : forall l', erase_first order s l = Some l' -> forall x, List.In x l' -> List.In x l.
Proof.
  induction l as [| (t, i) l IH]; intros l' E x I; cbn [erase_first] in E; [discriminate |]. destruct (_ && _)%bool; [injection E as <-; right; exact I |].
  destruct (erase_first order s l) as [l1 |]; [| discriminate]. cbn in E. injection E as <-. destruct I as [<- | I]; [left; reflexivity | right; apply (IH l1); auto].
Qed.
Lemma cancel_in_in n s : forall m f x, List.In x (cancel_in order n s m f) -> List.In x (m f).
Proof.
  induction n as [| n IH]; intros m f x I; cbn [cancel_in] in I; [exact I |]. destruct (erase_first order s (rev (m n))) as [l |] eqn:E; [| apply IH, I]. unfold set in I. destruct (Nat.eqb_spec f n) as [-> |]; [| exact I].
  apply in_rev. apply in_rev in I. apply (erase_in s _ l E x I).
Qed.
Lemma early_fetch p r p' : early p -> first_fetch order ends sizeof max_bytes max_prefetch cast_prefetch head0 p r = Some p' -> early p'.
Proof.
  intros E F. unfold first_fetch in F. destruct (_ || _)%bool; [discriminate |]. destruct (on_device r).
  - destruct (is_out _); [injection F as <-; apply (early_same p _ E); [intros f i I; apply (cancel_in_in _ _ _ _ _ I) | auto] |]. destruct (no_data_transfer r); [injection F as <-; apply (early_keep p); auto |].
    destruct (heads p (said r)) as (h, hd). cbv zeta in F. destruct (_ <? _); [discriminate |]. injection F as <-. match goal with |- early (fetched (P _ _ _ _ _ _ _ (push (begins ?q) _ _) _ _) _ _) => assert (EQ : early q) by (apply early_free, E); apply (early_same q _ EQ) end; cbn [fetched finals begins]; [auto |].
    intros f i I. apply push_in in I as [I | (_ & I)]; [exact I |]. injection I as I _. revert I. match goal with |- _ = (if ?b then _ else _) -> _ => destruct b end; discriminate.
  - destruct (is_out _); injection F as <-; [apply (early_keep p); auto |]. apply (early_keep (free_memory order sizeof max_bytes (waits_left ends p) p (bytes sizeof r (dtype r)))); [apply early_free, E | reflexivity | reflexivity].
Qed.
Lemma early_swap_in n stopper : forall p, early p -> early (swap_in order ends sizeof max_bytes max_prefetch cast_prefetch head0 n stopper p).
Proof.
  induction n as [| n IH]; intros p E; cbn [swap_in]; [exact E |]. destruct (is_clear _); [apply IH, (early_keep p); auto |]. destruct (Nat.ltb _ _); [exact E |]. destruct (_ =? 0); [| apply IH, (early_keep p); auto].
  destruct (first_fetch _ _ _ _ _ _ _ _ _) as [p1 |] eqn:F; [| exact E]. apply IH, (early_keep p1); [apply (early_fetch p _ p1 E F) | reflexivity | reflexivity].
Qed.
Lemma early_room stopper n : forall p needed p', early p -> make_room order ends sizeof max_bytes n stopper p needed = Got _ p' -> early p'.
Proof.
  induction n as [| n IH]; intros p needed p' E M; cbn [make_room] in M; destruct (_ <? needed); try (injection M as <-; exact E); [| apply (IH _ _ _ (early_wait p E) M)]. destruct (backtrack _ _ _ _ _ _ _ _ _) as (a, st'). destruct (a <? needed); discriminate.
Qed.
Lemma early_fold (step : params -> nat -> params) l : (forall p i, List.In i l -> early p -> early (step p i)) -> forall p, early p -> early (fold_left step l p).
Proof. induction l as [| i l IH]; intros H p E; [exact E |]. cbn [fold_left]. apply IH; [intros q j J; apply H; right; exact J | apply H; [left; reflexivity | exact E]]. Qed.
Lemma early_reserve stopper p p' : early p -> reserve order ends sizeof max_bytes stopper p = Got _ p' -> early p'.
Proof.
  intros E R. unfold reserve in R. destruct (make_room _ _ _ _ _ _ _ _) as [q | | | | |] eqn:M; try discriminate. injection R as <-. apply early_room in M; [| exact E]. apply early_fold; [| apply (early_keep q); auto].
  intros p1 i _ E1. unfold reserve_one. destruct (is_clear _); [exact E1 |]. destruct (state _); exact E1.
Qed.
Variable info : nat -> list (nat * bool).
Hypothesis IG : forall f i, List.In (i, true) (info f) -> good f i.
Lemma early_swap_out f p : early p -> early (swap_out order ends sizeof info f p).
Proof.
  intros E. unfold swap_out. apply early_fold; [| exact E]. clear p E. intros p i _ E. unfold swap_out_one. destruct (is_clear _); [exact E |]. apply (early_keep (leave_one order sizeof (info f) f p i)); [| reflexivity | reflexivity]. unfold leave_one. destruct (_ =? 1); [| exact E].
  destruct (find _ _) as [(k, b) |] eqn:F.
  - apply find_some in F as (F & K). cbn [fst] in K. apply Nat.eqb_eq in K as ->. destruct b; [| apply (early_keep p); auto]. destruct E as (E1 & E2). split; cbn [unheaded at_end released finals begins]; [| exact E2].
    intros g j I. apply push_in in I as [I | (-> & I)]; [apply E1, I |]. injection I as ->. apply IG, F.
  - destruct (temporary _); [apply (early_keep p); auto |]. destruct E as (E1 & E2). split; cbn [at_end finals begins]; [| exact E2]. intros g j I. apply push_in in I as [I | (_ & I)]; [apply E1, I | discriminate].
Qed.
Lemma early_round stopper p f p' : early p -> function_round order ends sizeof max_bytes max_prefetch cast_prefetch head0 info stopper p f = Got _ p' -> early p'.
Proof.
  intros E R. unfold function_round in R. destruct (reserve _ _ _ _ _ _) as [q | | | | |] eqn:S1; try discriminate. apply early_reserve in S1; [| apply early_swap_in, (early_keep p); auto]. destruct (Nat.ltb _ _); [discriminate |]. injection R as <-.
  assert (EQ : early (heads_in order ends q f)) by (apply (early_keep q); auto). apply early_swap_out. destruct (Nat.eqb f 1); [apply early_swap_out |]; exact EQ.
Qed.
Lemma early_rounds stopper fs : forall p p', early p -> rounds order ends sizeof max_bytes max_prefetch cast_prefetch head0 info stopper fs p = Got _ p' -> early p'.
Proof.
  induction fs as [| f fs IH]; intros p p' E R; cbn [rounds] in R; [injection R as <-; exact E |]. destruct (function_round _ _ _ _ _ _ _ _ _ _ _) as [q | | | | |] eqn:S1; try discriminate. apply (IH q); [apply (early_round stopper p f q E S1) | exact R].
Qed.
Lemma early_start : early (before_forward order ends sizeof (start head0)).
Proof.
  unfold before_forward. apply early_fold; [| split; cbn; auto; contradiction]. intros p i _ E. unfold before_one. destruct (is_clear _); [apply (early_keep p); auto |]. unfold queued. destruct (_ =? 0); apply (early_keep p); auto.
Qed.
End early.
Lemma early_attempts order ends sizeof max_bytes max_prefetch cast_prefetch head0 fuel p : (forall f, (S f < length ends)%nat -> (block_end ends f <= block_end ends (S f))%nat) ->
  forall stopper, attempts order ends sizeof max_bytes max_prefetch cast_prefetch head0 fuel stopper = Got _ p ->
  early (fun f i => List.In i (block ends f) /\ is_clear (at_ order i) = false /\ exists g, (f < g)%nat /\ next_clear order ends (said (at_ order i)) (S i) g) p.
Proof.
  intros BL. induction fuel as [| fuel IH]; intros stopper E; cbn [attempts] in E; [discriminate |]. destruct (attempt _ _ _ _ _ _ _ _) as [q | st' | | | |] eqn:A; try discriminate; [| apply (IH st'), E]. injection E as ->. unfold attempt in A.
  destruct (clear_info order ends) as [info |] eqn:CI; [| discriminate]. destruct (rounds _ _ _ _ _ _ _ _ _ _ _) as [q | | | | |] eqn:R; try discriminate. destruct (finished _ _); [| discriminate]. injection A as <-. apply early_wait_all.
  destruct ends as [| e0 ends'] eqn:EE.
  - cbn in R. injection R as <-. split; cbn; [contradiction | auto].
  - rewrite <- EE in *. pose proof (clear_info_ok order ends BL info ltac:(rewrite EE; discriminate) CI) as IO. apply (early_keep _ q); [| reflexivity | reflexivity]. refine (early_rounds _ _ _ _ _ _ _ _ info _ stopper _ _ _ (early_start _ _ _ _ _) R).
    intros f i I. exact (proj1 (IO f) i true I).
Qed.

(** * Reconfirmation *)
Section reconfirm.
Variable head0 : nat -> option nat.
Definition again (known : bool) (r : record) : record := if (negb (is_clear r) && created r && match head0 (said r) with Some _ => true | None => false end && negb known)%bool then Rec (tag r) (said r) (elements r) (dtype r) (on_device r) (write_only r) false (temporary r) else r.
Lemma again_spec known r : let r' := again known r in tag r' = tag r /\ said r' = said r /\ elements r' = elements r /\ dtype r' = dtype r /\ on_device r' = on_device r /\ write_only r' = write_only r /\ temporary r' = temporary r /\
  (tag r <> Clear -> created r' = (created r && (match head0 (said r) with Some _ => false | None => true end || known))%bool).
Proof.
  unfold again, is_clear. destruct r as [t s e d o w c m]. cbn. destruct t; destruct (head0 s); destruct c, known; cbn; repeat split; congruence.
Qed.
Lemma reconfirm_nth order : forall cleared i, nth i (reconfirm head0 cleared order) no_record = again (cleared (said (nth i order no_record)) || existsb (fun r => is_clear r && Nat.eqb (said r) (said (nth i order no_record)))%bool (firstn i order)) (nth i order no_record).
Proof.
  induction order as [| r order IH]; intros cleared i.
  - cbn [reconfirm]. rewrite firstn_nil. destruct i; reflexivity.
  - cbn [reconfirm]. destruct i as [| i].
    + cbn [nth firstn existsb]. rewrite orb_false_r. unfold again. destruct (is_clear r) eqn:C; [cbn; rewrite ?C; reflexivity |]. cbn. reflexivity.
    + cbn [nth firstn existsb]. destruct (is_clear r) eqn:C; cbn [nth]; rewrite IH; [| cbn [andb orb]; reflexivity]. unfold set. cbn [andb]. rewrite (Nat.eqb_sym (said r)). destruct (Nat.eqb _ (said r)); cbn [orb]; [rewrite orb_true_r; reflexivity | reflexivity].
Qed.
Lemma reconfirm_length order : forall cleared, length (reconfirm head0 cleared order) = length order.
Proof. induction order as [| r order IH]; intros cleared; cbn [reconfirm]; [reflexivity |]. destruct (is_clear r); cbn [length]; rewrite IH; reflexivity. Qed.
End reconfirm.
