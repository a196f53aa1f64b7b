(** Proofs about SwapModel: there are finitely many attempts. *)
From Coq Require Import List ZArith Bool Arith Lia.
From Verif Require Import SwapModel SwapSpec SwapProofs1 SwapProofs8.
Import ListNotations.
Local Open Scope list_scope.
Local Open Scope Z_scope.

Section term.
Variables (order : list record) (ends : list nat) (sizeof : nat -> Z) (max_bytes max_prefetch : Z) (cast_prefetch : bool) (head0 : nat -> option nat).
Notation at_ := (at_ order).
Notation block_end := (block_end ends).
Notation block_start := (block_start ends).
Notation block := (block ends).
Hypothesis BL : forall f, (S f < length ends)%nat -> (block_end f <= block_end (S f))%nat.
Definition same (p p' : params) : Prop := head p' = head p /\ fid p' = fid p.
Lemma same_refl p : same p p. Proof. split; reflexivity. Qed.
Lemma same_trans p q r : same p q -> same q r -> same p r. Proof. unfold same. intuition congruence. Qed.
Lemma same_wait p : same p (wait order sizeof p).
Proof. unfold wait. destruct (_ && _)%bool; split; reflexivity. Qed.
Lemma same_free n : forall p needed, same p (free_memory order sizeof max_bytes n p needed).
Proof. induction n as [| n IH]; intros p needed; cbn [free_memory]; [apply same_refl |]. destruct (_ <? _); [apply (same_trans _ _ _ (same_wait p)), IH | apply same_refl]. Qed.
Lemma same_fetch p r p' : first_fetch order ends sizeof max_bytes max_prefetch cast_prefetch head0 p r = Some p' -> same p p'.
Proof.
  intros F. unfold first_fetch in F. destruct (_ || _)%bool; [discriminate |]. destruct (on_device r).
  - destruct (is_out _); [injection F as <-; split; reflexivity |]. destruct (no_data_transfer r); [injection F as <-; split; reflexivity |]. destruct (heads p (said r)) as (h, hd). cbv zeta in F. destruct (_ <? _); [discriminate |]. injection F as <-. unfold same. cbn [fetched head fid]. apply same_free.
  - destruct (is_out _); injection F as <-; [split; reflexivity |]. unfold same. cbn [fetched head fid]. apply same_free.
Qed.
Lemma same_room stopper n : forall p needed p', make_room order ends sizeof max_bytes n stopper p needed = Got _ p' -> same p p'.
Proof.
  induction n as [| n IH]; intros p needed p' M; cbn [make_room] in M; destruct (_ <? needed); try (injection M as <-; apply same_refl); [| apply (same_trans _ _ _ (same_wait p)), (IH _ _ _ M)]. destruct (backtrack _ _ _ _ _ _ _ _ _) as (a, st'). destruct (a <? needed); discriminate.
Qed.
Lemma same_fold (step : params -> nat -> params) l : (forall p i, same p (step p i)) -> forall p, same p (fold_left step l p).
Proof. intros H. induction l as [| i l IH]; intros p; [apply same_refl |]. cbn [fold_left]. apply (same_trans _ _ _ (H p i)), IH. Qed.
Lemma same_reserve stopper p p' : reserve order ends sizeof max_bytes stopper p = Got _ p' -> same p p'.
Proof.
  unfold reserve. destruct (make_room _ _ _ _ _ _ _ _) as [q | | | | |] eqn:M; try discriminate. intros R. injection R as <-. apply same_room in M. apply (same_trans _ _ _ M). eapply same_trans; [| apply same_fold]; [split; reflexivity |].
  intros p1 i. unfold reserve_one. destruct (is_clear _); [apply same_refl |]. destruct (state _); split; reflexivity.
Qed.
Lemma same_swap_out info f p : same p (swap_out order ends sizeof info f p).
Proof.
  unfold swap_out. apply same_fold. intros p1 i. unfold swap_out_one. destruct (is_clear _); [apply same_refl |]. unfold leave_one. destruct (_ =? 1); [| split; reflexivity]. destruct (find _ _) as [(k, b) |]; [destruct b | destruct (temporary _)]; split; reflexivity.
Qed.

(** * What has been fetched was allowed to be. *)
Definition passed (stopper : nat -> nat) (f : nat) (p : params) : Prop := forall k, (block_end 0 <= k < head p)%nat -> is_clear (at_ k) = true \/ (stopper k <= f)%nat.
Lemma passed_swap_in stopper n : forall p, passed stopper (fid p) p -> let p' := swap_in order ends sizeof max_bytes max_prefetch cast_prefetch head0 n stopper p in passed stopper (fid p) p' /\ fid p' = fid p.
Proof.
  induction n as [| n IH]; intros p H; cbv zeta; cbn [swap_in]; [auto |].
  assert (ST : forall q, same p q -> (is_clear (at_ (head p)) = true \/ (stopper (head p) <= fid p)%nat) -> forall q', head q' = S (head q) -> fid q' = fid q -> passed stopper (fid q') q' /\ fid q' = fid p).
  { intros q (H1 & H2) C q' Q1 Q2. split; [| congruence]. rewrite Q2, H2. intros k K. rewrite Q1, H1 in K. destruct (Nat.eq_dec k (head p)) as [-> | NE]; [exact C | apply H; lia]. }
  destruct (is_clear (at_ (head p))) eqn:C.
  - destruct (ST p (same_refl p) (or_introl eq_refl) (skipped p) eq_refl eq_refl) as (X & Y). rewrite <- Y. apply IH. exact X.
  - destruct (Nat.ltb_spec (fid p) (stopper (head p))) as [L | L]; [auto |]. destruct (_ =? 0).
    + destruct (first_fetch _ _ _ _ _ _ _ _ _) as [q |] eqn:F; [| auto]. apply same_fetch in F. destruct (ST q F (or_intror L) (queued q (at_ (head p))) eq_refl eq_refl) as (X & Y). rewrite <- Y. apply IH. exact X.
    + destruct (ST p (same_refl p) (or_intror L) (queued p (at_ (head p))) eq_refl eq_refl) as (X & Y). rewrite <- Y. apply IH. exact X.
Qed.
(** * Stoppers go up *)
Definition up (f : nat) (stopper st' : nat -> nat) : Prop :=
  (forall k, st' k = stopper k \/ ((st' k = S f) /\ (stopper k <= f)%nat)) /\ exists k, (k < length order)%nat /\ st' k = S f /\ (stopper k <= f)%nat.
Lemma backtrack_up f needed lo n : forall back m stopper available, (lo + n <= back)%nat -> (forall k, (lo <= k < back)%nat -> is_clear (at_ k) = true \/ (stopper k <= f)%nat) ->
  let '(a, st') := backtrack order sizeof n f back m stopper needed available in
  (forall k, st' k = stopper k \/ ((st' k = S f) /\ (stopper k <= f)%nat)) /\ (a = available \/ exists k, (k < length order)%nat /\ st' k = S f /\ (stopper k <= f)%nat).
Proof.
  induction n as [| n IH]; intros back m stopper available LB H; cbn [backtrack]; [auto |]. destruct (is_clear (at_ (back - 1))) eqn:C.
  - apply IH; [lia |]. intros k K. apply H. lia.
  - assert (IN := at_inside order _ C). destruct (H (back - 1)%nat ltac:(lia)) as [X | X]; [congruence |]. destruct (accumulate_counts order m (said (at_ (back - 1))) =? 1).
    + assert (ST : forall k, set stopper (back - 1) (S f) k = stopper k \/ (set stopper (back - 1) (S f) k = S f /\ (stopper k <= f)%nat)) by (intros k; unfold set; destruct (Nat.eqb_spec k (back - 1)) as [-> |]; auto).
      destruct (needed <=? _); [split; [exact ST | right; exists (back - 1)%nat; rewrite set_same; auto] |].
      match goal with |- context [backtrack ?o ?z n f ?b ?m' ?s ?d ?a] => specialize (IH b m' s a) end. destruct (backtrack _ _ _ _ _ _ _ _ _) as (a, st'). destruct IH as (I1 & I2); [lia | |].
      * intros k K. rewrite set_other by lia. apply H. lia.
      * assert (U : forall k, st' k = stopper k \/ st' k = S f /\ (stopper k <= f)%nat).
        { intros k. specialize (ST k). destruct (I1 k) as [E | (E & L)]; [rewrite E; exact ST |]. right. split; [exact E |]. destruct ST as [ST | (_ & ST)]; [rewrite ST in L; exact L | exact ST]. }
        split; [exact U |]. right. exists (back - 1)%nat. split; [exact IN |]. split; [| exact X]. destruct (I1 (back - 1)%nat) as [E | (E & _)]; [rewrite set_same in E; exact E | exact E].
    + destruct (needed <=? available); [auto |]. apply IH; [lia |]. intros k K. apply H. lia.
Qed.
Lemma room_up stopper needed n : forall p st', (0 < fid p)%nat -> (S (block_end 0) <= block_end (fid p))%nat -> passed stopper (fid p) p -> make_room order ends sizeof max_bytes n stopper p needed = Again _ st' -> up (fid p) stopper st'.
Proof.
  induction n as [| n IH]; intros p st' F0 B H M; cbn [make_room] in M; destruct (Z.ltb_spec (size_t (max_bytes - ins p - outs p)) needed) as [LT | LT]; try discriminate.
  - destruct (backtrack _ _ _ _ _ _ _ _ _) as (a, s') eqn:BT. destruct (Z.ltb_spec a needed) as [A | A]; [discriminate |]. injection M as <-.
    destruct (Nat.le_gt_cases (block_end (fid p)) (head p)) as [HB | HB].
    + pose proof (backtrack_up (fid p) needed (block_end (fid p) - 1) (S (head p) - block_end (fid p)) (head p) (states p) stopper (size_t (max_bytes - ins p - outs p)) ltac:(lia)) as U.
      rewrite BT in U. destruct U as (U1 & U2); [intros k K; apply H; lia |]. split; [exact U1 |]. destruct U2 as [-> | U2]; [lia | exact U2].
    + replace (S (head p) - block_end (fid p))%nat with 0%nat in BT by lia. cbn [backtrack] in BT. injection BT as <- _. lia.
  - pose proof (same_wait p) as (W1 & W2). rewrite <- W2. apply (IH (wait order sizeof p)); rewrite ?W2; try assumption. unfold passed. rewrite W1. exact H.
Qed.
Lemma block_mono f g : (f <= g)%nat -> (g < length ends)%nat -> (block_end f <= block_end g)%nat.
Proof. induction 1 as [| g FG IH]; intros G; [lia |]. specialize (IH ltac:(lia)). specialize (BL g G). lia. Qed.
Lemma reserve_up stopper p st' : (0 < fid p < length ends)%nat -> passed stopper (fid p) p -> reserve order ends sizeof max_bytes stopper p = Again _ st' -> up (fid p) stopper st'.
Proof.
  intros F0 H R. unfold reserve in R. destruct (make_room _ _ _ _ _ _ _ _) as [q | s' | | | |] eqn:M; try discriminate. injection R as <-. apply room_up in M; auto; [lia |].
  destruct (Nat.le_gt_cases (S (block_end 0)) (block_end (fid p))) as [X | X]; [exact X | exfalso].
  assert (BS : (block_end 0 <= block_start (fid p))%nat) by (destruct (fid p) as [| g] eqn:E; [lia |]; cbn [SwapModel.block_start]; apply block_mono; lia).
  assert (N0 : unprefetched order ends p = []) by (unfold unprefetched, SwapModel.block; replace (block_end (fid p) - block_start (fid p))%nat with 0%nat by lia; reflexivity).
  assert (N1 : unprefetched_bytes order ends sizeof p = 0) by (unfold unprefetched_bytes; rewrite N0; reflexivity). rewrite N1 in M.
  assert (SZ : forall z, size_t z <? 0 = false) by (intros z; apply Z.ltb_ge; unfold size_t; apply Z.mod_pos_bound; lia). destruct (waits_left ends p); cbn [make_room] in M; rewrite SZ in M; discriminate.
Qed.
Lemma passed_same stopper f p q : same p q -> passed stopper f p -> passed stopper f q.
Proof. intros (H1 & _) H k K. rewrite H1 in K. apply H, K. Qed.
Lemma round_up info stopper p f : (0 < f < length ends)%nat -> passed stopper f p ->
  match function_round order ends sizeof max_bytes max_prefetch cast_prefetch head0 info stopper p f with Got _ p' => passed stopper f p' | Again _ st' => up f stopper st' | _ => True end.
Proof.
  intros F0 H. unfold function_round. destruct (passed_swap_in stopper (length order - head p) (at_function p f) H) as (S1 & S2). cbn [at_function fid] in S1, S2. set (q := swap_in _ _ _ _ _ _ _ _ _ _) in *.
  destruct (reserve order ends sizeof max_bytes stopper q) as [r | st' | | | |] eqn:R; try exact Logic.I; [| rewrite <- S2; apply (reserve_up stopper q); rewrite ?S2; assumption].
  destruct (Nat.ltb _ _); [exact Logic.I |]. apply same_reserve in R. apply (passed_same stopper f q); [| exact S1]. apply (same_trans _ _ _ R). apply (same_trans _ (heads_in order ends r f)); [split; reflexivity |].
  eapply same_trans; [| apply same_swap_out]. destruct (Nat.eqb f 1); [apply same_swap_out | apply same_refl].
Qed.
Lemma rounds_up info stopper n : forall f p st', (0 < f)%nat -> (f + n <= length ends)%nat -> (forall g, (f <= S g)%nat -> passed stopper g p) -> rounds order ends sizeof max_bytes max_prefetch cast_prefetch head0 info stopper (seq f n) p = Again _ st' -> exists g, (g < length ends)%nat /\ up g stopper st'.
Proof.
  induction n as [| n IH]; intros f p st' F0 LE H R; cbn [seq rounds] in R; [discriminate |]. pose proof (round_up info stopper p f ltac:(lia) (H f ltac:(lia))) as U. destruct (function_round _ _ _ _ _ _ _ _ _ _ _) as [q | s' | | | |]; try discriminate.
  - apply (IH (S f) q st'); try lia; [| exact R]. intros g G k K. destruct (U k K) as [X | X]; [left; exact X | right; lia].
  - injection R as ->. exists f. split; [lia | exact U].
Qed.
Lemma start_head : head (before_forward order ends sizeof (start head0)) = block_end 0.
Proof.
  unfold before_forward. assert (G : forall l p, head (fold_left (before_one order sizeof) l p) = (head p + length l)%nat).
  { induction l as [| i l IH]; intros p; cbn [fold_left length]; [lia |]. rewrite IH. unfold before_one. destruct (is_clear _); cbn [skipped queued head]; [lia |]. destruct (_ =? 0); cbn [fetched head]; lia. }
  rewrite G. unfold SwapModel.block. rewrite seq_length. cbn [start head SwapModel.block_start]. lia.
Qed.
Lemma attempt_up stopper st' : attempt order ends sizeof max_bytes max_prefetch cast_prefetch head0 stopper = Again _ st' -> exists g, (g < length ends)%nat /\ up g stopper st'.
Proof.
  unfold attempt. destruct (clear_info order ends) as [info |]; [| discriminate]. destruct ends as [| e0 ends'] eqn:EE; [cbn; destruct (finished _ _); discriminate |]. rewrite <- EE in *. assert (LE : (0 < length ends)%nat) by (rewrite EE; cbn; lia).
  destruct (rounds _ _ _ _ _ _ _ _ _ _ _) as [q | s' | | | |] eqn:R; try discriminate; [destruct (finished _ _); discriminate |]. intros E. injection E as <-. apply rounds_up in R; auto; try lia. intros g G k K. rewrite start_head in K. lia.
Qed.
(** * The measure *)
Definition measure (stopper : nat -> nat) : nat := fold_right Nat.add 0%nat (map (fun k => (length ends + 1 - stopper k)%nat) (seq 0 (length order))).
Lemma up_measure g stopper st' : (g < length ends)%nat -> up g stopper st' -> (measure st' < measure stopper)%nat.
Proof.
  intros G (U1 & k & K & U2 & U3). unfold measure. assert (X : List.In k (seq 0 (length order))) by (apply in_seq; lia). revert X. generalize (seq 0 (length order)). induction l as [| a l IH]; intros X; [destruct X |]. cbn [map fold_right].
  assert (LE : forall l', (fold_right Nat.add 0 (map (fun k => length ends + 1 - st' k) l') <= fold_right Nat.add 0 (map (fun k => length ends + 1 - stopper k) l'))%nat).
  { induction l' as [| b l' IH']; cbn [map fold_right]; [lia |]. destruct (U1 b) as [E | (E & E')]; rewrite E; lia. }
  destruct X as [-> | X]; [specialize (LE l); rewrite U2; lia |]. specialize (IH X). destruct (U1 a) as [E | (E & E')]; rewrite E; lia.
Qed.
Lemma room_fuel stopper n : forall p needed, make_room order ends sizeof max_bytes n stopper p needed <> NoFuel _.
Proof.
  induction n as [| n IH]; intros p needed; cbn [make_room]; destruct (_ <? needed); try discriminate; [| apply IH]. destruct (backtrack _ _ _ _ _ _ _ _ _) as (a, st'). destruct (a <? needed); discriminate.
Qed.
Lemma attempts_enough fuel : forall stopper, (measure stopper < fuel)%nat -> attempts order ends sizeof max_bytes max_prefetch cast_prefetch head0 fuel stopper <> NoFuel _ /\ forall st', attempts order ends sizeof max_bytes max_prefetch cast_prefetch head0 fuel stopper <> Again _ st'.
Proof.
  induction fuel as [| fuel IH]; intros stopper M; [lia |]. cbn [attempts]. destruct (attempt _ _ _ _ _ _ _ _) as [q | st' | | | |] eqn:A; try (split; discriminate).
  - apply attempt_up in A as (g & G & U). apply IH. pose proof (up_measure g stopper st' G U). lia.
  - exfalso. unfold attempt in A. destruct (clear_info order ends) as [info |]; [| discriminate]. destruct (rounds _ _ _ _ _ _ _ _ _ _ _) as [q | s' | | | |] eqn:R; try discriminate; [destruct (finished _ _); discriminate |]. clear A. revert R. generalize (before_forward order ends sizeof (start head0)). generalize (seq 1 (length ends - 1)).
    induction l as [| f l IHl]; intros p R; cbn [rounds] in R; [discriminate |]. destruct (function_round _ _ _ _ _ _ _ _ _ _ _) as [q | s' | | | |] eqn:E; try discriminate; [apply (IHl q R) |]. clear - E. unfold function_round, reserve in E.
    match type of E with context [make_room ?o ?e ?z ?m ?n ?s ?q ?d] => destruct (make_room o e z m n s q d) as [p1 | | | | |] eqn:M end; try discriminate; [destruct (Nat.ltb _ _); discriminate |].
    destruct (room_fuel _ _ _ _ M).
Qed.
Lemma first_measure : measure (fun _ => 1%nat) = (length order * length ends)%nat.
Proof.
  unfold measure. assert (X : forall n a, fold_right Nat.add 0%nat (map (fun _ : nat => (length ends + 1 - 1)%nat) (seq a n)) = (n * length ends)%nat) by (induction n as [| n IH]; intros a; [reflexivity |]; cbn [seq map fold_right]; rewrite IH; lia).
  apply X.
Qed.
End term.
