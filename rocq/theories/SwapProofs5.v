(** Proofs about SwapModel: fetching keeps the invariant. *)
From Coq Require Import List ZArith Bool Arith Lia.
From Verif Require Import SwapModel SwapSpec SwapProofs1 SwapProofs2 SwapProofs3 SwapProofs4.
Import ListNotations.
Local Open Scope list_scope.
Local Open Scope Z_scope.

Section plan.
Variables (order : list record) (ends : list nat) (sizeof : nat -> Z) (max_bytes : Z).
Variables (ty : nat -> nat) (weight : nat -> Z) (strict : Prop).
Notation at_ := (at_ order).
Notation sofar := (sofar order ends).
Notation now := (after order (at_start order ends)).
Notation fine := (fine order ends weight max_bytes strict).
Notation block_end := (block_end ends).
Notation block_start := (block_start ends).
Notation L := (arrays order).
Notation uses := (uses order).
Notation used := (used order).
Notation queue := (queue order).
Notation of_array := (of_array order).
Notation bytes := (bytes sizeof).
Notation st := (st ty).
Notation tr := (tr order ends).
Notation inv := (inv order ends max_bytes ty weight strict).
Notation rel := (rel order strict).
Notation fresh := (fresh order).
Notation sum := (sum order ty weight).

Hypothesis TY : forall r, List.In r order -> is_clear r = false -> dtype r = ty (said r).
Hypothesis WT : forall r, List.In r order -> is_clear r = false -> bytes r (dtype r) = weight (said r).
Hypothesis WN : forall s, 0 <= weight s.
Hypothesis SD : strict -> forall i, is_clear (at_ i) = false -> on_device (at_ i) = true.
Notation no_outs := (no_outs order ty).

Lemma sofar_ext b e b' e' g : (forall k, b k = b' k) -> (forall k, e k = e' k) -> sofar b e g = sofar b' e' g.
Proof. intros B E. unfold SwapProofs2.sofar. rewrite (through_ext order ends b e b' e'), B, E by auto. reflexivity. Qed.
Lemma uncounted q g pos p s : inv q g pos p -> used s -> count (st p s) = 0 -> is_pre (state (st p s)) = false /\ queue s q (head p) = 0.
Proof.
  intros I U C. rewrite (i_count _ _ _ _ _ _ _ _ _ _ I s U) in C. split; [| exact C]. pose proof (i_pos _ _ _ _ _ _ _ _ _ _ I s U) as (_ & X). destruct (is_pre (state (st p s))); [| reflexivity]. specialize (X eq_refl). lia.
Qed.
Lemma fresh_head q pos s h : queue s q h = 0 -> (q <= pos <= h)%nat -> uses s h = true -> no_data_transfer (at_ h) = true -> fresh s pos.
Proof.
  intros Q B U N j (J1 & J2 & J3 & J4). rewrite queue_zero in Q. assert (UJ : uses s j = true) by (apply uses_spec; split; [unfold is_clear, SwapModel.at_; destruct (tag (nth j order no_record)); congruence | exact J3]).
  destruct (lt_eq_lt_dec j h) as [[X | ->] | X]; [rewrite Q in UJ by lia; discriminate | exact N |]. exfalso. apply uses_spec in U as (C & E). apply (J4 h); [lia | | exact E]. unfold is_clear, SwapModel.at_ in C. destruct (tag (nth h order no_record)); congruence.
Qed.

(** A state in which one more use of [s] is in the queue. *)
Lemma inv_enqueue q g pos p p' s t : inv q g pos p -> s = said (at_ (head p)) -> is_clear (at_ (head p)) = false ->
  is_pre t = true -> is_pre (state (st p s)) = false \/ state (st p s) = t ->
  (forall s' d, s' <> s \/ d <> ty s -> state (states p' s' d) = state (states p s' d) /\ count (states p' s' d) = count (states p s' d) /\ (s' <> s -> states p' s' d = states p s' d)) ->
  st p' s = A (count (st p s) + 1) t (swapped (st p s)) ->
  head p' = S (head p) -> tail p' = tail p ->
  ins p' = ins p - (if is_In (state (st p s)) then weight s else 0) + (if is_In t then weight s else 0) ->
  outs p' = outs p - (if is_Out (state (st p s)) then weight s else 0) ->
  prefetched p' = prefetched p - (if is_pre (state (st p s)) then weight s else 0) + weight s ->
  ins p' + outs p' <= max_bytes ->
  (forall s', used s' -> known order ends g p' s' -> snd (heads p' s') = ty s') ->
  (forall s' k, s' <> s -> of_array s' (begins p' k) = of_array s' (begins p k)) ->
  (forall s' k, s' <> s -> of_array s' (finals p' k) = of_array s' (finals p k)) ->
  fine (tr p' g) \/ (exists ev, tr p' g = tr p g ++ [Planned ev]) ->
  rel s pos t (now (tr p' g) s) ->
  (forall k, (S g < k)%nat -> begins p' k = []) -> (forall k, (g < k)%nat -> finals p' k = []) ->
  inv q g pos p'.
Proof using WN.
  intros I ES C T0 T1 H1 H2 H3 H4 H5 H6 H7 H8 H9 H10 H11 H12 H13 H14 H15.
  assert (U : used s) by (subst s; apply used_at; exact C). assert (LH : (head p < length order)%nat) by (apply (at_inside order); exact C). pose proof (i_head _ _ _ _ _ _ _ _ _ _ I) as HH.
  assert (Q : queue s q (S (head p)) = queue s q (head p) + 1) by (rewrite queue_snoc by lia; rewrite ES, uses_self by exact C; reflexivity).
  apply (inv_step order ends max_bytes ty weight strict WN q g pos p q p' s I U); try assumption.
  - intros s' d N. apply H1; [left; exact N | exact N].
  - intros d N. destruct (H1 s d (or_intror N)) as (-> & _). apply (i_other _ _ _ _ _ _ _ _ _ _ I). tauto.
  - intros s' N. rewrite H3, queue_snoc by lia. rewrite uses_other by congruence. lia.
  - rewrite H2, H3, Q. cbn [count]. rewrite (i_count _ _ _ _ _ _ _ _ _ _ I s U). reflexivity.
  - rewrite H2, H3, Q. cbn [state]. pose proof (queue_nonneg order s q (head p)). split; [intros _; exact T0 | lia].
  - rewrite H2. exact H5.
  - rewrite H2. cbn [state]. destruct t; try discriminate; cbn [is_Out]; lia.
  - rewrite H2. cbn [state]. rewrite T0. exact H7.
  - rewrite H2. cbn [state]. intros ->. discriminate.
  - rewrite H4. auto.
  - rewrite H4. apply (i_tail _ _ _ _ _ _ _ _ _ _ I).
  - lia.
  - rewrite H3. lia.
  - rewrite H2. exact H13.
  - rewrite H2. cbn [state]. intros ->. discriminate.
Qed.

Lemma inv_queued q g pos p : inv q g pos p -> is_clear (at_ (head p)) = false -> count (states p (said (at_ (head p))) (dtype (at_ (head p)))) <> 0 -> inv q g pos (queued p (at_ (head p))).
Proof using TY WN.
  intros I C N. set (r := at_ (head p)) in *. set (s := said r). assert (U : used s) by (apply used_at; exact C). assert (D : dtype r = ty s) by (apply (ty_at order ty TY); exact C).
  rewrite D in N. fold s in N. change (count (st p s) <> 0) in N. rewrite (i_count _ _ _ _ _ _ _ _ _ _ I s U) in N. pose proof (queue_nonneg order s q (head p)).
  assert (PR : is_pre (state (st p s)) = true) by (apply (i_pos _ _ _ _ _ _ _ _ _ _ I s U); lia).
  apply (inv_enqueue q g pos p (queued p r) s (state (st p s)) I eq_refl C PR); try assumption.
  - right. reflexivity.
  - intros s' d X. unfold queued. cbn [states]. rewrite set_state_other by (fold s; rewrite D; exact X). auto.
  - unfold SwapProofs3.st at 1, queued. cbn [states]. fold s. rewrite D, set_state_same. reflexivity.
  - reflexivity.
  - reflexivity.
  - cbn [queued ins]. lia.
  - cbn [queued outs]. destruct (state (st p s)); try discriminate; cbn; lia.
  - cbn [queued prefetched]. rewrite PR. lia.
  - apply (i_max _ _ _ _ _ _ _ _ _ _ I).
  - apply (i_heads _ _ _ _ _ _ _ _ _ _ I).
  - reflexivity.
  - reflexivity.
  - left. apply (i_fine _ _ _ _ _ _ _ _ _ _ I).
  - apply (i_rel _ _ _ _ _ _ _ _ _ _ I s U).
  - apply (i_begins _ _ _ _ _ _ _ _ _ _ I).
  - apply (i_finals _ _ _ _ _ _ _ _ _ _ I).
Qed.
Lemma inv_skipped q g pos p : inv q g pos p -> (head p < length order)%nat -> is_clear (at_ (head p)) = true -> inv q g pos (skipped p).
Proof.
  intros I LH C. pose proof (i_head _ _ _ _ _ _ _ _ _ _ I) as HH. assert (Q : forall s, queue s q (S (head p)) = queue s q (head p)) by (intros s; rewrite queue_snoc by lia; rewrite uses_clear by exact C; lia).
  destruct I as [I1 I2 I3 I4 I5 I6 I7 I8 I9 I10 I11 I12 I13 I14 I15 I16]. constructor; try assumption; cbn [skipped head].
  - intros s U. rewrite Q. apply (I2 s U).
  - intros s U. rewrite Q. apply (I3 s U).
  - lia.
Qed.
Variables (max_prefetch : Z) (cast_prefetch : bool) (head0 : nat -> option nat).
Notation first_fetch := (first_fetch order ends sizeof max_bytes max_prefetch cast_prefetch head0).
Notation waits_left := (waits_left ends).

(** Taking back a swap out. *)
Lemma cancelled q g pos p s : inv q g pos p -> used s -> state (st p s) = Out -> exists f', cancel_in order (length ends) s (finals p) = f' /\
  (forall s' k, s' <> s -> of_array s' (f' k) = of_array s' (finals p k)) /\ fine (sofar (begins p) f' g) /\ rel s pos In (now (sofar (begins p) f' g) s) /\ (forall k, (g < k)%nat -> f' k = []).
Proof.
  intros I U O. destruct (i_out _ _ _ _ _ _ _ _ _ _ I s U O) as (h & k & l1 & H1 & H2 & H3 & H4 & H5 & H6 & H7). destruct (of_array_split order s (finals p h) l1 (SwapOut, k) H4) as (m1 & m2 & E & M1 & M2).
  assert (CI : cancel_in order (length ends) s (finals p) = set (finals p) h (m1 ++ m2)) by (apply (cancel_at order s (finals p) h m1 k m2); auto; intros k' K'; apply H5; exact K').
  exists (set (finals p) h (m1 ++ m2)). split; [exact CI |]. split; [| ].
  { intros s' k' N. unfold set. destruct (Nat.eqb_spec k' h) as [-> |]; [| reflexivity]. rewrite E, !of_array_app. change ((SwapOut, k) :: m2) with ([(SwapOut, k)] ++ m2). rewrite of_array_app, (of_array_other order s' (SwapOut, k)) by (cbn [snd]; congruence). reflexivity. }
  assert (SL : still order ends (said (at_ k)) h g (begins p) (finals p)).
  { rewrite H3. split; [| split; [| exact H6]]; intros k' ev K' I'; destruct (H5 k' K') as (B1 & B2); [apply (proj1 (of_array_nil order s _) B1 ev I') | apply (proj1 (of_array_nil order s _) B2 ev I')]. }
  destruct (sofar_out order ends weight max_bytes strict k h g (begins p) (finals p) m1 m2 H1 SL) as (S1 & S2 & _ & post & S4 & S5); [rewrite H3; apply of_array_nil; exact M2 |].
  assert (W : sofar (begins p) (set (finals p) h (m1 ++ (SwapOut, k) :: m2)) g = tr p g).
  { unfold SwapProofs3.tr. apply sofar_ext; [reflexivity |]. intros k'. unfold set. destruct (Nat.eqb_spec k' h) as [-> |]; [symmetry; exact E | reflexivity]. }
  cbv zeta in S1, S2, S5. rewrite W in S1, S2. split; [apply S1, (i_fine _ _ _ _ _ _ _ _ _ _ I) |]. split; [| intros k' K'; rewrite set_other by lia; apply (i_finals _ _ _ _ _ _ _ _ _ _ I); exact K'].
  rewrite H3 in S2. pose proof (i_rel _ _ _ _ _ _ _ _ _ _ I s U) as R. rewrite O in R. cbn [SwapProofs3.rel] in *. intros St. destruct R as (R1 & R2). specialize (R2 St).
  assert (NL : now (sofar (begins p) (set (finals p) h (m1 ++ m2)) g) s <> Leaving).
  { rewrite (S5 (finals p h)). rewrite app_assoc, now_app. rewrite H3 in S4. destruct (quiet_stays order s post (now (SwapSpec.through order ends (begins p) (set (finals p) h (finals p h)) h ++ map Planned m1) s) S4) as [X | X]; rewrite X; [| discriminate].
    rewrite now_app, (play_events order s m1), M1. rewrite (through_of_array order ends _ _ (begins p) (finals p)); [apply H7; exact St | reflexivity |]. intros k' _. unfold set. destruct (Nat.eqb_spec k' h) as [-> |]; reflexivity. }
  destruct (now (sofar (begins p) (set (finals p) h (m1 ++ m2)) g) s); [| left; reflexivity | contradiction]. right. split; [reflexivity |]. rewrite S2 in R2. cbn [leave] in R2. destruct R2 as [R2 | R2]; [discriminate | exact R2].
Qed.

Lemma inv_fetch q g pos p p1 : let r := at_ (head p) in inv q g pos p -> fid p = S g -> (waits_left p = q - tail p)%nat \/ no_outs p -> (q <= pos <= head p)%nat -> is_clear r = false ->
  count (states p (said r) (dtype r)) = 0 -> first_fetch p r = Some p1 ->
  inv q g pos (queued p1 r) /\ head p1 = head p /\ fid p1 = fid p /\ (forall s, used s -> state (st p1 s) = Out -> state (st p s) = Out) /\
  (no_outs p -> finals p1 = finals p /\ forall s, s <> said r -> st p1 s = st p s /\ forall k, of_array s (begins p1 k) = of_array s (begins p k)).
Proof using TY WT WN SD.
  intros r I F W B C CO E. set (s := said r) in *. assert (U : used s) by (apply used_at; exact C). assert (D : dtype r = ty s) by (apply (ty_at order ty TY); exact C).
  assert (WE : SwapModel.bytes sizeof r (dtype r) = weight s) by (apply (wt_at order sizeof weight WT); exact C).
  rewrite D in CO. change (count (st p s) = 0) in CO. destruct (uncounted q g pos p s I U CO) as (NP & Q0). assert (LH : (head p < length order)%nat) by (apply (at_inside order); exact C).
  unfold SwapModel.first_fetch in E. fold s in E. rewrite WE in E. destruct (_ || _)%bool eqn:G in E; [discriminate |]. apply orb_false_iff in G as (G1 & G2). apply Z.ltb_ge in G1, G2.
  pose proof (i_max _ _ _ _ _ _ _ _ _ _ I) as MX. pose proof (WN s) as WS.
  assert (QS : forall p2, st (queued p2 r) s = A (count (st p2 s) + 1) (state (st p2 s)) (swapped (st p2 s))) by (intros p2; unfold SwapProofs3.st, queued; cbn [states]; fold s; rewrite D, set_state_same; reflexivity).
  assert (QO : forall p2 s' d, s' <> s \/ d <> ty s -> states (queued p2 r) s' d = states p2 s' d) by (intros p2 s' d X; unfold queued; cbn [states]; apply set_state_other; fold s; rewrite D; exact X).
  destruct (on_device r) eqn:OD.
  - destruct (is_out (state (states p s (dtype r)))) eqn:OU.
    + rewrite D in OU. destruct (out_entry order ends max_bytes ty weight strict q g pos p s (ty s) I OU) as (_ & _ & O). injection E as <-.
      destruct (cancelled q g pos p s I U O) as (f' & E1 & E2 & E3 & E4 & E5). set (p1 := cancel_swap_out order ends sizeof p r).
      assert (X1 : st p1 s = A (count (st p s)) In (swapped (st p s))) by (unfold SwapProofs3.st at 1, p1, cancel_swap_out; cbn [states]; fold s; rewrite change_same; rewrite OU; reflexivity).
      assert (X2 : ins p1 = ins p + weight s /\ outs p1 = outs p - weight s /\ prefetched p1 = prefetched p + weight s).
      { unfold p1, cancel_swap_out. cbn [ins outs prefetched]. unfold r. rewrite !(bytes_one order sizeof ty weight TY WT p _ _ C). fold r. fold s. rewrite O. cbn. auto. }
      destruct X2 as (X2 & X3 & X4). assert (X5 : finals p1 = f') by exact E1.
      split; [| split; [reflexivity | split; [reflexivity | split]]].
      * apply (inv_enqueue q g pos p (queued p1 r) s In I eq_refl C eq_refl).
        -- left. exact NP.
        -- intros s' d X. rewrite QO by exact X. unfold p1, cancel_swap_out. cbn [states]. fold s. destruct (Nat.eq_dec s' s) as [-> | N]; [| rewrite change_other by exact N; auto]. rewrite change_same. assert (Y : state (states p s d) = Cleared) by (apply (i_other _ _ _ _ _ _ _ _ _ _ I); destruct X; tauto). rewrite Y. cbn [is_out]. tauto.
        -- rewrite QS, X1. reflexivity.
        -- reflexivity.
        -- reflexivity.
        -- rewrite O. cbn [is_In queued ins]. rewrite X2. lia.
        -- rewrite O. cbn [is_Out queued outs]. rewrite X3. lia.
        -- rewrite O. cbn [is_pre queued prefetched]. rewrite X4. lia.
        -- cbn [queued ins outs]. rewrite X2, X3. lia.
        -- apply (i_heads _ _ _ _ _ _ _ _ _ _ I).
        -- reflexivity.
        -- intros s' k N. cbn [queued finals]. rewrite X5. apply E2. exact N.
        -- left. unfold SwapProofs3.tr. cbn [queued begins finals]. rewrite X5. exact E3.
        -- unfold SwapProofs3.tr. cbn [queued begins finals]. rewrite X5. exact E4.
        -- apply (i_begins _ _ _ _ _ _ _ _ _ _ I).
        -- cbn [queued finals]. rewrite X5. exact E5.
      * intros s' U' X. destruct (Nat.eq_dec s' s) as [-> | N]; [rewrite X1 in X; discriminate |]. rewrite <- X. unfold SwapProofs3.st, p1, cancel_swap_out. cbn [states]. rewrite change_other by exact N. reflexivity.
      * intros NN. exfalso. apply (NN s U O).
    + rewrite D in OU. change (is_out (state (st p s)) = false) in OU. assert (AB : now (tr p g) s = Absent /\ is_In (state (st p s)) = false /\ is_Out (state (st p s)) = false) by (pose proof (i_rel _ _ _ _ _ _ _ _ _ _ I s U) as R; destruct (state (st p s)); try discriminate; cbn [SwapProofs3.rel] in R; auto).
      destruct AB as (AB & NI & NO). destruct (no_data_transfer r) eqn:ND.
      * injection E as <-. set (p1 := P _ _ _ _ _ _ _ _ _ _).
        assert (X1 : st p1 s = A (count (st p s)) Unprefetched (swapped (st p s))) by (unfold SwapProofs3.st at 1, p1; cbn [states]; rewrite D, set_state_same; reflexivity).
        split; [| split; [reflexivity | split; [reflexivity | split]]].
        -- apply (inv_enqueue q g pos p (queued p1 r) s Unprefetched I eq_refl C eq_refl); try (rewrite NI || rewrite NO || rewrite NP); cbn [queued ins outs prefetched p1]; try lia; try reflexivity.
           ++ intros s' d X. rewrite QO by exact X. unfold p1. cbn [states]. rewrite set_state_other by (rewrite D; exact X). auto.
           ++ rewrite QS, X1. reflexivity.
           ++ cbn [is_In]; lia.
           ++ apply (i_heads _ _ _ _ _ _ _ _ _ _ I).
           ++ left. apply (i_fine _ _ _ _ _ _ _ _ _ _ I).
           ++ cbn [SwapProofs3.rel]. split; [exact AB |]. intros _. apply (fresh_head q pos s (head p) Q0 B); [apply uses_self; exact C | exact ND].
           ++ apply (i_begins _ _ _ _ _ _ _ _ _ _ I).
           ++ apply (i_finals _ _ _ _ _ _ _ _ _ _ I).
        -- intros s' U' X. destruct (Nat.eq_dec s' s) as [-> | N]; [rewrite X1 in X; discriminate |]. rewrite <- X. unfold SwapProofs3.st, p1. cbn [states]. rewrite set_state_other by auto. reflexivity.
        -- intros _. split; [reflexivity |]. intros s' N. split; [| reflexivity]. unfold SwapProofs3.st, p1. cbn [states]. apply set_state_other. auto.
      * destruct (heads p s) as (h, hd) eqn:HD. assert (EX : (if (h && negb (Nat.eqb hd (dtype r)))%bool then SwapModel.bytes sizeof r hd else 0) = 0).
        { destruct h; [| reflexivity]. pose proof (i_heads _ _ _ _ _ _ _ _ _ _ I s U) as X. unfold known in X. rewrite HD in X. cbn [fst snd] in X. rewrite (X (or_introl eq_refl)), D, Nat.eqb_refl. reflexivity. }
        rewrite EX, Z.add_0_r in E. rewrite Z.add_0_r in E. destruct (max_bytes <? ins p + weight s) eqn:G3; [discriminate |].
        destruct (inv_free order ends sizeof max_bytes ty weight strict TY WT WN q g pos (weight s) (waits_left p) p I F G2 W) as (J & (K1 & K2 & K3 & K4 & K5 & K6 & K7) & K8 & K9). set (p0 := free_memory _ _ _ _ _ _) in *.
        set (wc := (_ && _)%bool) in E. injection E as <-. set (hd' := if wc then (true, dtype r) else _). set (ev := ((if wc then SwapInCast else SwapInGet), head p0)). set (p1 := fetched _ _ _).
        assert (NP0 : is_pre (state (st p0 s)) = false) by (destruct (K7 s) as (_ & ->); exact NP).
        assert (NO0 : is_Out (state (st p0 s)) = false) by (destruct (K7 s) as (X & _); destruct (state (st p0 s)); try reflexivity; rewrite (X eq_refl) in NO; discriminate).
        assert (NI0 : is_In (state (st p0 s)) = false) by (destruct (state (st p0 s)); try reflexivity; discriminate).
        assert (X1 : st p1 s = A (count (st p0 s)) In (swapped (st p0 s))) by (unfold SwapProofs3.st at 1, p1, fetched; cbn [states]; fold s; rewrite D, set_state_same; reflexivity).
        assert (TR : tr (queued p1 r) g = tr p0 g ++ [Planned ev]) by (unfold SwapProofs3.tr; cbn [queued p1 fetched begins finals]; unfold p1, fetched; cbn [begins finals]; rewrite K2, F; apply sofar_begin).
        assert (RV : said (at_ (snd ev)) = s) by (cbn [ev snd]; rewrite K1; reflexivity).
        split; [| split; [exact K1 | split; [exact K2 | split]]].
        -- apply (inv_enqueue q g pos p0 (queued p1 r) s In J); rewrite ?K1; try (rewrite NI0 || rewrite NO0 || rewrite NP0); cbn [queued ins outs prefetched tail head]; try reflexivity.
           ++ exact C.
           ++ left. reflexivity.
           ++ intros s' d X. rewrite QO by exact X. unfold p1, fetched. cbn [states]. fold s. rewrite set_state_other by (rewrite D; exact X). auto.
           ++ rewrite QS, X1. reflexivity.
           ++ unfold p1, fetched. cbn [head]. rewrite K1. reflexivity.
           ++ unfold p1, fetched. cbn [ins is_In]. lia.
           ++ unfold p1, fetched. cbn [outs]. lia.
           ++ unfold p1, fetched. cbn [prefetched]. lia.
           ++ unfold p1, fetched. cbn [ins outs]. lia.
           ++ intros s' U' X. unfold known in X. cbn [queued heads] in *. unfold p1, fetched in *. cbn [heads] in *. unfold set in *. destruct (Nat.eqb_spec s' s) as [-> | N]; [| apply (i_heads _ _ _ _ _ _ _ _ _ _ J); assumption].
              unfold hd' in *. destruct wc; [exact D |]. destruct h; [| exact D]. pose proof (i_heads _ _ _ _ _ _ _ _ _ _ I s U) as Y. unfold known in Y. rewrite HD in Y. apply Y. left. reflexivity.
           ++ intros s' k N. cbn [queued begins]. unfold p1, fetched. cbn [begins]. apply push_of_array. fold ev. congruence.
           ++ right. exists ev. exact TR.
           ++ rewrite TR, after_snoc. cbn [SwapProofs3.rel]. intros _. left. unfold ev. cbn [act]. change (nth (head p0) order no_record) with (at_ (head p0)). rewrite K1. fold r. fold s. rewrite Nat.eqb_refl. destruct wc; reflexivity.
           ++ intros k K. cbn [queued begins]. unfold p1, fetched, push. cbn [begins]. rewrite set_other by (rewrite K2, F; lia). apply (i_begins _ _ _ _ _ _ _ _ _ _ J). exact K.
           ++ apply (i_finals _ _ _ _ _ _ _ _ _ _ J).
        -- intros s' U' X. destruct (Nat.eq_dec s' s) as [-> | N]; [rewrite X1 in X; discriminate |]. apply (K7 s'). rewrite <- X. unfold SwapProofs3.st, p1, fetched. cbn [states]. rewrite set_state_other by auto. reflexivity.
        -- intros NN. pose proof (K9 NN) as EQ. split; [exact K6 |]. intros s' N. split; [| intros k; unfold p1, fetched; cbn [begins]; rewrite push_of_array by (fold ev; congruence); rewrite EQ; reflexivity]. unfold SwapProofs3.st, p1, fetched. cbn [states]. rewrite set_state_other by auto. rewrite EQ. reflexivity.
  - assert (NS : ~ strict) by (intros St; pose proof (SD St (head p) C) as X; fold r in X; congruence).
    destruct (is_out (state (states p s (dtype r)))) eqn:OU.
    + rewrite D in OU. destruct (out_entry order ends max_bytes ty weight strict q g pos p s (ty s) I OU) as (_ & _ & O). injection E as <-. set (p1 := P _ _ _ _ _ _ _ _ _ _).
      assert (X1 : st p1 s = A (count (st p s)) In (swapped (st p s))) by (unfold SwapProofs3.st at 1, p1; cbn [states]; rewrite change_same; fold (st p s); rewrite O; reflexivity).
      assert (X2 : ins p1 = ins p + weight s /\ outs p1 = outs p - weight s /\ prefetched p1 = prefetched p + weight s).
      { unfold p1. cbn [ins outs prefetched]. unfold r. rewrite !(bytes_one order sizeof ty weight TY WT p _ _ C). fold r. fold s. rewrite O. cbn. auto. }
      destruct X2 as (X2 & X3 & X4).
      split; [| split; [reflexivity | split; [reflexivity | split]]].
      * apply (inv_enqueue q g pos p (queued p1 r) s In I eq_refl C eq_refl).
        -- left. exact NP.
        -- intros s' d X. rewrite QO by exact X. unfold p1. cbn [states]. destruct (Nat.eq_dec s' s) as [-> | N]; [| rewrite change_other by exact N; auto]. rewrite change_same. assert (Y : state (states p s d) = Cleared) by (apply (i_other _ _ _ _ _ _ _ _ _ _ I); destruct X; tauto). rewrite Y. tauto.
        -- rewrite QS, X1. reflexivity.
        -- reflexivity.
        -- reflexivity.
        -- rewrite O. cbn [is_In queued ins]. rewrite X2. lia.
        -- rewrite O. cbn [is_Out queued outs]. rewrite X3. lia.
        -- rewrite O. cbn [is_pre queued prefetched]. rewrite X4. lia.
        -- cbn [queued ins outs]. rewrite X2, X3. lia.
        -- apply (i_heads _ _ _ _ _ _ _ _ _ _ I).
        -- reflexivity.
        -- reflexivity.
        -- left. apply (i_fine _ _ _ _ _ _ _ _ _ _ I).
        -- intros St. contradiction.
        -- apply (i_begins _ _ _ _ _ _ _ _ _ _ I).
        -- apply (i_finals _ _ _ _ _ _ _ _ _ _ I).
      * intros s' U' X. destruct (Nat.eq_dec s' s) as [-> | N]; [rewrite X1 in X; discriminate |]. rewrite <- X. unfold SwapProofs3.st, p1. cbn [states]. rewrite change_other by exact N. reflexivity.
      * intros NN. exfalso. apply (NN s U O).
    + rewrite D in OU. change (is_out (state (st p s)) = false) in OU. assert (NO : is_Out (state (st p s)) = false) by (destruct (state (st p s)); try reflexivity; discriminate).
      destruct (inv_free order ends sizeof max_bytes ty weight strict TY WT WN q g pos (weight s) (waits_left p) p I F G2 W) as (J & (K1 & K2 & K3 & K4 & K5 & K6 & K7) & K8 & K9). set (p0 := free_memory _ _ _ _ _ _) in *. injection E as <-. set (p1 := fetched _ _ _).
      assert (NP0 : is_pre (state (st p0 s)) = false) by (destruct (K7 s) as (_ & ->); exact NP).
      assert (NO0 : is_Out (state (st p0 s)) = false) by (destruct (K7 s) as (X & _); destruct (state (st p0 s)); try reflexivity; rewrite (X eq_refl) in NO; discriminate).
      assert (NI0 : is_In (state (st p0 s)) = false) by (destruct (state (st p0 s)); try reflexivity; discriminate).
      assert (X1 : st p1 s = A (count (st p0 s)) In (swapped (st p0 s))) by (unfold SwapProofs3.st at 1, p1, fetched; cbn [states]; fold s; rewrite D, set_state_same; reflexivity).
      split; [| split; [exact K1 | split; [exact K2 | split]]].
      * apply (inv_enqueue q g pos p0 (queued p1 r) s In J); rewrite ?K1; try (rewrite NI0 || rewrite NO0 || rewrite NP0); cbn [queued ins outs prefetched tail head]; try reflexivity.
        -- exact C.
        -- left. reflexivity.
        -- intros s' d X. rewrite QO by exact X. unfold p1, fetched. cbn [states]. fold s. rewrite set_state_other by (rewrite D; exact X). auto.
        -- rewrite QS, X1. reflexivity.
        -- unfold p1, fetched. cbn [head]. rewrite K1. reflexivity.
        -- unfold p1, fetched. cbn [ins is_In]. lia.
        -- unfold p1, fetched. cbn [outs]. lia.
        -- unfold p1, fetched. cbn [prefetched]. lia.
        -- unfold p1, fetched. cbn [ins outs]. lia.
        -- apply (i_heads _ _ _ _ _ _ _ _ _ _ J).
        -- left. apply (i_fine _ _ _ _ _ _ _ _ _ _ J).
        -- intros St. contradiction.
        -- apply (i_begins _ _ _ _ _ _ _ _ _ _ J).
        -- apply (i_finals _ _ _ _ _ _ _ _ _ _ J).
      * intros s' U' X. destruct (Nat.eq_dec s' s) as [-> | N]; [rewrite X1 in X; discriminate |]. apply (K7 s'). rewrite <- X. unfold SwapProofs3.st, p1, fetched. cbn [states]. rewrite set_state_other by auto. reflexivity.
      * intros NN. pose proof (K9 NN) as EQ. split; [exact K6 |]. intros s' N. split; [| intros k; unfold p1, fetched; cbn [begins]; rewrite EQ; reflexivity]. unfold SwapProofs3.st, p1, fetched. cbn [states]. rewrite set_state_other by auto. rewrite EQ. reflexivity.
Qed.
End plan.
