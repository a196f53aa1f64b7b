(** Proofs about SwapModel: there is memory for every function. *)
From Coq Require Import List ZArith Bool Arith Lia.
From Verif Require Import SwapModel SwapSpec SwapProofs1 SwapProofs2 SwapProofs3 SwapProofs4 SwapProofs5 SwapProofs6 SwapProofs7 SwapProofs8 SwapProofs9 SwapProofs10 SwapProofs12.
Import ListNotations.
Local Open Scope list_scope.
Local Open Scope Z_scope.

Section plan.
Variables (order : list record) (ends : list nat) (sizeof : nat -> Z) (max_bytes : Z).
Variables (ty : nat -> nat) (weight : nat -> Z) (strict : Prop).
Notation at_ := (at_ order).
Notation block_end := (block_end ends).
Notation block_start := (block_start ends).
Notation L := (arrays order).
Notation uses := (uses order).
Notation used := (used order).
Notation queue := (queue order).
Notation bytes := (bytes sizeof).
Notation st := (st ty).
Notation inv := (inv order ends max_bytes ty weight strict).
Notation before := (before order ends max_bytes ty weight strict).
Notation sum := (sum order ty weight).

Hypothesis TY : forall r, List.In r order -> is_clear r = false -> dtype r = ty (said r).
Hypothesis WT : forall r, List.In r order -> is_clear r = false -> bytes r (dtype r) = weight (said r).
Hypothesis WN : forall s, 0 <= weight s.
Hypothesis SD : strict -> forall i, is_clear (at_ i) = false -> on_device (at_ i) = true.
Hypothesis BE : forall f, (block_end f <= length order)%nat.
Hypothesis BL : forall f, (S f < length ends)%nat -> (block_end f <= block_end (S f))%nat.
Hypothesis MX : max_bytes < 18446744073709551616.
Variables (max_prefetch : Z) (cast_prefetch : bool) (head0 : nat -> option nat).
(** The weights of the arrays that must be there for function [S g]. *)
Definition fit (g : nat) : Z := total (fun s => if 0 <? queue s (from ends g) (block_end (S g)) then weight s else 0) L.
Hypothesis FIT : forall g, (S g < length ends)%nat -> fit g <= max_bytes /\ fit g <= max_prefetch.
Definition gentle (stopper : nat -> nat) : Prop := forall f k, (0 < f)%nat -> List.In k (block ends f) -> (stopper k <= f)%nat.

Lemma queue_mono s a b c : (b <= c)%nat -> 0 < queue s a b -> 0 < queue s a c.
Proof. intros BC Q. destruct (queue_pos_inv order s a b Q) as (k & K & U). apply (queue_pos order s a c k); [lia | exact U]. Qed.
Lemma room_for g p : before g p -> (head p < block_end (S g))%nat -> is_clear (at_ (head p)) = false -> count (states p (said (at_ (head p))) (dtype (at_ (head p)))) = 0 -> prefetched p + weight (said (at_ (head p))) <= fit g.
Proof.
  intros B HB C Z0. pose proof (b_inv _ _ _ _ _ _ _ _ B) as I. set (s := said (at_ (head p))) in *. assert (US : used s) by (apply used_at; exact C). rewrite (ty_at order ty TY _ C) in Z0. fold s in Z0. change (count (st p s) = 0) in Z0.
  pose proof (i_head _ _ _ _ _ _ _ _ _ _ I) as HH. rewrite (i_count _ _ _ _ _ _ _ _ _ _ I s US) in Z0. rewrite (i_pre _ _ _ _ _ _ _ _ _ _ I).
  transitivity (total (fun x => (if is_pre (state (st p x)) then weight x else 0) + (if Nat.eqb x s then weight s else 0)) L).
  - rewrite total_plus. change (total (fun s => if is_pre (state (st p s)) then weight s else 0) L) with (sum p is_pre). rewrite (total_change (fun _ => 0) (fun x => if Nat.eqb x s then weight s else 0) L s (arrays_nodup order)); [| apply arrays_in; exact US | intros x X; apply Nat.eqb_neq in X; rewrite X; reflexivity]. rewrite Nat.eqb_refl, (total_zero (fun _ : nat => 0)) by auto. lia.
  - apply total_le. intros x X. apply arrays_in in X. pose proof (i_pos _ _ _ _ _ _ _ _ _ _ I x X) as IP. destruct (Nat.eqb_spec x s) as [-> | NE].
    + destruct (is_pre (state (st p s))) eqn:PR; [pose proof (proj2 IP eq_refl); lia |]. assert (Q : 0 < queue s (from ends g) (block_end (S g))) by (apply (queue_pos order s _ _ (head p)); [lia | apply uses_self; exact C]). apply Z.ltb_lt in Q. rewrite Q. lia.
    + destruct (is_pre (state (st p x))) eqn:PR; [| pose proof (WN x); destruct (0 <? _); lia]. assert (Q : 0 < queue x (from ends g) (block_end (S g))) by (apply (queue_mono x _ (head p)); [lia | apply IP; reflexivity]). apply Z.ltb_lt in Q. rewrite Q. lia.
Qed.
Lemma fetch_some g p : before g p -> (S g < length ends)%nat -> (head p < block_end (S g))%nat -> is_clear (at_ (head p)) = false -> count (states p (said (at_ (head p))) (dtype (at_ (head p)))) = 0 -> first_fetch order ends sizeof max_bytes max_prefetch cast_prefetch head0 p (at_ (head p)) <> None.
Proof.
  intros B LG HB C Z0. pose proof (room_for g p B HB C Z0) as R. destruct (FIT g LG) as (F1 & F2). pose proof (b_inv _ _ _ _ _ _ _ _ B) as I. set (r := at_ (head p)) in *. assert (US : used (said r)) by (apply used_at; exact C).
  assert (LE : ins p <= prefetched p) by (rewrite (i_ins _ _ _ _ _ _ _ _ _ _ I), (i_pre _ _ _ _ _ _ _ _ _ _ I); apply total_le; intros s _; pose proof (WN s); destruct (state (st p s)); cbn [is_In is_pre]; lia).
  assert (W : bytes r (dtype r) = weight (said r)) by (apply (wt_at order sizeof weight WT); exact C).
  unfold first_fetch. rewrite W. replace (max_prefetch <? prefetched p + weight (said r)) with false by (symmetry; apply Z.ltb_ge; lia). replace (max_bytes <? ins p + weight (said r)) with false by (symmetry; apply Z.ltb_ge; lia). cbn [orb].
  destruct (on_device r); [| destruct (is_out _); discriminate]. destruct (is_out _); [discriminate |]. destruct (no_data_transfer r); [discriminate |]. destruct (heads p (said r)) as (h, hd) eqn:HD. cbv zeta.
  assert (X : (h && negb (Nat.eqb hd (dtype r)))%bool = false).
  { destruct h; [| reflexivity]. assert (K : snd (heads p (said r)) = ty (said r)) by (apply (i_heads _ _ _ _ _ _ _ _ _ _ I _ US); left; rewrite HD; reflexivity). rewrite HD in K. cbn [snd] in K. rewrite K. replace (dtype r) with (ty (said r)) by (symmetry; apply (ty_at order ty TY); exact C). rewrite Nat.eqb_refl. reflexivity. }
  rewrite X. replace (max_bytes <? ins p + weight (said r) + 0) with false by (symmetry; apply Z.ltb_ge; lia). discriminate.
Qed.
Lemma swap_in_up stopper n : forall p, (head p <= head (swap_in order ends sizeof max_bytes max_prefetch cast_prefetch head0 n stopper p))%nat.
Proof.
  induction n as [| n IH]; intros p; cbn [swap_in]; [lia |]. destruct (is_clear _); [specialize (IH (skipped p)); cbn [skipped head] in IH; lia |]. destruct (Nat.ltb _ _); [lia |]. destruct (_ =? 0).
  - destruct (first_fetch _ _ _ _ _ _ _ _ _) as [q |] eqn:F; [| lia]. apply same_fetch in F as (F & _). match goal with |- context [swap_in _ _ _ _ _ _ _ n stopper ?x] => specialize (IH x) end. cbn [queued head] in IH. lia.
  - match goal with |- context [swap_in _ _ _ _ _ _ _ n stopper ?x] => specialize (IH x) end. cbn [queued head] in IH. lia.
Qed.
Lemma swap_in_block g stopper : gentle stopper -> (S g < length ends)%nat -> forall n p, before g p -> (n = length order - head p)%nat -> (block_end (S g) <= head (swap_in order ends sizeof max_bytes max_prefetch cast_prefetch head0 n stopper p))%nat.
Proof.
  intros GE LG. induction n as [| n IH]; intros p B N; [cbn [swap_in]; specialize (BE (S g)); lia |].
  destruct (Nat.le_gt_cases (block_end (S g)) (head p)) as [X | X]; [pose proof (swap_in_up stopper (S n) p); lia |].
  pose proof (before_swap_in order ends sizeof max_bytes ty weight strict TY WT WN SD max_prefetch cast_prefetch head0 g stopper 1 p B ltac:(lia)) as B1. cbn [swap_in] in B1 |- *.
  assert (ST : Nat.ltb (fid p) (stopper (head p)) = false).
  { apply Nat.ltb_ge. rewrite (b_fid _ _ _ _ _ _ _ _ B). apply GE; [lia |]. apply in_block. cbn [SwapModel.block_start]. pose proof (b_head _ _ _ _ _ _ _ _ B). lia. }
  rewrite ST in *. destruct (is_clear (at_ (head p))) eqn:C; [apply IH; [exact B1 | cbn [skipped head]; lia] |].
  destruct (Z.eqb_spec (count (states p (said (at_ (head p))) (dtype (at_ (head p))))) 0) as [Z0 | Z0]; [| apply IH; [exact B1 | cbn [queued head]; lia]].
  destruct (first_fetch _ _ _ _ _ _ _ _ _) as [q |] eqn:F; [| destruct (fetch_some g p B LG X C Z0 F)]. apply IH; [exact B1 |]. apply same_fetch in F as (F & _). cbn [queued head]. lia.
Qed.

(** * Going back *)
Definition occupied_by (p : params) (g back : nat) : Z := total (fun s => if (is_In (state (st p s)) && (0 <? queue s (from ends g) back))%bool then weight s else 0) L.
Lemma backtrack_enough g p needed : (from ends g <= block_end (S g))%nat -> needed <= max_bytes - occupied_by p g (block_end (S g)) ->
  forall j n back m stopper available, back = (block_end (S g) + j)%nat -> (back <= head p)%nat -> (j <= n)%nat -> (forall s, used s -> state (m s (ty s)) = state (st p s) /\ count (m s (ty s)) = queue s (from ends g) back) ->
  available = max_bytes - occupied_by p g back -> available < needed ->
  let '(a, st') := backtrack order sizeof n (S g) back m stopper needed available in needed <= a /\ forall k, (k < block_end (S g))%nat -> st' k = stopper k.
Proof.
  intros FB ND. induction j as [| j IH]; intros n back m stopper available BK HB JN M AV LT; [rewrite Nat.add_0_r in BK; subst back available; lia |].
  destruct n as [| n]; [lia |]. cbn [backtrack]. set (b := (back - 1)%nat) in *. assert (Bb : back = S b) by lia. destruct (is_clear (at_ b)) eqn:C.
  - apply (IH n b); try lia.
    + intros s U. destruct (M s U) as (M1 & M2). split; [exact M1 |]. rewrite M2, Bb, queue_snoc by lia. rewrite uses_clear by exact C. lia.
    + rewrite AV. f_equal. apply total_ext. intros s _. rewrite Bb, queue_snoc by lia. rewrite uses_clear by exact C. rewrite Z.add_0_r. reflexivity.
  - set (s0 := said (at_ b)). assert (US : used s0) by (apply used_at; exact C). destruct (M s0 US) as (M1 & M2). assert (TD : dtype (at_ b) = ty s0) by (apply (ty_at order ty TY); exact C).
    assert (AC : accumulate_counts order m s0 = queue s0 (from ends g) back) by (unfold accumulate_counts; rewrite (total_one order ty TY s0 _ US); exact M2).
    assert (BI : bytes_in order sizeof m (at_ b) is_In = if is_In (state (st p s0)) then weight s0 else 0) by (unfold bytes_in; fold s0; rewrite (total_one order ty TY s0 _ US), M1; rewrite <- TD; rewrite (wt_at order sizeof weight WT b C); reflexivity).
    assert (Q1 : queue s0 (from ends g) back = queue s0 (from ends g) b + 1) by (rewrite Bb, queue_snoc by lia; rewrite (uses_self order b C : uses s0 b = true); reflexivity). pose proof (queue_nonneg order s0 (from ends g) b) as QN.
    rewrite AC, BI. set (one := queue s0 (from ends g) back =? 1). set (av := if one then available + _ else available).
    assert (AV' : av = max_bytes - occupied_by p g b).
    { assert (OC : occupied_by p g b = occupied_by p g back - (if is_In (state (st p s0)) then weight s0 else 0) + (if (is_In (state (st p s0)) && (0 <? queue s0 (from ends g) b))%bool then weight s0 else 0)).
      { unfold occupied_by at 1. rewrite (total_change (fun s => if (is_In (state (st p s)) && (0 <? queue s (from ends g) back))%bool then weight s else 0) _ L s0 (arrays_nodup order)).
        - assert (P0 : 0 <? queue s0 (from ends g) back = true) by (apply Z.ltb_lt; lia). rewrite P0, andb_true_r. reflexivity.
        - apply arrays_in. exact US.
        - intros x X. rewrite Bb, queue_snoc by lia. rewrite (uses_other order x b) by (exact X). rewrite Z.add_0_r. reflexivity. }
      unfold av, one. rewrite OC, AV. destruct (Z.eqb_spec (queue s0 (from ends g) back) 1) as [E | E].
      - replace (0 <? queue s0 (from ends g) b) with false by (symmetry; apply Z.ltb_ge; lia). rewrite andb_false_r. lia.
      - replace (0 <? queue s0 (from ends g) b) with true by (symmetry; apply Z.ltb_lt; lia). rewrite andb_true_r. lia. }
    assert (ST : forall k, (k < block_end (S g))%nat -> (if one then set stopper b (S (S g)) else stopper) k = stopper k) by (intros k K; destruct one; [apply set_other; lia | reflexivity]).
    fold s0. destruct (Z.leb_spec needed av) as [X | X]; [split; [exact X | exact ST] |].
    match goal with |- context [backtrack _ _ n _ _ ?m' ?s ?d ?a] => specialize (IH n b m' s a ltac:(lia) ltac:(lia) ltac:(lia)) end. destruct (backtrack _ _ _ _ _ _ _ _ _) as (a, st'). destruct IH as (IH1 & IH2); [| exact AV' | exact X | split; [exact IH1 | intros k K; rewrite IH2 by exact K; apply ST; exact K]].
    intros s U. destruct (Nat.eq_dec s s0) as [-> | NE].
    + rewrite TD, set_state_same. cbn [state count]. rewrite M1, M2. split; [reflexivity | lia].
    + rewrite set_state_other by auto. destruct (M s U) as (M3 & M4). split; [exact M3 |]. rewrite M4, Bb, queue_snoc by lia. rewrite (uses_other order s b) by exact NE. lia.
Qed.
Lemma backtrack_values f needed n : forall back m stopper available, let '(a, st') := backtrack order sizeof n f back m stopper needed available in forall k, st' k = stopper k \/ st' k = S f.
Proof.
  induction n as [| n IH]; intros back m stopper available; cbn [backtrack]; [auto |]. destruct (is_clear _); [apply IH |]. set (s1 := if _ =? 1 then set _ _ _ else stopper).
  assert (S1 : forall k, s1 k = stopper k \/ s1 k = S f) by (intros k; unfold s1; destruct (_ =? 1); [unfold set; destruct (Nat.eqb k _); auto | auto]). destruct (needed <=? _); [exact S1 |].
  match goal with |- context [backtrack _ _ n _ ?b ?m' ?s ?d ?a] => specialize (IH b m' s a) end. destruct (backtrack _ _ _ _ _ _ _ _ _) as (a, st'). intros k. destruct (IH k) as [-> | ->]; auto.
Qed.
Definition milder (g : nat) (stopper st' : nat -> nat) : Prop := (forall k, (k < block_end (S g))%nat -> st' k = stopper k) /\ forall k, st' k = stopper k \/ st' k = S (S g).
Lemma last_try g p stopper needed : (from ends g <= block_end (S g) <= head p)%nat -> fid p = S g -> (forall s, used s -> count (st p s) = queue s (from ends g) (head p)) -> outs p = 0 -> ins p = occupied_by p g (head p) -> 0 <= ins p <= max_bytes ->
  needed + occupied_by p g (block_end (S g)) <= max_bytes -> max_bytes - ins p - outs p < needed -> exists st', make_room order ends sizeof max_bytes 0 stopper p needed = Again _ st' /\ milder g stopper st'.
Proof.
  intros FB F CT O0 IN IM ND LT. cbn [make_room]. assert (SZ : size_t (max_bytes - ins p - outs p) = max_bytes - ins p - outs p) by (unfold size_t; apply Z.mod_small; lia). rewrite SZ, F. apply Z.ltb_lt in LT as LT'. rewrite LT'.
  pose proof (backtrack_enough g p needed) as X. pose proof (backtrack_values (S g) needed (S (head p) - block_end (S g)) (head p) (states p) stopper (max_bytes - ins p - outs p)) as V.
  specialize (X ltac:(lia) ltac:(lia) (head p - block_end (S g))%nat (S (head p) - block_end (S g))%nat (head p) (states p) stopper (max_bytes - ins p - outs p) ltac:(lia) ltac:(lia) ltac:(lia)).
  destruct (backtrack _ _ _ _ _ _ _ _ _) as (a, st'). destruct X as (X1 & X2); [intros s U; split; [reflexivity | apply CT; exact U] | lia | lia |]. exists st'. destruct (Z.ltb_spec a needed) as [Y | Y]; [lia |]. split; [reflexivity | split; assumption].
Qed.
Lemma wait_In p s : is_In (state (st (wait order sizeof p) s)) = is_In (state (st p s)).
Proof.
  unfold wait. destruct (_ && _)%bool; [| reflexivity]. unfold SwapProofs3.st. cbn [states]. unfold set_state, change. destruct (_ && _)%bool eqn:E.
  - apply andb_prop in E as (E1 & E2). apply Nat.eqb_eq in E1, E2. rewrite <- E1, <- E2. rewrite Nat.eqb_refl. cbn [state]. destruct (state (states p s (ty s))) eqn:X; cbn; rewrite ?X; reflexivity.
  - destruct (Nat.eqb s _); [| reflexivity]. destruct (state (states p s (ty s))) eqn:X; cbn; rewrite ?X; reflexivity.
Qed.
Lemma ins_occupied q g pos p : inv q g pos p -> q = from ends g -> ins p = occupied_by p g (head p).
Proof.
  intros I ->. rewrite (i_ins _ _ _ _ _ _ _ _ _ _ I). apply total_ext. intros s X. apply arrays_in in X. destruct (state (st p s)) eqn:E; try reflexivity. cbn [is_In andb]. pose proof (proj2 (i_pos _ _ _ _ _ _ _ _ _ _ I s X)) as Q. rewrite E in Q. specialize (Q eq_refl). apply Z.ltb_lt in Q. rewrite Q. reflexivity.
Qed.
Lemma room_result g stopper needed n : forall p, inv (from ends g) g (block_end g) p -> fid p = S g -> (from ends g <= block_end (S g) <= head p)%nat -> (n = from ends g - tail p)%nat -> needed + occupied_by p g (block_end (S g)) <= max_bytes ->
  (exists p', make_room order ends sizeof max_bytes n stopper p needed = Got _ p') \/ exists st', make_room order ends sizeof max_bytes n stopper p needed = Again _ st' /\ milder g stopper st'.
Proof.
  induction n as [| n IH]; intros p I F FB N ND; pose proof (size_t_room order ends max_bytes ty weight strict WN MX _ _ _ p I) as SZ; destruct (Z.ltb_spec (max_bytes - ins p - outs p) needed) as [LT | LT].
  - right. pose proof (i_tail _ _ _ _ _ _ _ _ _ _ I) as T. pose proof (no_outs_sum order ty weight p (exhausted order ends max_bytes ty weight strict _ _ _ p I ltac:(lia))) as O0. rewrite <- (i_outs _ _ _ _ _ _ _ _ _ _ I) in O0.
    apply (last_try g p stopper needed); auto; [apply (i_count _ _ _ _ _ _ _ _ _ _ I) | apply (ins_occupied _ _ _ _ I eq_refl) |]. pose proof (i_max _ _ _ _ _ _ _ _ _ _ I). pose proof (i_ins _ _ _ _ _ _ _ _ _ _ I). pose proof (sum_nonneg order ty weight WN p is_In). lia.
  - left. exists p. cbn [make_room]. rewrite SZ. apply Z.ltb_ge in LT. rewrite LT. reflexivity.
  - cbn [make_room]. rewrite SZ. apply Z.ltb_lt in LT. rewrite LT. destruct (wait_facts order sizeof ty p) as (W1 & W2 & W3 & W4 & W5 & W6 & _).
    apply IH; [apply inv_wait; try assumption; lia | congruence | rewrite W1; exact FB | lia |]. replace (occupied_by (wait order sizeof p) g (block_end (S g))) with (occupied_by p g (block_end (S g))); [exact ND |]. apply total_ext. intros s _. rewrite wait_In. reflexivity.
  - left. exists p. cbn [make_room]. rewrite SZ. apply Z.ltb_ge in LT. rewrite LT. reflexivity.
Qed.
Lemma room_first stopper needed n : forall p, (forall s d, is_out (state (states p s d)) = false) -> fid p = 1%nat -> (block_end 1 <= head p)%nat -> (forall s, used s -> count (st p s) = queue s 0 (head p)) -> outs p = 0 -> ins p = occupied_by p 0 (head p) -> 0 <= ins p <= max_bytes ->
  needed + occupied_by p 0 (block_end 1) <= max_bytes -> (exists p', make_room order ends sizeof max_bytes n stopper p needed = Got _ p') \/ exists st', make_room order ends sizeof max_bytes n stopper p needed = Again _ st' /\ milder 0 stopper st'.
Proof.
  induction n as [| n IH]; intros p NO F HB CT O0 IN IM ND; (destruct (Z.ltb_spec (max_bytes - ins p - outs p) needed) as [LT | LT]; [| left; exists p; cbn [make_room]; assert (SZ : size_t (max_bytes - ins p - outs p) = max_bytes - ins p - outs p) by (unfold size_t; apply Z.mod_small; lia); rewrite SZ; apply Z.ltb_ge in LT; rewrite LT; reflexivity]).
  - right. apply (last_try 0 p stopper needed); auto. cbn [from]. lia.
  - cbn [make_room]. assert (SZ : size_t (max_bytes - ins p - outs p) = max_bytes - ins p - outs p) by (unfold size_t; apply Z.mod_small; lia). rewrite SZ. apply Z.ltb_lt in LT. rewrite LT. assert (W : wait order sizeof p = P (head p) (S (tail p)) (fid p) (prefetched p) (ins p) (outs p) (states p) (begins p) (finals p) (heads p)) by (unfold wait; rewrite NO; reflexivity). rewrite W. apply IH; assumption.
Qed.
Lemma needed_fits g p : fid p = S g -> (from ends g <= block_end g)%nat -> unprefetched_bytes order ends sizeof p + occupied_by p g (block_end (S g)) <= fit g.
Proof.
  intros F FB. rewrite (needed_bytes order ends sizeof ty weight TY WT p). unfold occupied_by, fit. rewrite <- total_plus. apply total_le. intros s _. pose proof (WN s). destruct (state (st p s)) eqn:E; cbn [is_In andb]; rewrite ?andb_false_r; try (destruct (0 <? _); lia).
  rewrite andb_true_r. destruct (existsb (uses s) (block ends (fid p))) eqn:X; [| destruct (0 <? _); lia]. apply existsb_exists in X as (i & X & U). rewrite F in X. apply in_block in X. cbn [SwapModel.block_start] in X. assert (Q : 0 < queue s (from ends g) (block_end (S g))) by (apply (queue_pos order s _ _ i); [lia | exact U]). apply Z.ltb_lt in Q. rewrite Q. lia.
Qed.
Lemma milder_gentle g stopper st' : (S g < length ends)%nat -> gentle stopper -> milder g stopper st' -> gentle st'.
Proof.
  intros LG GE (M1 & M2) f k F K. destruct (M2 k) as [E | E]; [rewrite E; apply GE; assumption |]. destruct (Nat.le_gt_cases (block_end (S g)) k) as [X | X]; [| rewrite M1 by exact X; apply GE; assumption]. rewrite E. destruct (Nat.le_gt_cases (S (S g)) f) as [Y | Y]; [lia | exfalso].
  apply in_block in K. pose proof (block_mono ends BL f (S g) ltac:(lia) LG). lia.
Qed.
Section rounds.
Variables (info : nat -> list (nat * bool)) (stopper : nat -> nat).
Hypothesis GE : gentle stopper.
Lemma round_result g p : (S g < length ends)%nat -> before g (at_function p (S g)) ->
  (exists p', function_round order ends sizeof max_bytes max_prefetch cast_prefetch head0 info stopper p (S g) = Got _ p') \/ exists st', function_round order ends sizeof max_bytes max_prefetch cast_prefetch head0 info stopper p (S g) = Again _ st' /\ gentle st'.
Proof.
  intros LG B. unfold function_round. pose proof (swap_in_block g stopper GE LG (length order - head p) _ B eq_refl) as HB.
  pose proof (before_swap_in order ends sizeof max_bytes ty weight strict TY WT WN SD max_prefetch cast_prefetch head0 g stopper (length order - head p) _ B ltac:(reflexivity)) as B1. set (q := swap_in _ _ _ _ _ _ _ _ _ _) in *.
  pose proof (b_inv _ _ _ _ _ _ _ _ B1) as I. pose proof (b_fid _ _ _ _ _ _ _ _ B1) as F. pose proof (needed_fits g q F (from_le ends g)) as NF. destruct (FIT g LG) as (FT & _). pose proof (BL g LG) as BLg. pose proof (from_le ends g) as FL.
  assert (IM : 0 <= ins q <= max_bytes) by (pose proof (i_max _ _ _ _ _ _ _ _ _ _ I); pose proof (i_ins _ _ _ _ _ _ _ _ _ _ I); pose proof (i_outs _ _ _ _ _ _ _ _ _ _ I); pose proof (sum_nonneg order ty weight WN q is_In); pose proof (sum_nonneg order ty weight WN q is_Out); lia).
  assert (R : (exists p', make_room order ends sizeof max_bytes (waits_left ends q) stopper q (unprefetched_bytes order ends sizeof q) = Got _ p') \/ exists st', make_room order ends sizeof max_bytes (waits_left ends q) stopper q (unprefetched_bytes order ends sizeof q) = Again _ st' /\ milder g stopper st').
  { destruct g as [| g].
    - pose proof (b_none _ _ _ _ _ _ _ _ B1 eq_refl) as NO. apply room_first; auto; try lia.
      + intros s d. destruct (is_out (state (states q s d))) eqn:Y; [| reflexivity]. destruct (out_entry order ends max_bytes ty weight strict _ _ _ _ _ _ I Y) as (U & _ & O). destruct (NO s U O).
      + apply (i_count _ _ _ _ _ _ _ _ _ _ I).
      + rewrite (i_outs _ _ _ _ _ _ _ _ _ _ I). apply no_outs_sum. exact NO.
      + apply (ins_occupied _ _ _ _ I eq_refl).
    - apply room_result; auto; try lia. unfold waits_left. rewrite F. reflexivity. }
  unfold reserve. destruct R as [(p' & R) | (st' & R & M)]; rewrite R; [left | right; exists st'; split; [reflexivity | apply (milder_gentle g stopper); assumption]].
  pose proof (same_reserve order ends sizeof max_bytes stopper q) as SR. unfold reserve in SR. rewrite R in SR. destruct (SR _ eq_refl) as (SR1 & _). rewrite SR1. replace (Nat.ltb (head q) (block_end (S g))) with false by (symmetry; apply Nat.ltb_ge; exact HB). eexists. reflexivity.
Qed.
Hypothesis SC : strict -> forall c j, (c < length order)%nat -> is_clear (at_ c) = true -> first_use order (said (at_ c)) (S c) j -> no_data_transfer (at_ j) = true.
Hypothesis ST : strict -> forall f i j, List.In i (accesses ends f) -> is_clear (at_ i) = false -> temporary (at_ i) = true -> (block_end f <= j)%nat -> uses (said (at_ i)) j = false.
Hypothesis IO : infos_ok order ends info.
Lemma rounds_result n : forall g p, (g + n < length ends)%nat -> before g (at_function p (S g)) ->
  (exists p', rounds order ends sizeof max_bytes max_prefetch cast_prefetch head0 info stopper (seq (S g) n) p = Got _ p') \/ exists st', rounds order ends sizeof max_bytes max_prefetch cast_prefetch head0 info stopper (seq (S g) n) p = Again _ st' /\ gentle st'.
Proof.
  induction n as [| n IH]; intros g p L1 B; cbn [seq rounds]; [left; exists p; reflexivity |]. destruct (round_result g p ltac:(lia) B) as [(p' & R) | (st' & R & G)]; rewrite R; [| right; exists st'; auto].
  pose proof (round_between order ends sizeof max_bytes ty weight strict TY WT WN SD SC ST BE BL MX max_prefetch cast_prefetch head0 info stopper IO g p p' ltac:(lia) B R) as B1. apply IH; [lia |]. apply between_before; [lia | exact B1].
Qed.
End rounds.
Lemma preclear_some n : forall f trace acc, (f < length ends)%nat -> (forall k, (2 <= k < length ends)%nat -> block_start k <> 0%nat) -> preclear_blocks order ends n f trace acc <> None.
Proof.
  induction n as [| n IH]; intros f trace acc F H; cbn [preclear_blocks]; [discriminate |]. destruct (Nat.ltb_spec 1 f) as [X | X]; [| discriminate]. destruct (Nat.eqb_spec (block_start f) 0) as [E | E]; [destruct (H f ltac:(lia) E) |]. destruct (preclear_block _ _ _ _ _ _) as (i, t). apply IH; [lia | exact H].
Qed.
End plan.
