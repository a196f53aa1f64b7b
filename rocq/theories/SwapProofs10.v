(** Proofs about SwapModel: the beginning, and all attempts. *)
From Coq Require Import List ZArith Bool Arith Lia.
From Verif Require Import SwapModel SwapSpec SwapProofs1 SwapProofs2 SwapProofs3 SwapProofs4 SwapProofs5 SwapProofs6 SwapProofs7 SwapProofs8 SwapProofs9.
Import ListNotations.
Local Open Scope list_scope.
Local Open Scope Z_scope.

Section plan.
Variables (order : list record) (ends : list nat) (sizeof : nat -> Z) (max_bytes : Z).
Variables (ty : nat -> nat) (weight : nat -> Z) (strict : Prop).
Notation at_ := (at_ order).
Notation sofar := (sofar order ends).
Notation now := (after order (at_start order ends)).
Notation fine := (fine order ends weight max_bytes strict).
Notation block_end := (block_end ends).
Notation block_start := (block_start ends).
Notation L := (arrays order).
Notation uses := (uses order).
Notation used := (used order).
Notation queue := (queue order).
Notation of_array := (of_array order).
Notation bytes := (bytes sizeof).
Notation st := (st ty).
Notation tr := (tr order ends).
Notation inv := (inv order ends max_bytes ty weight strict).
Notation rel := (rel order strict).
Notation fresh := (fresh order).
Notation sum := (sum order ty weight).

Hypothesis TY : forall r, List.In r order -> is_clear r = false -> dtype r = ty (said r).
Hypothesis WT : forall r, List.In r order -> is_clear r = false -> bytes r (dtype r) = weight (said r).
Hypothesis WN : forall s, 0 <= weight s.
Hypothesis SD : strict -> forall i, is_clear (at_ i) = false -> on_device (at_ i) = true.
Hypothesis SC : strict -> forall c j, (c < length order)%nat -> is_clear (at_ c) = true -> first_use order (said (at_ c)) (S c) j -> no_data_transfer (at_ j) = true.
Hypothesis ST : strict -> forall f i j, List.In i (accesses ends f) -> is_clear (at_ i) = false -> temporary (at_ i) = true -> (block_end f <= j)%nat -> uses (said (at_ i)) j = false.
Hypothesis BE : forall f, (block_end f <= length order)%nat.
Hypothesis BL : forall f, (S f < length ends)%nat -> (block_end f <= block_end (S f))%nat.
Hypothesis MX : max_bytes < 18446744073709551616.
Variables (max_prefetch : Z) (cast_prefetch : bool) (head0 : nat -> option nat).
Hypothesis H0 : forall s d, head0 s = Some d -> d = ty s.
Hypothesis FB : before_first order ends weight <= max_bytes.
Notation block := (block ends).
Notation play s l a := (fold_left (fun p h => act order s h p) l a).

(** After [n] records of the first block. *)
Record began (n : nat) (p : params) : Prop := {
  g_head : head p = n; g_tail : tail p = O; g_outs : outs p = 0;
  g_other : forall s d, ~ (used s /\ d = ty s) -> state (states p s d) = Cleared;
  g_states : forall s, used s -> st p s = A (queue s 0 n) (if 0 <? queue s 0 n then In else Cleared) None;
  g_ins : ins p = sum p is_In; g_pre : prefetched p = sum p is_In;
  g_begins : forall k, begins p k = []; g_finals : forall k, finals p k = [];
  g_heads : forall s, used s -> fst (heads p s) = true \/ 0 < queue s 0 n -> snd (heads p s) = ty s }.
Lemma began_one n p : began n p -> began (S n) (before_one order sizeof p n).
Proof using TY WT.
  intros [B1 B2 B3 B4 B5 B6 B7 B8 B9 B10]. unfold before_one. destruct (is_clear (at_ n)) eqn:C.
  - assert (Q : forall s, queue s 0 (S n) = queue s 0 n) by (intros s; rewrite queue_snoc by lia; rewrite uses_clear by exact C; lia). constructor; cbn [skipped head]; try assumption; [lia | intros s U; rewrite Q; apply B5; exact U | intros s U; rewrite Q; apply B10; exact U].
  - set (r := at_ n) in *. set (s := said r). assert (U : used s) by (apply used_at; exact C). assert (D : dtype r = ty s) by (apply (ty_at order ty TY); exact C). assert (WE : bytes r (dtype r) = weight s) by (apply (wt_at order sizeof weight WT); exact C).
    assert (QS : queue s 0 (S n) = queue s 0 n + 1) by (rewrite queue_snoc by lia; unfold s, r; rewrite uses_self by exact C; reflexivity).
    assert (QO : forall s', s' <> s -> queue s' 0 (S n) = queue s' 0 n) by (intros s' N; rewrite queue_snoc by lia; rewrite uses_other by exact N; lia).
    pose proof (queue_nonneg order s 0 n) as QN. cbv zeta. cbn [states]. rewrite D. fold (st p s). rewrite (B5 s U). cbn [count]. set (p0 := P _ _ _ _ _ _ _ _ _ _).
    set (p' := queued _ r). assert (S1 : st p' s = A (queue s 0 (S n)) In None).
    { rewrite QS. unfold p', queued. unfold SwapProofs3.st at 1. cbn [states]. fold s. rewrite D, set_state_same. destruct (Z.eqb_spec (queue s 0 n) 0) as [E | E].
      - unfold fetched. cbn [states]. fold s. rewrite D, set_state_same. unfold p0. cbn [states]. fold (st p s). rewrite (B5 s U). cbn [to count state swapped]. reflexivity.
      - unfold p0. cbn [states]. fold (st p s). rewrite (B5 s U). cbn [count state swapped]. destruct (Z.ltb_spec 0 (queue s 0 n)); [reflexivity | lia]. }
    assert (S2 : forall s' d, s' <> s \/ d <> ty s -> states p' s' d = states p s' d).
    { intros s' d N. unfold p', queued. cbn [states]. fold s. rewrite set_state_other by (rewrite D; exact N). destruct (queue s 0 n =? 0); [| reflexivity]. unfold fetched. cbn [states]. fold s. rewrite set_state_other by (rewrite D; exact N). reflexivity. }
    assert (SU : sum p' is_In = sum p is_In + (if queue s 0 n =? 0 then weight s else 0)).
    { rewrite (sum_change order ty weight p p' is_In s U); [| intros s' N; apply S2; left; exact N]. rewrite S1, (B5 s U). cbn [state is_In]. destruct (Z.ltb_spec 0 (queue s 0 n)), (Z.eqb_spec (queue s 0 n) 0); cbn [is_In]; lia. }
    assert (HS : heads p' = seen (heads p) r) by (unfold p', queued; cbn [heads]; destruct (queue s 0 n =? 0); reflexivity).
    assert (F1 : head p' = S n /\ tail p' = O /\ outs p' = 0 /\ ins p' = ins p + (if queue s 0 n =? 0 then weight s else 0) /\ prefetched p' = prefetched p + (if queue s 0 n =? 0 then weight s else 0) /\ begins p' = begins p /\ finals p' = finals p).
    { unfold p', queued, fetched, p0. rewrite <- D. rewrite WE. destruct (queue s 0 n =? 0); cbn [head tail outs ins prefetched begins finals]; rewrite ?Z.add_0_r; repeat split; congruence || reflexivity. }
    destruct F1 as (F1 & F2 & F3 & F4 & F5 & F6 & F7). constructor; try assumption.
    + intros s' d N. rewrite S2; [apply B4; exact N |]. destruct (Nat.eq_dec s' s) as [-> | X]; [right; intros ->; apply N; auto | left; exact X].
    + intros s' U'. destruct (Nat.eq_dec s' s) as [-> | N]; [rewrite S1; destruct (Z.ltb_spec 0 (queue s 0 (S n))); [reflexivity | lia] |]. unfold SwapProofs3.st. rewrite S2 by auto. rewrite QO by exact N. apply (B5 s' U').
    + rewrite F4, SU, B6. reflexivity.
    + rewrite F5, SU, B7. reflexivity.
    + rewrite F6. exact B8.
    + rewrite F7. exact B9.
    + intros s' U' X. rewrite HS in *. unfold seen in *. fold s in X |- *. destruct (heads p s) as (b, hd) eqn:E. unfold set in *. destruct (Nat.eqb_spec s' s) as [-> | N].
      * pose proof (B10 s U) as Y. rewrite E in Y. destruct b; cbn [fst snd] in *; [| exact D]. destruct (tag r); try exact D; apply Y; left; reflexivity.
      * apply B10; [exact U' |]. rewrite QO in X by exact N. exact X.
Qed.
Lemma began_start : began 0 (start head0).
Proof using H0.
  constructor; try reflexivity.
  - symmetry. apply total_zero. reflexivity.
  - symmetry. apply total_zero. reflexivity.
  - intros s U X. cbn [start heads] in *. unfold first_heads in *. destruct (head0 s) as [d |] eqn:E; cbn [fst snd] in *; [apply H0; exact E |]. rewrite queue_none in X by lia. destruct X as [X | X]; [discriminate | lia].
Qed.
Lemma began_block : began (block_end 0) (before_forward order ends sizeof (start head0)).
Proof using TY WT H0.
  unfold before_forward, SwapModel.block. cbn [SwapModel.block_start]. rewrite Nat.sub_0_r. assert (X : forall n, began n (fold_left (before_one order sizeof) (seq 0 n) (start head0))); [| apply X].
  induction n as [| n IH]; [apply began_start |]. rewrite seq_S, fold_left_app. cbn [fold_left]. apply began_one. exact IH.
Qed.
(** Places after the first block. *)
Lemma first_used s n : (n <= length order)%nat -> let a := play s (map Used (seq 0 n)) Absent in (queue s 0 n = 0 -> a = Absent) /\ (0 < queue s 0 n -> rel s n In a).
Proof using SD SC ST.
  induction n as [| n IH]; intros LN; cbv zeta; [split; [reflexivity | intros Q; rewrite queue_none in Q by lia; lia] |]. specialize (IH ltac:(lia)). cbv zeta in IH. rewrite seq_S, map_app, play_app. cbn [map fold_left]. rewrite Nat.add_0_l. set (a := play s (map Used (seq 0 n)) Absent) in *.
  rewrite queue_snoc by lia. pose proof (queue_nonneg order s 0 n) as QN. destruct IH as (IH1 & IH2). destruct (uses s n) eqn:U.
  - split; [lia |]. intros _. apply uses_spec in U as (C & E). cbn [act SwapProofs3.rel]. change (nth n order no_record) with (at_ n). rewrite E, Nat.eqb_refl. intros St. left. rewrite (SD St n C). apply not_clear in C. destruct (tag (at_ n)); congruence.
  - rewrite Z.add_0_r. split.
    + intros Q. rewrite (IH1 Q). cbn [act]. change (nth n order no_record) with (at_ n). destruct (Nat.eqb_spec (said (at_ n)) s) as [E |]; [| reflexivity]. destruct (is_clear (at_ n)) eqn:C; [| rewrite (proj2 (uses_spec order s n) (conj C E)) in U; discriminate]. unfold is_clear in C. destruct (tag (at_ n)); try discriminate. reflexivity.
    + intros Q. apply (rel_used order ends strict SD SC ST s n In a LN (IH2 Q)). congruence.
Qed.
Lemma first_places s : used s -> (queue s 0 (block_end 0) = 0 -> at_start order ends s = Absent) /\ (0 < queue s 0 (block_end 0) -> rel s (block_end 0) In (at_start order ends s)).
Proof using SD SC ST BE.
  intros US. unfold at_start, after, SwapSpec.body. rewrite accesses_block. unfold SwapModel.block. cbn [SwapModel.block_start]. rewrite Nat.sub_0_r, play_app. pose proof (first_used s (block_end 0) (BE 0)) as (X & Y). rewrite (play_dropped order s (filter _ _)). destruct (existsb _ _) eqn:E; [| auto].
  split; [reflexivity |]. intros _ St. right. split; [reflexivity |]. apply existsb_exists in E as (i & I & E). apply Nat.eqb_eq in E. apply filter_In in I as (I & T). change (nth i order no_record) with (at_ i) in T. assert (C : is_clear (at_ i) = false) by (unfold is_clear; destruct (tag (at_ i)); try discriminate; reflexivity).
  intros j (J1 & J2 & J3 & _). exfalso. assert (TM : temporary (at_ i) = true) by (destruct (tag (at_ i)); try discriminate; exact T). assert (IA : List.In i (accesses ends 0)) by (rewrite accesses_block; unfold SwapModel.block; cbn [SwapModel.block_start]; rewrite Nat.sub_0_r; exact I).
  pose proof (ST St 0%nat i j IA C TM (proj1 J1)) as Z0. rewrite E in Z0. assert (uses s j = true) by (apply uses_spec; split; [apply not_clear; exact J2 | exact J3]). congruence.
Qed.
Lemma total_weights l : total weight l = fold_right Z.add 0 (map weight l).
Proof. induction l as [| x l IH]; [reflexivity |]. rewrite total_cons, IH. reflexivity. Qed.
Lemma first_bytes p : began (block_end 0) p -> ins p = before_first order ends weight.
Proof.
  intros B. rewrite (g_ins _ _ B). unfold before_first. rewrite accesses_block. set (M := nodup Nat.eq_dec _). assert (MI : forall s, List.In s M <-> exists i, List.In i (block 0) /\ uses s i = true).
  { intros s. unfold M. rewrite nodup_In, in_map_iff. split.
    - intros (i & E & I). apply filter_In in I as (I & T). exists i. split; [exact I |]. apply uses_spec. split; [| exact E]. unfold is_clear, SwapModel.at_. destruct (tag (nth i order no_record)); try discriminate; reflexivity.
    - intros (i & I & U). apply uses_spec in U as (C & E). exists i. split; [exact E |]. apply filter_In. split; [exact I |]. unfold is_clear, SwapModel.at_ in C. destruct (tag (nth i order no_record)); try discriminate; reflexivity. }
  transitivity (total weight M); [| apply total_weights].
  rewrite (total_sub weight M L (NoDup_nodup _ _) (arrays_nodup order)).
  - apply total_ext. intros s I. apply arrays_in in I. rewrite (g_states _ _ B s I). cbn [state]. destruct (in_dec Nat.eq_dec s M) as [X | X].
    + apply MI in X as (i & X & U). apply in_block in X. pose proof (queue_pos order s 0 (block_end 0) i ltac:(lia) U) as Q. apply Z.ltb_lt in Q. rewrite Q. reflexivity.
    + destruct (Z.ltb_spec 0 (queue s 0 (block_end 0))) as [Q | Q]; [| reflexivity]. exfalso. apply X. apply MI. destruct (queue_pos_inv order s _ _ Q) as (k & K & U). exists k. split; [apply in_block; cbn [SwapModel.block_start]; lia | exact U].
  - intros s X. apply MI in X as (i & _ & U). apply arrays_in. apply uses_spec in U as (C & <-). apply used_at. exact C.
Qed.
Lemma first_before : (1 < length ends)%nat -> SwapProofs6.before order ends max_bytes ty weight strict 0 (at_function (before_forward order ends sizeof (start head0)) 1).
Proof.
  intros LE. pose proof began_block as B. pose proof (first_bytes _ B) as FBY. set (p := before_forward order ends sizeof (start head0)) in *. pose proof B as [B1 B2 B3 B4 B5 B6 B7 B8 B9 B10]. set (p' := at_function p 1).
  assert (TR : tr p' 0 = []) by (unfold SwapProofs3.tr, SwapProofs2.sofar, p'; cbn [at_function begins finals SwapSpec.through app]; rewrite B8, B9; reflexivity).
  assert (S1 : forall s, used s -> state (st p' s) = if 0 <? queue s 0 (block_end 0) then In else Cleared) by (intros s U; change (st p' s) with (st p s); rewrite (B5 s U); reflexivity).
  assert (NO : forall s, used s -> state (st p' s) <> Out) by (intros s U; rewrite (S1 s U); destruct (0 <? _); discriminate).
  assert (R : forall s, used s -> rel s (block_end 0) (state (st p' s)) (at_start order ends s)).
  { intros s U. rewrite (S1 s U). destruct (first_places s U) as (X & Y). pose proof (queue_nonneg order s 0 (block_end 0)). destruct (Z.ltb_spec 0 (queue s 0 (block_end 0))) as [Q | Q]; [apply Y; exact Q |]. apply X. lia. }
  assert (OS : sum p' is_Out = 0) by (apply total_zero; intros s I; apply arrays_in in I; rewrite (S1 s I); destruct (0 <? _); reflexivity).
  constructor; try reflexivity.
  - cbn [from]. constructor.
    + exact B4.
    + intros s U. change (st p' s) with (st p s). rewrite (B5 s U). cbn [p' at_function head count]. unfold p'. cbn [at_function head]. rewrite B1. reflexivity.
    + intros s U. rewrite (S1 s U). unfold p'. cbn [at_function head]. rewrite B1. destruct (Z.ltb_spec 0 (queue s 0 (block_end 0))); cbn [is_pre]; split; try discriminate; try lia; reflexivity.
    + exact B6.
    + rewrite OS. exact B3.
    + unfold p'. cbn [at_function prefetched]. rewrite B7. apply total_ext. intros s I. apply arrays_in in I. fold p'. change (st p s) with (st p' s). rewrite (S1 s I). destruct (0 <? _); reflexivity.
    + change (ins p' + outs p') with (ins p + outs p). rewrite B3, FBY. lia.
    + intros s U O. destruct (NO s U O).
    + unfold p'. cbn [at_function tail]. lia.
    + unfold p'. cbn [at_function head]. rewrite B1. split; [lia | apply BE].
    + intros s U [X | (i & X & Y)]; apply B10; try exact U; [left; exact X | right; apply (queue_pos order s 0 (block_end 0) i); [lia | exact Y]].
    + rewrite TR. apply fine_nil. pose proof (memory_bound order ty weight strict WN p' (block_end 0) _ R) as M. rewrite OS in M. change (sum p' is_In) with (sum p is_In) in M. rewrite <- B6, FBY in M. lia.
    + intros s U. rewrite TR. apply R. exact U.
    + intros s U O. destruct (NO s U O).
    + intros k _. apply B8.
    + intros k _. apply B9.
  - unfold p'. cbn [at_function head]. rewrite B1. lia.
  - intros _. exact NO.
  - intros _ s i k _ _. unfold p'. cbn [at_function begins]. rewrite B8. reflexivity.
  - intros _ s i I U. rewrite (S1 s) by (apply uses_spec in U as (C & <-); apply used_at; exact C). pose proof (queue_pos order s 0 (block_end 0) i ltac:(lia) U) as Q. apply Z.ltb_lt in Q. rewrite Q. reflexivity.
  - intros _. exact B9.
Qed.

Hypothesis NE : (1 < length ends)%nat.
Hypothesis ALL : block_end (length ends - 1) = length order.
Notation attempt := (attempt order ends sizeof max_bytes max_prefetch cast_prefetch head0).
Lemma room_not_broken stopper n : forall p needed, make_room order ends sizeof max_bytes n stopper p needed <> Broken _.
Proof.
  induction n as [| n IH]; intros p needed; cbn [make_room]; destruct (_ <? needed); try discriminate; [| apply IH]. destruct (backtrack _ _ _ _ _ _ _ _ _) as (a, st'). destruct (a <? needed); discriminate.
Qed.
Lemma rounds_not_broken info stopper fs : forall p, rounds order ends sizeof max_bytes max_prefetch cast_prefetch head0 info stopper fs p <> Broken _.
Proof.
  induction fs as [| f fs IH]; intros p; cbn [rounds]; [discriminate |]. unfold function_round, reserve.
  match goal with |- context [make_room ?o ?e ?z ?m ?n ?s ?q ?d] => pose proof (room_not_broken s n q d) as M; destruct (make_room o e z m n s q d) as [p1 | | | | |] end; try discriminate; [destruct (Nat.ltb _ _); [discriminate | apply IH] | congruence].
Qed.
Lemma attempt_good stopper : attempt stopper <> Broken _ /\ forall p, attempt stopper = Got _ p -> fine (whole order ends (begins p) (finals p)).
Proof.
  unfold SwapModel.attempt. destruct (clear_info order ends) as [info |] eqn:CI; [| split; discriminate]. pose proof (clear_info_ok order ends BL info ltac:(intros ->; cbn in NE; lia) CI) as IO.
  destruct (rounds _ _ _ _ _ _ _ _ _ _ _) as [p | | | | |] eqn:R; try (split; discriminate).
  - pose proof (rounds_between order ends sizeof max_bytes ty weight strict TY WT WN SD SC ST BE BL MX max_prefetch cast_prefetch head0 info stopper IO (length ends - 1) 0 _ p ltac:(lia) (first_before NE) ltac:(lia) ltac:(lia) R) as B.
    destruct (at_the_end order ends sizeof max_bytes ty weight strict TY WT WN _ p B ltac:(lia) ALL) as (F1 & F2). cbn [at_function tail]. rewrite F1. split; [discriminate |]. intros p' E. injection E as <-. exact F2.
  - destruct (rounds_not_broken _ _ _ _ R).
Qed.
Lemma attempts_good fuel : forall stopper, let r := attempts order ends sizeof max_bytes max_prefetch cast_prefetch head0 fuel stopper in r <> Broken _ /\ forall p, r = Got _ p -> fine (whole order ends (begins p) (finals p)).
Proof.
  induction fuel as [| fuel IH]; intros stopper; cbv zeta; cbn [attempts]; [split; discriminate |]. destruct (attempt_good stopper) as (A1 & A2). destruct (attempt stopper) as [p | st' | | | |]; try (split; try discriminate; congruence); [split; [discriminate |]; intros p' E; injection E as <-; apply A2; reflexivity | apply IH].
Qed.
End plan.
