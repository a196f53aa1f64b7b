(** Proofs about SwapModel: waiting, fetching and reserving keep the invariant. *)
From Coq Require Import List ZArith Bool Arith Lia.
From Verif Require Import SwapModel SwapSpec SwapProofs1 SwapProofs2 SwapProofs3.
Import ListNotations.
Local Open Scope list_scope.
Local Open Scope Z_scope.

Section plan.
Variables (order : list record) (ends : list nat) (sizeof : nat -> Z) (max_bytes : Z).
Variables (ty : nat -> nat) (weight : nat -> Z) (strict : Prop).
Notation at_ := (at_ order).
Notation sofar := (sofar order ends).
Notation now := (after order (at_start order ends)).
Notation fine := (fine order ends weight max_bytes strict).
Notation block_end := (block_end ends).
Notation block_start := (block_start ends).
Notation L := (arrays order).
Notation uses := (uses order).
Notation used := (used order).
Notation queue := (queue order).
Notation of_array := (of_array order).
Notation bytes := (bytes sizeof).
Notation st := (st ty).
Notation tr := (tr order ends).
Notation inv := (inv order ends max_bytes ty weight strict).
Notation rel := (rel order strict).
Notation fresh := (fresh order).
Notation sum := (sum order ty weight).

Hypothesis TY : forall r, List.In r order -> is_clear r = false -> dtype r = ty (said r).
Hypothesis WT : forall r, List.In r order -> is_clear r = false -> bytes r (dtype r) = weight (said r).
Hypothesis WN : forall s, 0 <= weight s.

Lemma used_dec s : {used s} + {~ used s}.
Proof. destruct (in_dec Nat.eq_dec s L) as [I | I]; [left | right]; rewrite arrays_in in I; exact I. Qed.
Lemma out_entry q g pos p s d : inv q g pos p -> is_out (state (states p s d)) = true -> used s /\ d = ty s /\ state (st p s) = Out.
Proof.
  intros I O. destruct (used_dec s) as [U | U]; [| rewrite (i_other _ _ _ _ _ _ _ _ _ _ I) in O; [discriminate | tauto]].
  destruct (Nat.eq_dec d (ty s)) as [-> | N]; [| rewrite (i_other _ _ _ _ _ _ _ _ _ _ I) in O; [discriminate | tauto]]. split; [exact U | split; [reflexivity |]].
  pose proof (i_rel _ _ _ _ _ _ _ _ _ _ I s U) as R. unfold SwapProofs3.st in *. destruct (state (states p s (ty s))); try discriminate; [reflexivity | destruct R].
Qed.
Lemma set_state_same m s d a : set_state m s d a s d = a.
Proof. unfold set_state. rewrite !Nat.eqb_refl. reflexivity. Qed.
Lemma set_state_other m s d a s' d' : s' <> s \/ d' <> d -> set_state m s d a s' d' = m s' d'.
Proof. intros [N | N]; apply Nat.eqb_neq in N; unfold set_state; rewrite N, ?andb_false_r; reflexivity. Qed.
Lemma change_same m s f d : change m s f s d = f d (m s d).
Proof. unfold change. rewrite Nat.eqb_refl. reflexivity. Qed.
Lemma change_other m s f s' d : s' <> s -> change m s f s' d = m s' d.
Proof. intros N. apply Nat.eqb_neq in N. unfold change. rewrite N. reflexivity. Qed.

(** * Waiting *)
Lemma inv_wait q g pos p : inv q g pos p -> fid p = S g -> (tail p < q)%nat -> inv q g pos (wait order sizeof p).
Proof using TY WT WN.
  intros I F T. unfold wait. set (i := tail p) in *. set (r := at_ i). set (s := said r). set (e := states p s (dtype r)).
  destruct (is_out (state e) && match swapped e with Some k => Nat.eqb k i | None => false end)%bool eqn:M.
  - apply andb_prop in M as (M1 & M2). destruct (out_entry _ _ _ _ _ _ I M1) as (U & D & O). destruct (swapped e) as [k |] eqn:K; [| discriminate]. apply Nat.eqb_eq in M2. subst k.
    assert (E : e = st p s) by (unfold e, SwapProofs3.st; rewrite D; reflexivity).
    destruct (i_swapped _ _ _ _ _ _ _ _ _ _ I s U O) as (k & K1 & K2 & K3 & K4). rewrite <- E, K in K1. injection K1 as <-.
    set (p' := P _ _ _ _ _ _ _ _ _ _).
    assert (ST : st p' s = A (count (st p s)) OutWaited None).
    { unfold SwapProofs3.st at 1, p'. cbn [states]. rewrite <- D, set_state_same, change_same, D. fold (st p s). rewrite O. reflexivity. }
    assert (TR : tr p' g = tr p g ++ [Planned (Wait, i)]) by (unfold SwapProofs3.tr, p'; cbn [begins finals]; rewrite F; apply sofar_begin).
    apply (inv_step order ends max_bytes ty weight strict WN q g pos p q p' s I U).
    + intros s' d N. unfold p'. cbn [states]. rewrite set_state_other by auto. apply change_other. exact N.
    + intros d N. unfold p'. cbn [states]. rewrite set_state_other by (right; congruence). rewrite change_same. rewrite (i_other _ _ _ _ _ _ _ _ _ _ I s d) by tauto. apply (i_other _ _ _ _ _ _ _ _ _ _ I). tauto.
    + reflexivity.
    + rewrite ST. apply (i_count _ _ _ _ _ _ _ _ _ _ I s U).
    + rewrite ST. pose proof (i_pos _ _ _ _ _ _ _ _ _ _ I s U) as X. rewrite O in X. exact X.
    + rewrite ST, O. cbn. lia.
    + rewrite ST, O. unfold p'. cbn [outs state is_Out]. unfold r, i. rewrite (bytes_one order sizeof ty weight TY WT p (tail p) is_Out K3). fold i. fold r. fold s. rewrite O. cbn [is_Out]. lia.
    + rewrite ST, O. cbn. lia.
    + pose proof (i_max _ _ _ _ _ _ _ _ _ _ I). unfold p'. cbn [ins outs]. unfold r, i. rewrite (bytes_one order sizeof ty weight TY WT p (tail p) is_Out K3). specialize (WN (said (at_ (tail p)))). destruct (is_Out _); lia.
    + rewrite ST. discriminate.
    + intros k N X. unfold p'. cbn [SwapModel.tail]. fold i in X. assert (k <> i) by (intros ->; apply N; reflexivity). lia.
    + unfold p'. cbn [SwapModel.tail]. lia.
    + lia.
    + apply (i_head _ _ _ _ _ _ _ _ _ _ I).
    + apply (i_heads _ _ _ _ _ _ _ _ _ _ I).
    + intros s' k N. unfold p'. cbn [begins]. apply push_of_array. cbn [snd]. fold r. fold s. congruence.
    + reflexivity.
    + right. exists (Wait, i). exact TR.
    + rewrite ST, TR. cbn [state SwapProofs3.rel]. rewrite after_snoc. cbn [act]. fold r. change (nth i order no_record) with r. fold s. rewrite Nat.eqb_refl. pose proof (i_rel _ _ _ _ _ _ _ _ _ _ I s U) as X. rewrite O in X. destruct X as (X & _). destruct (now (tr p g) s); [reflexivity | contradiction | reflexivity].
    + rewrite ST. discriminate.
    + intros k K'. unfold p', push. cbn [begins]. rewrite set_other by lia. apply (i_begins _ _ _ _ _ _ _ _ _ _ I). exact K'.
    + apply (i_finals _ _ _ _ _ _ _ _ _ _ I).
  - destruct I as [I1 I2 I3 I4 I5 I6 I7 I8 I9 I10 I11 I12 I13 I14 I15 I16]. constructor; try assumption.
    + intros s' U' O. destruct (I8 s' U' O) as (k & K1 & K2 & K3 & K4). exists k. split; [exact K1 | split; [| auto]]. cbn [tail]. fold i in K2. fold i. assert (k <> i); [| lia]. intros ->.
      assert (X : e = st p s') by (unfold e, SwapProofs3.st, s, r; rewrite <- K4, (ty_at order ty TY i K3); reflexivity). rewrite X in M. cbn [states] in O. change (state (st p s') = Out) in O. rewrite O in M. change (swapped (st p s') = Some i) in K1. rewrite K1, Nat.eqb_refl in M. discriminate.
Qed.
Lemma wait_facts p : let p' := wait order sizeof p in head p' = head p /\ fid p' = fid p /\ heads p' = heads p /\ ins p' = ins p /\ prefetched p' = prefetched p /\ tail p' = S (tail p) /\ finals p' = finals p /\
  forall s, (state (st p' s) = Out -> state (st p s) = Out) /\ is_pre (state (st p' s)) = is_pre (state (st p s)).
Proof.
  cbv zeta. unfold wait. destruct (_ && _)%bool; cbn; [| tauto]. repeat (split; [reflexivity |]). intros s. unfold SwapProofs3.st. cbn [states]. unfold set_state. destruct (_ && _)%bool eqn:E.
  - apply andb_prop in E as (E1 & E2). apply Nat.eqb_eq in E1, E2. rewrite <- E1, <- E2. cbn [state]. unfold change. rewrite Nat.eqb_refl. destruct (state (states p s (ty s))) eqn:X; cbn; rewrite ?X; cbn; split; congruence.
  - unfold change. destruct (Nat.eqb s _); [| tauto]. destruct (state (states p s (ty s))) eqn:X; cbn; rewrite ?X; cbn; split; congruence.
Qed.
Definition no_outs (p : params) : Prop := forall s, used s -> state (st p s) <> Out.
Lemma no_outs_sum p : no_outs p -> sum p is_Out = 0.
Proof. intros N. apply total_zero. intros s I. apply arrays_in in I. specialize (N s I). destruct (state (st p s)); try reflexivity. congruence. Qed.
Lemma exhausted q g pos p : inv q g pos p -> tail p = q -> no_outs p.
Proof. intros I T s U O. destruct (i_swapped _ _ _ _ _ _ _ _ _ _ I s U O) as (k & _ & K & _). lia. Qed.
Definition kept (p p' : params) : Prop := head p' = head p /\ fid p' = fid p /\ heads p' = heads p /\ ins p' = ins p /\ prefetched p' = prefetched p /\ finals p' = finals p /\
  forall s, (state (st p' s) = Out -> state (st p s) = Out) /\ is_pre (state (st p' s)) = is_pre (state (st p s)).
Lemma kept_refl p : kept p p.
Proof. unfold kept. tauto. Qed.
Lemma kept_wait p p' : kept (wait order sizeof p) p' -> kept p p'.
Proof.
  intros (K1 & K2 & K3 & K4 & K5 & K6 & K7). destruct (wait_facts p) as (W1 & W2 & W3 & W4 & W5 & _ & W6 & W7). unfold kept. split; [congruence | split; [congruence | split; [congruence | split; [congruence | split; [congruence | split; [congruence |]]]]]].
  intros s. destruct (K7 s) as (A1 & A2), (W7 s) as (B1 & B2). split; [auto | congruence].
Qed.
Lemma inv_free q g pos needed n : forall p, inv q g pos p -> fid p = S g -> ins p + needed <= max_bytes -> (n = q - tail p)%nat \/ no_outs p ->
  let p' := free_memory order sizeof max_bytes n p needed in inv q g pos p' /\ kept p p' /\ ins p' + outs p' + needed <= max_bytes /\ (no_outs p -> p' = p).
Proof using TY WT WN.
  induction n as [| n IH]; intros p I F M W; cbv zeta; cbn [free_memory].
  - split; [exact I | split; [apply kept_refl | split; [| reflexivity]]]. assert (N : no_outs p) by (destruct W as [W | W]; [| exact W]; apply (exhausted q g pos p I); pose proof (i_tail _ _ _ _ _ _ _ _ _ _ I); lia).
    rewrite (i_outs _ _ _ _ _ _ _ _ _ _ I), no_outs_sum by exact N. lia.
  - destruct (Z.ltb_spec max_bytes (ins p + outs p + needed)) as [X | X].
    + destruct W as [W | W].
      * destruct (wait_facts p) as (W1 & W2 & W3 & W4 & W5 & W6 & W7 & W8). destruct (IH (wait order sizeof p)) as (A1 & A2 & A3 & A4); [apply inv_wait; [exact I | exact F | lia] | congruence | rewrite W4; exact M | left; rewrite W6; lia |].
        split; [exact A1 | split; [apply kept_wait; exact A2 | split; [exact A3 |]]]. intros N. exfalso. rewrite (i_outs _ _ _ _ _ _ _ _ _ _ I), no_outs_sum in X by exact N. lia.
      * rewrite (i_outs _ _ _ _ _ _ _ _ _ _ I), no_outs_sum in X by exact W. lia.
    + split; [exact I | split; [apply kept_refl | split; [lia | reflexivity]]].
Qed.
End plan.
