(** Proofs about SwapModel: the rounds and the whole schedule. *)
From Coq Require Import List ZArith Bool Arith Lia.
From Verif Require Import SwapModel SwapSpec SwapProofs1 SwapProofs2 SwapProofs3 SwapProofs4 SwapProofs5 SwapProofs6 SwapProofs7 SwapProofs8.
Import ListNotations.
Local Open Scope list_scope.
Local Open Scope Z_scope.

Section plan.
Variables (order : list record) (ends : list nat) (sizeof : nat -> Z) (max_bytes : Z).
Variables (ty : nat -> nat) (weight : nat -> Z) (strict : Prop).
Notation at_ := (at_ order).
Notation sofar := (sofar order ends).
Notation now := (after order (at_start order ends)).
Notation fine := (fine order ends weight max_bytes strict).
Notation block_end := (block_end ends).
Notation block_start := (block_start ends).
Notation L := (arrays order).
Notation uses := (uses order).
Notation used := (used order).
Notation queue := (queue order).
Notation of_array := (of_array order).
Notation bytes := (bytes sizeof).
Notation st := (st ty).
Notation tr := (tr order ends).
Notation inv := (inv order ends max_bytes ty weight strict).
Notation rel := (rel order strict).
Notation fresh := (fresh order).
Notation sum := (sum order ty weight).

Hypothesis TY : forall r, List.In r order -> is_clear r = false -> dtype r = ty (said r).
Hypothesis WT : forall r, List.In r order -> is_clear r = false -> bytes r (dtype r) = weight (said r).
Hypothesis WN : forall s, 0 <= weight s.
Hypothesis SD : strict -> forall i, is_clear (at_ i) = false -> on_device (at_ i) = true.
Hypothesis SC : strict -> forall c j, (c < length order)%nat -> is_clear (at_ c) = true -> first_use order (said (at_ c)) (S c) j -> no_data_transfer (at_ j) = true.
Hypothesis ST : strict -> forall f i j, List.In i (accesses ends f) -> is_clear (at_ i) = false -> temporary (at_ i) = true -> (block_end f <= j)%nat -> uses (said (at_ i)) j = false.
Hypothesis BE : forall f, (block_end f <= length order)%nat.
Hypothesis BL : forall f, (S f < length ends)%nat -> (block_end f <= block_end (S f))%nat.
Hypothesis MX : max_bytes < 18446744073709551616.
Notation block := (block ends).
Notation leaving := (leaving order ends max_bytes ty weight strict).
Notation before := (before order ends max_bytes ty weight strict).
Notation play s l a := (fold_left (fun p h => act order s h p) l a).

Lemma clear_leaving h f i p : leaving h f i p -> (i < block_end f)%nat -> is_clear (at_ i) = true -> leaving h f (S i) p.
Proof.
  intros LV LI C. constructor; try apply LV.
  - pose proof (l_head _ _ _ _ _ _ _ _ _ _ LV) as LH. destruct (l_inv _ _ _ _ _ _ _ _ _ _ LV) as [I1 I2 I3 I4 I5 I6 I7 I8 I9 I10 I11 I12 I13 I14 I15 I16].
    assert (Q : forall s, queue s (S i) (head p) = queue s i (head p)) by (intros s; rewrite (queue_cons order s i) by lia; rewrite uses_clear by exact C; lia). constructor; try assumption.
    + intros s U. rewrite Q. apply I2. exact U.
    + intros s U. rewrite Q. apply I3. exact U.
    + intros s U O. destruct (I8 s U O) as (k & K1 & K2 & K3). exists k. split; [exact K1 | split; [lia | exact K3]].
    + lia.
    + lia.
  - intros s j J. apply (l_pref _ _ _ _ _ _ _ _ _ _ LV). lia.
Qed.
Lemma leaving_block h f info p : (h <= f)%nat -> h = O \/ h = f -> (h < length ends)%nat -> (block_start h <= block_end h <= block_end f)%nat -> (forall k j, (h < k <= f)%nat -> List.In j (block k) -> (block_end h <= j < block_end f)%nat) ->
  info_ok order ends h (info h) -> (info h <> [] -> h = f) -> leaving h f (block_start h) p -> leaving h f (block_end h) (swap_out order ends sizeof info h p).
Proof.
  intros H1 H2 H3 H4 H5 H6 H7 LV. unfold swap_out, SwapModel.block. assert (X : forall n p, (block_start h + n <= block_end h)%nat -> leaving h f (block_start h) p -> leaving h f (block_start h + n) (fold_left (swap_out_one order sizeof (info h) h) (seq (block_start h) n) p)).
  { induction n as [| n IH]; intros p0 L1 LV0; [rewrite Nat.add_0_r; exact LV0 |]. rewrite seq_S, fold_left_app. cbn [fold_left]. replace (block_start h + S n)%nat with (S (block_start h + n)) by lia. specialize (IH p0 ltac:(lia) LV0).
    destruct (is_clear (at_ (block_start h + n))) eqn:C; [unfold swap_out_one at 1; rewrite C; apply clear_leaving; [exact IH | lia | exact C] |].
    apply (swap_out_use order ends sizeof max_bytes ty weight strict TY WT WN h f (info h) H1 H2 H3 (proj2 H4) H5 H6 H7 _ _ IH); [apply in_block; lia | exact C]. }
  specialize (X (block_end h - block_start h)%nat p ltac:(lia) LV). replace (block_start h + (block_end h - block_start h))%nat with (block_end h) in X by lia. exact X.
Qed.
(** After function [f]. *)
Definition between (f : nat) (p : params) : Prop := leaving f f (block_end f) p.
Lemma between_before f p : (1 <= f)%nat -> between f p -> before f (at_function p (S f)).
Proof.
  intros F LV. pose proof (l_inv _ _ _ _ _ _ _ _ _ _ LV) as I. constructor; try (intros ->; lia).
  - destruct f as [| f]; [lia |]. cbn [from]. destruct I as [I1 I2 I3 I4 I5 I6 I7 I8 I9 I10 I11 I12 I13 I14 I15 I16]. constructor; assumption.
  - reflexivity.
  - apply (l_head _ _ _ _ _ _ _ _ _ _ LV).
Qed.
Section rounds.
Variables (max_prefetch : Z) (cast_prefetch : bool) (head0 : nat -> option nat) (info : nat -> list (nat * bool)) (stopper : nat -> nat).
Hypothesis IO : infos_ok order ends info.
Notation function_round := (function_round order ends sizeof max_bytes max_prefetch cast_prefetch head0 info stopper).
Lemma round_between g p p' : (S g < length ends)%nat -> before g (at_function p (S g)) -> function_round p (S g) = Got _ p' -> between (S g) p'.
Proof.
  intros LG B E. unfold SwapModel.function_round in E.
  pose proof (before_swap_in order ends sizeof max_bytes ty weight strict TY WT WN SD max_prefetch cast_prefetch head0 g stopper (length order - head p) _ B ltac:(reflexivity)) as B1. destruct (reserve _ _ _ _ _ _) as [p2 | | | | |] eqn:R; try discriminate.
  destruct (before_reserve order ends sizeof max_bytes ty weight strict TY WT WN SD MX g stopper _ p2 B1 R) as (B2 & H2 & NU). clear B B1 R H2. destruct (Nat.ltb_spec (head p2) (block_end (S g))) as [X | HE]; [discriminate |]. injection E as <-.
  destruct (inv_heads_in order ends max_bytes ty weight strict TY (from ends g) g (block_end g) p2 (S g) (b_inv _ _ _ _ _ _ _ _ B2)) as (I3 & HD). set (p3 := heads_in order ends p2 (S g)) in *.
  assert (UI : forall s i, List.In i (block (S g)) -> uses s i = true -> state (st p3 s) = In).
  { intros s i IB U. pose proof (NU s i IB U) as N1. apply in_block in IB. assert (US : used s) by (apply uses_spec in U as (C & <-); apply used_at; exact C). cbn [SwapModel.block_start] in IB. pose proof (from_le ends g).
    pose proof (i_pos _ _ _ _ _ _ _ _ _ _ I3 s US) as (Y & _). assert (Q : 0 < queue s (from ends g) (head p3)) by (apply (queue_pos order s _ _ i); [cbn [p3 heads_in head]; unfold p3, heads_in; cbn [head]; lia | exact U]). specialize (Y Q). change (st p3 s) with (st p2 s) in *. destruct (state (st p2 s)); try discriminate; congruence. }
  pose proof (inv_body order ends max_bytes ty weight strict WN SD SC ST BE (from ends g) g p3 I3 (BL g LG) UI ltac:(intros s i X; apply (HD s i); apply in_block; cbn [SwapModel.block_start]; lia)) as I4.
  assert (SG : forall k j, (S g < k <= S g)%nat -> List.In j (block k) -> (block_end (S g) <= j < block_end (S g))%nat) by (intros; lia).
  assert (LS : forall s j k, List.In j (block (S g)) -> uses s j = true -> (S g < k)%nat -> of_array s (begins p3 k) = []) by (intros s j k _ _ K; rewrite (i_begins _ _ _ _ _ _ _ _ _ _ I3) by lia; reflexivity).
  destruct g as [| g].
  - assert (LV : leaving 0 1 0 p3).
    { constructor; [exact I4 | intros k K; apply (i_begins _ _ _ _ _ _ _ _ _ _ I3); lia | intros k K; apply (i_finals _ _ _ _ _ _ _ _ _ _ I3); lia | | | |].
      - intros s _ _. change (finals p3) with (finals p2). rewrite (b_finals _ _ _ _ _ _ _ _ B2 eq_refl). reflexivity.
      - intros s j k J U _. apply in_block in J. apply (b_first _ _ _ _ _ _ _ _ B2 eq_refl s j k); [lia | exact U].
      - intros s j J U. destruct (lt_dec j (block_end 0)) as [X | X]; [change (st p3 s) with (st p2 s); rewrite (b_in _ _ _ _ _ _ _ _ B2 eq_refl s j X U); discriminate |]. rewrite (UI s j); [discriminate | apply in_block; cbn [SwapModel.block_start]; lia | exact U].
      - exact HE. }
    apply (leaving_block 0 1 info) in LV; [| lia | auto | lia | pose proof (BL 0 LG); cbn [SwapModel.block_start]; lia | intros k j K J; assert (k = 1%nat) by lia; subst k; apply in_block in J; exact J | apply IO | intros NE; pose proof (proj2 (IO 0%nat) NE); lia].
    cbn [Nat.eqb]. unfold between. assert (LV1 : leaving 1 1 (block_start 1) (swap_out order ends sizeof info 0 p3)).
    { destruct LV as [A1 A2 A3 A4 A5 A6 A7]. constructor; try assumption; [intros k K; apply A3; lia | intros s _ _; rewrite A3 by lia; reflexivity | intros s j k _ _ K; rewrite A2 by lia; reflexivity]. }
    apply leaving_block; auto; [pose proof (BL 0 LG); cbn [SwapModel.block_start]; lia | apply IO].
  - cbn [Nat.eqb]. unfold between. apply leaving_block; auto; [pose proof (BL (S g) LG); cbn [SwapModel.block_start]; lia | apply IO |].
    constructor; [exact I4 | intros k K; apply (i_begins _ _ _ _ _ _ _ _ _ _ I3); lia | intros k K; apply (i_finals _ _ _ _ _ _ _ _ _ _ I3); lia | | exact LS | | exact HE].
    + intros s _ _. rewrite (i_finals _ _ _ _ _ _ _ _ _ _ I3) by lia. reflexivity.
    + intros s j J U. rewrite (UI s j); [discriminate | apply in_block; exact J | exact U].
Qed.
Lemma rounds_between n : forall g p p', (g + n < length ends)%nat -> before g (at_function p (S g)) -> (g = O -> n <> O) -> (n = O -> between g p) -> rounds order ends sizeof max_bytes max_prefetch cast_prefetch head0 info stopper (seq (S g) n) p = Got _ p' -> between (g + n) p'.
Proof.
  induction n as [| n IH]; intros g p p' L1 B N0 N1 E; cbn [seq rounds] in E; [injection E as <-; rewrite Nat.add_0_r; apply N1; reflexivity |]. destruct (function_round p (S g)) as [p1 | | | | |] eqn:R; try discriminate.
  pose proof (round_between g p p1 ltac:(lia) B R) as B1. replace (g + S n)%nat with (S g + n)%nat by lia. apply (IH (S g) p1 p'); [lia | apply between_before; [lia | exact B1] | discriminate | intros _; exact B1 | exact E].
Qed.
End rounds.

(** * The end *)
Lemma wait_all_inv q g pos n : forall p, inv q g pos p -> fid p = S g -> (tail p + n <= q)%nat -> let p' := wait_all order sizeof n p in inv q g pos p' /\ head p' = head p /\ tail p' = (tail p + n)%nat.
Proof.
  induction n as [| n IH]; intros p I F T; cbv zeta; cbn [wait_all]; [split; [exact I | split; [reflexivity | lia]] |]. destruct (wait_facts order sizeof ty p) as (W1 & W2 & _ & _ & _ & W6 & _).
  destruct (IH (wait order sizeof p)) as (A1 & A2 & A3); [apply inv_wait; try assumption; lia | congruence | rewrite W6; lia |]. split; [exact A1 | split; [congruence | rewrite A3, W6; lia]].
Qed.
Lemma at_the_end g p : between g p -> S g = length ends -> block_end g = length order -> let p' := wait_all order sizeof (length order - tail p) (at_function p (length ends)) in
  finished order p' = true /\ fine (whole order ends (begins p') (finals p')).
Proof.
  intros LV G E. pose proof (l_inv _ _ _ _ _ _ _ _ _ _ LV) as I. rewrite E in I. pose proof (i_head _ _ _ _ _ _ _ _ _ _ I) as HH. pose proof (i_tail _ _ _ _ _ _ _ _ _ _ I) as HT.
  assert (I' : inv (length order) g (length order) (at_function p (length ends))) by (destruct I as [I1 I2 I3 I4 I5 I6 I7 I8 I9 I10 I11 I12 I13 I14 I15 I16]; constructor; assumption).
  destruct (wait_all_inv (length order) g (length order) (length order - tail p) (at_function p (length ends)) I' ltac:(rewrite <- G; reflexivity) ltac:(cbn [at_function tail]; lia)) as (J & J1 & J2). cbv zeta. set (p' := wait_all _ _ _ _) in *. cbn [at_function tail head] in J1, J2.
  assert (NO : no_outs order ty p') by (apply (exhausted order ends max_bytes ty weight strict _ _ _ _ J); lia).
  assert (NP : forall s, used s -> is_pre (state (st p' s)) = false).
  { intros s U. pose proof (i_pos _ _ _ _ _ _ _ _ _ _ J s U) as (_ & X). rewrite queue_none in X by lia. destruct (is_pre _); [specialize (X eq_refl); lia | reflexivity]. }
  assert (ZI : sum p' is_In = 0) by (apply total_zero; intros s X; apply arrays_in in X; specialize (NP s X); destruct (state (st p' s)); try reflexivity; discriminate).
  assert (ZP : sum p' is_pre = 0) by (apply total_zero; intros s X; apply arrays_in in X; rewrite (NP s X); reflexivity).
  split.
  - unfold finished. rewrite (i_ins _ _ _ _ _ _ _ _ _ _ J), (i_outs _ _ _ _ _ _ _ _ _ _ J), (i_pre _ _ _ _ _ _ _ _ _ _ J), ZI, ZP, (no_outs_sum order ty weight p' NO). assert (H1 : head p' = length order) by lia. assert (H2 : tail p' = length order) by lia. rewrite H1, H2, !Nat.eqb_refl. cbn [Z.eqb andb]. rewrite !andb_true_r.
    apply forallb_forall. intros r R. apply forallb_forall. intros d D. destruct (used_dec order (said r)) as [U | U]; [| rewrite (i_other _ _ _ _ _ _ _ _ _ _ J) by tauto; reflexivity].
    rewrite (types_one order ty TY _ U) in D. destruct D as [<- | []]. pose proof (NP _ U) as X. pose proof (NO _ U) as Y. pose proof (i_rel _ _ _ _ _ _ _ _ _ _ J _ U) as Z0. unfold SwapProofs3.st in *. destruct (state (states p' (said r) (ty (said r)))); try discriminate; try reflexivity; [congruence | destruct Z0].
  - unfold whole. rewrite <- G. cbn [SwapSpec.through]. assert (B : SwapSpec.body order ends (S g) = []).
    { unfold SwapSpec.body. rewrite accesses_block. unfold SwapModel.block, SwapModel.block_end. rewrite (nth_overflow ends) by lia. reflexivity. }
    rewrite B, app_nil_r. apply (i_fine _ _ _ _ _ _ _ _ _ _ J).
Qed.
End plan.
