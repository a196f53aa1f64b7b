(** Proofs about SwapModel: a function runs. *)
From Coq Require Import List ZArith Bool Arith Lia.
From Verif Require Import SwapModel SwapSpec SwapProofs1 SwapProofs2 SwapProofs3 SwapProofs4 SwapProofs5 SwapProofs6.
Import ListNotations.
Local Open Scope list_scope.
Local Open Scope Z_scope.

Section plan.
Variables (order : list record) (ends : list nat) (sizeof : nat -> Z) (max_bytes : Z).
Variables (ty : nat -> nat) (weight : nat -> Z) (strict : Prop).
Notation at_ := (at_ order).
Notation sofar := (sofar order ends).
Notation now := (after order (at_start order ends)).
Notation fine := (fine order ends weight max_bytes strict).
Notation block_end := (block_end ends).
Notation block_start := (block_start ends).
Notation L := (arrays order).
Notation uses := (uses order).
Notation used := (used order).
Notation queue := (queue order).
Notation of_array := (of_array order).
Notation bytes := (bytes sizeof).
Notation st := (st ty).
Notation tr := (tr order ends).
Notation inv := (inv order ends max_bytes ty weight strict).
Notation rel := (rel order strict).
Notation fresh := (fresh order).
Notation sum := (sum order ty weight).

Hypothesis TY : forall r, List.In r order -> is_clear r = false -> dtype r = ty (said r).
Hypothesis WT : forall r, List.In r order -> is_clear r = false -> bytes r (dtype r) = weight (said r).
Hypothesis WN : forall s, 0 <= weight s.
Hypothesis SD : strict -> forall i, is_clear (at_ i) = false -> on_device (at_ i) = true.
Hypothesis SC : strict -> forall c j, (c < length order)%nat -> is_clear (at_ c) = true -> first_use order (said (at_ c)) (S c) j -> no_data_transfer (at_ j) = true.
Hypothesis ST : strict -> forall f i j, List.In i (accesses ends f) -> is_clear (at_ i) = false -> temporary (at_ i) = true -> (block_end f <= j)%nat -> uses (said (at_ i)) j = false.
Hypothesis BE : forall f, (block_end f <= length order)%nat.
Hypothesis BL : forall f, (S f < length ends)%nat -> (block_end f <= block_end (S f))%nat.
Notation body := (body order ends).

Lemma not_clear i : is_clear (at_ i) = false <-> tag (at_ i) <> Clear.
Proof. unfold is_clear. destruct (tag (at_ i)); split; congruence. Qed.
Lemma fresh_next s j : fresh s j -> uses s j = false -> fresh s (S j).
Proof.
  intros F N k (K1 & K2 & K3 & K4). apply F. split; [lia | split; [exact K2 | split; [exact K3 |]]]. intros i I C. destruct (Nat.eq_dec i j) as [-> | X]; [| apply K4; [lia | exact C]]. intros E. assert (uses s j = true) by (apply uses_spec; split; [apply not_clear; exact C | exact E]). congruence.
Qed.
Lemma rel_used s j t a : (j < length order)%nat -> rel s j t a -> (uses s j = true -> t = In) -> rel s (S j) t (act order s (Used j) a).
Proof using SD SC ST.
  intros LJ R U. cbn [act]. change (nth j order no_record) with (at_ j). destruct (Nat.eqb_spec (said (at_ j)) s) as [E | E].
  - destruct (is_clear (at_ j)) eqn:C.
    + assert (FR : strict -> fresh s (S j)) by (intros St k K; apply (SC St j k LJ C); rewrite E; exact K). assert (TC : tag (at_ j) = Clear) by (unfold is_clear in C; destruct (tag (at_ j)); try discriminate; reflexivity). rewrite TC.
      destruct t; cbn [SwapProofs3.rel] in *; try tauto. split; [discriminate | tauto].
    + rewrite (U (proj2 (uses_spec order s j) (conj C E))). cbn [SwapProofs3.rel]. intros St. left. rewrite (SD St j C). pose proof (proj1 (not_clear j) C). destruct (tag (at_ j)); [reflexivity | reflexivity | contradiction].
  - assert (N : uses s j = false) by (apply uses_other; congruence). destruct t; cbn [SwapProofs3.rel] in *; try tauto.
    + intros St. destruct (R St) as [X | (X & Y)]; [left; exact X | right; split; [exact X | apply fresh_next; assumption]].
    + split; [tauto |]. intros St. destruct R as (_ & R). destruct (R St) as [X | X]; [left; exact X | right; apply fresh_next; assumption].
    + split; [tauto |]. intros St. apply fresh_next; [apply R; exact St | exact N].
Qed.
Lemma sofar_body b e g : e (S g) = [] -> b (S (S g)) = [] -> sofar b e (S g) = sofar b e g ++ body (S g).
Proof. intros E B. rewrite sofar_S, E, B. cbn [map]. rewrite !app_nil_r. reflexivity. Qed.

Section run.
Variables (p : params) (w : list happening) (a : nat).
Hypothesis F0 : fine w.
Hypothesis R0 : forall s, used s -> rel s a (state (st p s)) (now w s).
Hypothesis M0 : sum p is_In + sum p is_Out <= max_bytes.
Lemma run_used n : (a + n <= length order)%nat -> (forall s i, (a <= i < a + n)%nat -> uses s i = true -> state (st p s) = In) ->
  fine (w ++ map Used (seq a n)) /\ forall s, used s -> rel s (a + n) (state (st p s)) (now (w ++ map Used (seq a n)) s).
Proof using F0 R0 M0 SD SC ST WN.
  induction n as [| n IH]; intros L1 U; [cbn [seq map]; rewrite app_nil_r, Nat.add_0_r; auto |]. destruct IH as (F & R); [lia | intros s i I; apply U; lia |].
  rewrite seq_S, map_app, app_assoc. cbn [map]. assert (R' : forall s, used s -> rel s (a + S n) (state (st p s)) (now ((w ++ map Used (seq a n)) ++ [Used (a + n)%nat]) s)).
  { intros s US. rewrite after_snoc. replace (a + S n)%nat with (S (a + n)) by lia. apply rel_used; [lia | apply R; exact US |]. apply U. lia. }
  split; [| exact R']. apply fine_snoc; [exact F | pose proof (memory_bound order ty weight strict WN p _ _ R'); lia |]. intros i E St D. injection E as <-.
  assert (C : is_clear (at_ (a + n)) = false) by (apply not_clear; apply D). pose proof (R _ (used_at order _ C)) as X. rewrite (U _ (a + n)%nat) in X; [| lia | apply uses_self; exact C]. cbn [SwapProofs3.rel] in X. destruct (X St) as [Y | (_ & Y)]; [exact Y |]. exfalso.
  assert (Z0 : no_data_transfer (at_ (a + n)) = true) by (apply Y; split; [lia | split; [apply not_clear; exact C | split; [reflexivity |]]]; intros; lia). destruct D as (_ & _ & D1 & D2). change (nth (a + n) order no_record) with (at_ (a + n)) in D1, D2. unfold no_data_transfer in Z0. rewrite D1, D2 in Z0. discriminate.
Qed.
Lemma run_dropped l : (forall s i, List.In i l -> said (at_ i) = s -> state (st p s) = In /\ (strict -> fresh s a)) ->
  fine (w ++ map (fun i => Dropped (said (at_ i))) l) /\ forall s, used s -> rel s a (state (st p s)) (now (w ++ map (fun i => Dropped (said (at_ i))) l) s).
Proof using F0 R0 M0 WN.
  induction l as [| i l IH] using rev_ind; intros U; [cbn [map]; rewrite app_nil_r; auto |]. destruct IH as (F & R); [intros s j J; apply U; apply in_app_iff; left; exact J |].
  rewrite map_app, app_assoc. cbn [map]. assert (R' : forall s, used s -> rel s a (state (st p s)) (now ((w ++ map (fun i => Dropped (said (at_ i))) l) ++ [Dropped (said (at_ i))]) s)).
  { intros s US. rewrite after_snoc. cbn [act]. destruct (Nat.eqb_spec (said (at_ i)) s) as [E | E]; [| apply R; exact US]. destruct (U s i) as (X & Y); [apply in_app_iff; right; left; reflexivity | exact E |]. rewrite X. cbn [SwapProofs3.rel]. intros St. right. auto. }
  split; [| exact R']. apply fine_snoc; [exact F | pose proof (memory_bound order ty weight strict WN p _ _ R'); lia | discriminate].
Qed.
End run.
Lemma accesses_block f : accesses ends f = block ends f.
Proof. destruct f; reflexivity. Qed.
Lemma in_block f i : List.In i (block ends f) <-> (block_start f <= i < block_end f)%nat.
Proof. unfold block. rewrite in_seq. lia. Qed.
Lemma run_body p w f : (block_start f <= block_end f)%nat -> fine w -> (forall s, used s -> rel s (block_start f) (state (st p s)) (now w s)) -> sum p is_In + sum p is_Out <= max_bytes ->
  (forall s i, List.In i (block ends f) -> uses s i = true -> state (st p s) = In) ->
  fine (w ++ body f) /\ forall s, used s -> rel s (block_end f) (state (st p s)) (now (w ++ body f) s).
Proof using SD SC ST WN BE.
  intros LE F R M U. destruct (run_used p w (block_start f) F R M (block_end f - block_start f)) as (F1 & R1); [pose proof (BE f); lia | intros s i I; apply U; apply in_block; lia |].
  replace (block_start f + (block_end f - block_start f))%nat with (block_end f) in R1 by lia. fold (block ends f) in F1, R1. unfold SwapSpec.body. rewrite app_assoc, accesses_block.
  apply (run_dropped p _ (block_end f) F1 R1 M). intros s i I E. apply filter_In in I as (I & T). change (nth i order no_record) with (at_ i) in T. assert (C : is_clear (at_ i) = false) by (unfold is_clear; destruct (tag (at_ i)); try discriminate; reflexivity).
  split; [apply (U s i I); apply uses_spec; auto |]. intros St j (J1 & J2 & J3 & _). exfalso. assert (TM : temporary (at_ i) = true) by (destruct (tag (at_ i)); try discriminate; exact T).
  pose proof (ST St f i j) as X. rewrite accesses_block, E in X. specialize (X I C TM (proj1 J1)). assert (uses s j = true) by (apply uses_spec; split; [apply not_clear; exact J2 | exact J3]). congruence.
Qed.
(** The invariant moves to the end of function [S g]. *)
Lemma inv_body q g p : inv q g (block_end g) p -> (block_end g <= block_end (S g))%nat -> (forall s i, List.In i (block ends (S g)) -> uses s i = true -> state (st p s) = In) ->
  (forall s i, (block_end g <= i < block_end (S g))%nat -> uses s i = true -> snd (heads p s) = ty s) -> inv q (S g) (block_end (S g)) p.
Proof using SD SC ST WN BE.
  intros I LE U HD. assert (TR : tr p (S g) = tr p g ++ body (S g)) by (apply sofar_body; [apply (i_finals _ _ _ _ _ _ _ _ _ _ I); lia | apply (i_begins _ _ _ _ _ _ _ _ _ _ I); lia]).
  destruct (run_body p (tr p g) (S g)) as (F & R); [exact LE | apply (i_fine _ _ _ _ _ _ _ _ _ _ I) | apply (i_rel _ _ _ _ _ _ _ _ _ _ I) | | exact U |].
  { rewrite <- (i_ins _ _ _ _ _ _ _ _ _ _ I), <- (i_outs _ _ _ _ _ _ _ _ _ _ I). apply (i_max _ _ _ _ _ _ _ _ _ _ I). }
  rewrite <- TR in F, R. destruct I as [I1 I2 I3 I4 I5 I6 I7 I8 I9 I10 I11 I12 I13 I14 I15 I16]. constructor; try assumption.
  - intros s US [X | (i & X & Y)]; [apply I11; [exact US | left; exact X] |]. destruct (lt_dec i (block_end g)) as [Z0 | Z0]; [apply I11; [exact US | right; exists i; auto] |]. apply (HD s i); [lia | exact Y].
  - intros s US O. destruct (I14 s US O) as (h & k & l1 & H1 & H2 & H3 & H4 & H5 & H6 & H7). exists h, k, l1. split; [lia | split; [exact H2 | split; [exact H3 | split; [exact H4 | split; [exact H5 | split; [| exact H7]]]]]].
    intros k' i K' X. destruct (Nat.eq_dec k' (S g)) as [-> | N]; [| apply (H6 k' i); [lia | exact X]]. destruct (uses s i) eqn:Y; [| reflexivity]. rewrite accesses_block in X. rewrite (U s i X Y) in O. discriminate.
  - intros k K. apply I15. lia.
  - intros k K. apply I16. lia.
Qed.
(** Heads. *)
Lemma heads_list l : forall h, (forall s, used s -> fst (h s) = true -> snd (h s) = ty s) ->
  (forall s, used s -> fst (fold_left (head_one order) l h s) = true \/ snd (h s) = ty s \/ (exists i, List.In i l /\ uses s i = true) -> snd (fold_left (head_one order) l h s) = ty s).
Proof using TY.
  induction l as [| i l IH]; intros h H s US X; cbn [fold_left] in *; [destruct X as [X | [X | (i & [] & _)]]; [apply H; assumption | exact X] |].
  assert (ONE : forall s, used s -> fst (head_one order h i s) = true \/ snd (h s) = ty s \/ uses s i = true -> snd (head_one order h i s) = ty s).
  { clear s US X. intros s US X. unfold head_one in *. destruct (is_clear (at_ i)) eqn:C.
    - rewrite uses_clear in X by exact C. unfold set in *. destruct (Nat.eqb_spec s (said (at_ i))) as [-> | N]; cbn [fst snd] in *; [destruct X as [X | [X | X]]; try discriminate; exact X |]. destruct X as [X | [X | X]]; [apply H; assumption | exact X | discriminate].
    - unfold seen in *. destruct (h (said (at_ i))) as (b, hd) eqn:E. unfold set in *. destruct (Nat.eqb_spec s (said (at_ i))) as [-> | N].
      + pose proof (ty_at order ty TY i C) as D. destruct b; cbn [snd]; [| exact D]. destruct (tag (at_ i)); try exact D; pose proof (H _ US) as Y; rewrite E in Y; apply Y; reflexivity.
      + rewrite uses_other in X by exact N. destruct X as [X | [X | X]]; [apply H; assumption | exact X | discriminate]. }
  apply IH; [| exact US |].
  - intros s' U' Y. apply ONE; [exact U' | left; exact Y].
  - destruct X as [X | [X | (j & [<- | J] & Y)]]; [left; exact X | right; left; apply ONE; [exact US | right; left; exact X] | right; left; apply ONE; [exact US | right; right; exact Y] | right; right; exists j; auto].
Qed.
Lemma inv_heads_in q g pos p f : inv q g pos p -> inv q g pos (heads_in order ends p f) /\ forall s i, List.In i (block ends f) -> uses s i = true -> snd (heads (heads_in order ends p f) s) = ty s.
Proof using TY.
  intros I. assert (H : forall s, used s -> fst (heads p s) = true -> snd (heads p s) = ty s) by (intros s US X; apply (i_heads _ _ _ _ _ _ _ _ _ _ I); [exact US | left; exact X]). split.
  - pose proof (i_heads _ _ _ _ _ _ _ _ _ _ I) as I11'. destruct I as [I1 I2 I3 I4 I5 I6 I7 I8 I9 I10 I11 I12 I13 I14 I15 I16]. constructor; try assumption. intros s US X. cbn [heads_in heads] in *. unfold known in X. cbn [heads] in X.
    apply (heads_list (block ends f) (heads p) H s US). destruct X as [X | X]; [left; exact X | right; left]. apply I11'; [exact US | right; exact X].
  - intros s i X Y. apply uses_spec in Y as Z0. destruct Z0 as (C & <-). apply (heads_list (block ends f) (heads p) H); [apply used_at; exact C |]. right. right. exists i. auto.
Qed.
End plan.
