(** Proofs about SwapModel: the part of a round before the function. *)
From Coq Require Import List ZArith Bool Arith Lia.
From Verif Require Import SwapModel SwapSpec SwapProofs1 SwapProofs2 SwapProofs3 SwapProofs4 SwapProofs5.
Import ListNotations.
Local Open Scope list_scope.
Local Open Scope Z_scope.

Section plan.
Variables (order : list record) (ends : list nat) (sizeof : nat -> Z) (max_bytes : Z).
Variables (ty : nat -> nat) (weight : nat -> Z) (strict : Prop).
Notation at_ := (at_ order).
Notation sofar := (sofar order ends).
Notation now := (after order (at_start order ends)).
Notation fine := (fine order ends weight max_bytes strict).
Notation block_end := (block_end ends).
Notation block_start := (block_start ends).
Notation L := (arrays order).
Notation uses := (uses order).
Notation used := (used order).
Notation queue := (queue order).
Notation of_array := (of_array order).
Notation bytes := (bytes sizeof).
Notation st := (st ty).
Notation tr := (tr order ends).
Notation inv := (inv order ends max_bytes ty weight strict).
Notation rel := (rel order strict).
Notation fresh := (fresh order).
Notation sum := (sum order ty weight).

Hypothesis TY : forall r, List.In r order -> is_clear r = false -> dtype r = ty (said r).
Hypothesis WT : forall r, List.In r order -> is_clear r = false -> bytes r (dtype r) = weight (said r).
Hypothesis WN : forall s, 0 <= weight s.
Hypothesis SD : strict -> forall i, is_clear (at_ i) = false -> on_device (at_ i) = true.
Hypothesis MX : max_bytes < 18446744073709551616.
Hypothesis BE : forall f, (block_end f <= length order)%nat.
Notation no_outs := (no_outs order ty).
Notation kept := (kept ty).

Definition from (g : nat) : nat := match g with O => O | S _ => block_end g end.
(** Before function [S g]. *)
Record before (g : nat) (p : params) : Prop := {
  b_inv : inv (from g) g (block_end g) p;
  b_fid : fid p = S g;
  b_head : (block_end g <= head p)%nat;
  b_none : g = O -> no_outs p;
  b_first : g = O -> forall s i k, (i < block_end 0)%nat -> uses s i = true -> of_array s (begins p k) = [];
  b_in : g = O -> forall s i, (i < block_end 0)%nat -> uses s i = true -> state (st p s) = In;
  b_finals : g = O -> forall k, finals p k = [] }.
Lemma before_waits g p : before g p -> (waits_left ends p = from g - tail p)%nat \/ no_outs p.
Proof. intros [I F _ N _ _ _]. destruct g as [| g]; [right; apply N; reflexivity |]. left. unfold waits_left. rewrite F. reflexivity. Qed.
Lemma from_le g : (from g <= block_end g)%nat.
Proof. destruct g; cbn [from]; lia. Qed.

(** * Swapping in *)
Section fetch.
Variables (max_prefetch : Z) (cast_prefetch : bool) (head0 : nat -> option nat).
Lemma before_swap_in g stopper n : forall p, before g p -> (n <= length order - head p)%nat -> before g (swap_in order ends sizeof max_bytes max_prefetch cast_prefetch head0 n stopper p).
Proof using TY WT WN SD.
  induction n as [| n IH]; intros p B N; [exact B |]. cbn [swap_in]. destruct (is_clear (at_ (head p))) eqn:C.
  - apply IH; [| cbn [skipped head]; lia]. destruct B as [I F H No Fi In0 Fn]. constructor; try assumption; [apply inv_skipped; [exact I | lia | exact C] | cbn [skipped head]; lia].
  - destruct (Nat.ltb (fid p) (stopper (head p))); [exact B |]. destruct (Z.eqb_spec (count (states p (said (at_ (head p))) (dtype (at_ (head p))))) 0) as [Z0 | Z0].
    + destruct (first_fetch _ _ _ _ _ _ _ _) as [p1 |] eqn:E; [| exact B]. destruct (inv_fetch order ends sizeof max_bytes ty weight strict TY WT WN SD max_prefetch cast_prefetch head0 (from g) g (block_end g) p p1) as (A1 & A2 & A3 & A4 & A5).
      * apply (b_inv _ _ B). * apply (b_fid _ _ B). * apply before_waits. exact B. * split; [apply from_le | apply (b_head _ _ B)]. * exact C. * exact Z0. * exact E.
      * apply IH; [| cbn [queued head]; lia]. destruct B as [I F H No Fi In0 Fn].
        assert (NOTU : g = O -> forall s i, uses s i = true -> (i < block_end 0)%nat -> s <> said (at_ (head p))).
        { intros G s i I2 I1 ->. assert (D : dtype (at_ (head p)) = ty (said (at_ (head p)))) by (apply (ty_at order ty TY); exact C). rewrite D in Z0. destruct (uncounted order ends max_bytes ty weight strict (from g) g (block_end g) p _ I (used_at order _ C) Z0) as (_ & Q). subst g. cbn [from] in Q. rewrite queue_zero in Q. rewrite Q in I2 by lia. discriminate. }
        constructor.
        -- exact A1.
        -- cbn [queued fid]. congruence.
        -- cbn [queued head]. lia.
        -- intros G s U X. apply (No G s U). apply (A4 s U). rewrite <- X. unfold SwapProofs3.st, queued. cbn [states]. unfold set_state. destruct (_ && _)%bool eqn:Y; [| reflexivity]. apply andb_prop in Y as (Y1 & Y2). apply Nat.eqb_eq in Y1, Y2. rewrite Y1, <- Y2, <- Y1. reflexivity.
        -- intros G s i k I1 I2. cbn [queued begins]. destruct (A5 (No G)) as (_ & A6). apply (NOTU G) in I2 as N2; [| exact I1]. destruct (A6 s N2) as (_ & A7). rewrite A7. apply (Fi G s i k I1 I2).
        -- intros G s i I1 I2. destruct (A5 (No G)) as (_ & A6). apply (NOTU G) in I2 as N2; [| exact I1]. destruct (A6 s N2) as (A7 & _). rewrite <- (In0 G s i I1 I2), <- A7. unfold SwapProofs3.st, queued. cbn [states]. rewrite set_state_other by auto. reflexivity.
        -- intros G k. cbn [queued finals]. destruct (A5 (No G)) as (-> & _). apply (Fn G).
    + apply IH; [| cbn [queued head]; lia]. destruct B as [I F H No Fi In0 Fn]. constructor; try assumption.
      * apply inv_queued; assumption.
      * cbn [queued head]. lia.
      * intros G s U X. apply (No G s U). rewrite <- X. unfold SwapProofs3.st, queued. cbn [states]. unfold set_state. destruct (_ && _)%bool eqn:Y; [| reflexivity]. apply andb_prop in Y as (Y1 & Y2). apply Nat.eqb_eq in Y1, Y2. rewrite Y1, <- Y2, <- Y1. reflexivity.
      * intros G s i I1 I2. rewrite <- (In0 G s i I1 I2). unfold SwapProofs3.st, queued. cbn [states]. unfold set_state. destruct (_ && _)%bool eqn:Y; [| reflexivity]. apply andb_prop in Y as (Y1 & Y2). apply Nat.eqb_eq in Y1, Y2. rewrite Y1, <- Y2, <- Y1. reflexivity.
Qed.
End fetch.

(** * Memory *)
Lemma sum_nonneg p b : 0 <= sum p b.
Proof using WN. apply total_nonneg. intros s _. specialize (WN s). destruct (b _); lia. Qed.
Lemma size_t_room q g pos p : inv q g pos p -> size_t (max_bytes - ins p - outs p) = max_bytes - ins p - outs p.
Proof using WN MX.
  intros I. pose proof (i_max _ _ _ _ _ _ _ _ _ _ I). pose proof (i_ins _ _ _ _ _ _ _ _ _ _ I). pose proof (i_outs _ _ _ _ _ _ _ _ _ _ I). pose proof (sum_nonneg p is_In). pose proof (sum_nonneg p is_Out).
  unfold size_t. apply Z.mod_small. lia.
Qed.
Lemma wait_no_outs p q g pos : inv q g pos p -> no_outs p -> outs (wait order sizeof p) = outs p /\ ins (wait order sizeof p) = ins p.
Proof.
  intros I N. unfold wait. destruct (_ && _)%bool eqn:E; [| auto]. exfalso. apply andb_prop in E as (E & _). destruct (out_entry order ends max_bytes ty weight strict q g pos p _ _ I E) as (U & _ & O). apply (N _ U O).
Qed.
Lemma wait_none p : (forall s d, is_out (state (states p s d)) = false) -> let p' := wait order sizeof p in outs p' = outs p /\ ins p' = ins p /\ forall s d, is_out (state (states p' s d)) = false.
Proof. intros H. cbv zeta. unfold wait. rewrite H. cbn [andb outs ins states]. auto. Qed.
Lemma make_room_none stopper needed n : forall p p', (forall s d, is_out (state (states p s d)) = false) -> make_room order ends sizeof max_bytes n stopper p needed = Got _ p' -> p' = p.
Proof.
  assert (X : forall n p p', (forall s d, is_out (state (states p s d)) = false) -> size_t (max_bytes - ins p - outs p) < needed -> make_room order ends sizeof max_bytes n stopper p needed <> Got _ p').
  { induction n0 as [| n0 IH]; intros p p' H Y; cbn [make_room]; apply Z.ltb_lt in Y; rewrite Y; [destruct (backtrack _ _ _ _ _ _ _ _ _) as (a, st'); destruct (a <? needed); discriminate |].
    destruct (wait_none p H) as (W1 & W2 & W3). apply IH; [exact W3 |]. rewrite W1, W2. apply Z.ltb_lt. exact Y. }
  intros p p' H E. destruct (Z.ltb_spec (size_t (max_bytes - ins p - outs p)) needed) as [Y | Y]; [destruct (X n p p' H Y E) |]. destruct n; cbn [make_room] in E; apply Z.ltb_ge in Y; rewrite Y in E; injection E as <-; reflexivity.
Qed.
Lemma make_room_got q g pos stopper needed n : forall p p', inv q g pos p -> fid p = S g -> (n = q - tail p)%nat -> make_room order ends sizeof max_bytes n stopper p needed = Got _ p' -> inv q g pos p' /\ kept p p' /\ ins p' + outs p' + needed <= max_bytes.
Proof using TY WT WN MX.
  induction n as [| n IH]; intros p p' I F N E; cbn [make_room] in E; rewrite (size_t_room q g pos p I) in E; destruct (Z.ltb_spec (max_bytes - ins p - outs p) needed) as [X | X].
  - destruct (backtrack _ _ _ _ _ _ _ _ _) as (a, st'). destruct (a <? needed); discriminate.
  - injection E as <-. split; [exact I | split; [apply kept_refl | lia]].
  - destruct (wait_facts order sizeof ty p) as (W1 & W2 & W3 & W4 & W5 & W6 & _). apply IH in E; [| apply inv_wait; try assumption; lia | congruence | lia]. destruct E as (E1 & E2 & E3). split; [exact E1 | split; [apply (kept_wait order sizeof ty); exact E2 | exact E3]].
  - injection E as <-. split; [exact I | split; [apply kept_refl | lia]].
Qed.
Lemma before_room g stopper needed p p' : before g p -> make_room order ends sizeof max_bytes (waits_left ends p) stopper p needed = Got _ p' -> before g p' /\ kept p p' /\ ins p' + outs p' + needed <= max_bytes.
Proof using TY WT WN MX.
  intros [I F H No Fi In0 Fn] E. destruct g as [| g].
  - assert (X : forall s d, is_out (state (states p s d)) = false) by (intros s d; destruct (is_out _) eqn:Y; [| reflexivity]; destruct (out_entry order ends max_bytes ty weight strict _ _ _ _ _ _ I Y) as (U & _ & O); destruct (No eq_refl s U O)).
    pose proof (make_room_none _ _ _ _ _ X E) as ->. split; [constructor; assumption | split; [apply kept_refl |]]. destruct (waits_left ends p); cbn [make_room] in E; rewrite (size_t_room _ _ _ _ I) in E; destruct (Z.ltb_spec (max_bytes - ins p - outs p) needed) as [Y | Y]; try lia.
    + destruct (backtrack _ _ _ _ _ _ _ _ _) as (a, st'). destruct (a <? needed); discriminate.
    + exfalso. destruct (wait_none p X) as (W1 & W2 & W3). pose proof (make_room_none _ _ _ _ _ W3 E) as E'. destruct (wait_facts order sizeof ty p) as (_ & _ & _ & _ & _ & W6 & _). rewrite <- E' in W6. lia.
  - destruct (make_room_got (from (S g)) (S g) (block_end (S g)) stopper needed (waits_left ends p) p p' I F) as (E1 & E2 & E3); [unfold waits_left; rewrite F; reflexivity | exact E |].
    split; [| split; [exact E2 | exact E3]]. destruct E2 as (K1 & K2 & _). constructor; try discriminate; [exact E1 | congruence | rewrite K1; exact H].
Qed.

(** * Arrays that need no transfer *)
Lemma reserve_states l : forall p, let p' := fold_left (reserve_one order) l p in
  head p' = head p /\ tail p' = tail p /\ fid p' = fid p /\ prefetched p' = prefetched p /\ ins p' = ins p /\ outs p' = outs p /\ begins p' = begins p /\ finals p' = finals p /\ heads p' = heads p /\
  (forall s d, ~ (used s /\ d = ty s) -> states p' s d = states p s d) /\
  (forall s, st p' s = if (existsb (uses s) l && match state (st p s) with Unprefetched => true | _ => false end)%bool then to In (st p s) else st p s).
Proof using TY.
  induction l as [| i l IH]; intros p; cbv zeta; cbn [fold_left]; [cbn; repeat split; reflexivity |].
  destruct (IH (reserve_one order p i)) as (A1 & A2 & A3 & A4 & A5 & A6 & A7 & A8 & A9 & A10 & A11).
  assert (F : forall p, let q := reserve_one order p i in head q = head p /\ tail q = tail p /\ fid q = fid p /\ prefetched q = prefetched p /\ ins q = ins p /\ outs q = outs p /\ begins q = begins p /\ finals q = finals p /\ heads q = heads p).
  { intros p0. cbv zeta. unfold reserve_one. destruct (is_clear (at_ i)); [repeat split |]. destruct (state _); cbn; repeat split; reflexivity. }
  specialize (F p). cbv zeta in F. destruct F as (B1 & B2 & B3 & B4 & B5 & B6 & B7 & B8 & B9).
  split; [congruence | split; [congruence | split; [congruence | split; [congruence | split; [congruence | split; [congruence | split; [congruence | split; [congruence | split; [congruence | split]]]]]]]]].
  - intros s d N. rewrite A10 by exact N. unfold reserve_one. destruct (is_clear (at_ i)) eqn:C; [reflexivity |]. destruct (state (states p (said (at_ i)) (dtype (at_ i)))); try reflexivity. cbn [states]. apply set_state_other. destruct (Nat.eq_dec s (said (at_ i))) as [-> | X]; [right | left; exact X]. rewrite (ty_at order ty TY i C). intros ->. apply N. split; [apply used_at; exact C | reflexivity].
  - intros s. rewrite A11. cbn [existsb]. assert (ST : st (reserve_one order p i) s = if (uses s i && match state (st p s) with Unprefetched => true | _ => false end)%bool then to In (st p s) else st p s).
    { unfold reserve_one. destruct (is_clear (at_ i)) eqn:C; [rewrite uses_clear by exact C; reflexivity |]. rewrite (ty_at order ty TY i C). fold (st p (said (at_ i))). destruct (Nat.eq_dec s (said (at_ i))) as [-> | X].
      - rewrite uses_self by exact C. destruct (state (st p (said (at_ i)))) eqn:Y; try reflexivity. unfold SwapProofs3.st at 1. cbn [states andb]. rewrite set_state_same. reflexivity.
      - rewrite (uses_other order s i X). destruct (state (st p (said (at_ i)))); try reflexivity. unfold SwapProofs3.st at 1. cbn [states andb]. rewrite set_state_other by auto. reflexivity. }
    rewrite ST. destruct (uses s i), (existsb (uses s) l), (state (st p s)) eqn:Y; cbn; rewrite ?Y; reflexivity.
Qed.
Lemma total_sub (f : nat -> Z) (l m : list nat) : NoDup l -> NoDup m -> incl l m -> total f l = total (fun s => if in_dec Nat.eq_dec s l then f s else 0) m.
Proof.
  intros D. revert m. induction D as [| s l NI D IH]; intros m DM IN; [symmetry; apply total_zero; intros; reflexivity |]. rewrite total_cons. rewrite (IH m DM) by (intros x X; apply IN; right; exact X).
  rewrite (total_change (fun s0 => if in_dec Nat.eq_dec s0 l then f s0 else 0) (fun s0 => if in_dec Nat.eq_dec s0 (s :: l) then f s0 else 0) m s DM (IN s (or_introl eq_refl))).
  - destruct (in_dec Nat.eq_dec s l); [contradiction |]. destruct (in_dec Nat.eq_dec s (s :: l)) as [| X]; [lia | destruct X; left; reflexivity].
  - intros b N. destruct (in_dec Nat.eq_dec b l) as [X | X], (in_dec Nat.eq_dec b (s :: l)) as [Y | Y]; try reflexivity; [destruct Y; right; exact X | destruct Y as [Y | Y]; [congruence | contradiction]].
Qed.
Lemma total_map {B C} (g : B -> C) (f : C -> Z) l : total f (map g l) = total (fun b => f (g b)) l.
Proof. induction l as [| b l IH]; [reflexivity |]. cbn [map]. rewrite !total_cons, IH. reflexivity. Qed.
Lemma needed_bytes p : unprefetched_bytes order ends sizeof p = total (fun s => if (existsb (uses s) (block ends (fid p)) && match state (st p s) with Unprefetched => true | _ => false end)%bool then weight s else 0) L.
Proof using TY WT.
  unfold unprefetched_bytes. set (l := unprefetched order ends p). set (pairs := nodup pair_dec (map (fun i => (said (at_ i), dtype (at_ i))) l)).
  assert (LI : forall i, List.In i l <-> List.In i (block ends (fid p)) /\ is_clear (at_ i) = false /\ state (st p (said (at_ i))) = Unprefetched).
  { intros i. unfold l, unprefetched. rewrite filter_In. split; intros (X & Y); split; try exact X.
    - apply andb_prop in Y as (Y1 & Y2). apply negb_true_iff in Y1. split; [exact Y1 |]. rewrite (ty_at order ty TY i Y1) in Y2. fold (st p (said (at_ i))) in Y2. destruct (state _); try discriminate; reflexivity.
    - destruct Y as (Y1 & Y2). rewrite Y1, (ty_at order ty TY i Y1). fold (st p (said (at_ i))). rewrite Y2. reflexivity. }
  assert (PI : forall s d, List.In (s, d) pairs -> exists i, List.In i l /\ said (at_ i) = s /\ d = ty s).
  { intros s d X. unfold pairs in X. apply nodup_In, in_map_iff in X as (i & E & X). injection E as E1 E2. exists i. split; [exact X | split; [exact E1 |]]. apply LI in X as (_ & C & _). rewrite <- E2, <- E1. apply (ty_at order ty TY); exact C. }
  transitivity (total (fun x : nat * nat => weight (fst x)) pairs).
  { apply total_ext. intros (s, d) X. cbn [fst]. destruct (PI s d X) as (i & I1 & I2 & ->). destruct (find _ (rev l)) as [j |] eqn:E.
    - apply find_some in E as (E1 & E2). apply andb_prop in E2 as (E2 & E3). apply Nat.eqb_eq in E2, E3. apply in_rev in E1. apply LI in E1 as (_ & C & _). rewrite <- E3, (wt_at order sizeof weight WT j C), E2. reflexivity.
    - exfalso. pose proof (find_none _ _ E i) as Y. cbv beta in Y. apply LI in I1 as I3. destruct I3 as (_ & C & _). rewrite I2, (ty_at order ty TY i C), I2, !Nat.eqb_refl in Y. cbn in Y. assert (true = false) by (apply Y; rewrite <- in_rev; exact I1). discriminate. }
  rewrite <- (total_map fst weight pairs). assert (ND : NoDup (map fst pairs)).
  { assert (N : NoDup pairs) by apply NoDup_nodup. clearbody pairs. clear - N PI. induction N as [| (s, d) m N1 N2 IH]; [constructor |]. cbn [map fst]. constructor; [| apply IH; intros; apply PI; right; assumption].
    intros X. apply in_map_iff in X as ((s', d') & E & X). cbn in E. subst s'. destruct (PI s d (or_introl eq_refl)) as (_ & _ & _ & D1). destruct (PI s d' (or_intror X)) as (_ & _ & _ & D2). apply N1. rewrite D1, <- D2. exact X. }
  rewrite (total_sub weight (map fst pairs) L ND (arrays_nodup order)).
  - apply total_ext. intros s _. destruct (in_dec Nat.eq_dec s (map fst pairs)) as [X | X].
    + apply in_map_iff in X as ((s', d) & E & X). cbn in E. subst s'. destruct (PI s d X) as (i & I1 & I2 & _). apply LI in I1 as (B & C & U). assert (Y : existsb (uses s) (block ends (fid p)) = true) by (apply existsb_exists; exists i; split; [exact B | apply uses_spec; auto]). rewrite <- I2 in Y |- *. rewrite Y, U. reflexivity.
    + destruct (existsb (uses s) (block ends (fid p))) eqn:Y; [| reflexivity]. destruct (state (st p s)) eqn:U; try reflexivity. exfalso. apply X. apply existsb_exists in Y as (i & B & V). apply uses_spec in V as (C & S). apply in_map_iff. exists (s, dtype (at_ i)). split; [reflexivity |]. unfold pairs. apply nodup_In, in_map_iff. exists i. split; [rewrite S; reflexivity |]. apply LI. rewrite S. auto.
  - intros s X. apply in_map_iff in X as ((s', d) & E & X). cbn in E. subst s'. destruct (PI s d X) as (i & I1 & I2 & _). apply arrays_in. apply LI in I1 as (_ & C & _). rewrite <- I2. apply used_at. exact C.
Qed.
Lemma room_states stopper needed n : forall p p', make_room order ends sizeof max_bytes n stopper p needed = Got _ p' -> forall s, match state (st p s) with Unprefetched => true | _ => false end = match state (st p' s) with Unprefetched => true | _ => false end.
Proof.
  assert (W : forall p s, match state (st p s) with Unprefetched => true | _ => false end = match state (st (wait order sizeof p) s) with Unprefetched => true | _ => false end).
  { intros p s. unfold wait. destruct (_ && _)%bool; [| reflexivity]. unfold SwapProofs3.st. cbn [states]. unfold set_state, change. destruct (_ && _)%bool eqn:E.
    - apply andb_prop in E as (E1 & E2). apply Nat.eqb_eq in E1, E2. rewrite <- E1, <- E2. rewrite Nat.eqb_refl. cbn [state]. destruct (state (states p s (ty s))) eqn:X; cbn; rewrite ?X; reflexivity.
    - destruct (Nat.eqb s _); [| reflexivity]. destruct (state (states p s (ty s))) eqn:X; cbn; rewrite ?X; reflexivity. }
  induction n as [| n IH]; intros p p' E s; cbn [make_room] in E; destruct (_ <? needed) in E.
  - destruct (backtrack _ _ _ _ _ _ _ _ _) as (a, st'). destruct (a <? needed); discriminate.
  - injection E as <-. reflexivity.
  - rewrite (W p s). apply (IH _ _ E).
  - injection E as <-. reflexivity.
Qed.
Lemma before_reserve g stopper p p' : before g p -> reserve order ends sizeof max_bytes stopper p = Got _ p' -> before g p' /\ head p' = head p /\
  (forall s i, List.In i (block ends (S g)) -> uses s i = true -> state (st p' s) <> Unprefetched).
Proof using TY WT WN MX SD.
  intros B E. unfold reserve in E. destruct (make_room _ _ _ _ _ _ _ _) as [p1 | | | | |] eqn:R; try discriminate. injection E as <-. destruct (before_room g stopper _ p p1 B R) as (B1 & K & M).
  pose proof (needed_bytes p) as NB. set (needed := unprefetched_bytes order ends sizeof p) in *. set (p2 := P _ _ _ _ _ _ _ _ _ _).
  destruct (reserve_states (block ends (fid p1)) p2) as (A1 & A2 & A3 & A4 & A5 & A6 & A7 & A8 & A9 & A10 & A11). set (p3 := fold_left _ _ p2) in *.
  assert (S2 : forall s, st p2 s = st p1 s) by reflexivity. destruct K as (K1 & K2 & K3 & K4 & K5 & K6 & K7).
  assert (F1 : fid p1 = S g) by (apply (b_fid _ _ B1)). pose proof (b_fid _ _ B) as F0.
  set (chg := fun s => (existsb (uses s) (block ends (fid p1)) && match state (st p1 s) with Unprefetched => true | _ => false end)%bool).
  assert (A11' : forall s, st p3 s = if chg s then to In (st p1 s) else st p1 s) by (intros s; rewrite A11; reflexivity).
  assert (TR : tr p3 g = tr p1 g) by (unfold SwapProofs3.tr; rewrite A7, A8; reflexivity).
  assert (ST : forall s, state (st p3 s) = if chg s then In else state (st p1 s)) by (intros s; rewrite A11'; destruct (chg s); reflexivity).
  assert (CU : forall s, chg s = true -> state (st p1 s) = Unprefetched) by (intros s X; unfold chg in X; apply andb_prop in X as (_ & X); destruct (state (st p1 s)); try discriminate; reflexivity).
  assert (ND : needed = total (fun s => if chg s then weight s else 0) L).
  { rewrite NB. apply total_ext. intros s X. apply arrays_in in X. unfold chg. rewrite F0, F1. assert (Y : match state (st p s) with Unprefetched => true | _ => false end = match state (st p1 s) with Unprefetched => true | _ => false end); [| rewrite Y; reflexivity].
    apply (room_states stopper _ _ p p1 R s). }
  destruct B1 as [I F H No Fi In0 Fn]. split; [| split; [rewrite A1; exact K1 |]].
  - constructor.
    + pose proof I as I'. destruct I as [I1 I2 I3 I4 I5 I6 I7 I8 I9 I10 I11 I12 I13 I14 I15 I16]. constructor.
      * intros s d N. rewrite A10 by exact N. apply I1. exact N.
      * intros s U. rewrite A11', A1. cbn [p2 head]. destruct (chg s); apply I2; exact U.
      * intros s U. rewrite ST, A1. cbn [p2 head]. pose proof (I3 s U) as X. destruct (chg s) eqn:Y; [| exact X]. rewrite (CU s Y) in X. exact X.
      * rewrite A5. cbn [p2 ins]. rewrite I4, ND. unfold SwapProofs3.sum. rewrite <- total_plus. apply total_ext. intros s _. rewrite ST. destruct (chg s) eqn:Y; [rewrite (CU s Y) |]; cbn [is_In]; lia.
      * rewrite A6. cbn [p2 outs]. rewrite I5. apply total_ext. intros s _. rewrite ST. destruct (chg s) eqn:Y; [rewrite (CU s Y) |]; reflexivity.
      * rewrite A4. cbn [p2 prefetched]. rewrite I6. apply total_ext. intros s _. rewrite ST. destruct (chg s) eqn:Y; [rewrite (CU s Y) |]; reflexivity.
      * rewrite A5, A6. cbn [p2 ins outs]. lia.
      * intros s U. rewrite ST, A11', A2. destruct (chg s); [discriminate |]. apply I8. exact U.
      * rewrite A2. exact I9.
      * rewrite A1. exact I10.
      * intros s U X. unfold known in X. rewrite A9 in *. apply (I11 s U X).
      * rewrite TR. exact I12.
      * intros s U. rewrite ST, TR. pose proof (I13 s U) as X. destruct (chg s) eqn:Y; [| exact X]. rewrite (CU s Y) in X. cbn [SwapProofs3.rel] in *. tauto.
      * intros s U. rewrite ST, A7, A8. destruct (chg s); [discriminate |]. apply I14. exact U.
      * rewrite A7. exact I15.
      * rewrite A8. exact I16.
    + rewrite A3. exact F.
    + rewrite A1. exact H.
    + intros G s U. rewrite ST. destruct (chg s); [discriminate |]. apply No; assumption.
    + intros G s i k. rewrite A7. apply Fi. exact G.
    + intros G s i I1 I2. rewrite ST. destruct (chg s); [reflexivity |]. apply (In0 G s i I1 I2).
    + intros G k. rewrite A8. apply Fn. exact G.
  - intros s i BI UI. rewrite ST. destruct (chg s) eqn:Y; [discriminate |]. intros X. unfold chg in Y. rewrite X, andb_true_r in Y. assert (Z0 : existsb (uses s) (block ends (fid p1)) = true) by (apply existsb_exists; exists i; rewrite F1; auto). congruence.
Qed.
End plan.
