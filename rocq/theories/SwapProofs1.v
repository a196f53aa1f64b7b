(** Proofs about SwapModel: sums over arrays, single types, queues. *)
From Coq Require Import List ZArith Bool Arith Lia.
From Verif Require Import SwapModel SwapSpec.
Import ListNotations.
Local Open Scope list_scope.
Local Open Scope Z_scope.

(** * Sums *)
Lemma total_cons {B} (f : B -> Z) b l : total f (b :: l) = f b + total f l.
Proof. reflexivity. Qed.
Lemma total_ext {B} (f g : B -> Z) l : (forall b, List.In b l -> f b = g b) -> total f l = total g l.
Proof. induction l as [| b l IH]; intros H; [reflexivity |]. rewrite !total_cons, (H b (or_introl eq_refl)), IH; [reflexivity |]. intros; apply H; right; assumption. Qed.
Lemma total_le {B} (f g : B -> Z) l : (forall b, List.In b l -> f b <= g b) -> total f l <= total g l.
Proof. induction l as [| b l IH]; intros H; [reflexivity |]. rewrite !total_cons. pose proof (H b (or_introl eq_refl)). assert (total f l <= total g l) by (apply IH; intros; apply H; right; assumption). lia. Qed.
Lemma total_plus {B} (f g : B -> Z) l : total (fun b => f b + g b) l = total f l + total g l.
Proof. induction l as [| b l IH]; [reflexivity |]. rewrite !total_cons, IH. lia. Qed.
Lemma total_zero {B} (f : B -> Z) l : (forall b, List.In b l -> f b = 0) -> total f l = 0.
Proof. intros H. rewrite (total_ext f (fun _ => 0)) by exact H. clear. induction l; [reflexivity |]. rewrite total_cons, IHl. reflexivity. Qed.
Lemma total_nonneg {B} (f : B -> Z) l : (forall b, List.In b l -> 0 <= f b) -> 0 <= total f l.
Proof. intros H. rewrite <- (total_zero (fun _ : B => 0) l) by reflexivity. apply total_le. exact H. Qed.
(** A function changed at one place. *)
Lemma total_change (f g : nat -> Z) l s : NoDup l -> List.In s l -> (forall b, b <> s -> f b = g b) -> total g l = total f l - f s + g s.
Proof.
  induction l as [| b l IH]; intros D I H; [destruct I |]. inversion D; subst. rewrite !total_cons. destruct I as [-> | I].
  - rewrite (total_ext g f l); [lia |]. intros x X. symmetry. apply H. intros ->. contradiction.
  - rewrite (IH H3 I H), (H b); [lia |]. intros ->. contradiction.
Qed.
Lemma set_same {B} (m : nat -> B) k b : set m k b k = b.
Proof. unfold set. rewrite Nat.eqb_refl. reflexivity. Qed.
Lemma set_other {B} (m : nat -> B) k b k' : k' <> k -> set m k b k' = m k'.
Proof. unfold set. intros N. apply Nat.eqb_neq in N. rewrite N. reflexivity. Qed.

Section one.
Variables (order : list record) (ends : list nat) (sizeof : nat -> Z) (max_bytes max_prefetch : Z) (cast_prefetch : bool) (head0 : nat -> option nat).
Variables (ty : nat -> nat) (weight : nat -> Z).
Hypothesis TY : forall r, List.In r order -> is_clear r = false -> dtype r = ty (said r).
Hypothesis WT : forall r, List.In r order -> is_clear r = false -> bytes sizeof r (dtype r) = weight (said r).
Notation at_ := (at_ order).
Notation types_of := (types_of order).

(** Record [i] uses array [s]. *)
Definition uses (s i : nat) : bool := (negb (is_clear (at_ i)) && Nat.eqb (said (at_ i)) s)%bool.
Definition used (s : nat) : Prop := exists i, (i < length order)%nat /\ is_clear (at_ i) = false /\ said (at_ i) = s.
Lemma at_in i : (i < length order)%nat -> List.In (at_ i) order.
Proof. apply nth_In. Qed.
Lemma ty_at i : is_clear (at_ i) = false -> dtype (at_ i) = ty (said (at_ i)).
Proof. intros C. apply TY; [| exact C]. apply at_in. destruct (lt_dec i (length order)) as [L | L]; [exact L |]. exfalso. unfold SwapModel.at_ in C. rewrite nth_overflow in C by lia. discriminate. Qed.
Lemma at_inside i : is_clear (at_ i) = false -> (i < length order)%nat.
Proof. intros C. destruct (lt_dec i (length order)) as [L | L]; [exact L |]. exfalso. unfold SwapModel.at_ in C. rewrite nth_overflow in C by lia. discriminate. Qed.
Lemma wt_at i : is_clear (at_ i) = false -> bytes sizeof (at_ i) (dtype (at_ i)) = weight (said (at_ i)).
Proof. intros C. apply WT; [apply at_in, at_inside; exact C | exact C]. Qed.
Lemma used_at i : is_clear (at_ i) = false -> used (said (at_ i)).
Proof. intros C. exists i. split; [apply at_inside; exact C | auto]. Qed.
Lemma types_one s : used s -> types_of s = [ty s].
Proof.
  intros (i & L & C & S). unfold SwapModel.types_of.
  assert (A : forall l, (forall r, List.In r l -> is_clear r = false -> dtype r = ty (said r)) -> forall d, List.In d (map dtype (filter (fun r => (negb (is_clear r) && Nat.eqb (said r) s)%bool) l)) -> d = ty s).
  { intros l H d D. apply in_map_iff in D as (r & <- & D). apply filter_In in D as (D & E). apply andb_prop in E as (E1 & E2). apply Nat.eqb_eq in E2. rewrite <- E2. apply H; [exact D |]. destruct (is_clear r); [discriminate | reflexivity]. }
  specialize (A order TY). set (l := map dtype _) in *. assert (N : List.In (ty s) l).
  { unfold l. apply in_map_iff. exists (at_ i). split; [rewrite ty_at, S by exact C; reflexivity |]. apply filter_In. split; [apply at_in; exact L |]. rewrite C, S, Nat.eqb_refl. reflexivity. }
  clearbody l. clear - A N. pose proof (NoDup_nodup Nat.eq_dec l) as D. assert (A' : forall d, List.In d (nodup Nat.eq_dec l) -> d = ty s) by (intros d H; apply A; apply nodup_In in H; exact H).
  assert (N' : List.In (ty s) (nodup Nat.eq_dec l)) by (apply nodup_In; exact N). destruct (nodup Nat.eq_dec l) as [| a [| b l']]; [destruct N' | rewrite (A' a (or_introl eq_refl)); reflexivity |].
  exfalso. inversion D; subst. apply H1. rewrite (A' a (or_introl eq_refl)), (A' b (or_intror (or_introl eq_refl))). left. reflexivity.
Qed.
Lemma total_one s (f : nat -> Z) : used s -> total f (types_of s) = f (ty s).
Proof. intros U. rewrite types_one by exact U. cbn. lia. Qed.

(** * Arrays *)
Notation L := (arrays order).
Lemma arrays_in s : List.In s L <-> used s.
Proof.
  unfold arrays. rewrite nodup_In, in_map_iff. split.
  - intros (r & <- & I). apply filter_In in I as (I & C). destruct (In_nth _ _ no_record I) as (i & B & E). exists i. split; [exact B |]. unfold SwapModel.at_. rewrite E. split; [unfold is_clear; destruct (tag r); [reflexivity | reflexivity | discriminate] | reflexivity].
  - intros (i & B & C & <-). exists (at_ i). split; [reflexivity |]. apply filter_In. split; [apply at_in; exact B |]. unfold is_clear in C. destruct (tag (at_ i)); [reflexivity | reflexivity | discriminate].
Qed.
Lemma arrays_nodup : NoDup L.
Proof. apply NoDup_nodup. Qed.

(** * The number of uses of an array in a part of the order *)
Fixpoint uses_in (s a n : nat) : Z := match n with O => 0 | S n => (if uses s a then 1 else 0) + uses_in s (S a) n end.
Definition queue (s a b : nat) : Z := uses_in s a (b - a).
Lemma uses_nonneg s n : forall a, 0 <= uses_in s a n.
Proof. induction n as [| n IH]; intros a; cbn [uses_in]; [lia |]. specialize (IH (S a)). destruct (uses s a); lia. Qed.
Lemma uses_in_end s n : forall a, uses_in s a (S n) = uses_in s a n + (if uses s (a + n)%nat then 1 else 0).
Proof.
  induction n as [| n IH]; intros a; [cbn [uses_in]; rewrite Nat.add_0_r; lia |].
  change (uses_in s a (S (S n))) with ((if uses s a then 1 else 0) + uses_in s (S a) (S n)). rewrite IH. cbn [uses_in]. replace (S a + n)%nat with (a + S n)%nat by lia. lia.
Qed.
Lemma queue_nonneg s a b : 0 <= queue s a b.
Proof. apply uses_nonneg. Qed.
Lemma queue_snoc s a b : (a <= b)%nat -> queue s a (S b) = queue s a b + (if uses s b then 1 else 0).
Proof. intros H. unfold queue. replace (S b - a)%nat with (S (b - a)) by lia. rewrite uses_in_end. replace (a + (b - a))%nat with b by lia. reflexivity. Qed.
Lemma queue_cons s a b : (a < b)%nat -> queue s a b = (if uses s a then 1 else 0) + queue s (S a) b.
Proof. intros H. unfold queue. replace (b - a)%nat with (S (b - S a)) by lia. reflexivity. Qed.
Lemma queue_none s a b : (b <= a)%nat -> queue s a b = 0.
Proof. intros H. unfold queue. replace (b - a)%nat with 0%nat by lia. reflexivity. Qed.
Lemma queue_zero s a b : queue s a b = 0 <-> forall k, (a <= k < b)%nat -> uses s k = false.
Proof.
  unfold queue. split.
  - remember (b - a)%nat as n eqn:E. revert a E. induction n as [| n IH]; intros a E H k K; [lia |]. cbn [uses_in] in H. pose proof (uses_nonneg s n (S a)).
    destruct (uses s a) eqn:U; [lia |]. destruct (Nat.eq_dec k a) as [-> | N]; [exact U |]. apply (IH (S a)); lia.
  - remember (b - a)%nat as n eqn:E. revert a E. induction n as [| n IH]; intros a E H; [reflexivity |]. cbn [uses_in]. rewrite (H a) by lia. rewrite IH; [reflexivity | lia |]. intros; apply H; lia.
Qed.
Lemma queue_pos s a b k : (a <= k < b)%nat -> uses s k = true -> 0 < queue s a b.
Proof. intros K U. pose proof (queue_nonneg s a b). destruct (Z.eq_dec (queue s a b) 0) as [E | E]; [| lia]. rewrite queue_zero in E. rewrite E in U by exact K. discriminate. Qed.
Lemma queue_pos_inv s a b : 0 < queue s a b -> exists k, (a <= k < b)%nat /\ uses s k = true.
Proof.
  unfold queue. remember (b - a)%nat as n eqn:E. revert a E. induction n as [| n IH]; intros a E H; [cbn in H; lia |]. cbn [uses_in] in H. destruct (uses s a) eqn:U; [exists a; split; [lia | exact U] |].
  destruct (IH (S a)) as (k & K & V); [lia | lia |]. exists k. split; [lia | exact V].
Qed.
Lemma uses_spec s i : uses s i = true <-> is_clear (at_ i) = false /\ said (at_ i) = s.
Proof. unfold uses. rewrite andb_true_iff, negb_true_iff, Nat.eqb_eq. reflexivity. Qed.
Lemma uses_self i : is_clear (at_ i) = false -> uses (said (at_ i)) i = true.
Proof. intros C. apply uses_spec. auto. Qed.
Lemma uses_other s i : s <> said (at_ i) -> uses s i = false.
Proof. intros N. unfold uses. destruct (Nat.eqb_spec (said (at_ i)) s); [congruence |]. apply andb_false_r. Qed.
Lemma uses_clear s i : is_clear (at_ i) = true -> uses s i = false.
Proof. intros C. unfold uses. rewrite C. reflexivity. Qed.
End one.
