(** Random choice: partial sums and the place of a number among them. *)
From Coq Require Import List ZArith Lia Lqa Bool QArith Qcanon.
From Verif Require Import IdxModel JoinModel ScanModel ReduceModel ConvModel ItpModel NmsProofs1 RcModel RcSpec.
Import ListNotations.
Local Open Scope list_scope.
Local Open Scope Qc_scope.

Lemma less_iff a b : less a b = true <-> a < b.
Proof. unfold less. destruct (Qclt_le_dec a b); split; intros H; try assumption; try reflexivity; try discriminate. exfalso. exact (Qclt_not_le _ _ H q). Qed.
Lemma less_not a b : less a b = false <-> b <= a.
Proof. unfold less. destruct (Qclt_le_dec a b); split; intros H; try assumption; try reflexivity; try discriminate. exfalso. exact (Qclt_not_le _ _ q H). Qed.

Lemma partial_length : forall w a, length (partial_sum a w) = length w.
Proof. induction w as [| v w IH]; intros a; cbn; [reflexivity | rewrite IH; reflexivity]. Qed.
Lemma before_S w : forall k, (k < length w)%nat -> before w (S k) = before w k + nth k w 0.
Proof.
  unfold before. induction w as [| v w IH]; intros k L; [cbn in L; lia |]. destruct k as [| k]; [cbn; ring |].
  cbn in L. change (firstn (S (S k)) (v :: w)) with (v :: firstn (S k) w). change (firstn (S k) (v :: w)) with (v :: firstn k w).
  change (sum_of (v :: firstn (S k) w)) with (v + sum_of (firstn (S k) w)). change (sum_of (v :: firstn k w)) with (v + sum_of (firstn k w)). rewrite IH by lia. cbn [nth]. ring.
Qed.
Lemma partial_nth : forall w a k, (k < length w)%nat -> nth k (partial_sum a w) 0 = a + before w (S k).
Proof.
  induction w as [| v w IH]; intros a k L; [cbn in L; lia |]. destruct k as [| k]; [unfold before; cbn; ring |]. cbn in L. cbn [partial_sum nth]. rewrite IH by lia.
  unfold before. change (firstn (S (S k)) (v :: w)) with (v :: firstn (S k) w). change (sum_of (v :: firstn (S k) w)) with (v + sum_of (firstn (S k) w)). ring.
Qed.
Lemma before_all w : before w (length w) = sum_of w.
Proof. unfold before. rewrite firstn_all. reflexivity. Qed.
Lemma last_nth_0 (l : list Qc) : last l 0 = nth (length l - 1) l 0.
Proof. induction l as [| a l IH]; [reflexivity |]. destruct l as [| b l]; [reflexivity |]. change (last (a :: b :: l) 0) with (last (b :: l) 0). rewrite IH. cbn [length]. rewrite !Nat.sub_succ, !Nat.sub_0_r. reflexivity. Qed.
Lemma back_sum w : back (partial_sum 0 w) = sum_of w.
Proof.
  unfold back. rewrite last_nth_0, partial_length. destruct w as [| v w]; [reflexivity |]. rewrite partial_nth by (cbn; lia). replace (S (length (v :: w) - 1)) with (length (v :: w)) by (cbn; lia). rewrite before_all. ring.
Qed.

Lemma above_some : forall sums u i, first_above u sums = Some i -> (i < length sums)%nat /\ u < nth i sums 0 /\ forall j, (j < i)%nat -> nth j sums 0 <= u.
Proof.
  induction sums as [| s sums IH]; intros u i H; [discriminate |]. cbn [first_above] in H. destruct (less u s) eqn:E.
  - injection H as <-. apply less_iff in E. cbn. split; [lia |]. split; [exact E |]. intros j J. lia.
  - destruct (first_above u sums) as [k |] eqn:F; [| discriminate]. injection H as <-. apply IH in F as (A & B & C). cbn. split; [lia |]. split; [exact B |]. intros [| j] J; [apply less_not; exact E | apply C; lia].
Qed.
Lemma above_none : forall sums u, first_above u sums = None -> forall j, (j < length sums)%nat -> nth j sums 0 <= u.
Proof.
  induction sums as [| s sums IH]; intros u H j J; [cbn in J; lia |]. cbn [first_above] in H. destruct (less u s) eqn:E; [discriminate |]. destruct (first_above u sums) eqn:F; [discriminate |].
  destruct j as [| j]; [apply less_not; exact E | apply (IH u F); cbn in J; lia].
Qed.

Lemma sum_nonneg w : no_negative w -> 0 <= sum_of w.
Proof. induction 1; cbn; [apply Qcle_refl |]. change (fold_right Qcplus 0 l) with (sum_of l). qlra. Qed.
Lemma nonneg_nth w k : no_negative w -> 0 <= nth k w 0.
Proof. intros N. destruct (Nat.lt_ge_cases k (length w)) as [L | L]; [| rewrite nth_overflow by exact L; apply Qcle_refl]. exact (proj1 (Forall_forall _ _) N _ (nth_In _ _ L)). Qed.
Lemma before_mono w : no_negative w -> forall j k, (j <= k)%nat -> (k <= length w)%nat -> before w j <= before w k.
Proof.
  intros N j k L. induction L as [| k L IH]; intros B; [apply Qcle_refl |]. rewrite before_S by lia. specialize (IH ltac:(lia)). pose proof (nonneg_nth w k N). qlra.
Qed.
Lemma picks_unique w c i j : no_negative w -> picks w c i -> picks w c j -> i = j.
Proof.
  intros N (Li & Ai & Bi) (Lj & Aj & Bj). destruct (Nat.lt_trichotomy i j) as [H | [H | H]]; [| exact H |]; exfalso.
  - pose proof (before_mono w N (S i) j ltac:(lia) ltac:(lia)). qlra.
  - pose proof (before_mono w N (S j) i ltac:(lia) ltac:(lia)). qlra.
Qed.
(** What the loop finds is what the number picks. *)
Lemma above_picks w c i : no_negative w -> 0 <= c -> first_above (c * sum_of w) (partial_sum 0 w) = Some i -> picks w c i.
Proof.
  intros N C H. apply above_some in H as (L & U & B). rewrite partial_length in L. rewrite partial_nth in U by exact L. split; [exact L |]. split; [| qlra].
  destruct i as [| i].
  - unfold before. cbn. pose proof (sum_nonneg w N). set (s := sum_of w) in *. clearbody s. qnra.
  - specialize (B i ltac:(lia)). rewrite partial_nth in B by lia. qlra.
Qed.
Lemma above_found w c : valid w -> unit_number c -> exists i, first_above (c * sum_of w) (partial_sum 0 w) = Some i.
Proof.
  intros [N S0] [C0 C1]. destruct (first_above (c * sum_of w) (partial_sum 0 w)) as [i |] eqn:E; [exists i; reflexivity |]. exfalso.
  assert (L : (0 < length w)%nat) by (destruct w; [exfalso; exact (Qclt_not_eq _ _ S0 eq_refl) | cbn; lia]).
  pose proof (above_none _ _ E (length w - 1)%nat) as H. rewrite partial_length in H. specialize (H ltac:(lia)). rewrite partial_nth in H by lia. replace (S (length w - 1)) with (length w) in H by lia. rewrite before_all in H.
  set (s := sum_of w) in *. clearbody s. clear E. qnra.
Qed.
Lemma picks_above w c i : no_negative w -> unit_number c -> picks w c i -> first_above (c * sum_of w) (partial_sum 0 w) = Some i.
Proof.
  intros N U P. destruct (first_above (c * sum_of w) (partial_sum 0 w)) as [j |] eqn:E.
  - f_equal. apply (picks_unique w c); [exact N | | exact P]. apply above_picks; [exact N | exact (proj1 U) | exact E].
  - exfalso. destruct P as (L & _ & B). pose proof (above_none _ _ E i) as H. rewrite partial_length in H. specialize (H L). rewrite partial_nth in H by exact L. qlra.
Qed.
Lemma picks_positive w c k : picks w c k -> 0 < nth k w 0.
Proof. intros (L & A & B). rewrite before_S in B by exact L. qlra. Qed.
