(** Random choice: the samples of one population. *)
From Coq Require Import List ZArith Lia Lqa Bool QArith Qcanon.
From Verif Require Import IdxModel JoinModel ScanModel ReduceModel ConvModel ItpModel NmsProofs1 RcModel RcSpec RcProofs1.
Import ListNotations.
Local Open Scope list_scope.
Local Open Scope Qc_scope.

(** * With replacement *)
Lemma with_some w : forall n r l r', valid w -> Forall unit_number r -> with_replacement (length w) (partial_sum 0 w) n r = Done (l, r') ->
  exists used, r = used ++ r' /\ length used = n /\ Forall2 (picks w) used l.
Proof.
  induction n as [| n IH]; intros r l r' V U H.
  - cbn in H. destruct r; injection H as <- <-; exists []; repeat split; constructor.
  - destruct r as [| c r]; [discriminate |]. cbn [with_replacement] in H. rewrite back_sum in H. inversion U as [| ? ? U1 U2]; subst.
    destruct (with_replacement (length w) (partial_sum 0 w) n r) as [[l1 r1] | |] eqn:E; cbn [andthen] in H; try discriminate.
    destruct (IH r l1 r1 V U2 E) as (used & -> & L & P). destruct (above_found w c V U1) as (i & F). rewrite F in H. injection H as <- <-. exists (c :: used). split; [reflexivity |]. split; [cbn; rewrite L; reflexivity |].
    constructor; [| exact P]. apply above_picks; [exact (proj1 V) | exact (proj1 U1) | exact F].
Qed.
Lemma with_total k w : forall n r, (n <= length r)%nat -> exists l r', with_replacement k w n r = Done (l, r') /\ (length r = n + length r')%nat.
Proof.
  induction n as [| n IH]; intros r L.
  - exists [], r. destruct r; split; reflexivity.
  - destruct r as [| c r]; [cbn in L; lia |]. cbn in L. destruct (IH r ltac:(lia)) as (l & r' & E & Lr). cbn [with_replacement]. rewrite E. cbn [andthen]. eexists _, r'. split; [reflexivity |]. cbn. lia.
Qed.
Lemma no_negative_spec w : existsb (fun v => less v 0) w = false <-> no_negative w.
Proof.
  unfold no_negative. induction w as [| v w IH]; cbn; [split; [constructor | reflexivity] |]. rewrite orb_false_iff, less_not, IH. split; [intros [A B]; constructor; assumption | intros H; inversion H; auto].
Qed.
Lemma choose_with inner w r l r' : Forall unit_number r -> choose true inner w r = Done (l, r') ->
  exists used, r = used ++ r' /\ length used = inner /\ Forall2 (picks w) used l.
Proof.
  intros U H. unfold choose in H. destruct (existsb (fun v => less v 0) w) eqn:E; [discriminate |]. apply no_negative_spec in E. rewrite back_sum in H. destruct (less 0 (sum_of w)) eqn:S0; [| discriminate]. apply less_iff in S0. cbn [negb] in H.
  apply (with_some w inner r l r'); [split; assumption | exact U | exact H].
Qed.
Lemma choose_with_total inner w r : (inner <= length r)%nat -> valid w -> exists l r', choose true inner w r = Done (l, r') /\ (length r = inner + length r')%nat.
Proof.
  intros L [N S0]. unfold choose. rewrite (proj2 (no_negative_spec w) N), back_sum, (proj2 (less_iff _ _) S0). cbn [negb]. apply with_total. exact L.
Qed.
Lemma choose_with_refused inner w r : ~ valid w -> choose true inner w r = Refused.
Proof.
  intros V. unfold choose. destruct (existsb (fun v => less v 0) w) eqn:E; [reflexivity |]. apply no_negative_spec in E. rewrite back_sum. destruct (less 0 (sum_of w)) eqn:S0; [| reflexivity]. exfalso. apply V. split; [exact E | apply less_iff; exact S0].
Qed.

(** * Without replacement *)
Definition taken (l : list nat) (w : list Qc) : list Qc := fold_left (fun w i => take_out i w) l w.
Lemma take_out_length : forall w i, length (take_out i w) = length w.
Proof. induction w as [| v w IH]; intros [| i]; cbn; try rewrite IH; reflexivity. Qed.
Lemma take_out_nth : forall w i k, nth k (take_out i w) 0 = if Nat.eqb k i then 0 else nth k w 0.
Proof.
  induction w as [| v w IH]; intros i k.
  - destruct i, k; cbn; try destruct (Nat.eqb _ _); reflexivity.
  - destruct i as [| i], k as [| k]; cbn [take_out nth Nat.eqb]; try reflexivity. apply IH.
Qed.
Lemma taken_length : forall l w, length (taken l w) = length w.
Proof. induction l as [| i l IH]; intros w; [reflexivity |]. unfold taken in *. cbn [fold_left]. rewrite IH, take_out_length. reflexivity. Qed.
Lemma taken_nth : forall l w k, nth k (taken l w) 0 = if in_dec Nat.eq_dec k l then 0 else nth k w 0.
Proof.
  induction l as [| i l IH]; intros w k; [reflexivity |]. unfold taken in *. cbn [fold_left]. rewrite IH, take_out_nth.
  destruct (in_dec Nat.eq_dec k l) as [A | A], (in_dec Nat.eq_dec k (i :: l)) as [B | B]; try reflexivity.
  - exfalso. apply B. right. exact A.
  - destruct B as [-> | B]; [rewrite Nat.eqb_refl; reflexivity | contradiction].
  - destruct (Nat.eqb_spec k i) as [-> | ]; [exfalso; apply B; left; reflexivity | reflexivity].
Qed.
Lemma taken_left_over w l : taken l w = left_over w l.
Proof.
  apply nth_ext with (d := 0) (d' := 0); [rewrite taken_length; unfold left_over; rewrite map_length, seq_length; reflexivity |]. intros k K. rewrite taken_length in K. rewrite taken_nth. unfold left_over.
  set (f := fun k => if in_dec Nat.eq_dec k l then 0 else nth k w 0). rewrite (nth_indep (map f (seq 0 (length w))) 0 (f O)) by (rewrite map_length, seq_length; exact K). rewrite map_nth, seq_nth by exact K. reflexivity.
Qed.
Lemma taken_app a b w : taken (a ++ b) w = taken b (taken a w).
Proof. unfold taken. apply fold_left_app. Qed.

(** What a number finds among the sums of some weights. *)
Definition finds (w : list Qc) (c : Qc) (k : nat) : Prop := first_above (c * back (partial_sum 0 w)) (partial_sum 0 w) = Some k.
Lemma round_some w0 : forall need w r l w' r', one_round (partial_sum 0 w0) need w r = Done (l, w', r') ->
  exists used, r = used ++ r' /\ length used = need /\ (length l <= need)%nat /\ w' = taken l w /\ NoDup l /\ Forall (fun k => 0 < nth k w 0 /\ exists c, In c used /\ finds w0 c k) l.
Proof.
  induction need as [| need IH]; intros w r l w' r' H.
  - cbn in H. destruct r; injection H as <- <- <-; exists []; repeat split; try constructor.
  - destruct r as [| c r]; [discriminate |]. cbn [one_round] in H.
    assert (SKIP : one_round (partial_sum 0 w0) need w r = Done (l, w', r') -> exists used, c :: r = used ++ r' /\ length used = S need /\ (length l <= S need)%nat /\ w' = taken l w /\ NoDup l /\ Forall (fun k => 0 < nth k w 0 /\ exists c, In c used /\ finds w0 c k) l).
    { intros H'. destruct (IH w r l w' r' H') as (used & -> & L & B & W & D & F). exists (c :: used). split; [reflexivity |]. split; [cbn; rewrite L; reflexivity |]. split; [lia |]. split; [exact W |]. split; [exact D |].
      eapply Forall_impl; [| exact F]. intros k (P & c' & I & E). split; [exact P |]. exists c'. split; [right; exact I | exact E]. }
    destruct (first_above (c * back (partial_sum 0 w0)) (partial_sum 0 w0)) as [i |] eqn:E; [| exact (SKIP H)]. destruct (less 0 (nth i w 0)) eqn:P; [| exact (SKIP H)]. clear SKIP. apply less_iff in P.
    destruct (one_round (partial_sum 0 w0) need (take_out i w) r) as [[[l1 w1] r1] | |] eqn:R; cbn [andthen] in H; try discriminate. injection H as <- <- <-.
    destruct (IH _ _ _ _ _ R) as (used & -> & L & B & W & D & F). exists (c :: used). split; [reflexivity |]. split; [cbn; rewrite L; reflexivity |]. split; [cbn; lia |]. split; [exact W |].
    assert (G : forall k, In k l1 -> k <> i /\ 0 < nth k w 0).
    { intros k K. apply (proj1 (Forall_forall _ _) F) in K as (Pk & _). rewrite take_out_nth in Pk. destruct (Nat.eqb_spec k i) as [_ | NE]; [exfalso; exact (Qclt_not_eq _ _ Pk eq_refl) | split; assumption]. }
    split; [constructor; [intros K; apply G in K as [K _]; apply K; reflexivity | exact D] |]. constructor.
    + split; [exact P |]. exists c. split; [left; reflexivity | exact E].
    + apply Forall_forall. intros k K. split; [apply G; exact K |]. apply (proj1 (Forall_forall _ _) F) in K as (_ & c' & I & Ec). exists c'. split; [right; exact I | exact Ec].
Qed.
Lemma round_total w0 : forall need w r, (need <= length r)%nat -> exists l w' r', one_round w0 need w r = Done (l, w', r').
Proof.
  induction need as [| need IH]; intros w r L; [destruct r; do 3 eexists; reflexivity |]. destruct r as [| c r]; [cbn in L; lia |]. cbn in L. cbn [one_round].
  destruct (first_above (c * back w0) w0) as [i |]; [| apply IH; lia]. destruct (less 0 (nth i w 0)); [| apply IH; lia]. destruct (IH (take_out i w) r ltac:(lia)) as (l & w' & r' & E). rewrite E. do 3 eexists. reflexivity.
Qed.

Lemma without_some : forall fuel need w r l r', without_replacement fuel need w r = Done (l, r') ->
  exists used, r = used ++ r' /\ length l = need /\ NoDup l /\ (forall k, In k l -> 0 < nth k w 0) /\
  forall j, (j < need)%nat -> exists t c, (t <= j)%nat /\ In c used /\ finds (taken (firstn t l) w) c (nth j l 0%nat).
Proof.
  induction fuel as [| fuel IH]; intros need w r l r' H; (destruct need as [| need]; [cbn in H; injection H as <- <-; exists []; split; [reflexivity |]; split; [reflexivity |]; split; [constructor |]; split; [intros k []| intros j J; lia] |]); [discriminate |].
  cbn [without_replacement] in H. set (n := S need) in *. clearbody n. destruct (one_round (partial_sum 0 w) n w r) as [[[l1 w1] r1] | |] eqn:R; cbn [andthen] in H; try discriminate.
  destruct (without_replacement fuel (n - length l1) w1 r1) as [[l2 r2] | |] eqn:W; cbn [andthen] in H; try discriminate. injection H as <- <-.
  destruct (round_some _ _ _ _ _ _ _ R) as (u1 & -> & L1 & B1 & -> & D1 & F1). destruct (IH _ _ _ _ _ W) as (u2 & -> & L2 & D2 & P2 & J2).
  exists (u1 ++ u2). split; [rewrite app_assoc; reflexivity |]. split; [rewrite app_length; lia |].
  assert (P2' : forall k, In k l2 -> ~ In k l1 /\ 0 < nth k w 0).
  { intros k K. apply P2 in K. rewrite taken_nth in K. destruct (in_dec Nat.eq_dec k l1) as [I | I]; [exfalso; exact (Qclt_not_eq _ _ K eq_refl) | split; assumption]. }
  split; [| split].
  - clear - D1 D2 P2'. induction l1 as [| a l1 IH]; [exact D2 |]. inversion D1; subst. cbn. constructor; [| apply IH; [assumption | intros k K; apply P2' in K as [A B]; split; [intros I; apply A; right; exact I | exact B]]].
    rewrite in_app_iff. intros [I | I]; [contradiction |]. apply P2' in I as [I _]. apply I. left. reflexivity.
  - intros k K. apply in_app_iff in K as [K | K]; [apply (proj1 (Forall_forall _ _) F1) in K; apply K | apply P2'; exact K].
  - intros j J. destruct (Nat.lt_ge_cases j (length l1)) as [A | A].
    + assert (K : In (nth j l1 0%nat) l1) by (apply nth_In; exact A). apply (proj1 (Forall_forall _ _) F1) in K as (_ & c & I & E). exists 0%nat, c. split; [lia |]. split; [apply in_app_iff; left; exact I |]. rewrite app_nth1 by exact A. exact E.
    + destruct (J2 (j - length l1)%nat ltac:(lia)) as (t & c & T & I & E). exists (length l1 + t)%nat, c. split; [lia |]. split; [apply in_app_iff; right; exact I |].
      rewrite firstn_app_2, taken_app, app_nth2 by exact A. exact E.
Qed.

Lemma positives_filter w : length (filter (fun v => less 0 v) w) = positives w.
Proof. induction w as [| v w IH]; [reflexivity |]. cbn [filter positives]. unfold less at 1. destruct (Qclt_le_dec 0 v); cbn; rewrite IH; reflexivity. Qed.
Lemma positives_take : forall w i, 0 < nth i w 0 -> positives w = S (positives (take_out i w)).
Proof.
  induction w as [| v w IH]; intros i P; [destruct i; exfalso; exact (Qclt_not_eq _ _ P eq_refl) |]. destruct i as [| i]; cbn [take_out positives nth] in *.
  - destruct (Qclt_le_dec 0 v) as [A | A]; [| exfalso; exact (Qclt_not_le _ _ P A)]. destruct (Qclt_le_dec 0 0) as [B | B]; [exfalso; exact (Qclt_not_eq _ _ B eq_refl) | reflexivity].
  - destruct (Qclt_le_dec 0 v); rewrite (IH i P); reflexivity.
Qed.
Lemma positives_taken : forall l w, NoDup l -> (forall k, In k l -> 0 < nth k w 0) -> (positives w = length l + positives (taken l w))%nat.
Proof.
  induction l as [| i l IH]; intros w D P; [reflexivity |]. inversion D; subst. rewrite (positives_take w i) by (apply P; left; reflexivity). cbn [length]. unfold taken in *. cbn [fold_left]. rewrite Nat.add_succ_l. f_equal. apply IH; [assumption |].
  intros k K. rewrite take_out_nth. destruct (Nat.eqb_spec k i) as [-> |]; [contradiction |]. apply P. right. exact K.
Qed.
Lemma positives_sum w : no_negative w -> (0 < positives w)%nat -> 0 < sum_of w.
Proof.
  unfold no_negative. induction w as [| v w IH]; intros N P; [cbn in P; lia |]. inversion N as [| ? ? V N']; subst. cbn [positives] in P. pose proof (sum_nonneg w N') as S0. change (sum_of (v :: w)) with (v + sum_of w). destruct (Qclt_le_dec 0 v) as [A | A]; [qlra |]. specialize (IH N' P). qlra.
Qed.
Lemma taken_nonneg l w : no_negative w -> no_negative (taken l w).
Proof.
  intros N. apply Forall_forall. intros v V. apply (In_nth _ _ 0) in V as (k & _ & <-). rewrite taken_nth. destruct (in_dec Nat.eq_dec k l); [apply Qcle_refl | apply nonneg_nth; exact N].
Qed.
Lemma round_first w need c r l w' r' : no_negative w -> (0 < positives w)%nat -> unit_number c -> one_round (partial_sum 0 w) (S need) w (c :: r) = Done (l, w', r') -> exists k l', l = k :: l' /\ picks w c k.
Proof.
  intros N P U H. destruct (above_found w c (conj N (positives_sum w N P)) U) as (i & F). pose proof (above_picks w c i N (proj1 U) F) as PK. cbn [one_round] in H. rewrite back_sum, F in H. rewrite (proj2 (less_iff _ _) (picks_positive _ _ _ PK)) in H.
  destruct (one_round (partial_sum 0 w) need (take_out i w) r) as [[[l1 w1] r1] | |]; cbn [andthen] in H; try discriminate. injection H as <- _ _. exists i, l1. split; [reflexivity | exact PK].
Qed.
Lemma steps_mono a b : (a <= b)%nat -> (steps a <= steps b)%nat.
Proof. induction 1; cbn [steps]; lia. Qed.
Lemma without_total : forall need fuel w r, (need <= fuel)%nat -> no_negative w -> (need <= positives w)%nat -> Forall unit_number r -> (steps need <= length r)%nat ->
  exists l r', without_replacement fuel need w r = Done (l, r') /\ (length r <= steps need + length r')%nat.
Proof.
  induction need as [need IH] using (well_founded_induction lt_wf). intros fuel w r FU N P U L. destruct need as [| need]; [exists [], r; destruct fuel; split; try reflexivity; cbn; lia |].
  destruct fuel as [| fuel]; [lia |]. cbn [without_replacement]. cbn [steps] in L. destruct r as [| c r]; [cbn in L; lia |]. destruct (round_total (partial_sum 0 w) (S need) w (c :: r) ltac:(lia)) as (l & w' & r' & E).
  inversion U as [| ? ? U1 U2]; subst. destruct (round_first w need c r l w' r' N ltac:(lia) U1 E) as (k & l' & -> & _).
  destruct (round_some _ _ _ _ _ _ _ E) as (used & EQ & LU & BL & -> & D & F). rewrite E. cbn [andthen].
  assert (F' : forall k0, In k0 (k :: l') -> 0 < nth k0 w 0) by (intros k0 K; apply (proj1 (Forall_forall _ _) F) in K; apply K).
  pose proof (positives_taken _ _ D F') as PT. assert (LR : (length (c :: r) = S need + length r')%nat) by (rewrite EQ, app_length, LU; reflexivity).
  pose proof (steps_mono (S need - length (k :: l')) need ltac:(cbn; lia)) as SM.
  destruct (IH (S need - length (k :: l'))%nat ltac:(cbn; lia) fuel (taken (k :: l') w) r') as (l2 & r2 & E2 & L2); [cbn in *; lia | apply taken_nonneg; exact N | lia | | lia |].
  - rewrite EQ in U. apply Forall_app in U. apply U.
  - rewrite E2. cbn [andthen]. eexists _, r2. split; [reflexivity |]. cbn [steps]. lia.
Qed.

Lemma choose_without inner w r l r' : choose false inner w r = Done (l, r') ->
  exists used, r = used ++ r' /\ length l = inner /\ NoDup l /\ (forall k, In k l -> 0 < nth k w 0) /\
  forall j, (j < inner)%nat -> exists t c, (t <= j)%nat /\ In c used /\ finds (left_over w (firstn t l)) c (nth j l 0%nat).
Proof.
  intros H. unfold choose in H. destruct (Nat.ltb _ _); [discriminate |]. destruct (without_some _ _ _ _ _ _ H) as (used & E & L & D & P & J). exists used. split; [exact E |]. split; [exact L |]. split; [exact D |]. split; [exact P |].
  intros j B. destruct (J j B) as (t & c & T & I & F). exists t, c. split; [exact T |]. split; [exact I |]. rewrite <- taken_left_over. exact F.
Qed.
Lemma choose_without_total inner w r : no_negative w -> (inner <= positives w)%nat -> Forall unit_number r -> (steps inner <= length r)%nat ->
  exists l r', choose false inner w r = Done (l, r') /\ (length r <= steps inner + length r')%nat.
Proof.
  intros N P U L. unfold choose. rewrite positives_filter. destruct (Nat.ltb_spec (positives w) inner); [lia |]. apply without_total; auto. assert (inner <= steps inner)%nat by (clear; induction inner; cbn [steps]; lia). lia.
Qed.
Lemma choose_without_refused inner w r : choose false inner w r = Refused <-> (positives w < inner)%nat.
Proof.
  unfold choose. rewrite positives_filter. destruct (Nat.ltb_spec (positives w) inner) as [B | B]; split; intros H; try exact B; try reflexivity; [| lia]. exfalso. clear B. revert H. generalize (S (length r)) as fuel. intros fuel. revert inner w r.
  assert (R : forall w0 need w r, one_round w0 need w r <> Refused).
  { intros w0. induction need as [| need IH]; intros w r; [destruct r; discriminate |]. destruct r as [| c r]; [discriminate |]. cbn [one_round]. destruct (first_above (c * back w0) w0); [| apply IH]. destruct (less 0 (nth n w 0)); [| apply IH]. specialize (IH (take_out n w) r). destruct (one_round w0 need (take_out n w) r) as [[[? ?] ?] | |]; cbn; congruence. }
  induction fuel as [| fuel IH]; intros need w r; destruct need as [| need]; try discriminate. cbn [without_replacement]. specialize (R (partial_sum 0 w) (S need) w r). destruct (one_round (partial_sum 0 w) (S need) w r) as [[[l w1] r1] | |]; cbn [andthen]; try congruence.
  specialize (IH (S need - length l)%nat w1 r1). destruct (without_replacement fuel (S need - length l) w1 r1) as [[? ?] | |]; cbn [andthen]; congruence.
Qed.
(** The first number of a population decides the first sample. *)
Lemma choose_first inner w c r l r' : no_negative w -> unit_number c -> choose false (S inner) w (c :: r) = Done (l, r') -> picks w c (nth 0 l 0%nat).
Proof.
  intros N U H. unfold choose in H. rewrite positives_filter in H. destruct (Nat.ltb_spec (positives w) (S inner)) as [B | B]; [discriminate |]. cbn [without_replacement] in H.
  destruct (one_round (partial_sum 0 w) (S inner) w (c :: r)) as [[[l1 w1] r1] | |] eqn:E; cbn [andthen] in H; try discriminate. destruct (round_first w inner c r l1 w1 r1 N ltac:(lia) U E) as (k & l' & -> & P).
  destruct (without_replacement (length (c :: r)) (S inner - length (k :: l')) w1 r1) as [[m r2] | |]; cbn [andthen] in H; try discriminate. apply (f_equal (fun o => match o with Done (l, _) => l | _ => [] end)) in H. cbv beta iota in H. subst l. exact P.
Qed.
