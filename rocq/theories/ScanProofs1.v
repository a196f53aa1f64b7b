(** Loops over the lines of an array along an axis. *)
From Coq Require Import List ZArith Lia Bool QArith Qcanon.
From Verif Require Import NdModel NdSpec NdProofs IdxModel IdxSpec IdxProofs1 IdxProofs2 IdxProofs6 JoinModel JoinSpec JoinProofs JoinProofs2 ScanModel ScanSpec.
Import ListNotations.
Local Open Scope list_scope.
Local Open Scope Z_scope.

Definition qat (a : list Qc) (i : Z) : Qc := nth (Z.to_nat i) a 0%Qc.
Definition qlen (a : list Qc) : Z := Z.of_nat (length a).

Lemma get_ok a i : within (qlen a) i -> get a i = Some (qat a i).
Proof. unfold within, qlen, get, qat. intros H. destruct (Z.ltb_spec i 0); [lia|]. apply nth_error_nth'. lia. Qed.
Lemma put_nat_ok (a : list Qc) : forall i v, (i < length a)%nat -> exists r, put_nat a i v = Some r /\ length r = length a /\
  (forall j, nth j r 0%Qc = if Nat.eqb j i then v else nth j a 0%Qc) /\
  (forall u, qinner u r = qinner u a + nth i u 0 * (v - nth i a 0))%Qc.
Proof.
  induction a as [|x a IH]; intros i v H; cbn [length] in H; [lia|]. destruct i as [|i]; cbn [put_nat].
  - exists (v :: a). split; [auto|]. split; [reflexivity|]. split; [intros [|j]; reflexivity|].
    intros [|w u]; cbn [qinner nth]; ring.
  - destruct (IH i v) as (r & E & L & N & I); [lia|]. rewrite E. cbn [obind]. exists (x :: r). split; [auto|]. split; [cbn [length]; congruence|].
    split; [intros [|j]; [reflexivity|cbn [nth]; rewrite N; reflexivity]|].
    intros [|w u]; cbn [qinner nth]; [destruct i; ring|]. rewrite I. ring.
Qed.
Lemma put_ok a i v : within (qlen a) i -> exists r, put a i v = Some r /\ length r = length a /\
  (forall j, 0 <= j -> qat r j = if j =? i then v else qat a j) /\
  (forall u, qinner u r = qinner u a + qat u i * (v - qat a i))%Qc.
Proof.
  unfold within, qlen, put, qat. intros H. destruct (Z.ltb_spec i 0); [lia|].
  destruct (put_nat_ok a (Z.to_nat i) v) as (r & E & L & N & I); [lia|]. exists r. split; [auto|]. split; [auto|]. split; [|auto].
  intros j J. rewrite N. destruct (Nat.eqb_spec (Z.to_nat j) (Z.to_nat i)), (Z.eqb_spec j i); auto; lia.
Qed.
Lemma qat_ext a b : length a = length b -> (forall j, within (qlen a) j -> qat a j = qat b j) -> a = b.
Proof.
  intros L H. apply (nth_ext a b 0%Qc 0%Qc L). intros n Hn. specialize (H (Z.of_nat n)). unfold qat, within, qlen in H.
  rewrite Nat2Z.id in H. apply H. lia.
Qed.

Lemma loop_app {A S} (f : A -> S -> option S) a b : forall s, loop f (a ++ b) s = obind (loop f a s) (loop f b).
Proof. induction a as [|x a IH]; intros s; cbn [app loop]; [reflexivity|]. destruct (f x s); cbn [obind]; auto. Qed.
Lemma loop_ext {A S} (f g : A -> S -> option S) l : (forall a s, In a l -> f a s = g a s) -> forall s, loop f l s = loop g l s.
Proof.
  induction l as [|x l IH]; intros H s; cbn [loop]; [reflexivity|]. rewrite (H x s) by (left; auto). destruct (g x s); cbn [obind]; [|auto].
  apply IH. intros. apply H. right. auto.
Qed.
Lemma loop_flat {A B S} (f : B -> S -> option S) (h : A -> list B) l : forall s,
  loop (fun a => loop f (h a)) l s = loop f (flat_map h l) s.
Proof.
  induction l as [|x l IH]; intros s; cbn [flat_map loop]; [reflexivity|]. rewrite loop_app. destruct (loop f (h x) s); cbn [obind]; auto.
Qed.
Lemma loop_map {A B S} (f : B -> S -> option S) (h : A -> B) l : forall s, loop (fun a => f (h a)) l s = loop f (map h l) s.
Proof. induction l as [|x l IH]; intros s; cbn [map loop]; [reflexivity|]. destruct (f (h x) s); cbn [obind]; auto. Qed.
Lemma upto_S n : upto (Z.of_nat (S n)) = upto (Z.of_nat n) ++ [Z.of_nat n].
Proof. unfold upto. rewrite !Nat2Z.id, seq_S, map_app. reflexivity. Qed.

(** ** Lines *)
Section lines.
Variables size0 size1 size2 : Z.
Hypothesis H0 : 0 <= size0.
Hypothesis H1 : 0 <= size1.
Hypothesis H2 : 0 <= size2.
Let N := size0 * size1 * size2.
Definition onl (j q : Z) : Prop := exists k, 0 <= k < size1 /\ q = k * size2 + j.
Definition isline (j : Z) : Prop := exists o i, 0 <= o < size0 /\ 0 <= i < size2 /\ j = o * size1 * size2 + i.

Lemma onl_within j q : isline j -> onl j q -> within N q.
Proof. intros (o & i & Ho & Hi & ->) (k & Hk & ->). unfold within, N. split; [nia|].
  assert (E : k * size2 + (o * size1 * size2 + i) = (o * size1 + k) * size2 + i) by ring. rewrite E.
  assert (o * size1 + k <= size0 * size1 - 1) by nia. nia. Qed.
Lemma onl_disjoint j j' q : isline j -> isline j' -> onl j q -> onl j' q -> j = j'.
Proof.
  intros (o & i & Ho & Hi & ->) (o' & i' & Ho' & Hi' & ->) (k & Hk & ->) (k' & Hk' & E).
  assert (E' : (o * size1 + k) * size2 + i = (o' * size1 + k') * size2 + i') by (transitivity (k * size2 + (o * size1 * size2 + i)); [ring|rewrite E; ring]).
  destruct (split_pos size2 _ _ i i' Hi Hi' E') as (E1 & E2). destruct (split_pos size1 o o' k k' Hk Hk' E1) as (-> & _). subst. auto.
Qed.

Variable body : Z -> list Qc -> option (list Qc).
Variable V : Z -> Z -> Qc -> Qc.
Hypothesis body_ok : forall j y, isline j -> qlen y = N -> exists y', body j y = Some y' /\ length y' = length y /\
  (forall q, onl j q -> qat y' q = V j q (qat y q)) /\ (forall q, 0 <= q -> ~ onl j q -> qat y' q = qat y q).

Lemma lines_ok y : qlen y = N -> exists y', lines size0 size1 size2 body y = Some y' /\ length y' = length y /\
  forall j q, isline j -> onl j q -> qat y' q = V j q (qat y q).
Proof.
  intros L. unfold lines.
  assert (E : forall s, loop (fun i0 => loop (fun i2 => body (i0 * size1 * size2 + i2)) (upto size2)) (upto size0) s =
     loop body (flat_map (fun i0 => map (fun i2 => i0 * size1 * size2 + i2) (upto size2)) (upto size0)) s).
  { intros s. rewrite <- loop_flat. apply loop_ext. intros a s' _. apply (loop_map body (fun i2 => a * size1 * size2 + i2)). }
  rewrite E. set (js := flat_map _ _).
  assert (J : forall j, In j js <-> isline j).
  { intros j. unfold js. rewrite in_flat_map. split.
    - intros (o & Ho & H). apply in_map_iff in H. destruct H as (i & <- & Hi). apply upto_in in Ho, Hi. exists o, i. auto.
    - intros (o & i & Ho & Hi & ->). exists o. split; [apply upto_in; auto|]. apply in_map_iff. exists i. split; [auto|]. apply upto_in. auto. }
  assert (G : forall l y, (forall j, In j l -> isline j) -> (NoDup l \/ size1 <= 0) -> qlen y = N -> exists y', loop body l y = Some y' /\ length y' = length y /\
     (forall j q, In j l -> onl j q -> qat y' q = V j q (qat y q)) /\ (forall q, 0 <= q -> (forall j, In j l -> ~ onl j q) -> qat y' q = qat y q)).
  { clear y L E J js. induction l as [|j l IH]; intros y HJ ND L; cbn [loop].
    - exists y. split; [auto|]. split; [auto|]. split; [intros ? ? []|auto].
    - destruct (body_ok j y) as (y1 & E1 & L1 & A1 & B1); [apply HJ; left; auto|auto|]. rewrite E1. cbn [obind].
      destruct (IH y1) as (y2 & E2 & L2 & A2 & B2).
      { intros. apply HJ. right. auto. } { destruct ND as [ND|ND]; [left; inversion ND; auto|right; auto]. } { unfold qlen in *. rewrite L1. auto. }
      exists y2. split; [auto|]. split; [congruence|].
      assert (D : forall i q, onl i q -> In i l -> isline j -> onl j q -> False).
      { intros i q Hq Hi Jj Oj. destruct ND as [ND|ND].
        - inversion ND as [|? ? X ?]; subst. rewrite (onl_disjoint i j q) in Hi; auto. apply HJ. right. auto.
        - destruct Hq as (k & Hk & _). lia. }
      assert (Jj : isline j) by (apply HJ; left; auto).
      split.
      + intros i q [<-|Hi] Hq.
        * rewrite B2; [auto| |].
          { destruct (onl_within j q Jj Hq). auto. }
          { intros i Hi Oi. exact (D i q Oi Hi Jj Hq). }
        * rewrite (A2 i q Hi Hq). f_equal. apply B1.
          { destruct (onl_within i q (HJ i (or_intror Hi)) Hq). auto. }
          { intros Oj. exact (D i q Hq Hi Jj Oj). }
      + intros q Hq Hn. rewrite B2, B1; auto; intros; apply Hn; [left; auto|right; auto]. }
  destruct (G js y) as (y' & E' & L' & A & _); [apply J| |auto|].
  - destruct (Z.ltb_spec 0 size1); [left|right; lia]. unfold js. apply nodup_flat.
    + apply upto_nodup.
    + intros o _. apply nodup_map; [intros; lia|apply upto_nodup].
    + intros o o' j Ho Ho' Hj Hj'. apply in_map_iff in Hj, Hj'. destruct Hj as (i & <- & Hi), Hj' as (i' & E' & Hi'). apply upto_in in Hi, Hi', Ho, Ho'.
      assert (size2 <= size1 * size2) by nia. assert (E1 : o * (size1 * size2) + i = o' * (size1 * size2) + i') by (rewrite !Z.mul_assoc; lia).
      destruct (split_pos (size1 * size2) o o' i i') as (G1 & _); [lia|lia|exact E1|]. auto.
  - exists y'. split; [auto|]. split; [auto|]. intros j q Hj Hq. apply (A j q); [apply J|]; auto.
Qed.
End lines.

(** ** Sums and products *)
Lemma qsum_ext n f g : (forall i, 0 <= i < Z.of_nat n -> f i = g i) -> qsum n f = qsum n g.
Proof. induction n as [|n IH]; intros H; cbn [qsum]; [reflexivity|]. rewrite IH, H; [reflexivity|lia|]. intros. apply H. lia. Qed.
Lemma qprod_ext n f g : (forall i, 0 <= i < Z.of_nat n -> f i = g i) -> qprod n f = qprod n g.
Proof. induction n as [|n IH]; intros H; cbn [qprod]; [reflexivity|]. rewrite IH, H; [reflexivity|lia|]. intros. apply H. lia. Qed.
Lemma qsum_zero n f : (forall i, 0 <= i < Z.of_nat n -> f i = 0%Qc) -> qsum n f = 0%Qc.
Proof. induction n as [|n IH]; intros H; cbn [qsum]; [reflexivity|]. rewrite IH, H; [ring|lia|]. intros. apply H. lia. Qed.
Lemma qsum_scale n c f : qsum n (fun i => c * f i)%Qc = (c * qsum n f)%Qc.
Proof. induction n as [|n IH]; cbn [qsum]; [ring|]. rewrite IH. ring. Qed.
Lemma qsum_one n f g k v : 0 <= k < Z.of_nat n -> (forall i, 0 <= i < Z.of_nat n -> g i = f i + (if i =? k then v else 0))%Qc ->
  qsum n g = (qsum n f + v)%Qc.
Proof.
  induction n as [|n IH]; intros K H; [lia|]. cbn [qsum]. rewrite (H (Z.of_nat n)) by lia. destruct (Z.eqb_spec (Z.of_nat n) k).
  - rewrite (qsum_ext n g f); [ring|]. intros i I. rewrite H by lia. destruct (Z.eqb_spec i k); [lia|ring].
  - rewrite IH; [ring|lia|]. intros. apply H. lia.
Qed.
Lemma qprod_zero n f k : 0 <= k < Z.of_nat n -> f k = 0%Qc -> qprod n f = 0%Qc.
Proof.
  induction n as [|n IH]; intros K E; [lia|]. cbn [qprod]. destruct (Z.eq_dec k (Z.of_nat n)) as [->|]; [rewrite E; ring|]. rewrite IH; [ring|lia|auto].
Qed.
Definition but (k : Z) (v : Qc) (f : Z -> Qc) (i : Z) : Qc := if i =? k then v else f i.
Lemma qprod_but n f k v : 0 <= k < Z.of_nat n -> qprod n (but k v f) = (v * qprod n (but k 1 f))%Qc.
Proof.
  induction n as [|n IH]; intros K; [lia|]. cbn [qprod]. unfold but at 2 4. destruct (Z.eqb_spec (Z.of_nat n) k).
  - rewrite (qprod_ext n (but k v f) (but k 1 f)); [ring|]. intros i I. unfold but. destruct (Z.eqb_spec i k); [lia|auto].
  - rewrite IH by lia. ring.
Qed.
Lemma qprod_same n f k : qprod n f = qprod n (but k (f k) f).
Proof. apply qprod_ext. intros i _. unfold but. destruct (Z.eqb_spec i k); [subst|]; auto. Qed.
Lemma qprod_out n f k v : Z.of_nat n <= k -> qprod n (but k v f) = qprod n f.
Proof. intros H. apply qprod_ext. intros i I. unfold but. destruct (Z.eqb_spec i k); [lia|auto]. Qed.

(** ** Replacing one element *)
Lemma replaced_length x q t : (q < length x)%nat -> length (replaced x q t) = length x.
Proof. intros H. unfold replaced. rewrite app_length. cbn [length]. rewrite firstn_length, skipn_length. lia. Qed.
Lemma replaced_nth x q t j : (q < length x)%nat -> nth j (replaced x q t) 0%Qc = if Nat.eqb j q then t else nth j x 0%Qc.
Proof.
  unfold replaced. revert x j. induction q as [|q IH]; intros [|a x] j H; cbn [length] in H; try lia.
  - destruct j; reflexivity.
  - destruct j as [|j]; [reflexivity|]. cbn [firstn skipn app nth Nat.eqb]. apply IH. lia.
Qed.
Lemma replaced_qat x q t j : within (qlen x) q -> 0 <= j -> qat (replaced x (Z.to_nat q) t) j = if j =? q then t else qat x j.
Proof.
  unfold within, qlen, qat. intros H J. rewrite replaced_nth by lia.
  destruct (Nat.eqb_spec (Z.to_nat j) (Z.to_nat q)), (Z.eqb_spec j q); auto; lia.
Qed.

(** Two arrays that differ on few positions. *)
Lemma qinner_diff dy y y' n (P : Z -> Z) : length y = length y' ->
  (forall i, 0 <= i < Z.of_nat n -> within (qlen y) (P i)) ->
  (forall i k, 0 <= i < Z.of_nat n -> 0 <= k < Z.of_nat n -> P i = P k -> i = k) ->
  (forall q, 0 <= q -> (forall i, 0 <= i < Z.of_nat n -> q <> P i) -> qat y' q = qat y q) ->
  (qinner dy y' - qinner dy y = qsum n (fun i => qat dy (P i) * (qat y' (P i) - qat y (P i))))%Qc.
Proof.
  intros L W I U.
  assert (G : forall m, (m <= n)%nat -> exists z, length z = length y /\
     (qinner dy z = qinner dy y + qsum m (fun i => qat dy (P i) * (qat y' (P i) - qat y (P i))))%Qc /\
     (forall i, 0 <= i < Z.of_nat m -> qat z (P i) = qat y' (P i)) /\
     (forall q, 0 <= q -> (forall i, 0 <= i < Z.of_nat m -> q <> P i) -> qat z q = qat y q)).
  { induction m as [|m IH]; intros M.
    - exists y. split; [auto|]. split; [cbn [qsum]; ring|]. split; [lia|auto].
    - destruct IH as (z & Lz & S & A & B); [lia|]. destruct (put_ok z (P (Z.of_nat m)) (qat y' (P (Z.of_nat m)))) as (r & _ & Lr & N & Q).
      { unfold qlen. rewrite Lz. apply W. lia. }
      assert (Bm : qat z (P (Z.of_nat m)) = qat y (P (Z.of_nat m))).
      { apply B; [apply W; lia|]. intros i Hi E. apply I in E; lia. }
      exists r. split; [congruence|]. split; [|split].
      + rewrite Q, S, Bm. cbn [qsum]. ring.
      + intros i Hi. rewrite N by (apply W; lia). destruct (Z.eqb_spec (P i) (P (Z.of_nat m))) as [E|E]; [congruence|]. apply A.
        destruct (Z.eq_dec i (Z.of_nat m)) as [->|]; [tauto|lia].
      + intros q Hq D. rewrite N by auto. destruct (Z.eqb_spec q (P (Z.of_nat m))) as [->|E]; [exfalso; apply (D (Z.of_nat m)); [lia|auto]|]. apply B; [auto|].
        intros i Hi. apply D. lia. }
  destruct (G n) as (z & Lz & S & A & B); [lia|]. assert (z = y').
  { apply qat_ext; [congruence|]. intros q (Hq & Hq2).
    assert (C : (exists i, 0 <= i < Z.of_nat n /\ q = P i) \/ (forall i, 0 <= i < Z.of_nat n -> q <> P i)).
    { clear. induction n as [|n IH]; [right; lia|]. destruct IH as [(i & Hi & E)|IH]; [left; exists i; split; [lia|auto]|].
      destruct (Z.eq_dec q (P (Z.of_nat n))) as [E|E]; [left; exists (Z.of_nat n); split; [lia|auto]|right].
      intros i Hi. destruct (Z.eq_dec i (Z.of_nat n)) as [->|]; [auto|apply IH; lia]. }
    destruct C as [(i & Hi & ->)|C]; [apply A; auto|]. rewrite B, U; auto. }
  subst z. rewrite S. ring.
Qed.

(** ** Lines in the order of scanning *)
Definition spot (reverse : bool) (size1 size2 j k : Z) : Z := (if reverse then size1 - k - 1 else k) * size2 + j.
Lemma spot_inj reverse size1 size2 j i k : 0 < size2 -> spot reverse size1 size2 j i = spot reverse size1 size2 j k -> i = k.
Proof. unfold spot. destruct reverse; intros; nia. Qed.
Lemma spot_onl reverse size1 size2 j k : 0 <= k < size1 -> onl size1 size2 j (spot reverse size1 size2 j k).
Proof. intros H. unfold spot, onl. destruct reverse; [exists (size1 - k - 1)|exists k]; split; auto; lia. Qed.
Lemma onl_spot reverse size1 size2 j q : onl size1 size2 j q -> exists k, 0 <= k < size1 /\ q = spot reverse size1 size2 j k.
Proof.
  intros (k & Hk & ->). unfold spot. destruct reverse; [exists (size1 - k - 1)|exists k]; split; auto; [lia|].
  replace (size1 - (size1 - k - 1) - 1) with k by lia. auto.
Qed.
Definition unspot (reverse : bool) (size1 size2 j q : Z) : Z := let i := (q - j) / size2 in if reverse then size1 - i - 1 else i.
Lemma unspot_spot reverse size1 size2 j k : 0 < size2 -> unspot reverse size1 size2 j (spot reverse size1 size2 j k) = k.
Proof.
  intros H. unfold unspot, spot. rewrite Z.add_simpl_r, Z.div_mul by lia. destruct reverse; lia.
Qed.
Lemma isline_pos size0 size1 size2 j : isline size0 size1 size2 j -> 0 < size2.
Proof. intros (o & i & _ & Hi & _). lia. Qed.

Lemma scan_lines size0 size1 size2 reverse (body : Z -> list Qc -> option (list Qc)) (F : Z -> Z -> Qc -> Qc) :
  0 <= size0 -> 0 <= size1 -> 0 <= size2 ->
  (forall j y, isline size0 size1 size2 j -> qlen y = size0 * size1 * size2 -> exists y', body j y = Some y' /\ length y' = length y /\
    (forall k, 0 <= k < size1 -> qat y' (spot reverse size1 size2 j k) = F j k (qat y (spot reverse size1 size2 j k))) /\
    (forall q, 0 <= q -> (forall k, 0 <= k < size1 -> q <> spot reverse size1 size2 j k) -> qat y' q = qat y q)) ->
  forall y, qlen y = size0 * size1 * size2 -> exists y', lines size0 size1 size2 body y = Some y' /\ length y' = length y /\
    forall j k, isline size0 size1 size2 j -> 0 <= k < size1 ->
      qat y' (spot reverse size1 size2 j k) = F j k (qat y (spot reverse size1 size2 j k)).
Proof.
  intros P0 P1 P2 B y L.
  destruct (lines_ok size0 size1 size2 P0 P1 P2 body (fun j q old => F j (unspot reverse size1 size2 j q) old)) with (y := y) as (y' & E & L' & A); auto.
  - intros j z J Lz. destruct (B j z J Lz) as (z' & E & L' & A & U). pose proof (isline_pos _ _ _ _ J) as S2. exists z'. split; [auto|]. split; [auto|]. split.
    + intros q Q. destruct (onl_spot reverse _ _ _ _ Q) as (k & K & ->). rewrite unspot_spot by auto. apply A. auto.
    + intros q Q N. apply U; [auto|]. intros k K ->. apply N, spot_onl. auto.
  - exists y'. split; [auto|]. split; [auto|]. intros j k J K. rewrite (A j _ J (spot_onl reverse _ _ _ _ K)), unspot_spot; [auto|]. eapply isline_pos; eauto.
Qed.
(** Every position is on one line. *)
Lemma on_some_line size0 size1 size2 reverse q : 0 <= size0 -> 0 <= size1 -> 0 <= size2 -> within (size0 * size1 * size2) q ->
  exists j k, isline size0 size1 size2 j /\ 0 <= k < size1 /\ q = spot reverse size1 size2 j k.
Proof.
  intros P0 P1 P2 (Q & Q2). assert (0 < size0 * size1 * size2) by lia. assert (0 < size2) by nia. assert (0 < size1) by nia. assert (0 < size0) by nia.
  pose proof (Z.div_mod q size2 ltac:(lia)) as D1. pose proof (Z.mod_pos_bound q size2 ltac:(lia)) as B1.
  pose proof (Z.div_mod (q / size2) size1 ltac:(lia)) as D2. pose proof (Z.mod_pos_bound (q / size2) size1 ltac:(lia)) as B2.
  set (o := q / size2 / size1) in *. set (k := (q / size2) mod size1) in *. set (i := q mod size2) in *.
  assert (Bo : 0 <= o < size0).
  { unfold o. split; [apply Z.div_pos; [apply Z.div_pos|]; lia|]. apply Z.div_lt_upper_bound; [lia|]. apply Z.div_lt_upper_bound; [lia|].
    replace (size2 * (size1 * size0)) with (size0 * size1 * size2) by ring. auto. }
  assert (O : onl size1 size2 (o * size1 * size2 + i) q). { exists k. split; [auto|]. rewrite D1, D2. ring. }
  destruct (onl_spot reverse _ _ _ _ O) as (k' & K' & E). exists (o * size1 * size2 + i), k'. split; [exists o, i; auto|auto].
Qed.
