(** Cumulative sums and products of arrays with axes. *)
From Coq Require Import List ZArith Lia Bool QArith Qcanon.
From Verif Require Import NdModel NdSpec NdProofs IdxModel IdxSpec IdxProofs1 IdxProofs2 IdxProofs3 IdxProofs6 JoinModel JoinSpec JoinProofs JoinProofs2 ScanModel ScanSpec ScanProofs1 ScanProofs2 ScanProofs3.
Import ListNotations.
Local Open Scope list_scope.
Local Open Scope Z_scope.

Section big.
Variable op : Qc -> Qc -> Qc.
Variable unit : Qc.
Hypothesis op_unit : forall a, op unit a = a.
Hypothesis op_comm : forall a b, op a b = op b a.
Hypothesis op_assoc : forall a b c, op a (op b c) = op (op a b) c.
Notation bigo := (big op unit).
Lemma big_ext n f g : (forall i, 0 <= i < Z.of_nat n -> f i = g i) -> bigo n f = bigo n g.
Proof. induction n as [|n IH]; intros H; cbn [big]; [reflexivity|]. rewrite IH, H; [reflexivity|lia|]. intros. apply H. lia. Qed.
Lemma big_first n f : bigo (S n) f = op (f 0) (bigo n (fun i => f (i + 1))).
Proof.
  induction n as [|n IH]; [cbn [big]; change (Z.of_nat 0) with 0; apply op_comm|].
  change (bigo (S (S n)) f) with (op (bigo (S n) f) (f (Z.of_nat (S n)))). rewrite IH. cbn [big]. rewrite op_assoc. f_equal. f_equal. lia.
Qed.
Lemma big_rev n f : bigo n f = bigo n (fun i => f (Z.of_nat n - 1 - i)).
Proof.
  revert f. induction n as [|n IH]; intros f; [reflexivity|]. rewrite big_first. cbn [big]. rewrite op_comm. f_equal; [|f_equal; lia].
  rewrite IH. apply big_ext. intros. f_equal. lia.
Qed.
Lemma big_cut (m n : nat) (f : Z -> Qc) : (m <= n)%nat -> bigo m f = bigo n (fun i => if i <? Z.of_nat m then f i else unit).
Proof.
  intros H. induction n as [|n IH].
  - assert (m = 0%nat) by lia. subst. reflexivity.
  - destruct (Nat.eq_dec m (S n)) as [->|N].
    + apply big_ext. intros i Hi. destruct (Z.ltb_spec i (Z.of_nat (S n))); [auto|lia].
    + cbn [big]. rewrite <- IH by lia. destruct (Z.ltb_spec (Z.of_nat n) (Z.of_nat m)); [lia|]. rewrite op_comm. symmetry. apply op_unit.
Qed.
Lemma big_included (exclusive reverse : bool) (n k : Z) (f : Z -> Qc) : 0 <= k < n ->
  bigo (terms exclusive (if reverse then n - k - 1 else k)) (fun i => f (if reverse then n - i - 1 else i)) =
  bigo (Z.to_nat n) (fun i => if included exclusive reverse i k then f i else unit).
Proof.
  intros K. rewrite (big_cut _ (Z.to_nat n)) by (unfold terms; destruct exclusive, reverse; lia). destruct reverse.
  - rewrite big_rev. rewrite Z2Nat.id by lia. apply big_ext. intros i Hi. replace (n - (n - 1 - i) - 1) with i by lia. unfold terms, included.
    destruct exclusive; rewrite Z2Nat.id by lia.
    + destruct (Z.ltb_spec (n - 1 - i) (n - k - 1)), (Z.ltb_spec k i); auto; lia.
    + destruct (Z.ltb_spec (n - 1 - i) (n - k - 1 + 1)), (Z.leb_spec k i); auto; lia.
  - apply big_ext. intros i Hi. unfold terms, included. destruct exclusive; rewrite Z2Nat.id by lia; [auto|].
    destruct (Z.ltb_spec i (k + 1)), (Z.leb_spec i k); auto; lia.
Qed.
End big.

Lemma scan_setup_ok axis A n B : positive A -> 0 < n -> positive B -> denotes axis (length A) (length (A ++ n :: B)) ->
  scan_setup axis (A ++ n :: B) = Some (size A, n, size B).
Proof.
  intros PA Hn PB D. pose proof (size_pos A PA). pose proof (size_pos B PB). unfold scan_setup.
  assert (E : (if axis <? 0 then axis + Z.of_nat (length (A ++ n :: B)) else axis) = Z.of_nat (length A)).
  { unfold denotes in D. rewrite app_length in *. cbn [length] in *. destruct (Z.ltb_spec axis 0); lia. }
  rewrite E. destruct (Z.ltb_spec (Z.of_nat (length A)) 0); [lia|]. destruct (Z.leb_spec (Z.of_nat (length (A ++ n :: B))) (Z.of_nat (length A))) as [C|_].
  { rewrite app_length in C. cbn [length] in C. lia. }
  rewrite Nat2Z.id, size_from_0, size_from_app, size_app, nth_at. cbn [size].
  rewrite divide_mul by nia. cbn [obind]. rewrite (Z.mul_comm (size A)), divide_mul by lia. cbn [obind].
  rewrite (Z.mul_comm n), divide_mul by lia. reflexivity.
Qed.

(** The line of a prefix and a suffix. *)
Lemma line_of p A n r B : inside p A -> inside r B -> 0 < n -> isline (size A) n (size B) (off p A * n * size B + off r B).
Proof. intros Hp Hr Hn. exists (off p A), (off r B). split; [apply off_bound; auto|]. split; [apply off_bound; auto|auto]. Qed.
Lemma qelem_spot (reverse : bool) a p A k n r B : inside p A -> inside r B -> 0 <= k < n ->
  qelem a (A ++ n :: B) (p ++ k :: r) = qat a (spot reverse n (size B) (off p A * n * size B + off r B) (if reverse then n - k - 1 else k)).
Proof.
  intros Hp Hr K. unfold qelem, qat. do 2 f_equal. change (position 0 (p ++ k :: r) (A ++ n :: B)) with (position 0 (p ++ k :: r) (A ++ n :: B)).
  rewrite position_off by (apply Forall2_app; [auto|constructor; auto]). rewrite off_mid by (auto; constructor; auto).
  unfold spot. destruct reverse; [replace (n - (n - k - 1) - 1) with k by lia|]; ring.
Qed.

(** ** Derivatives *)
Lemma slopes_of op unit (op_unit : forall a, op unit a = a) exclusive reverse size0 size1 size2 (E : (Z -> Qc) -> Z -> Z -> Qc) x dy d :
  0 <= size0 -> 0 <= size1 -> 0 <= size2 -> qlen x = size0 * size1 * size2 ->
  (forall a k t i, 0 <= k -> 0 <= i -> (big op unit (terms exclusive i) (but k t a) - big op unit (terms exclusive i) a = (t - a k) * E a k i)%Qc) ->
  (forall j k, isline size0 size1 size2 j -> 0 <= k < size1 -> qat d (spot reverse size1 size2 j k) =
     qsum (Z.to_nat size1) (fun i => qat dy (spot reverse size1 size2 j i) * E (fun m => qat x (spot reverse size1 size2 j m)) k i)%Qc) ->
  slopes (size0 * size1 * size2) (fun x y => lines size0 size1 size2 (fun j => loop (gstep op unit exclusive reverse size1 size2 j x) (upto size1)) y) x dy d.
Proof.
  intros P0 P1 P2 Lx HE HD y0 Ly.
  destruct (gforward_ok op unit op_unit exclusive reverse size0 size1 size2 x y0) as (y & Ey & L & V); auto. exists y. split; [exact Ey|].
  intros q t Hq. set (x' := replaced x q t).
  assert (Lx' : qlen x' = size0 * size1 * size2). { unfold qlen in *. unfold x'. rewrite replaced_length by auto. auto. }
  destruct (gforward_ok op unit op_unit exclusive reverse size0 size1 size2 x' y0) as (y' & Ey' & L' & V'); auto. exists y'. split; [exact Ey'|].
  assert (Wq : within (qlen x) (Z.of_nat q)) by (unfold within, qlen; lia).
  destruct (on_some_line size0 size1 size2 reverse (Z.of_nat q)) as (j & k & J & K & Eq); auto; [rewrite <- Lx; auto|].
  pose proof (isline_pos _ _ _ _ J) as S2.
  assert (X : forall z, 0 <= z -> qat x' z = if z =? Z.of_nat q then t else qat x z).
  { intros z Hz. unfold x'. rewrite <- (Nat2Z.id q) at 1. apply replaced_qat; auto. }
  assert (W : forall j k, isline size0 size1 size2 j -> 0 <= k < size1 -> within (size0 * size1 * size2) (spot reverse size1 size2 j k)) by (intros; apply spot_within; auto).
  rewrite (qinner_diff dy y y' (Z.to_nat size1) (spot reverse size1 size2 j)).
  - change (nth q x 0%Qc) with (nth q x 0%Qc). rewrite <- (Nat2Z.id q). fold (qat x (Z.of_nat q)). fold (qat d (Z.of_nat q)). rewrite Eq, HD by auto.
    rewrite <- qsum_scale. apply qsum_ext. intros i Hi. rewrite V, V' by (auto; lia).
    rewrite (big_ext op unit _ (fun m => qat x' (spot reverse size1 size2 j m)) (but k t (fun m => qat x (spot reverse size1 size2 j m)))).
    + rewrite HE by lia. ring.
    + intros m Hm. assert (m < size1) by (unfold terms in Hm; destruct exclusive; lia). rewrite X by (apply W; auto; lia). unfold but. rewrite Eq.
      destruct (Z.eqb_spec (spot reverse size1 size2 j m) (spot reverse size1 size2 j k)) as [H1|H1], (Z.eqb_spec m k) as [H2|H2]; auto.
      * apply spot_inj in H1; auto. tauto.
      * subst. tauto.
  - congruence.
  - intros i Hi. unfold qlen in *. rewrite L, Ly. apply W; auto; lia.
  - intros i m _ _. apply spot_inj. auto.
  - intros z Hz N. destruct (Z.ltb_spec z (size0 * size1 * size2)) as [Hz2|Hz2].
    + destruct (on_some_line size0 size1 size2 reverse z) as (j' & k' & J' & K' & Ez); auto; [unfold within; lia|].
      assert (j' <> j). { intros ->. apply (N k'); [lia|auto]. }
      rewrite Ez, V, V' by auto. apply big_ext. intros m Hm. assert (m < size1) by (unfold terms in Hm; destruct exclusive; lia).
      rewrite X by (apply W; auto; lia). destruct (Z.eqb_spec (spot reverse size1 size2 j' m) (Z.of_nat q)) as [H1|H1]; [|auto]. exfalso.
      assert (j' = j); [|tauto]. apply (onl_disjoint size0 size1 size2 j' j (Z.of_nat q)); auto.
      { rewrite <- H1. apply spot_onl. lia. } { rewrite Eq. apply spot_onl. auto. }
    + unfold qat. rewrite !nth_overflow; auto; unfold qlen in *; lia.
Qed.

Lemma derivative_of N fwd (bwd : bool -> list Qc -> list Qc -> list Qc -> option (list Qc)) x (D : list Qc -> Z -> Qc) :
  (forall accum dy dx0, qlen x = N -> qlen dy = N -> qlen dx0 = N -> exists dx, bwd accum x dy dx0 = Some dx /\ length dx = length dx0 /\
    (forall q, within N q -> qat dx q = (if accum then qat dx0 q else 0) + D dy q)%Qc) ->
  (forall dy d, qlen x = N -> qlen dy = N -> (forall q, within N q -> qat d q = D dy q) -> slopes N fwd x dy d) ->
  derivative N N fwd bwd x.
Proof.
  intros HB HS accum dy dx0 Lx Ly L0. destruct (HB accum dy dx0) as (dx & E & L & V); auto.
  set (d := map (fun q => D dy q) (upto N)). exists dx, d. split; [auto|]. split; [auto|].
  assert (Vd : forall q, within N q -> qat d q = D dy q).
  { intros q (Q & Q2). unfold qat, d. rewrite (nth_indep _ 0%Qc (D dy 0)).
    - rewrite (map_nth (fun q => D dy q)). unfold upto. rewrite (nth_indep _ 0 (Z.of_nat 0)) by (rewrite map_length, seq_length; lia).
      rewrite map_nth, seq_nth by lia. f_equal. lia.
    - unfold upto. rewrite !map_length, seq_length. lia. }
  split; [apply HS; auto|]. intros q Q. specialize (V (Z.of_nat q)). specialize (Vd (Z.of_nat q)). unfold qat, within in V, Vd. rewrite Nat2Z.id in V, Vd. rewrite V, Vd by lia. auto.
Qed.
Lemma derivative_lines (reverse : bool) size0 size1 size2 fwd (bwd : bool -> list Qc -> list Qc -> list Qc -> option (list Qc)) x (D : list Qc -> Z -> Z -> Qc) :
  0 <= size0 -> 0 <= size1 -> 0 <= size2 ->
  (forall accum dy dx0, qlen x = size0 * size1 * size2 -> qlen dy = size0 * size1 * size2 -> qlen dx0 = size0 * size1 * size2 ->
    exists dx, bwd accum x dy dx0 = Some dx /\ length dx = length dx0 /\
    (forall j k, isline size0 size1 size2 j -> 0 <= k < size1 ->
      qat dx (spot reverse size1 size2 j k) = (if accum then qat dx0 (spot reverse size1 size2 j k) else 0) + D dy j k)%Qc) ->
  (forall dy d, qlen x = size0 * size1 * size2 -> qlen dy = size0 * size1 * size2 ->
    (forall j k, isline size0 size1 size2 j -> 0 <= k < size1 -> qat d (spot reverse size1 size2 j k) = D dy j k) -> slopes (size0 * size1 * size2) fwd x dy d) ->
  derivative (size0 * size1 * size2) (size0 * size1 * size2) fwd bwd x.
Proof.
  intros P0 P1 P2 HB HS. set (N := size0 * size1 * size2) in *.
  assert (HN : 0 <= N) by (unfold N; nia).
  set (z := repeat 0%Qc (Z.to_nat N)). assert (Lz : qlen z = N) by (unfold qlen, z; rewrite repeat_length; lia).
  apply (derivative_of N fwd bwd x (fun dy q => match bwd false x dy z with Some dx => qat dx q | None => 0%Qc end)).
  - intros accum dy dx0 Lx Ly L0. destruct (HB accum dy dx0) as (dx & E & L & V); auto. destruct (HB false dy z) as (dz & Ez & _ & Vz); auto. rewrite Ez.
    exists dx. split; [auto|]. split; [auto|]. intros q Q. destruct (on_some_line size0 size1 size2 reverse q) as (j & k & J & K & ->); auto.
    rewrite V, Vz by auto. ring.
  - intros dy d Lx Ly Vd. apply HS; auto. intros j k J K. rewrite Vd by (apply spot_within; auto).
    destruct (HB false dy z) as (dz & Ez & _ & Vz); auto. rewrite Ez, Vz by auto. ring.
Qed.

Lemma cumsum_back_ok (exclusive reverse accum : bool) size0 size1 size2 dy dx : 0 <= size0 -> 0 <= size1 -> 0 <= size2 ->
  qlen dy = size0 * size1 * size2 -> qlen dx = size0 * size1 * size2 ->
  exists dx', lines size0 size1 size2 (fun j dx =>
    obind (loop (cumsum_back exclusive reverse accum size1 size2 j dy) (upto size1) (0%Qc, dx)) (fun s => Some (snd s))) dx = Some dx' /\ length dx' = length dx /\
    forall j k, isline size0 size1 size2 j -> 0 <= k < size1 -> qat dx' (spot reverse size1 size2 j k) =
     ((if accum then qat dx (spot reverse size1 size2 j k) else 0) +
      qsum (Z.to_nat size1) (fun i => if counts exclusive k i then qat dy (spot reverse size1 size2 j i) else 0))%Qc.
Proof.
  intros P0 P1 P2 Ly Lx.
  apply (scan_lines size0 size1 size2 reverse _ (fun j k old => ((if accum then old else 0) +
      qsum (Z.to_nat size1) (fun i => if counts exclusive k i then qat dy (spot reverse size1 size2 j i) else 0))%Qc)); auto.
  intros j z J Lz. destruct (cumsum_back_line exclusive reverse accum size0 size1 size2 j dy z P0 P1 P2 J Ly Lz (Z.to_nat size1)) as (z' & E & L & A & B); [lia|].
  rewrite Z2Nat.id in E, A, B by auto. rewrite E. cbn [obind snd]. exists z'. split; [auto|]. split; [auto|]. split.
  - intros k K. apply A. lia.
  - intros q Q H. apply B; [auto|]. intros k K. apply H. lia.
Qed.
Lemma cumprod_back_ok (exclusive reverse accum : bool) size0 size1 size2 x dy dx : 0 <= size0 -> 0 <= size1 -> 0 <= size2 ->
  qlen x = size0 * size1 * size2 -> qlen dy = size0 * size1 * size2 -> qlen dx = size0 * size1 * size2 ->
  exists dx', lines size0 size1 size2 (fun j dx =>
    obind (loop (mask_step reverse size1 size2 j x) (upto size1) (size1, 1%Qc, [])) (fun '(first_zero, _, masked) =>
    obind (loop (cumprod_back exclusive reverse accum size1 size2 j x dy masked first_zero) (rev (upto size1)) (0%Qc, dx)) (fun s =>
    Some (snd s)))) dx = Some dx' /\ length dx' = length dx /\
    forall j k, isline size0 size1 size2 j -> 0 <= k < size1 -> qat dx' (spot reverse size1 size2 j k) =
     ((if accum then qat dx (spot reverse size1 size2 j k) else 0) +
      prod_slope exclusive (Z.to_nat size1) (fun i => qat x (spot reverse size1 size2 j i)) (fun i => qat dy (spot reverse size1 size2 j i)) k)%Qc.
Proof.
  intros P0 P1 P2 Lx Ly Ld.
  apply (scan_lines size0 size1 size2 reverse _ (fun j k old => ((if accum then old else 0) +
      prod_slope exclusive (Z.to_nat size1) (fun i => qat x (spot reverse size1 size2 j i)) (fun i => qat dy (spot reverse size1 size2 j i)) k)%Qc)); auto.
  intros j z J Lz. destruct (mask_line reverse size0 size1 size2 j x P0 P1 P2 J Lx (Z.to_nat size1)) as (fz & masked & E & F & L & A); [lia|].
  rewrite Z2Nat.id in E, F, L, A by auto. rewrite E. cbn [obind].
  destruct (grad_line exclusive reverse accum size0 size1 size2 j x dy masked fz P0 P1 P2 J Lx Ly F L A (Z.to_nat size1) 0%Qc z) as (s & z' & E' & L' & A' & B'); auto; [lia| |].
  - right. rewrite Z2Nat.id by auto. apply grad_start. auto.
  - rewrite Z2Nat.id in E', A', B' by auto. rewrite E'. cbn [obind snd]. exists z'. auto.
Qed.

Section shape.
Variables (A B : list Z) (n : Z).
Hypothesis PA : positive A.
Hypothesis Hn : 0 < n.
Hypothesis PB : positive B.
Notation sh := (A ++ n :: B).

Lemma size_sh : size sh = size A * n * size B.
Proof. rewrite size_app. cbn [size]. ring. Qed.
Lemma cumsum_forward_ok axis exclusive reverse x y0 : denotes axis (length A) (length sh) -> qlen x = size sh -> qlen y0 = size sh ->
  exists y, cumsum_forward axis exclusive reverse sh x y0 = Some y /\ length y = length y0 /\
  forall p k r, inside p A -> 0 <= k < n -> inside r B -> qelem y sh (p ++ k :: r) =
    qsum (Z.to_nat n) (fun i => if included exclusive reverse i k then qelem x sh (p ++ i :: r) else 0%Qc).
Proof.
  intros D Lx Ly. rewrite size_sh in *. pose proof (size_pos A PA). pose proof (size_pos B PB). unfold cumsum_forward. rewrite scan_setup_ok by auto. cbn [obind].
  destruct (gforward_ok Qcplus 0%Qc Qcplus_0_l exclusive reverse (size A) n (size B) x y0) as (y & E & L & V); auto; try lia.
  exists y. split; [exact E|]. split; [auto|]. intros p k r Hp K Hr. rewrite (qelem_spot reverse) by auto.
  rewrite V by (auto using line_of; destruct reverse; lia). symmetry; rewrite <- (big_sum (Z.to_nat n)); symmetry.
  rewrite <- (big_included Qcplus 0%Qc Qcplus_0_l Qcplus_comm Qcplus_assoc exclusive reverse n k (fun i => qelem x sh (p ++ i :: r)) K).
  apply big_ext. intros i Hi. rewrite (qelem_spot reverse) by (auto; unfold terms in Hi; destruct exclusive, reverse; lia).
  do 2 f_equal. destruct reverse; lia.
Qed.
Lemma cumprod_forward_ok axis exclusive reverse x y0 : denotes axis (length A) (length sh) -> qlen x = size sh -> qlen y0 = size sh ->
  exists y, cumprod_forward axis exclusive reverse sh x y0 = Some y /\ length y = length y0 /\
  forall p k r, inside p A -> 0 <= k < n -> inside r B -> qelem y sh (p ++ k :: r) =
    qprod (Z.to_nat n) (fun i => if included exclusive reverse i k then qelem x sh (p ++ i :: r) else 1%Qc).
Proof.
  intros D Lx Ly. rewrite size_sh in *. pose proof (size_pos A PA). pose proof (size_pos B PB). unfold cumprod_forward. rewrite scan_setup_ok by auto. cbn [obind].
  destruct (gforward_ok Qcmult 1%Qc Qcmult_1_l exclusive reverse (size A) n (size B) x y0) as (y & E & L & V); auto; try lia.
  exists y. split; [exact E|]. split; [auto|]. intros p k r Hp K Hr. rewrite (qelem_spot reverse) by auto.
  rewrite V by (auto using line_of; destruct reverse; lia). symmetry; rewrite <- (big_prod (Z.to_nat n)); symmetry.
  rewrite <- (big_included Qcmult 1%Qc Qcmult_1_l Qcmult_comm Qcmult_assoc exclusive reverse n k (fun i => qelem x sh (p ++ i :: r)) K).
  apply big_ext. intros i Hi. rewrite (qelem_spot reverse) by (auto; unfold terms in Hi; destruct exclusive, reverse; lia).
  do 2 f_equal. destruct reverse; lia.
Qed.
Lemma terms_counts exclusive k i : 0 <= i -> counts exclusive k i = (k <? Z.of_nat (terms exclusive i)).
Proof. intros H. unfold counts, terms. rewrite Z2Nat.id by (destruct exclusive; lia). auto. Qed.

Lemma cumsum_derivative axis exclusive reverse x : denotes axis (length A) (length sh) ->
  derivative (size sh) (size sh) (cumsum_forward axis exclusive reverse sh) (fun accum _ => cumsum_backward axis exclusive reverse sh accum) x.
Proof.
  intros D. rewrite size_sh. pose proof (size_pos A PA). pose proof (size_pos B PB). unfold cumsum_forward, cumsum_backward. rewrite scan_setup_ok by auto. cbn [obind].
  apply (derivative_lines reverse _ _ _ _ _ _ (fun dy j k => qsum (Z.to_nat n) (fun i => if counts exclusive k i then qat dy (spot reverse n (size B) j i) else 0%Qc))); try lia.
  - intros accum dy dx0 _ Ly L0. apply cumsum_back_ok; auto; lia.
  - intros dy d Lx Ly V. apply (slopes_of Qcplus 0%Qc Qcplus_0_l exclusive reverse (size A) n (size B) (fun _ k i => if counts exclusive k i then 1%Qc else 0%Qc) x dy d); auto; try lia.
    + intros a k t i K Hi. rewrite (big_sum _ (but k t a)), (big_sum _ a), terms_counts by auto. generalize (terms exclusive i). intros m.
      destruct (Z.ltb_spec k (Z.of_nat m)).
      * rewrite (qsum_one m a (but k t a) k (t - a k)%Qc); [ring|lia|]. intros u Hu. unfold but. destruct (Z.eqb_spec u k); [subst|]; ring.
      * rewrite (qsum_ext m (but k t a) a); [ring|]. intros u Hu. unfold but. destruct (Z.eqb_spec u k); [lia|auto].
    + intros j k J K. rewrite V by auto. apply qsum_ext. intros i Hi. destruct (counts exclusive k i); ring.
Qed.
Lemma cumprod_derivative axis exclusive reverse x : denotes axis (length A) (length sh) ->
  derivative (size sh) (size sh) (cumprod_forward axis exclusive reverse sh) (cumprod_backward axis exclusive reverse sh) x.
Proof.
  intros D. rewrite size_sh. pose proof (size_pos A PA). pose proof (size_pos B PB). unfold cumprod_forward, cumprod_backward. rewrite scan_setup_ok by auto. cbn [obind].
  apply (derivative_lines reverse _ _ _ _ _ _ (fun dy j k => prod_slope exclusive (Z.to_nat n) (fun i => qat x (spot reverse n (size B) j i)) (fun i => qat dy (spot reverse n (size B) j i)) k)); try lia.
  - intros accum dy dx0 Lx Ly L0. apply cumprod_back_ok; auto; lia.
  - intros dy d Lx Ly V. apply (slopes_of Qcmult 1%Qc Qcmult_1_l exclusive reverse (size A) n (size B) (fun a k i => if counts exclusive k i then qprod (terms exclusive i) (but k 1%Qc a) else 0%Qc) x dy d); auto; try lia.
    + intros a k t i K Hi. rewrite (big_prod _ (but k t a)), (big_prod _ a), terms_counts by auto. generalize (terms exclusive i). intros m.
      destruct (Z.ltb_spec k (Z.of_nat m)).
      * rewrite (qprod_but m a k t) by lia. rewrite (qprod_same m a k), (qprod_but m a k (a k)) by lia.
        assert (U : forall v, qprod m (but k v (but k (a k) a)) = qprod m (but k v a)). { intros v. apply qprod_ext. intros u _. unfold but. destruct (u =? k); auto. } ring.
      * rewrite qprod_out by lia. ring.
    + intros j k J K. rewrite V by auto. unfold prod_slope. apply qsum_ext. intros i Hi. destruct (counts exclusive k i); ring.
Qed.
End shape.
