(** Cumulative sums and products on one line. *)
From Coq Require Import List ZArith Lia Bool QArith Qcanon.
From Verif Require Import NdModel NdSpec NdProofs IdxModel IdxSpec IdxProofs1 IdxProofs2 IdxProofs6 JoinModel JoinSpec JoinProofs JoinProofs2 ScanModel ScanSpec ScanProofs1.
Import ListNotations.
Local Open Scope list_scope.
Local Open Scope Z_scope.

Lemma spot_within size0 size1 size2 reverse j k : 0 <= size0 -> 0 <= size1 -> 0 <= size2 -> isline size0 size1 size2 j -> 0 <= k < size1 ->
  within (size0 * size1 * size2) (spot reverse size1 size2 j k).
Proof. intros P0 P1 P2 J K. eapply onl_within; eauto. apply spot_onl. auto. Qed.

(** The number of elements in the sum or product at position [k] of the scan. *)
Definition terms (exclusive : bool) (k : Z) : nat := Z.to_nat (if exclusive then k else k + 1).

Section forward.
Variable op : Qc -> Qc -> Qc.
Variable unit : Qc.
Hypothesis op_unit : forall a, op unit a = a.
Fixpoint big (n : nat) (f : Z -> Qc) : Qc := match n with O => unit | S n => op (big n f) (f (Z.of_nat n)) end.
Definition gstep (exclusive reverse : bool) (size1 size2 j : Z) (x : list Qc) (idx : Z) (y : list Qc) : option (list Qc) :=
  let i1 := if reverse then size1 - idx - 1 else idx in
  let yk := i1 * size2 + j in
  if idx =? 0 then
    obind (if exclusive then Some unit else get x yk) (fun v => put y yk v)
  else
    let d := if reverse then -1 else 1 in
    let prev := yk - d * size2 in
    let xk := if exclusive then prev else yk in
    obind (get y prev) (fun a => obind (get x xk) (fun b => put y yk (op a b))).

Lemma gstep_line exclusive reverse size0 size1 size2 j x y : 0 <= size0 -> 0 <= size1 -> 0 <= size2 -> isline size0 size1 size2 j ->
  qlen x = size0 * size1 * size2 -> qlen y = size0 * size1 * size2 ->
  forall m, Z.of_nat m <= size1 -> exists y', loop (gstep exclusive reverse size1 size2 j x) (upto (Z.of_nat m)) y = Some y' /\ length y' = length y /\
    (forall k, 0 <= k < Z.of_nat m -> qat y' (spot reverse size1 size2 j k) = big (terms exclusive k) (fun i => qat x (spot reverse size1 size2 j i))) /\
    (forall q, 0 <= q -> (forall k, 0 <= k < Z.of_nat m -> q <> spot reverse size1 size2 j k) -> qat y' q = qat y q).
Proof.
  intros P0 P1 P2 J Lx Ly. set (P := spot reverse size1 size2 j).
  assert (W : forall k, 0 <= k < size1 -> within (size0 * size1 * size2) (P k)) by (intros; apply spot_within; auto).
  assert (I : forall a b, P a = P b -> a = b) by (intros a b; apply spot_inj; eapply isline_pos; eauto).
  induction m as [|m IH]; intros M.
  - exists y. split; [reflexivity|]. split; [auto|]. split; [lia|auto].
  - destruct IH as (z & E & Lz & A & B); [lia|]. rewrite upto_S, loop_app, E. cbn [obind loop].
    assert (Wm : within (qlen z) (P (Z.of_nat m))). { unfold qlen in *. rewrite Lz, Ly. apply W. lia. }
    assert (R : exists r, gstep exclusive reverse size1 size2 j x (Z.of_nat m) z = put z (P (Z.of_nat m)) r /\
       r = big (terms exclusive (Z.of_nat m)) (fun i => qat x (P i))).
    { unfold gstep. fold (spot reverse size1 size2 j (Z.of_nat m)). fold P. destruct (Z.eqb_spec (Z.of_nat m) 0) as [Z0|Z0].
      - assert (m = 0%nat) by lia. subst m. unfold terms. destruct exclusive; cbn [obind].
        + exists unit. split; auto.
        + rewrite get_ok by (rewrite Lx; apply W; lia). cbn [obind]. eexists. split; [reflexivity|]. change (Z.to_nat (Z.of_nat 0 + 1)) with 1%nat. cbn [big]. rewrite op_unit. auto.
      - assert (Pr : P (Z.of_nat m) - (if reverse then -1 else 1) * size2 = P (Z.of_nat m - 1)).
        { unfold P, spot. destruct reverse; ring. }
        rewrite Pr, get_ok by (unfold qlen in *; rewrite Lz, Ly; apply W; lia). cbn [obind].
        rewrite get_ok by (rewrite Lx; destruct exclusive; apply W; lia). cbn [obind]. eexists. split; [reflexivity|].
        rewrite A by lia. unfold terms. destruct exclusive.
        + replace (Z.to_nat (Z.of_nat m)) with (S (Z.to_nat (Z.of_nat m - 1))) by lia. cbn [big]. repeat f_equal; lia.
        + replace (Z.to_nat (Z.of_nat m + 1)) with (S (Z.to_nat (Z.of_nat m - 1 + 1))) by lia. cbn [big]. repeat f_equal; lia. }
    destruct R as (r & Er & Vr). rewrite Er. destruct (put_ok z (P (Z.of_nat m)) r Wm) as (y' & Ey & L' & N & _). rewrite Ey. cbn [obind].
    exists y'. split; [auto|]. split; [congruence|]. split.
    + intros k K. fold (P k). rewrite N by (apply W; lia). destruct (Z.eqb_spec (P k) (P (Z.of_nat m))) as [H|H].
      * apply I in H. subst k. auto.
      * apply A. destruct (Z.eq_dec k (Z.of_nat m)) as [->|]; [tauto|lia].
    + intros q Q D. rewrite N by auto. destruct (Z.eqb_spec q (P (Z.of_nat m))) as [->|]; [exfalso; apply (D (Z.of_nat m)); [lia|auto]|].
      apply B; [auto|]. intros k K. apply D. lia.
Qed.

Lemma gforward_ok exclusive reverse size0 size1 size2 x y : 0 <= size0 -> 0 <= size1 -> 0 <= size2 ->
  qlen x = size0 * size1 * size2 -> qlen y = size0 * size1 * size2 ->
  exists y', lines size0 size1 size2 (fun j => loop (gstep exclusive reverse size1 size2 j x) (upto size1)) y = Some y' /\ length y' = length y /\
    forall j k, isline size0 size1 size2 j -> 0 <= k < size1 ->
      qat y' (spot reverse size1 size2 j k) = big (terms exclusive k) (fun i => qat x (spot reverse size1 size2 j i)).
Proof.
  intros P0 P1 P2 Lx Ly.
  apply (scan_lines size0 size1 size2 reverse _ (fun j k _ => big (terms exclusive k) (fun i => qat x (spot reverse size1 size2 j i)))); auto.
  intros j z J Lz. pose proof (gstep_line exclusive reverse size0 size1 size2 j x z P0 P1 P2 J Lx Lz (Z.to_nat size1)) as G.
  rewrite !Z2Nat.id in G by auto. apply G. lia.
Qed.
End forward.

Lemma big_sum n f : big Qcplus 0 n f = qsum n f.
Proof. induction n as [|n IH]; cbn [big qsum]; [reflexivity|]. rewrite IH. auto. Qed.
Lemma big_prod n f : big Qcmult 1 n f = qprod n f.
Proof. induction n as [|n IH]; cbn [big qprod]; [reflexivity|]. rewrite IH. auto. Qed.

(** ** Gradient of the cumulative sum on a line *)
Definition counts (exclusive : bool) (k i : Z) : bool := k <? (if exclusive then i else i + 1).

Lemma cumsum_back_line exclusive reverse accum size0 size1 size2 j dy dx : 0 <= size0 -> 0 <= size1 -> 0 <= size2 -> isline size0 size1 size2 j ->
  qlen dy = size0 * size1 * size2 -> qlen dx = size0 * size1 * size2 ->
  let P := spot reverse size1 size2 j in
  forall m, Z.of_nat m <= size1 -> exists dx', 
    loop (cumsum_back exclusive reverse accum size1 size2 j dy) (upto (Z.of_nat m)) (0%Qc, dx) =
      Some (qsum (Z.to_nat size1) (fun i => if size1 - Z.of_nat m <=? i then qat dy (P i) else 0%Qc), dx') /\ length dx' = length dx /\
    (forall k, size1 - Z.of_nat m <= k < size1 -> qat dx' (P k) =
       (if accum then qat dx (P k) else 0) + qsum (Z.to_nat size1) (fun i => if counts exclusive k i then qat dy (P i) else 0))%Qc /\
    (forall q, 0 <= q -> (forall k, size1 - Z.of_nat m <= k < size1 -> q <> P k) -> qat dx' q = qat dx q).
Proof.
  intros P0 P1 P2 J Ly Lx P.
  assert (W : forall k, 0 <= k < size1 -> within (size0 * size1 * size2) (P k)) by (intros; apply spot_within; auto).
  assert (I : forall a b, P a = P b -> a = b) by (intros a b; apply spot_inj; eapply isline_pos; eauto).
  induction m as [|m IH]; intros M.
  - exists dx. cbn [loop]. split.
    { change (upto (Z.of_nat 0)) with (@nil Z). cbn [loop]. do 2 f_equal. symmetry. apply qsum_zero. intros i Hi. destruct (Z.leb_spec (size1 - Z.of_nat 0) i); [lia|auto]. }
    split; [auto|]. split; [lia|auto].
  - destruct IH as (z & E & Lz & A & B); [lia|]. rewrite upto_S, loop_app, E. cbn [obind loop].
    set (k := size1 - Z.of_nat m - 1). assert (K : 0 <= k < size1) by lia.
    assert (Pm : (if reverse then Z.of_nat m else size1 - Z.of_nat m - 1) * size2 + j = P k).
    { unfold P, spot, k. destruct reverse; [replace (size1 - (size1 - Z.of_nat m - 1) - 1) with (Z.of_nat m) by lia|]; auto. }
    unfold cumsum_back at 1. rewrite Pm, get_ok by (rewrite Ly; apply W; auto). cbn [obind].
    assert (Wz : within (qlen z) (P k)). { unfold qlen in *. rewrite Lz, Lx. apply W. auto. }
    rewrite get_ok by auto. cbn [obind].
    assert (Zk : qat z (P k) = qat dx (P k)). { apply B; [apply W; auto|]. intros i Hi H. apply I in H. lia. }
    set (s := qsum (Z.to_nat size1) (fun i => if size1 - Z.of_nat m <=? i then qat dy (P i) else 0%Qc)).
    assert (S1 : (s + qat dy (P k))%Qc = qsum (Z.to_nat size1) (fun i => if size1 - Z.of_nat (S m) <=? i then qat dy (P i) else 0%Qc)).
    { symmetry. apply (qsum_one _ _ _ k); [lia|]. intros i Hi. destruct (Z.eqb_spec i k) as [->|].
      - destruct (Z.leb_spec (size1 - Z.of_nat (S m)) k); [|lia]. destruct (Z.leb_spec (size1 - Z.of_nat m) k); [lia|]. ring.
      - destruct (Z.leb_spec (size1 - Z.of_nat (S m)) i), (Z.leb_spec (size1 - Z.of_nat m) i); try ring; lia. }
    assert (S2 : (if exclusive then s + qat dy (P k) - qat dy (P k) else s + qat dy (P k))%Qc =
       qsum (Z.to_nat size1) (fun i => if counts exclusive k i then qat dy (P i) else 0%Qc)).
    { unfold counts. destruct exclusive.
      - transitivity s; [ring|]. apply qsum_ext. intros i _. destruct (Z.leb_spec (size1 - Z.of_nat m) i), (Z.ltb_spec k i); auto; lia.
      - rewrite S1. apply qsum_ext. intros i _. destruct (Z.leb_spec (size1 - Z.of_nat (S m)) i), (Z.ltb_spec k (i + 1)); auto; lia. }
    rewrite S2, Zk. clear S2. set (d := qsum _ (fun i => if counts exclusive k i then _ else _)) in *.
    destruct (put_ok z (P k) (if accum then (qat dx (P k) + d)%Qc else d) Wz) as (r & Er & Lr & N & _). rewrite Er. cbn [obind]. rewrite S1.
    exists r. split; [reflexivity|]. split; [congruence|]. split.
    + intros i Hi. rewrite N by (apply W; lia). destruct (Z.eqb_spec (P i) (P k)) as [H|H].
      * apply I in H. subst i. fold d. destruct accum; ring.
      * apply A. destruct (Z.eq_dec i k) as [->|]; [tauto|lia].
    + intros q Q D. rewrite N by auto. destruct (Z.eqb_spec q (P k)) as [->|]; [exfalso; apply (D k); [lia|auto]|].
      apply B; [auto|]. intros i Hi. apply D. lia.
Qed.
