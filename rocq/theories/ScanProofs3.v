(** The gradient of the cumulative product on one line. *)
From Coq Require Import List ZArith Lia Bool QArith Qcanon.
From Verif Require Import NdModel NdSpec NdProofs IdxModel IdxSpec IdxProofs1 IdxProofs2 IdxProofs6 JoinModel JoinSpec JoinProofs JoinProofs2 ScanModel ScanSpec ScanProofs1 ScanProofs2.
Import ListNotations.
Local Open Scope list_scope.
Local Open Scope Z_scope.

Lemma rev_upto_S n : rev (upto (Z.of_nat (S n))) = Z.of_nat n :: rev (upto (Z.of_nat n)).
Proof. rewrite upto_S, rev_app_distr. reflexivity. Qed.
Lemma qat_app_l a b k : within (qlen a) k -> qat (a ++ b) k = qat a k.
Proof. unfold within, qlen, qat. intros H. apply app_nth1. lia. Qed.
Lemma qat_last a v : qat (a ++ [v]) (qlen a) = v.
Proof. unfold qlen, qat. rewrite Nat2Z.id, app_nth2, Nat.sub_diag by lia. reflexivity. Qed.

(** [fz] is the first zero of [a] among [m], or [n] if there is none. *)
Definition first_zero (a : Z -> Qc) (n m fz : Z) : Prop :=
  (fz = n /\ forall i, 0 <= i < m -> a i <> 0%Qc) \/ (0 <= fz < m /\ a fz = 0%Qc /\ forall i, 0 <= i < fz -> a i <> 0%Qc).

Lemma mask_line reverse size0 size1 size2 j x : 0 <= size0 -> 0 <= size1 -> 0 <= size2 -> isline size0 size1 size2 j ->
  qlen x = size0 * size1 * size2 ->
  let a := fun k => qat x (spot reverse size1 size2 j k) in
  forall m, Z.of_nat m <= size1 -> exists fz masked,
    loop (mask_step reverse size1 size2 j x) (upto (Z.of_nat m)) (size1, 1%Qc, []) = Some (fz, qprod m (but fz 1 a), masked) /\
    first_zero a size1 (Z.of_nat m) fz /\ qlen masked = Z.of_nat m /\
    forall k, 0 <= k < Z.of_nat m -> qat masked k = qprod (Z.to_nat (k + 1)) (but fz 1 a).
Proof.
  intros P0 P1 P2 J Lx a.
  assert (W : forall k, 0 <= k < size1 -> within (size0 * size1 * size2) (spot reverse size1 size2 j k)) by (intros; apply spot_within; auto).
  induction m as [|m IH]; intros M.
  - exists size1, []. split; [reflexivity|]. split; [left; split; [auto|lia]|]. split; [reflexivity|lia].
  - destruct IH as (fz & masked & E & F & L & A); [lia|]. rewrite upto_S, loop_app, E. cbn [obind loop]. unfold mask_step at 1.
    fold (spot reverse size1 size2 j (Z.of_nat m)). rewrite get_ok by (rewrite Lx; apply W; lia). cbn [obind]. fold (a (Z.of_nat m)).
    assert (App : forall v, qlen (masked ++ [v]) = Z.of_nat (S m)). { intros v. unfold qlen in *. rewrite app_length. cbn [length]. lia. }
    destruct (Qc_eq_dec (a (Z.of_nat m)) 0%Qc) as [Z0|Z0]; [destruct (Z.eqb_spec fz size1) as [Ef|Ef]|]; cbn [andb obind].
    + subst fz. exists (Z.of_nat m), (masked ++ [qprod m (but size1 1 a)]).
      assert (Q : forall k, (k <= m)%nat -> qprod k (but size1 1 a) = qprod k (but (Z.of_nat m) 1 a)).
      { intros k K. rewrite !qprod_out by lia. auto. }
      assert (Q2 : qprod (S m) (but (Z.of_nat m) 1 a) = qprod m (but size1 1 a)).
      { cbn [qprod]. unfold but at 2. rewrite Z.eqb_refl, Q by lia. ring. }
      split; [rewrite Q2; reflexivity|]. split.
      { right. split; [lia|]. split; [auto|]. destruct F as [(_ & F)|(F & _)]; [auto|lia]. }
      split; [apply App|]. intros k K. destruct (Z.eq_dec k (Z.of_nat m)) as [->|].
      * rewrite <- L, qat_last, L. rewrite <- Q2. f_equal. lia.
      * rewrite qat_app_l by (unfold within; lia). rewrite A, Q by lia. auto.
    + assert (F' : 0 <= fz < Z.of_nat m /\ a fz = 0%Qc /\ forall i, 0 <= i < fz -> a i <> 0%Qc) by (destruct F as [(F & _)|F]; [tauto|auto]).
      assert (Q2 : qprod (S m) (but fz 1 a) = (qprod m (but fz 1 a) * a (Z.of_nat m))%Qc).
      { cbn [qprod]. unfold but at 2. destruct (Z.eqb_spec (Z.of_nat m) fz); [lia|auto]. }
      exists fz, (masked ++ [(qprod m (but fz 1 a) * a (Z.of_nat m))%Qc]). rewrite Q2. split; [reflexivity|]. split; [right; split; [lia|tauto]|].
      split; [apply App|]. intros k K. destruct (Z.eq_dec k (Z.of_nat m)) as [->|].
      * rewrite <- L, qat_last, L. rewrite <- Q2. f_equal. lia.
      * rewrite qat_app_l by (unfold within; lia). rewrite A by lia. auto.
    + assert (Q2 : qprod (S m) (but fz 1 a) = (qprod m (but fz 1 a) * a (Z.of_nat m))%Qc).
      { cbn [qprod]. unfold but at 2. destruct (Z.eqb_spec (Z.of_nat m) fz); [|auto]. destruct F as [(F & _)|(F & _)]; lia. }
      exists fz, (masked ++ [(qprod m (but fz 1 a) * a (Z.of_nat m))%Qc]). rewrite Q2. split; [reflexivity|]. split.
      { destruct F as [(F & F2)|(F & F2)]; [left|right; split; [lia|auto]]. split; [auto|]. intros i Hi.
        destruct (Z.eq_dec i (Z.of_nat m)) as [->|]; [auto|apply F2; lia]. }
      split; [apply App|]. intros k K. destruct (Z.eq_dec k (Z.of_nat m)) as [->|].
      * rewrite <- L, qat_last, L. rewrite <- Q2. f_equal. lia.
      * rewrite qat_app_l by (unfold within; lia). rewrite A by lia. auto.
Qed.

(** The derivative at [k], weighted with [g]. *)
Definition prod_slope (exclusive : bool) (n : nat) (a g : Z -> Qc) (k : Z) : Qc :=
  qsum n (fun i => if counts exclusive k i then g i * qprod (terms exclusive i) (but k 1 a) else 0)%Qc.

Section gradient.
Variables (exclusive reverse accum : bool) (size0 size1 size2 j : Z) (x dy masked : list Qc) (fz : Z).
Hypothesis P0 : 0 <= size0.
Hypothesis P1 : 0 <= size1.
Hypothesis P2 : 0 <= size2.
Hypothesis J : isline size0 size1 size2 j.
Hypothesis Lx : qlen x = size0 * size1 * size2.
Hypothesis Ly : qlen dy = size0 * size1 * size2.
Let P := spot reverse size1 size2 j.
Let a := fun k => qat x (P k).
Let g := fun k => qat dy (P k).
Hypothesis F : first_zero a size1 size1 fz.
Hypothesis Lm : qlen masked = size1.
Hypothesis Am : forall k, 0 <= k < size1 -> qat masked k = qprod (Z.to_nat (k + 1)) (but fz 1 a).
Let t (i : Z) : Z := if exclusive then i else i + 1.
Let w (i : Z) : Qc := (g i * qprod (terms exclusive i) (but fz 1 a))%Qc.
Let part (b : Z -> bool) : Qc := qsum (Z.to_nat size1) (fun i => if b i then w i else 0%Qc).
Let before_step (m : Z) (i : Z) : bool := (m <=? i) && ((fz <? m) || (t i <=? fz)).

Lemma part_ext b c : (forall i, 0 <= i < size1 -> b i = c i) -> part b = part c.
Proof. intros H. unfold part. apply qsum_ext. intros i Hi. rewrite H by lia. auto. Qed.
Lemma part_add b c k : 0 <= k < size1 -> (forall i, 0 <= i < size1 -> i <> k -> b i = c i) -> b k = false -> c k = true -> part c = (part b + w k)%Qc.
Proof.
  intros K H Bk Ck. unfold part. apply (qsum_one _ _ _ k); [lia|]. intros i Hi. destruct (Z.eqb_spec i k) as [->|].
  - rewrite Bk, Ck. ring.
  - rewrite H by lia. ring.
Qed.
Lemma terms_t i : 0 <= i -> Z.of_nat (terms exclusive i) = t i.
Proof. intros H. unfold terms, t. destruct exclusive; lia. Qed.

(** What is written at [k]. *)
Lemma grad_value k : 0 <= k < size1 ->
  let sm := part (fun i => (k <? t i) && ((fz <? k + 1) || (t i <=? fz))) in
  (if k =? fz then sm else if fz <? k then 0%Qc else (sm / a k)%Qc) = prod_slope exclusive (Z.to_nat size1) a g k.
Proof.
  intros K sm. unfold prod_slope. destruct (Z.eqb_spec k fz) as [E|E]; [|destruct (Z.ltb_spec fz k) as [C|C]].
  - subst sm. unfold part. apply qsum_ext. intros i Hi. unfold counts. fold (t i).
    destruct (Z.ltb_spec k (t i)); cbn [andb]; [|auto]. destruct (Z.ltb_spec fz (k + 1)); [|lia]. cbn [orb]. unfold w. rewrite E. auto.
  - assert (Fz : 0 <= fz < size1 /\ a fz = 0%Qc) by (destruct F as [(F1 & _)|(F1 & F2 & _)]; [lia|auto]).
    symmetry. apply qsum_zero. intros i Hi. unfold counts. fold (t i). destruct (Z.ltb_spec k (t i)); [|auto].
    rewrite (qprod_zero _ _ fz); [ring| |].
    + rewrite terms_t by lia. lia.
    + unfold but. destruct (Z.eqb_spec fz k); [lia|tauto].
  - assert (Ak : a k <> 0%Qc) by (destruct F as [(F1 & F2)|(F1 & F2 & F3)]; [apply F2|apply F3]; lia).
    assert (S : sm = (a k * qsum (Z.to_nat size1) (fun i => if counts exclusive k i then g i * qprod (terms exclusive i) (but k 1 a) else 0))%Qc).
    { rewrite <- qsum_scale. apply qsum_ext. intros i Hi. unfold counts. fold (t i).
      destruct (Z.ltb_spec k (t i)); cbn [andb]; [|ring]. destruct (Z.ltb_spec fz (k + 1)); [lia|]. cbn [orb].
      destruct (Z.leb_spec (t i) fz).
      - unfold w. rewrite qprod_out by (rewrite terms_t; lia). rewrite (qprod_same _ a k), qprod_but by (rewrite terms_t; lia). ring.
      - assert (Fz : 0 <= fz < size1 /\ a fz = 0%Qc).
        { destruct F as [(F1 & _)|(F1 & F2 & _)]; [|auto]. exfalso. unfold t in *. destruct exclusive; lia. }
        rewrite (qprod_zero _ _ fz); [ring| |].
        + rewrite terms_t by lia. lia.
        + unfold but. destruct (Z.eqb_spec fz k); [lia|tauto]. }
    rewrite S. field. auto.
Qed.

Lemma grad_line : forall m s dx, Z.of_nat m <= size1 -> qlen dx = size0 * size1 * size2 -> (m = 0%nat \/ s = part (before_step (Z.of_nat m))) ->
  exists s' dx', loop (cumprod_back exclusive reverse accum size1 size2 j x dy masked fz) (rev (upto (Z.of_nat m))) (s, dx) = Some (s', dx') /\ length dx' = length dx /\
    (forall k, 0 <= k < Z.of_nat m -> qat dx' (P k) = (if accum then qat dx (P k) else 0) + prod_slope exclusive (Z.to_nat size1) a g k)%Qc /\
    (forall q, 0 <= q -> (forall k, 0 <= k < Z.of_nat m -> q <> P k) -> qat dx' q = qat dx q).
Proof.
  assert (W : forall k, 0 <= k < size1 -> within (size0 * size1 * size2) (P k)) by (intros; apply spot_within; auto).
  assert (I : forall a b, P a = P b -> a = b) by (intros b c; apply spot_inj; eapply isline_pos; eauto).
  assert (EX : exclusive = true \/ exclusive = false) by (destruct exclusive; auto).
  induction m as [|m IH]; intros s dx M Ld Hs.
  - exists s, dx. split; [reflexivity|]. split; [auto|]. split; [lia|auto].
  - destruct Hs as [Hs|Hs]; [lia|]. rewrite rev_upto_S. cbn [loop]. unfold cumprod_back at 1. fold (spot reverse size1 size2 j (Z.of_nat m)).
    set (k := Z.of_nat m) in *. assert (K : 0 <= k < size1) by lia. fold (P k). replace (Z.of_nat (S m)) with (k + 1) in * by lia.
    rewrite get_ok by (rewrite Ly; apply W; auto). cbn [obind]. fold (g k).
    assert (S1 : (if exclusive then Some s else obind (get masked k) (fun m0 => Some (s + m0 * g k)%Qc)) =
       Some (part (fun i => (k <? t i) && ((fz <? k + 1) || (t i <=? fz))))).
    { destruct EX as [Ex|Ex]; rewrite Ex.
      - f_equal. rewrite Hs. apply part_ext. intros i Hi. unfold before_step, t. rewrite Ex. destruct (Z.leb_spec (k + 1) i), (Z.ltb_spec k i); auto; lia.
      - rewrite get_ok by (rewrite Lm; auto). cbn [obind]. f_equal. rewrite Am by auto. rewrite Hs. symmetry.
        rewrite (part_add (before_step (k + 1)) _ k K).
        + unfold w, terms. rewrite Ex. ring.
        + intros i Hi N. unfold before_step, t. rewrite Ex. f_equal. destruct (Z.leb_spec (k + 1) i), (Z.ltb_spec k (i + 1)); auto; lia.
        + unfold before_step. destruct (Z.leb_spec (k + 1) k); [lia|auto].
        + unfold t. rewrite Ex. destruct (Z.ltb_spec k (k + 1)); [|lia]. destruct (Z.ltb_spec fz (k + 1)), (Z.leb_spec (k + 1) fz); auto; lia. }
    rewrite S1. clear S1. cbn [obind]. set (sm := part (fun i => (k <? t i) && ((fz <? k + 1) || (t i <=? fz)))).
    rewrite get_ok by (rewrite Lx; apply W; auto). cbn [obind]. fold (a k).
    set (s2 := if k =? fz then 0%Qc else sm).
    assert (PR : (if k =? fz then (sm, 0%Qc) else if fz <? k then (0%Qc, sm) else ((sm / a k)%Qc, sm)) =
      (prod_slope exclusive (Z.to_nat size1) a g k, s2)).
    { rewrite <- (grad_value k K). fold sm. unfold s2. destruct (k =? fz), (fz <? k); auto. }
    rewrite PR. clear PR. rewrite get_ok by (rewrite Ld; apply W; auto). cbn [obind].
    destruct (put_ok dx (P k) (prod_slope exclusive (Z.to_nat size1) a g k + (if accum then qat dx (P k) else 0))%Qc) as (z & Ez & Lz & N & _); [rewrite Ld; apply W; auto|].
    rewrite Ez. cbn [obind].
    assert (S2 : s2 = part (fun i => (k <? t i) && ((fz <? k) || (t i <=? fz)))).
    { unfold s2. destruct (Z.eqb_spec k fz) as [E|E].
      - symmetry. apply qsum_zero. intros i Hi. destruct (Z.ltb_spec k (t i)), (Z.ltb_spec fz k), (Z.leb_spec (t i) fz); cbn [andb orb]; auto; lia.
      - apply part_ext. intros i Hi. destruct (Z.ltb_spec fz (k + 1)), (Z.ltb_spec fz k); auto; lia. }
    assert (S3 : exists s3, (if exclusive && negb (k =? 0) then obind (get masked (k - 1)) (fun m0 => Some (s2 + m0 * g k)%Qc) else Some s2) = Some s3 /\
       (m = 0%nat \/ s3 = part (before_step k))).
    { rewrite S2. destruct EX as [Ex|Ex]; rewrite Ex; cbn [andb].
      - destruct (Z.eqb_spec k 0) as [Z0|Z0]; cbn [negb]; [eexists; split; [reflexivity|left; lia]|].
        rewrite get_ok by (rewrite Lm; unfold within; lia). cbn [obind]. eexists. split; [reflexivity|right]. rewrite Am by lia. symmetry.
        rewrite (part_add (fun i => (k <? t i) && ((fz <? k) || (t i <=? fz))) _ k K).
        + unfold w, terms. rewrite Ex. replace (k - 1 + 1) with k by lia. ring.
        + intros i Hi D. unfold before_step, t. rewrite Ex. f_equal. destruct (Z.leb_spec k i), (Z.ltb_spec k i); auto; lia.
        + unfold t. rewrite Ex, Z.ltb_irrefl. auto.
        + unfold before_step, t. rewrite Ex, Z.leb_refl. destruct (Z.ltb_spec fz k), (Z.leb_spec k fz); auto; lia.
      - eexists. split; [reflexivity|right]. apply part_ext. intros i Hi. unfold before_step, t. rewrite Ex. f_equal.
        destruct (Z.leb_spec k i), (Z.ltb_spec k (i + 1)); auto; lia. }
    destruct S3 as (s3 & E3 & S3). rewrite E3. cbn [obind].
    destruct (IH s3 z) as (s' & dx' & E & L' & A & B); [lia|unfold qlen in *; congruence|auto|]. rewrite E.
    exists s', dx'. split; [reflexivity|]. split; [congruence|]. split.
    + intros i Hi. destruct (Z.eq_dec i k) as [->|D].
      * rewrite B; [|apply W; auto|].
        { rewrite N by (apply W; auto). rewrite Z.eqb_refl. ring. }
        { intros k' K' H. apply I in H. lia. }
      * rewrite A by lia. rewrite N by (apply W; lia). destruct (Z.eqb_spec (P i) (P k)) as [H|H]; [apply I in H; lia|auto].
    + intros q Q D. rewrite B; [|auto|].
      * rewrite N by auto. destruct (Z.eqb_spec q (P k)) as [H|H]; [exfalso; apply (D k); [lia|auto]|auto].
      * intros i Hi. apply D. lia.
Qed.
Lemma grad_start : 0%Qc = part (before_step size1).
Proof.
  symmetry. apply qsum_zero. intros i Hi. unfold before_step. destruct (Z.leb_spec size1 i); [lia|auto].
Qed.
End gradient.
