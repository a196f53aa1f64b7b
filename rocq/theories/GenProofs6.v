(** Proofs about Linspace, Arange, Shape and BitShift. *)
From Coq Require Import List ZArith Bool Lia QArith Qcanon Qround Lqa SpecFloat.
From Verif Require Import NdSpec NdModel NdProofs IdxSpec IdxModel IdxProofs1 IdxProofs2 IdxProofs3 IdxProofs6 JoinModel JoinSpec JoinProofs ScanSpec ScanModel ScanProofs1 ReduceModel ReduceProofs1 ReduceProofs4 ReduceProofs5 ConvSpec ConvModel ConvProofs1 ConvProofs3 MatSpec MatModel BinSpec BinModel BinProofs3 BfaSpec BfaModel BfaProofs1 PoolProofs3 GenModel GenSpec GenProofs1 GenProofs4.
From Verif Require MatProps BinProps.
Import ListNotations.
Local Open Scope list_scope.
Local Open Scope Z_scope.

Lemma of_Z_plus a b : of_Z (a + b) = (of_Z a + of_Z b)%Qc.
Proof. unfold of_Z. apply Qc_is_canon. unfold Qcplus, Q2Qc. cbn [this]. rewrite !Qred_correct, inject_Z_plus. reflexivity. Qed.
Lemma of_Z_floor a : to_Z (of_Z a) = a.
Proof. unfold to_Z, of_Z, Q2Qc. cbn [this]. rewrite (Qfloor_comp _ _ (Qred_correct _)). apply Qfloor_Z. Qed.

(** * Linspace *)
Lemma linspace_ok junk start stop num : 0 <= num ->
  exists y, linspace junk start stop num = Some ([num], y) /\ has_size y num /\ forall i, 0 <= i < num -> qat y i = (start + (if 1 <? num then (stop - start) / of_Z (num - 1) else 0) * of_Z i)%Qc.
Proof.
  intros H. unfold linspace. destruct (Z.ltb_spec num 0); [lia |].
  assert (LF : has_size (fresh junk [num]) num). { unfold has_size, fresh. rewrite repeat_length, prod_size. cbn [size]. lia. } unfold has_size in *.
  match goal with |- context [loop ?f (upto num) _] => destruct (each_written f (fun i => (start + (if (1 <? num)%Z then (stop - start) / of_Z (num - 1) else 0) * of_Z i)%Qc) num (fresh junk [num])) as (y & E & L & V & _) end.
  - unfold qlen. lia.
  - reflexivity.
  - rewrite E. cbn [obind]. exists y. split; [reflexivity |]. split; [lia | exact V].
Qed.

(** * Arange *)
Lemma count_ok {T} (plus : T -> T -> T) before step (value : nat -> T) : (forall i, plus (value i) step = value (S i)) ->
  forall fuel i, (exists j, (i <= j <= i + fuel)%nat /\ before (value j) = false) ->
  exists n, arange_count T plus fuel before step (value i) (Z.of_nat i) = Some (Z.of_nat n) /\ (i <= n)%nat /\ (forall j, (i <= j < n)%nat -> before (value j) = true) /\ before (value n) = false.
Proof.
  intros ST. induction fuel as [| fuel IH]; intros i (j & Hj & Bj); cbn [arange_count].
  - replace j with i in Bj by lia. rewrite Bj. exists i. repeat split; auto; intros; lia.
  - destruct (before (value i)) eqn:B; [| exists i; repeat split; auto; intros; lia]. rewrite ST. replace (Z.of_nat i + 1) with (Z.of_nat (S i)) by lia.
    destruct (IH (S i)) as (n & E & L & P & Q). { exists j. split; [| exact Bj]. assert (j <> i) by (intros ->; congruence). lia. }
    exists n. split; [exact E |]. split; [lia |]. split; [| exact Q]. intros k Hk. destruct (Nat.eq_dec k i) as [-> | NE]; [exact B | apply P; lia].
Qed.
Definition step_by (start step : Qc) (i : nat) : Qc := (start + of_Z (Z.of_nat i) * step)%Qc.
Lemma step_by_S start step i : (step_by start step i + step)%Qc = step_by start step (S i).
Proof. unfold step_by. rewrite Nat2Z.inj_succ. unfold Z.succ. rewrite of_Z_plus. change (of_Z 1) with 1%Qc. ring. Qed.
Lemma step_by_0 start step : step_by start step 0 = start.
Proof. unfold step_by. change (of_Z (Z.of_nat 0)) with 0%Qc. ring. Qed.
Lemma enough (d step : Qc) : (0 < step)%Qc -> exists i : nat, (d <= of_Z (Z.of_nat i) * step)%Qc.
Proof.
  intros H. set (r := (d / step)%Qc). exists (Z.to_nat (Qceiling r)). assert (D : d = (r * step)%Qc) by (unfold r; field; intros C; rewrite C in H; exact (Qclt_not_eq _ _ H eq_refl)).
  rewrite D at 1. assert (R : (r <= of_Z (Z.of_nat (Z.to_nat (Qceiling r))))%Qc).
  { unfold Qcle, of_Z, Q2Qc. cbn [this]. rewrite Qred_correct. pose proof (Qle_ceiling r) as C. eapply Qle_trans; [exact C |]. rewrite <- Zle_Qle. lia. }
  apply Qcmult_le_compat_r; [exact R | apply Qclt_le_weak; exact H].
Qed.
Definition before_stop (stop step : Qc) (v : Qc) : bool := if less step 0%Qc then less stop v else less v stop.
Lemma arange_q_ok start stop step : step <> 0%Qc -> exists fuel0, forall fuel junk, (fuel0 <= fuel)%nat ->
  exists y, arange_q fuel junk start stop step = Some y /\ (forall i, (i < length y)%nat -> nth i y 0%Qc = step_by start step i /\ before_stop stop step (step_by start step i) = true) /\ before_stop stop step (step_by start step (length y)) = false.
Proof.
  intros NZ. assert (EX : exists j, before_stop stop step (step_by start step j) = false).
  { unfold before_stop. destruct (less step 0) eqn:S0.
    - apply less_t in S0. destruct (enough (start - stop) (- step)) as (i & Hi); [apply Qclt_minus_iff in S0; replace (- step)%Qc with (0 + - step)%Qc by ring; exact S0 |]. exists i. apply less_f. unfold step_by.
      apply Qcle_minus_iff in Hi. apply Qcle_minus_iff. replace (stop + - (start + of_Z (Z.of_nat i) * step))%Qc with (of_Z (Z.of_nat i) * - step + - (start - stop))%Qc by ring. exact Hi.
    - apply less_f in S0. destruct (enough (stop - start) step) as (i & Hi); [apply Qcle_lt_or_eq in S0; destruct S0 as [S0 | S0]; [exact S0 | congruence] |]. exists i. apply less_f. unfold step_by.
      apply Qcle_minus_iff in Hi. apply Qcle_minus_iff. replace (start + of_Z (Z.of_nat i) * step + - stop)%Qc with (of_Z (Z.of_nat i) * step + - (stop - start))%Qc by ring. exact Hi. }
  destruct EX as (j & Bj). exists j. intros fuel junk F. unfold arange_q, arange.
  replace (negb (less step 0) && negb (less 0 step)) with false.
  2:{ symmetry. apply andb_false_iff. destruct (less step 0) eqn:S0; [left; reflexivity | right]. apply less_f in S0. apply negb_false_iff. apply less_t. apply Qcle_lt_or_eq in S0. destruct S0 as [S0 | S0]; [exact S0 | congruence]. }
  destruct (count_ok Qcplus (before_stop stop step) step (step_by start step) (step_by_S start step) fuel 0) as (n & E & _ & P & Q); [exists j; split; [lia | exact Bj] |].
  rewrite step_by_0 in E. change (Z.of_nat 0) with 0 in E. change (fun value => if less step 0 then less stop value else less value stop) with (before_stop stop step). rewrite E. cbn [obind]. rewrite Nat2Z.id.
  destruct (loop_inv (fun k s => length (fst s) = n /\ snd s = step_by start step (Z.to_nat k) /\ forall i, 0 <= i < k -> qat (fst s) i = step_by start step (Z.to_nat i))
    (fun i '(y, value) => obind (put y i value) (fun y => Some (y, (value + step)%Qc))) (Z.of_nat n) ltac:(lia)) with (s := (repeat junk n, start)) as ((y & v) & E2 & L & _ & V).
  - intros i (y & v) Hi (L & Hv & V). cbn [fst snd] in *. destruct (put_ok y i v) as (y' & E' & L' & V' & _); [unfold within, qlen; lia |]. exists (y', (v + step)%Qc). rewrite E'. cbn [obind fst snd]. split; [reflexivity |]. split; [congruence |]. split.
    + rewrite Hv, step_by_S. f_equal. lia.
    + intros k Hk. rewrite V' by lia. destruct (Z.eqb_spec k i) as [-> |]; [exact Hv | apply V; lia].
  - cbn [fst snd]. split; [apply repeat_length |]. split; [rewrite step_by_0; reflexivity |]. intros; lia.
  - rewrite E2. cbn [obind]. exists y. cbn [fst] in *. split; [reflexivity |]. rewrite L. split; [| exact Q]. intros i Hi. split; [| apply P; lia]. specialize (V (Z.of_nat i) ltac:(lia)). unfold qat in V. rewrite Nat2Z.id in V. exact V.
Qed.
Lemma arange_zero {T} plus lt zero fuel junk start stop step : lt step zero = false -> lt zero step = false -> arange T plus lt zero fuel junk start stop step = None.
Proof. intros A B. unfold arange. rewrite A, B. reflexivity. Qed.
(** A number that does not change when the step is added. *)
Lemma count_stuck {T} (plus : T -> T -> T) before step v : plus v step = v -> before v = true -> forall fuel c, arange_count T plus fuel before step v c = None.
Proof. intros S1 B. induction fuel as [| fuel IH]; intros c; cbn [arange_count]; rewrite B; [reflexivity |]. rewrite S1. apply IH. Qed.

(** * Shape *)
Lemma nth_firstn_lt (l : list Z) d : forall k m, (k < m)%nat -> nth k (firstn m l) d = nth k l d.
Proof. induction l as [| x l IH]; intros [| k] [| m] H; cbn [firstn nth]; auto; try lia. apply IH. lia. Qed.
Lemma nth_skipn (l : list Z) d : forall m k, nth k (skipn m l) d = nth (m + k) l d.
Proof. induction l as [| x l IH]; intros [| m] k; cbn [skipn nth Nat.add]; auto. destruct k; reflexivity. Qed.
Lemma bounds_ok start stop n : 0 < n -> - n <= start -> let '(s, e) := shape_bounds start stop n in 0 <= s <= n /\ e <= n /\ s = clipped n start /\ Z.max s e = Z.max s (if stop =? 0 then n else clipped n stop).
Proof.
  intros H0 H1. unfold shape_bounds, clipped.
  destruct (Z.ltb_spec start 0), (Z.ltb_spec n start), (Z.ltb_spec stop 0), (Z.ltb_spec 0 stop), (Z.ltb_spec n stop), (Z.eqb_spec stop 0); lia.
Qed.
Lemma shape_op_ok junk start stop old shape : - Z.of_nat (length shape) <= start -> sliced start stop shape <> [] ->
  shape_op junk start stop old shape = Some ([Z.of_nat (length (sliced start stop shape))], sliced start stop shape).
Proof.
  intros HS NE. unfold shape_op. assert (LN : 0 < Z.of_nat (length shape)) by (destruct shape; [exfalso; apply NE; unfold sliced; rewrite skipn_nil, firstn_nil; reflexivity | cbn; lia]).
  set (n := Z.of_nat (length shape)) in *. destruct (Z.leb_spec n 0); [lia |]. pose proof (bounds_ok start stop n LN HS) as B. destruct (shape_bounds start stop n) as (s, e). destruct B as (B1 & B2 & B3 & B4).
  assert (SL : sliced start stop shape = firstn (Z.to_nat (e - s)) (skipn (Z.to_nat s) shape)). { unfold sliced. fold n. rewrite <- B3. f_equal. lia. }
  destruct (Z.ltb_spec s e) as [LT |]. 2:{ exfalso. apply NE. rewrite SL. replace (Z.to_nat (e - s)) with 0%nat by lia. reflexivity. }
  assert (LL : Z.of_nat (length (sliced start stop shape)) = e - s) by (rewrite SL, firstn_length, skipn_length; unfold n in *; lia). rewrite LL.
  replace (Z.to_nat (prod [e - s])) with (Z.to_nat (e - s)) by (rewrite prod_size; cbn [size]; f_equal; ring).
  destruct (loop_inv (fun k y => zlen y = e - s /\ forall i, 0 <= i < k -> zat y i = zat shape (s + i)) (fun j y => obind (get shape (s + j)) (fun v => put y j v)) (e - s) ltac:(lia)) with (s := repeat junk (Z.to_nat (e - s))) as (y & E & L & V).
  - intros i y Hi (L & V). rewrite zget by (unfold zlen; fold n; lia). cbn [obind]. destruct (zput y i (zat shape (s + i)) ltac:(lia)) as (y' & E' & L' & V'). exists y'. split; [exact E' |]. split; [lia |]. intros k Hk. rewrite V' by lia. destruct (Z.eqb_spec k i) as [-> |]; [reflexivity | apply V; lia].
  - split; [unfold zlen; rewrite repeat_length; lia |]. intros; lia.
  - rewrite E. cbn [obind]. do 2 f_equal. apply zat_ext; [unfold zlen in *; lia |]. intros j Hj. rewrite V by lia. rewrite SL. unfold zat. rewrite nth_firstn_lt by lia. rewrite nth_skipn. f_equal. lia.
Qed.

(** * BitShift *)
Lemma shift_left_ok bits a b : 0 < bits -> 0 <= a -> 0 <= b -> shift_left bits a b = (a * 2 ^ b) mod 2 ^ bits.
Proof.
  intros HB Ha Hb. unfold shift_left, unsigned. destruct (Z.leb_spec 0 b); [| lia]. cbn [andb]. destruct (Z.ltb_spec b bits); [rewrite Z.shiftl_mul_pow2 by lia; reflexivity |].
  replace b with (bits + (b - bits)) by ring. rewrite Z.pow_add_r by lia. replace (a * (2 ^ bits * 2 ^ (b - bits))) with (a * 2 ^ (b - bits) * 2 ^ bits) by ring. rewrite Z.mod_mul; [reflexivity | apply Z.pow_nonzero; lia].
Qed.
Lemma shift_right_ok bits a b : 0 < bits -> 0 <= a < 2 ^ bits -> 0 <= b -> shift_right bits a b = a / 2 ^ b.
Proof.
  intros HB Ha Hb. unfold shift_right, unsigned. destruct (Z.leb_spec 0 b); [| lia]. cbn [andb]. pose proof (Z.pow_pos_nonneg 2 b ltac:(lia) Hb). destruct (Z.ltb_spec b bits).
  - rewrite Z.shiftr_div_pow2 by lia. apply Z.mod_small. split; [apply Z.div_pos; lia |]. apply Z.le_lt_trans with a; [apply Z.div_le_upper_bound; nia | lia].
  - symmetry. apply Z.div_small. split; [lia |]. apply Z.lt_le_trans with (2 ^ bits); [lia |]. apply Z.pow_le_mono_r; lia.
Qed.
Lemma bit_shift_ok junk dtype bits direction A B C x0 x1 : joined A B C -> above C -> has_size x0 (size A) -> has_size x1 (size B) -> get [8; 16; 32; 64; 64] dtype = Some bits -> direction = 0 \/ direction = 1 ->
  exists y, bit_shift junk dtype direction (A, x0) (B, x1) = Some (C, y) /\ has_size y (size C) /\
  forall c, inside c C -> qelem y C c = of_Z ((if direction =? 0 then shift_left else shift_right) bits (to_Z (qelem x0 A (picked A c))) (unsigned bits (to_Z (qelem x1 B (picked B c))))).
Proof.
  intros J P L0 L1 W D. unfold bit_shift. cbn [fst snd].
  destruct (call2_ok junk (fun a b => of_Z ((if direction =? 0 then shift_left else shift_right) bits (to_Z a) (unsigned bits (to_Z b)))) A B C x0 x1 J P L0 L1) as (y & E & L & V).
  destruct (bin_setup A B) as [f |] eqn:S0; [| unfold call2 in E; cbn [fst snd] in E; rewrite S0 in E; discriminate]. cbn [obind].
  replace (negb ((direction =? 0) || (direction =? 1))) with false by (destruct D as [-> | ->]; reflexivity). rewrite W. cbn [obind]. exists y. split; [exact E |]. split; [exact L | exact V].
Qed.
