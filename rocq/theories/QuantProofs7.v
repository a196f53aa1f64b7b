(** Quantization: MinMaxQuantize as a whole, and Prune. *)
From Coq Require Import List ZArith Lia Lqa Bool QArith Qcanon Qround Permutation.
From Verif Require Import NdSpec NdModel NdProofs IdxModel IdxProofs1 IdxProofs2 JoinSpec JoinModel ScanSpec ScanModel ScanProofs1 ReduceSpec ReduceModel ReduceProofs1 ConvSpec ConvModel MatSpec MatModel PoolProofs3 SortSpec SortProofs1 BinSpec BinModel BinProofs3 BfaModel BfaSpec BfaProofs1 BfaProofs2 FindModel FindProofs1 NmsProofs1 QuantModel QuantSpec QuantProofs1 QuantProofs2 QuantProofs5 QuantProofs6.
From Verif Require BinProps ReduceProps MatProps.
Import ListNotations.
Local Open Scope list_scope.
Local Open Scope Qc_scope.

Lemma wide_ones A B : widens B A -> ones_or_axes A B = true.
Proof. induction 1 as [| b a B A H _ IH]; cbn [ones_or_axes]; [reflexivity |]. rewrite IH, andb_true_r. apply orb_true_iff. destruct H as [-> | ->]; [right | left]; apply Z.eqb_refl. Qed.
Lemma skip_nth (l : list Qc) i k : nth k (skipn i l) 0 = nth (i + k) l 0.
Proof. revert l. induction i as [| i IH]; intros [| v l]; cbn [skipn Nat.add]; try reflexivity; [destruct k; reflexivity | apply IH]. Qed.
Lemma first_nth (l : list Qc) n k : (k < n)%nat -> nth k (firstn n l) 0 = nth k l 0.
Proof. revert l k. induction n as [| n IH]; intros [| v l] [| k] H; cbn [firstn nth]; try reflexivity; try lia. apply IH. lia. Qed.

Section minmax.
Variables (A B : list Z) (l h : list Z -> Z) (lmin lmax : list Qc).
Hypothesis W : widens B A.
Hypothesis P : above A.
Hypothesis N8 : (length A <= 8)%nat.
Hypothesis LL : has_size lmin (size B).
Hypothesis LU : has_size lmax (size B).
Hypothesis LV : forall b, inside b B -> qelem lmin B b = whole_number (l b) /\ qelem lmax B b = whole_number (h b) /\ (l b < h b)%Z.
Let PB : above B.
Proof. exact (wide_above A B W P). Qed.
Lemma apply_same junk op x y : has_size x (size B) -> has_size y (size B) -> exists z, call2 junk op (B, x) (B, y) = Some (B, z) /\ has_size z (size B) /\ forall b, inside b B -> qelem z B b = op (qelem x B b) (qelem y B b).
Proof. intros L1 L2. destruct (wide_call2 junk op B B x y (widens_refl B) PB L1 L2) as (z & E & L & V). exists z. split; [exact E |]. split; [exact L |]. intros b I. rewrite (V b I), (picked_self B b I). reflexivity. Qed.
Lemma into_same (C : list Z) op x y : above C -> has_size x (size C) -> has_size y (size C) -> exists z, call_into false op (C, x) (C, y) = Some (C, z) /\ has_size z (size C) /\ forall b, inside b C -> qelem z C b = op (qelem x C b) (qelem y C b).
Proof. intros PC L1 L2. destruct (wide_into op C C x y (widens_refl C) PC L1 L2) as (z & E & L & V). exists z. split; [exact E |]. split; [exact L |]. intros b I. rewrite (V b I), (picked_self C b I). reflexivity. Qed.
(** The limits after nudging, repeated to the shape of x. *)
Lemma edges_ok junk m s : has_size m (size B) -> has_size s (size B) -> let zp := fun b => zero_is (l b) (h b) (qelem m B b) (qelem s B b) in
  exists lo hi lo' hi', nudged junk (B, lmin) (B, lmin) (B, lmax) (B, m) (B, s) = Some (B, lo) /\ nudged junk (B, lmax) (B, lmin) (B, lmax) (B, m) (B, s) = Some (B, hi) /\
  py_broadcast junk A (B, lo) = Some (A, lo') /\ py_broadcast junk A (B, hi) = Some (A, hi') /\ has_size lo' (size A) /\ has_size hi' (size A) /\
  forall c, inside c A -> let b := picked B c in
    qelem lo' A c = (whole_number (l b) - whole_number (zp b)) * qelem s B b /\ qelem hi' A c = (whole_number (h b) - whole_number (zp b)) * qelem s B b.
Proof.
  intros LM LS zp. pose proof (above_sizes B PB) as SB. pose proof (above_sizes A P) as SA.
  destruct (nudged_ok junk B lmin lmin lmax m s SB LL LL LU LM LS) as (lo & E1 & L1 & V1). destruct (nudged_ok junk B lmax lmin lmax m s SB LU LL LU LM LS) as (hi & E2 & L2 & V2).
  destruct (broadcast_ok junk B A lo W SA N8 L1) as (lo' & E3 & L3 & V3). destruct (broadcast_ok junk B A hi W SA N8 L2) as (hi' & E4 & L4 & V4).
  exists lo, hi, lo', hi'. repeat (split; [assumption |]). intros c I b. pose proof (widens_inside B A c W I) as Ib. fold b in Ib. destruct (LV b Ib) as (Q1 & Q2 & Q3).
  rewrite (V3 c I), (V4 c I). fold b. rewrite (V1 b Ib), (V2 b Ib), Q1, Q2. rewrite (zero_nudged_is (l b) (h b)) by exact Q3. split; reflexivity.
Qed.
Lemma min_max_quantize_ok junk decay eps x_min_max ema x qmin qmax : 0 < eps -> has_size x (size A) -> has_size qmin (size B) -> has_size qmax (size B) -> (x_min_max = true -> of_moderate_size A x) ->
  exists y r0 r1, min_max_quantize junk decay eps x_min_max ema (A, x) (B, qmin) (B, qmax) (B, lmin) (B, lmax) = Some ((A, y), (B, r0), (B, r1)) /\
  has_size y (size A) /\ has_size r0 (size B) /\ has_size r1 (size B) /\
  (forall b, inside b B -> limit_of x_min_max ema decay (qelem qmin B b) (qelem r0 B b) (least_at A B x b) /\
    exists t, limit_of x_min_max ema decay (qelem qmax B b) t (greatest_at A B x b) /\ kept_apart eps (qelem r0 B b) t (qelem r1 B b)) /\
  forall c, inside c A -> let b := picked B c in let s := (qelem r1 B b - qelem r0 B b) / (whole_number (h b) - whole_number (l b)) in
    0 < s /\ exists zp q, zero_level (l b) (h b) (whole_number (l b) - qelem r0 B b / s) zp /\ nearest_level (l b) (h b) zp s (qelem x A c) (qelem y A c) q.
Proof.
  intros EP LX LQ0 LQ1 BD. pose proof (above_sizes B PB) as SB. pose proof (above_sizes A P) as SA. unfold min_max_quantize. cbn [fst snd].
  destruct (list_eq_dec Z.eq_dec B B) as [_ | C]; [| contradiction]. cbn [negb].
  pose proof (wide_ones A B W) as OA.
  rewrite OA. cbn [negb].
  destruct (tracked_ok min_forward (least_at A B x) junk decay x_min_max ema B A x qmin W P LX LQ0) as (r0 & E0 & L0 & V0). { intros X. apply call_min_ok; auto. }
  rewrite E0. cbn [obind].
  destruct (tracked_ok max_forward (greatest_at A B x) junk decay x_min_max ema B A x qmax W P LX LQ1) as (t & E1 & L1 & V1). { intros X. apply call_max_ok; auto. }
  rewrite E1. cbn [obind]. destruct (nudge_range_ok eps B r0 t SB L0 L1) as (r1 & E2 & L2 & V2). rewrite E2. cbn [obind].
  destruct (apply_same junk sub_op r1 r0 L2 L0) as (s1 & E3 & L3 & V3). rewrite E3. cbn [obind].
  destruct (apply_same junk sub_op lmax lmin LU LL) as (iv & E4 & L4 & V4). rewrite E4. cbn [obind].
  destruct (into_same B div_op s1 iv PB L3 L4) as (s & E5 & L5 & V5). rewrite E5. cbn [obind].
  destruct (edges_ok junk r0 s L0 L5) as (lo & hi & lo' & hi' & N1 & N2 & N3 & N4 & LL' & LH' & VE). cbv zeta in VE. rewrite N1. cbn [obind]. rewrite N2. cbn [obind]. rewrite N3. cbn [obind]. rewrite N4. cbn [obind].
  destruct (broadcast_ok junk B A s W SA N8 L5) as (s' & E6 & L6 & V6). rewrite E6. cbn [obind].
  destruct (wide_call2 junk max_op A A x lo' (widens_refl A) P LX LL') as (y1 & E7 & L7 & V7). rewrite E7. cbn [obind].
  destruct (into_same A min_op y1 hi' P L7 LH') as (y2 & E8 & L8 & V8). rewrite E8. cbn [obind].
  destruct (into_same A sub_op y2 lo' P L8 LL') as (y3 & E9 & L9 & V9). rewrite E9. cbn [obind].
  destruct (into_same A div_op y3 s' P L9 L6) as (y4 & E10 & L10 & V10). rewrite E10. cbn [obind].
  destruct (scalar_ok std_round A y4 SA L10) as (y5 & E11 & L11 & V11). rewrite E11. cbn [obind].
  destruct (into_same A mul_op y5 s' P L11 L6) as (y6 & E12 & L12 & V12). rewrite E12. cbn [obind].
  destruct (wide_add A A y6 lo' (widens_refl A) P L12 LL') as (y7 & E13 & L13 & V13). rewrite E13. cbn [obind].
  exists y7, r0, r1. split; [reflexivity |]. split; [exact L13 |]. split; [exact L0 |]. split; [exact L2 |]. split.
  - intros b I. split; [apply V0; exact I |]. exists (qelem t B b). split; [apply V1; exact I |]. rewrite (V2 b I). split; intros H; [rewrite (proj2 (less_false _ _) H) | rewrite (proj2 (less_true _ _) H)]; reflexivity.
  - intros c I. set (b := picked B c). pose proof (widens_inside B A c W I) as Ib. fold b in Ib. destruct (LV b Ib) as (Q1 & Q2 & Q3).
    assert (ES : qelem s B b = (qelem r1 B b - qelem r0 B b) / (whole_number (h b) - whole_number (l b))). { rewrite (V5 b Ib), (V3 b Ib), (V4 b Ib), Q1, Q2. reflexivity. }
    rewrite <- ES. cbv zeta.
    assert (S0 : 0 < qelem s B b).
    { rewrite ES. assert (G : 0 < qelem r1 B b - qelem r0 B b). { rewrite (V2 b Ib). destruct (less _ eps) eqn:LE; [qlra |]. apply less_false in LE. qlra. }
      assert (D : 0 < whole_number (h b) - whole_number (l b)) by (apply W_lt in Q3; qlra). apply Qcnot_le_lt. intros C. pose proof (over_times (qelem r1 B b - qelem r0 B b) _ D) as O. revert C O. generalize ((qelem r1 B b - qelem r0 B b) / (whole_number (h b) - whole_number (l b))). intros u C O. clear - G D C O. qnra. }
    split; [exact S0 |]. exists (zero_is (l b) (h b) (qelem r0 B b) (qelem s B b)).
    destruct (level_value_ok (l b) (h b) (qelem s B b) Q3 S0 (zero_is (l b) (h b) (qelem r0 B b) (qelem s B b)) (qelem x A c)) as (q & NL). exists q. split; [apply zero_ok |].
    destruct (VE c I) as [VL VH]. fold b in VL, VH.
    replace (qelem y7 A c) with (level_value (l b) (h b) (qelem s B b) (zero_is (l b) (h b) (qelem r0 B b) (qelem s B b)) (qelem x A c)); [exact NL |].
    rewrite (V13 c I), (V12 c I), (V11 c I), (V10 c I), (V9 c I), (V8 c I), (V7 c I), (V6 c I), (picked_self A c I), VL, VH. reflexivity.
Qed.
(** Gradients. *)
Lemma give_ok (C : list Z) (accum : bool) g v : above C -> has_size g (size C) -> has_size v (size C) ->
  exists g', give accum (C, g) (C, v) = Some (C, g') /\ has_size g' (size C) /\ forall c, inside c C -> qelem g' C c = (if accum then qelem g C c else 0) + qelem v C c.
Proof.
  intros PC LG LW. unfold give. destruct accum.
  - destruct (wide_add C C g v (widens_refl C) PC LG LW) as (z & E & L & V). exists z. split; [exact E |]. split; [exact L |]. intros b I. rewrite (V b I), (picked_self C b I). reflexivity.
  - exists v. split; [reflexivity |]. split; [exact LW |]. intros. ring.
Qed.
Lemma gathered_ok junk op x edge dy qr : has_size x (size A) -> has_size edge (size A) -> has_size dy (size A) ->
  exists g, gathered junk op (A, x) (A, edge) (A, dy) (B, qr) = Some (B, g) /\ has_size g (size B) /\ forall b, inside b B -> qelem g B b = total (used_at B A b) (fun c => op (qelem x A c) (qelem edge A c) * qelem dy A c).
Proof.
  intros LX LE LY. unfold gathered. destruct (wide_call2 junk op A A x edge (widens_refl A) P LX LE) as (k & E1 & L1 & V1). rewrite E1. cbn [obind].
  destruct (wide_call2 junk mul_op A A k dy (widens_refl A) P L1 LY) as (t & E2 & L2 & V2). rewrite E2. cbn [obind fst].
  destruct (sum_for_ok junk B A t W P L2) as (g & E3 & L3 & V3). rewrite E3. exists g. split; [reflexivity |]. split; [exact L3 |]. intros b I. rewrite (V3 b I). unfold total. f_equal. apply map_ext_in. intros c Ic.
  unfold used_at in Ic. apply filter_In in Ic as (Ic & _). apply indices_in in Ic. rewrite (V2 c Ic), (picked_self A c Ic), (V1 c Ic), (picked_self A c Ic). reflexivity.
Qed.
Lemma min_max_backward_ok junk x_min_max ema fine x m s dy a d a0 d0 a1 d1 : has_size x (size A) -> has_size m (size B) -> has_size s (size B) -> has_size dy (size A) -> has_size d (size A) -> has_size d0 (size B) -> has_size d1 (size B) ->
  exists g g0 g1, min_max_backward junk x_min_max ema fine (A, x) (B, m) (B, lmin) (B, lmax) (B, s) (A, dy) (Some (a, (A, d))) (Some (a0, (B, d0))) (Some (a1, (B, d1))) = Some (Some (A, g), Some (B, g0), Some (B, g1)) /\
  has_size g (size A) /\ has_size g0 (size B) /\ has_size g1 (size B) /\
  (x_min_max || ema = true -> g0 = d0 /\ g1 = d1) /\
  exists zp, (forall b, inside b B -> zero_level (l b) (h b) (whole_number (l b) - qelem m B b / qelem s B b) (zp b)) /\
  let lo := fun b => (whole_number (l b) - whole_number (zp b)) * qelem s B b in let hi := fun b => (whole_number (h b) - whole_number (zp b)) * qelem s B b in
  (forall c, inside c A -> qelem g A c = (if a then qelem d A c else 0) + (if fine && (less (qelem x A c) (lo (picked B c)) || more (qelem x A c) (hi (picked B c))) then 0 else qelem dy A c)) /\
  (x_min_max || ema = false -> forall b, inside b B ->
    qelem g0 B b = (if a0 then qelem d0 B b else 0) + total (used_at B A b) (fun c => if less (qelem x A c) (lo b) then qelem dy A c else 0) /\
    qelem g1 B b = (if a1 then qelem d1 B b else 0) + total (used_at B A b) (fun c => if more (qelem x A c) (hi b) then qelem dy A c else 0)).
Proof.
  intros LX LM LS LY LD LD0 LD1. pose proof (above_sizes B PB) as SB. unfold min_max_backward. cbn [fst].
  destruct (edges_ok junk m s LM LS) as (lo & hi & lo' & hi' & N1 & N2 & N3 & N4 & LL' & LH' & VE). cbv zeta in VE. rewrite N1. cbn [obind]. rewrite N2. cbn [obind]. rewrite N3. cbn [obind]. rewrite N4. cbn [obind]. cbv zeta.
  set (zp := fun b => zero_is (l b) (h b) (qelem m B b) (qelem s B b)) in *.
  assert (X : exists v, (if fine then obind (call2 junk greater_equal_op (A, x) (A, lo')) (fun iv0 => obind (call2 junk less_equal_op (A, x) (A, hi')) (fun iv1 => obind (call2 junk mul_op iv0 iv1) (fun mask => call_into false mul_op mask (A, dy)))) else Some (A, dy)) = Some (A, v) /\
    has_size v (size A) /\ forall c, inside c A -> qelem v A c = if fine && (less (qelem x A c) (qelem lo' A c) || more (qelem x A c) (qelem hi' A c)) then 0 else qelem dy A c).
  { destruct fine.
    - destruct (wide_call2 junk greater_equal_op A A x lo' (widens_refl A) P LX LL') as (k1 & E1 & L1 & V1). rewrite E1. cbn [obind].
      destruct (wide_call2 junk less_equal_op A A x hi' (widens_refl A) P LX LH') as (k2 & E2 & L2 & V2). rewrite E2. cbn [obind].
      destruct (wide_call2 junk mul_op A A k1 k2 (widens_refl A) P L1 L2) as (k3 & E3 & L3 & V3). rewrite E3. cbn [obind].
      destruct (into_same A mul_op k3 dy P L3 LY) as (k4 & E4 & L4 & V4). rewrite E4. exists k4. split; [reflexivity |]. split; [exact L4 |]. intros c I.
      rewrite (V4 c I), (V3 c I), !(picked_self A c I), (V2 c I), (V1 c I), !(picked_self A c I). unfold mul_op, greater_equal_op, less_equal_op, truth. destruct (less _ _), (more _ _); cbn [andb orb negb]; ring.
    - exists dy. split; [reflexivity |]. split; [exact LY |]. reflexivity. }
  destruct X as (v & E5 & L5 & V5). unfold nd in *. rewrite E5. cbn [obind]. destruct (give_ok A a d v P LD L5) as (g & E6 & L6 & V6). rewrite E6. cbn [obind].
  destruct (gathered_ok junk less_op x lo' dy m LX LL' LY) as (t0 & E7 & L7 & V7). destruct (gathered_ok junk greater_op x hi' dy m LX LH' LY) as (t1 & E8 & L8 & V8).
  destruct (give_ok B a0 d0 t0 PB LD0 L7) as (g0 & E9 & L9 & V9). destruct (give_ok B a1 d1 t1 PB LD1 L8) as (g1 & E10 & L10 & V10).
  assert (VG : forall c, inside c A -> qelem g A c = (if a then qelem d A c else 0) + (if fine && (less (qelem x A c) ((whole_number (l (picked B c)) - whole_number (zp (picked B c))) * qelem s B (picked B c)) || more (qelem x A c) ((whole_number (h (picked B c)) - whole_number (zp (picked B c))) * qelem s B (picked B c))) then 0 else qelem dy A c)).
  { intros c I. rewrite (V6 c I), (V5 c I). destruct (VE c I) as [-> ->]. reflexivity. }
  destruct (x_min_max || ema).
  - exists g, d0, d1. split; [reflexivity |]. split; [exact L6 |]. split; [exact LD0 |]. split; [exact LD1 |]. split; [auto |]. exists zp. split; [intros b _; apply zero_ok |]. cbv zeta. split; [exact VG | discriminate].
  - rewrite E7. cbn [obind]. rewrite E9. cbn [obind]. rewrite E8. cbn [obind]. rewrite E10. cbn [obind].
    exists g, g0, g1. split; [reflexivity |]. split; [exact L6 |]. split; [exact L9 |]. split; [exact L10 |]. split; [discriminate |]. exists zp. split; [intros b _; apply zero_ok |]. cbv zeta. split; [exact VG |]. intros _ b I.
    rewrite (V9 b I), (V10 b I), (V7 b I), (V8 b I). split; f_equal; unfold total; f_equal; apply map_ext_in; intros c Ic; unfold used_at in Ic; apply filter_In in Ic as (Ic & Eb); apply indices_in in Ic; (destruct (list_eq_dec Z.eq_dec (picked B c) b) as [<- |]; [| discriminate]); destruct (VE c Ic) as [VL VH]; rewrite ?VL, ?VH; unfold less_op, greater_op, truth; [destruct (less _ _) | destruct (more _ _)]; ring.
Qed.
End minmax.

(** * Prune *)
Section prune.
Variable std_sort : (Qc -> Qc -> bool) -> list Qc -> list Qc.
Hypothesis SORT : sorting std_sort.
Lemma index_ok rate n : 0 <= rate -> rate <= 1 -> (0 < n)%Z -> let i := prune_index rate n in (0 <= i < n)%Z /\ whole_number i <= whole_number (n - 1) * rate /\ whole_number (n - 1) * rate < whole_number i + 1.
Proof.
  intros R0 R1 N i. assert (E : i = Qfloor (this (whole_number (n - 1) * rate))).
  { unfold i, prune_index. change (of_Z (n - 1)) with (whole_number (n - 1)). cbv zeta. assert (NN : 0 <= whole_number (n - 1) * rate). { assert (0 <= whole_number (n - 1)) by (apply (proj1 (W_le 0 _)); lia). clear - H R0. qnra. }
    destruct (this (whole_number (n - 1) * rate)) as [p d] eqn:T. unfold Qcle in NN. rewrite T in NN. unfold Qle in NN. cbn in NN. cbn [Qnum Qden Qfloor]. apply Z.quot_div_nonneg; lia. }
  destruct (floor_ok (whole_number (n - 1) * rate)) as [F1 F2]. rewrite <- E in F1, F2. split; [| split; assumption]. split.
  - apply between. assert (0 <= whole_number (n - 1)) by (apply (proj1 (W_le 0 _)); lia). change (whole_number 0) with 0. clear - H R0 F2. qnra.
  - assert (i <= n - 1)%Z; [| lia]. apply between. assert (0 <= whole_number (n - 1)) by (apply (proj1 (W_le 0 _)); lia). clear - H R1 F1. qnra.
Qed.
Lemma filter_perm (f : Qc -> bool) a b : Permutation a b -> length (filter f a) = length (filter f b).
Proof. induction 1; cbn [filter]; try congruence; [destruct (f x); cbn [length]; congruence |]. destruct (f x), (f y); reflexivity. Qed.
Lemma filter_le (f : Qc -> bool) a : (length (filter f a) <= length a)%nat.
Proof. induction a; cbn [filter]; [lia |]. destruct (f a); cbn [length]; lia. Qed.
Lemma filter_none (f : Qc -> bool) a : (forall v, In v a -> f v = false) -> filter f a = [].
Proof. induction a as [| v a IH]; intros H; cbn [filter]; [reflexivity |]. rewrite (H v) by (left; reflexivity). apply IH. intros; apply H; right; assumption. Qed.
Lemma filter_all (f : Qc -> bool) a : (forall v, In v a -> f v = true) -> filter f a = a.
Proof. induction a as [| v a IH]; intros H; cbn [filter]; [reflexivity |]. rewrite (H v) by (left; reflexivity). f_equal. apply IH. intros; apply H; right; assumption. Qed.
Definition sizes_less (i j : Qc) : bool := less (qabs i) (qabs j).
Lemma sizes_less_weak : strict_weak sizes_less.
Proof. apply (weak_on less qabs less_weak). Qed.
Lemma order_statistic x i : (i < length x)%nat -> let t := mag (nth i (std_sort sizes_less x) 0) in (exists e, In e x /\ t = mag e) /\ (smaller t x <= i < not_greater t x)%nat.
Proof.
  intros Hi t. destruct (SORT sizes_less x sizes_less_weak) as [PM OR]. set (b := std_sort sizes_less x) in *. pose proof (Permutation_length PM) as LB.
  split; [exists (nth i b 0); split; [apply (Permutation_in _ PM); apply nth_In; lia | reflexivity] |].
  assert (O : forall j k, (j <= k < length b)%nat -> mag (nth j b 0) <= mag (nth k b 0)).
  { intros j k J. destruct (Nat.eq_dec j k) as [-> | NE]; [apply Qcle_refl |]. specialize (OR 0 j k ltac:(lia)). unfold sizes_less in OR. apply less_false in OR. rewrite !qabs_mag in OR. exact OR. }
  unfold smaller, not_greater. rewrite <- (filter_perm _ _ _ PM), <- (filter_perm (fun v => if Qclt_le_dec t (mag v) then false else true) _ _ PM). split.
  - rewrite <- (firstn_skipn i b), filter_app, app_length. rewrite (filter_none _ (skipn i b)).
    + cbn [length]. pose proof (filter_le (fun v => if Qclt_le_dec (mag v) t then true else false) (firstn i b)) as F. rewrite firstn_length in F. lia.
    + intros v Iv. apply (In_nth _ _ 0) in Iv as (k & Hk & <-). rewrite skipn_length in Hk. rewrite skip_nth. specialize (O i (i + k)%nat ltac:(lia)). fold t in O. destruct (Qclt_le_dec _ _); [exfalso; qlra | reflexivity].
  - rewrite <- (firstn_skipn (S i) b), filter_app, app_length. rewrite (filter_all _ (firstn (S i) b)).
    + rewrite firstn_length. lia.
    + intros v Iv. apply (In_nth _ _ 0) in Iv as (k & Hk & <-). rewrite firstn_length in Hk. rewrite first_nth by lia. specialize (O k i ltac:(lia)). fold t in O. destruct (Qclt_le_dec _ _); [exfalso; qlra | reflexivity].
Qed.
Lemma prune_ok rate x y0 : 0 <= rate -> rate <= 1 -> x <> [] -> length y0 = length x ->
  exists t y (i : nat), prune std_sort rate x y0 = Some y /\ length y = length x /\ (exists e, In e x /\ t = mag e) /\ (smaller t x <= i < not_greater t x)%nat /\
  whole_number (Z.of_nat i) <= whole_number (Z.of_nat (length x) - 1) * rate /\ whole_number (Z.of_nat (length x) - 1) * rate < whole_number (Z.of_nat i) + 1 /\
  forall k, (k < length x)%nat -> nth k y 0 = if Qclt_le_dec (mag (nth k x 0)) (t + if Qc_eq_dec rate 1 then 1 else 0) then 0 else nth k x 0.
Proof.
  intros R0 R1 NE LY. assert (N : (0 < Z.of_nat (length x))%Z) by (destruct x; [contradiction | cbn [length]; lia]).
  destruct (index_ok rate (Z.of_nat (length x)) R0 R1 N) as (I1 & I2 & I3). unfold prune. rewrite (proj2 (less_false rate 0) R0), (proj2 (more_false rate 1) R1). cbn [negb andb]. fold sizes_less.
  set (i := prune_index rate (Z.of_nat (length x))) in *. destruct (SORT sizes_less x sizes_less_weak) as [PM _]. pose proof (Permutation_length PM) as LB.
  change (fun i0 j : Qc => less (qabs i0) (qabs j)) with sizes_less. rewrite get_ok by (unfold within, qlen; lia). cbn [obind].
  destruct (order_statistic x (Z.to_nat i) ltac:(lia)) as [O1 O2]. cbv zeta.
  destruct (each_ok (fun v => Some (if less (qabs v) (qabs (qat (std_sort sizes_less x) i) + (if same rate 1 then 1 else 0)) then 0 else v)) x y0 LY) as (y & E & L & V); [discriminate |].
  exists (mag (nth (Z.to_nat i) (std_sort sizes_less x) 0)), y, (Z.to_nat i). rewrite Z2Nat.id by lia. split; [exact E |]. split; [exact L |]. split; [exact O1 |]. split; [exact O2 |]. split; [exact I2 |]. split; [exact I3 |].
  intros k Hk. specialize (V k Hk). injection V as <-. rewrite !qabs_mag. fold (qat (std_sort sizes_less x) i).
  assert (ER : (if same rate 1 then 1 else 0) = if Qc_eq_dec rate 1 then 1 else 0). { destruct (Qc_eq_dec rate 1) as [Q | Q]; [apply same_true in Q | apply same_false in Q]; rewrite Q; reflexivity. }
  rewrite ER. unfold less. destruct (Qclt_le_dec _ _); reflexivity.
Qed.
End prune.
Lemma prune_backward_ok accum dy d0 : length dy = length d0 ->
  exists d, prune_backward accum dy d0 = Some d /\ length d = length d0 /\ forall i, (i < length d0)%nat -> nth i d 0 = (if accum then nth i d0 0 else 0) + nth i dy 0.
Proof.
  intros L. unfold prune_backward. destruct (pass_ok (fun _ e old => (if accum then old else 0) + e) (fun s dx => obind (get dy s) (fun e => obind (get dx s) (fun old => put dx s (if accum then old + e else e)))) d0 dy d0 L eq_refl) as (d & E & LD & V).
  - intros i d Hi Ld U. rewrite !get_ok by (unfold within, qlen; lia). cbn [obind]. rewrite (U i) by lia. destruct accum; f_equal; ring.
  - exists d. auto.
Qed.
