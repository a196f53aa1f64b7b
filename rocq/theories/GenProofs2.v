(** Proofs about Tile: the axes. *)
From Coq Require Import List ZArith Bool Lia QArith Qcanon.
From Verif Require Import NdSpec NdModel NdProofs IdxModel IdxProofs1 IdxProofs2 IdxProofs3 IdxProofs6 JoinModel JoinSpec JoinProofs ScanSpec ScanModel ScanProofs1 ReduceModel ReduceProofs1 ConvSpec ConvModel ConvProofs1 ConvProofs3 MatModel BinModel PoolProofs3 GenModel GenSpec GenProofs1.
From Verif Require NdProps.
Import ListNotations.
Local Open Scope list_scope.
Local Open Scope Z_scope.

(** A loop whose rounds change one block each. *)
Lemma over_blocks {T} (arr : T -> list Z) (J : Z -> T -> Prop) (P PM : list Z) (w : Z) (F : Z -> Z -> (Z -> Z) -> Z) (body : Z -> T -> option T) t0 :
  positive P -> nonneg PM -> (forall p, inside p P -> inside p PM) -> 0 < w -> zlen (arr t0) = size PM * w -> J 0 t0 ->
  (forall q j g g', 0 <= j < w -> (forall j, 0 <= j < w -> g j = g' j) -> F q j g = F q j g') ->
  (forall q t, 0 <= q < size P -> J q t -> zlen (arr t) = size PM * w -> exists t', body q t = Some t' /\ J (q + 1) t' /\ zlen (arr t') = zlen (arr t) /\
     forall i, 0 <= i -> zat (arr t') i = let b := off (unoff P q) PM * w in if (b <=? i) && (i <? b + w) then F q (i - b) (fun j => zat (arr t) (b + j)) else zat (arr t) i) ->
  exists t, loop body (upto (size P)) t0 = Some t /\ zlen (arr t) = zlen (arr t0) /\
  forall p j, inside p P -> 0 <= j < w -> zat (arr t) (off p PM * w + j) = F (off p P) j (fun j => zat (arr t0) (off p PM * w + j)).
Proof.
  intros PP NM SUB W L0 J0 EXT ST. pose proof (positive_nonneg P PP) as NP.
  destruct (loop_inv (fun k t => J k t /\ zlen (arr t) = size PM * w /\
      forall p j, inside p P -> 0 <= j < w -> zat (arr t) (off p PM * w + j) = if off p P <? k then F (off p P) j (fun j => zat (arr t0) (off p PM * w + j)) else zat (arr t0) (off p PM * w + j))
    body (size P) (size_nonneg P NP)) with (s := t0) as (t & E & (_ & L & V)).
  - intros q t Hq (Jq & L & V). destruct (ST q t Hq Jq L) as (t' & E & J' & L' & V'). exists t'. split; [exact E |]. split; [exact J' |]. split; [congruence |].
    destruct (unoff_inside P q NP Hq) as (IQ & OQ). intros p j Ip Hj. pose proof (off_bound _ _ (SUB p Ip)) as B1. pose proof (off_bound _ _ (SUB _ IQ)) as B2.
    rewrite V' by nia. cbv zeta. destruct (list_eq_dec Z.eq_dec p (unoff P q)) as [-> | NE].
    + destruct (Z.leb_spec (off (unoff P q) PM * w) (off (unoff P q) PM * w + j)); [| lia]. destruct (Z.ltb_spec (off (unoff P q) PM * w + j) (off (unoff P q) PM * w + w)); [| lia]. cbn [andb].
      rewrite OQ. destruct (Z.ltb_spec q (q + 1)); [| lia]. replace (off (unoff P q) PM * w + j - off (unoff P q) PM * w) with j by ring. apply EXT; [exact Hj |]. intros j' Hj'. rewrite V by assumption. rewrite OQ, Z.ltb_irrefl. reflexivity.
    + assert (D : off p PM <> off (unoff P q) PM) by (intros C; apply NE; apply (off_inj PM); auto). assert (D' : off p P <> q) by (intros C; apply NE; apply (off_inj P); auto; congruence).
      replace ((off (unoff P q) PM * w <=? off p PM * w + j) && (off p PM * w + j <? off (unoff P q) PM * w + w)) with false.
      * rewrite V by assumption. destruct (Z.ltb_spec (off p P) q), (Z.ltb_spec (off p P) (q + 1)); try lia; reflexivity.
      * symmetry. apply andb_false_iff. destruct (Z_lt_le_dec (off p PM) (off (unoff P q) PM)); [left; apply Z.leb_gt; nia | right; apply Z.ltb_ge; nia].
  - split; [exact J0 |]. split; [exact L0 |]. intros p j Ip Hj. pose proof (off_bound _ _ Ip). destruct (Z.ltb_spec (off p P) 0); [lia | reflexivity].
  - exists t. split; [exact E |]. split; [congruence |]. intros p j Ip Hj. rewrite V by assumption. pose proof (off_bound _ _ Ip). destruct (Z.ltb_spec (off p P) (size P)); [reflexivity | lia].
Qed.

Lemma products_times a b : products a b = times a b.
Proof. reflexivity. Qed.
Lemma times_app a : forall b c d, length a = length b -> times (a ++ c) (b ++ d) = times a b ++ times c d.
Proof. induction a as [| x a IH]; intros [| y b] c d L; try discriminate; [reflexivity |]. cbn [app times]. rewrite IH by (cbn in L; lia). reflexivity. Qed.
Lemma times_length a : forall b, length a = length b -> length (times a b) = length a.
Proof. induction a as [| x a IH]; intros [| y b] L; try discriminate; [reflexivity |]. cbn [times length]. rewrite IH by (cbn in L; lia). reflexivity. Qed.
Definition ones_up (l : list Z) : Prop := Forall (fun r => 1 <= r) l.
Lemma times_positive a : forall b, length a = length b -> positive a -> ones_up b -> positive (times a b).
Proof. induction a as [| x a IH]; intros [| y b] L P U; try discriminate; [constructor |]. inversion P; inversion U; subst. constructor; [nia |]. apply IH; auto. Qed.
Lemma inside_times a : forall b c, length a = length b -> ones_up b -> inside c a -> inside c (times a b).
Proof. induction a as [| x a IH]; intros [| y b] c L U I; try discriminate; inversion I; subst; [constructor |]. inversion U; subst. constructor; [nia |]. apply IH; auto. Qed.
Lemma folded_inside c : forall s r, length s = length r -> positive s -> inside c (times s r) -> inside (folded c s) s.
Proof. induction c as [| i c IH]; intros [| n s] [| m r] L P I; try discriminate; cbn [times] in I; inversion I; subst; [constructor |]. inversion P; subst. cbn [folded]. constructor; [apply Z.mod_pos_bound; assumption |]. apply (IH s r); auto. Qed.
Lemma folded_app a : forall s b t, length a = length s -> folded (a ++ b) (s ++ t) = folded a s ++ folded b t.
Proof. induction a as [| i a IH]; intros [| n s] b t L; try discriminate; [reflexivity |]. cbn [app folded]. rewrite IH by (cbn in L; lia). reflexivity. Qed.
Lemma folded_self c s : inside c s -> folded c s = c.
Proof. induction 1 as [| i n c s H I IH]; [reflexivity |]. cbn [folded]. rewrite IH, Z.mod_small by exact H. reflexivity. Qed.

Section axes.
Variables (src rp : list Z) (st : list Z).
Hypothesis LEN : length src = length rp.
Hypothesis PS : positive src.
Hypothesis UR : ones_up rp.
Let M := times src rp.
Hypothesis SM : size M < 2147483648.
Hypothesis ST : strides M = Some st.

Lemma M_pos : positive M.
Proof using LEN PS UR. apply times_positive; assumption. Qed.
Lemma flat_ok c : inside c M -> nd2flat c st = Some (off c M).
Proof using LEN PS UR SM ST.
  intros I. assert (NE : M <> []) by (intros C; rewrite C in ST; discriminate). destruct (NdProps.C26_offset_partial M c NE I ltac:(lia)) as (st' & E & F & _).
  rewrite ST in E. injection E as <-. rewrite F, position_off by exact I. reflexivity.
Qed.

(** The state before the axes from number [length P] on are repeated. *)
Definition tiled_from (P R idx : list Z) : Prop := exists PM RM, M = PM ++ RM /\ length PM = length P /\ zlen idx = size M /\
  forall p q, inside p P -> inside q RM -> zat idx (off p PM * size RM + off q RM) = off (p ++ folded q R) src.

Lemma split_at P R : src = P ++ R -> exists rP rR, rp = rP ++ rR /\ length rP = length P /\ length rR = length R /\ M = times P rP ++ times R rR /\ positive P /\ positive R /\ ones_up rP /\ ones_up rR.
Proof using LEN PS UR.
  intros E. exists (firstn (length P) rp), (skipn (length P) rp). assert (L : length rp = (length P + length R)%nat) by (rewrite <- LEN, E, app_length; reflexivity).
  assert (L1 : length (firstn (length P) rp) = length P) by (rewrite firstn_length; lia). assert (RP : rp = firstn (length P) rp ++ skipn (length P) rp) by (rewrite firstn_skipn; reflexivity).
  split; [exact RP |]. split; [exact L1 |]. split; [rewrite skipn_length; lia |]. split; [unfold M; rewrite E, RP at 1; rewrite times_app by (rewrite L1; reflexivity); reflexivity |].
  pose proof PS as PS'. rewrite E in PS'. apply Forall_app in PS' as (A & B). pose proof UR as U. unfold ones_up in U. rewrite RP in U. apply Forall_app in U as (C & D). auto.
Qed.

Lemma rows_done P l idx0 : src = P ++ [l] -> zlen idx0 = size M ->
  exists iota idx, loop (fun q => tile_row st (last src 0) (last rp 0) (unoff P q ++ zeros [l])) (upto (size P)) (0, idx0) = Some (iota, idx) /\ tiled_from P [l] idx.
Proof using LEN PS UR SM ST.
  intros E L0. destruct (split_at P [l] E) as (rP & rR & ER & LP & LR & EM & PP & PR & UP & UR'). destruct rR as [| r [|]]; try discriminate. cbn [times] in EM.
  inversion PR as [| ? ? Hl _]; subst. inversion UR' as [| ? ? Hr _]; subst. rewrite E, ER. rewrite !last_last.
  set (PM := times P rP) in *. assert (SE : size M = size PM * (l * r)) by (rewrite EM, size_app; cbn [size]; ring).
  assert (SUB : forall p, inside p P -> inside p PM) by (intros p I; apply inside_times; auto).
  assert (PPM : positive PM) by (apply times_positive; auto).
  destruct (over_blocks (@snd Z (list Z)) (fun k t => fst t = k * l) P PM (l * r) (fun q j _ => q * l + j mod l) (fun q => tile_row st l r (unoff P q ++ zeros [l])) (0, idx0)) as ((iota & idx) & EL & L & V); auto.
  - apply positive_nonneg. exact PPM.
  - nia.
  - cbn [snd]. congruence.
  - intros q (iota & a) Hq Hi La. cbn [fst snd] in *. destruct (unoff_inside P q (positive_nonneg P PP) Hq) as (I & O). set (p := unoff P q) in *. pose proof (off_bound _ _ (SUB p I)) as B.
    assert (IM : inside (p ++ zeros [l]) M) by (rewrite EM; apply inside_app; [apply SUB; exact I | constructor; [nia | constructor]]).
    unfold tile_row. rewrite (flat_ok _ IM). cbn [obind]. assert (OM : off (p ++ zeros [l]) M = off p PM * (l * r)).
    { rewrite EM, off_app; [cbn [zeros map off size]; ring | apply SUB; exact I | constructor; [nia | constructor]]. }
    rewrite OM. set (b := off p PM * (l * r)) in *. assert (Hb : b + l * r <= zlen a) by (unfold b; nia). assert (Hb0 : 0 <= b) by (unfold b; nia).
    destruct (loop_inv (fun k c => zlen c = zlen a /\ forall i, 0 <= i -> zat c i = if (b <=? i) && (i <? b + k) then iota + (i - b) else zat a i) (fun i idx => put idx (b + i) (iota + i)) l ltac:(lia)) with (s := a) as (a1 & E1 & L1 & V1).
    { intros i c Hi' (Lc & Vc). destruct (zput c (b + i) (iota + i) ltac:(nia)) as (c' & Ec & Lc' & Vc'). exists c'. split; [exact Ec |]. split; [lia |]. intros j Hj. rewrite Vc' by exact Hj.
      destruct (Z.eqb_spec j (b + i)) as [-> |].
      - destruct (Z.leb_spec b (b + i)); [| lia]. destruct (Z.ltb_spec (b + i) (b + (i + 1))); [| lia]. cbn [andb]. lia.
      - rewrite Vc by exact Hj. destruct (Z.leb_spec b j); cbn [andb]; [| reflexivity]. destruct (Z.ltb_spec j (b + i)), (Z.ltb_spec j (b + (i + 1))); try lia; reflexivity. }
    { split; [reflexivity |]. intros i Hi'. destruct (Z.leb_spec b i); cbn [andb]; [| reflexivity]. destruct (Z.ltb_spec i (b + 0)); [lia | reflexivity]. }
    rewrite E1. cbn [obind]. destruct (repeat_ok b l r a1 Hl Hb0 Hr ltac:(nia)) as (a2 & E2 & L2 & V2). rewrite E2. cbn [obind]. eexists. split; [reflexivity |]. cbn [fst snd]. split; [lia |]. split; [congruence |].
    intros i Hi'. fold b. rewrite V2 by exact Hi'. replace (r * l) with (l * r) by ring. destruct (Z.leb_spec b i); cbn [andb].
    + destruct (Z.ltb_spec i (b + l * r)).
      * pose proof (Z.mod_pos_bound (i - b) l Hl). rewrite V1 by lia. destruct (Z.leb_spec b (b + (i - b) mod l)); [| lia]. destruct (Z.ltb_spec (b + (i - b) mod l) (b + l)); [| lia]. cbn [andb]. lia.
      * rewrite V1 by exact Hi'. destruct (Z.ltb_spec i (b + l)); [nia |]. rewrite andb_false_r. reflexivity.
    + rewrite V1 by exact Hi'. destruct (Z.leb_spec b i); [lia | reflexivity].
  - exists iota, idx. split; [exact EL |]. exists PM, [l * r]. split; [exact EM |]. split; [apply times_length; auto |]. split; [cbn [snd] in L; congruence |].
    intros p q Ip Iq. inversion Iq as [| j ? q' ? Hj Iq']; subst. inversion Iq'; subst. cbn [folded off size]. specialize (V p j Ip ltac:(lia)). cbn [snd] in V. rewrite !Z.mul_1_r, Z.add_0_r, V. rewrite off_app; [cbn [off size]; ring | exact Ip |].
    constructor; [apply Z.mod_pos_bound; exact Hl | constructor].
Qed.

Lemma block_done P s R idx : src = P ++ s :: R -> tiled_from (P ++ [s]) R idx ->
  exists idx', loop (fun q => tile_block st M (Z.of_nat (length P)) (nth (length P) rp 0) (unoff P q ++ zeros (s :: R))) (upto (size P)) idx = Some idx' /\ tiled_from P (s :: R) idx'.
Proof using LEN PS UR SM ST.
  intros E (PM1 & RM1 & EM1 & LM1 & L0 & V0). destruct (split_at P (s :: R) E) as (rP & rR & ER & LP & LR & EM & PP & PR & UP & UR'). destruct rR as [| r rR]; try discriminate. cbn [times] in EM.
  inversion PR as [| ? ? Hs PR2]; subst. inversion UR' as [| ? ? Hr UR2]; subst. set (PM := times P rP) in *. set (RM := times R rR) in *.
  assert (PM1 = PM ++ [s * r] /\ RM1 = RM) as (-> & ->).
  { assert (X : (PM ++ [s * r]) ++ RM = PM1 ++ RM1) by (rewrite <- app_assoc; cbn [app]; congruence).
    assert (LX : length (PM ++ [s * r]) = length PM1) by (rewrite LM1, !app_length; unfold PM; rewrite times_length by auto; reflexivity).
    pose proof (f_equal (firstn (length PM1)) X) as X1. pose proof (f_equal (skipn (length PM1)) X) as X2. rewrite (firstn_app_len PM1 RM1 _ eq_refl), (firstn_app_len _ RM) in X1 by (symmetry; exact LX). rewrite (skipn_app_len PM1 RM1 _ eq_refl), (skipn_app_len _ RM) in X2 by (symmetry; exact LX). split; congruence. }
  assert (LRR : length R = length rR) by (cbn [length] in LR; lia). assert (PRM : positive RM) by (apply times_positive; auto). pose proof (size_pos RM PRM) as HR.
  set (w := s * r * size RM). set (cnt := s * size RM). assert (Hcnt : 0 < cnt) by (unfold cnt; nia). assert (WC : w = r * cnt) by (unfold w, cnt; ring).
  assert (SE : size M = size PM * w) by (rewrite EM, size_app; cbn [size]; unfold w; ring). assert (SUB : forall p, inside p P -> inside p PM) by (intros p I; apply inside_times; auto).
  assert (PPM : positive PM) by (apply times_positive; auto). assert (LPM : length PM = length P) by (apply times_length; auto).
  assert (NR : nth (length P) rp 0 = r) by (rewrite ER, <- LP, app_nth2, Nat.sub_diag by lia; reflexivity).
  assert (IS : inner_size M (Z.of_nat (length P)) = Some w).
  { destruct (NdProps.C26_sizes_partial M (length P) M_pos SM) as (_ & IS & _); [rewrite EM, app_length; cbn [length]; lia |]. rewrite IS. f_equal. rewrite EM, <- LPM, (skipn_app_len PM _ _ eq_refl). cbn [size]. unfold w. ring. }
  destruct (over_blocks (fun a : list Z => a) (fun _ _ => True) P PM w (fun _ j g => g (j mod cnt)) (fun q => tile_block st M (Z.of_nat (length P)) (nth (length P) rp 0) (unoff P q ++ zeros (s :: R))) idx) as (idx' & EL & L & V); auto.
  - apply positive_nonneg. exact PPM.
  - nia.
  - congruence.
  - intros _ j g g' Hj H. apply H. pose proof (Z.mod_pos_bound j cnt Hcnt). nia.
  - intros q a Hq _ La. destruct (unoff_inside P q (positive_nonneg P PP) Hq) as (I & O). set (p := unoff P q) in *. pose proof (off_bound _ _ (SUB p I)) as B.
    destruct (zeros_inside (s * r :: RM)) as (IZ & OZ); [constructor; [nia | exact PRM] |].
    assert (ZE : zeros (s :: R) = zeros (s * r :: RM)). { cbn [zeros map]. f_equal. unfold RM. clear - LR. cbn [length] in LR. assert (L : length R = length rR) by lia. clear LR. revert rR L. induction R as [| x R IH]; intros [| y rR] L; try discriminate; [reflexivity |]. cbn [times map]. f_equal. apply IH. cbn in L. lia. }
    assert (IM : inside (p ++ zeros (s :: R)) M) by (rewrite EM, ZE; apply inside_app; [apply SUB; exact I | exact IZ]).
    unfold tile_block. rewrite (flat_ok _ IM). cbn [obind]. rewrite IS. cbn [obind]. rewrite NR. unfold divide. destruct (Z.eqb_spec r 0); [lia |]. cbn [obind]. assert (QE : Z.quot w r = cnt) by (rewrite WC, Z.mul_comm, Z.quot_mul by lia; reflexivity). rewrite QE.
    assert (OM : off (p ++ zeros (s :: R)) M = off p PM * w). { rewrite EM, ZE, off_app by (auto). rewrite OZ. cbn [size]. unfold w. ring. }
    rewrite OM. destruct (repeat_ok (off p PM * w) cnt r a Hcnt ltac:(nia) Hr ltac:(nia)) as (a2 & E2 & L2 & V2). exists a2. split; [exact E2 |]. split; [exact Logic.I |]. split; [exact L2 |].
    intros i Hi. rewrite V2 by exact Hi. rewrite WC. reflexivity.
  - exists idx'. split; [exact EL |]. exists PM, (s * r :: RM). split; [exact EM |]. split; [exact LPM |]. split; [congruence |].
    intros p q Ip Iq. inversion Iq as [| c ? q' ? Hc Iq']; subst. pose proof (off_bound _ _ Iq') as BQ. cbn [off size folded]. change (s * r * size RM) with w. rewrite V; [| exact Ip | unfold w; nia].
    assert (MO : (c * size RM + off q' RM) mod cnt = c mod s * size RM + off q' RM).
    { symmetry. apply (Z.mod_unique_pos _ _ (c / s)); [pose proof (Z.mod_pos_bound c s Hs); unfold cnt; nia |]. rewrite (Z.div_mod c s) at 1 by lia. unfold cnt. ring. }
    rewrite MO. specialize (V0 (p ++ [c mod s]) q'). rewrite <- app_assoc in V0. cbn [app] in V0. rewrite <- V0; [| apply inside_app; [exact Ip | constructor; [apply Z.mod_pos_bound; exact Hs | constructor]] | exact Iq'].
    f_equal. rewrite off_app; [| apply SUB; exact Ip | constructor; [pose proof (Z.mod_pos_bound c s Hs); nia | constructor]]. cbn [off size]. unfold w. ring.
Qed.
End axes.
