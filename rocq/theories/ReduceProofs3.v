(** Reductions. *)
From Coq Require Import List ZArith Lia Bool Permutation QArith Qcanon.
From Verif Require Import NdModel NdSpec NdProofs IdxModel IdxSpec IdxProofs1 IdxProofs2 IdxProofs3 IdxProofs5 IdxProofs6 JoinModel JoinSpec JoinProofs JoinProofs2 ScanModel ScanSpec ScanProofs1 ReduceModel ReduceSpec ReduceProofs1 ReduceProofs2.
Import ListNotations.
Local Open Scope list_scope.
Local Open Scope Z_scope.

(** Best elements of a row. *)
Section best.
Variables (better : Qc -> Qc -> bool) (start : Qc).
Hypothesis B0 : forall v, better v v = false.
Hypothesis B1 : forall v w m, better v m = true -> better w m = false -> better w v = false.
Hypothesis B2 : forall v w m, better v m = true -> better w m = false -> better v w = true.
Definition best_at (l : list Qc) (i : nat) : Prop :=
  (i < length l)%nat /\ (forall j, (j < length l)%nat -> better (nth j l 0%Qc) (nth i l 0%Qc) = false) /\ (forall j, (j < i)%nat -> better (nth i l 0%Qc) (nth j l 0%Qc) = true).
Lemma best_fold l : forall pre m mi,
  (m = start /\ mi = 0 /\ (forall j, (j < length pre)%nat -> better (nth j pre 0%Qc) start = false)) \/ (better m start = true /\ exists i, mi = Z.of_nat i /\ m = nth i pre 0%Qc /\ best_at pre i) ->
  exists m' mi', fold_left (best_step better) l (m, mi, Z.of_nat (length pre)) = (m', mi', Z.of_nat (length (pre ++ l))) /\
  ((m' = start /\ mi' = 0 /\ (forall j, (j < length (pre ++ l))%nat -> better (nth j (pre ++ l) 0%Qc) start = false)) \/
   (better m' start = true /\ exists i, mi' = Z.of_nat i /\ m' = nth i (pre ++ l) 0%Qc /\ best_at (pre ++ l) i)).
Proof.
  induction l as [|v l IH]; intros pre m mi H; cbn [fold_left]; [rewrite app_nil_r; eauto|].
  replace (pre ++ v :: l) with ((pre ++ [v]) ++ l) by (rewrite <- app_assoc; auto).
  assert (LL : length (pre ++ [v]) = S (length pre)) by (rewrite app_length; cbn; lia).
  assert (NV : nth (length pre) (pre ++ [v]) 0%Qc = v) by (rewrite app_nth2, Nat.sub_diag by lia; auto).
  assert (NO : forall j, (j < length pre)%nat -> nth j (pre ++ [v]) 0%Qc = nth j pre 0%Qc) by (intros; apply app_nth1; auto).
  unfold best_step at 2. assert (EX : better v m = true \/ better v m = false) by (destruct (better v m); auto).
  replace (Z.of_nat (length pre) + 1) with (Z.of_nat (length (pre ++ [v]))) by lia. destruct EX as [Ex|Ex]; rewrite Ex.
  - apply IH. right. destruct H as [(-> & -> & H)|(HS & i & -> & Hm & Hi & H1 & H2)].
    + split; [auto|]. exists (length pre). split; [auto|]. split; [auto|]. unfold best_at. rewrite LL, NV. split; [lia|]. split.
      * intros j Hj. destruct (Nat.eq_dec j (length pre)) as [->|]; [rewrite NV; auto|]. rewrite NO by lia. eapply B1; eauto. apply H. lia.
      * intros j Hj. rewrite NO by lia. eapply B2; eauto.
    + subst m. split.
      { assert (EY : better v start = true \/ better v start = false) by (destruct (better v start); auto). destruct EY as [Ey|Ey]; [auto|]. rewrite (B1 _ _ _ HS Ey) in Ex. discriminate. }
      exists (length pre). split; [auto|]. split; [auto|]. unfold best_at. rewrite LL, NV. split; [lia|]. split.
      * intros j Hj. destruct (Nat.eq_dec j (length pre)) as [->|]; [rewrite NV; auto|]. rewrite NO by lia. eapply B1; eauto. apply H1. lia.
      * intros j Hj. rewrite NO by lia. eapply B2; eauto.
  - apply IH. destruct H as [(-> & -> & H)|(HS & i & -> & Hm & Hi & H1 & H2)].
    + left. split; [auto|]. split; [auto|]. intros j Hj. destruct (Nat.eq_dec j (length pre)) as [->|]; [rewrite NV; auto|]. rewrite NO by lia. apply H. lia.
    + right. split; [auto|]. exists i. split; [auto|]. rewrite NO by auto. split; [auto|]. unfold best_at. rewrite LL, NO by auto. split; [lia|]. subst m. split.
      * intros j Hj. destruct (Nat.eq_dec j (length pre)) as [->|]; [rewrite NV; auto|]. rewrite NO by lia. apply H1. lia.
      * intros j Hj. rewrite NO by lia. apply H2. auto.
Qed.
Lemma best_row_ok l : (exists v, In v l /\ better v start = true) ->
  exists i n, best_row better start l = (nth i l 0%Qc, Z.of_nat i, n) /\ best_at l i.
Proof.
  intros (v & Hv & Sv). unfold best_row. destruct (best_fold l [] start 0) as (m & mi & E & H).
  { left. split; [auto|]. split; [auto|]. intros j Hj. cbn in Hj. lia. }
  cbn [app length] in E, H. change (Z.of_nat 0) with 0 in E. rewrite E. destruct H as [(_ & _ & H)|(_ & i & -> & -> & H)]; [|exists i; eauto].
  destruct (In_nth l v 0%Qc Hv) as (j & Hj & <-). rewrite H in Sv by auto. discriminate.
Qed.
End best.

Lemma sum_row_lsum l : sum_row l = lsum l.
Proof. unfold sum_row, lsum. apply fold_symmetric; intros; ring. Qed.
Lemma prod_row_lprod l : prod_row l = lprod l.
Proof. unfold prod_row, lprod. apply fold_symmetric; intros; ring. Qed.

Lemma app_inj_length {A} (a b c d : list A) : a ++ b = c ++ d -> length a = length c -> a = c /\ b = d.
Proof. revert c. induction a as [|x a IH]; intros [|y c] E L; try discriminate; cbn in *; [auto|]. injection E as -> E. injection L as L. destruct (IH c E L). subst. auto. Qed.

Section reduction.
Variables (mask : list bool) (shape : list Z).
Hypothesis LEN : length shape = length mask.
Hypothesis POS : positive shape.
Let A := select false mask shape.
Let B := select true mask shape.
Definition the_reduction : reduction :=
  {| r_axes := reduced_axes 0 mask;
     r_transpose := if list_eq_dec Z.eq_dec (transpose_axes mask) (upto (Z.of_nat (length shape))) then None else Some (transpose_axes mask);
     r_size := size (select true mask shape) |}.
Definition spot (idx : list Z) : Z := off (select false mask idx) A * size B + off (select true mask idx) B.
Definition arranged (x : list Qc) : option (list Qc) := match r_transpose the_reduction with Some ta => transposed ta shape x | None => Some x end.

Lemma PA : positive A. Proof. apply select_positive. auto. Qed.
Lemma PB : positive B. Proof. apply select_positive. auto. Qed.
Lemma SAB : size A * size B = size shape. Proof. apply select_size. auto. Qed.
Lemma SA : 0 < size A. Proof. apply size_pos, PA. Qed.
Lemma SB : 0 < size B. Proof. apply size_pos, PB. Qed.
Lemma spot_perm idx : inside idx shape -> off (perm (transpose_axes mask) idx) (perm (transpose_axes mask) shape) = spot idx.
Proof.
  intros I. rewrite !perm_select by (rewrite ?(inside_length _ _ I); auto). apply off_app; apply select_inside; auto.
Qed.
Lemma spot_plain idx : transpose_axes mask = upto (Z.of_nat (length shape)) -> inside idx shape -> off idx shape = spot idx.
Proof.
  intros E I. rewrite <- spot_perm by auto. rewrite E, upto_range, Nat2Z.id. unfold perm. rewrite <- (inside_length _ _ I) at 1. rewrite !range_at. auto.
Qed.
Lemma not_empty : transpose_axes mask <> upto (Z.of_nat (length shape)) -> shape <> [].
Proof. intros H ->. apply H. destruct mask; [reflexivity|discriminate]. Qed.
Lemma arranged_ok x : qlen x = size shape -> exists xt, arranged x = Some xt /\ qlen xt = size shape /\
  forall idx, inside idx shape -> qat xt (spot idx) = qat x (off idx shape).
Proof.
  intros L. unfold arranged, the_reduction. cbn [r_transpose]. destruct (list_eq_dec Z.eq_dec (transpose_axes mask) (upto (Z.of_nat (length shape)))) as [E|E].
  - exists x. split; [auto|]. split; [auto|]. intros idx I. rewrite (spot_plain idx E I). auto.
  - destruct (transposed_ok (transpose_axes mask) shape x (not_empty E) (ta_good _ _ POS LEN) L) as (xt & E' & L' & V). exists xt. split; [auto|]. split; [auto|].
    intros idx I. rewrite <- V by auto. rewrite spot_perm by auto. auto.
Qed.
Lemma spot_within idx : inside idx shape -> within (size shape) (spot idx).
Proof.
  intros I. unfold spot, within. pose proof (off_bound _ _ (select_inside false mask _ _ I)) as H1. pose proof (off_bound _ _ (select_inside true mask _ _ I)) as H2.
  fold A in H1. fold B in H2. rewrite <- SAB. nia.
Qed.
Lemma spot_exists k r : inside k A -> inside r B -> exists idx, inside idx shape /\ select false mask idx = k /\ select true mask idx = r.
Proof. intros K R. destruct (merge_ok mask shape k r LEN K R) as (H1 & H2 & H3). eauto. Qed.
Lemma off_exists s p : positive s -> within (size s) p -> exists k, inside k s /\ off k s = p.
Proof.
  intros P W. assert (I : In p (map (fun x => off x s) (indices s))).
  { rewrite indices_off by (apply positive_nonneg; auto). rewrite range_in. unfold within in W. lia. }
  apply in_map_iff in I as (k & E & H). apply indices_in in H. eauto.
Qed.
Lemma spot_onto o i : 0 <= o < size A -> 0 <= i < size B -> exists idx, inside idx shape /\ spot idx = o * size B + i /\ off (select false mask idx) A = o /\ off (select true mask idx) B = i.
Proof.
  intros O I. destruct (off_exists A o PA O) as (k & K & <-). destruct (off_exists B i PB I) as (r & R & <-). destruct (spot_exists k r K R) as (idx & H1 & H2 & H3).
  exists idx. unfold spot. rewrite H2, H3. auto.
Qed.
Lemma spot_inj i j : inside i shape -> inside j shape -> spot i = spot j -> i = j.
Proof.
  intros I J E. rewrite <- !spot_perm in E by auto. pose proof (ta_good _ _ POS LEN) as G.
  apply off_inj in E; [|apply positive_nonneg, (perm_positive _ _ G)|apply perm_inside; auto|apply perm_inside; auto].
  rewrite !perm_select in E by (rewrite ?(inside_length _ _ I), ?(inside_length _ _ J); auto).
  assert (LS : forall b, length (select b mask i) = length (select b mask j)). { intros b. rewrite (inside_length _ _ (select_inside b mask _ _ I)), (inside_length _ _ (select_inside b mask _ _ J)). auto. }
  apply app_inj_length in E as (E1 & E2); [|apply LS].
  assert (M : forall l, length l = length mask -> merge mask (select false mask l) (select true mask l) = l).
  { clear. induction mask as [|m mk IH]; intros [|a l] L; try discriminate; [reflexivity|]. cbn in L. destruct m; cbn [select Bool.eqb merge]; rewrite IH by lia; auto. }
  rewrite <- (M i), <- (M j), E1, E2 by (rewrite ?(inside_length _ _ I), ?(inside_length _ _ J); auto). auto.
Qed.

(** The row of the arranged input is the group. *)
Lemma row_group x xt idx : (forall idx, inside idx shape -> qat xt (spot idx) = qat x (off idx shape)) -> inside idx shape ->
  row_of xt (off (select false mask idx) A) (size B) = elems x shape (group mask shape idx).
Proof.
  intros V I. assert (K : inside (select false mask idx) A) by (apply select_inside; auto).
  unfold row_of, elems, group. change (fun j => if list_eq_dec Z.eq_dec (select false mask j) (select false mask idx) then true else false) with (fun j => same (select false mask j) (select false mask idx)).
  rewrite (group_merge mask shape _ LEN K). fold B. rewrite upto_range, <- (indices_off B (positive_nonneg _ PB)), !map_map. apply map_ext_in. intros r Hr. apply indices_in in Hr.
  destruct (merge_ok mask shape _ r LEN K Hr) as (H1 & H2 & H3). unfold qelem. rewrite position_off by auto. fold (qat x (0 * size shape + off (merge mask (select false mask idx) r) shape)).
  cbn [Z.mul]. rewrite Z.add_0_l, <- V by auto. unfold spot. rewrite H2, H3. auto.
Qed.

Lemma red_forward_ok {S} (reduce : Z -> Z -> list Qc -> S -> option S) x y :
  red_forward reduce the_reduction shape x y = obind (arranged x) (fun xt => reduce (size A) (size B) xt y).
Proof.
  unfold red_forward, arranged. change (r_size the_reduction) with (size B). rewrite size_from_0, <- SAB, divide_mul by (pose proof SB; lia). cbn [obind].
  destruct (r_transpose the_reduction); auto.
Qed.
Lemma red_backward_ok reduce (v : Z -> Qc) (accum : bool) dx : qlen dx = size shape ->
  (forall (acc : bool) d, qlen d = size shape -> exists r, reduce (size A) (size B) acc d = Some r /\ length r = length d /\
     forall p, within (size shape) p -> qat r p = ((if acc then qat d p else 0) + v p)%Qc) ->
  exists r, red_backward reduce the_reduction shape accum dx = Some r /\ length r = length dx /\
    forall idx, inside idx shape -> qat r (off idx shape) = ((if accum then qat dx (off idx shape) else 0) + v (spot idx))%Qc.
Proof.
  intros L H. unfold red_backward. change (r_size the_reduction) with (size B). rewrite size_from_0.
  assert (D : divide (size shape) (size B) = Some (size A)) by (rewrite <- SAB; apply divide_mul; pose proof SB; lia). rewrite D. cbn [obind].
  unfold the_reduction. cbn [r_transpose]. destruct (list_eq_dec Z.eq_dec (transpose_axes mask) (upto (Z.of_nat (length shape)))) as [E|E].
  - destruct (H accum dx L) as (r & E' & L' & V). exists r. split; [auto|]. split; [auto|]. intros idx I. rewrite V by (apply off_bound; auto). rewrite (spot_plain idx E I). auto.
  - set (z := repeat 0%Qc (Z.to_nat (size shape))). assert (Lz : qlen z = size shape). { unfold qlen, z. rewrite repeat_length. pose proof (size_pos _ POS). lia. }
    destruct (H false z Lz) as (d & E' & L' & V). rewrite E'. cbn [obind].
    destruct (untransposed_ok (transpose_axes mask) shape accum d dx (not_empty E) (ta_good _ _ POS LEN)) as (r & E2 & L2 & V2); [unfold qlen in *; congruence|auto|].
    exists r. split; [auto|]. split; [auto|]. intros idx I. rewrite V2 by auto. rewrite spot_perm, V by (auto; apply spot_within; auto). f_equal. ring.
Qed.

(** ** Forward *)
Lemma out_at keep_dims idx : inside idx shape -> position 0 (out_index keep_dims mask idx) (out_shape keep_dims mask shape) = off (select false mask idx) A.
Proof.
  intros I. rewrite out_position by (rewrite ?(inside_length _ _ I); auto). rewrite position_off by (apply select_inside; auto). fold A. lia.
Qed.
Lemma kept_within idx : inside idx shape -> 0 <= off (select false mask idx) A < size A.
Proof. intros I. apply off_bound, select_inside. auto. Qed.
Lemma rows_ok keep_dims (f : Z -> list Qc -> Qc) x y0 : qlen x = size shape -> qlen y0 = size (out_shape keep_dims mask shape) ->
  exists y, red_forward (fun outer r => rows_forward (f r) outer r) the_reduction shape x y0 = Some y /\ length y = length y0 /\
    forall idx, inside idx shape -> qelem y (out_shape keep_dims mask shape) (out_index keep_dims mask idx) = f (size B) (elems x shape (group mask shape idx)).
Proof.
  intros Lx Ly. rewrite out_size in Ly by auto. fold A in Ly. rewrite red_forward_ok. destruct (arranged_ok x Lx) as (xt & E & Lt & V). rewrite E. cbn [obind].
  destruct (rows_forward_ok (f (size B)) (size A) (size B) xt y0) as (y & E' & L & W); [pose proof SB; lia|rewrite SAB; auto|auto|].
  exists y. split; [auto|]. split; [auto|]. intros idx I. unfold qelem. rewrite out_at by auto. rewrite <- (row_group x xt) by auto. apply W, kept_within. auto.
Qed.
Lemma best_rows_ok better start keep_dims x y0 ind0 : qlen x = size shape -> qlen y0 = size (out_shape keep_dims mask shape) -> Z.of_nat (length ind0) = size (out_shape keep_dims mask shape) ->
  exists y ind, best_forward better start the_reduction shape x y0 ind0 = Some (y, ind) /\ length y = length y0 /\ length ind = length ind0 /\
    forall idx, inside idx shape ->
      qelem y (out_shape keep_dims mask shape) (out_index keep_dims mask idx) = fst (fst (best_row better start (elems x shape (group mask shape idx)))) /\
      elem ind (out_shape keep_dims mask shape) (out_index keep_dims mask idx) = snd (fst (best_row better start (elems x shape (group mask shape idx)))).
Proof.
  intros Lx Ly Li. rewrite out_size in Ly, Li by auto. fold A in Ly, Li. unfold best_forward. rewrite red_forward_ok. destruct (arranged_ok x Lx) as (xt & E & Lt & V). rewrite E. cbn [obind].
  assert (G : forall m, Z.of_nat m <= size A -> exists y ind, loop (fun o '(y, ind) => obind (row xt o (size B)) (fun l => let '(m, mi, _) := best_row better start l in obind (put y o m) (fun y => obind (put ind o mi) (fun ind => Some (y, ind))))) (upto (Z.of_nat m)) (y0, ind0) = Some (y, ind) /\
    length y = length y0 /\ length ind = length ind0 /\ forall o, 0 <= o < Z.of_nat m -> qat y o = fst (fst (best_row better start (row_of xt o (size B)))) /\ nth (Z.to_nat o) ind 0 = snd (fst (best_row better start (row_of xt o (size B))))).
  { induction m as [|m IH]; intros M; [exists y0, ind0; split; [reflexivity|split; [auto|split; [auto|lia]]]|].
    destruct IH as (y & ind & E1 & L1 & L2 & W); [lia|]. rewrite upto_S, loop_app, E1. cbn [obind loop]. rewrite (row_ok xt (size A)) by (rewrite ?SAB; auto; pose proof SB; lia). cbn [obind].
    destruct (best_row better start (row_of xt (Z.of_nat m) (size B))) as [[bm bi] bn] eqn:EB.
    destruct (put_ok y (Z.of_nat m) bm) as (y' & P1 & P2 & P3 & _); [unfold within, qlen in *; lia|]. rewrite P1. cbn [obind].
    destruct (put_gen 0 ind (Z.of_nat m) bi) as (ind' & Q1 & Q2 & Q3); [lia|]. rewrite Q1. cbn [obind].
    exists y', ind'. split; [auto|]. split; [congruence|]. split; [congruence|]. intros o O. rewrite P3, Q3 by lia. destruct (Z.eqb_spec o (Z.of_nat m)); [subst; rewrite EB; auto|apply W; lia]. }
  destruct (G (Z.to_nat (size A))) as (y & ind & E1 & L1 & L2 & W); [pose proof SA; lia|]. rewrite Z2Nat.id in E1, W by (pose proof SA; lia).
  exists y, ind. split; [auto|]. split; [auto|]. split; [auto|]. intros idx I. unfold qelem, elem. rewrite out_at by auto. rewrite <- (row_group x xt) by auto. apply W, kept_within. auto.
Qed.

(** ** Backward *)
Lemma row_place o i p : 0 <= i < size B -> p = o * size B + i -> p / size B = o /\ p mod size B = i.
Proof. intros I ->. rewrite Z.add_comm, Z.div_add, Z.mod_add by (pose proof SB; lia). rewrite Z.div_small, Z.mod_small by auto. auto. Qed.
Lemma place_row p : within (size shape) p -> exists o i, 0 <= o < size A /\ 0 <= i < size B /\ p = o * size B + i.
Proof.
  unfold within. rewrite <- SAB. intros W. pose proof SB. exists (p / size B), (p mod size B). pose proof (Z.div_mod p (size B) ltac:(lia)). pose proof (Z.mod_pos_bound p (size B) ltac:(lia)).
  repeat split; try lia; nia.
Qed.
Lemma spot_row idx : inside idx shape -> spot idx / size B = off (select false mask idx) A /\ spot idx mod size B = off (select true mask idx) B.
Proof. intros I. eapply row_place; [|reflexivity]. apply off_bound, select_inside. auto. Qed.
Lemma back_rows_ok (g : Z -> Z -> option Qc) (v : Z -> Qc) (accum : bool) dx : qlen dx = size shape ->
  (forall o i, 0 <= o < size A -> 0 <= i < size B -> g o (o * size B + i) = Some (v (o * size B + i))) ->
  exists r, red_backward (fun outer r => rows_backward g outer r) the_reduction shape accum dx = Some r /\ length r = length dx /\
    forall idx, inside idx shape -> qelem r shape idx = ((if accum then qelem dx shape idx else 0) + v (spot idx))%Qc.
Proof.
  intros L H. destruct (red_backward_ok (fun outer r => rows_backward g outer r) v accum dx L) as (r & E & L' & V).
  - intros acc d Ld. destruct (rows_backward_ok g (fun o i => v (o * size B + i)) (size A) (size B) acc d) as (r & E & L' & V); [pose proof SB; lia|pose proof SA; lia|rewrite SAB; auto|auto|].
    exists r. split; [auto|]. split; [auto|]. intros p W. destruct (place_row p W) as (o & i & O & I & ->). auto.
  - exists r. split; [auto|]. split; [auto|]. intros idx I. unfold qelem. rewrite position_off by auto. cbn [Z.mul]. rewrite Z.add_0_l. apply V. auto.
Qed.
End reduction.
