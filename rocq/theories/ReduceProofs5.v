(** Statements about reductions after setup. *)
From Coq Require Import List ZArith Lia Bool Permutation QArith Qcanon.
From Verif Require Import NdModel NdSpec NdProofs IdxModel IdxSpec IdxProofs1 IdxProofs2 IdxProofs3 IdxProofs5 IdxProofs6 JoinModel JoinSpec JoinProofs JoinProofs2 ScanModel ScanSpec ScanProofs1 ReduceModel ReduceSpec ReduceProofs1 ReduceProofs2 ReduceProofs3 ReduceProofs4.
Import ListNotations.
Local Open Scope list_scope.
Local Open Scope Z_scope.

Lemma select_bound mask : forall (l : list Z) k, In k (select true mask l) -> In k l.
Proof.
  induction mask as [|m mask IH]; intros [|a l] k H; cbn [select] in H; try contradiction. destruct (Bool.eqb m true); [destruct H as [->|H]|]; [left; auto|right; auto|right; auto].
Qed.
Lemma refine_refined n l : (forall k, In k l -> 0 <= k < Z.of_nat n) -> refine_axes n l = Some l.
Proof.
  induction l as [|a l IH]; intros H; cbn [refine_axes]; [auto|].
  assert (Ha : 0 <= a < Z.of_nat n) by (apply H; left; auto).
  rewrite (refine_denotes a (Z.to_nat a) n) by (try lia; unfold denotes; left; lia). cbn [obind]. rewrite IH by (intros; apply H; right; auto). cbn [obind]. f_equal. f_equal. lia.
Qed.
Lemma setup_again axes mask keep_dims shape f o shape' : chosen axes mask -> length shape = length mask -> length shape' = length mask ->
  red_setup (created axes) keep_dims shape = Some (f, o) -> red_setup f keep_dims shape' = red_setup (created axes) keep_dims shape'.
Proof.
  intros C L L' E. rewrite (red_setup_ok axes mask) in E |- * by auto. injection E as <- <-. unfold red_setup. cbn [r_axes r_transpose]. rewrite L'.
  rewrite refine_refined. 2:{ intros k H. apply select_bound, range_in in H. lia. } cbn [obind].
  pose proof (red_axes_ok keep_dims mask [] shape' (-1) L' ltac:(unfold len; cbn; lia)) as R. cbn [app] in R. change (len []) with 0 in R. rewrite R. cbn [obind].
  change (-1 + 1) with 0. rewrite between_self. cbn [app perm map]. rewrite L. unfold transpose_axes.
  destruct (list_eq_dec Z.eq_dec (kept_axes 0 mask ++ reduced_axes 0 mask) (upto (Z.of_nat (length mask)))); reflexivity.
Qed.
Lemma out_onto keep_dims mask : forall shape j, length shape = length mask -> positive shape -> inside j (out_shape keep_dims mask shape) -> exists idx, inside idx shape /\ out_index keep_dims mask idx = j.
Proof.
  unfold out_shape, out_index. induction mask as [|m mask IH]; intros [|s shape] j L P I; try discriminate; cbn [out] in *.
  - inversion I. exists []. split; [constructor|auto].
  - inversion P as [|? ? Ps P']; subst. cbn in L. destruct m; [destruct keep_dims|].
    + inversion I as [|i ? j' ? Hi I']; subst. destruct (IH shape j') as (idx & H1 & H2); auto. exists (0 :: idx). split; [constructor; [lia|auto]|]. cbn [out]. rewrite H2. f_equal. lia.
    + destruct (IH shape j) as (idx & H1 & H2); auto. exists (0 :: idx). split; [constructor; [lia|auto]|]. auto.
    + inversion I as [|i ? j' ? Hi I']; subst. destruct (IH shape j') as (idx & H1 & H2); auto. exists (i :: idx). split; [constructor; auto|]. cbn [out]. rewrite H2. auto.
Qed.

Section setup.
Variables (axes : list Z) (mask : list bool) (keep_dims : bool) (shape : list Z).
Hypothesis CH : chosen axes mask.
Hypothesis LEN : length shape = length mask.
Hypothesis POS : positive shape.
Let A := select false mask shape.
Let B := select true mask shape.
Lemma setup_the : red_setup (created axes) keep_dims shape = Some (the_reduction mask shape, out_shape keep_dims mask shape).
Proof. apply red_setup_ok; auto. Qed.
Lemma setup_is f o : red_setup (created axes) keep_dims shape = Some (f, o) -> f = the_reduction mask shape /\ o = out_shape keep_dims mask shape.
Proof. rewrite setup_the. intros H. injection H as <- <-. auto. Qed.
Lemma group_length idx : inside idx shape -> Z.of_nat (length (group mask shape idx)) = size B.
Proof.
  intros I. unfold group. change (fun j => if list_eq_dec Z.eq_dec (select false mask j) (select false mask idx) then true else false) with (fun j => same (select false mask j) (select false mask idx)).
  rewrite (group_merge mask shape) by (auto; apply select_inside; auto). rewrite map_length. apply indices_length, positive_nonneg. apply PB; auto.
Qed.
Lemma group_nth idx i : inside idx shape -> (i < length (group mask shape idx))%nat -> (nth i (group mask shape idx) [] = idx <-> Z.of_nat i = off (select true mask idx) B).
Proof.
  intros I H. pose proof (group_length idx I) as GL. pose proof (select_inside true mask _ _ I) as IT. fold B in IT. pose proof (PB mask shape POS) as PB'. fold B in PB'. pose proof (positive_nonneg _ PB') as NN.
  unfold group in H, GL |- *. change (fun j => if list_eq_dec Z.eq_dec (select false mask j) (select false mask idx) then true else false) with (fun j => same (select false mask j) (select false mask idx)) in H, GL |- *.
  pose proof (select_inside false mask _ _ I) as IF.
  rewrite (group_merge mask shape) in H, GL |- * by auto. fold B in H, GL |- *. rewrite map_length in H, GL.
  rewrite (nth_indep _ [] (merge mask (select false mask idx) [])) by (rewrite map_length; auto). rewrite map_nth.
  assert (M : forall l, length l = length mask -> merge mask (select false mask l) (select true mask l) = l).
  { clear. induction mask as [|m mk IH]; intros [|a l] L; try discriminate; [reflexivity|]. cbn in L. destruct m; cbn [select Bool.eqb merge]; rewrite IH by lia; auto. }
  assert (R : inside (nth i (indices B) []) B) by (apply indices_in, nth_In; auto).
  assert (O : off (nth i (indices B) []) B = Z.of_nat i).
  { pose proof (indices_off B NN) as F. assert (Q : nth i (map (fun x => off x B) (indices B)) (off [] B) = nth i (range 0 (Z.to_nat (size B))) (off [] B)) by (rewrite F; auto).
    rewrite (map_nth (fun x => off x B)) in Q. rewrite Q. rewrite (nth_indep _ _ 0) by (rewrite range_length; lia). rewrite range_nth by lia. lia. }
  destruct (merge_ok mask shape _ _ LEN IF R) as (H1 & H2 & H3). split.
  - intros E. rewrite <- O. f_equal. rewrite <- H3, E. auto.
  - intros E. transitivity (merge mask (select false mask idx) (select true mask idx)); [|apply M; rewrite (inside_length _ _ I); auto]. f_equal. apply (off_inj B); auto. rewrite O. exact E.
Qed.
Lemma out_elem l idx : inside idx shape -> qelem l (out_shape keep_dims mask shape) (out_index keep_dims mask idx) = qat l (off (select false mask idx) A).
Proof. intros I. unfold qelem. rewrite (out_at mask shape LEN) by auto. reflexivity. Qed.

Lemma d_sizes q : (q < Z.to_nat (size shape))%nat -> exists idx, inside idx shape /\ off idx shape = Z.of_nat q.
Proof. intros H. apply (off_exists mask shape LEN shape); [auto|]. unfold within. lia. Qed.
Lemma qelem_off l idx : inside idx shape -> qelem l shape idx = qat l (off idx shape).
Proof. intros I. unfold qelem. rewrite position_off by auto. reflexivity. Qed.

(** From elementwise equations to derivatives. *)
Lemma derivative_of fwd bwd (v : list Qc -> list Qc -> list Z -> Qc) x :
  (forall (accum : bool) dy dx0, qlen x = size shape -> qlen dy = size A -> qlen dx0 = size shape -> exists r, bwd accum x dy dx0 = Some r /\ length r = length dx0 /\
     forall idx, inside idx shape -> qelem r shape idx = ((if accum then qelem dx0 shape idx else 0) + v x dy idx)%Qc) ->
  (forall dy d, qlen x = size shape -> qlen dy = size A -> qlen d = size shape -> (forall idx, inside idx shape -> qat d (off idx shape) = v x dy idx) -> slopes (size A) fwd x dy d) ->
  derivative (size shape) (size (out_shape keep_dims mask shape)) fwd bwd x.
Proof.
  intros HB HS accum dy dx0 Lx Ly L0. rewrite out_size in Ly |- * by auto. fold A in Ly |- *.
  destruct (HB false dy dx0 Lx Ly L0) as (d & E1 & L1 & V1). destruct (HB accum dy dx0 Lx Ly L0) as (dx & E2 & L2 & V2).
  exists dx, d. split; [auto|]. split; [auto|]. split.
  - apply HS; auto; [unfold qlen; rewrite L1; auto|]. intros idx I. rewrite <- qelem_off, V1 by auto. ring.
  - intros q Hq. destruct (d_sizes q) as (idx & I & E); [lia|]. specialize (V1 idx I). specialize (V2 idx I). rewrite !qelem_off in V1, V2 by auto. unfold qat in V1, V2. rewrite E, Nat2Z.id in V1, V2.
    rewrite (qelem_off dx0) in V2 by auto. unfold qat in V2. rewrite E, Nat2Z.id in V2. rewrite V1, V2. destruct accum; cbv iota; ring.
Qed.
Lemma sum_derivative x : derivative (size shape) (size (out_shape keep_dims mask shape)) (sum_forward (the_reduction mask shape) shape) (fun accum _ => sum_backward (the_reduction mask shape) shape accum) x.
Proof.
  apply (derivative_of _ _ (fun _ dy idx => qat dy (off (select false mask idx) A))).
  - intros. apply sum_backward_ok; auto.
  - intros dy d Lx Ly Ld V. destruct (arranged_ok mask shape LEN POS x Lx) as (xt & E & L & W). apply (slopes_sum mask shape LEN POS x xt); auto.
Qed.
Lemma mean_derivative x : derivative (size shape) (size (out_shape keep_dims mask shape)) (mean_forward (the_reduction mask shape) shape) (fun accum _ => mean_backward (the_reduction mask shape) shape accum) x.
Proof.
  apply (derivative_of _ _ (fun _ dy idx => qat dy (off (select false mask idx) A) / of_Z (size B))%Qc).
  - intros. apply mean_backward_ok; auto.
  - intros dy d Lx Ly Ld V. destruct (arranged_ok mask shape LEN POS x Lx) as (xt & E & L & W). apply (slopes_mean mask shape LEN POS x xt); auto.
Qed.
Lemma group_same idx j : In j (group mask shape idx) -> inside j shape /\ select false mask j = select false mask idx.
Proof. unfold group. rewrite filter_In, indices_in. intros (H1 & H2). split; [auto|]. destruct (list_eq_dec Z.eq_dec (select false mask j) (select false mask idx)); [auto|discriminate]. Qed.
Lemma prod_derivative x :
  (forall idx, inside idx shape -> qelem x shape idx = 0%Qc -> exists j, In j (group mask shape idx) /\ j <> idx /\ qelem x shape j = 0%Qc) ->
  derivative (size shape) (size (out_shape keep_dims mask shape)) (prod_forward (the_reduction mask shape) shape)
    (fun accum x dy dx => obind (prod_forward (the_reduction mask shape) shape x (repeat 0%Qc (Z.to_nat (size (out_shape keep_dims mask shape))))) (fun y =>
       prod_backward (the_reduction mask shape) shape accum x y dy dx)) x.
Proof.
  intros HZ. apply (derivative_of _ _ (fun x dy idx => match arranged mask shape x with Some xt => qat dy (off (select false mask idx) A) * others mask shape xt (off (select false mask idx) A) (off (select true mask idx) B) | None => 0 end)%Qc).
  - intros accum dy dx0 Lx Ly L0. destruct (arranged_ok mask shape LEN POS x Lx) as (xt & E & L & W). rewrite E. rewrite out_size by auto. fold A.
    unfold prod_forward. rewrite (red_forward_ok mask shape LEN POS), E. cbn [obind]. fold A B. pose proof (SA mask shape POS) as SA'. pose proof (SB mask shape POS) as SB'. pose proof (SAB mask shape LEN) as SAB'. fold A in SA', SAB'. fold B in SB', SAB'.
    destruct (rows_forward_ok prod_row (size A) (size B) xt (repeat 0%Qc (Z.to_nat (size A)))) as (y & E' & L' & V); [lia|rewrite SAB'; auto|unfold qlen; rewrite repeat_length; lia|].
    rewrite E'. cbn [obind]. rewrite repeat_length in L'.
    destruct (prod_backward_ok mask shape LEN POS accum x xt y dy dx0) as (r & E2 & L2 & V2); auto; [unfold qlen; rewrite L'; fold A; lia|].
    exists r. split; [auto|]. split; [auto|]. intros idx I. rewrite V2 by auto. fold A. f_equal.
    set (o := off (select false mask idx) A). set (i := off (select true mask idx) B).
    assert (O : 0 <= o < size A) by (apply off_bound, select_inside; auto). assert (Hi : 0 <= i < size B) by (apply off_bound, select_inside; auto).
    assert (X : qelem x shape idx = qat xt (o * size B + i)). { rewrite qelem_off, <- W by auto. reflexivity. }
    destruct (Qc_eq_dec (qelem x shape idx) 0%Qc) as [Z|N].
    + destruct (HZ idx I Z) as (j & J & D & Zj). apply group_same in J as (J & SJ). rewrite qelem_off, <- W in Zj by auto.
      unfold others. rewrite (qprod_zero _ _ (off (select true mask j) B)); [ring| |].
      * pose proof (off_bound _ _ (select_inside true mask _ _ J)) as OB. fold B in OB |- *. lia.
      * unfold but. destruct (Z.eqb_spec (off (select true mask j) B) i) as [Q|Q].
        -- exfalso. apply D. apply (spot_inj mask shape LEN POS); auto. unfold spot. rewrite SJ. fold A B. rewrite Q. reflexivity.
        -- rewrite <- Zj. unfold spot. rewrite SJ. reflexivity.
    + rewrite V by auto. pose proof (prod_row_others mask shape LEN POS xt o i Hi) as PR. fold B in PR. rewrite PR, <- X. field. auto.
  - intros dy d Lx Ly Ld V. destruct (arranged_ok mask shape LEN POS x Lx) as (xt & E & L & W). rewrite E in V. apply (slopes_prod mask shape LEN POS x xt); auto.
Qed.

(** Max and Min. *)
Definition best_in (better : Qc -> Qc -> bool) := best_at better.
Lemma best_index better start l m mi n : (forall v, better v v = false) -> (forall v w m, better v m = true -> better w m = false -> better w v = false) ->
  (forall v w m, better v m = true -> better w m = false -> better v w = true) ->
  best_row better start l = (m, mi, n) -> l <> [] -> 0 <= mi < Z.of_nat (length l).
Proof.
  intros B0 B1 B2 E NE. unfold best_row in E. destruct (best_fold better start B0 B1 B2 l [] start 0) as (m' & mi' & E' & H).
  { left. split; [auto|]. split; [auto|]. intros j Hj. cbn in Hj. lia. }
  cbn [app length] in E', H. change (Z.of_nat 0) with 0 in E'. rewrite E in E'. injection E' as -> -> _.
  destruct H as [(_ & -> & _)|(_ & i & -> & _ & H & _)]; [|lia]. destruct l; [tauto|]. cbn [length]. lia.
Qed.
Lemma more_0 v : more v v = false. Proof. unfold more. destruct (Qclt_le_dec v v) as [H|H]; [|auto]. exfalso. apply (Qclt_not_eq _ _ H). auto. Qed.
Lemma more_t a b : more a b = true <-> (b < a)%Qc. Proof. unfold more. destruct (Qclt_le_dec b a) as [H|H]; split; auto; try discriminate. intros H'. exfalso. apply (Qcle_not_lt _ _ H). auto. Qed.
Lemma more_f a b : more a b = false <-> (a <= b)%Qc. Proof. unfold more. destruct (Qclt_le_dec b a) as [H|H]; split; auto; try discriminate. intros H'. exfalso. apply (Qcle_not_lt _ _ H'). auto. Qed.
Lemma more_1 v w m : more v m = true -> more w m = false -> more w v = false.
Proof. rewrite more_t, !more_f. intros H1 H2. apply Qclt_le_weak. eapply Qcle_lt_trans; eauto. Qed.
Lemma more_2 v w m : more v m = true -> more w m = false -> more v w = true.
Proof. rewrite !more_t, more_f. intros H1 H2. eapply Qcle_lt_trans; eauto. Qed.
Lemma less_t a b : less a b = true <-> (a < b)%Qc. Proof. unfold less. destruct (Qclt_le_dec a b) as [H|H]; split; auto; try discriminate. intros H'. exfalso. apply (Qcle_not_lt _ _ H). auto. Qed.
Lemma less_f a b : less a b = false <-> (b <= a)%Qc. Proof. unfold less. destruct (Qclt_le_dec a b) as [H|H]; split; auto; try discriminate. intros H'. exfalso. apply (Qcle_not_lt _ _ H'). auto. Qed.
Lemma less_0 v : less v v = false. Proof. apply less_f. apply Qcle_refl. Qed.
Lemma less_1 v w m : less v m = true -> less w m = false -> less w v = false.
Proof. rewrite less_t, !less_f. intros H1 H2. apply Qclt_le_weak. eapply Qclt_le_trans; eauto. Qed.
Lemma less_2 v w m : less v m = true -> less w m = false -> less v w = true.
Proof. rewrite !less_t, less_f. intros H1 H2. eapply Qclt_le_trans; eauto. Qed.

Section better.
Variables (better : Qc -> Qc -> bool) (start : Qc).
Hypothesis B0 : forall v, better v v = false.
Hypothesis B1 : forall v w m, better v m = true -> better w m = false -> better w v = false.
Hypothesis B2 : forall v w m, better v m = true -> better w m = false -> better v w = true.
Lemma best_forward_ok x y0 ind0 : qlen x = size shape -> qlen y0 = size (out_shape keep_dims mask shape) -> Z.of_nat (length ind0) = size (out_shape keep_dims mask shape) ->
  exists y ind, best_forward better start (the_reduction mask shape) shape x y0 ind0 = Some (y, ind) /\ length y = length y0 /\ length ind = length ind0 /\
    forall idx, inside idx shape -> let l := elems x shape (group mask shape idx) in
      (exists v, In v l /\ better v start = true) ->
      exists i, elem ind (out_shape keep_dims mask shape) (out_index keep_dims mask idx) = Z.of_nat i /\
        qelem y (out_shape keep_dims mask shape) (out_index keep_dims mask idx) = nth i l 0%Qc /\ best_at better l i.
Proof.
  intros Lx Ly Li. destruct (best_rows_ok mask shape LEN POS better start keep_dims x y0 ind0 Lx Ly Li) as (y & ind & E & L1 & L2 & V).
  exists y, ind. split; [auto|]. split; [auto|]. split; [auto|]. intros idx I l HL. destruct (V idx I) as (V1 & V2). fold l in V1, V2.
  destruct (best_row_ok better start B0 B1 B2 l HL) as (i & n & EB & H). rewrite EB in V1, V2. cbn [fst snd] in V1, V2. eauto.
Qed.
Lemma best_gradient_ok (accum : bool) x y0 ind0 y ind dy dx : qlen x = size shape -> qlen y0 = size (out_shape keep_dims mask shape) -> Z.of_nat (length ind0) = size (out_shape keep_dims mask shape) ->
  best_forward better start (the_reduction mask shape) shape x y0 ind0 = Some (y, ind) ->
  qlen dy = size (out_shape keep_dims mask shape) -> qlen dx = size shape ->
  exists r, best_backward (the_reduction mask shape) shape accum ind dy dx = Some r /\ length r = length dx /\
    forall idx, inside idx shape -> qelem r shape idx = ((if accum then qelem dx shape idx else 0) +
      (if list_eq_dec Z.eq_dec (nth (Z.to_nat (elem ind (out_shape keep_dims mask shape) (out_index keep_dims mask idx))) (group mask shape idx) []) idx
       then qelem dy (out_shape keep_dims mask shape) (out_index keep_dims mask idx) else 0))%Qc.
Proof.
  intros Lx Ly Li E Ld L0. destruct (best_rows_ok mask shape LEN POS better start keep_dims x y0 ind0 Lx Ly Li) as (y' & ind' & E' & L1 & L2 & V).
  rewrite E in E'. injection E' as <- <-. rewrite out_size in Ld, Li by auto. fold A in Ld, Li.
  assert (BD : forall idx, inside idx shape -> 0 <= elem ind (out_shape keep_dims mask shape) (out_index keep_dims mask idx) < size B).
  { intros idx I. destruct (V idx I) as (_ & V2). rewrite V2. destruct (best_row better start (elems x shape (group mask shape idx))) as [[m mi] n] eqn:EB. cbn [fst snd].
    pose proof (group_length idx I) as GL. replace (size B) with (Z.of_nat (length (elems x shape (group mask shape idx)))) by (unfold elems; rewrite map_length; auto).
    eapply best_index; eauto. intros N. pose proof (SB mask shape POS) as P. fold B in P. apply (f_equal (@length Qc)) in N. unfold elems in N. rewrite map_length in N. cbn in N. lia. }
  assert (OE : forall idx, inside idx shape -> elem ind (out_shape keep_dims mask shape) (out_index keep_dims mask idx) = nth (Z.to_nat (off (select false mask idx) A)) ind 0).
  { intros idx I. unfold elem. rewrite (out_at mask shape LEN) by auto. reflexivity. }
  destruct (best_backward_ok mask shape LEN POS accum ind dy dx) as (r & E2 & L3 & W); auto.
  - fold A. lia.
  - apply Forall_forall. intros i Hi. apply (In_nth _ _ 0) in Hi as (o & Ho & <-).
    destruct (spot_onto mask shape LEN POS (Z.of_nat o) 0) as (idx & I & _ & OO & _); [fold A; lia|pose proof (SB mask shape POS); lia|].
    fold B. specialize (BD idx I). rewrite OE in BD by auto. fold A in OO. rewrite OO, Nat2Z.id in BD. auto.
  - exists r. split; [auto|]. split; [auto|]. intros idx I. rewrite W by auto. fold A B. rewrite out_elem by auto. fold A. rewrite OE by auto. specialize (BD idx I). rewrite OE in BD by auto. f_equal.
    set (i := nth (Z.to_nat (off (select false mask idx) A)) ind 0) in *. pose proof (group_length idx I) as GL. pose proof (group_nth idx (Z.to_nat i) I ltac:(lia)) as GN. rewrite Z2Nat.id in GN by lia.
    destruct (Z.eqb_spec (off (select true mask idx) B) i) as [Q|Q], (list_eq_dec Z.eq_dec (nth (Z.to_nat i) (group mask shape idx) []) idx) as [R|R]; auto; exfalso; intuition auto.
Qed.
End better.
End setup.
