(** Non-maximum suppression: NmsDetection2d. *)
From Coq Require Import List ZArith Lia Bool Permutation QArith Qcanon.
From Verif Require Import NdModel NdSpec NdProofs IdxModel IdxSpec IdxProofs1 IdxProofs2 IdxProofs3 JoinModel JoinProofs ScanModel ScanSpec ScanProofs1 ReduceModel ReduceProofs1 SortSpec SortProofs1 SortProofs2 SortProofs3 ConvProofs3 FindModel FindSpec FindProofs1 FindProofs4 FindProofs6 NmsModel NmsSpec NmsProofs1 NmsProofs2 NmsProofs3.
Import ListNotations.
Local Open Scope list_scope.
Local Open Scope Z_scope.

Notation qg := (gat 0%Qc).

(** A loop whose steps write to different places. *)
Section run.
Variables (T : Type) (M : Z) (owns : T -> Z -> Prop) (Done : T -> list Qc -> Prop) (y1 : list Qc) (step : T -> list Qc -> option (list Qc)) (all : list T).
Hypothesis NDA : NoDup all.
Hypothesis DISJ : forall c c' q, In c all -> In c' all -> owns c q -> owns c' q -> c = c'.
Hypothesis EXT : forall c y y', In c all -> (forall q, 0 <= q -> owns c q -> qg y q = qg y' q) -> Done c y -> Done c y'.
Hypothesis STEP : forall c y, In c all -> glen y = M -> (forall q, 0 <= q -> (owns c q \/ forall c', In c' all -> ~ owns c' q) -> qg y q = qg y1 q) ->
  exists y', step c y = Some y' /\ glen y' = M /\ Done c y' /\ forall q, 0 <= q -> ~ owns c q -> qg y' q = qg y q.
Lemma run_ok y : glen y = M -> (forall q, 0 <= q -> qg y q = qg y1 q) ->
  exists y', loop step all y = Some y' /\ glen y' = M /\ (forall c, In c all -> Done c y') /\ forall q, 0 <= q -> (forall c, In c all -> ~ owns c q) -> qg y' q = qg y1 q.
Proof.
  intros L E.
  assert (G : forall l y, NoDup l -> (forall c, In c l -> In c all) -> glen y = M -> (forall q, 0 <= q -> ((exists c, In c l /\ owns c q) \/ forall c', In c' all -> ~ owns c' q) -> qg y q = qg y1 q) ->
    exists y', loop step l y = Some y' /\ glen y' = M /\ (forall c, In c l -> Done c y') /\ forall q, 0 <= q -> (forall c, In c l -> ~ owns c q) -> qg y' q = qg y q).
  { clear y L E. induction l as [|c l IH]; intros y ND SUB L E; cbn [loop].
    - exists y. split; [auto|]. split; [auto|]. split; [intros c []|auto].
    - inversion ND as [|? ? NI ND']; subst. destruct (STEP c y) as (y2 & E2 & L2 & D2 & F2); [apply SUB; left; auto|auto| |].
      { intros q Q [O|O]; apply E; auto. left. exists c. split; [left; auto|auto]. }
      rewrite E2. cbn [obind]. destruct (IH y2) as (y3 & E3 & L3 & D3 & F3); [auto|intros; apply SUB; right; auto|auto| |].
      { intros q Q H. rewrite F2; [|auto|].
        - apply E; [auto|]. destruct H as [(c' & I & O)|H]; [left; exists c'; split; [right; auto|auto]|right; auto].
        - intros O. destruct H as [(c' & I & O')|H]; [|apply (H c); [apply SUB; left; auto|auto]]. assert (c = c') by (apply (DISJ c c' q); auto; [apply SUB; left; auto|apply SUB; right; auto]). subst. auto. }
      exists y3. split; [auto|]. split; [auto|]. split.
      + intros c' [<-|I]; [|auto]. apply (EXT c y2); [apply SUB; left; auto| |auto]. intros q Q O. symmetry. apply F3; [auto|]. intros c' I O'. assert (c = c') by (apply (DISJ c c' q); auto; [apply SUB; left; auto|apply SUB; right; auto]). subst. auto.
      + intros q Q H. rewrite F3, F2; auto; [apply H; left; auto|intros; apply H; right; auto]. }
  destruct (G all y) as (y' & E' & L' & D & F); auto. exists y'. split; [auto|]. split; [auto|]. split; [auto|]. intros q Q H. rewrite F by auto. auto.
Qed.
End run.

Section detection.
Variable std_sort : (Z -> Z -> bool) -> list Z -> list Z.
Hypothesis STD : sorting std_sort.
Variables (t nms : Qc) (B N D : Z) (x : list Qc).
Hypothesis HB : 0 <= B.
Hypothesis HN : 0 <= N.
Hypothesis HD : 5 < D.
Hypothesis LX : qlen x = B * N * D.
Let M := B * N * D.
Let C := D - 5.
Notation sh := [B; N; D].
Definition pos (b a j : Z) : Z := (b * N + a) * D + j.
Lemma position_pos b a j : position 0 [b; a; j] sh = pos b a j.
Proof. reflexivity. Qed.
Lemma pos_bound b a j : 0 <= b < B -> 0 <= a < N -> 0 <= j < D -> 0 <= pos b a j < M.
Proof. intros. unfold pos, M. assert (0 <= b * N + a < B * N) by nia. nia. Qed.
Lemma pos_inj b a j b' a' j' : 0 <= a < N -> 0 <= a' < N -> 0 <= j < D -> 0 <= j' < D -> pos b a j = pos b' a' j' -> b = b' /\ a = a' /\ j = j'.
Proof. intros. unfold pos in *. assert (b * N + a = b' * N + a') by nia. assert (b = b') by nia. subst. repeat split; nia. Qed.

(** ** Filling *)
Definition fill (i j : Z) : Qc :=
  if j <? 4 then qat x (i * D + j) else
  let o := suppress_under (qat x (i * D + 4)) t in
  if j =? 4 then o else suppress_under (o * qat x (i * D + j))%Qc t.
Lemma upto_D : upto D = [0; 1; 2; 3] ++ [4] ++ map (fun k => 5 + k) (upto C).
Proof.
  rewrite !upto_range. replace (Z.to_nat D) with (5 + Z.to_nat C)%nat by (unfold C; lia). rewrite range_app. cbn [range app Z.add Pos.add Pos.succ Z.of_nat Pos.of_succ_nat].
  do 5 f_equal. symmetry. apply (map_add_range 5 0).
Qed.
Lemma fill_step i y : 0 <= i < B * N -> nms_fill t D C x i y = loop (fun j y => put y (i * D + j) (fill i j)) (upto D) y.
Proof.
  intros I. assert (G : forall j, 0 <= j < D -> get x (i * D + j) = Some (qat x (i * D + j))) by (intros j J; apply get_ok; unfold within; rewrite LX; nia).
  unfold nms_fill. rewrite upto_D, !loop_app.
  rewrite (loop_ext (fun c y => obind (get x (i * D + c)) (fun v => put y (i * D + c) v)) (fun j y => put y (i * D + j) (fill i j)) [0; 1; 2; 3]).
  2:{ intros c s Hc. rewrite G by (cbn in Hc; lia). cbn [obind]. unfold fill. destruct (Z.ltb_spec c 4); [auto|]. cbn in Hc. lia. }
  destruct (loop _ [0; 1; 2; 3] y) as [y1|]; cbn [obind]; [|auto]. rewrite loop_app. rewrite G by lia. cbn [obind loop]. change (fill i 4) with (suppress_under (qat x (i * D + 4)) t).
  destruct (put y1 (i * D + 4) _) as [y2|]; cbn [obind]; [|auto]. rewrite <- loop_map. apply loop_ext. intros k s Hk. apply upto_in in Hk. rewrite G by (unfold C in Hk; lia). cbn [obind].
  unfold fill. destruct (Z.ltb_spec (5 + k) 4); [lia|]. destruct (Z.eqb_spec (5 + k) 4); [lia|]. auto.
Qed.
Lemma fill_ok y0 : glen y0 = M -> exists y, loop (nms_fill t D C x) (upto (B * N)) y0 = Some y /\ glen y = M /\
  forall b a j, 0 <= b < B -> 0 <= a < N -> 0 <= j < D -> qg y (pos b a j) = fill (b * N + a) j.
Proof.
  intros L. rewrite (loop_ext _ (fun i => loop (fun j y => put y (i * D + j) (fill i j)) (upto D))) by (intros i s I; apply upto_in in I; apply fill_step; auto). rewrite loop_cells.
  destruct (writes_ok 0%Qc M (fun c => fst c * D + snd c) (fun c _ => fill (fst c) (snd c)) (fun c y => put y (fst c * D + snd c) (fill (fst c) (snd c))) (cells (B * N) D)) with (a := y0) as (y & E & Ly & V & _); auto.
  - apply cells_nodup.
  - intros [i j] H. apply cells_in in H as [H1 H2]. cbn [fst snd] in *. unfold M. nia.
  - exists y. split; [auto|]. split; [unfold glen in *; lia|]. intros b a j Hb Ha Hj. apply (V (b * N + a, j)). apply cells_in. cbn [fst snd]. split; [nia|auto].
Qed.
Definition box (b a : Z) : Qc * Qc * Qc * Qc := (fill (b * N + a) 0, fill (b * N + a) 1, fill (b * N + a) 2, fill (b * N + a) 3).
Definition over (b a a' : Z) : bool := more (calculate_iou (box b a) (box b a')) nms.
Lemma suppress_cut v : suppress_under v t = cut t v.
Proof. unfold suppress_under, cut, less. destruct (Qclt_le_dec v t); auto. Qed.
Lemma fill_box b a : rect_of (box b a) = box_at x sh b a.
Proof. reflexivity. Qed.
Lemma over_ok b a a' : over b a a' = true <-> overlapping nms (box_at x sh b a) (box_at x sh b a').
Proof.
  unfold over. rewrite more_true. rewrite <- !fill_box. pose proof (iou_ok (box b a) (box b a')) as I. unfold overlapping.
  split; [intros L; eexists; split; [exact I|exact L]|intros (q & Q & L); rewrite (iou_unique _ _ _ _ I Q); auto].
Qed.
Lemma fill_objectness b a : fill (b * N + a) 4 = objectness_at t x sh b a.
Proof. unfold fill, objectness_at. cbn [Z.ltb Z.compare Pos.compare Pos.compare_cont Z.eqb Pos.eqb]. apply suppress_cut. Qed.
Lemma fill_score b a k : 0 <= k -> fill (b * N + a) (5 + k) = score_at t x sh b k a.
Proof.
  intros K. unfold fill, score_at, objectness_at. destruct (Z.ltb_spec (5 + k) 4); [lia|]. destruct (Z.eqb_spec (5 + k) 4); [lia|]. rewrite !suppress_cut. reflexivity.
Qed.
Lemma box_read y b a : 0 <= b < B -> 0 <= a < N -> glen y = M -> (forall j, 0 <= j < 4 -> qg y (pos b a j) = fill (b * N + a) j) -> four y ((b * N + a) * D) = Some (box b a).
Proof.
  intros Hb Ha L V. pose proof (pos_bound b a 3 Hb Ha ltac:(lia)) as P. unfold pos in P. rewrite four_ok; [|nia|change (qlen y) with (glen y); rewrite L; lia].
  unfold box. rewrite <- !V by lia. unfold pos. rewrite Z.add_0_r. reflexivity.
Qed.

(** ** Per class *)
Section class.
Variables (b k : Z).
Hypothesis Hb : 0 <= b < B.
Hypothesis Hk : 0 <= k < C.
Notation val a := (fill (b * N + a) (5 + k)).
Notation cell a := (pos b a (5 + k)).
Definition column (q : Z) : Prop := exists a, 0 <= a < N /\ q = cell a.
Definition chosen (y : list Qc) : Prop := exists order f, ranking N (fun a => val a) order /\
  selection order (fun a => val a <> 0%Qc) (fun a a' => overlapping nms (box_at x sh b a) (box_at x sh b a')) (fun a => In a order /\ f a = true) /\
  forall a, 0 <= a < N -> qg y (cell a) = if f a : bool then val a else 0%Qc.
Lemma class_ok y : glen y = M -> (forall a j, 0 <= a < N -> 0 <= j < 4 \/ j = 5 + k -> qg y (pos b a j) = fill (b * N + a) j) ->
  exists y', suppress (class_test D k (b * N)) (class_step nms D k (b * N)) (index_sort std_sort y (b * N * D + 5 + k) N D) N y = Some y' /\ glen y' = M /\ chosen y' /\
    forall q, 0 <= q -> ~ column q -> qg y' q = qg y q.
Proof.
  intros L V. set (order := index_sort _ _ _ _ _).
  assert (R : ranking N (fun a => val a) order).
  { apply (ranking_ext N (fun i => nth (Z.to_nat (b * N * D + 5 + k + i * D)) y 0%Qc)); [|apply index_sort_ok; auto]. intros i I. rewrite <- V by auto. unfold gat, pos. do 2 f_equal. ring. }
  assert (P : Permutation order (upto N)) by (rewrite upto_range; apply (proj1 R)).
  assert (KD : 0 <= 5 + k < D) by (unfold C in Hk; lia).
  set (f0 := fun a => negb (same (val a) 0%Qc)).
  assert (SM : forall v, negb (same v 0%Qc) = true <-> v <> 0%Qc) by (intros v; rewrite negb_true_iff; apply same_false).
  set (Rep := fun (f : Z -> bool) (s : list Qc) => glen s = M /\ (forall a, 0 <= a < N -> qg s (cell a) = if f a then val a else 0%Qc) /\ (forall q, 0 <= q -> ~ column q -> qg s q = qg y q) /\ (forall a, 0 <= a < N -> f a = true -> val a <> 0%Qc)).
  assert (BX : forall f s a, Rep f s -> 0 <= a < N -> four s ((b * N + a) * D) = Some (box b a)).
  { intros f s a (L1 & V1 & F1 & N1) Ha. apply box_read; auto. intros j J. rewrite F1; [apply V; auto| |].
    - apply (pos_bound b a j Hb Ha ltac:(lia)).
    - intros (a' & A' & E). apply pos_inj in E; try lia. }
  assert (GC : forall f s a, Rep f s -> 0 <= a < N -> get s ((b * N + a) * D + 5 + k) = Some (if f a then val a else 0%Qc)).
  { intros f s a (L1 & V1 & F1 & N1) Ha. rewrite <- V1 by auto. replace ((b * N + a) * D + 5 + k) with (cell a) by (unfold pos; ring). apply gget_ok. unfold within. rewrite L1. apply pos_bound; auto. }
  destruct (suppress_ok (list Qc) N order (class_test D k (b * N)) (class_step nms D k (b * N)) (over b) Rep P HN) with (f0 := f0) (s := y) as (s & f & E & (L1 & V1 & F1 & N1) & S).
  - intros f s a RP Ha. unfold class_test. rewrite (GC f) by auto. cbn [obind]. f_equal. destruct (f a) eqn:F; [apply SM; apply RP; auto|]. apply negb_false_iff, same_true. auto.
  - intros f s a a' RP Ha Ha'. unfold class_step. rewrite (GC f) by auto. cbn [obind]. pose proof RP as (L1 & V1 & F1 & N1). destruct (f a') eqn:F.
    + replace (same (val a') 0) with false by (symmetry; apply same_false; auto). rewrite !(BX f) by auto. cbn [obind]. fold (over b a a'). destruct (over b a a').
      * replace ((b * N + a') * D + 5 + k) with (cell a') by (unfold pos; ring).
        destruct (put_gen 0%Qc s (cell a') 0%Qc) as (s' & E & Ls & Vs); [fold (glen s); rewrite L1; apply pos_bound; auto|]. exists s'. split; [auto|]. split; [unfold glen in *; lia|]. split; [|split].
        -- intros c Hc. unfold gat. rewrite Vs by (apply (pos_bound b c (5 + k)); auto). destruct (Z.eqb_spec (cell c) (cell a')) as [X|X].
           ++ apply pos_inj in X; try lia. destruct X as (_ & -> & _). rewrite Z.eqb_refl. cbn [andb negb]. rewrite andb_false_r. auto.
           ++ destruct (Z.eqb_spec c a') as [->|]; [congruence|]. cbn [andb negb]. rewrite andb_true_r. apply V1. auto.
        -- intros q Q NC. unfold gat. rewrite Vs by auto. destruct (Z.eqb_spec q (cell a')) as [X|X]; [destruct NC; exists a'; auto|]. apply F1; auto.
        -- intros c Hc FC. apply andb_true_iff in FC as [FC _]. auto.
      * exists s. split; [auto|]. split; [auto|]. split; [|split; [auto|]].
        -- intros c Hc. rewrite andb_false_r. cbn [negb]. rewrite andb_true_r. auto.
        -- intros c Hc FC. apply andb_true_iff in FC as [FC _]. auto.
    + replace (same 0%Qc 0%Qc) with true by reflexivity. exists s. split; [auto|]. split; [auto|]. split; [|split; [auto|]].
      * intros c Hc. destruct (Z.eqb_spec c a') as [->|]; [rewrite F; cbn [andb]; rewrite V1, F by auto; auto|]. cbn [andb negb]. rewrite andb_true_r. auto.
      * intros c Hc FC. apply andb_true_iff in FC as [FC _]. auto.
  - split; [auto|]. split; [|split; [auto|]].
    + intros a Ha. rewrite V by auto. unfold f0. destruct (same (val a) 0) eqn:E; cbn [negb]; [apply same_true; auto|auto].
    + intros a Ha F. apply SM. auto.
  - exists s. split; [auto|]. split; [auto|]. split; [|auto]. exists order, f. split; [auto|]. split; [|auto].
    destruct S as [S1 S2 S3]. constructor.
    + intros a H. destruct (S1 a H) as [I F]. split; [auto|]. apply SM. exact F.
    + intros i j H H1 H2. rewrite <- over_ok. apply S2; auto.
    + intros j H H1 H2. rewrite <- SM in H1. destruct (S3 j H H1 H2) as (i & I1 & I2 & I3). exists i. rewrite <- over_ok. auto.
Qed.
End class.

Lemma per_class_ok y0 : glen y0 = M -> exists y, per_class std_sort t nms B N D x y0 = Some y /\ glen y = M /\
  (forall b a j, 0 <= b < B -> 0 <= a < N -> 0 <= j <= 4 -> qg y (pos b a j) = fill (b * N + a) j) /\
  forall b k, 0 <= b < B -> 0 <= k < C -> chosen b k y.
Proof.
  intros L0. unfold per_class. fold C. destruct (fill_ok y0 L0) as (y1 & E1 & L1 & V1). rewrite E1. cbn [obind]. rewrite loop_cells.
  destruct (run_ok (Z * Z) M (fun c q => column (snd c) (fst c) q) (fun c y => chosen (snd c) (fst c) y) y1
    (fun c y => suppress (class_test D (fst c) (snd c * N)) (class_step nms D (fst c) (snd c * N)) (index_sort std_sort y (snd c * N * D + 5 + fst c) N D) N y) (cells C B)) with (y := y1) as (y & E & L & DN & F); auto.
  - eapply NoDup_map_inv. apply cells_nodup.
  - intros [k b] [k' b'] q H H' (a & A & ->) (a' & A' & Q). apply cells_in in H as [H1 H2], H' as [H1' H2']. cbn [fst snd] in *. unfold C in *. apply pos_inj in Q; try lia. f_equal; lia.
  - intros [k b] y y' H E (order & f & R & S & V). apply cells_in in H as [H1 H2]. cbn [fst snd] in *. exists order, f. split; [auto|]. split; [auto|]. intros a Ha. rewrite <- E; [auto| |exists a; auto].
    apply (pos_bound b a (5 + k)); auto. unfold C in *. lia.
  - intros [k b] y H Ly V. apply cells_in in H as [H1 H2]. cbn [fst snd] in *. apply class_ok; auto. intros a j Ha Hj. assert (JD : 0 <= j < D) by (unfold C in *; lia). rewrite V; [apply V1; auto| |].
    + apply (pos_bound b a j); auto.
    + destruct Hj as [Hj | ->]; [right|left; exists a; auto]. intros [k' b'] H (a' & A' & Q). apply cells_in in H as [H3 H4]. cbn [fst snd] in *. unfold C in *. apply pos_inj in Q; lia.
  - exists y. split; [exact E|]. split; [auto|]. split.
    + intros b a j Hb Ha Hj. rewrite F; [apply V1; auto; lia| |]; [apply (pos_bound b a j); auto; lia|].
      intros [k' b'] H (a' & A' & Q). apply cells_in in H as [H3 H4]. cbn [fst snd] in *. unfold C in *. apply pos_inj in Q; lia.
    + intros b k Hb Hk. apply (DN (k, b)). apply cells_in. auto.
Qed.
End detection.
