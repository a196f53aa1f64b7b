(** Non-maximum suppression: NmsDetection2d by objectness. *)
From Coq Require Import List ZArith Lia Bool Permutation QArith Qcanon.
From Verif Require Import NdModel NdSpec NdProofs IdxModel IdxSpec IdxProofs1 IdxProofs2 IdxProofs3 JoinModel JoinProofs ScanModel ScanSpec ScanProofs1 ReduceModel ReduceProofs1 SortSpec SortProofs1 SortProofs2 SortProofs3 ConvProofs3 FindModel FindSpec FindProofs1 FindProofs4 FindProofs6 FindProofs7 NmsModel NmsSpec NmsProofs1 NmsProofs2 NmsProofs3 NmsProofs4.
Import ListNotations.
Local Open Scope list_scope.
Local Open Scope Z_scope.

Section detection.
Variable std_sort : (Z -> Z -> bool) -> list Z -> list Z.
Hypothesis STD : sorting std_sort.
Variables (t nms : Qc) (B N D : Z) (x : list Qc).
Hypothesis HB : 0 <= B.
Hypothesis HN : 0 <= N.
Hypothesis HD : 5 < D.
Hypothesis LX : qlen x = B * N * D.
Let M := B * N * D.
Let C := D - 5.
Notation sh := [B; N; D].
Notation pos := (pos N D).
Notation fill := (fill t D x).
Notation over := (over t nms N D x).
Notation box := (box t N D x).

Section batch.
Variable b : Z.
Hypothesis Hb : 0 <= b < B.
Lemma pos_ok a j : 0 <= a < N -> 0 <= j < D -> 0 <= pos b a j < M.
Proof. intros. apply (pos_bound B N D HN HD); auto. Qed.
Lemma pos_eq a j a' j' b' : 0 <= a < N -> 0 <= a' < N -> 0 <= j < D -> 0 <= j' < D -> pos b a j = pos b' a' j' -> b = b' /\ a = a' /\ j = j'.
Proof. intros. apply (pos_inj B N D HN HD); auto. Qed.
Definition tail_of (a q : Z) : Prop := exists j, 4 <= j < D /\ q = pos b a j.

Lemma zero_tail a y : 0 <= a < N -> glen y = M ->
  exists y', obind (put y (D * (b * N + a) + 4) 0%Qc) (fun y => loop (fun k y => put y (D * (b * N + a) + 5 + k) 0%Qc) (upto C) y) = Some y' /\ glen y' = M /\
    (forall j, 4 <= j < D -> qg y' (pos b a j) = 0%Qc) /\ forall q, 0 <= q -> ~ tail_of a q -> qg y' q = qg y q.
Proof.
  intros Ha L. replace (D * (b * N + a) + 4) with (pos b a 4) by (unfold NmsProofs4.pos; ring).
  destruct (put_gen 0%Qc y (pos b a 4) 0%Qc) as (y1 & E1 & L1 & V1); [fold (glen y); rewrite L; apply pos_ok; auto; lia|]. rewrite E1. cbn [obind].
  assert (L1' : glen y1 = M) by (unfold glen in *; lia).
  destruct (writes_ok 0%Qc M (fun k => pos b a (5 + k)) (fun _ _ => 0%Qc) (fun k y => put y (D * (b * N + a) + 5 + k) 0%Qc) (upto C)) with (a := y1) as (y2 & E2 & L2 & V2 & F2); auto.
  - apply nodup_map; [|apply upto_nodup]. intros k k' K K' E. apply upto_in in K, K'. unfold C in *. apply pos_eq in E; lia.
  - intros k K. apply upto_in in K. unfold C in *. apply pos_ok; auto; lia.
  - intros k y' K L'. f_equal. unfold NmsProofs4.pos. ring.
  - exists y2. split; [auto|]. split; [unfold glen in *; lia|]. split.
    + intros j J. destruct (Z.eq_dec j 4) as [->|]; [|replace j with (5 + (j - 5)) by ring; apply (V2 (j - 5)); apply upto_in; unfold C; lia].
      assert (P4 : 0 <= pos b a 4 < M) by (apply pos_ok; auto; lia). rewrite F2; [unfold gat; rewrite V1, Z.eqb_refl by lia; auto|lia|].
      intros X. apply in_map_iff in X as (k & E & K). apply upto_in in K. unfold C in *. apply pos_eq in E; lia.
    + intros q Q NT. rewrite F2; [|auto|].
      * unfold gat. rewrite V1 by auto. destruct (Z.eqb_spec q (pos b a 4)) as [X|X]; [destruct NT; exists 4; split; [lia|auto]|auto].
      * intros X. apply in_map_iff in X as (k & E & K). apply upto_in in K. unfold C in *. apply NT. exists (5 + k). split; [lia|auto].
Qed.

Variable order : list Z.
Hypothesis PERM : Permutation order (upto N).
Notation od := (gat 0 order).
Lemma od_in i : 0 <= i < N -> 0 <= od i < N.
Proof. intros I. apply upto_in. apply (Permutation_in _ PERM). unfold gat. apply nth_In. rewrite (Permutation_length PERM). pose proof (upto_len N HN). lia. Qed.
Lemma od_get i : 0 <= i < N -> get order i = Some (od i).
Proof. intros I. apply gget_ok. unfold within, glen. pose proof (Permutation_length PERM). pose proof (upto_len N HN). lia. Qed.
Lemma od_inj i j : 0 <= i < N -> 0 <= j < N -> od i = od j -> i = j.
Proof.
  intros I J E. assert (ND : NoDup order) by (apply (Permutation_NoDup (Permutation_sym PERM)); apply upto_nodup). pose proof (Permutation_length PERM). pose proof (upto_len N HN).
  unfold gat in *. apply NoDup_nth in E; auto; lia.
Qed.

Definition beaten (i : Z) : bool := existsb (fun j => over b (od i) (od j)) (rev (upto i)).
Definition done (i : Z) (y : list Qc) : Prop := forall j, 4 <= j < D -> qg y (pos b (od i) j) = if beaten i then 0%Qc else fill (b * N + od i) j.
Lemma zero_fill a j : 4 <= j -> fill (b * N + a) 4 = 0%Qc -> fill (b * N + a) j = 0%Qc.
Proof.
  intros J Z4. destruct (Z.eq_dec j 4) as [->|]; [auto|]. unfold NmsProofs4.fill in *. cbn [Z.ltb Z.compare Pos.compare Pos.compare_cont Z.eqb Pos.eqb] in Z4.
  destruct (Z.ltb_spec j 4); [lia|]. destruct (Z.eqb_spec j 4); [lia|]. rewrite Z4. rewrite Qcmult_0_l. unfold suppress_under. destruct (less 0 t); auto.
Qed.
Lemma box_step_ok i y : 0 <= i < N -> glen y = M -> (forall a j, 0 <= a < N -> 0 <= j < 4 -> qg y (pos b a j) = fill (b * N + a) j) ->
  (forall j, 4 <= j < D -> qg y (pos b (od i) j) = fill (b * N + od i) j) ->
  exists y', box_step nms D C (b * N) order i y = Some y' /\ glen y' = M /\ done i y' /\ forall q, 0 <= q -> ~ tail_of (od i) q -> qg y' q = qg y q.
Proof.
  intros I L VB VT. unfold box_step. rewrite od_get by auto. cbn [obind]. pose proof (od_in i I) as A. set (a := od i) in *.
  assert (G4 : get y (D * (b * N + a) + 4) = Some (qg y (pos b a 4))).
  { replace (D * (b * N + a) + 4) with (pos b a 4) by (unfold NmsProofs4.pos; ring). apply gget_ok. unfold within; rewrite L; apply pos_ok; auto; lia. }
  rewrite G4. cbn [obind].
  rewrite VT by lia. destruct (same (fill (b * N + a) 4) 0) eqn:Z4.
  - apply same_true in Z4. exists y. split; [auto|]. split; [auto|]. split; [|auto]. intros j J. fold a. rewrite VT by auto. rewrite zero_fill by (auto; lia). destruct (beaten i); auto.
  - clear Z4. assert (G : forall l g y1, (forall j, In j l -> 0 <= j < N) -> glen y1 = M -> (forall j, 4 <= j < D -> qg y1 (pos b a j) = if g : bool then 0%Qc else fill (b * N + a) j) -> (forall q, 0 <= q -> ~ tail_of a q -> qg y1 q = qg y q) ->
      exists y', loop (fun j y => obind (get order j) (fun b0 => obind (four y (D * (b * N + a))) (fun box => obind (four y (D * (b * N + b0))) (fun box2 =>
        if more (calculate_iou box box2) nms then obind (put y (D * (b * N + a) + 4) 0%Qc) (fun y => loop (fun k y => put y (D * (b * N + a) + 5 + k) 0%Qc) (upto C) y) else Some y)))) l y1 = Some y' /\
        glen y' = M /\ (forall j, 4 <= j < D -> qg y' (pos b a j) = if g || existsb (fun j => over b a (od j)) l then 0%Qc else fill (b * N + a) j) /\ (forall q, 0 <= q -> ~ tail_of a q -> qg y' q = qg y q)).
    { induction l as [|j l IH]; intros g y1 SUB L1 V1 F1; cbn [loop existsb].
      - exists y1. split; [auto|]. split; [auto|]. split; [|auto]. rewrite orb_false_r. auto.
      - assert (J : 0 <= j < N) by (apply SUB; left; auto). rewrite od_get by auto. cbn [obind].
        assert (BX : forall c, 0 <= c < N -> four y1 (D * (b * N + c)) = Some (box b c)).
        { intros c Hc. rewrite Z.mul_comm. apply (box_read t B N D x HN HD); auto. intros j0 J0. rewrite F1; [apply VB; auto| |].
          - apply pos_ok; auto; lia.
          - intros (j1 & J1 & E). apply pos_eq in E; lia. }
        rewrite (BX a), (BX (od j)) by (auto; apply od_in; auto). cbn [obind]. fold (over b a (od j)). destruct (over b a (od j)).
        + destruct (zero_tail a y1 A L1) as (y2 & E2 & L2 & Z2 & F2). rewrite E2. cbn [obind]. destruct (IH true y2) as (y3 & E3 & L3 & V3 & F3); [intros; apply SUB; right; auto|auto|auto| |].
          * intros q Q NT. rewrite F2 by auto. auto.
          * exists y3. split; [auto|]. split; [auto|]. split; [|auto]. cbn [orb] in *. rewrite orb_true_r. auto.
        + cbn [obind orb]. apply IH; auto. intros; apply SUB; right; auto. }
    destruct (G (rev (upto i)) false y) as (y' & E' & L' & V' & F'); auto.
    { intros j J. rewrite <- in_rev in J. apply upto_in in J. lia. }
    exists y'. split; [auto|]. split; [auto|]. split; [exact V'|auto].
Qed.
Lemma batch_ok y : glen y = M -> (forall a j, 0 <= a < N -> 0 <= j < D -> qg y (pos b a j) = fill (b * N + a) j) ->
  exists y', loop (box_step nms D C (b * N) order) (rev (upto N)) y = Some y' /\ glen y' = M /\ (forall i, 0 <= i < N -> done i y') /\
    forall q, 0 <= q -> (forall a, 0 <= a < N -> ~ tail_of a q) -> qg y' q = qg y q.
Proof.
  intros L V.
  assert (IN : forall i, In i (rev (upto N)) <-> 0 <= i < N) by (intros i; rewrite <- in_rev; apply upto_in).
  destruct (run_ok Z M (fun i => tail_of (od i)) done y (box_step nms D C (b * N) order) (rev (upto N))) with (y := y) as (y' & E & L' & DN & F); auto.
  - apply NoDup_rev, upto_nodup.
  - intros i i' q I I' (j & J & ->) (j' & J' & E). apply IN in I, I'. apply od_inj; auto. apply pos_eq in E; auto; try lia; apply od_in; auto.
  - intros i y1 y2 I E Dn j J. apply IN in I. rewrite <- E; [auto| |exists j; auto]. apply pos_ok; [apply od_in; auto|lia].
  - intros i y1 I L1 V1. apply IN in I. apply box_step_ok; auto.
    + intros a j A J. rewrite V1; [apply V; auto; lia| |].
      * apply pos_ok; auto; lia.
      * right. intros i' I' (j' & J' & E). apply IN in I'. pose proof (od_in i' I'). apply pos_eq in E; lia.
    + intros j J. pose proof (od_in i I). rewrite V1; [apply V; auto; lia| |].
      * apply pos_ok; auto; lia.
      * left. exists j. auto.
  - exists y'. split; [auto|]. split; [auto|]. split; [intros i I; apply DN, IN; auto|]. intros q Q NT. apply F; [auto|]. intros i I. apply NT, od_in, IN. auto.
Qed.
End batch.

Definition settled (b : Z) (y : list Qc) : Prop := exists order, ranking N (fun a => fill (b * N + a) 4) order /\ forall i, 0 <= i < N -> done b order i y.
Lemma by_box_ok y0 : glen y0 = M -> exists y, nms_forward std_sort false t nms B N D x y0 = Some y /\ glen y = M /\
  (forall b a j, 0 <= b < B -> 0 <= a < N -> 0 <= j < 4 -> qg y (pos b a j) = fill (b * N + a) j) /\ forall b, 0 <= b < B -> settled b y.
Proof.
  intros L0. unfold nms_forward. fold C. destruct (fill_ok t B N D x HN HD LX y0 L0) as (y1 & E1 & L1 & V1). fold C in E1. rewrite E1. cbn [obind].
  destruct (run_ok Z M (fun b q => exists a, 0 <= a < N /\ tail_of b a q) settled y1
    (fun b y => loop (box_step nms D C (b * N) (index_sort std_sort y (b * N * D + 4) N D)) (rev (upto N)) y) (upto B)) with (y := y1) as (y & E & L & DN & F); auto.
  - apply upto_nodup.
  - intros b b' q I I' (a & A & j & J & ->) (a' & A' & j' & J' & E). apply upto_in in I, I'. apply (pos_eq b) in E; auto; lia.
  - intros b y y' I E (order & R & Dn). apply upto_in in I. exists order. split; [auto|]. intros i Hi j J. assert (P : Permutation order (upto N)) by (rewrite upto_range; apply (proj1 R)).
    pose proof (od_in order P i Hi). rewrite <- E; [apply Dn; auto| |].
    + apply pos_ok; auto; lia.
    + exists (gat 0 order i). split; [auto|]. exists j. auto.
  - intros b y I L V. apply upto_in in I. set (order := index_sort _ _ _ _ _).
    assert (VV : forall a j, 0 <= a < N -> 0 <= j < D -> qg y (pos b a j) = fill (b * N + a) j).
    { intros a j A J. rewrite V; [apply V1; auto| |].
      - apply pos_ok; auto.
      - destruct (Z_lt_ge_dec j 4); [right|left; exists a; split; [auto|]; exists j; split; [lia|auto]]. intros b' I' (a' & A' & j' & J' & E). apply upto_in in I'. apply (pos_eq b) in E; lia. }
    assert (R : ranking N (fun a => fill (b * N + a) 4) order).
    { apply (ranking_ext N (fun i => nth (Z.to_nat (b * N * D + 4 + i * D)) y 0%Qc)); [|apply index_sort_ok; auto]. intros i Hi. rewrite <- VV by lia. unfold gat, NmsProofs4.pos. do 2 f_equal. ring. }
    assert (P : Permutation order (upto N)) by (rewrite upto_range; apply (proj1 R)).
    destruct (batch_ok b I order P y L VV) as (y' & E & L' & DN & F). exists y'. split; [auto|]. split; [auto|]. split; [exists order; auto|].
    intros q Q NO. apply F; auto. intros a A T. apply NO. exists a. auto.
  - exists y. split; [exact E|]. split; [auto|]. split; [|intros b I; apply DN, upto_in; auto].
    intros b a j I A J. rewrite F; [apply V1; auto; lia| |].
    + apply pos_ok; auto; lia.
    + intros b' I' (a' & A' & j' & J' & E'). apply upto_in in I'. apply (pos_eq b) in E'; lia.
Qed.
End detection.
