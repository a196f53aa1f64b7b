(** BatchMatmul. *)
From Coq Require Import List ZArith Lia Bool QArith Qcanon.
From Verif Require Import NdModel NdSpec NdProofs IdxModel IdxSpec IdxProofs1 IdxProofs2 IdxProofs3 IdxProofs6 JoinModel JoinSpec JoinProofs JoinProofs2 ScanModel ScanSpec ScanProofs1 ReduceModel ReduceSpec ReduceProofs1 ConvModel ConvSpec ConvProofs1 ConvProofs2 ConvProofs3 ConvProofs5 PoolProofs3 PoolProofs5 MatModel MatSpec MatProofs1.
Import ListNotations.
Local Open Scope list_scope.
Local Open Scope Z_scope.

(** * Positions in a matrix that may be transposed *)
Definition pos (t : bool) (cols i j : Z) : Z := if t then j * cols + i else i * cols + j.
Lemma pos_neg (t : bool) cols i j : pos (negb t) cols i j = pos t cols j i.
Proof. destruct t; reflexivity. Qed.
Lemma pos_bound (t : bool) rows cols i j : 0 <= i < (if t then cols else rows) -> 0 <= j < (if t then rows else cols) -> 0 <= pos t cols i j < rows * cols.
Proof. unfold pos. destruct t; nia. Qed.
Lemma sum_pos (t : bool) rows cols F : 0 <= rows -> 0 <= cols ->
  zsum (rows * cols) F = zsum (if t then cols else rows) (fun i => zsum (if t then rows else cols) (fun j => F (pos t cols i j))).
Proof. intros HR HC. rewrite zsum_mul by assumption. destruct t; cbn [pos]; [apply zsum_swap | reflexivity]. Qed.
Lemma op_mat_ok (t : bool) a G rows cols s i j : qlen a = G * (rows * cols) -> 0 <= rows -> 0 <= cols -> 0 <= s < G -> 0 <= i < (if t then cols else rows) -> 0 <= j < (if t then rows else cols) ->
  op_mat t a rows cols s i j = Some (qat a (s * (rows * cols) + pos t cols i j)).
Proof.
  intros L HR HC Hs Hi Hj. assert (RC : 0 <= rows * cols) by nia. pose proof (row_end s G (rows * cols) Hs RC).
  assert (0 <= s * (rows * cols)) by nia. unfold op_mat, transposed_mat, pos. destruct t.
  - rewrite mat_ok; [rewrite Z.add_assoc; reflexivity | lia | lia | lia | pose proof (row_end j rows cols Hj HC); lia].
  - rewrite mat_ok; [rewrite Z.add_assoc; reflexivity | lia | lia | lia | pose proof (row_end i rows cols Hi HC); lia].
Qed.
(** Products of all samples. *)
Lemma products_ok (accum tc : bool) G rows depth cols (a b : Z -> Z -> Z -> option Qc) (fa fb : Z -> Z -> Z -> Qc) dst : 0 <= G -> 0 <= rows -> 0 <= cols -> qlen dst = G * (rows * cols) ->
  (forall g i k, 0 <= g < G -> 0 <= i < (if tc then cols else rows) -> 0 <= k < depth -> a g i k = Some (fa g i k)) ->
  (forall g k j, 0 <= g < G -> 0 <= k < depth -> 0 <= j < (if tc then rows else cols) -> b g k j = Some (fb g k j)) ->
  exists d, loop (fun s => matmul_t accum tc rows depth cols (a s) (b s) (s * (rows * cols))) (upto G) dst = Some d /\ length d = length dst /\
  forall g i j, 0 <= g < G -> 0 <= i < (if tc then cols else rows) -> 0 <= j < (if tc then rows else cols) ->
    qat d (g * (rows * cols) + pos tc cols i j) = ((if accum then qat dst (g * (rows * cols) + pos tc cols i j) else 0) + zsum depth (fun k => fa g i k * fb g k j))%Qc.
Proof.
  intros HG HR HC L A B. unfold matmul_t, pos. destruct tc.
  - destruct (group_matmul accum (G * (rows * cols)) G rows depth cols (fun g => transposed_mat (b g)) (fun g => transposed_mat (a g)) (fun g r k => fb g k r) (fun g k c => fa g c k) 0 dst) as (d & E & LD & V & _); auto; try lia.
    + intros g r k Hg Hr Hk. unfold transposed_mat. apply B; assumption.
    + intros g k c Hg Hk Hc. unfold transposed_mat. apply A; assumption.
    + exists d. split; [| split; [exact LD |]].
      * rewrite <- E. apply loop_ext. intros s d1 _. replace (s * (rows * cols)) with (0 + s * rows * cols) by ring. reflexivity.
      * intros g i j Hg Hi Hj. replace (g * (rows * cols) + (j * cols + i)) with (0 + (g * rows + j) * cols + i) by ring. rewrite V by assumption.
        f_equal. apply zsum_ext. intros k Hk. ring.
  - destruct (group_matmul accum (G * (rows * cols)) G rows depth cols a b fa fb 0 dst) as (d & E & LD & V & _); auto; try lia.
    exists d. split; [| split; [exact LD |]].
    * rewrite <- E. apply loop_ext. intros s d1 _. replace (s * (rows * cols)) with (0 + s * rows * cols) by ring. reflexivity.
    * intros g i j Hg Hi Hj. replace (g * (rows * cols) + (i * cols + j)) with (0 + (g * rows + i) * cols + j) by ring. rewrite V by assumption. reflexivity.
Qed.

(** * Broadcasting *)
Lemma Forall2_length {X Y} (P : X -> Y -> Prop) l m : Forall2 P l m -> length l = length m.
Proof. induction 1 as [| a b l m H F IH]; cbn [length]; [reflexivity | rewrite IH; reflexivity]. Qed.
Definition stretches (A C : list Z) : Prop := Forall2 (fun e n => e = n \/ e = 1) A C.
Lemma picked_amap A : forall c, picked A c = amap (bc_fs A) c.
Proof. induction A as [| n A IH]; intros [| i c]; cbn [picked bc_fs amap]; try reflexivity. rewrite IH. reflexivity. Qed.
Lemma picked_inside A C c : stretches A C -> inside c C -> inside (picked A c) A.
Proof. intros F I. rewrite picked_amap. eapply fits_inside; [apply bc_fits; exact F | exact I]. Qed.
Lemma picked_same C : forall c, inside c C -> picked C c = c.
Proof.
  induction C as [| n C IH]; intros c I; inversion I as [| i ? r ? Hi Hr]; subst; cbn [picked]; [reflexivity |]. rewrite IH by exact Hr.
  destruct (Z.eqb_spec n 1) as [-> |]; [| reflexivity]. replace i with 0 by lia. reflexivity.
Qed.
Lemma bc_pairs_ok A C : nonneg C -> stretches A C -> (length C <= 8)%nat -> exists src, bc_pairs A C = Some (map (fun i => (i, src i)) (upto (size C))) /\
  forall idx, inside idx C -> src (off idx C) = off (picked A idx) A.
Proof.
  intros P F L8. pose proof (Forall2_length _ _ _ F) as LE. destruct (bc_strides_ok A C F (cstrides A) (cstrides_length A)) as (st & E & L & D).
  exists (fun i => strided_index i C st). split.
  - unfold bc_pairs. destruct (Nat.leb_spec (length A) (length C)); [| lia]. destruct (Nat.leb_spec (length C) 8); [| lia]. cbn [andb]. unfold expand_shape. rewrite LE, Nat.sub_diag. cbn [repeat app].
    rewrite E. cbn [obind]. rewrite prod_size. reflexivity.
  - intros idx I. unfold strided_index. pose proof (strided_dot C st idx 0 I L ltac:(lia)) as H. cbn [Z.mul] in H. rewrite Z.add_0_l in H. rewrite H, D by exact I.
    rewrite picked_amap. apply dot_cstrides. eapply fits_inside; [apply bc_fits; exact F | exact I].
Qed.

Section Spread.
Variables A C : list Z.
Variables rows cols : Z.
Variable bc : option (list Z).
Hypothesis HA : nonneg A.
Hypothesis PC : nonneg C.
Hypothesis HR : 0 <= rows.
Hypothesis HC : 0 <= cols.
Hypothesis FA : stretches A C.
Hypothesis BC : match bc with None => A = C | Some t => t = C ++ [rows; cols] /\ (length C <= 6)%nat end.
Local Notation rc := (rows * cols).
(** The sample of the input that is repeated as sample [g]. *)
Definition source (g : Z) : Z := off (picked A (unoff C g)) A.
Lemma rc_size S : size (S ++ [rows; cols]) = size S * rc.
Proof. rewrite size_app. cbn [size]. rewrite Z.mul_1_r. reflexivity. Qed.
Lemma source_bound g : 0 <= g < size C -> 0 <= source g < size A.
Proof using PC FA. intros H. apply off_bound. apply picked_inside with C; [exact FA | apply (unoff_inside C g PC H)]. Qed.
Lemma source_same g : A = C -> 0 <= g < size C -> source g = g.
Proof using PC. intros E H. unfold source. destruct (unoff_inside C g PC H) as (I & O). rewrite E, picked_same by exact I. exact O. Qed.
Lemma pairs_source t : bc = Some t -> exists src, bc_pairs (A ++ [rows; cols]) t = Some (map (fun i => (i, src i)) (upto (size C * rc))) /\
  forall g q, 0 <= g < size C -> 0 <= q < rc -> src (g * rc + q) = source g * rc + q.
Proof using PC HR HC FA BC HA.
  intros EB. rewrite EB in BC. destruct BC as (-> & L6).
  assert (F2 : stretches (A ++ [rows; cols]) (C ++ [rows; cols])) by (apply Forall2_app; [exact FA |]; constructor; [left; reflexivity | constructor; [left; reflexivity | constructor]]).
  assert (P2 : nonneg (C ++ [rows; cols])) by (apply Forall_app; split; [exact PC | constructor; [exact HR | constructor; [exact HC | constructor]]]).
  destruct (bc_pairs_ok _ _ P2 F2) as (src & E & V); [rewrite app_length; cbn [length]; lia |]. exists src. rewrite rc_size in E. split; [exact E |].
  intros g q Hg Hq. destruct (unoff_inside C g PC Hg) as (I & O). assert (P3 : nonneg [rows; cols]) by (constructor; [exact HR | constructor; [exact HC | constructor]]).
  destruct (off_onto [rows; cols] q P3) as (m & IM & OM); [cbn [size]; unfold within; lia |].
  assert (SP : picked (A ++ [rows; cols]) (unoff C g ++ m) = picked A (unoff C g) ++ m).
  { assert (LL : length (unoff C g) = length A) by (rewrite (Forall2_length _ _ _ FA); apply (Forall2_length _ _ _ I)). revert LL. generalize (unoff C g) as c. clear - IM. induction A as [| n B IH]; intros [| i c] L; try discriminate.
    - cbn [app]. apply picked_same. exact IM.
    - cbn [app picked]. rewrite IH by (injection L; auto). reflexivity. }
  specialize (V (unoff C g ++ m)). rewrite off_app in V by assumption. cbn [size] in V. rewrite Z.mul_1_r, O, OM in V. rewrite V by (apply inside_app; assumption).
  rewrite SP, off_app by (try assumption; apply picked_inside with C; assumption). unfold source. cbn [size]. rewrite Z.mul_1_r, OM. reflexivity.
Qed.
Lemma source_pos_bound g q : 0 <= g < size C -> 0 <= q < rc -> 0 <= source g * rc + q < size A * rc.
Proof using PC FA HR HC. intros Hg Hq. pose proof (source_bound g Hg). nia. Qed.
Lemma split_pos j : 0 <= j < size C * rc -> exists g q, 0 <= g < size C /\ 0 <= q < rc /\ j = g * rc + q.
Proof using HR HC.
  intros H. assert (0 <= rc) by nia. assert (0 < rc) by (destruct (Z.eq_dec rc 0) as [E |]; [rewrite E in H; lia | lia]). exists (j / rc), (j mod rc). pose proof (Z.mod_pos_bound j rc). split; [split; [apply Z.div_pos; lia | apply Z.div_lt_upper_bound; lia] |]. split; [lia |].
  rewrite (Z.div_mod j rc) at 1 by lia. ring.
Qed.
Lemma bc_data_ok junk x : qlen x = size A * rc -> exists x', bc_data junk (A ++ [rows; cols]) bc x = Some x' /\ qlen x' = size C * rc /\
  forall g q, 0 <= g < size C -> 0 <= q < rc -> qat x' (g * rc + q) = qat x (source g * rc + q).
Proof using PC HR HC FA BC HA.
  intros LX. unfold bc_data. pose proof pairs_source as PSRC. destruct bc as [t |] eqn:EB.
  - destruct (PSRC t eq_refl) as (src & E & V). rewrite E. cbn [obind]. unfold copy_all.
    assert (FL : qlen (fresh junk t) = size C * rc) by (destruct BC as (-> & _); unfold qlen, fresh; rewrite repeat_length, prod_size, rc_size, Z2Nat.id; [reflexivity | assert (0 <= size C) by (apply size_nonneg; exact PC); nia]).
    assert (0 <= size C * rc) by (unfold qlen in FL; lia).
    rewrite <- loop_map.
    destruct (fill_ok (size C * rc) (fun j _ => qat x (src j)) (fun a dst => obind (get x (src a)) (fun v => put dst a v)) (fresh junk t)) as (d & E2 & L2 & V2); auto.
    { intros j a Hj La. destruct (split_pos j Hj) as (g & q & Hg & Hq & ->). rewrite V by assumption. rewrite get_ok by (unfold within; rewrite LX; apply source_pos_bound; assumption). reflexivity. }
    exists d. split; [exact E2 | split; [unfold qlen in *; lia |]]. intros g q Hg Hq. rewrite V2 by nia. rewrite V by assumption. reflexivity.
  - exists x. split; [reflexivity | split; [rewrite LX, BC; reflexivity |]]. intros g q Hg Hq. rewrite source_same by (exact BC || exact Hg). reflexivity.
Qed.
Lemma bc_grad_ok junk body (H : Z -> Qc) (accum : bool) dx0 : qlen dx0 = size A * rc ->
  (forall (acc : bool) d0, qlen d0 = size C * rc -> exists d, body acc d0 = Some d /\ length d = length d0 /\ forall j, 0 <= j < size C * rc -> qat d j = ((if acc then qat d0 j else 0) + H j)%Qc) ->
  exists dx, bc_grad junk (A ++ [rows; cols]) bc body accum dx0 = Some dx /\ length dx = length dx0 /\
  forall u, length u = length dx0 -> qinner u dx = ((if accum then qinner u dx0 else 0) + zsum (size C) (fun g => zsum rc (fun q => H (g * rc + q)%Z * qat u (source g * rc + q)%Z)))%Qc.
Proof using PC HR HC FA BC HA.
  intros LX BD. assert (PS : 0 <= size C) by (apply size_nonneg; exact PC). assert (PR : 0 <= rc) by nia. unfold bc_grad. pose proof pairs_source as PSRC. destruct bc as [t |] eqn:EB.
  - assert (FL : qlen (fresh junk t) = size C * rc) by (destruct BC as (-> & _); unfold qlen, fresh; rewrite repeat_length, prod_size, rc_size, Z2Nat.id; [reflexivity | nia]).
    destruct (BD false (fresh junk t) FL) as (d & E & L & V). rewrite E. cbn [obind]. destruct (PSRC t eq_refl) as (src & E2 & V2). rewrite E2. cbn [obind].
    unfold add_all. rewrite map_map. unfold swap. cbn [fst snd]. rewrite <- loop_map.
    assert (N0 : 0 <= size C * rc) by nia.
    destruct (gather_adds (size C * rc) (size A * rc) src d (cleared accum dx0) N0) as (dx & E3 & L3 & V3).
    { unfold qlen in *. lia. } { unfold qlen in *. rewrite cleared_length. exact LX. }
    { intros j Hj. destruct (split_pos j Hj) as (g & q & Hg & Hq & ->). rewrite V2 by assumption. apply source_pos_bound; assumption. }
    exists dx. split; [exact E3 | split; [rewrite L3; apply cleared_length |]]. intros u LU. rewrite V3, cleared_qinner. f_equal. rewrite zsum_mul by assumption.
    apply zsum_ext. intros g Hg. apply zsum_ext. intros q Hq. rewrite V2 by assumption. rewrite V by nia. cbn iota. rewrite Qcplus_0_l. reflexivity.
  - destruct (BD accum dx0) as (d & E & L & V); [rewrite LX, BC; reflexivity |]. exists d. split; [exact E | split; [exact L |]]. intros u LU.
    assert (LD : qlen d = size C * rc) by (unfold qlen in *; rewrite L, LX, BC; reflexivity).
    rewrite (inner2 (size C) rc u d (fun g q => (if accum then qat dx0 (g * rc + q)%Z else 0) + H (g * rc + q)%Z)%Qc); auto; [| unfold qlen in *; lia | intros g q Hg Hq; apply V; nia].
    assert (OLD : (if accum then qinner u dx0 else 0%Qc) = zsum (size C) (fun g => zsum rc (fun q => qat u (g * rc + q)%Z * (if accum then qat dx0 (g * rc + q)%Z else 0)))%Qc).
    { destruct accum; [apply inner2; auto; unfold qlen in *; lia |]. symmetry. apply zsum_zero. intros r Hr. apply zsum_zero. intros k Hk. ring. }
    rewrite OLD, <- zsum_plus. apply zsum_ext. intros g Hg. rewrite <- zsum_plus. apply zsum_ext. intros q Hq. rewrite (source_same g BC Hg). ring.
Qed.
End Spread.
