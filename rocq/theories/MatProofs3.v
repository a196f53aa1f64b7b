(** BatchMatmul: forward and backward. *)
From Coq Require Import List ZArith Lia Bool QArith Qcanon.
From Verif Require Import NdModel NdSpec NdProofs IdxModel IdxSpec IdxProofs1 IdxProofs2 IdxProofs3 IdxProofs6 JoinModel JoinSpec JoinProofs JoinProofs2 ScanModel ScanSpec ScanProofs1 ReduceModel ReduceSpec ReduceProofs1 ConvModel ConvSpec ConvProofs1 ConvProofs2 ConvProofs3 ConvProofs5 PoolProofs3 PoolProofs5 MatModel MatSpec MatProofs1 MatProofs2.
Import ListNotations.
Local Open Scope list_scope.
Local Open Scope Z_scope.

Section Batch.
Variables ta tb : bool.
Variables A B C : list Z.
Variables ra ca rb cb : Z.
Variables ba bb : option (list Z).
Hypothesis HA : nonneg A.
Hypothesis HB : nonneg B.
Hypothesis PC : nonneg C.
Hypothesis SA : stretches A C.
Hypothesis SB : stretches B C.
Hypothesis Hra : 0 <= ra.
Hypothesis Hca : 0 <= ca.
Hypothesis Hrb : 0 <= rb.
Hypothesis Hcb : 0 <= cb.
Hypothesis RED : (if ta then ra else ca) = (if tb then cb else rb).
Hypothesis BA : match ba with None => A = C | Some t => t = C ++ [ra; ca] /\ (length C <= 6)%nat end.
Hypothesis BB : match bb with None => B = C | Some t => t = C ++ [rb; cb] /\ (length C <= 6)%nat end.
Local Notation ry := (if ta then ca else ra).
Local Notation cy := (if tb then rb else cb).
Local Notation red := (if ta then ra else ca).
Local Notation f := {| trans_a := ta; trans_b := tb; row_a := ra; col_a := ca; row_b := rb; col_b := cb; bc_a := ba; bc_b := bb;
  samples := size C; shape_a := A ++ [ra; ca]; shape_b := B ++ [rb; cb]; m_out := C ++ [ry; cy] |}.
Local Notation sa := (source A C).
Local Notation sb := (source B C).
Definition term (a b : list Qc) (g i j k : Z) : Qc :=
  (qat a (sa g * (ra * ca) + pos ta ca i j)%Z * qat b (sb g * (rb * cb) + pos tb cb j k)%Z)%Qc.
Lemma ry_pos : 0 <= ry. Proof using Hra Hca. clear - Hra Hca. destruct ta; assumption. Qed.
Lemma cy_pos : 0 <= cy. Proof using Hrb Hcb. clear - Hrb Hcb. destruct tb; assumption. Qed.
Lemma sc_pos : 0 <= size C. Proof using PC. apply size_nonneg. exact PC. Qed.
Lemma row_b_red j : 0 <= j < red -> 0 <= j < (if tb then cb else rb). Proof using RED. rewrite RED. auto. Qed.

Lemma bmm_forward_ok junk a b y0 : qlen a = size A * (ra * ca) -> qlen b = size B * (rb * cb) -> qlen y0 = size C * (ry * cy) ->
  exists y, bmm_forward junk f a b y0 = Some y /\ length y = length y0 /\
  forall g i k, 0 <= g < size C -> 0 <= i < ry -> 0 <= k < cy -> qat y (g * (ry * cy) + (i * cy + k)) = zsum red (fun j => term a b g i j k).
Proof using All.
  intros LA LB LY. unfold bmm_forward. cbn [trans_a trans_b row_a col_a row_b col_b bc_a bc_b samples shape_a shape_b].
  destruct (bc_data_ok A C ra ca ba HA PC Hra Hca SA BA junk a LA) as (a' & EA & LA' & VA). rewrite EA. cbn [obind].
  destruct (bc_data_ok B C rb cb bb HB PC Hrb Hcb SB BB junk b LB) as (b' & EB & LB' & VB). rewrite EB. cbn [obind].
  unfold row_y, col_y. cbn [trans_a trans_b row_a col_a row_b col_b].
  destruct (products_ok false false (size C) ry red cy (op_mat ta a' ra ca) (op_mat tb b' rb cb)
    (fun g i j => qat a' (g * (ra * ca) + pos ta ca i j)) (fun g j k => qat b' (g * (rb * cb) + pos tb cb j k)) y0 sc_pos ry_pos cy_pos LY) as (y & E & L & V).
  - intros g i j Hg Hi Hj. apply op_mat_ok with (size C); assumption.
  - intros g j k Hg Hj Hk. apply op_mat_ok with (size C); try assumption. apply row_b_red. exact Hj.
  - exists y. split; [exact E | split; [exact L |]]. intros g i k Hg Hi Hk. specialize (V g i k Hg Hi Hk). unfold pos in V at 1. rewrite V. rewrite Qcplus_0_l.
    apply zsum_ext. intros j Hj. unfold term. rewrite VA, VB; try assumption; [reflexivity | |].
    + apply pos_bound; [apply row_b_red; exact Hj | exact Hk].
    + apply pos_bound; assumption.
Qed.
(** The inner product of the output with a gradient. *)
Lemma inner_bmm dy v a b : qlen dy = size C * (ry * cy) -> qlen v = size C * (ry * cy) ->
  (forall g i k, 0 <= g < size C -> 0 <= i < ry -> 0 <= k < cy -> qat v (g * (ry * cy) + (i * cy + k)) = zsum red (fun j => term a b g i j k)) ->
  qinner dy v = zsum (size C) (fun g => zsum ry (fun i => zsum cy (fun k => zsum red (fun j => qat dy (g * (ry * cy) + (i * cy + k))%Z * term a b g i j k))))%Qc.
Proof using PC Hra Hca Hrb Hcb.
  intros LD LV V. pose proof ry_pos. pose proof cy_pos. pose proof sc_pos. rewrite qinner_zsum by (unfold qlen in *; lia). rewrite LV, zsum_mul by nia. apply zsum_ext. intros g Hg.
  rewrite zsum_mul by assumption. apply zsum_ext. intros i Hi. apply zsum_ext. intros k Hk. rewrite V by assumption. rewrite zsum_scale. reflexivity.
Qed.

Lemma bmm_da_ok junk b dy (accum : bool) d0 a : qlen a = size A * (ra * ca) -> qlen b = size B * (rb * cb) -> qlen dy = size C * (ry * cy) -> qlen d0 = size A * (ra * ca) ->
  exists d, obind (bc_data junk (shape_a f) (bc_a f) a) (fun _ =>
    obind (bc_data junk (shape_b f) (bc_b f) b) (fun b =>
    bc_grad junk (shape_a f) (bc_a f) (fun accum => loop (fun s =>
      matmul_t accum (trans_a f) (row_a f) (col_y f) (col_a f) (op_mat false dy (row_y f) (col_y f) s) (op_mat (negb (trans_b f)) b (row_b f) (col_b f) s) (s * (row_a f * col_a f))) (upto (samples f))) accum d0)) = Some d /\ length d = length d0 /\
  forall u y0 v, length u = length d0 -> qlen y0 = size C * (ry * cy) -> bmm_forward junk f u b y0 = Some v -> qinner u d = ((if accum then qinner u d0 else 0) + qinner dy v)%Qc.
Proof using All.
  intros LA LB LD L0. cbn [trans_a trans_b row_a col_a row_b col_b bc_a bc_b samples shape_a shape_b].
  destruct (bc_data_ok A C ra ca ba HA PC Hra Hca SA BA junk a LA) as (a' & EA & LA' & VA). rewrite EA. cbn [obind]. clear a' EA LA' VA a LA.
  destruct (bc_data_ok B C rb cb bb HB PC Hrb Hcb SB BB junk b LB) as (b' & EB & LB' & VB). rewrite EB. cbn [obind].
  unfold row_y, col_y. cbn [trans_a trans_b row_a col_a row_b col_b].
  set (H := fun p => let g := p / (ra * ca) in let q := p mod (ra * ca) in
    let i := if ta then q mod ca else q / ca in let j := if ta then q / ca else q mod ca in
    zsum cy (fun k => qat dy (g * (ry * cy) + (i * cy + k))%Z * qat b' (g * (rb * cb) + pos tb cb j k)%Z)%Qc).
  assert (HP : forall g i j, 0 <= g < size C -> 0 <= i < ry -> 0 <= j < red -> H (g * (ra * ca) + pos ta ca i j) = zsum cy (fun k => qat dy (g * (ry * cy) + (i * cy + k))%Z * qat b' (g * (rb * cb) + pos tb cb j k)%Z)%Qc).
  { intros g i j Hg Hi Hj. pose proof (pos_bound ta ra ca i j Hi Hj) as PB. unfold H.
    cbv zeta. replace ((g * (ra * ca) + pos ta ca i j) / (ra * ca)) with g by (rewrite (Z.add_comm (g * (ra * ca))), Z.div_add, Z.div_small by lia; lia).
    replace ((g * (ra * ca) + pos ta ca i j) mod (ra * ca)) with (pos ta ca i j) by (rewrite (Z.add_comm (g * (ra * ca))), Z.mod_add, Z.mod_small by lia; lia).
    assert (X : (if ta then pos ta ca i j mod ca else pos ta ca i j / ca) = i /\ (if ta then pos ta ca i j / ca else pos ta ca i j mod ca) = j).
    { unfold pos. destruct ta.
      - rewrite (Z.add_comm (j * ca)), Z.div_add, Z.mod_add, Z.div_small, Z.mod_small by lia. split; lia.
      - rewrite (Z.add_comm (i * ca)), Z.div_add, Z.mod_add, Z.div_small, Z.mod_small by lia. split; lia. }
    destruct X as (-> & ->). reflexivity. }
  destruct (bc_grad_ok A C ra ca ba HA PC Hra Hca SA BA junk (fun accum => loop (fun s =>
      matmul_t accum ta ra cy ca (op_mat false dy ry cy s) (op_mat (negb tb) b' rb cb s) (s * (ra * ca))) (upto (size C))) H accum d0 L0) as (d & E & L & V).
  { intros acc d1 L1.
    destruct (products_ok acc ta (size C) ra cy ca (op_mat false dy ry cy) (op_mat (negb tb) b' rb cb)
      (fun g i k => qat dy (g * (ry * cy) + (i * cy + k))) (fun g k j => qat b' (g * (rb * cb) + pos tb cb j k)) d1 sc_pos Hra Hca L1) as (d & E & L & V).
    - intros g i k Hg Hi Hk. rewrite (op_mat_ok false dy (size C)); [reflexivity | assumption | apply ry_pos | apply cy_pos | assumption | assumption | assumption].
    - intros g k j Hg Hk Hj. rewrite (op_mat_ok (negb tb) b' (size C)); try assumption.
      + rewrite pos_neg. reflexivity.
      + destruct tb; exact Hk.
      + apply row_b_red in Hj. destruct tb; exact Hj.
    - exists d. split; [exact E | split; [exact L |]]. intros p Hp.
      destruct (split_pos C ra ca Hra Hca p Hp) as (g & q & Hg & Hq & ->).
      assert (X : exists i j, 0 <= i < ry /\ 0 <= j < red /\ q = pos ta ca i j).
      { assert (0 < ca) by (destruct (Z.eq_dec ca 0) as [E0 |]; [rewrite E0 in Hq; lia | lia]). pose proof (Z.mod_pos_bound q ca ltac:(lia)). pose proof (Z.div_mod q ca ltac:(lia)).
        assert (0 <= q / ca < ra) by (split; [apply Z.div_pos; lia | apply Z.div_lt_upper_bound; lia]).
        unfold pos. destruct ta; [exists (q mod ca), (q / ca) | exists (q / ca), (q mod ca)]; (split; [lia | split; [lia |]]); lia. }
      destruct X as (i & j & Hi & Hj & ->). rewrite V by assumption. rewrite HP by assumption. reflexivity. }
  exists d. split; [exact E | split; [exact L |]]. intros u y0 v LU LY EF.
  destruct (bmm_forward_ok junk u b y0) as (v' & E' & LV & VV); auto; [unfold qlen in *; lia |]. rewrite EF in E'. injection E' as <-.
  rewrite (inner_bmm dy v u b LD); [| unfold qlen in *; lia | exact VV]. rewrite V by exact LU. f_equal. apply zsum_ext. intros g Hg.
  rewrite (sum_pos ta ra ca) by assumption. apply zsum_ext. intros i Hi. rewrite (zsum_swap cy red). apply zsum_ext. intros j Hj.
  rewrite HP by assumption. rewrite <- zsum_scale_r. apply zsum_ext. intros k Hk. unfold term. rewrite VB; [ring | exact Hg |].
  apply pos_bound; [apply row_b_red; exact Hj | exact Hk].
Qed.

Lemma bmm_db_ok junk a dy (accum : bool) d0 b : qlen a = size A * (ra * ca) -> qlen b = size B * (rb * cb) -> qlen dy = size C * (ry * cy) -> qlen d0 = size B * (rb * cb) ->
  exists d, obind (bc_data junk (shape_a f) (bc_a f) a) (fun a =>
    obind (bc_data junk (shape_b f) (bc_b f) b) (fun _ =>
    bc_grad junk (shape_b f) (bc_b f) (fun accum => loop (fun s =>
      matmul_t accum (trans_b f) (row_b f) (row_y f) (col_b f) (op_mat (negb (trans_a f)) a (row_a f) (col_a f) s) (op_mat false dy (row_y f) (col_y f) s) (s * (row_b f * col_b f))) (upto (samples f))) accum d0)) = Some d /\ length d = length d0 /\
  forall u y0 v, length u = length d0 -> qlen y0 = size C * (ry * cy) -> bmm_forward junk f a u y0 = Some v -> qinner u d = ((if accum then qinner u d0 else 0) + qinner dy v)%Qc.
Proof using All.
  intros LA LB LD L0. cbn [trans_a trans_b row_a col_a row_b col_b bc_a bc_b samples shape_a shape_b].
  destruct (bc_data_ok A C ra ca ba HA PC Hra Hca SA BA junk a LA) as (a' & EA & LA' & VA). rewrite EA. cbn [obind].
  destruct (bc_data_ok B C rb cb bb HB PC Hrb Hcb SB BB junk b LB) as (b' & EB & LB' & VB). rewrite EB. cbn [obind]. clear b' EB LB' VB b LB.
  unfold row_y, col_y. cbn [trans_a trans_b row_a col_a row_b col_b].
  set (H := fun p => let g := p / (rb * cb) in let q := p mod (rb * cb) in
    let j := if tb then q mod cb else q / cb in let k := if tb then q / cb else q mod cb in
    zsum ry (fun i => qat a' (g * (ra * ca) + pos ta ca i j)%Z * qat dy (g * (ry * cy) + (i * cy + k))%Z)%Qc).
  assert (HP : forall g j k, 0 <= g < size C -> 0 <= j < red -> 0 <= k < cy -> H (g * (rb * cb) + pos tb cb j k) = zsum ry (fun i => qat a' (g * (ra * ca) + pos ta ca i j)%Z * qat dy (g * (ry * cy) + (i * cy + k))%Z)%Qc).
  { intros g j k Hg Hj Hk. pose proof (pos_bound tb rb cb j k (row_b_red j Hj) Hk) as PB. unfold H.
    cbv zeta. replace ((g * (rb * cb) + pos tb cb j k) / (rb * cb)) with g by (rewrite (Z.add_comm (g * (rb * cb))), Z.div_add, Z.div_small by lia; lia).
    replace ((g * (rb * cb) + pos tb cb j k) mod (rb * cb)) with (pos tb cb j k) by (rewrite (Z.add_comm (g * (rb * cb))), Z.mod_add, Z.mod_small by lia; lia).
    assert (X : (if tb then pos tb cb j k mod cb else pos tb cb j k / cb) = j /\ (if tb then pos tb cb j k / cb else pos tb cb j k mod cb) = k).
    { apply row_b_red in Hj. unfold pos. destruct tb.
      - rewrite (Z.add_comm (k * cb)), Z.div_add, Z.mod_add, Z.div_small, Z.mod_small by lia. split; lia.
      - rewrite (Z.add_comm (j * cb)), Z.div_add, Z.mod_add, Z.div_small, Z.mod_small by lia. split; lia. }
    destruct X as (-> & ->). reflexivity. }
  destruct (bc_grad_ok B C rb cb bb HB PC Hrb Hcb SB BB junk (fun accum => loop (fun s =>
      matmul_t accum tb rb ry cb (op_mat (negb ta) a' ra ca s) (op_mat false dy ry cy s) (s * (rb * cb))) (upto (size C))) H accum d0 L0) as (d & E & L & V).
  { intros acc d1 L1.
    destruct (products_ok acc tb (size C) rb ry cb (op_mat (negb ta) a' ra ca) (op_mat false dy ry cy)
      (fun g j i => qat a' (g * (ra * ca) + pos ta ca i j)) (fun g i k => qat dy (g * (ry * cy) + (i * cy + k))) d1 sc_pos Hrb Hcb L1) as (d & E & L & V).
    - intros g j i Hg Hj Hi. rewrite <- RED in Hj. rewrite (op_mat_ok (negb ta) a' (size C)); try assumption.
      + rewrite pos_neg. reflexivity.
      + destruct ta; exact Hj.
      + destruct ta; exact Hi.
    - intros g i k Hg Hi Hk. rewrite (op_mat_ok false dy (size C)); [reflexivity | assumption | apply ry_pos | apply cy_pos | assumption | assumption | assumption].
    - exists d. split; [exact E | split; [exact L |]]. intros p Hp.
      destruct (split_pos C rb cb Hrb Hcb p Hp) as (g & q & Hg & Hq & ->).
      assert (X : exists j k, 0 <= j < (if tb then cb else rb) /\ 0 <= k < cy /\ q = pos tb cb j k).
      { assert (0 < cb) by (destruct (Z.eq_dec cb 0) as [E0 |]; [rewrite E0 in Hq; lia | lia]). pose proof (Z.mod_pos_bound q cb ltac:(lia)). pose proof (Z.div_mod q cb ltac:(lia)).
        assert (0 <= q / cb < rb) by (split; [apply Z.div_pos; lia | apply Z.div_lt_upper_bound; lia]).
        unfold pos. destruct tb; [exists (q mod cb), (q / cb) | exists (q / cb), (q mod cb)]; (split; [lia | split; [lia |]]); lia. }
      destruct X as (j & k & Hj & Hk & ->). rewrite V by assumption. rewrite <- RED in Hj. rewrite HP by assumption. reflexivity. }
  exists d. split; [exact E | split; [exact L |]]. intros u y0 v LU LY EF.
  destruct (bmm_forward_ok junk a u y0) as (v' & E' & LV & VV); auto; [unfold qlen in *; lia |]. rewrite EF in E'. injection E' as <-.
  rewrite (inner_bmm dy v a u LD); [| unfold qlen in *; lia | exact VV]. rewrite V by exact LU. f_equal. apply zsum_ext. intros g Hg.
  rewrite (sum_pos tb rb cb) by assumption. rewrite <- RED.
  transitivity (zsum red (fun j => zsum cy (fun k => zsum ry (fun i => qat dy (g * (ry * cy) + (i * cy + k))%Z * term a u g i j k)))%Qc).
  - apply zsum_ext. intros j Hj. apply zsum_ext. intros k Hk. rewrite HP by assumption. rewrite <- zsum_scale_r. apply zsum_ext. intros i Hi. unfold term. rewrite VA; [ring | exact Hg |].
    apply pos_bound; assumption.
  - transitivity (zsum red (fun j => zsum ry (fun i => zsum cy (fun k => qat dy (g * (ry * cy) + (i * cy + k))%Z * term a u g i j k)))%Qc).
    + apply zsum_ext. intros j Hj. apply zsum_swap.
    + rewrite zsum_swap. apply zsum_ext. intros i Hi. apply zsum_swap.
Qed.
End Batch.
