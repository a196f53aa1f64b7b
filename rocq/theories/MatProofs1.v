(** Affine. *)
From Coq Require Import List ZArith Lia Bool QArith Qcanon.
From Verif Require Import NdModel NdSpec NdProofs IdxModel IdxSpec IdxProofs1 IdxProofs2 IdxProofs3 IdxProofs6 JoinModel JoinSpec JoinProofs JoinProofs2 ScanModel ScanSpec ScanProofs1 ReduceModel ReduceSpec ReduceProofs1 ConvModel ConvSpec ConvProofs2 ConvProofs3 ConvProofs5 PoolProofs5 MatModel MatSpec.
Import ListNotations.
Local Open Scope list_scope.
Local Open Scope Z_scope.

Lemma mat_ok a n cols r c : 0 <= n -> 0 <= r -> 0 <= c < cols -> n + (r + 1) * cols <= qlen a -> mat a n cols r c = Some (qat a (n + r * cols + c)).
Proof. intros H1 H2 H3 H4. unfold mat. apply get_ok. unfold within. nia. Qed.
Lemma row_end r rows cols : 0 <= r < rows -> 0 <= cols -> (r + 1) * cols <= rows * cols.
Proof. intros H1 H2. apply Z.mul_le_mono_nonneg_r; lia. Qed.
(** An inner product by rows. *)
Lemma inner2 rows cols u v (T : Z -> Z -> Qc) : 0 <= rows -> 0 <= cols -> qlen u = rows * cols -> qlen v = rows * cols ->
  (forall r c, 0 <= r < rows -> 0 <= c < cols -> qat v (r * cols + c) = T r c) ->
  qinner u v = zsum rows (fun r => zsum cols (fun c => qat u (r * cols + c)%Z * T r c))%Qc.
Proof.
  intros HR HC LU LV V. rewrite qinner_zsum by (unfold qlen in *; lia). rewrite LV, zsum_mul by assumption.
  apply zsum_ext. intros r Hr. apply zsum_ext. intros c Hc. rewrite V by assumption. reflexivity.
Qed.
Lemma add_rowwise_ok rows cols b dst : 0 <= rows -> 0 <= cols -> qlen b = cols -> qlen dst = rows * cols ->
  exists d, add_rowwise rows cols b dst = Some d /\ length d = length dst /\
  forall r c, 0 <= r < rows -> 0 <= c < cols -> qat d (r * cols + c) = (qat dst (r * cols + c) + qat b c)%Qc.
Proof.
  intros HR HC LB LD. unfold add_rowwise.
  destruct (writes2 (rows * cols) rows cols 0 (fun r c old => old + qat b c)%Qc
    (fun r c dst => obind (get b c) (fun v => obind (get dst (r * cols + c)) (fun old => put dst (r * cols + c) (old + v)%Qc)))) with (a := dst) as (d & E & L & V & _); auto; try lia.
  - intros r c a Hr Hc La. pose proof (row_end r rows cols Hr HC). rewrite get_ok by (unfold within; lia). cbn [obind]. rewrite get_ok by (unfold within; nia). reflexivity.
  - exists d. split; [exact E | split; [exact L |]]. intros r c Hr Hc. apply (V r c Hr Hc).
Qed.
Lemma colwise_sums_ok (accum : bool) rows cols a dst : 0 <= rows -> 0 <= cols -> qlen a = rows * cols -> qlen dst = cols ->
  exists d, colwise_sums accum rows cols a dst = Some d /\ length d = length dst /\
  forall c, 0 <= c < cols -> qat d c = ((if accum then qat dst c else 0) + zsum rows (fun r => qat a (r * cols + c)%Z))%Qc.
Proof.
  intros HR HC LA LD. unfold colwise_sums. apply (fill_ok cols (fun c old => (if accum then old else 0) + zsum rows (fun r => qat a (r * cols + c)%Z))%Qc); auto.
  intros c d Hc Ld. rewrite (omap_some _ (fun r => qat a (r * cols + c))).
  2:{ intros r Hr. apply upto_in in Hr. pose proof (row_end r rows cols Hr HC). apply get_ok. unfold within. nia. }
  cbn [obind]. rewrite sum_list_lsum. change (lsum (map (fun r => qat a (r * cols + c)) (upto rows))) with (total (upto rows) (fun r => qat a (r * cols + c))). rewrite total_upto.
  destruct accum; [rewrite get_ok by (unfold within; lia); reflexivity |]. f_equal. ring.
Qed.

Section Plain.
Variable f : affine.
Local Notation R := (i_row f).
Local Notation K := (i_col f).
Local Notation C := (w_col f).
Hypothesis HR : 0 <= R.
Hypothesis HK : 0 <= K.
Hypothesis HC : 0 <= C.
Definition bias_at (b : option (list Qc)) (c : Z) : Qc := match b with Some b => qat b c | None => 0%Qc end.
Definition plain (x w : list Qc) (r c : Z) : Qc := zsum K (fun k => qat x (r * K + k)%Z * qat w (k * C + c)%Z)%Qc.

Lemma affine_forward_ok x w b y0 : qlen x = R * K -> qlen w = K * C -> match b with Some b => qlen b = C | None => True end -> qlen y0 = R * C ->
  exists y, affine_forward f x w b y0 = Some y /\ length y = length y0 /\ forall r c, 0 <= r < R -> 0 <= c < C -> qat y (r * C + c) = (plain x w r c + bias_at b c)%Qc.
Proof using HR HK HC.
  intros LX LW LB LY. unfold affine_forward.
  destruct (matmul_ok false (R * C) R K C (mat x 0 K) (mat w 0 C) (fun r k => qat x (r * K + k)) (fun k c => qat w (k * C + c)) 0 y0) as (y & E & L & V & _); auto; try lia.
  - intros r k Hr Hk. pose proof (row_end r R K Hr HK). rewrite mat_ok by lia. reflexivity.
  - intros k c Hk Hc. pose proof (row_end k K C Hk HC). rewrite mat_ok by lia. reflexivity.
  - rewrite E. cbn [obind]. destruct b as [b |].
    + destruct (add_rowwise_ok R C b y HR HC LB) as (d & E2 & L2 & V2); [unfold qlen in *; lia |]. exists d. split; [exact E2 | split; [lia |]].
      intros r c Hr Hc. rewrite V2 by assumption. specialize (V r c Hr Hc). cbn [Z.add] in V. rewrite V. unfold plain, bias_at. ring.
    + exists y. split; [reflexivity | split; [exact L |]]. intros r c Hr Hc. specialize (V r c Hr Hc). cbn [Z.add] in V. rewrite V. unfold plain, bias_at. ring.
Qed.
Lemma inner_plain dy v x w : qlen dy = R * C -> qlen v = R * C -> (forall r c, 0 <= r < R -> 0 <= c < C -> qat v (r * C + c) = plain x w r c) ->
  qinner dy v = zsum R (fun r => zsum C (fun c => zsum K (fun k => qat dy (r * C + c)%Z * (qat x (r * K + k)%Z * qat w (k * C + c)%Z))))%Qc.
Proof using HR HC.
  intros LD LV V. rewrite (inner2 R C dy v (plain x w)) by assumption. apply zsum_ext. intros r Hr. apply zsum_ext. intros c Hc. unfold plain. rewrite zsum_scale. reflexivity.
Qed.

Lemma affine_dx_ok (accum : bool) w dy d0 : qlen w = K * C -> qlen dy = R * C -> qlen d0 = R * K ->
  exists d, matmul accum R C K (mat dy 0 C) (transposed_mat (mat w 0 C)) 0 d0 = Some d /\ length d = length d0 /\
  forall u y0 v, length u = length d0 -> qlen y0 = R * C -> affine_forward f u w None y0 = Some v -> qinner u d = ((if accum then qinner u d0 else 0) + qinner dy v)%Qc.
Proof using HR HK HC.
  intros LW LD L0.
  destruct (matmul_ok accum (R * K) R C K (mat dy 0 C) (transposed_mat (mat w 0 C)) (fun r c => qat dy (r * C + c)) (fun c k => qat w (k * C + c)) 0 d0) as (d & E & L & V & _); auto; try lia.
  - intros r c Hr Hc. pose proof (row_end r R C Hr HC). rewrite mat_ok by lia. reflexivity.
  - intros c k Hc Hk. pose proof (row_end k K C Hk HC). unfold transposed_mat. rewrite mat_ok by lia. reflexivity.
  - exists d. split; [exact E | split; [exact L |]]. intros u y0 v LU LY EF.
    destruct (affine_forward_ok u w None y0) as (v' & E' & LV & VV); auto; [unfold qlen in *; lia |]. rewrite EF in E'. injection E' as <-.
    rewrite (inner_plain dy v u w); [| exact LD | unfold qlen in *; lia | intros r c Hr Hc; rewrite VV by assumption; cbn [bias_at]; ring].
    rewrite (inner2 R K u d (fun r k => (if accum then qat d0 (r * K + k)%Z else 0) + zsum C (fun c => qat dy (r * C + c)%Z * qat w (k * C + c)%Z))%Qc) by (try assumption; try (unfold qlen in *; lia); apply V).
    assert (OLD : (if accum then qinner u d0 else 0%Qc) = zsum R (fun r => zsum K (fun k => qat u (r * K + k)%Z * (if accum then qat d0 (r * K + k)%Z else 0)))%Qc).
    { destruct accum; [apply inner2; auto; unfold qlen in *; lia |]. symmetry. apply zsum_zero. intros r Hr. apply zsum_zero. intros k Hk. ring. }
    rewrite OLD, <- zsum_plus. apply zsum_ext. intros r Hr.
    rewrite (zsum_swap C K), <- zsum_plus. apply zsum_ext. intros k Hk. rewrite Qcmult_plus_distr_r, <- zsum_scale. f_equal. apply zsum_ext. intros c Hc. ring.
Qed.
Lemma affine_dw_ok (accum : bool) x dy d0 : qlen x = R * K -> qlen dy = R * C -> qlen d0 = K * C ->
  exists d, matmul accum K R C (transposed_mat (mat x 0 K)) (mat dy 0 C) 0 d0 = Some d /\ length d = length d0 /\
  forall u y0 v, length u = length d0 -> qlen y0 = R * C -> affine_forward f x u None y0 = Some v -> qinner u d = ((if accum then qinner u d0 else 0) + qinner dy v)%Qc.
Proof using HR HK HC.
  intros LX LD L0.
  destruct (matmul_ok accum (K * C) K R C (transposed_mat (mat x 0 K)) (mat dy 0 C) (fun k r => qat x (r * K + k)) (fun r c => qat dy (r * C + c)) 0 d0) as (d & E & L & V & _); auto; try lia.
  - intros k r Hk Hr. pose proof (row_end r R K Hr HK). unfold transposed_mat. rewrite mat_ok by lia. reflexivity.
  - intros r c Hr Hc. pose proof (row_end r R C Hr HC). rewrite mat_ok by lia. reflexivity.
  - exists d. split; [exact E | split; [exact L |]]. intros u y0 v LU LY EF.
    destruct (affine_forward_ok x u None y0) as (v' & E' & LV & VV); auto; [unfold qlen in *; lia |]. rewrite EF in E'. injection E' as <-.
    rewrite (inner_plain dy v x u); [| exact LD | unfold qlen in *; lia | intros r c Hr Hc; rewrite VV by assumption; cbn [bias_at]; ring].
    rewrite (inner2 K C u d (fun k c => (if accum then qat d0 (k * C + c)%Z else 0) + zsum R (fun r => qat x (r * K + k)%Z * qat dy (r * C + c)%Z))%Qc) by (try assumption; try (unfold qlen in *; lia); apply V).
    assert (OLD : (if accum then qinner u d0 else 0%Qc) = zsum K (fun k => zsum C (fun c => qat u (k * C + c)%Z * (if accum then qat d0 (k * C + c)%Z else 0)))%Qc).
    { destruct accum; [apply inner2; auto; unfold qlen in *; lia |]. symmetry. apply zsum_zero. intros r Hr. apply zsum_zero. intros k Hk. ring. }
    rewrite OLD. transitivity (zsum K (fun k => zsum C (fun c => qat u (k * C + c)%Z * (if accum then qat d0 (k * C + c)%Z else 0)) + zsum C (fun c => zsum R (fun r => qat dy (r * C + c)%Z * (qat x (r * K + k)%Z * qat u (k * C + c)%Z))))%Qc).
    + apply zsum_ext. intros k Hk. rewrite <- zsum_plus. apply zsum_ext. intros c Hc. rewrite Qcmult_plus_distr_r, <- zsum_scale. f_equal. apply zsum_ext. intros r Hr. ring.
    + rewrite zsum_plus. f_equal. transitivity (zsum K (fun k => zsum R (fun r => zsum C (fun c => qat dy (r * C + c)%Z * (qat x (r * K + k)%Z * qat u (k * C + c)%Z))))%Qc).
      * apply zsum_ext. intros k Hk. apply zsum_swap.
      * rewrite zsum_swap. apply zsum_ext. intros r Hr. apply zsum_swap.
Qed.
End Plain.
