(** Properties of patch correlation. *)
From Coq Require Import List ZArith Lia Bool QArith Qcanon.
From Verif Require Import NdSpec NdProofs IdxModel IdxProofs1 IdxProofs2 IdxProofs3 JoinModel JoinProofs ScanSpec ScanModel ScanProofs1 ReduceModel ReduceProofs1 ConvModel ConvSpec ConvProofs1 ConvProofs3 ConvProofs5 ConvProofs7 PoolProofs3 PoolProofs5 ItpModel ItpProofs2 PcModel PcSpec PcProofs1 PcProofs2.
From Verif Require FoldModel FoldSpec FoldProofs1 MatProps.
Import ListNotations.
Local Open Scope list_scope.
Local Open Scope Z_scope.

(** * C123: shapes *)
(** The conditions on the arguments. *)
Definition proper (f : patch_corr) : Prop :=
  0 < patch_h f /\ 0 < patch_w f /\ 0 <= shift_h f /\ 0 <= shift_w f /\ 0 < patch_step_h f /\ 0 < patch_step_w f /\
  0 < shift_step_h f /\ 0 < shift_step_w f /\ 0 <= pad_t f /\ 0 <= pad_b f /\ 0 <= pad_l f /\ 0 <= pad_r f.
(** What setup accepts: two images of one shape with four axes and proper arguments. *)
Theorem C123_accepted : forall f s1 s2, (exists ys, pc_setup f s1 s2 = Some ys) <-> s1 = s2 /\ length s1 = 4%nat /\ proper f.
Proof.
  intros f s1 s2. unfold pc_setup, proper. split.
  - intros (ys & E). destruct s1 as [| n [| h [| w [| c [| ? ?]]]]]; try discriminate. destruct s2 as [| n2 [| h2 [| w2 [| c2 [| ? ?]]]]]; try discriminate.
    repeat match type of E with (if ?b then _ else _) = _ => destruct b eqn:?; [discriminate |] end.
    rewrite ?negb_false_iff, ?andb_true_iff, ?orb_false_iff, ?Z.eqb_eq, ?Z.ltb_ge, ?Z.leb_gt in *.
    split; [f_equal; [lia | f_equal; [lia | f_equal; [lia | f_equal; lia]]] |]. split; [reflexivity |]. lia.
  - intros (<- & L & P). destruct s1 as [| n [| h [| w [| c [| ? ?]]]]]; try discriminate. rewrite !Z.eqb_refl. cbn [andb negb].
    repeat match goal with |- context [?a <=? ?b] => destruct (Z.leb_spec a b); [lia |] | |- context [?a <? ?b] => destruct (Z.ltb_spec a b); [lia |] end. cbn [orb]. eexists. reflexivity.
Qed.
(** The shape: the batch, the positions of the patch in the padded image and the shifts.  The
    number of positions is right if the patch fits into the padded image. *)
Lemma counts_quot d s : 0 < s -> 0 <= d -> counts (Z.quot (d + s) s) s d.
Proof.
  intros P D. rewrite Z.quot_div_nonneg by lia. assert (E : (d + s) / s = d / s + 1) by (replace (d + s) with (d + 1 * s) by ring; rewrite Z.div_add; lia).
  rewrite E. assert (0 <= d / s) by (apply Z.div_pos; lia). split; [lia |]. intros i I. pose proof (Z.mul_div_le d s P). pose proof (Z.mul_succ_div_gt d s P). split; intros; nia.
Qed.
Theorem C123_shape : forall f N H W C s2 ys, pc_setup f [N; H; W; C] s2 = Some ys -> patch_h f <= H + (pad_t f + pad_b f) -> patch_w f <= W + (pad_l f + pad_r f) ->
  exists oh ow och ocw, ys = [N; oh; ow; och; ocw] /\
  counts oh (patch_step_h f) (H + (pad_t f + pad_b f) - patch_h f) /\ counts ow (patch_step_w f) (W + (pad_l f + pad_r f) - patch_w f) /\
  counts och (shift_step_h f) (2 * shift_h f) /\ counts ocw (shift_step_w f) (2 * shift_w f).
Proof.
  intros f N H W C s2 ys E FH FW. assert (A : exists ys, pc_setup f [N; H; W; C] s2 = Some ys) by (exists ys; exact E). apply C123_accepted in A. destruct A as (<- & _ & P). unfold proper in P.
  unfold pc_setup in E. repeat match type of E with (if ?b then _ else _) = _ => destruct b; [discriminate |] end. injection E as <-.
  do 4 eexists. split; [reflexivity |]. split; [apply counts_quot; lia |]. split; [apply counts_quot; lia |]. split; apply counts_quot; lia.
Qed.
(** Refuted: a patch that is larger than the padded image is not refused.  Depending on the sizes
    the output is empty, or has a negative number of rows and of columns whose product is
    positive: there is an output element, which no pass computes. *)
Definition plain (ph pw step : Z) : patch_corr :=
  {| patch_h := ph; patch_w := pw; shift_h := 0; shift_w := 0; patch_step_h := step; patch_step_w := step; shift_step_h := 1; shift_step_w := 1; pad_t := 0; pad_b := 0; pad_l := 0; pad_r := 0 |}.
Theorem C123_large_patch_refuted :
  pc_setup (plain 5 5 3) [1; 2; 2; 1] [1; 2; 2; 1] = Some [1; 0; 0; 1; 1] /\
  pc_setup (plain 6 6 2) [1; 2; 2; 1] [1; 2; 2; 1] = Some [1; -1; -1; 1; 1] /\ size [1; -1; -1; 1; 1] = 1 /\
  forall x1 x2 y0, pc_forward (plain 6 6 2) 1 2 2 1 x1 x2 y0 = Some y0.
Proof. repeat split; reflexivity. Qed.

(** * C121: values *)
Definition sizes_ok (N H W C : Z) : Prop := 0 <= N /\ 0 <= H /\ 0 <= W /\ 0 <= C.
Section Given.
Variables (f : patch_corr) (N H W C : Z) (ys : list Z).
Hypothesis setup : pc_setup f [N; H; W; C] [N; H; W; C] = Some ys.
Hypothesis sz : sizes_ok N H W C.
Hypothesis nny : Forall (fun n => 0 <= n) ys.
Lemma ys_is : ys = [N; Z.quot (H + (pad_t f + pad_b f) - patch_h f + patch_step_h f) (patch_step_h f); Z.quot (W + (pad_l f + pad_r f) - patch_w f + patch_step_w f) (patch_step_w f);
  Z.quot (2 * shift_h f + shift_step_h f) (shift_step_h f); Z.quot (2 * shift_w f + shift_step_w f) (shift_step_w f)].
Proof using setup. pose proof setup as E. unfold pc_setup in E. repeat match type of E with (if ?b then _ else _) = _ => destruct b; [discriminate |] end. inversion E. reflexivity. Qed.
Lemma prop : proper f.
Proof using setup. apply (C123_accepted f [N; H; W; C] [N; H; W; C]). exists ys. exact setup. Qed.
Lemma product_ok x1 x2 n y x yy xx : 0 <= n < N ->
  pairs f H W C (fun p q => qat x1 p * qat x2 q)%Qc n y x yy xx =
  patch_product (patch_h f) (patch_w f) C (surrounded H W (fun y x c => qelem x1 [N; H; W; C] [n; y; x; c])) (surrounded H W (fun y x c => qelem x2 [N; H; W; C] [n; y; x; c])) y x yy xx.
Proof using sz.
  intros B. unfold patch_product, pairs. rewrite total_more. apply zsum_ext. intros ky Ky. rewrite total_more.
  destruct (rows_in H y yy ky) eqn:R.
  - apply rows_true in R. apply zsum_ext. intros kx Kx. rewrite total_one. unfold surrounded. destruct (cols_in W x xx kx) eqn:Cc.
    + apply cols_true in Cc. apply zsum_ext. intros c Hc. repeat match goal with |- context [?a <=? ?b] => destruct (Z.leb_spec a b); [| lia] | |- context [?a <? ?b] => destruct (Z.ltb_spec a b); [| lia] end.
      cbn [andb]. rewrite !MatProps.qelem_off by (repeat constructor; lia). unfold flat. f_equal; f_equal; cbn [off size]; ring.
    + symmetry. apply zsum_zero. intros c Hc. unfold cols_in in Cc.
      destruct (0 <=? x + kx), (x + kx <? W), (0 <=? x + xx + kx), (x + xx + kx <? W); cbn [andb] in Cc; try discriminate; rewrite ?andb_false_r; cbn [andb]; ring.
  - symmetry. apply zsum_zero. intros kx _. rewrite total_one. apply zsum_zero. intros c _. unfold rows_in in R. unfold surrounded.
    destruct (0 <=? y + ky), (y + ky <? H), (0 <=? y + yy + ky), (y + yy + ky <? H); cbn [andb] in R; try discriminate; cbn [andb]; ring.
Qed.
Lemma NNs : 0 <= N /\ 0 <= H /\ 0 <= W /\ 0 <= C /\ 0 <= patch_h f /\ 0 <= patch_w f.
Proof using setup sz. pose proof prop as P. unfold proper in P. unfold sizes_ok in sz. lia. Qed.
Lemma steps_ok : 0 < patch_step_h f /\ 0 < patch_step_w f /\ 0 < shift_step_h f /\ 0 < shift_step_w f.
Proof using setup. pose proof prop as P. unfold proper in P. lia. Qed.
Lemma forward_given x1 x2 y0 : has_size x1 (size [N; H; W; C]) -> has_size x2 (size [N; H; W; C]) -> has_size y0 (size ys) ->
  exists y, pc_forward f N H W C x1 x2 y0 = Some y /\ length y = length y0 /\ forall i, inside i ys -> qat y (off i ys) = at_place f H W C x1 x2 i.
Proof using setup sz nny.
  intros L1 L2 LY. pose proof ys_is as EY. pose proof nny as P. rewrite EY in P, LY |- *. apply forward_ok; try reflexivity; try assumption; [exact NNs | exact steps_ok].
Qed.
Lemma backward_given x1 x2 gy g1 g2 : has_size x1 (size [N; H; W; C]) -> has_size x2 (size [N; H; W; C]) -> has_size gy (size ys) -> grad_size g1 (size [N; H; W; C]) -> grad_size g2 (size [N; H; W; C]) ->
  exists a b, pc_backward f N H W C x1 x2 gy g1 g2 = Some (a, b) /\
    grown (start g1) a (fun u => total (indices ys) (fun i => qat gy (off i ys) * at_place f H W C u x2 i))%Qc /\
    grown (start g2) b (fun u => total (indices ys) (fun i => qat gy (off i ys) * at_place f H W C x1 u i))%Qc.
Proof using setup sz nny.
  intros L1 L2 LY G1 G2. pose proof ys_is as EY. pose proof nny as P. rewrite EY in P, LY |- *.
  apply backward_ok; try reflexivity; try assumption; [exact NNs | exact steps_ok | destruct g1 as [[? ?] |] | destruct g2 as [[? ?] |]]; cbn [start fits]; try exact I; unfold qlen; rewrite cleared_length; assumption.
Qed.
End Given.
(** Each element is the product of two patches of the images with zeros around them: the first at
    the position, the second moved by the shift. *)
Theorem C121_values : forall f N H W C ys x1 x2 y0, pc_setup f [N; H; W; C] [N; H; W; C] = Some ys -> sizes_ok N H W C -> Forall (fun n => 0 <= n) ys ->
  has_size x1 (size [N; H; W; C]) -> has_size x2 (size [N; H; W; C]) -> has_size y0 (size ys) ->
  exists y, pc_forward f N H W C x1 x2 y0 = Some y /\ has_size y (size ys) /\
  forall n i j k l, inside [n; i; j; k; l] ys -> qelem y ys [n; i; j; k; l] =
    patch_product (patch_h f) (patch_w f) C (surrounded H W (fun y x c => qelem x1 [N; H; W; C] [n; y; x; c])) (surrounded H W (fun y x c => qelem x2 [N; H; W; C] [n; y; x; c]))
      (i * patch_step_h f - pad_t f) (j * patch_step_w f - pad_l f) (k * shift_step_h f - shift_h f) (l * shift_step_w f - shift_w f).
Proof.
  intros f N H W C ys x1 x2 y0 SE SZ NNY L1 L2 LY. destruct (forward_given f N H W C ys SE SZ NNY x1 x2 y0 L1 L2 LY) as (y & E & L & V). exists y. split; [exact E |]. split; [unfold has_size in *; lia |].
  intros n i j k l I. rewrite MatProps.qelem_off by exact I. rewrite V by exact I. unfold at_place, place.
  assert (B : 0 <= n < N) by (rewrite (ys_is f N H W C ys SE) in I; inversion_clear I; assumption).
  rewrite product_ok with (N := N) by assumption. f_equal; ring.
Qed.
Definition q (z : Z) : Qc := Q2Qc (inject_Z z).
(** The examples of the documentation (functions.py:1514-1556): x is all ones, of height 3, width
    4 and 2 channels. *)
Definition doc (ph pw sw ssw pb pl pr psh : Z) : patch_corr :=
  {| patch_h := ph; patch_w := pw; shift_h := 0; shift_w := sw; patch_step_h := psh; patch_step_w := 1; shift_step_h := 1; shift_step_w := ssw; pad_t := 0; pad_b := pb; pad_l := pl; pad_r := pr |}.
Definition ones : list Qc := map (fun _ => q 1) (upto 24).
Example C121_example :
  pc_setup (doc 3 1 1 1 0 0 0 1) [1; 3; 4; 2] [1; 3; 4; 2] = Some [1; 1; 4; 1; 3] /\
  pc_forward (doc 3 1 1 1 0 0 0 1) 1 3 4 2 ones ones (map (fun _ => 0%Qc) (upto 12)) = Some (map q [0; 6; 6; 6; 6; 6; 6; 6; 6; 6; 6; 0]) /\
  pc_forward (doc 3 1 1 2 0 0 0 1) 1 3 4 2 ones ones (map (fun _ => 0%Qc) (upto 8)) = Some (map q [0; 6; 6; 6; 6; 6; 6; 0]) /\
  pc_forward (doc 3 4 0 1 1 4 4 1) 1 3 4 2 ones ones (map (fun _ => 0%Qc) (upto 18)) = Some (map q [0; 6; 12; 18; 24; 18; 12; 6; 0; 0; 4; 8; 12; 16; 12; 8; 4; 0]) /\
  pc_forward (doc 2 3 0 1 0 0 0 2) 1 3 4 2 ones ones (map (fun _ => 0%Qc) (upto 2)) = Some (map q [12; 12]).
Proof. repeat split; vm_compute; reflexivity. Qed.
(** The previous contents of the output do not matter. *)
Theorem C121_overwritten : forall f N H W C ys x1 x2 y0 y1, pc_setup f [N; H; W; C] [N; H; W; C] = Some ys -> sizes_ok N H W C -> Forall (fun n => 0 <= n) ys ->
  has_size x1 (size [N; H; W; C]) -> has_size x2 (size [N; H; W; C]) -> has_size y0 (size ys) -> has_size y1 (size ys) ->
  pc_forward f N H W C x1 x2 y0 = pc_forward f N H W C x1 x2 y1.
Proof.
  intros f N H W C ys x1 x2 y0 y1 SE SZ NNY L1 L2 LY LZ. destruct (forward_given f N H W C ys SE SZ NNY x1 x2 y0 L1 L2 LY) as (y & E & L & V). destruct (forward_given f N H W C ys SE SZ NNY x1 x2 y1 L1 L2 LZ) as (z & E' & L' & V').
  rewrite E, E'. f_equal. apply (nth_ext _ _ 0%Qc 0%Qc); [unfold has_size in *; lia |]. intros p P.
  assert (IN : In (Z.of_nat p) (map (fun i => off i ys) (indices ys))) by (rewrite <- upto_indices by exact NNY; apply upto_in; unfold has_size in *; lia).
  apply in_map_iff in IN. destruct IN as (i & O & I). apply indices_in in I. pose proof (V i I) as A. pose proof (V' i I) as B. unfold qat in A, B. rewrite O, Nat2Z.id in A, B. congruence.
Qed.

(** * C122: gradients *)
(** The gradient of each input is the transpose of the forward map, linear in that input, applied
    to the gradient of the output.  It is added to the previous one if accum; an input without
    propagate_down is left alone. *)
Theorem C122_gradient : forall f N H W C ys x1 x2 y0 gy g1 g2, pc_setup f [N; H; W; C] [N; H; W; C] = Some ys -> sizes_ok N H W C -> Forall (fun n => 0 <= n) ys ->
  has_size x1 (size [N; H; W; C]) -> has_size x2 (size [N; H; W; C]) -> has_size y0 (size ys) -> has_size gy (size ys) ->
  grad_size g1 (size [N; H; W; C]) -> grad_size g2 (size [N; H; W; C]) ->
  exists d1 d2, pc_backward f N H W C x1 x2 gy g1 g2 = Some (d1, d2) /\
  adjoint g1 d1 gy (fun u => pc_forward f N H W C u x2 y0) /\ adjoint g2 d2 gy (fun u => pc_forward f N H W C x1 u y0).
Proof.
  intros f N H W C ys x1 x2 y0 gy g1 g2 SE SZ NNY L1 L2 LY LG G1 G2. destruct (backward_given f N H W C ys SE SZ NNY x1 x2 gy g1 g2 L1 L2 LG G1 G2) as (a & b & E & A & B). exists a, b. split; [exact E |].
  assert (T : forall v at_, length v = length y0 -> (forall i, inside i ys -> qat v (off i ys) = at_ i) -> total (indices ys) (fun i => qat gy (off i ys) * at_ i)%Qc = qinner gy v).
  { intros v at_ LV V. rewrite qinner_zsum by (unfold has_size in *; lia). replace (qlen v) with (size ys) by (unfold has_size, qlen in *; lia). apply (total_indices ys _ (fun p => qat gy p * qat v p)%Qc NNY). intros i I. rewrite V by exact I. reflexivity. }
  split.
  - destruct g1 as [[acc d0] |]; destruct a as [d |]; cbn [start grown adjoint] in *; try tauto. destruct A as (LA & QA). rewrite cleared_length in LA. split; [exact LA |]. intros u v LU FU. cbn [grad_size] in G1.
    destruct (forward_given f N H W C ys SE SZ NNY u x2 y0) as (v' & E' & L' & V'); [unfold has_size in *; lia | assumption | assumption |]. rewrite E' in FU. injection FU as <-. rewrite QA, cleared_qinner. f_equal. apply T; assumption.
  - destruct g2 as [[acc d0] |]; destruct b as [d |]; cbn [start grown adjoint] in *; try tauto. destruct B as (LA & QA). rewrite cleared_length in LA. split; [exact LA |]. intros u v LU FU. cbn [grad_size] in G2.
    destruct (forward_given f N H W C ys SE SZ NNY x1 u y0) as (v' & E' & L' & V'); [assumption | unfold has_size in *; lia | assumption |]. rewrite E' in FU. injection FU as <-. rewrite QA, cleared_qinner. f_equal. apply T; assumption.
Qed.
Example C122_example :
  pc_forward (doc 1 1 1 1 0 0 0 1) 1 1 2 1 [q 2; q 3] [q 5; q 7] (map q [0; 0; 0; 0; 0; 0]) = Some (map q [0; 10; 14; 15; 21; 0]) /\
  pc_backward (doc 1 1 1 1 0 0 0 1) 1 1 2 1 [q 2; q 3] [q 5; q 7] (map q [1; 2; 3; 4; 5; 6]) (Some (false, [q 9; q 9])) (Some (true, [q 100; q 100])) =
    Some (Some [q 31; q 55], Some [q 116; q 121]) /\
  pc_backward (doc 1 1 1 1 0 0 0 1) 1 1 2 1 [q 2; q 3] [q 5; q 7] (map q [1; 2; 3; 4; 5; 6]) None (Some (false, [q 100; q 100])) = Some (None, Some [q 16; q 21]).
Proof. repeat split; vm_compute; reflexivity. Qed.

(** * C123: F.patch_correlation *)
Lemma product_ext ph pw C p1 p2 r1 r2 y x dy dx : (forall y x c, 0 <= c < C -> p1 y x c = r1 y x c) -> (forall y x c, 0 <= c < C -> p2 y x c = r2 y x c) ->
  patch_product ph pw C p1 p2 y x dy dx = patch_product ph pw C r1 r2 y x dy dx.
Proof.
  intros E1 E2. unfold patch_product. rewrite !total_more. apply zsum_ext. intros a _. rewrite !total_more. apply zsum_ext. intros b _. rewrite !total_one. apply zsum_ext. intros c Hc. rewrite E1, E2 by exact Hc. reflexivity.
Qed.
Lemma to_last_ok x N C H W : sizes_ok N H W C -> FoldSpec.valued x [N; C; H; W] -> FoldSpec.valued (to_last x) [N; H; W; C] /\
  forall n y z c, 0 <= n < N -> 0 <= y < H -> 0 <= z < W -> 0 <= c < C -> qelem (FoldModel.el (to_last x)) [N; H; W; C] [n; y; z; c] = qelem (FoldModel.el x) [N; C; H; W] [n; c; y; z].
Proof.
  intros SZ (SH & LE). unfold sizes_ok in SZ. unfold to_last. rewrite SH. destruct (Z.eqb_spec C 1) as [-> |].
  - split; [split; [reflexivity |]; cbn [FoldModel.el]; rewrite LE; cbn [size]; ring |]. intros n y z c Hn Hy Hz Hc. cbn [FoldModel.el].
    rewrite !MatProps.qelem_off by (repeat constructor; lia). f_equal. replace c with 0 by lia. cbn [off size]. ring.
  - set (r := FoldModel.np_transpose _ x). assert (V : FoldSpec.valued r [N; H; W; C]) by (unfold r, FoldModel.np_transpose; rewrite SH; cbn [map nth]; apply FoldProofs1.build_valued; repeat constructor; lia).
    split; [exact V |]. intros n' y z c Hn Hy Hz Hc. assert (IN : inside [n'; y; z; c] [N; H; W; C]) by (repeat constructor; lia).
    assert (E : FoldModel.np_at r [n'; y; z; c] = FoldModel.np_at x [n'; c; y; z]) by (unfold r, FoldModel.np_transpose; rewrite SH; cbn [map nth]; rewrite FoldProofs1.at_build by exact IN; reflexivity).
    rewrite !FoldProofs1.at_value in E; [| rewrite SH; repeat constructor; lia | rewrite (proj1 V); exact IN]. unfold FoldSpec.value in E. rewrite SH, (proj1 V) in E. exact E.
Qed.
(** What the arguments stand for. *)
Definition stands_for (f : patch_corr) (patch shift patch_step shift_step padding : one_or_more) : Prop :=
  let two (a : one_or_more) (h w : Z) := a = More [h; w] \/ (a = One h /\ h = w) in
  two patch (patch_h f) (patch_w f) /\ two shift (shift_h f) (shift_w f) /\ two patch_step (patch_step_h f) (patch_step_w f) /\ two shift_step (shift_step_h f) (shift_step_w f) /\
  (padding = More [pad_t f; pad_b f; pad_l f; pad_r f] \/ (padding = More [pad_t f; pad_l f] /\ pad_t f = pad_b f /\ pad_l f = pad_r f) \/
   (padding = One (pad_t f) /\ pad_t f = pad_b f /\ pad_t f = pad_l f /\ pad_t f = pad_r f)).
Lemma args_ok f patch shift patch_step shift_step padding : stands_for f patch shift patch_step shift_step padding ->
  pair_of patch = [patch_h f; patch_w f] /\ pair_of shift = [shift_h f; shift_w f] /\ pair_of patch_step = [patch_step_h f; patch_step_w f] /\ pair_of shift_step = [shift_step_h f; shift_step_w f] /\
  padding_of padding = [pad_t f; pad_b f; pad_l f; pad_r f].
Proof.
  intros (A & B & C & D & E). assert (T : forall a h w, a = More [h; w] \/ (a = One h /\ h = w) -> pair_of a = [h; w]) by (intros a h w [-> | (-> & ->)]; reflexivity).
  rewrite (T _ _ _ A), (T _ _ _ B), (T _ _ _ C), (T _ _ _ D). destruct E as [-> | [(-> & -> & ->) | (-> & <- & <- & <-)]]; repeat split.
Qed.
(** Channels first: inputs (N, C, H, W), the output (N, C_y, C_x, H_o, W_o) has the same values. *)
Theorem C123_channels_first : forall f N H W C oh ow och ocw x1 x2 patch shift patch_step shift_step padding,
  pc_setup f [N; H; W; C] [N; H; W; C] = Some [N; oh; ow; och; ocw] -> sizes_ok N H W C -> Forall (fun n => 0 <= n) [N; oh; ow; och; ocw] ->
  stands_for f patch shift patch_step shift_step padding -> FoldSpec.valued x1 [N; C; H; W] -> FoldSpec.valued x2 [N; C; H; W] ->
  exists y, f_patch_correlation x1 x2 patch shift patch_step shift_step padding false = Some y /\ FoldSpec.valued y [N; och; ocw; oh; ow] /\
  forall n i j k l, inside [n; k; l; i; j] [N; och; ocw; oh; ow] -> qelem (FoldModel.el y) [N; och; ocw; oh; ow] [n; k; l; i; j] =
    patch_product (patch_h f) (patch_w f) C (surrounded H W (fun y x c => qelem (FoldModel.el x1) [N; C; H; W] [n; c; y; x])) (surrounded H W (fun y x c => qelem (FoldModel.el x2) [N; C; H; W] [n; c; y; x]))
      (i * patch_step_h f - pad_t f) (j * patch_step_w f - pad_l f) (k * shift_step_h f - shift_h f) (l * shift_step_w f - shift_w f).
Proof.
  intros f N H W C oh ow och ocw x1 x2 patch shift patch_step shift_step padding SE SZ NNY ST V1 V2. destruct (args_ok _ _ _ _ _ _ ST) as (A1 & A2 & A3 & A4 & A5).
  destruct (to_last_ok x1 N C H W SZ V1) as ((S1 & L1) & Q1). destruct (to_last_ok x2 N C H W SZ V2) as ((S2 & L2) & Q2). set (ys := [N; oh; ow; och; ocw]) in *.
  destruct (C121_values f N H W C ys (FoldModel.el (to_last x1)) (FoldModel.el (to_last x2)) (map (fun _ => 0%Qc) (upto (prod ys))) SE SZ NNY) as (y & E & L & V); [exact L1 | exact L2 | |].
  { unfold has_size. rewrite map_length, prod_size. unfold upto. rewrite map_length, seq_length, Z2Nat.id; [reflexivity |]. apply size_nonneg. exact NNY. }
  unfold f_patch_correlation. rewrite (proj1 V1), (proj1 V2), A1, A2, A3, A4, A5, S1, S2. cbn [length Nat.eqb andb negb]. unfold FoldModel.same_shape. destruct (list_eq_dec Z.eq_dec [N; C; H; W] [N; C; H; W]); [| congruence]. cbn [negb].
  replace {| patch_h := patch_h f; patch_w := patch_w f; shift_h := shift_h f; shift_w := shift_w f; patch_step_h := patch_step_h f; patch_step_w := patch_step_w f; shift_step_h := shift_step_h f; shift_step_w := shift_step_w f; pad_t := pad_t f; pad_b := pad_b f; pad_l := pad_l f; pad_r := pad_r f |} with f by (destruct f; reflexivity).
  rewrite SE. cbn [obind]. rewrite E. cbn [obind]. set (r := FoldModel.np_transpose _ _). exists r. split; [reflexivity |].
  assert (NY : 0 <= N /\ 0 <= oh /\ 0 <= ow /\ 0 <= och /\ 0 <= ocw) by (pose proof NNY as P; unfold ys in P; rewrite !Forall_cons_iff in P; lia).
  assert (VR : FoldSpec.valued r [N; och; ocw; oh; ow]) by (apply FoldProofs1.build_valued; repeat constructor; lia). split; [exact VR |].
  intros n' i j k l I. assert (I' : inside [n'; i; j; k; l] ys) by (unfold ys; inversion_clear I as [| ? ? ? ? h1 i1]; inversion_clear i1 as [| ? ? ? ? h2 i2]; inversion_clear i2 as [| ? ? ? ? h3 i3]; inversion_clear i3 as [| ? ? ? ? h4 i4]; inversion_clear i4 as [| ? ? ? ? h5 i5]; repeat constructor; lia).
  assert (HN : 0 <= n' < N) by (inversion_clear I; assumption).
  assert (ER : FoldModel.np_at r [n'; k; l; i; j] = FoldModel.np_at {| FoldModel.sh := ys; FoldModel.el := y |} [n'; i; j; k; l]) by (unfold r, FoldModel.np_transpose; cbn [FoldModel.sh]; rewrite FoldProofs1.at_build by exact I; reflexivity).
  rewrite !FoldProofs1.at_value in ER; [| exact I' | rewrite (proj1 VR); exact I]. unfold FoldSpec.value in ER. rewrite (proj1 VR) in ER. cbn [FoldModel.sh FoldModel.el] in ER. rewrite ER, (V n' i j k l I').
  apply product_ext; intros a b c Hc; unfold surrounded; destruct ((0 <=? a) && (a <? H) && (0 <=? b) && (b <? W)) eqn:R; try reflexivity; rewrite !andb_true_iff, !Z.leb_le, !Z.ltb_lt in R; [apply Q1 | apply Q2]; lia.
Qed.
(** Channels last: the function itself. *)
Theorem C123_channels_last : forall f N H W C ys x1 x2 patch shift patch_step shift_step padding,
  pc_setup f [N; H; W; C] [N; H; W; C] = Some ys -> Forall (fun n => 0 <= n) ys ->
  stands_for f patch shift patch_step shift_step padding -> FoldModel.sh x1 = [N; H; W; C] -> FoldModel.sh x2 = [N; H; W; C] ->
  f_patch_correlation x1 x2 patch shift patch_step shift_step padding true =
  match pc_forward f N H W C (FoldModel.el x1) (FoldModel.el x2) (repeat 0%Qc (Z.to_nat (size ys))) with Some y => Some {| FoldModel.sh := ys; FoldModel.el := y |} | None => None end.
Proof.
  intros f N H W C ys x1 x2 patch shift patch_step shift_step padding SE NNY ST S1 S2. destruct (args_ok _ _ _ _ _ _ ST) as (A1 & A2 & A3 & A4 & A5).
  unfold f_patch_correlation. rewrite A1, A2, A3, A4, A5, S1, S2. cbn [length Nat.eqb andb negb]. unfold FoldModel.same_shape. destruct (list_eq_dec Z.eq_dec [N; H; W; C] [N; H; W; C]); [| congruence]. cbn [negb].
  replace {| patch_h := patch_h f; patch_w := patch_w f; shift_h := shift_h f; shift_w := shift_w f; patch_step_h := patch_step_h f; patch_step_w := patch_step_w f; shift_step_h := shift_step_h f; shift_step_w := shift_step_w f; pad_t := pad_t f; pad_b := pad_b f; pad_l := pad_l f; pad_r := pad_r f |} with f by (destruct f; reflexivity).
  rewrite SE. cbn [obind]. replace (map (fun _ : Z => 0%Qc) (upto (prod ys))) with (repeat 0%Qc (Z.to_nat (size ys))); [reflexivity |].
  rewrite prod_size. unfold upto. rewrite map_map. generalize 0%nat. induction (Z.to_nat (size ys)) as [| m IH]; intros b; cbn [repeat seq map]; [reflexivity |]. f_equal. apply IH.
Qed.
Example C123_example :
  exists y, f_patch_correlation {| FoldModel.sh := [1; 2; 1; 2]; FoldModel.el := map q [1; 2; 3; 4] |} {| FoldModel.sh := [1; 2; 1; 2]; FoldModel.el := map q [5; 6; 7; 8] |} (One 1) (More [0; 1]) (One 1) (One 1) (More [0; 0]) false = Some y /\
  FoldModel.sh y = [1; 1; 3; 1; 2] /\ FoldModel.el y = map q [0; 38; 26; 44; 30; 0].
Proof. eexists. split; [vm_compute; reflexivity |]. split; vm_compute; reflexivity. Qed.
Print Assumptions C121_values.
Print Assumptions C121_overwritten.
Print Assumptions C122_gradient.
Print Assumptions C123_accepted.
Print Assumptions C123_shape.
Print Assumptions C123_channels_first.
Print Assumptions C123_channels_last.
Print Assumptions C123_large_patch_refuted.
