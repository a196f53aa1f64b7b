(** Properties of warping images by a grid and of affine grids. *)
From Coq Require Import List ZArith Lia Lqa Bool QArith Qcanon Qround.
From Verif Require Import NdSpec NdProofs IdxModel IdxProofs1 IdxProofs2 IdxProofs3 JoinModel JoinProofs ScanSpec ReduceSpec ScanModel ScanProofs1 ReduceModel ReduceProofs1 ConvModel ConvSpec ConvProofs1 ConvProofs3 ConvProofs5 ConvProofs7 PoolProofs3 PoolProofs5 NmsProofs1 QuantModel QuantSpec QuantProofs1 QuantProofs5 ItpModel ItpSpec ItpProofs1 ItpProofs2 PcProofs1 WgModel WgSpec WgProofs1 WgProofs2.
From Verif Require MatProps.
Import ListNotations.
Local Open Scope list_scope.
Local Open Scope Z_scope.

Definition q (k : Z) : Qc := whole_number k.
(** The conditions: images and a grid of matching sizes, with pixels. *)
Record suits (f : warp) : Prop := {
  s_sizes : 0 <= w_B f /\ 0 <= w_C f /\ 0 <= w_Ho f /\ 0 <= w_Wo f;
  s_pixels : 0 < w_Hi f /\ 0 < w_Wi f }.
Definition in_shape (f : warp) : list Z := [w_B f; w_C f; w_Hi f; w_Wi f].
Definition out_shape (f : warp) : list Z := [w_B f; w_C f; w_Ho f; w_Wo f].
Definition grid_shape (f : warp) : list Z := [w_B f; w_Ho f; w_Wo f; 2].
(** * C124: values *)
(** The border that a padding mode means. *)
Definition border_for (m : padding_mode) : border := match m with Zero => Zeros | Repeat => Nearest_pixel | Reflect => Mirrored end.
Theorem C124_linear : forall f x grid y0, suits f -> has_size x (size (in_shape f)) -> has_size grid (size (grid_shape f)) -> has_size y0 (size (out_shape f)) ->
  exists y, warp_forward f true false x grid y0 = Some y /\ has_size y (size (out_shape f)) /\
  forall b c h w, inside [b; c; h; w] (out_shape f) -> exists yf xf,
    taken (border_for (w_mode f)) (w_align f) (w_Hi f) (place_of (w_align f) (qelem grid (grid_shape f) [b; h; w; 1]) (w_Hi f)) yf /\
    taken (border_for (w_mode f)) (w_align f) (w_Wi f) (place_of (w_align f) (qelem grid (grid_shape f) [b; h; w; 0]) (w_Wi f)) xf /\
    qelem y (out_shape f) [b; c; h; w] = bilinear (w_Hi f) (w_Wi f) (fun i j => qelem x (in_shape f) [b; c; i; j]) yf xf.
Proof.
  intros f x grid y0 S HX HG HY. destruct (s_pixels f S) as (F1 & F2). destruct (forward_ok f grid F1 F2 (s_sizes f S) HG true x y0 HX HY) as (y & E & L & V). exists y. split; [exact E |]. split; [unfold has_size in *; congruence |].
  intros b c h w I. pose proof (V _ I) as VI. destruct (inside4 f _ I) as (b' & c' & h' & w' & EQ & Hb & Hc & Hh & Hw). inversion EQ; subst b' c' h' w'.
  exists (YF f grid b h w), (XF f grid b h w). split; [apply found_ok; exact F1 |]. split; [apply found_ok; exact F2 |].
  rewrite (MatProps.qelem_off _ _ _ I). etransitivity; [exact VI |]. cbn [value on4]. apply mixed_ok; assumption.
Qed.
Lemma floor_W k : Qfloor (this (whole_number k)) = k.
Proof. pose proof (floor_ok (whole_number k)) as (A & B). rewrite <- W1, <- W_plus in B. apply (proj2 (W_le _ _)) in A. apply (proj2 (W_lt _ _)) in B. lia. Qed.
Lemma round_int_ok v : rounds_to false v (round_int v).
Proof. unfold round_int. rewrite std_round_is. rewrite floor_W. apply away_rounds. Qed.
Theorem C124_nearest : forall f x grid y0, suits f -> has_size x (size (in_shape f)) -> has_size grid (size (grid_shape f)) -> has_size y0 (size (out_shape f)) ->
  exists y, warp_forward f false false x grid y0 = Some y /\ has_size y (size (out_shape f)) /\
  forall b c h w, inside [b; c; h; w] (out_shape f) -> exists yf xf i j,
    taken (border_for (w_mode f)) (w_align f) (w_Hi f) (place_of (w_align f) (qelem grid (grid_shape f) [b; h; w; 1]) (w_Hi f)) yf /\
    taken (border_for (w_mode f)) (w_align f) (w_Wi f) (place_of (w_align f) (qelem grid (grid_shape f) [b; h; w; 0]) (w_Wi f)) xf /\
    rounds_to false yf i /\ rounds_to false xf j /\
    qelem y (out_shape f) [b; c; h; w] = or_zero (w_Hi f) (w_Wi f) (fun i j => qelem x (in_shape f) [b; c; i; j]) i j.
Proof.
  intros f x grid y0 S HX HG HY. destruct (s_pixels f S) as (F1 & F2). destruct (forward_ok f grid F1 F2 (s_sizes f S) HG false x y0 HX HY) as (y & E & L & V). exists y. split; [exact E |]. split; [unfold has_size in *; congruence |].
  intros b c h w I. pose proof (V _ I) as VI. destruct (inside4 f _ I) as (b' & c' & h' & w' & EQ & Hb & Hc & Hh & Hw). inversion EQ; subst b' c' h' w'.
  exists (YF f grid b h w), (XF f grid b h w), (round_int (YF f grid b h w)), (round_int (XF f grid b h w)). split; [apply found_ok; exact F1 |]. split; [apply found_ok; exact F2 |]. split; [apply round_int_ok |]. split; [apply round_int_ok |].
  rewrite (MatProps.qelem_off _ _ _ I). etransitivity; [exact VI |]. cbn [value on4]. unfold P, or_zero. set (i := round_int (YF f grid b h w)). set (j := round_int (XF f grid b h w)). clearbody i j.
  destruct ((0 <=? i) && (i <? w_Hi f) && ((0 <=? j) && (j <? w_Wi f))) eqn:B; [| reflexivity]. rewrite !andb_true_iff, !Z.leb_le, !Z.ltb_lt in B. symmetry. apply MatProps.qelem_off. unfold in_shape. repeat constructor; lia.
Qed.
(** There is only one place a reflection can lead to. *)
Theorem C124_reflection_unique : forall lo hi s a b, (lo < hi)%Qc -> mirrored lo hi s a -> mirrored lo hi s b -> a = b.
Proof. exact mirrored_unique. Qed.
(** Channels last is refused. *)
Theorem C124_channel_last : forall f linear x grid y0 gy g, warp_forward f linear true x grid y0 = None /\ warp_backward_data f linear true gy grid g = None.
Proof. intros. split; reflexivity. Qed.
(** * C125: the gradient of the image *)
Theorem C125_gradient : forall f linear gy grid g y0, suits f -> has_size gy (size (out_shape f)) -> has_size grid (size (grid_shape f)) -> has_size y0 (size (out_shape f)) ->
  match g with Some (_, d0) => has_size d0 (size (in_shape f)) | None => True end ->
  exists d, warp_backward_data f linear false gy grid g = Some d /\ adjoint g d gy (fun u => warp_forward f linear false u grid y0).
Proof.
  intros f linear gy grid [[accum d0] |] y0 S HGY HG HY HD; [| exists None; split; [reflexivity | exact I]]. destruct (s_pixels f S) as (F1 & F2).
  set (d1 := cleared accum d0). assert (LD1 : length d1 = length d0) by apply cleared_length.
  destruct (backward_ok f grid F1 F2 (s_sizes f S) HG linear gy d1) as (d & E & L & V); [exact HGY | unfold qlen, has_size in *; rewrite LD1; exact HD |].
  exists (Some d). split. { unfold warp_backward_data, on_grad, start. fold d1. cbv beta iota. destruct linear; rewrite E; reflexivity. }
  split; [congruence |]. intros u v LU F. destruct (forward_ok f grid F1 F2 (s_sizes f S) HG linear u y0) as (v' & E' & L' & V'); [unfold qlen, has_size in *; rewrite LU; exact HD | exact HY |]. rewrite F in E'. inversion E'; subst v'.
  rewrite V. f_equal; [apply cleared_qinner |]. unfold qlen, has_size in *. rewrite qinner_zsum by lia. unfold qlen. rewrite L', HY. rewrite <- (total_indices (out_shape f) (fun i => qat gy (off i (out_shape f)) * value f grid linear u i)%Qc); [reflexivity | exact (nny f (s_sizes f S)) |]. intros i Hi. cbv beta. rewrite <- V' by exact Hi. reflexivity.
Qed.

(** * C126: affine grids *)
Lemma target_ok align i n : 1 < n -> exists v, target align i n = Some v /\ number_of align n i v.
Proof.
  intros N. unfold target. replace (n - 1 =? 0) with false by (symmetry; apply Z.eqb_neq; lia). replace (n =? 0) with false by (symmetry; apply Z.eqb_neq; lia). rewrite andb_false_r. cbn [orb]. eexists. split; [reflexivity |].
  unfold number_of, place_of. assert (P1 : (0 < whole_number (n - 1))%Qc) by (rewrite <- W0; apply (proj1 (W_lt _ _)); lia).
  assert (P2 : (0 < whole_number n)%Qc) by (rewrite <- W0; apply (proj1 (W_lt _ _)); lia).
  change (of_Z (n - 1)) with (whole_number (n - 1)). change (of_Z n) with (whole_number n). change (of_Z i) with (whole_number i). pose proof two_half as TH. pose proof half_half as HH.
  assert (E1 : (two * whole_number i / whole_number (n - 1) * whole_number (n - 1) = two * whole_number i)%Qc) by (apply div_mul; exact P1).
  set (a := (two * whole_number i / whole_number (n - 1))%Qc) in *. clearbody a. destruct align.
  - replace ((a - 1 + 1) * one_half * whole_number (n - 1))%Qc with (a * whole_number (n - 1) * one_half)%Qc by ring. rewrite E1. replace (two * whole_number i * one_half)%Qc with (two * one_half * whole_number i)%Qc by ring. rewrite TH. ring.
  - assert (E2 : (whole_number (n - 1) / whole_number n * whole_number n = whole_number (n - 1))%Qc) by (apply div_mul; exact P2). set (r := (whole_number (n - 1) / whole_number n)%Qc) in *. clearbody r.
    replace (((a - 1) * r + 1) * one_half * whole_number n - one_half)%Qc with (one_half * ((a - 1) * (r * whole_number n) + whole_number n - 1))%Qc by ring. rewrite E2.
    replace ((a - 1) * whole_number (n - 1) + whole_number n - 1)%Qc with (a * whole_number (n - 1) + (whole_number n - 1 - whole_number (n - 1)))%Qc by ring. rewrite E1, W_minus, W1.
    replace (one_half * (two * whole_number i + (whole_number n - 1 - (whole_number n - 1))))%Qc with (two * one_half * whole_number i)%Qc by ring. rewrite TH. ring.
Qed.
(** The grid: the affine map of the numbers that mean the pixels, for sizes of at least two. *)
Theorem C126_affine : forall align B H W theta grid0, 0 <= B -> 1 < H -> 1 < W -> has_size theta (size [B; 2; 3]) -> has_size grid0 (size [B; H; W; 2]) ->
  exists grid, affine_grid align B H W theta grid0 = Some grid /\ has_size grid (size [B; H; W; 2]) /\
  forall b h w, inside [b; h; w] [B; H; W] -> exists y x, number_of align H h y /\ number_of align W w x /\
  forall k, 0 <= k < 2 -> qelem grid [B; H; W; 2] [b; h; w; k] =
    (x * qelem theta [B; 2; 3]%Z [b; k; 0]%Z + y * qelem theta [B; 2; 3]%Z [b; k; 1]%Z + qelem theta [B; 2; 3]%Z [b; k; 2]%Z)%Qc.
Proof.
  intros align B H W theta grid0 HB HH HW HT HG. set (gs := [B; H; W; 2]).
  set (T := fun n i => match target align i n with Some v => v | None => 0%Qc end).
  assert (TOK : forall n i, 1 < n -> target align i n = Some (T n i) /\ number_of align n i (T n i)). { intros n i N. unfold T. destruct (target_ok align i n N) as (v & E & V). rewrite E. split; [reflexivity | exact V]. }
  set (val := fun i => match i with [b; h; w; k] => (T W w * qat theta (off [b; k; 0] [B; 2; 3])%Z + T H h * qat theta (off [b; k; 1] [B; 2; 3])%Z + 1 * qat theta (off [b; k; 2] [B; 2; 3])%Z)%Qc | _ => 0%Qc end).
  assert (NG : nonneg gs) by (unfold gs; repeat constructor; lia).
  assert (E : affine_grid align B H W theta grid0 = obind (obind (loop (fun i g => put g (off i gs) (val i)) (indices gs) grid0) (fun s => Some (s, size gs))) (fun '(g, _) => Some g)).
  { unfold affine_grid. f_equal. rewrite <- (counted_indices (fun i it g => put g it (val i))) by exact NG. unfold gs.
    rewrite loop_cons. apply loop_ext. intros b s1 Ib. apply upto_in in Ib. rewrite loop_cons. apply loop_ext. intros h s2 Ih. rewrite loop_cons. apply loop_ext. intros w s3 Iw. rewrite loop_indices_1. apply loop_ext. intros k [s4 it] Ik. apply upto_in in Ik.
    rewrite (proj1 (TOK H h HH)). cbn [obind]. rewrite (proj1 (TOK W w HW)). cbn [obind].
    assert (IT : forall m, 0 <= m < 3 -> inside [b; k; m] [B; 2; 3]) by (intros m Hm; repeat constructor; lia).
    replace (b * 6 + k * 3) with (off [b; k; 0] [B; 2; 3]) by (cbn [off size]; ring). replace (off [b; k; 0] [B; 2; 3] + 1) with (off [b; k; 1] [B; 2; 3]) by (cbn [off size]; ring). replace (off [b; k; 0] [B; 2; 3] + 2) with (off [b; k; 2] [B; 2; 3]) by (cbn [off size]; ring).
    unfold has_size in HT. rewrite !get_ok by (unfold within, qlen; rewrite HT; apply off_bound, IT; lia). cbn [obind val]. reflexivity. }
  destruct (put_loop gs (fun i g => put g (off i gs) (val i)) val grid0 NG HG) as (g & EG & LG & VG); [reflexivity |]. rewrite EG in E. cbn [obind] in E. exists g. split; [exact E |]. split; [unfold has_size in *; rewrite LG; exact HG |].
  intros b h w I. unfold inside in I. repeat match goal with h : Forall2 _ (_ :: _) (_ :: _) |- _ => inversion_clear h end.
  exists (T H h), (T W w). split; [apply TOK; exact HH |]. split; [apply TOK; exact HW |]. intros k Hk. assert (IK : inside [b; h; w; k] gs) by (unfold gs; repeat constructor; lia).
  rewrite (MatProps.qelem_off _ _ _ IK), (VG _ IK). cbn [val]. rewrite !MatProps.qelem_off by (repeat constructor; lia). ring.
Qed.
(** A place on a pixel is used as it is. *)
Lemma taken_pixel m align n i r : 0 <= i < n -> taken m align n (whole_number i) r -> r = whole_number i.
Proof.
  intros I T. assert (A : (0 <= whole_number i)%Qc) by (rewrite <- W0; apply (proj1 (W_le _ _)); lia). assert (C : (whole_number i <= whole_number (n - 1))%Qc) by (apply (proj1 (W_le _ _)); lia).
  assert (HI : held n (whole_number i) = whole_number i). { unfold held. assert (E : atleast 0%Qc (whole_number i) = whole_number i) by (unfold atleast; destruct (Qclt_le_dec (whole_number i) 0%Qc); [exfalso; qlra | reflexivity]). rewrite E. unfold atmost. destruct (Qclt_le_dec (whole_number (n - 1)) (whole_number i)); [exfalso; qlra | reflexivity]. }
  pose proof oh_half as OH. assert (OP : (0 < one_half)%Qc) by reflexivity. destruct m; cbn [taken] in T.
  - exact T.
  - rewrite T. exact HI.
  - destruct align.
    + destruct (Z.eq_dec n 1) as [-> |]. { change (whole_number (1 - 1)) with 0%Qc in *. destruct T as (T1 & T2 & _). assert (i = 0) by lia. subst i. change (whole_number 0) with 0%Qc. apply Qcle_antisym; assumption. }
      apply (mirrored_unique 0%Qc (whole_number (n - 1)) (whole_number i)); [rewrite <- W0; apply (proj1 (W_lt _ _)); lia | exact T |]. split; [exact A |]. split; [exact C |]. exists 0. left. change (whole_number (2 * 0)) with 0%Qc. ring.
    + destruct T as (t & M & ->). assert (E : t = whole_number i); [| rewrite E; exact HI].
      assert (N1 : (1 <= whole_number n)%Qc) by (rewrite <- W1; apply (proj1 (W_le _ _)); lia). rewrite W_minus, W1 in C. pose proof half_half as HH2.
      apply (mirrored_unique (- one_half)%Qc (whole_number n - one_half)%Qc (whole_number i)); [qlra | exact M |]. split; [qlra |]. split; [qlra |]. exists 0. left. change (whole_number (2 * 0)) with 0%Qc. ring.
Qed.
Lemma rounds_whole i k : rounds_to false (whole_number i) k -> k = i.
Proof.
  intros R. destruct (Z.eq_dec k i) as [| NE]; [assumption | exfalso]. destruct (R i) as (A & _). rewrite <- !W_minus in A. replace (i - i) with 0 in A by ring.
  unfold mag in A. change (whole_number 0) with 0%Qc in A. assert (NZ : whole_number (i - k) <> 0%Qc). { intros E. rewrite <- W0 in E. assert (i - k <= 0) by (apply W_le; rewrite E; apply Qcle_refl). assert (0 <= i - k) by (apply W_le; rewrite E; apply Qcle_refl). lia. }
  repeat match goal with h : context [Qclt_le_dec ?a ?b] |- _ => destruct (Qclt_le_dec a b) end; apply NZ; qlra.
Qed.
Lemma bilinear_pixel H W p i j : 0 <= i < H -> 0 <= j < W -> bilinear H W p (whole_number i) (whole_number j) = p i j.
Proof.
  intros I J. unfold bilinear. rewrite total_more. rewrite (zsum_ext H _ (fun a => hat (whole_number i) a * zsum W (fun b => hat (whole_number j) b * p a b))%Qc).
  2: { intros a _. rewrite total_one, <- zsum_scale. apply zsum_ext. intros b _. ring. }
  rewrite hat_sum. cbv zeta. rewrite !hat_sum. cbv zeta. rewrite !floor_W. unfold in_range. replace ((0 <=? i) && (i <? H)) with true by (symmetry; rewrite andb_true_iff, Z.leb_le, Z.ltb_lt; lia). replace ((0 <=? j) && (j <? W)) with true by (symmetry; rewrite andb_true_iff, Z.leb_le, Z.ltb_lt; lia). ring.
Qed.
(** Warping by the affine grid of the identity map gives back the image, for every border and both
    ways to interpolate. *)
Definition same_size (m : padding_mode) (align : bool) (B C H W : Z) : warp := {| w_mode := m; w_align := align; w_B := B; w_C := C; w_Ho := H; w_Wo := W; w_Hi := H; w_Wi := W |}.
Theorem C126_identity : forall m align linear B C H W theta grid0 grid x y0 y, 0 <= B -> 0 <= C -> 1 < H -> 1 < W ->
  has_size theta (size [B; 2; 3]) -> has_size grid0 (size [B; H; W; 2]) -> has_size x (size [B; C; H; W]) -> has_size y0 (size [B; C; H; W]) ->
  (forall b i j, inside [b; i; j] [B; 2; 3] -> qelem theta [B; 2; 3] [b; i; j] = if i =? j then 1%Qc else 0%Qc) ->
  affine_grid align B H W theta grid0 = Some grid -> warp_forward (same_size m align B C H W) linear false x grid y0 = Some y ->
  forall b c h w, inside [b; c; h; w] [B; C; H; W] -> qelem y [B; C; H; W] [b; c; h; w] = qelem x [B; C; H; W] [b; c; h; w].
Proof.
  intros m align linear B C H W theta grid0 grid x y0 y HB HC HH HW HT HG HX HY ID EG EY b c h w I.
  destruct (C126_affine align B H W theta grid0 HB HH HW HT HG) as (g & EG' & LG & VG). rewrite EG in EG'. inversion EG'; subst g. clear EG'.
  set (f := same_size m align B C H W) in *. assert (S : suits f) by (split; cbn; lia).
  assert (J : 0 <= b < B /\ 0 <= c < C /\ 0 <= h < H /\ 0 <= w < W). { unfold inside in I. repeat match goal with h : Forall2 _ (_ :: _) (_ :: _) |- _ => inversion_clear h end. lia. } destruct J as (Jb & Jc & Jh & Jw).
  destruct (VG b h w) as (ny & nx & NY & NX & G); [repeat constructor; lia |]. pose proof (G 0 ltac:(lia)) as G0. pose proof (G 1 ltac:(lia)) as G1.
  rewrite !ID in G0 by (repeat constructor; lia). rewrite !ID in G1 by (repeat constructor; lia). cbn [Z.eqb Pos.eqb] in G0, G1. replace (nx * 1 + ny * 0 + 0)%Qc with nx in G0 by ring. replace (nx * 0 + ny * 1 + 0)%Qc with ny in G1 by ring.
  destruct linear.
  - destruct (C124_linear f x grid y0 S HX LG HY) as (y' & E & _ & V). rewrite EY in E. inversion E; subst y'. destruct (V b c h w I) as (yf & xf & T1 & T2 & R). change (grid_shape f) with [B; H; W; 2] in *. rewrite G1 in T1. rewrite G0 in T2. change (place_of (w_align f) ny (w_Hi f)) with (place_of align ny H) in T1. change (place_of (w_align f) nx (w_Wi f)) with (place_of align nx W) in T2. rewrite NY in T1. rewrite NX in T2.
    apply taken_pixel in T1; [| exact Jh]. apply taken_pixel in T2; [| exact Jw]. subst yf xf. etransitivity; [exact R |]. apply (bilinear_pixel H W (fun i j => qelem x [B; C; H; W] [b; c; i; j])); assumption.
  - destruct (C124_nearest f x grid y0 S HX LG HY) as (y' & E & _ & V). rewrite EY in E. inversion E; subst y'. destruct (V b c h w I) as (yf & xf & i & j & T1 & T2 & R1 & R2 & R). change (grid_shape f) with [B; H; W; 2] in *. rewrite G1 in T1. rewrite G0 in T2. change (place_of (w_align f) ny (w_Hi f)) with (place_of align ny H) in T1. change (place_of (w_align f) nx (w_Wi f)) with (place_of align nx W) in T2. rewrite NY in T1. rewrite NX in T2.
    apply taken_pixel in T1; [| exact Jh]. apply taken_pixel in T2; [| exact Jw]. subst yf xf. apply rounds_whole in R1. apply rounds_whole in R2. subst i j. etransitivity; [exact R |]. unfold or_zero. cbn [f same_size w_Hi w_Wi]. replace (0 <=? h) with true by (symmetry; apply Z.leb_le; lia). replace (0 <=? w) with true by (symmetry; apply Z.leb_le; lia).
    replace (h <? H) with true by (symmetry; apply Z.ltb_lt; lia). replace (w <? W) with true by (symmetry; apply Z.ltb_lt; lia). reflexivity.
Qed.
(** Refuted for an axis with one pixel: the target of its only pixel is a division of zero by zero,
    so the grid is not a number, although a number that means this pixel exists. *)
Theorem C126_one_pixel_refuted : forall align, target align 0 1 = None /\ affine_grid align 1 1 2 [1; 0; 0; 0; 1; 0]%Qc [0; 0; 0; 0]%Qc = None /\ number_of align 1 0 0%Qc.
Proof. intros []; repeat split; vm_compute; try reflexivity; apply Qc_is_canon; reflexivity. Qed.

(** * Examples *)
Definition img : list Qc := map q [10; 20; 30; 40].
Definition small m align : warp := {| w_mode := m; w_align := align; w_B := 1; w_C := 1; w_Ho := 1; w_Wo := 1; w_Hi := 2; w_Wi := 2 |}.
Example suits_small : suits (small Reflect true).
Proof. split; cbn; lia. Qed.
Example linear_mid : warp_forward (small Zero true) true false img [0; 0]%Qc [q 9] = Some [q 25].
Proof. vm_compute. reflexivity. Qed.
Example zero_outside : warp_forward (small Zero true) true false img [q 3; q 1] [q 9] = Some [q 0].
Proof. vm_compute. reflexivity. Qed.
Example repeat_outside : warp_forward (small Repeat true) true false img [q 3; q 1] [q 9] = Some [q 40].
Proof. vm_compute. reflexivity. Qed.
Example reflect_outside : warp_forward (small Reflect true) true false img [q 3; q 1] [q 9] = Some [q 30].
Proof. vm_compute. reflexivity. Qed.
Example nearest_corner : warp_forward (small Zero true) false false img [q 1; q (-1)] [q 9] = Some [q 20].
Proof. vm_compute. reflexivity. Qed.
Example nearest_gradient : warp_backward_data (small Zero true) false false [q 5] [q 1; q (-1)] (Some (true, map q [1; 1; 1; 1])) = Some (Some (map q [1; 6; 1; 1])).
Proof. vm_compute. reflexivity. Qed.
Example mirrored_place : mirrored 0 (q 2) (q 3) (q 1).
Proof. split; [discriminate |]. split; [discriminate |]. exists 1. right. apply Qc_is_canon. reflexivity. Qed.
Example affine_corner : exists g, affine_grid true 1 2 2 (map q [1; 0; 0; 0; 1; 0]) (map q [0; 0; 0; 0; 0; 0; 0; 0]) = Some g /\ map this g = map this (map q [-1; -1; 1; -1; -1; 1; 1; 1]).
Proof. eexists. split; [vm_compute; reflexivity | reflexivity]. Qed.
Print Assumptions C124_linear.
Print Assumptions C124_nearest.
Print Assumptions C125_gradient.
Print Assumptions C126_identity.
