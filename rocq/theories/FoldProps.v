(** Properties C110 to C113: the parameters that batch normalization folding computes. *)
From Coq Require Import List ZArith Bool QArith Qcanon Lia.
From Verif Require Import NdSpec ScanSpec ReduceSpec ConvSpec MatSpec BinSpec IdxModel ConvModel ConvProps MatModel MatProps BinModel BinProps.
From Verif Require Import FoldModel FoldSpec FoldProofs1 FoldProofs2 FoldProofs3 FoldProofs4 FoldProofs5 FoldProofs6.
Import ListNotations.
Local Open Scope list_scope.
Local Open Scope Z_scope.

Definition arr (s : list Z) (l : list Z) : nd := {| sh := s; el := map q l |}.
Definition stats_of (s b g m v : list Z) : stats := {| beta := arr s b; gamma := arr s g; mean := arr s m; var := arr s v; eps := q 0 |}.
Definition id_root (x : Qc) : Qc := x.
Definition showp (o : option (nd * nd)) : option (list Z * list Q * list Z * list Q) :=
  match o with Some (a, b) => Some (sh a, map this (el a), sh b, map this (el b)) | None => None end.

(** * C110: Convolution and Deconvolution *)
(** The parameters, for both layouts of a convolution: output channels are the first axis of the
    weights, and the normalized axis is 1, or the last. *)
Theorem C110_convolution_parameters : forall root (last : bool) w b s C rest, sh w = C :: rest -> rest <> [] -> sizes (C :: rest) -> C <> 1 ->
  valued_stats s (if last then length rest else 1%nat) (length (C :: rest)) C -> valued b [C] ->
  exists w' b', fold_layer root Convolution last w b s = Some (w', b') /\ valued w' (sh w) /\ valued b' (sh b) /\
  (forall c k, inside (c :: k) (C :: rest) -> value w' (c :: k) = (channel (gamma s) c / root (channel (var s) c + eps s) * value w (c :: k))%Qc) /\
  forall c, 0 <= c < C -> root (channel (var s) c + eps s)%Qc <> 0%Qc -> channel b' c = batch_norm root s c (channel b c).
Proof.
  intros root last w b s C rest Ew NR P N1 VS VB. assert (PC : 0 <= C) by (inversion P; assumption).
  destruct (switch_axes_ok last s (length (C :: rest)) C) as (s' & SW & VS' & EE & EC).
  - destruct last; destruct rest; try contradiction; cbn; lia.
  - exact PC.
  - destruct last; [replace (length (C :: rest) - 1)%nat with (length rest) by (cbn; lia) |]; exact VS.
  - destruct (fold_layer_ok root Convolution last w b s s' 0 C) as (w' & b' & E & VW & VB' & AW & AB); rewrite ?Ew; try assumption; [cbn; lia | reflexivity |].
    rewrite Ew in VW, AW. exists w', b'. split; [exact E |]. split; [exact VW |]. split; [rewrite (proj1 VB); exact VB' |]. split.
    + intros c k I. rewrite AW by exact I. cbn [nth]. inversion I; subst. destruct (factor_ext root s s' c EE (EC c ltac:(assumption))) as [-> _]. reflexivity.
    + intros c I R. rewrite AB by exact I. destruct (factor_ext root s s' c EE (EC c I)) as [-> ->]. rewrite batch_norm_linear by exact R. ring.
Qed.
Lemma output_rank l n : legal l -> batch l = [n] -> length (output_shape l) = length (weight_shape l).
Proof. intros L B. unfold output_shape, weight_shape, output. rewrite B. cbn [app length]. destruct (positions_length _ _ _ _ _ (g_fits l L)) as [-> _]. reflexivity. Qed.
(** The full statement: a convolution followed by a batch normalization with fixed statistics is
    the convolution with the folded parameters.  Missing: one output channel, and batches of
    several axes, where it is false; rounding. *)
Theorem C110_convolution_partial : forall root l n base f w b s x col y0, legal l -> batch l = [n] -> output_channels l <> 1 -> conv_made base l (Some [output_channels l]) f ->
  valued w (weight_shape l) -> valued b [output_channels l] -> valued_stats s 1 (length (output_shape l)) (output_channels l) -> proper root s (output_channels l) ->
  has_size x (size (image_shape l)) -> has_size col (buffer l) -> has_size y0 (size (output_shape l)) ->
  exists w' b' y y', fold_layer root Convolution false w b s = Some (w', b') /\ sh w' = sh w /\ sh b' = sh b /\
  conv_forward f x (el w) (Some (el b)) col y0 = Some y /\ conv_forward f x (el w') (Some (el b')) col y0 = Some y' /\
  forall a c o, inside a (batch l) -> 0 <= c < output_channels l -> inside o (output l) ->
    qelem y' (output_shape l) (a ++ c :: o) = batch_norm root s c (qelem y (output_shape l) (a ++ c :: o)).
Proof.
  intros root l n base f w b s x col y0 L B N1 M VW VB VS PR LX LC LY. rewrite (output_rank l n L B) in VS.
  destruct (C110_convolution_parameters root false w b s (output_channels l) (channels_per_part l :: window l)) as (w' & b' & E & VW' & VB' & AW & AB);
    [exact (proj1 VW) | discriminate | apply weights_nonneg; exact L | exact N1 | exact VS | exact VB |].
  rewrite (proj1 VB) in VB'. rewrite (proj1 VW) in VW'.
  assert (SB : forall a : nd, valued a [output_channels l] -> bias_size (Some (el a)) (output_channels l)) by (intros a (_ & Q); cbn [bias_size]; unfold has_size; rewrite Q; cbn; lia).
  destruct (C52_forward_partial l base _ f L M x (el w) (Some (el b)) col y0 LX (proj2 VW) (SB b VB) LC LY) as (y & F & _ & V).
  destruct (C52_forward_partial l base _ f L M x (el w') (Some (el b')) col y0 LX (proj2 VW') (SB b' VB') LC LY) as (y' & F' & _ & V').
  exists w', b', y, y'. split; [exact E |]. split; [rewrite (proj1 VW), (proj1 VW'); reflexivity |]. split; [rewrite (proj1 VB), (proj1 VB'); reflexivity |]. split; [exact F |]. split; [exact F' |].
  intros a c o Ia Ic Io. rewrite V, V' by assumption. rewrite (correlation_scale l x (el w) (el w') a c o (factor root s c)).
  - cbn [bias_of]. change (nth (Z.to_nat c) (el b') 0%Qc) with (channel b' c). change (nth (Z.to_nat c) (el b) 0%Qc) with (channel b c). rewrite AB by (try exact Ic; apply PR; exact Ic). rewrite !batch_norm_linear by (apply PR; exact Ic). ring.
  - intros c' k Ic' Ik. specialize (AW c (c' :: k)). unfold value in AW. rewrite (proj1 VW), (proj1 VW') in AW. apply AW. constructor; [exact Ic |]. constructor; [exact Ic' | exact Ik].
Qed.
(** Without a bias, zeros are added first. *)
Theorem C110_no_bias_partial : forall root l n base f w s x col y0, legal l -> batch l = [n] -> output_channels l <> 1 -> conv_made base l None f ->
  valued w (weight_shape l) -> valued_stats s 1 (length (output_shape l)) (output_channels l) -> proper root s (output_channels l) ->
  has_size x (size (image_shape l)) -> has_size col (buffer l) -> has_size y0 (size (output_shape l)) ->
  exists b w' b' f' y y', added_bias Convolution w = Some b /\ fold_layer root Convolution false w b s = Some (w', b') /\ sh w' = sh w /\ sh b' = [output_channels l] /\
  conv_forward f x (el w) None col y0 = Some y /\ conv_made base l (Some (sh b')) f' /\ conv_forward f' x (el w') (Some (el b')) col y0 = Some y' /\
  forall a c o, inside a (batch l) -> 0 <= c < output_channels l -> inside o (output l) ->
    qelem y' (output_shape l) (a ++ c :: o) = batch_norm root s c (qelem y (output_shape l) (a ++ c :: o)).
Proof.
  intros root l n base f w s x col y0 L B N1 M VW VS PR LX LC LY. pose proof (g_out l L) as PO. set (b := {| sh := [output_channels l]; el := repeat 0%Qc (Z.to_nat (output_channels l)) |}).
  assert (EB : added_bias Convolution w = Some b) by (unfold added_bias; rewrite (proj1 VW); reflexivity).
  assert (VB : valued b [output_channels l]) by (split; [reflexivity |]; cbn [b el]; rewrite repeat_length; cbn; lia).
  pose proof (proj1 M) as D.
  destruct (C52_setup l L base (Some [output_channels l]) D eq_refl) as (f' & M'). assert (CM : conv_made base l (Some [output_channels l]) f') by (split; [exact D |]; split; [reflexivity | exact M']).
  destruct (C110_convolution_partial root l n base f' w b s x col y0 L B N1 CM VW VB VS PR LX LC LY) as (w' & b' & y1 & y' & E & S1 & S2 & F1 & F' & V').
  destruct (C52_forward_partial l base _ f L M x (el w) None col y0 LX (proj2 VW) I LC LY) as (y & F & _ & V).
  assert (SB : bias_size (Some (el b)) (output_channels l)) by (cbn [bias_size]; unfold has_size; rewrite (proj2 VB); cbn; lia).
  destruct (C52_forward_partial l base _ f' L CM x (el w) (Some (el b)) col y0 LX (proj2 VW) SB LC LY) as (y2 & F2 & _ & V2). rewrite F1 in F2. injection F2 as <-.
  exists b, w', b', f', y, y'. split; [exact EB |]. split; [exact E |]. split; [exact S1 |]. split; [exact S2 |]. split; [exact F |]. rewrite S2. split; [exact CM |]. split; [exact F' |].
  intros a c o Ia Ic Io. rewrite V' by assumption. f_equal. rewrite V, V2 by assumption. f_equal. cbn [bias_of b el]. apply nth_repeat.
Qed.
Definition one_by_one : layer := {| batch := [1]; image_channels := 3; output_channels := 2; parts := 1; image := [1; 1]; window := [1; 1]; padding := [0; 0]; steps := [1; 1]; spacing := [1; 1] |}.
Example C110_runs : showp (fold_layer id_root Convolution false (arr [2; 3; 1; 1] [1; 2; 3; 4; 5; 6]) (arr [2] [100; 200]) (stats_of [1; 2; 1; 1] [10; 20] [2; 6] [1; 2] [1; 2])) =
    Some ([2; 3; 1; 1], map inject_Z [2; 4; 6; 12; 15; 18], [2], map inject_Z [208; 614]) /\
  showp (fold_layer id_root Convolution true (arr [2; 1; 1; 3] [1; 2; 3; 4; 5; 6]) (arr [2] [100; 200]) (stats_of [1; 1; 1; 2] [10; 20] [2; 6] [1; 2] [1; 2])) =
    Some ([2; 1; 1; 3], map inject_Z [2; 4; 6; 12; 15; 18], [2], map inject_Z [208; 614]) /\
  showp (fold_layer id_root Deconvolution false (arr [3; 2; 1; 1] [1; 2; 3; 4; 5; 6]) (arr [2] [100; 200]) (stats_of [1; 2; 1; 1] [10; 20] [2; 6] [1; 2] [1; 2])) =
    Some ([3; 2; 1; 1], map inject_Z [2; 6; 6; 12; 10; 18], [2], map inject_Z [208; 614]).
Proof. vm_compute. repeat split. Qed.
Example C110_layer_ok : legal one_by_one /\ output_shape one_by_one = [1; 2; 1; 1] /\ weight_shape one_by_one = [2; 3; 1; 1] /\ valued_stats (stats_of [1; 2; 1; 1] [10; 20] [2; 6] [1; 2] [1; 2]) 1 4 2 /\
  proper id_root (stats_of [1; 2; 1; 1] [10; 20] [2; 6] [1; 2] [1; 2]) 2.
Proof.
  split; [constructor; cbn; try lia; try (repeat constructor; lia); try discriminate; [exists 3; reflexivity | exists 2; reflexivity] |]. split; [reflexivity |]. split; [reflexivity |].
  split; [repeat split |]. intros c I. assert (c = 0 \/ c = 1) as [-> | ->] by lia; vm_compute; discriminate.
Qed.

(** Deconvolution with one group: the output channels are the second axis of the weights. *)
Theorem C110_deconvolution_partial : forall root d n base e f w b s y col x0, let l := layer_of d in
  sound d -> d_batch d = [n] -> d_groups d = 1 -> d_per_group d <> 1 -> deconv_made base d e (Some [d_per_group d]) f ->
  valued w (kernel_shape d) -> valued b [d_per_group d] -> valued_stats s 1 (length (image_shape l)) (d_per_group d) -> proper root s (d_per_group d) ->
  has_size y (size (input_shape d)) -> has_size col (buffer l) -> has_size x0 (size (image_shape l)) ->
  exists w' b' x x', fold_layer root Deconvolution false w b s = Some (w', b') /\ sh w' = sh w /\ sh b' = sh b /\
  deconv_forward f y (el w) (Some (el b)) col x0 = Some x /\ deconv_forward f y (el w') (Some (el b')) col x0 = Some x' /\
  forall a c i, inside a (batch l) -> 0 <= c < d_per_group d -> inside i (image l) ->
    qelem x' (image_shape l) (a ++ c :: i) = batch_norm root s c (qelem x (image_shape l) (a ++ c :: i)).
Proof.
  intros root d n base e f w b s y col x0 l SD B G N1 M VW VB VS PR LY LC LX. pose proof SD as (_ & HK & _ & _ & HP & HC & _ & ST).
  assert (CG : channels_per_part l = d_per_group d) by (unfold channels_per_part, l, layer_of, transposed; cbn [image_channels parts]; rewrite G, Z.mul_1_r, Z.div_1_r; reflexivity).
  assert (IC : image_channels l = d_per_group d) by (unfold l, layer_of, transposed; cbn [image_channels]; rewrite G; lia).
  assert (WS : weight_shape l = kernel_shape d) by (unfold weight_shape, kernel_shape; rewrite CG; reflexivity).
  assert (RK : length (image_shape l) = length (sh w)).
  { rewrite (proj1 VW). unfold image_shape, kernel_shape. change (batch l) with (d_batch d). rewrite B. cbn [app length]. unfold l, layer_of, transposed. cbn [image]. destruct (stretching_length _ _ _ _ _ _ ST) as [-> _]. reflexivity. }
  assert (NN : Forall (fun n => 0 <= n) (sh w)) by (rewrite (proj1 VW); unfold kernel_shape; constructor; [lia |]; constructor; [lia | exact HK]).
  destruct (fold_layer_ok root Deconvolution false w b s s 1 (d_per_group d)) as (w' & b' & E & VW' & VB' & AW & AB);
    [rewrite <- RK; unfold image_shape; change (batch l) with (d_batch d); rewrite B; cbn [app length]; lia | rewrite (proj1 VW); reflexivity | exact NN | exact N1 | reflexivity | rewrite <- RK; exact VS | exact VB |].
  rewrite (proj1 VW) in VW', AW.
  assert (SB : forall a : nd, valued a [d_per_group d] -> bias_size (Some (el a)) (image_channels l)) by (intros a (_ & Q); cbn [bias_size]; unfold has_size; rewrite Q, IC; cbn; lia).
  destruct (C53_forward_partial d base e _ f SD M y (el w) (Some (el b)) col x0 LY (proj2 VW) (SB b VB) LC LX) as (x & F & _ & V).
  destruct (C53_forward_partial d base e _ f SD M y (el w') (Some (el b')) col x0 LY (proj2 VW') (SB b' VB') LC LX) as (x' & F' & _ & V'). fold l in V, V'.
  exists w', b', x, x'. split; [exact E |]. split; [rewrite (proj1 VW), (proj1 VW'); reflexivity |]. split; [rewrite (proj1 VB), (proj1 VB'); reflexivity |]. split; [exact F |]. split; [exact F' |].
  intros a c i Ia Ic Ii. rewrite V, V' by (try assumption; rewrite IC; exact Ic). rewrite (scattered_scale l y (el w) (el w') a c i (factor root s c)); [| exact G | lia |].
  - cbn [bias_of]. change (nth (Z.to_nat c) (el b') 0%Qc) with (channel b' c). change (nth (Z.to_nat c) (el b) 0%Qc) with (channel b c). rewrite AB by exact Ic. rewrite batch_norm_linear by (apply PR; exact Ic). ring.
  - intros oc k Io Ik Iw. rewrite CG in Ik. specialize (AW (oc :: c :: k)). unfold value in AW. rewrite (proj1 VW), (proj1 VW') in AW. rewrite WS. rewrite AW; [reflexivity |].
    unfold kernel_shape. constructor; [exact Io |]. constructor; [lia | exact Iw].
Qed.

(** One output channel: the squeezed bias has no axes, and the assertion on its shape fails. *)
Theorem C110_one_channel_refuted : forall root, fold_layer root Convolution false (arr [1; 1; 1; 1] [1]) (arr [1] [0]) (stats_of [1; 1; 1; 1] [0] [1] [0] [1]) = None.
Proof. reflexivity. Qed.
Theorem C110_one_channel_never : forall root (last : bool) w b s rest, sh w = 1 :: rest -> rest <> [] -> sizes rest -> valued b [1] ->
  valued_stats s (if last then length rest else 1%nat) (length (1 :: rest)) 1 -> fold_layer root Convolution last w b s = None.
Proof.
  intros root last w b s rest Ew NR P VB VS. destruct (switch_axes_ok last s (length (1 :: rest)) 1) as (s' & SW & VS' & _ & _).
  - destruct last; destruct rest; try contradiction; cbn; lia.
  - lia.
  - destruct last; [replace (length (1%Z :: rest) - 1)%nat with (length rest) by (cbn; lia) |]; exact VS.
  - destruct (folded_ok root Convolution last w b s s' 0 1) as (w' & b' & E & VW' & EB & _); rewrite ?Ew; try assumption; [cbn; lia | reflexivity | constructor; [lia | exact P] |].
    unfold fold_layer. rewrite E. cbn [obind fst snd]. unfold created. rewrite (proj1 VW'), same_shape_refl. cbn [obind]. rewrite (proj1 VB), EB. reflexivity.
Qed.
(** A batch of two axes, normalized over the channels: the transposition moves the wrong axis, and
    the new weights do not have the shape of the old ones. *)
Theorem C110_batch_axes_refuted : forall root, conv_setup 2 [0] [1] [1] 1 [1; 1; 2; 1] [2; 2; 1] (Some [2]) <> None /\
  fold_layer root Convolution false (arr [2; 2; 1] [1; 2; 3; 4]) (arr [2] [0; 0]) (stats_of [1; 1; 2; 1] [0; 0] [1; 1] [0; 0] [1; 1]) = None.
Proof. intros root. split; [discriminate | reflexivity]. Qed.
(** Deconvolution with two groups. *)
Theorem C110_groups_refuted : forall root, fold_layer root Deconvolution false (arr [2; 2; 1] [1; 2; 3; 4]) (arr [4] [0; 0; 0; 0]) (stats_of [1; 4; 1] [0; 0; 0; 0] [1; 1; 1; 1] [0; 0; 0; 0] [1; 1; 1; 1]) = None /\
  deconv_setup 1 [0] [1] [1] 2 [0] [1; 2; 1] [2; 2; 1] (Some [4]) <> None.
Proof. intros root. split; [reflexivity | discriminate]. Qed.
(** The bias that is added to a Deconvolution has as many elements as the layer has inputs, not outputs:
    the layer does not accept it. *)
Theorem C110_deconvolution_bias_refuted : exists b, added_bias Deconvolution (arr [3; 2; 1] [1; 2; 3; 4; 5; 6]) = Some b /\ sh b = [3] /\
  deconv_setup 1 [0] [1] [1] 1 [0] [1; 3; 1] [3; 2; 1] None <> None /\ deconv_setup 1 [0] [1] [1] 1 [0] [1; 3; 1] [3; 2; 1] (Some (sh b)) = None /\
  forall root, fold_layer root Deconvolution false (arr [3; 2; 1] [1; 2; 3; 4; 5; 6]) b (stats_of [1; 2; 1] [0; 0] [1; 1] [0; 0] [1; 1]) = None.
Proof. eexists. split; [reflexivity |]. split; [reflexivity |]. split; [discriminate |]. split; reflexivity. Qed.

(** * C111: Affine *)
(** Folding raises an exception unless the layer has as many outputs as inputs, and more than one. *)
Theorem C111_accepted : forall root (last : bool) w b s n C, 0 <= n -> 0 < C -> valued w [n; C] -> valued b [C] -> valued_stats s 1 2 C ->
  (fold_layer root Affine last w b s <> None <-> n = C /\ C <> 1).
Proof.
  intros root last w b s n C Pn PC VW VB VS. split.
  - intros H. destruct (Z.eq_dec n C) as [-> | N]; [destruct (Z.eq_dec C 1) as [-> | N]; [| auto] |]; exfalso; apply H; [apply (affine_refused root last w b s 1 1) | apply (affine_refused root last w b s n C)]; auto; apply VW.
  - intros [-> N]. destruct (reshape_affine last C s VS) as (s' & R & VS' & _). destruct (fold_layer_ok root Affine last w b s s' 0 C) as (w' & b' & E & _); rewrite ?(proj1 VW); try assumption; [cbn; lia | reflexivity | repeat constructor; lia |].
    rewrite E. discriminate.
Qed.
(** Then the rows of the weights are scaled, not the columns. *)
Theorem C111_rows : forall root (last : bool) w b s C, 1 < C -> valued w [C; C] -> valued b [C] -> valued_stats s 1 2 C -> exists w' b', fold_layer root Affine last w b s = Some (w', b') /\ valued w' [C; C] /\ valued b' [C] /\
  (forall i j, 0 <= i < C -> 0 <= j < C -> value w' [i; j] = (channel (gamma s) i / root (channel (var s) i + eps s) * value w [i; j])%Qc) /\
  forall j, 0 <= j < C -> root (channel (var s) j + eps s)%Qc <> 0%Qc -> channel b' j = batch_norm root s j (channel b j).
Proof.
  intros root last w b s C PC VW VB VS. destruct (reshape_affine last C s VS) as (s' & R & VS' & EE & EC).
  destruct (fold_layer_ok root Affine last w b s s' 0 C) as (w' & b' & E & VW' & VB' & AW & AB); rewrite ?(proj1 VW); try assumption; [cbn; lia | reflexivity | repeat constructor; lia | lia |].
  rewrite (proj1 VW) in VW', AW. exists w', b'. split; [exact E |]. split; [exact VW' |]. split; [exact VB' |]. split.
  - intros i j Hi Hj. rewrite AW by (repeat constructor; lia). cbn [nth]. destruct (factor_ext root s s' i EE (EC i)) as [-> _]. reflexivity.
  - intros j Hj N. rewrite AB by exact Hj. destruct (factor_ext root s s' j EE (EC j)) as [-> ->]. rewrite batch_norm_linear by exact N. ring.
Qed.
(** The full statement: an affine layer followed by a batch normalization is the affine layer with the
    folded parameters.  It holds here only if all channels are scaled alike. *)
Theorem C111_uniform_partial : forall root (last : bool) base N C f w b s x y0 g, 1 < C -> affine_fit base [N] [C] [C] -> affine_made base [N] [C] [C] f ->
  valued w [C; C] -> valued b [C] -> valued_stats s 1 2 C -> proper root s C -> (forall c, 0 <= c < C -> (channel (gamma s) c / root (channel (var s) c + eps s))%Qc = g) ->
  has_size x (size [N; C]) -> has_size y0 (size [N; C]) ->
  exists w' b' y y', fold_layer root Affine last w b s = Some (w', b') /\ affine_forward f x (el w) (Some (el b)) y0 = Some y /\ affine_forward f x (el w') (Some (el b')) y0 = Some y' /\
  forall a c, 0 <= a < N -> 0 <= c < C -> qelem y' [N; C] [a; c] = batch_norm root s c (qelem y [N; C] [a; c]).
Proof.
  intros root last base N C f w b s x y0 g PC F M VW VB VS PR U LX LY. destruct (C111_rows root last w b s C PC VW VB VS) as (w' & b' & E & VW' & VB' & AW & AB).
  assert (SW : forall a : nd, valued a [C; C] -> has_size (el a) (size (size [C] :: [C]))) by (intros a (_ & Q); unfold has_size; rewrite Q; cbn; lia).
  assert (SB : forall a : nd, valued a [C] -> bias_size (Some (el a)) (size [C])) by (intros a (_ & Q); exact Q).
  destruct (C57_values base [N] [C] [C] f x (el w) (Some (el b)) y0 F M LX (SW w VW) (SB b VB) LY) as (y & FY & _ & V).
  destruct (C57_values base [N] [C] [C] f x (el w') (Some (el b')) y0 F M LX (SW w' VW') (SB b' VB') LY) as (y' & FY' & _ & V').
  exists w', b', y, y'. split; [exact E |]. split; [exact FY |]. split; [exact FY' |]. intros a c Ia Ic. specialize (V [a] [c]). specialize (V' [a] [c]). cbn [app] in V, V'.
  rewrite V, V' by (constructor; [assumption | constructor]). unfold affine_value.
  assert (EL : forall d : nd, valued d [C] -> qelem (el d) [C] [c] = channel d c) by (intros d _; unfold qelem, channel; cbn [position]; do 2 f_equal; lia).
  rewrite (EL b VB), (EL b' VB'), AB by (try exact Ic; apply PR; exact Ic). rewrite !batch_norm_linear by (apply PR; exact Ic).
  rewrite (PoolProofs3.total_ext (indices [C]) _ (fun i => (factor root s c * (qelem x ([N] ++ [C]) ([a] ++ i) * qelem (el w) [size [C]; C] [position 0 i [C]; c]))%Qc)).
  - rewrite total_scale. ring.
  - intros i Ii. apply NdProofs.indices_in in Ii. inversion Ii as [| i0 ? i1 ? I0 I1]; subst. inversion I1; subst. cbn [position]. replace (0 * C + i0) with i0 by lia. cbn [size]. replace (C * 1) with C by lia.
    specialize (AW i0 c I0 Ic). unfold value in AW. rewrite (proj1 VW), (proj1 VW') in AW. rewrite AW, (U i0 I0). unfold factor. rewrite (U c Ic). ring.
Qed.
Example C111_runs : showp (fold_layer id_root Affine false (arr [2; 2] [1; 2; 3; 4]) (arr [2] [100; 200]) (stats_of [1; 2] [10; 20] [2; 4] [1; 2] [1; 2])) = Some ([2; 2], map inject_Z [2; 4; 6; 8], [2], map inject_Z [208; 416]).
Proof. vm_compute. reflexivity. Qed.
(** It is false for two channels with different scales: the identity, with the second channel
    doubled, applied to (1, 1). *)
Theorem C111_affine_refuted : let w := arr [2; 2] [0; 1; 1; 0] in let b := arr [2] [0; 0] in let s := stats_of [1; 2] [0; 0] [1; 2] [0; 0] [1; 1] in
  exists f w' b', affine_setup 1 [1; 2] [2; 2] (Some [2]) = Some f /\ fold_layer id_root Affine false w b s = Some (w', b') /\
  show (affine_forward f (map q [1; 1]) (el w) (Some (el b)) (nines 2)) = qs [1; 1] /\ show (affine_forward f (map q [1; 1]) (el w') (Some (el b')) (nines 2)) = qs [2; 1] /\
  batch_norm id_root s 0 (q 1) = q 1 /\ batch_norm id_root s 1 (q 1) = q 2.
Proof. eexists _, _, _. split; [reflexivity |]. split; [reflexivity |]. split; [vm_compute; reflexivity |]. split; [vm_compute; reflexivity |]. split; apply Qc_is_canon; vm_compute; reflexivity. Qed.
(** Layers of other shapes are not converted at all. *)
Theorem C111_shape_refuted : forall root, fold_layer root Affine false (arr [3; 2] [1; 2; 3; 4; 5; 6]) (arr [2] [0; 0]) (stats_of [1; 2] [0; 0] [1; 1] [0; 0] [1; 1]) = None.
Proof. reflexivity. Qed.

(** * C112: the opposite direction *)
(** The full statement: a batch normalization followed by a convolution is the convolution with the
    folded parameters.  What holds for one group and no padding: the result differs from that by the
    sum of weights times shift times (scale - 1). *)
Theorem C112_difference_partial : forall root (last : bool) l n base f w b s x xn col y0, legal l -> batch l = [n] -> parts l = 1 -> Forall (fun p => p = 0) (padding l) -> Forall (fun d => 0 <= d) (spacing l) ->
  conv_made base l (Some [output_channels l]) f -> valued w (weight_shape l) -> valued b [output_channels l] -> valued_stats s 1 (length (image_shape l)) (image_channels l) -> proper root s (image_channels l) ->
  has_size x (size (image_shape l)) -> has_size xn (size (image_shape l)) -> has_size col (buffer l) -> has_size y0 (size (output_shape l)) ->
  (forall a c i, inside a (batch l) -> 0 <= c < image_channels l -> inside i (image l) -> qelem xn (image_shape l) (a ++ c :: i) = batch_norm root s c (qelem x (image_shape l) (a ++ c :: i))) ->
  exists w' b' y y', fold_layer_opposite root Convolution last w b s = Some (w', b') /\ sh w' = sh w /\ sh b' = sh b /\
  conv_forward f xn (el w) (Some (el b)) col y0 = Some y /\ conv_forward f x (el w') (Some (el b')) col y0 = Some y' /\
  forall a oc o, inside a (batch l) -> 0 <= oc < output_channels l -> inside o (output l) ->
    qelem y' (output_shape l) (a ++ oc :: o) = (qelem y (output_shape l) (a ++ oc :: o) +
      total (range 0 (Z.to_nat (image_channels l))) (fun c => total (indices (window l)) (fun k =>
        value w (oc :: c :: k) * batch_norm root s c 0 * (channel (gamma s) c / root (channel (var s) c + eps s) - 1))))%Qc.
Proof.
  intros root last l n base f w b s x xn col y0 L B P1 PD SP M VW VB VS PR LX LN LC LY HN.
  assert (CG : channels_per_part l = image_channels l) by (unfold channels_per_part; rewrite P1, Z.div_1_r; reflexivity).
  assert (EW : sh w = output_channels l :: image_channels l :: window l) by (rewrite (proj1 VW); unfold weight_shape; rewrite CG; reflexivity).
  destruct (positions_length _ _ _ _ _ (g_fits l L)) as [_ RW].
  destruct (opposite_ok root last w b s (output_channels l) (image_channels l) (window l) EW) as (w' & b' & E & VW' & VB' & AW & AB);
    [rewrite (proj1 VW); apply weights_nonneg; exact L | rewrite EW; unfold image_shape in VS; rewrite B in VS; cbn [app length] in *; rewrite RW; exact VS | exact VB |].
  assert (VW1 : valued w' (weight_shape l)) by (rewrite <- (proj1 VW); exact VW').
  assert (SB : forall a : nd, valued a [output_channels l] -> bias_size (Some (el a)) (output_channels l)) by (intros a (_ & Q); cbn [bias_size]; unfold has_size; rewrite Q; cbn; lia).
  destruct (C52_forward_partial l base _ f L M xn (el w) (Some (el b)) col y0 LN (proj2 VW) (SB b VB) LC LY) as (y & F & _ & V).
  destruct (C52_forward_partial l base _ f L M x (el w') (Some (el b')) col y0 LX (proj2 VW1) (SB b' VB') LC LY) as (y' & F' & _ & V').
  exists w', b', y, y'. split; [exact E |]. split; [exact (proj1 VW') |]. split; [rewrite (proj1 VB), (proj1 VB'); reflexivity |]. split; [exact F |]. split; [exact F' |].
  intros a oc o Ia Io Ioo. rewrite V, V' by assumption. cbn [bias_of]. change (nth (Z.to_nat oc) (el b') 0%Qc) with (channel b' oc). change (nth (Z.to_nat oc) (el b) 0%Qc) with (channel b oc). rewrite AB by exact Io.
  unfold correlation. rewrite CG.
  match goal with |- (?A + (?B + ?b) = ?D + ?b + ?G)%Qc => enough (Q : (A + B = D + G)%Qc) by (transitivity ((A + B) + b)%Qc; [ring |]; rewrite Q; ring) end.
  rewrite <- !total_plus. apply PoolProofs3.total_ext. intros c Ic. apply in_range in Ic. rewrite <- !total_plus. apply PoolProofs3.total_ext. intros k Ik. apply NdProofs.indices_in in Ik.
  assert (In3 : inside (oc :: c :: k) (sh w)) by (rewrite EW; constructor; [exact Io |]; constructor; [exact Ic | exact Ik]).
  assert (CH : channel_of l oc c = c). { unfold channel_of, outputs_per_part. rewrite P1, Z.div_1_r, Z.div_small by exact Io. lia. } rewrite CH.
  pose proof (tap_inside _ _ _ _ _ o k (g_fits l L) PD SP Ik Ioo) as TI. unfold padded. rewrite TI.
  assert (IT : inside (tap (steps l) (spacing l) (padding l) k o) (image l)).
  { clear - TI. revert TI. generalize (tap (steps l) (spacing l) (padding l) k o) as t. generalize (image l) as S. induction S as [| m S IH]; intros [| z t] H; cbn in H; try discriminate; [constructor |].
    apply andb_true_iff in H as (H & H2). apply andb_true_iff in H as (H0 & H1). constructor; [lia | apply IH; exact H2]. }
  fold (image_shape l). rewrite HN by assumption. pose proof (AW _ In3) as AW3. cbn [nth] in AW3. rewrite AW3.
  assert (Q1 : qelem (el w') (weight_shape l) (oc :: c :: k) = value w' (oc :: c :: k)) by (unfold value; rewrite (proj1 VW1); reflexivity).
  assert (Q2 : qelem (el w) (weight_shape l) (oc :: c :: k) = value w (oc :: c :: k)) by (unfold value; rewrite (proj1 VW); reflexivity).
  rewrite Q1, Q2, AW3, !batch_norm_linear by (apply PR; exact Ic). unfold factor. ring.
Qed.
(** So it holds if no channel is both scaled and shifted. *)
Theorem C112_unscaled_partial : forall root (last : bool) l n base f w b s x xn col y0, legal l -> batch l = [n] -> parts l = 1 -> Forall (fun p => p = 0) (padding l) -> Forall (fun d => 0 <= d) (spacing l) ->
  conv_made base l (Some [output_channels l]) f -> valued w (weight_shape l) -> valued b [output_channels l] -> valued_stats s 1 (length (image_shape l)) (image_channels l) -> proper root s (image_channels l) ->
  (forall c, 0 <= c < image_channels l -> (channel (gamma s) c / root (channel (var s) c + eps s))%Qc = 1%Qc \/ batch_norm root s c 0 = 0%Qc) ->
  has_size x (size (image_shape l)) -> has_size xn (size (image_shape l)) -> has_size col (buffer l) -> has_size y0 (size (output_shape l)) ->
  (forall a c i, inside a (batch l) -> 0 <= c < image_channels l -> inside i (image l) -> qelem xn (image_shape l) (a ++ c :: i) = batch_norm root s c (qelem x (image_shape l) (a ++ c :: i))) ->
  exists w' b' y y', fold_layer_opposite root Convolution last w b s = Some (w', b') /\ conv_forward f xn (el w) (Some (el b)) col y0 = Some y /\ conv_forward f x (el w') (Some (el b')) col y0 = Some y' /\
  forall a oc o, inside a (batch l) -> 0 <= oc < output_channels l -> inside o (output l) -> qelem y' (output_shape l) (a ++ oc :: o) = qelem y (output_shape l) (a ++ oc :: o).
Proof.
  intros root last l n base f w b s x xn col y0 L B P1 PD SP M VW VB VS PR U LX LN LC LY HN.
  destruct (C112_difference_partial root last l n base f w b s x xn col y0 L B P1 PD SP M VW VB VS PR LX LN LC LY HN) as (w' & b' & y & y' & E & _ & _ & F & F' & V).
  exists w', b', y, y'. split; [exact E |]. split; [exact F |]. split; [exact F' |]. intros a oc o Ia Io Ioo. rewrite V by assumption. rewrite total_none; [ring |]. intros c Ic. apply in_range in Ic.
  apply total_none. intros k _. destruct (U c Ic) as [-> | ->]; ring.
Qed.
(** One pixel, scaled by 2 and shifted by 1: 1 * (2 * 3 + 1) = 7, but the folded layer gives 2 * 3 + 2 = 8. *)
Definition pixel : layer := {| batch := [1]; image_channels := 1; output_channels := 1; parts := 1; image := [1]; window := [1]; padding := [0]; steps := [1]; spacing := [1] |}.
Theorem C112_scaled_refuted : let s := stats_of [1; 1; 1] [1] [2] [0] [1] in
  exists f w' b', conv_setup 1 [0] [1] [1] 1 [1; 1; 1] [1; 1; 1] (Some [1]) = Some (f, [1; 1; 1]) /\ fold_layer_opposite id_root Convolution false (arr [1; 1; 1] [1]) (arr [1] [0]) s = Some (w', b') /\
  batch_norm id_root s 0 (q 3) = q 7 /\ show (conv_forward f (map q [7]) (map q [1]) (Some (map q [0])) (nines 1) (nines 1)) = qs [7] /\
  show (conv_forward f (map q [3]) (el w') (Some (el b')) (nines 1) (nines 1)) = qs [8].
Proof. eexists _, _, _. split; [reflexivity |]. split; [reflexivity |]. split; [apply Qc_is_canon; vm_compute; reflexivity |]. split; vm_compute; reflexivity. Qed.
(** Padding: the zeros around a normalized image are not normalized zeros.  One pixel, shifted by 1, a
    kernel of three ones and padding 1. *)
Theorem C112_padding_refuted : let s := stats_of [1; 1; 1] [1] [1] [0] [1] in
  exists f w' b', conv_setup 1 [1] [1] [1] 1 [1; 1; 1] [1; 1; 3] (Some [1]) = Some (f, [1; 1; 1]) /\ fold_layer_opposite id_root Convolution false (arr [1; 1; 3] [1; 1; 1]) (arr [1] [0]) s = Some (w', b') /\
  batch_norm id_root s 0 (q 3) = q 4 /\ show (conv_forward f (map q [4]) (map q [1; 1; 1]) (Some (map q [0])) (nines 3) (nines 1)) = qs [4] /\
  show (conv_forward f (map q [3]) (el w') (Some (el b')) (nines 3) (nines 1)) = qs [6].
Proof. eexists _, _, _. split; [reflexivity |]. split; [reflexivity |]. split; [apply Qc_is_canon; vm_compute; reflexivity |]. split; vm_compute; reflexivity. Qed.
(** The parameters for Deconvolution: the output channels are the second axis of the weights, or the
    last one; the normalized channels are the first. *)
Theorem C112_deconvolution_parameters : forall root (last : bool) w b s O C, let K := if last then (length (sh w) - 1)%nat else 1%nat in
  (1 < length (sh w))%nat -> nth_error (sh w) 0 = Some C -> nth_error (sh w) K = Some O -> Forall (fun n => 0 <= n) (sh w) ->
  valued_stats s K (length (sh w)) C -> proper root s C -> valued b [O] ->
  exists w' b', fold_layer_opposite root Deconvolution last w b s = Some (w', b') /\ sh w' = sh w /\ sh b' = sh b /\
  (forall i, inside i (sh w) -> value w' i = (channel (gamma s) (nth 0 i 0%Z) / root (channel (var s) (nth 0 i 0%Z) + eps s) * value w i)%Qc) /\
  forall o, 0 <= o < O -> channel b' o = (total (indices (sh w)) (fun i => if (nth K i 0%Z =? o)%Z then value w' i * batch_norm root s (nth 0 i 0%Z) 0 else 0) + channel b o)%Qc.
Proof.
  intros root last w b s O C K LW E0 EK P VS PR VB. destruct (opposite_deconv_ok root last w b s O C LW E0 EK P VS VB) as (w' & b' & E & VW & VB' & AW & AB). exists w', b'. split; [exact E |]. split; [apply VW |]. split; [rewrite (proj1 VB), (proj1 VB'); reflexivity |].
  split; [exact AW |]. intros o I. rewrite AB by exact I. f_equal. apply PoolProofs3.total_ext. intros i Ii. apply NdProofs.indices_in in Ii. fold K. destruct (nth K i 0%Z =? o)%Z; [| reflexivity]. rewrite batch_norm_linear by (apply PR; exact (nth_inside 0 i _ _ Ii E0)). ring.
Qed.
(** With a kernel of two ones every output pixel gets the shift once, but the folded bias has it twice. *)
Theorem C112_deconvolution_refuted : let s := stats_of [1; 1; 1] [1] [1] [0] [1] in
  exists f w' b', deconv_setup 1 [0] [1] [1] 1 [0] [1; 1; 1] [1; 1; 2] (Some [1]) = Some (f, [1; 1; 2]) /\ fold_layer_opposite id_root Deconvolution false (arr [1; 1; 2] [1; 1]) (arr [1] [0]) s = Some (w', b') /\
  batch_norm id_root s 0 (q 3) = q 4 /\ show (deconv_forward f (map q [4]) (map q [1; 1]) (Some (map q [0])) (nines 2) (nines 2)) = qs [4; 4] /\
  show (deconv_forward f (map q [3]) (el w') (Some (el b')) (nines 2) (nines 2)) = qs [5; 5].
Proof. eexists _, _, _. split; [reflexivity |]. split; [reflexivity |]. split; [apply Qc_is_canon; vm_compute; reflexivity |]. split; vm_compute; reflexivity. Qed.
(** Affine: never. *)
Theorem C112_affine_refuted : forall root (last : bool) w b s, fold_layer_opposite root Affine last w b s = None.
Proof.
  intros root last w b s. unfold fold_layer_opposite, folded_opposite. destruct (reshape_bn_opposite Affine last s) as [s' |]; [| reflexivity]. cbn [obind]. destruct (scale_shift root s') as [c |]; reflexivity.
Qed.
Example C112_runs : showp (fold_layer_opposite id_root Convolution false (arr [3; 2; 1; 1] [1; 2; 3; 4; 5; 6]) (arr [3] [100; 200; 300]) (stats_of [1; 2; 1; 1] [10; 20] [1; 2] [1; 10] [1; 1])) =
    Some ([3; 2; 1; 1], map inject_Z [1; 4; 3; 8; 5; 12], [3], map inject_Z [109; 227; 345]) /\
  showp (fold_layer_opposite id_root Deconvolution false (arr [2; 3; 1; 1] [1; 2; 3; 4; 5; 6]) (arr [3] [100; 200; 300]) (stats_of [1; 2; 1; 1] [10; 20] [1; 2] [1; 10] [1; 1])) =
    Some ([2; 3; 1; 1], map inject_Z [1; 2; 3; 8; 10; 12], [3], map inject_Z [109; 218; 327]) /\
  showp (fold_layer_opposite id_root Deconvolution true (arr [2; 1; 1; 3] [1; 2; 3; 4; 5; 6]) (arr [3] [100; 200; 300]) (stats_of [1; 1; 1; 2] [10; 20] [1; 2] [1; 10] [1; 1])) =
    Some ([2; 1; 1; 3], map inject_Z [1; 2; 3; 8; 10; 12], [3], map inject_Z [109; 218; 327]).
Proof. vm_compute. repeat split. Qed.

(** * C113: self folding *)
(** c0 * x + c1 is the batch normalization of x, for every shape of the parameters that is broadcast to
    that of x: here one axis [k], of extent [C]. *)
Theorem C113_self_folding : forall root s X k C x y0 z0, Forall (fun n => 0 < n) X -> nth_error X k = Some C -> valued_stats s k (length X) C -> proper root s C ->
  has_size x (size X) -> has_size y0 (size X) -> has_size z0 (size X) ->
  exists c0 c1 f g y z, self_folded root s = Some (c0, c1) /\ sh c0 = sh (beta s) /\ sh c1 = sh (beta s) /\
  bin_setup (sh c0) X = Some f /\ b_out f = X /\ bin_forward mul_op f (el c0) x y0 = Some y /\ bin_setup X (sh c1) = Some g /\ b_out g = X /\ bin_forward add_op g y (el c1) z0 = Some z /\
  forall i, inside i X -> qelem z X i = batch_norm root s (nth k i 0%Z) (qelem x X i).
Proof.
  intros root s X k C x y0 z0 PX EK (VB & VG & VM & VV) PR LX LY LZ.
  assert (SX : sizes X) by (eapply Forall_impl; [| exact PX]; cbn; lia). assert (PC : 0 < C) by (apply (proj1 (Forall_forall _ _) PX); eapply nth_error_In; exact EK).
  assert (K : (k < length X)%nat) by (apply nth_error_Some; congruence). pose proof (stat_fits k X C EK) as FT.
  assert (J : joined (stat_shape k (length X) C) X X /\ joined X (stat_shape k (length X) C) X /\ unmixed (stat_shape k (length X) C) X /\ unmixed X (stat_shape k (length X) C)).
  { revert FT PX. generalize (stat_shape k (length X) C) as S. clear. intros S FT. induction FT as [| m n S X H F IH]; intros P; [repeat split; constructor |]. inversion P as [| ? ? P0 P1]; subst. destruct (IH P1) as (J1 & J2 & U1 & U2).
    repeat split; try (constructor; [| assumption]; split; lia); destruct H as [-> | ->]; constructor; assumption. }
  destruct J as (J1 & J2 & U1 & U2). destruct (self_folded_ok root s (stat_shape k (length X) C)) as (c0 & c1 & E & V0 & V1 & A); try assumption; [apply stat_nonneg; lia |]. rewrite stat_size in A by exact K.
  destruct (proj2 (C67_accepted (stat_shape k (length X) C) X X) (conj J1 U1)) as (f & SF & OF). destruct (proj2 (C67_accepted X (stat_shape k (length X) C) X) (conj J2 U2)) as (g & SG & OG).
  destruct (C67_values _ _ _ f mul_op (el c0) x y0 SF J1 SX (proj2 V0) LX LY) as (y & FY & Ly & Vy). destruct (C67_values _ _ _ g add_op y (el c1) z0 SG J2 SX Ly (proj2 V1) LZ) as (z & FZ & _ & Vz).
  exists c0, c1, f, g, y, z. split; [exact E |]. rewrite (proj1 V0), (proj1 V1), (proj1 VB). split; [reflexivity |]. split; [reflexivity |]. split; [exact SF |]. split; [exact OF |]. split; [exact FY |]. split; [exact SG |]. split; [exact OG |]. split; [exact FZ |].
  intros i I. pose proof (nth_inside k i X C I EK) as B. rewrite Vz by exact I.
  assert (PS : forall S, joined S X X -> forall j, picked S j = pick S j) by (intros S0 _; induction S0 as [| m S0 IH]; intros [| j js]; cbn [picked pick]; try reflexivity; rewrite IH; reflexivity).
  assert (PI : picked X i = i) by (clear - I; induction I as [| j m i X H F IH]; cbn [picked]; [reflexivity |]; rewrite IH; destruct (Z.eqb_spec m 1); f_equal; lia).
  assert (PU : picked (stat_shape k (length X) C) i = unit_index k (length X) (nth k i 0)) by (rewrite (PS _ J1); apply pick_stat; [apply inside_length; exact I | lia]).
  rewrite PI, Vy, PI, PU by exact I.
  assert (Q : forall a : nd, valued a (stat_shape k (length X) C) -> qelem (el a) (stat_shape k (length X) C) (unit_index k (length X) (nth k i 0)) = channel a (nth k i 0)).
  { intros a (Ea & _). rewrite <- (unit_at a k (length X) C) by assumption. rewrite at_value by (rewrite Ea; apply unit_inside; exact B). unfold value. rewrite Ea. reflexivity. }
  rewrite (Q c0 V0), (Q c1 V1). destruct (A _ B) as [-> ->]. rewrite batch_norm_linear by (apply PR; exact B). reflexivity.
Qed.
Example C113_runs : showp (self_folded id_root (stats_of [1; 2; 1; 1] [10; 20] [2; 6] [1; 2] [1; 2])) = Some ([1; 2; 1; 1], map inject_Z [2; 3], [1; 2; 1; 1], map inject_Z [8; 14]) /\
  showp (self_folded id_root (stats_of [1; 1; 1] [10] [2] [1] [1])) = Some ([1; 1; 1], [inject_Z 2], [1; 1; 1], [inject_Z 8]).
Proof. vm_compute. repeat split. Qed.

Print Assumptions C110_convolution_parameters.
Print Assumptions C110_convolution_partial.
Print Assumptions C110_no_bias_partial.
Print Assumptions C110_deconvolution_partial.
Print Assumptions C110_one_channel_refuted.
Print Assumptions C110_one_channel_never.
Print Assumptions C110_batch_axes_refuted.
Print Assumptions C110_groups_refuted.
Print Assumptions C110_deconvolution_bias_refuted.
Print Assumptions C111_accepted.
Print Assumptions C111_rows.
Print Assumptions C111_uniform_partial.
Print Assumptions C111_affine_refuted.
Print Assumptions C111_shape_refuted.
Print Assumptions C112_difference_partial.
Print Assumptions C112_unscaled_partial.
Print Assumptions C112_scaled_refuted.
Print Assumptions C112_padding_refuted.
Print Assumptions C112_affine_refuted.
Print Assumptions C113_self_folding.
Print Assumptions C112_deconvolution_parameters.
