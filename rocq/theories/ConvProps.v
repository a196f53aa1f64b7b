(** Convolution (C52) and Deconvolution (C53). *)
From Coq Require Import List ZArith Lia Bool QArith Qcanon.
From Verif Require Import NdSpec NdProofs IdxModel IdxSpec IdxProofs6 JoinModel JoinSpec ScanModel ScanSpec ReduceSpec ConvModel ConvSpec ConvProofs7 ConvProofs8.
Import ListNotations.
Local Open Scope list_scope.
Local Open Scope Z_scope.

(** * C52 *)
Definition bias_shape (bias : option (list Z)) (n : Z) : Prop := match bias with Some b => b = [n] | None => True end.
Definition conv_made (base : Z) (l : layer) (bias : option (list Z)) (f : conv) : Prop :=
  denotes base (length (batch l)) (length (image_shape l)) /\ bias_shape bias (output_channels l) /\
  conv_setup base (padding l) (steps l) (spacing l) (parts l) (image_shape l) (weight_shape l) bias = Some (f, output_shape l).

(** Every layer whose kernel fits into the padded image is accepted, with the documented
    shape of the output. *)
Theorem C52_setup : forall l, legal l -> forall base bias, denotes base (length (batch l)) (length (image_shape l)) -> bias_shape bias (output_channels l) ->
  exists f, conv_setup base (padding l) (steps l) (spacing l) (parts l) (image_shape l) (weight_shape l) bias = Some (f, output_shape l).
Proof. intros l L base bias D B. eexists. apply (conv_setup_ok l L); auto. Qed.

(** What is accepted. *)
Theorem C52_accepted_partial : forall base pad stride dilation group data weights bias f out,
  conv_setup base pad stride dilation group data weights bias = Some (f, out) ->
  exists batch ci image co cg kernel o, data = batch ++ ci :: image /\ weights = co :: cg :: kernel /\ denotes base (length batch) (length data) /\
    image <> [] /\ length kernel = length image /\ length pad = length image /\ length stride = length image /\ length dilation = length image /\
    group <> 0 /\ ci = group * cg /\ (group | co) /\ co <> 0 /\ bias_shape bias co /\ Forall (fun n => 0 < n) o /\ length o = length image /\ out = batch ++ co :: o.
Proof.
  intros base pad stride dilation group data weights bias f out. unfold conv_setup, refine_axis.
  destruct (Z.ltb_spec base (Z.of_nat (length data))), (Z.leb_spec (- Z.of_nat (length data)) base); cbn [andb obind]; try discriminate.
  set (b := if base <? 0 then Z.of_nat (length data) + base else base).
  assert (B : 0 <= b < Z.of_nat (length data)) by (unfold b; destruct (Z.ltb_spec base 0); lia).
  assert (DN : denotes base (Z.to_nat b) (length data)) by (unfold denotes, b; destruct (Z.ltb_spec base 0); lia).
  destruct (Z.leb_spec (Z.of_nat (length data) - 1) b); [discriminate|].
  destruct (Nat.eqb_spec (length weights) (2 + (length data - Z.to_nat b - 1))) as [LW|]; [|discriminate]. cbn [negb].
  destruct (skipn (Z.to_nat b) data) as [|ci image] eqn:ES; [discriminate|]. destruct weights as [|co [|cg kernel]]; try discriminate.
  destruct (Z.eqb_spec group 0) as [|G0]; [discriminate|].
  destruct (Z.eqb_spec (Z.rem ci group) 0) as [R1|]; [|discriminate]. destruct (Z.eqb_spec (Z.rem co group) 0) as [R2|]; [|discriminate]. destruct (Z.eqb_spec (Z.quot ci group) cg) as [R3|]; [|discriminate]. cbn [negb].
  unfold conv_shape. destruct (outmap image kernel pad stride dilation) as [o|] eqn:EO; [|discriminate]. cbn [obind].
  destruct (forallb (fun n => 0 <? n) o) eqn:EP; [|discriminate]. cbn [obind].
  destruct (match bias with None => true | Some b0 => if list_eq_dec Z.eq_dec b0 [co] then true else false end) eqn:EB; [|discriminate]. cbn [negb].
  destruct (Z.eqb_spec co 0) as [|C0]; [discriminate|]. intros H2. assert (H3 := f_equal (fun r => match r with Some p => snd p | None => out end) H2). cbn [snd] in H3. clear H2. rename H3 into H2.
  assert (LO : forall i k p s d o, outmap i k p s d = Some o -> length k = length i /\ length p = length i /\ length s = length i /\ length d = length i /\ length o = length i).
  { clear. induction i as [|n i IH]; intros [|k0 k] [|p0 p] [|s0 s] [|d0 d] o; cbn [outmap]; try discriminate.
    - intros [= <-]. auto.
    - destruct (extent n p0 k0 s0 d0) as [e|]; [|discriminate]. cbn [obind]. destruct (outmap i k p s d) as [os|] eqn:E; [|discriminate]. intros [= <-].
      destruct (IH _ _ _ _ _ E) as (A & B & C & D & F). cbn [length]. lia. }
  destruct (LO _ _ _ _ _ _ EO) as (L1 & L2 & L3 & L4 & L5).
  pose proof (firstn_skipn (Z.to_nat b) data) as FS. rewrite ES in FS.
  assert (LF : length (firstn (Z.to_nat b) data) = Z.to_nat b) by (apply firstn_length_le; lia).
  exists (firstn (Z.to_nat b) data), ci, image, co, cg, kernel, o. rewrite LF.
  split; [auto|]. split; [reflexivity|]. split; [exact DN|]. split.
  { intros ->. assert (length data = (Z.to_nat b + 1)%nat) by (rewrite <- FS, app_length, LF; reflexivity). lia. }
  split; [auto|]. split; [auto|]. split; [auto|]. split; [auto|]. split; [auto|]. split.
  { rewrite <- R3. pose proof (Z.quot_rem ci group G0). lia. }
  split; [apply Z.rem_divide; auto|]. split; [auto|]. split.
  { unfold bias_shape. destruct bias as [b0|]; [|auto]. destruct (list_eq_dec Z.eq_dec b0 [co]); [auto|discriminate]. }
  split; [|split; [exact L5|auto]]. apply Forall_forall. rewrite forallb_forall in EP. intros n Hn. specialize (EP n Hn). lia.
Qed.

(** The forward pass is the cross-correlation of the padded image with the weights, plus the
    bias, whatever is in the buffers. *)
Theorem C52_forward_partial : forall l base bias f, legal l -> conv_made base l bias f -> forall x w b col y0,
  has_size x (size (image_shape l)) -> has_size w (size (weight_shape l)) -> bias_size b (output_channels l) -> has_size col (buffer l) -> has_size y0 (size (output_shape l)) ->
  exists y, conv_forward f x w b col y0 = Some y /\ length y = length y0 /\
  forall a oc o, inside a (batch l) -> 0 <= oc < output_channels l -> inside o (output l) ->
    qelem y (output_shape l) (a ++ oc :: o) = (correlation l x w a oc o + bias_of b oc)%Qc.
Proof.
  intros l base bias f L (D & B & M). rewrite (conv_setup_ok l L) in M by auto. injection M as <-. intros. apply forward_layer; auto.
Qed.

(** The gradients of image and weights are the adjoints of the forward pass in each of them;
    the gradient of the bias sums over batch and positions; all of them are added to the
    previous gradient if asked for, and computed only if asked for. *)
Theorem C52_backward_partial : forall l base bias f, legal l -> conv_made base l bias f -> forall x w dy col gx gw gb,
  has_size x (size (image_shape l)) -> has_size w (size (weight_shape l)) -> has_size dy (size (output_shape l)) -> has_size col (buffer l) ->
  grad_size gx (size (image_shape l)) -> grad_size gw (size (weight_shape l)) -> grad_size gb (output_channels l) ->
  exists dx dw db, conv_backward f x w dy col gx gw gb = Some (dx, dw, db) /\
  (forall col y0, has_size col (buffer l) -> has_size y0 (size (output_shape l)) ->
    adjoint gx dx dy (fun u => conv_forward f u w None col y0) /\ adjoint gw dw dy (fun u => conv_forward f x u None col y0)) /\
  each gb db (output_channels l) (fun oc => total (indices (batch l)) (fun a => total (indices (output l)) (fun o => qelem dy (output_shape l) (a ++ oc :: o)))).
Proof.
  intros l base bias f L (D & B & M). rewrite (conv_setup_ok l L) in M by auto. injection M as <-. intros. apply backward_layer; auto.
Qed.

Definition q (z : Z) : Qc := Q2Qc (inject_Z z).
Definition show (o : option (list Qc)) : option (list Q) := option_map (map this) o.
Definition show3 (o : option (option (list Qc) * option (list Qc) * option (list Qc))) := option_map (fun '(a, b, c) => (show a, show b, show c)) o.
Definition qs (l : list Z) : option (list Q) := Some (map inject_Z l).
Definition nines (n : nat) : list Qc := repeat (q 9) n.
(** Two groups, with padding, stride and dilation. *)
Definition ex_layer : layer := {| batch := [2]; image_channels := 2; output_channels := 4; parts := 2; image := [4]; window := [2]; padding := [1]; steps := [2]; spacing := [2] |}.
Example C52_setup_ex : legal ex_layer /\ output_shape ex_layer = [2; 4; 2] /\ exists f, conv_made 1 ex_layer (Some [4]) f /\ conv_made (-2) ex_layer None f.
Proof.
  split; [|split; [reflexivity|]].
  - constructor; cbn; try (repeat constructor; lia); try lia; try discriminate; [exists 1|exists 2]; reflexivity.
  - eexists. split; (split; [unfold denotes; cbn; lia|split; [reflexivity || exact I|reflexivity]]).
Qed.
Definition ex_x : list Qc := map q [1; 2; 3; 4;  5; 6; 7; 8;  1; 0; 0; 0;  0; 0; 0; 1].
Definition ex_w : list Qc := map q [1; 10;  100; 1000;  1; 10;  100; 1000].
Definition with_ex {A} (k : conv -> option A) : option A := obind (conv_setup 1 [1] [2] [2] 2 [2; 2; 4] [4; 1; 2] (Some [4])) (fun '(f, _) => k f).
Example C52_forward_ex : show (with_ex (fun f => conv_forward f ex_x ex_w (Some (map q [0; 0; 0; 7])) (nines 8) (nines 16))) =
  qs [20; 42; 2000; 4200; 60; 86; 6007; 8607;  0; 0; 0; 0; 0; 10; 7; 1007].
Proof. vm_compute. reflexivity. Qed.
Definition ex_dy : list Qc := map q [1; 2; 3; 4; 5; 6; 7; 8;  1; 1; 1; 1; 1; 1; 1; 1].
Example C52_backward_ex :
  show3 (with_ex (fun f => conv_backward f ex_x ex_w ex_dy (nines 8) (Some (true, nines 16)) (Some (false, nines 8)) (Some (true, nines 4)))) =
    Some (qs [9; 3421; 9; 4029; 9; 7865; 9; 8069;  9; 1120; 9; 1019; 9; 1120; 9; 1019], qs [4; 10; 8; 22; 36; 79; 48; 107], qs [14; 18; 22; 26]) /\
  show3 (with_ex (fun f => conv_backward f ex_x ex_w ex_dy (nines 8) None (Some (true, nines 8)) None)) =
    Some (None, qs [13; 19; 17; 31; 45; 88; 57; 116], None).
Proof. split; vm_compute; reflexivity. Qed.
Example C52_accepted_ex : exists f, conv_setup (-2) [1] [2] [2] 2 [2; 2; 4] [4; 1; 2] (Some [4]) = Some (f, [2; 4; 2]) /\ conv_setup 1 [1] [2] [2] 2 [2; 2; 4] [4; 2; 2] None = None /\ conv_setup 1 [1] [2] [2] 2 [2; 2; 4] [3; 1; 2] None = None /\ conv_setup 1 [1] [2] [2] 2 [2; 2; 4] [4; 1; 2] (Some [2]) = None /\ conv_setup 1 [0] [1] [3] 1 [1; 1; 3] [1; 1; 2] None = None.
Proof. eexists. repeat split; reflexivity. Qed.

(** The kernel need not fit: the division truncates towards zero, so a padded image that is
    less than one stride too small is taken to have one position, where the kernel sticks out
    beyond the padding. *)
Theorem C52_fits_refuted : exists f, conv_setup 1 [0] [3] [1] 1 [1; 1; 1] [1; 1; 3] None = Some (f, [1; 1; 1]) /\ ~ fitting [1] [3] [0] [3] [1] /\ positions [1] [3] [0] [3] [1] = [0] /\ show (conv_forward f (map q [5]) (map q [1; 1; 1]) None (nines 3) (nines 1)) = qs [5].
Proof. eexists. split; [reflexivity|]. split; [cbn; lia|]. split; [reflexivity|]. vm_compute. reflexivity. Qed.
(** No output channels: setup divides by their number. *)
Theorem C52_no_channels_refuted : conv_setup 1 [0] [1] [1] 1 [1; 1; 3] [0; 1; 3] None = None.
Proof. reflexivity. Qed.

(** * C53 *)
Record deconvolution := { d_batch : list Z; d_channels : Z; d_groups : Z; d_per_group : Z; d_shape : list Z; d_kernel : list Z;
  d_padding : list Z; d_steps : list Z; d_spacing : list Z; d_extra : list Z }.
Definition layer_of (d : deconvolution) : layer :=
  transposed (d_batch d) (d_channels d) (d_groups d) (d_per_group d) (d_shape d) (d_kernel d) (d_padding d) (d_steps d) (d_spacing d) (d_extra d).
Definition sound (d : deconvolution) : Prop :=
  sizes (d_batch d) /\ sizes (d_kernel d) /\ d_shape d <> [] /\ 0 < d_groups d /\ 0 < d_per_group d /\ 0 < d_channels d /\ (d_groups d | d_channels d) /\
  stretching (d_shape d) (d_kernel d) (d_padding d) (d_steps d) (d_spacing d) (d_extra d).
Definition input_shape (d : deconvolution) : list Z := d_batch d ++ d_channels d :: d_shape d.
Definition kernel_shape (d : deconvolution) : list Z := d_channels d :: d_per_group d :: d_kernel d.
(** The output padding is given, or not given and zero. *)
Definition extra_given (d : deconvolution) (e : list Z) : Prop := e = d_extra d \/ (e = [] /\ d_extra d = map (fun _ => 0) (d_shape d)).
Definition deconv_made (base : Z) (d : deconvolution) (e : list Z) (bias : option (list Z)) (f : conv) : Prop :=
  denotes base (length (d_batch d)) (length (input_shape d)) /\ extra_given d e /\ bias_shape bias (d_per_group d * d_groups d) /\
  deconv_setup base (d_padding d) (d_steps d) (d_spacing d) (d_groups d) e (input_shape d) (kernel_shape d) bias = Some (f, image_shape (layer_of d)).

(** The output has the documented shape, and a convolution takes it back to the shape of the
    input. *)
Theorem C53_setup : forall d, sound d -> forall base e bias, denotes base (length (d_batch d)) (length (input_shape d)) -> extra_given d e -> bias_shape bias (d_per_group d * d_groups d) ->
  (exists f, deconv_setup base (d_padding d) (d_steps d) (d_spacing d) (d_groups d) e (input_shape d) (kernel_shape d) bias =
    Some (f, d_batch d ++ d_per_group d * d_groups d :: enlarged (d_shape d) (d_kernel d) (d_padding d) (d_steps d) (d_spacing d) (d_extra d))) /\
  legal (layer_of d) /\ output_shape (layer_of d) = input_shape d /\ weight_shape (layer_of d) = kernel_shape d /\
  (forall base', denotes base' (length (d_batch d)) (length (input_shape d)) ->
    option_map snd (conv_setup base' (d_padding d) (d_steps d) (d_spacing d) (d_groups d) (image_shape (layer_of d)) (kernel_shape d) None) = Some (input_shape d)).
Proof.
  intros d (H1 & H2 & H3 & H4 & H5 & H6 & H7 & H8) base e bias D E B. split; [|].
  { eexists. apply (deconv_setup_ok (d_batch d) (d_channels d) (d_groups d) (d_per_group d) (d_shape d) (d_kernel d) (d_padding d) (d_steps d) (d_spacing d) (d_extra d)); auto. }
  destruct (transposed_legal (d_batch d) (d_channels d) (d_groups d) (d_per_group d) (d_shape d) (d_kernel d) (d_padding d) (d_steps d) (d_spacing d) (d_extra d)) as (L & EO & EC); auto.
  fold (layer_of d) in L, EO, EC. assert (O1 : output_shape (layer_of d) = input_shape d) by (unfold output_shape; rewrite EO; reflexivity).
  assert (W1 : weight_shape (layer_of d) = kernel_shape d) by (unfold weight_shape; rewrite EC; reflexivity).
  split; [exact L|]. split; [exact O1|]. split; [exact W1|]. intros base' D'.
  assert (S := conv_setup_ok (layer_of d) L base' None). cbn [layer_of transposed padding steps spacing parts batch] in S. rewrite W1 in S. rewrite S; [cbn [option_map snd]; rewrite O1; reflexivity| |exact I].
  assert (LS : length (image_shape (layer_of d)) = length (input_shape d)).
  { rewrite <- O1. unfold image_shape, output_shape. rewrite !app_length. cbn [length]. rewrite EO. do 2 f_equal. pose proof (fitting_length _ _ _ _ _ (g_fits _ L)) as F.
    destruct (enlarged_ok _ _ _ _ _ _ H8) as (_ & _ & _ & _ & E5). cbn [layer_of transposed window] in F. congruence. }
  rewrite LS. exact D'.
Qed.

(** The forward pass is the transposed map of the convolution with these weights, plus the
    bias. *)
Theorem C53_forward_partial : forall d base e bias f, sound d -> deconv_made base d e bias f -> forall y w b col x0,
  let l := layer_of d in
  has_size y (size (input_shape d)) -> has_size w (size (kernel_shape d)) -> bias_size b (image_channels l) -> has_size col (buffer l) -> has_size x0 (size (image_shape l)) ->
  exists x, deconv_forward f y w b col x0 = Some x /\ length x = length x0 /\
  forall a c i, inside a (batch l) -> 0 <= c < image_channels l -> inside i (image l) ->
    qelem x (image_shape l) (a ++ c :: i) = (scattered l y w a c i + bias_of b c)%Qc.
Proof.
  intros d base e bias f S (D & E & B & M) y w b col x0 l Hy Hw Hb Hc Hx. destruct (C53_setup d S base e bias D E B) as (_ & L & O1 & W1 & _).
  destruct S as (H1 & H2 & H3 & H4 & H5 & H6 & H7 & H8). unfold input_shape, kernel_shape in M. rewrite deconv_setup_ok with (E := d_extra d) in M by auto. injection M as <-.
  rewrite <- O1 in Hy. rewrite <- W1 in Hw. apply (deconv_forward_layer l L); auto.
  unfold l, layer_of. destruct (transposed_legal (d_batch d) (d_channels d) (d_groups d) (d_per_group d) (d_shape d) (d_kernel d) (d_padding d) (d_steps d) (d_spacing d) (d_extra d)) as (_ & _ & EC); auto. rewrite EC. auto.
Qed.

Theorem C53_backward_partial : forall d base e bias f, sound d -> deconv_made base d e bias f -> forall y w dx col gy gw gb,
  let l := layer_of d in
  has_size y (size (input_shape d)) -> has_size w (size (kernel_shape d)) -> has_size dx (size (image_shape l)) -> has_size col (buffer l) ->
  grad_size gy (size (input_shape d)) -> grad_size gw (size (kernel_shape d)) -> grad_size gb (image_channels l) ->
  exists dy dw db, deconv_backward f y w dx col gy gw gb = Some (dy, dw, db) /\
  (forall col x0, has_size col (buffer l) -> has_size x0 (size (image_shape l)) ->
    adjoint gy dy dx (fun u => deconv_forward f u w None col x0) /\ adjoint gw dw dx (fun u => deconv_forward f y u None col x0)) /\
  each gb db (image_channels l) (fun c => total (indices (batch l)) (fun a => total (indices (image l)) (fun i => qelem dx (image_shape l) (a ++ c :: i)))).
Proof.
  intros d base e bias f S (D & E & B & M) y w dx col gy gw gb l Hy Hw Hd Hc Gy Gw Gb. destruct (C53_setup d S base e bias D E B) as (_ & L & O1 & W1 & _).
  destruct S as (H1 & H2 & H3 & H4 & H5 & H6 & H7 & H8). unfold input_shape, kernel_shape in M. rewrite deconv_setup_ok with (E := d_extra d) in M by auto. injection M as <-.
  rewrite <- O1 in Hy, Gy. rewrite <- W1 in Hw, Gw. apply (deconv_backward_layer l L); auto.
  unfold l, layer_of. destruct (transposed_legal (d_batch d) (d_channels d) (d_groups d) (d_per_group d) (d_shape d) (d_kernel d) (d_padding d) (d_steps d) (d_spacing d) (d_extra d)) as (_ & _ & EC); auto. rewrite EC. auto.
Qed.

(** Deconvolution and convolution with the same weights are adjoint to each other. *)
Theorem C53_transposed : forall d base e f base' f', sound d -> deconv_made base d e None f -> conv_made base' (layer_of d) None f' -> f = f'.
Proof.
  intros d base e f base' f' S (D & E & B & M) (D' & B' & M'). destruct (C53_setup d S base e None D E B) as (_ & L & O1 & W1 & _).
  rewrite (conv_setup_ok _ L) in M' by auto. injection M' as <-.
  destruct S as (H1 & H2 & H3 & H4 & H5 & H6 & H7 & H8). unfold input_shape, kernel_shape in M. rewrite deconv_setup_ok with (E := d_extra d) in M by auto. injection M as <-. reflexivity.
Qed.

Definition ex_deconv : deconvolution := {| d_batch := [1]; d_channels := 2; d_groups := 2; d_per_group := 1; d_shape := [2]; d_kernel := [2]; d_padding := [1]; d_steps := [2]; d_spacing := [2]; d_extra := [1] |}.
Example C53_setup_ex : sound ex_deconv /\ exists f, deconv_made 1 ex_deconv [1] (Some [2]) f /\ image_shape (layer_of ex_deconv) = [1; 2; 4].
Proof.
  split; [repeat split; cbn; try (repeat constructor; lia); try lia; try discriminate; exists 1; reflexivity|].
  eexists. split; [|reflexivity]. split; [unfold denotes; cbn; lia|]. split; [left; reflexivity|]. split; reflexivity.
Qed.
Definition with_de {A} (k : conv -> option A) : option A := obind (deconv_setup (-2) [1] [2] [2] 2 [1] [1; 2; 2] [2; 1; 2] (Some [2])) (fun '(f, _) => k f).
Example C53_forward_ex : show (with_de (fun f => deconv_forward f (map q [1; 2; 3; 4]) (map q [1; 10; 100; 1000]) (Some (map q [0; 7])) (nines 8) (nines 8))) = qs [0; 12; 0; 20; 7; 3407; 7; 4007].
Proof. vm_compute. reflexivity. Qed.
Example C53_backward_ex : show3 (with_de (fun f => deconv_backward f (map q [1; 2; 3; 4]) (map q [1; 10; 100; 1000]) (map q [1; 2; 3; 4; 5; 6; 7; 8]) (nines 8) (Some (true, nines 4)) (Some (false, nines 4)) (Some (true, nines 2)))) =
  Some (qs [29; 51; 6009; 8609], qs [4; 10; 24; 50], qs [19; 35]).
Proof. vm_compute. reflexivity. Qed.

Definition run_de (pad stride extra data weights : list Z) (y w : list Z) (cols size : nat) : option (list Z * option (list Q)) :=
  obind (deconv_setup 1 pad stride (map (fun _ => 1) pad) 1 extra data weights None) (fun '(f, s) => Some (s, show (deconv_forward f (map q y) (map q w) None (nines cols) (nines size)))).
(** The number of channels of the input is not compared with that of the weights: with too
    few the input is read beyond its end, and with too many the samples are taken from wrong
    places (the second one should be computed from 7, 8, 9, 10). *)
Theorem C53_channels_refuted : run_de [0] [1] [] [1; 1; 2] [2; 1; 1] [1; 2] [1; 10] 2 2 = Some ([1; 1; 2], None) /\
  run_de [0] [1] [] [2; 3; 2] [2; 1; 1] [1; 2; 3; 4; 5; 6; 7; 8; 9; 10; 11; 12] [1; 10] 2 4 = Some ([2; 1; 2], qs [31; 42; 75; 86]).
Proof. split; vm_compute; reflexivity. Qed.
(** A negative output padding is accepted, but the patches are then folded as if the input
    were smaller: the output should be 1, 10, 2. *)
Theorem C53_negative_refuted : run_de [0] [2] [-1] [1; 1; 2] [1; 1; 2] [1; 2] [1; 10] 4 3 = Some ([1; 1; 3], qs [1; 2; 0]) /\
  run_de [0] [2] [0] [1; 1; 2] [1; 1; 2] [1; 2] [1; 10] 4 4 = Some ([1; 1; 4], qs [1; 10; 2; 20]).
Proof. split; vm_compute; reflexivity. Qed.
(** An input without positions is accepted when the output padding makes up for it; the
    buffer is then read beyond its end. *)
Theorem C53_empty_refuted : run_de [0] [3] [2] [1; 1; 0] [1; 1; 3] [] [1; 10; 100] 0 2 = Some ([1; 1; 2], None).
Proof. vm_compute. reflexivity. Qed.

(** What is accepted: the output padding is below the stride, groups divide the channels of the
    weights, and the bias fits the output. *)
Theorem C53_accepted_partial : forall base pad stride dilation group extra data weights bias f out,
  deconv_setup base pad stride dilation group extra data weights bias = Some (f, out) ->
  exists batch c shape co cg kernel e image, data = batch ++ c :: shape /\ weights = co :: cg :: kernel /\ denotes base (length batch) (length data) /\
    shape <> [] /\ length kernel = length shape /\ length pad = length shape /\ length stride = length shape /\ length dilation = length shape /\
    e = match extra with [] => map (fun _ => 0) shape | _ => extra end /\ Forall2 (fun e s => e < s) e stride /\
    group <> 0 /\ (group | co) /\ co <> 0 /\ bias_shape bias (cg * group) /\ image = enlarged shape kernel pad stride dilation e /\ Forall (fun n => 0 < n) image /\ out = batch ++ cg * group :: image.
Proof.
  intros base pad stride dilation group extra data weights bias f out. unfold deconv_setup, refine_axis.
  destruct (Z.ltb_spec base (Z.of_nat (length data))), (Z.leb_spec (- Z.of_nat (length data)) base); cbn [andb obind]; try discriminate.
  set (b := if base <? 0 then Z.of_nat (length data) + base else base).
  assert (B : 0 <= b < Z.of_nat (length data)) by (unfold b; destruct (Z.ltb_spec base 0); lia).
  assert (DN : denotes base (Z.to_nat b) (length data)) by (unfold denotes, b; destruct (Z.ltb_spec base 0); lia).
  destruct (Z.leb_spec (Z.of_nat (length data)) (b + 1)); [discriminate |].
  destruct (Nat.eqb_spec (length weights) (2 + (length data - Z.to_nat b - 1))) as [LW |]; [| discriminate]. cbn [negb].
  destruct (skipn (Z.to_nat b) data) as [| c shape] eqn:ES; [discriminate |]. destruct weights as [| co [| cg kernel]]; try discriminate.
  destruct (Z.eqb_spec group 0) as [| G0]; [discriminate |].
  destruct (Z.eqb_spec (Z.rem (cg * group) group) 0) as [R1 |]; [| discriminate]. destruct (Z.eqb_spec (Z.rem co group) 0) as [R2 |]; [| discriminate]. destruct (Z.eqb_spec (Z.quot (cg * group) group) cg) as [R3 |]; [| discriminate]. cbn [negb].
  set (e := match extra with [] => map (fun _ => 0) shape | _ => extra end).
  destruct (deconv_shape shape kernel pad stride dilation e) as [o |] eqn:EO; [| discriminate]. cbn [obind].
  destruct (match bias with None => true | Some b0 => if list_eq_dec Z.eq_dec b0 [cg * group] then true else false end) eqn:EB; [| discriminate]. cbn [negb].
  destruct (Z.eqb_spec co 0) as [| C0]; [discriminate |]. intros H2. assert (H3 := f_equal (fun r => match r with Some p => snd p | None => out end) H2). cbn [snd] in H3. clear H2. rename H3 into H2.
  assert (LO : forall i k p s d e o, deconv_shape i k p s d e = Some o -> length k = length i /\ length p = length i /\ length s = length i /\ length d = length i /\
    Forall2 (fun e s => e < s) e s /\ o = enlarged i k p s d e /\ Forall (fun n => 0 < n) o).
  { clear. induction i as [| n i IH]; intros [| k0 k] [| p0 p] [| s0 s] [| d0 d] [| e0 e] o; cbn [deconv_shape]; try discriminate.
    - intros [= <-]. repeat split; constructor.
    - destruct (Z.leb_spec (s0 * (n - 1) + (d0 * (k0 - 1) + 1) - 2 * p0 + e0) 0); [discriminate |]. destruct (Z.leb_spec s0 e0); [discriminate |].
      destruct (deconv_shape i k p s d e) as [os |] eqn:E; [| discriminate]. intros [= <-].
      destruct (IH _ _ _ _ _ _ E) as (A & B & C & D & F & G & H1). cbn [length enlarged]. repeat split; try lia; try (constructor; assumption). rewrite <- G. reflexivity. }
  destruct (LO _ _ _ _ _ _ _ EO) as (L1 & L2 & L3 & L4 & L5 & L6 & L7).
  pose proof (firstn_skipn (Z.to_nat b) data) as FS. rewrite ES in FS.
  assert (LF : length (firstn (Z.to_nat b) data) = Z.to_nat b) by (apply firstn_length_le; lia).
  exists (firstn (Z.to_nat b) data), c, shape, co, cg, kernel, e, o. rewrite LF.
  split; [auto |]. split; [reflexivity |]. split; [exact DN |]. split.
  { intros ->. assert (length data = (Z.to_nat b + 1)%nat) by (rewrite <- FS, app_length, LF; reflexivity). lia. }
  split; [auto |]. split; [auto |]. split; [auto |]. split; [auto |]. split; [reflexivity |]. split; [exact L5 |]. split; [auto |].
  split; [apply Z.rem_divide; auto |]. split; [auto |]. split.
  { unfold bias_shape. destruct bias as [b0 |]; [| auto]. destruct (list_eq_dec Z.eq_dec b0 [cg * group]); [auto | discriminate]. }
  split; [exact L6 |]. split; [exact L7 | auto].
Qed.
Example C53_accepted_ex : exists f, deconv_setup (-2) [1] [2] [2] 2 [1] [1; 2; 2] [2; 1; 2] (Some [2]) = Some (f, [1; 2; 4]) /\ deconv_setup (-2) [1] [2] [2] 2 [2] [1; 2; 2] [2; 1; 2] (Some [2]) = None /\
  deconv_setup (-2) [1] [2] [2] 2 [1] [1; 2; 2] [3; 1; 2] (Some [2]) = None /\ deconv_setup (-2) [1] [2] [2] 2 [1] [1; 2; 2] [2; 1; 2] (Some [3]) = None.
Proof. eexists. repeat split; reflexivity. Qed.

Print Assumptions C52_forward_partial.
Print Assumptions C52_backward_partial.
Print Assumptions C53_forward_partial.
Print Assumptions C53_backward_partial.
Print Assumptions C53_accepted_partial.
