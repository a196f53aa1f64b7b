(** The theorems about a layer, and the setup of a deconvolution. *)
From Coq Require Import List ZArith Lia Bool QArith Qcanon.
From Verif Require Import NdModel NdSpec NdProofs IdxModel IdxSpec IdxProofs1 IdxProofs2 IdxProofs3 IdxProofs6 JoinModel JoinSpec JoinProofs JoinProofs2 ScanModel ScanSpec ScanProofs1 ReduceModel ReduceSpec ReduceProofs1 SortProofs2 SortProofs3 ConvModel ConvSpec ConvProofs1 ConvProofs2 ConvProofs3 ConvProofs4 ConvProofs5 ConvProofs6 ConvProofs7.
Import ListNotations.
Local Open Scope list_scope.
Local Open Scope Z_scope.

Lemma qlen_has a n : has_size a n -> qlen a = n.
Proof. auto. Qed.
Lemma bias_same b n : bias_size b n -> match b with Some b => qlen b = n | None => True end.
Proof. destruct b; auto. Qed.
Lemma grad_same g n : grad_size g n -> grad_len g n.
Proof. destruct g as [[a d]|]; auto. Qed.
Lemma bias_at_of b c : bias_at b c = bias_of b c.
Proof. destruct b; reflexivity. Qed.

Section layers.
Variable l : layer.
Hypothesis LEG : legal l.
Let f := conv_of l.
Let R := outputs_per_part l.

Lemma forward_layer x w b col y0 : has_size x (size (image_shape l)) -> has_size w (size (weight_shape l)) -> bias_size b (output_channels l) ->
  has_size col (buffer l) -> has_size y0 (size (output_shape l)) ->
  exists y, conv_forward f x w b col y0 = Some y /\ length y = length y0 /\
  forall a oc o, inside a (batch l) -> 0 <= oc < output_channels l -> inside o (output l) ->
    qelem y (output_shape l) (a ++ oc :: o) = (correlation l x w a oc o + bias_of b oc)%Qc.
Proof using LEG.
  intros Hx Hw Hb Hc Hy. pose proof (fine_of l LEG) as F. unfold has_size in *.
  rewrite l_x in Hx. rewrite (l_w l LEG) in Hw. rewrite (l_col l LEG) in Hc. rewrite l_y in Hy. rewrite (l_co l LEG) in Hb.
  destruct (conv_forward_ok f R F x w b col y0 Hx Hw Hc Hy (bias_same _ _ Hb)) as (y & E & L & V).
  exists y. split; [exact E|]. split; [exact L|]. intros a oc o A B O. rewrite (y_at l LEG) by auto.
  destruct (oc_split l LEG oc B) as (G1 & R1 & E1). fold R in G1, R1, E1. fold f R. rewrite (V (off a (batch l))); auto.
  - fold R. rewrite E1, bias_at_of. rewrite (correlation_at l LEG) by auto. reflexivity.
  - apply off_bound; auto.
  - apply (off_bound o (output l) O).
Qed.

Lemma backward_layer x w dy col gx gw gb : has_size x (size (image_shape l)) -> has_size w (size (weight_shape l)) -> has_size dy (size (output_shape l)) -> has_size col (buffer l) ->
  grad_size gx (size (image_shape l)) -> grad_size gw (size (weight_shape l)) -> grad_size gb (output_channels l) ->
  exists dx dw db, conv_backward f x w dy col gx gw gb = Some (dx, dw, db) /\
  (forall col y0, has_size col (buffer l) -> has_size y0 (size (output_shape l)) ->
    adjoint gx dx dy (fun u => conv_forward f u w None col y0) /\ adjoint gw dw dy (fun u => conv_forward f x u None col y0)) /\
  each gb db (output_channels l) (fun oc => total (indices (batch l)) (fun a => total (indices (output l)) (fun o => qelem dy (output_shape l) (a ++ oc :: o)))).
Proof using LEG.
  intros Hx Hw Hd Hc Gx Gw Gb. pose proof (fine_of l LEG) as F. unfold has_size in *. apply grad_same in Gx, Gw, Gb.
  rewrite l_x in Hx, Gx. rewrite (l_w l LEG) in Hw, Gw. rewrite (l_col l LEG) in Hc. rewrite l_y in Hd. rewrite (l_co l LEG) in Gb.
  destruct (conv_backward_ok f R F x w dy col gx gw gb Hx Hw Hd Hc Gx Gw Gb) as (dx & dw & db & E & Dx & Dw & Db).
  exists dx, dw, db. split; [exact E|]. split.
  - intros col' y0 Hc' Hy'. rewrite (l_col l LEG) in Hc'. rewrite l_y in Hy'. split.
    + unfold dx_is in Dx. destruct gx as [[acc d0]|]; cbn [adjoint]; destruct dx as [d|]; auto. destruct Dx as (L & V). split; [exact L|]. intros u v Lu Fu.
      cbn [grad_len] in Gx. assert (Hu : qlen u = outer f * inner_i f) by (transitivity (qlen d0); [unfold qlen; lia|exact Gx]).
      destruct (conv_forward_ok f R F u w None col' y0 Hu Hw Hc' Hy' I) as (y & E2 & Ly & Vy). rewrite Fu in E2. injection E2 as E2. subst y.
      rewrite V. f_equal. rewrite (inner_y f R F dy v (fun n g r q => zsum (inner_k f) (term f R u w n g r q)) Hd).
      * apply zsum_ext. intros n Hn. symmetry. apply back_form.
      * unfold qlen. rewrite Ly. exact Hy'.
      * intros. rewrite Vy by auto. cbn [bias_at]. ring.
    + unfold dw_is in Dw. destruct gw as [[acc d0]|]; cbn [adjoint]; destruct dw as [d|]; auto. destruct Dw as (L & V). split; [exact L|]. intros u v Lu Fu.
      cbn [grad_len] in Gw. assert (Hu : qlen u = groups f * R * inner_k f) by (transitivity (qlen d0); [unfold qlen; lia|exact Gw]). assert (Hdd : qlen d = groups f * R * inner_k f) by (transitivity (qlen d0); [unfold qlen; lia|exact Gw]).
      destruct (conv_forward_ok f R F x u None col' y0 Hx Hu Hc' Hy' I) as (y & E2 & Ly & Vy). rewrite Fu in E2. injection E2 as E2. subst y.
      rewrite (inner_w f R F u d _ Hu Hdd V).
      rewrite (inner_y f R F dy v (fun n g r q => zsum (inner_k f) (term f R x u n g r q)) Hd); [|unfold qlen; first [rewrite Ly; exact Hy'|rewrite Lx; exact Hx']|intros; rewrite Vy by auto; cbn [bias_at]; ring].
      rewrite <- weight_form.
      assert (Z0 : (if acc then qinner u d0 else 0%Qc) = zsum (groups f) (fun g => zsum R (fun r => zsum (inner_k f) (fun k => (qat u (wpos f R g r k) * (if acc then qat d0 (wpos f R g r k) else 0))%Qc)))).
      { destruct acc; [apply (inner_w f R F u d0 _ Hu Gw); auto|]. symmetry. apply zsum_zero. intros g _. apply zsum_zero. intros r _. apply zsum_zero. intros k _. ring. }
      rewrite Z0. rewrite <- zsum_plus. apply zsum_ext. intros g _. rewrite <- zsum_plus. apply zsum_ext. intros r _. rewrite <- zsum_plus. apply zsum_ext. intros k _. ring.
  - unfold db_is in Db. destruct gb as [[acc d0]|]; cbn [each]; destruct db as [d|]; auto. destruct Db as (L & V). split; [exact L|]. intros oc Hoc.
    destruct (oc_split l LEG oc Hoc) as (G1 & R1 & E1). fold R in G1, R1, E1. specialize (V _ _ G1 R1). rewrite E1 in V. unfold qat in V at 1 2. rewrite V. f_equal.
    symmetry. apply total_indices; [apply (g_batch _ LEG)|]. intros a A. apply total_indices; [apply positive_nonneg; apply (l_out l LEG)|]. intros o O. apply (y_at l LEG); auto.
Qed.

(** Deconvolution *)
Hypothesis CG : 0 < channels_per_part l.
Lemma CGf : 0 < channels_g f.
Proof using CG. exact CG. Qed.
Lemma x_at x a c i : inside a (batch l) -> 0 <= c < image_channels l -> inside i (image l) ->
  qelem x (image_shape l) (a ++ c :: i) = qat x (off a (batch l) * inner_i f + c * size (image l) + off i (image l)).
Proof using LEG.
  intros A B Hi. unfold qelem, image_shape. assert (I2 : inside (c :: i) (image_channels l :: image l)) by (constructor; auto).
  rewrite position_off by (apply inside_app; auto). rewrite Z.mul_0_l, Z.add_0_l, off_app by auto. cbn [off size]. unfold qat. do 2 f_equal. unfold f. rewrite l_I. ring.
Qed.
Lemma deconv_forward_layer y w b col x0 : has_size y (size (output_shape l)) -> has_size w (size (weight_shape l)) -> bias_size b (image_channels l) ->
  has_size col (buffer l) -> has_size x0 (size (image_shape l)) ->
  exists x, deconv_forward f y w b col x0 = Some x /\ length x = length x0 /\
  forall a c i, inside a (batch l) -> 0 <= c < image_channels l -> inside i (image l) ->
    qelem x (image_shape l) (a ++ c :: i) = (scattered l y w a c i + bias_of b c)%Qc.
Proof using LEG CG.
  intros Hy Hw Hb Hc Hx. pose proof (fine_of l LEG) as F. unfold has_size in *.
  rewrite l_x in Hx. rewrite (l_w l LEG) in Hw. rewrite (l_col l LEG) in Hc. rewrite l_y in Hy.
  destruct (deconv_forward_ok f R F CGf y w b col x0 Hy Hw Hc Hx (bias_same _ _ Hb)) as (x & E & L & V).
  exists x. split; [exact E|]. split; [exact L|]. intros a c i A B Hi. rewrite x_at by auto. rewrite bias_at_of in V || idtac.
  transitivity (spread f R w y (off a (batch l)) (c * size (image l) + off i (image l)) + bias_at b c)%Qc.
  - apply (V (off a (batch l)) c (off i (image l))); [apply off_bound; auto|exact B|apply (off_bound i (image l) Hi)].
  - rewrite (scattered_at l LEG) by auto. rewrite bias_at_of. reflexivity.
Qed.
Lemma deconv_backward_layer y w dx col gy gw gb : has_size y (size (output_shape l)) -> has_size w (size (weight_shape l)) -> has_size dx (size (image_shape l)) -> has_size col (buffer l) ->
  grad_size gy (size (output_shape l)) -> grad_size gw (size (weight_shape l)) -> grad_size gb (image_channels l) ->
  exists dy dw db, deconv_backward f y w dx col gy gw gb = Some (dy, dw, db) /\
  (forall col x0, has_size col (buffer l) -> has_size x0 (size (image_shape l)) ->
    adjoint gy dy dx (fun u => deconv_forward f u w None col x0) /\ adjoint gw dw dx (fun u => deconv_forward f y u None col x0)) /\
  each gb db (image_channels l) (fun c => total (indices (batch l)) (fun a => total (indices (image l)) (fun i => qelem dx (image_shape l) (a ++ c :: i)))).
Proof using LEG CG.
  intros Hy Hw Hd Hc Gy Gw Gb. pose proof (fine_of l LEG) as F. unfold has_size in *. apply grad_same in Gy, Gw, Gb.
  rewrite l_x in Hd. rewrite (l_w l LEG) in Hw, Gw. rewrite (l_col l LEG) in Hc. rewrite l_y in Hy, Gy.
  destruct (deconv_backward_ok f R F CGf y w dx col gy gw gb Hy Hw Hd Hc Gy Gw Gb) as (dy & dw & db & E & Dy & Dw & Db).
  exists dy, dw, db. split; [exact E|]. split.
  - intros col' x0 Hc' Hx'. rewrite (l_col l LEG) in Hc'. rewrite l_x in Hx'. split.
    + unfold dyd_is in Dy. destruct gy as [[acc d0]|]; cbn [adjoint]; destruct dy as [d|]; auto. destruct Dy as (L & V & _). split; [exact L|]. intros u v Lu Fu.
      cbn [grad_len] in Gy. assert (Hu : qlen u = outer f * inner_o f) by (transitivity (qlen d0); [unfold qlen; lia|exact Gy]). assert (Hdd : qlen d = outer f * inner_o f) by (transitivity (qlen d0); [unfold qlen; lia|exact Gy]).
      destruct (deconv_forward_ok f R F CGf u w None col' x0 Hu Hw Hc' Hx' I) as (x & E2 & Lx & Vx). rewrite Fu in E2. injection E2 as E2. subst x.
      rewrite (inner_x f R F CGf dx w u v Hd); [|unfold qlen; first [rewrite Ly; exact Hy'|rewrite Lx; exact Hx']|intros; rewrite Vx by auto; cbn [bias_at]; ring].
      rewrite (inner_y f R F u d _ Hu Hdd V).
      assert (Z0 : (if acc then qinner u d0 else 0%Qc) = zsum (outer f) (fun n => zsum (groups f) (fun g => zsum R (fun r => zsum (size (shape_o f)) (fun q => (qat u (ypos f R n g r q) * (if acc then qat d0 (ypos f R n g r q) else 0))%Qc))))).
      { destruct acc; [apply (inner_y f R F u d0 _ Hu Gy); auto|]. symmetry. apply zsum_zero. intros n _. apply zsum_zero. intros g _. apply zsum_zero. intros r _. apply zsum_zero. intros q _. ring. }
      rewrite Z0. rewrite <- zsum_plus. apply zsum_ext. intros n _. rewrite <- back_form. rewrite <- zsum_plus. apply zsum_ext. intros g _. rewrite <- zsum_plus. apply zsum_ext. intros r _. rewrite <- zsum_plus. apply zsum_ext. intros q _. ring.
    + unfold dw_is in Dw. destruct gw as [[acc d0]|]; cbn [adjoint]; destruct dw as [d|]; auto. destruct Dw as (L & V). split; [exact L|]. intros u v Lu Fu.
      cbn [grad_len] in Gw. assert (Hu : qlen u = groups f * R * inner_k f) by (transitivity (qlen d0); [unfold qlen; lia|exact Gw]). assert (Hdd : qlen d = groups f * R * inner_k f) by (transitivity (qlen d0); [unfold qlen; lia|exact Gw]).
      destruct (deconv_forward_ok f R F CGf y u None col' x0 Hy Hu Hc' Hx' I) as (x & E2 & Lx & Vx). rewrite Fu in E2. injection E2 as E2. subst x.
      rewrite (inner_x f R F CGf dx u y v Hd); [|unfold qlen; first [rewrite Ly; exact Hy'|rewrite Lx; exact Hx']|intros; rewrite Vx by auto; cbn [bias_at]; ring].
      rewrite (inner_w f R F u d _ Hu Hdd V).
      transitivity ((if acc then qinner u d0 else 0) + zsum (outer f) (fun n => zsum (groups f) (fun g => zsum R (fun r => zsum (size (shape_o f)) (fun q => qat y (ypos f R n g r q) * zsum (inner_k f) (term f R dx u n g r q))%Qc))))%Qc.
      2:{ f_equal. apply zsum_ext. intros n _. apply back_form. }
      rewrite <- weight_form.
      assert (Z0 : (if acc then qinner u d0 else 0%Qc) = zsum (groups f) (fun g => zsum R (fun r => zsum (inner_k f) (fun k => (qat u (wpos f R g r k) * (if acc then qat d0 (wpos f R g r k) else 0))%Qc)))).
      { destruct acc; [apply (inner_w f R F u d0 _ Hu Gw); auto|]. symmetry. apply zsum_zero. intros g _. apply zsum_zero. intros r _. apply zsum_zero. intros k _. ring. }
      rewrite Z0. rewrite <- zsum_plus. apply zsum_ext. intros g _. rewrite <- zsum_plus. apply zsum_ext. intros r _. rewrite <- zsum_plus. apply zsum_ext. intros k _. ring.
  - unfold dbd_is in Db. destruct gb as [[acc d0]|]; cbn [each]; destruct db as [d|]; auto. destruct Db as (L & V). split; [exact L|]. intros c B.
    specialize (V c B). unfold qat in V at 1 2. rewrite V. f_equal.
    symmetry. apply total_indices; [apply (g_batch _ LEG)|]. intros a A. apply total_indices; [apply (g_image _ LEG)|]. intros i Hi. apply x_at; auto.
Qed.
End layers.

Lemma enlarged_ok : forall O W P St D E, stretching O W P St D E ->
  deconv_shape O W P St D E = Some (enlarged O W P St D E) /\ fitting (enlarged O W P St D E) W P St D /\ positions (enlarged O W P St D E) W P St D = O /\
  sizes (enlarged O W P St D E) /\ length W = length O.
Proof.
  induction O as [|o O IH]; intros [|k W] [|p P] [|s St] [|d D] [|e E]; cbn [stretching]; try contradiction.
  - intros _. cbn. repeat split. constructor.
  - intros (H1 & H2 & H3 & H). destruct (IH _ _ _ _ _ H) as (E1 & E2 & E3 & E4 & E5). cbn [deconv_shape enlarged fitting positions length].
    destruct (Z.leb_spec (s * (o - 1) + (d * (k - 1) + 1) - 2 * p + e) 0); [lia|]. destruct (Z.leb_spec s e); [lia|]. rewrite E1. cbn [obind].
    assert (0 <= s * (o - 1)) by (apply Z.mul_nonneg_nonneg; lia).
    split; [reflexivity|]. split; [|split; [|split]].
    + split; [lia|]. split; [lia|exact E2].
    + rewrite E3. f_equal. replace (s * (o - 1) + (d * (k - 1) + 1) - 2 * p + e + 2 * p - (d * (k - 1) + 1)) with ((o - 1) * s + e) by ring.
      rewrite Z.div_add_l, Z.div_small by lia. lia.
    + constructor; [lia|exact E4].
    + lia.
Qed.
Lemma stretching_length : forall O W P St D E, stretching O W P St D E -> length E = length O.
Proof. induction O as [|o O IH]; intros [|k W] [|p P] [|s St] [|d D] [|e E]; cbn [stretching]; try contradiction; [auto|]. intros (_ & _ & _ & H). cbn [length]. f_equal. eauto. Qed.

Section deconv.
Variables (A : list Z) (Co G Cg : Z) (O W P St D E : list Z).
Hypothesis NA : sizes A.
Hypothesis NW : sizes W.
Hypothesis NE : O <> [].
Hypothesis GP : 0 < G.
Hypothesis CP : 0 < Cg.
Hypothesis OP : 0 < Co.
Hypothesis DV : (G | Co).
Hypothesis ST : stretching O W P St D E.
Let l := transposed A Co G Cg O W P St D E.
Lemma transposed_legal : legal l /\ output l = O /\ channels_per_part l = Cg.
Proof using NA NW NE GP CP OP DV ST.
  destruct (enlarged_ok _ _ _ _ _ _ ST) as (E1 & E2 & E3 & E4 & E5). split; [|split].
  - constructor; cbn [l transposed batch image_channels output_channels parts image window padding steps spacing]; auto.
    + destruct O, W, P, St, D, E; cbn in ST |- *; try contradiction; congruence.
    + apply Z.mul_nonneg_nonneg; lia.
    + exists Cg. reflexivity.
  - exact E3.
  - unfold channels_per_part. cbn. apply Z.div_mul. lia.
Qed.
Lemma deconv_setup_ok base E' bias : denotes base (length A) (length (A ++ Co :: O)) -> E' = E \/ (E' = [] /\ E = map (fun _ => 0) O) -> match bias with Some b => b = [Cg * G] | None => True end ->
  deconv_setup base P St D G E' (A ++ Co :: O) (Co :: Cg :: W) bias = Some (conv_of l, image_shape l).
Proof using NA NW NE GP CP OP DV ST.
  intros DN HE B. destruct (enlarged_ok _ _ _ _ _ _ ST) as (E1 & E2 & E3 & E4 & E5). destruct transposed_legal as (LEG & EO & EC).
  unfold deconv_setup. assert (LS : length (A ++ Co :: O) = (length A + 1 + length O)%nat) by (rewrite app_length; cbn [length]; lia).
  rewrite (refine_denotes _ _ _ DN) by lia. cbn [obind]. assert (0 < length O)%nat by (destruct O; [congruence|cbn; lia]).
  destruct (Z.leb_spec (Z.of_nat (length (A ++ Co :: O))) (Z.of_nat (length A) + 1)); [lia|]. rewrite Nat2Z.id.
  replace (Nat.eqb (length (Co :: Cg :: W)) _) with true by (symmetry; apply Nat.eqb_eq; cbn [length]; lia). cbn [negb].
  rewrite rest_of. destruct (Z.eqb_spec G 0); [lia|].
  rewrite Z.rem_mul, Z.quot_mul by lia. assert (R2 : Z.rem Co G = 0) by (destruct DV as (z & ->); apply Z.rem_mul; lia). rewrite R2, !Z.eqb_refl. cbn [negb].
  replace (match E' with [] => map (fun _ => 0) O | _ => E' end) with E.
  2:{ destruct HE as [->|(-> & HE)]; [|auto]. destruct E; [|reflexivity]. pose proof (stretching_length _ _ _ _ _ _ ST). cbn in *. destruct O; [auto|cbn in *; lia]. }
  rewrite E1. cbn [obind].
  replace (match bias with Some b => if list_eq_dec Z.eq_dec b [Cg * G] then true else false | None => true end) with true.
  2:{ destruct bias as [b|]; [|reflexivity]. rewrite B. destruct (list_eq_dec Z.eq_dec [Cg * G] [Cg * G]); congruence. }
  cbn [negb]. destruct (Z.eqb_spec Co 0); [lia|]. rewrite !first_of, prod_size. unfold conv_of. rewrite EO, EC. reflexivity.
Qed.
End deconv.
