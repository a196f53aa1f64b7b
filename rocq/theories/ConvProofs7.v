(** Setup, and from positions to indices. *)
From Coq Require Import List ZArith Lia Bool QArith Qcanon.
From Verif Require Import NdModel NdSpec NdProofs IdxModel IdxSpec IdxProofs1 IdxProofs2 IdxProofs3 IdxProofs6 JoinModel JoinSpec JoinProofs JoinProofs2 ScanModel ScanSpec ScanProofs1 ReduceModel ReduceSpec ReduceProofs1 SortProofs2 SortProofs3 ConvModel ConvSpec ConvProofs1 ConvProofs2 ConvProofs3 ConvProofs4 ConvProofs5 ConvProofs6.
Import ListNotations.
Local Open Scope list_scope.
Local Open Scope Z_scope.

Lemma outmap_positions : forall S K P St D, fitting S K P St D -> outmap S K P St D = Some (positions S K P St D) /\ forallb (fun n => 0 <? n) (positions S K P St D) = true.
Proof.
  induction S as [|n S IH]; intros [|k K] [|p P] [|s St] [|d D]; cbn [fitting]; try contradiction; [auto|]. intros (Hs & Hf & H).
  destruct (IH _ _ _ _ H) as (E1 & E2). cbn [outmap positions forallb]. unfold extent, divide. destruct (Z.eqb_spec s 0); [lia|]. cbn [obind]. rewrite E1. cbn [obind].
  rewrite Z.quot_div_nonneg by lia. split; [reflexivity|]. rewrite E2, andb_true_r. apply Z.ltb_lt. pose proof (Z.div_pos (n + 2 * p - (d * (k - 1) + 1)) s). lia.
Qed.
Lemma positive_nonneg l : forallb (fun n => 0 <? n) l = true -> nonneg l.
Proof. intros H. rewrite forallb_forall in H. apply Forall_forall. intros n Hn. specialize (H n Hn). lia. Qed.
Lemma positions_ne S K P St D : fitting S K P St D -> S <> [] -> positions S K P St D <> [].
Proof. destruct S, K, P, St, D; cbn; try contradiction; congruence. Qed.
Lemma fitting_length : forall S K P St D, fitting S K P St D -> length K = length S.
Proof. induction S as [|n S IH]; intros [|k K] [|p P] [|s St] [|d D]; cbn [fitting]; try contradiction; [auto|]. intros (_ & _ & H). cbn [length]. f_equal. eauto. Qed.

Section layers.
Variable l : layer.
Hypothesis LEG : legal l.
Definition conv_of : conv := {| outer := size (batch l); channels_i := image_channels l; channels_o := output_channels l; channels_g := channels_per_part l; groups := parts l;
  shape_i := image l; shape_o := output l; kernel := window l; pad := padding l; stride := steps l; dilation := spacing l |}.
Let f := conv_of.
Let R := outputs_per_part l.
Let G := parts l.
Let C := image_channels l.
Let Cg := channels_per_part l.
Let W := size (window l).
Let Q := size (output l).
Let M := size (image l).

Lemma l_out : outmap (image l) (window l) (padding l) (steps l) (spacing l) = Some (output l) /\ forallb (fun n => 0 <? n) (output l) = true.
Proof using LEG. apply outmap_positions. apply (g_fits _ LEG). Qed.
Lemma l_ci : C = G * Cg.
Proof using LEG. unfold C, G, Cg, channels_per_part. destruct (g_in_parts _ LEG) as (z & E). rewrite E, Z.div_mul; [ring|]. pose proof (g_parts _ LEG). lia. Qed.
Lemma l_co : output_channels l = G * R.
Proof using LEG. unfold G, R, outputs_per_part. destruct (g_out_parts _ LEG) as (z & E). rewrite E, Z.div_mul; [ring|]. pose proof (g_parts _ LEG). lia. Qed.
Lemma l_R : 0 < R.
Proof using LEG. pose proof l_co. pose proof (g_out _ LEG). pose proof (g_parts _ LEG). unfold G in *. nia. Qed.
Lemma l_Cg : 0 <= Cg.
Proof using LEG. unfold Cg, channels_per_part. apply Z.div_pos; [apply (g_in _ LEG)|apply (g_parts _ LEG)]. Qed.
Lemma fine_of : fine f R.
Proof using LEG.
  destruct l_out as (E1 & E2). constructor; cbn.
  - exact E1.
  - apply (g_image _ LEG).
  - apply (g_window _ LEG).
  - apply positive_nonneg. auto.
  - apply positions_ne; [apply (g_fits _ LEG)|apply (g_dims _ LEG)].
  - apply size_nonneg. apply (g_batch _ LEG).
  - apply (g_parts _ LEG).
  - exact l_Cg.
  - exact l_R.
  - exact l_ci.
  - exact l_co.
Qed.
Lemma conv_setup_ok base bias : denotes base (length (batch l)) (length (image_shape l)) -> match bias with Some b => b = [output_channels l] | None => True end ->
  conv_setup base (padding l) (steps l) (spacing l) (parts l) (image_shape l) (weight_shape l) bias = Some (conv_of, output_shape l).
Proof using LEG.
  intros D B. destruct l_out as (E1 & E2). pose proof (g_parts _ LEG) as GP. pose proof (fitting_length _ _ _ _ _ (g_fits _ LEG)) as LW. pose proof (g_dims _ LEG) as NE.
  unfold conv_setup. assert (LS : length (image_shape l) = (length (batch l) + 1 + length (image l))%nat) by (unfold image_shape; rewrite app_length; cbn [length]; lia).
  rewrite (refine_denotes _ _ _ D) by lia. cbn [obind]. assert (0 < length (image l))%nat by (destruct (image l); [congruence|cbn; lia]).
  destruct (Z.leb_spec (Z.of_nat (length (image_shape l)) - 1) (Z.of_nat (length (batch l)))); [lia|]. rewrite Nat2Z.id.
  replace (Nat.eqb (length (weight_shape l)) _) with true by (symmetry; apply Nat.eqb_eq; unfold weight_shape; cbn [length]; lia). cbn [negb].
  unfold image_shape at 1. rewrite rest_of. unfold weight_shape.
  destruct (Z.eqb_spec (parts l) 0); [lia|].
  assert (R1 : Z.rem (image_channels l) (parts l) = 0) by (fold C; rewrite l_ci, Z.mul_comm; apply Z.rem_mul; auto).
  assert (R2 : Z.rem (output_channels l) (parts l) = 0) by (rewrite l_co, Z.mul_comm; apply Z.rem_mul; auto).
  assert (R3 : Z.quot (image_channels l) (parts l) = channels_per_part l) by (fold C Cg; rewrite l_ci, Z.mul_comm; apply Z.quot_mul; auto).
  rewrite R1, R2, R3, !Z.eqb_refl. cbn [negb]. unfold conv_shape. rewrite E1. cbn [obind]. rewrite E2.
  replace (match bias with Some b => if list_eq_dec Z.eq_dec b [output_channels l] then true else false | None => true end) with true.
  2:{ destruct bias as [b|]; [|reflexivity]. rewrite B. destruct (list_eq_dec Z.eq_dec [output_channels l] [output_channels l]); congruence. }
  cbn [negb obind]. pose proof (g_out _ LEG). destruct (Z.eqb_spec (output_channels l) 0); [lia|]. unfold image_shape at 1 2. rewrite !first_of, prod_size. reflexivity.
Qed.

Lemma l_K : inner_k f = Cg * W.
Proof using. unfold inner_k. rewrite prod_size. reflexivity. Qed.
Lemma l_I : inner_i f = C * M.
Proof using. unfold inner_i. rewrite prod_size. reflexivity. Qed.
Lemma l_IO : inner_o f = output_channels l * Q.
Proof using. unfold inner_o. rewrite prod_size. reflexivity. Qed.
Lemma l_x : size (image_shape l) = outer f * inner_i f.
Proof using. unfold image_shape. rewrite size_app, l_I. reflexivity. Qed.
Lemma l_y : size (output_shape l) = outer f * inner_o f.
Proof using. unfold output_shape. rewrite size_app, l_IO. reflexivity. Qed.
Lemma l_w : size (weight_shape l) = G * R * inner_k f.
Proof using LEG. unfold weight_shape. cbn [size]. rewrite l_co, l_K. reflexivity. Qed.
Lemma l_col : buffer l = G * inner_k f * Q.
Proof using LEG. unfold buffer. rewrite l_K. fold C W Q. rewrite l_ci. ring. Qed.
Lemma oc_split oc : 0 <= oc < output_channels l -> 0 <= oc / R < G /\ 0 <= oc mod R < R /\ oc / R * R + oc mod R = oc.
Proof using LEG.
  intros H. pose proof l_R. pose proof l_co as E. pose proof (Z.div_mod oc R ltac:(lia)). pose proof (Z.mod_pos_bound oc R ltac:(lia)).
  split; [|split; lia]. split; [apply Z.div_pos; lia|]. apply Z.div_lt_upper_bound; [lia|]. rewrite Z.mul_comm, <- E. lia.
Qed.
Lemma y_at y a oc o : inside a (batch l) -> 0 <= oc < output_channels l -> inside o (output l) ->
  qelem y (output_shape l) (a ++ oc :: o) = qat y (ypos f R (off a (batch l)) (oc / R) (oc mod R) (off o (output l))).
Proof using LEG.
  intros A B O. unfold qelem, output_shape. assert (I2 : inside (oc :: o) (output_channels l :: output l)) by (constructor; auto).
  rewrite position_off by (apply inside_app; auto). rewrite Z.mul_0_l, Z.add_0_l, off_app by auto. cbn [off size]. unfold qat, ypos. do 2 f_equal.
  rewrite l_IO. destruct (oc_split oc B) as (_ & _ & E). rewrite E. fold Q. change (size (shape_o f)) with Q. ring.
Qed.
Lemma w_at w oc c k : 0 <= oc < output_channels l -> 0 <= c < Cg -> inside k (window l) ->
  qelem w (weight_shape l) (oc :: c :: k) = qat w (wpos f R (oc / R) (oc mod R) (c * W + off k (window l))).
Proof using LEG.
  intros A B K. unfold qelem, weight_shape. rewrite position_off by (constructor; auto; constructor; auto). rewrite Z.mul_0_l, Z.add_0_l. cbn [off size].
  unfold qat, wpos. do 2 f_equal. rewrite l_K. destruct (oc_split oc A) as (_ & _ & E). rewrite E. reflexivity.
Qed.
Lemma chan_in g c : 0 <= g < G -> 0 <= c < Cg -> 0 <= g * Cg + c < C.
Proof using LEG. intros. rewrite l_ci. nia. Qed.
Lemma row_off g c k : g * inner_k f + (c * W + off k (window l)) = off ((g * Cg + c) :: k) (C :: window l).
Proof using. rewrite l_K. cbn [off]. fold W. ring. Qed.
Lemma og_at g c k o : 0 <= g < G -> 0 <= c < Cg -> inside k (window l) -> inside o (output l) ->
  og f (g * inner_k f + (c * W + off k (window l))) (off o (output l)) =
  if is_inside (tap (steps l) (spacing l) (padding l) k o) (image l) then Some (off ((g * Cg + c) :: tap (steps l) (spacing l) (padding l) k o) (C :: image l)) else None.
Proof using LEG.
  intros A B K O. rewrite row_off. unfold og. cbn [f conv_of channels_i shape_i kernel pad stride dilation shape_o].
  apply (origin_at _ _ _ _ _ _ _ (proj1 l_out)); auto. constructor; auto. apply chan_in; auto.
Qed.
Lemma padded_at x a oc c k o : inside a (batch l) -> 0 <= oc < output_channels l -> 0 <= c < Cg -> inside k (window l) -> inside o (output l) ->
  padded x (batch l) (image_channels l) (image l) a (channel_of l oc c) (tap (steps l) (spacing l) (padding l) k o) =
  val x (off a (batch l) * inner_i f) (og f (oc / R * inner_k f + (c * W + off k (window l))) (off o (output l))).
Proof using LEG.
  intros A B D K O. destruct (oc_split oc B) as (G1 & _ & _). rewrite og_at by auto. unfold padded. destruct (is_inside _ _) eqn:E; [|reflexivity].
  apply is_inside_ok in E. cbn [val]. unfold qelem, channel_of. fold R Cg.
  assert (I2 : inside ((oc / R * Cg + c) :: tap (steps l) (spacing l) (padding l) k o) (C :: image l)) by (constructor; auto; apply chan_in; auto).
  fold C. rewrite position_off by (apply inside_app; auto). rewrite Z.mul_0_l, Z.add_0_l, off_app by auto. rewrite l_I. reflexivity.
Qed.
Lemma total_range n h : total (range 0 (Z.to_nat n)) h = zsum n h.
Proof using. rewrite <- upto_range. apply total_upto. Qed.
Lemma cw_sum h F : (forall c k, 0 <= c < Cg -> inside k (window l) -> h c k = F (c * W + off k (window l))) ->
  total (range 0 (Z.to_nat Cg)) (fun c => total (indices (window l)) (h c)) = zsum (inner_k f) F.
Proof using LEG.
  intros H. pose proof (size_nonneg _ (g_window _ LEG)) as WP. pose proof l_Cg. rewrite total_range, l_K, zsum_mul by auto. apply zsum_ext. intros c Hc.
  apply total_indices; [apply (g_window _ LEG)|]. auto.
Qed.
Lemma correlation_at x w a oc o : inside a (batch l) -> 0 <= oc < output_channels l -> inside o (output l) ->
  correlation l x w a oc o = zsum (inner_k f) (term f R x w (off a (batch l)) (oc / R) (oc mod R) (off o (output l))).
Proof using LEG.
  intros A B O. unfold correlation. fold Cg. apply cw_sum. intros c k Hc K. unfold term. rewrite w_at, padded_at by auto. reflexivity.
Qed.
Lemma oc_sum h F : (forall g r, 0 <= g < G -> 0 <= r < R -> h (g * R + r) = F g r) -> total (range 0 (Z.to_nat (output_channels l))) h = zsum G (fun g => zsum R (F g)).
Proof using LEG.
  intros H. pose proof l_R. pose proof (g_parts _ LEG). rewrite total_range, l_co, zsum_mul by (unfold G; lia). apply zsum_ext. intros g Hg. apply zsum_ext. intros r Hr. auto.
Qed.
Lemma oc_join g r : 0 <= g < G -> 0 <= r < R -> 0 <= g * R + r < output_channels l /\ (g * R + r) / R = g /\ (g * R + r) mod R = r.
Proof using LEG.
  intros A B. pose proof l_R. rewrite l_co. split; [nia|]. split; [rewrite Z.div_add_l, Z.div_small by lia; lia|]. rewrite Z.add_comm, Z.mod_add, Z.mod_small by lia. reflexivity.
Qed.
Lemma scattered_at y w a c i : inside a (batch l) -> 0 <= c < C -> inside i (image l) ->
  scattered l y w a c i = spread f R w y (off a (batch l)) (c * M + off i (image l)).
Proof using LEG.
  intros A B Ii. pose proof l_R as RP. pose proof (positive_nonneg _ (proj2 l_out)) as NO.
  set (n := off a (batch l)).
  set (V := fun g r k q => ((qat w (wpos f R g r k) * qat y (ypos f R n g r q)) * hit (og f (g * inner_k f + k) q) (c * M + off i (image l)))%Qc).
  transitivity (zsum G (fun g => zsum R (fun r => zsum (inner_k f) (fun k => zsum Q (V g r k))))).
  - unfold scattered. apply oc_sum. intros g r Hg Hr. destruct (oc_join g r Hg Hr) as (OC & E1 & E2). fold Cg. apply cw_sum. intros cg k Hc K.
    apply total_indices; [exact NO|]. intros o O. unfold V. rewrite w_at, y_at by auto. rewrite E1, E2, og_at by auto. unfold channel_of. fold R Cg. rewrite E1. fold n.
    set (t := tap (steps l) (spacing l) (padding l) k o).
    destruct (is_inside t (image l)) eqn:E3; cbn [hit].
    + apply is_inside_ok in E3.
      destruct (Z.eqb_spec (g * Cg + cg) c) as [Ec|Nc]; cbn [andb].
      * destruct (list_eq_dec Z.eq_dec t i) as [Et|Nt].
        -- rewrite Ec, Et. cbn [off]. fold M. rewrite Z.eqb_refl. ring.
        -- destruct (Z.eqb_spec (off ((g * Cg + cg) :: t) (C :: image l)) (c * M + off i (image l))) as [Eo|_]; [|ring]. exfalso. apply Nt.
           cbn [off] in Eo. fold M in Eo. rewrite Ec in Eo. apply (off_inj (image l)); [apply (g_image _ LEG)|auto|auto|lia].
      * destruct (Z.eqb_spec (off ((g * Cg + cg) :: t) (C :: image l)) (c * M + off i (image l))) as [Eo|_]; [|ring]. exfalso. apply Nc.
        cbn [off] in Eo. fold M in Eo. pose proof (off_bound _ _ E3). pose proof (off_bound _ _ Ii). fold M in H, H0. nia.
    + destruct (list_eq_dec Z.eq_dec t i) as [Et|Nt]; [|rewrite andb_false_r; ring].
      rewrite Et in E3. apply is_inside_ok in Ii. congruence.
  - unfold spread. fold G. cbn [f conv_of groups shape_o]. fold f G Q. apply zsum_ext. intros g _. rewrite (zsum_swap R). apply zsum_ext. intros k _. rewrite (zsum_swap R).
    apply zsum_ext. intros q _. unfold V. rewrite zsum_scale_r. reflexivity.
Qed.
End layers.
