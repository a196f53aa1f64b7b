(** Layers with scaled weights. *)
From Coq Require Import List ZArith Bool QArith Qcanon Lia.
From Verif Require Import NdSpec ScanSpec ReduceSpec ConvSpec NdProofs ConvProofs3 PoolProofs3 FoldModel FoldSpec FoldProofs1 FoldProofs2.
Import ListNotations.
Local Open Scope list_scope.
Local Open Scope Z_scope.

Lemma total_scale {T} (L : list T) f c : total L (fun a => c * f a)%Qc = (c * total L f)%Qc.
Proof. induction L as [| a L IH]; [rewrite !total_nil; ring |]. rewrite !total_cons, IH. ring. Qed.
Lemma total_plus {T} (L : list T) f g : total L (fun a => f a + g a)%Qc = (total L f + total L g)%Qc.
Proof. induction L as [| a L IH]; [rewrite !total_nil; ring |]. rewrite !total_cons, IH. ring. Qed.
Lemma total_map {T U} (L : list T) (h : T -> U) f : total (map h L) f = total L (fun a => f (h a)).
Proof. unfold total. rewrite map_map. reflexivity. Qed.
Lemma total_app {T} (L M : list T) f : total (L ++ M) f = (total L f + total M f)%Qc.
Proof. unfold total. rewrite map_app. apply lsum_app. Qed.
Lemma in_range c n : In c (range 0 (Z.to_nat n)) -> 0 <= c < n.
Proof. intros H. apply range_in in H. lia. Qed.
Lemma correlation_scale l x w w' a oc o f : (forall c k, 0 <= c < channels_per_part l -> inside k (window l) -> qelem w' (weight_shape l) (oc :: c :: k) = (f * qelem w (weight_shape l) (oc :: c :: k))%Qc) ->
  correlation l x w' a oc o = (f * correlation l x w a oc o)%Qc.
Proof.
  intros H. unfold correlation. rewrite <- total_scale. apply total_ext. intros c Ic. apply in_range in Ic. rewrite <- total_scale. apply total_ext. intros k Ik. apply indices_in in Ik. rewrite H by assumption. ring.
Qed.
Lemma scattered_scale l y w w' a c i f : parts l = 1 -> 0 <= c ->
  (forall oc k, 0 <= oc < output_channels l -> c < channels_per_part l -> inside k (window l) -> qelem w' (weight_shape l) (oc :: c :: k) = (f * qelem w (weight_shape l) (oc :: c :: k))%Qc) ->
  scattered l y w' a c i = (f * scattered l y w a c i)%Qc.
Proof.
  intros P1 Pc H. unfold scattered. rewrite <- total_scale. apply total_ext. intros oc Io. apply in_range in Io. rewrite <- total_scale. apply total_ext. intros cg Ic. apply in_range in Ic.
  rewrite <- total_scale. apply total_ext. intros k Ik. apply indices_in in Ik. rewrite <- total_scale. apply total_ext. intros o _.
  destruct (Z.eqb_spec (channel_of l oc cg) c) as [E |]; cbn [andb]; [| ring]. destruct (list_eq_dec _ _ _); [| ring].
  assert (cg = c). { unfold channel_of, outputs_per_part in E. rewrite P1, Z.div_1_r, (Z.div_small oc) in E by exact Io. lia. } subst cg.
  rewrite H by (assumption || lia). ring.
Qed.
Lemma positions_length i : forall w p s d, fitting i w p s d -> length (positions i w p s d) = length w /\ length w = length i.
Proof. induction i as [| n i IH]; intros [| k w] [| p ps] [| s ss] [| d ds] H; cbn [fitting] in H; try contradiction; [split; reflexivity |]. destruct H as (_ & _ & H). destruct (IH _ _ _ _ H). cbn [positions length]. split; congruence. Qed.
Lemma stretching_length o : forall w p s d e, stretching o w p s d e -> length (enlarged o w p s d e) = length w /\ length w = length o.
Proof. induction o as [| n i IH]; intros [| k w] [| p ps] [| s ss] [| d ds] [| e es] H; cbn [stretching] in H; try contradiction; [split; reflexivity |]. destruct H as (_ & _ & _ & H). destruct (IH _ _ _ _ _ H). cbn [enlarged length]. split; congruence. Qed.
Lemma weights_nonneg l : legal l -> Forall (fun n => 0 <= n) (weight_shape l).
Proof.
  intros L. unfold weight_shape. constructor; [apply Z.lt_le_incl, (g_out l L) |]. constructor; [| exact (g_window l L)].
  unfold channels_per_part. apply Z.div_pos; [apply (g_in l L) | apply (g_parts l L)].
Qed.
(** With no padding the kernel is inside the image. *)
Lemma tap_inside i : forall w p s d o k, fitting i w p s d -> Forall (fun z => z = 0) p -> Forall (fun z => 0 <= z) d -> inside k w -> inside o (positions i w p s d) -> is_inside (tap s d p k o) i = true.
Proof.
  induction i as [| n i IH]; intros [| m w] [| p ps] [| s ss] [| d ds] o k H P D K O; cbn [fitting] in H; try contradiction.
  - inversion K; subst. inversion O; subst. reflexivity.
  - destruct H as (Hs & Hf & H). cbn [positions] in O. inversion K as [| kk ? ks ? K1 K2]; subst. inversion O as [| oo ? os ? O1 O2]; subst. inversion P as [| ? ? P1 P2]; subst. inversion D as [| ? ? D1 D2]; subst.
    cbn [tap is_inside]. rewrite (IH _ _ _ _ _ _ H P2 D2 K2 O2), andb_true_r. apply andb_true_intro. change (n + 2 * 0) with (n + 0) in *. pose proof (Z.mul_div_le (n + 0 - (d * (m - 1) + 1)) s Hs).
    assert (oo * s <= (n + 0 - (d * (m - 1) + 1)) / s * s) by (apply Z.mul_le_mono_nonneg_r; lia).
    split; [apply Z.leb_le; nia | apply Z.ltb_lt]. assert (kk * d <= (m - 1) * d) by nia. lia.
Qed.
