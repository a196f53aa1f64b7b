(** Proofs about BfaModel: the functions that gradients call, and sums over broadcast axes. *)
From Coq Require Import List ZArith Bool Lia QArith Qcanon.
From Verif Require Import NdSpec NdProofs IdxModel IdxProofs1 IdxProofs2 IdxProofs3 JoinSpec JoinModel ScanSpec ScanModel ScanProofs1 ReduceSpec ReduceModel ReduceProofs1 ReduceProofs5 ConvSpec ConvModel MatSpec MatModel MatProofs2 PoolProofs3 ScatProofs1 ConvProofs5 ConvProofs6 ConvProofs3 BinSpec BinModel BinProofs1 BinProofs2 BinProofs3 BfaModel BfaSpec.
From Verif Require ReduceProps BinProps MatProps.
Import ListNotations.
Local Open Scope list_scope.
Local Open Scope Z_scope.

Lemma above_sizes s : above s -> sizes s.
Proof. apply Forall_impl. intros; lia. Qed.
Lemma list_by A (l l' : list Qc) : sizes A -> has_size l (size A) -> has_size l' (size A) -> (forall a, inside a A -> qelem l A a = qelem l' A a) -> l = l'.
Proof.
  intros P L L' H. unfold has_size in *. apply (nth_ext l l' 0%Qc 0%Qc); [lia |]. intros n Hn.
  destruct (unoff_inside A (Z.of_nat n) P ltac:(lia)) as (I & O). specialize (H _ I). rewrite !MatProps.qelem_off in H by exact I. rewrite O in H. unfold qat in H. rewrite Nat2Z.id in H. exact H.
Qed.
Lemma fresh_size junk s : sizes s -> has_size (fresh junk s) (size s).
Proof. intros P. unfold fresh, has_size. rewrite repeat_length, prod_size, Z2Nat.id; [reflexivity |]. apply size_nonneg. exact P. Qed.

(** * Sums over the axes of one element *)
Definition narrow (A : list Z) : list bool := map (fun n => n =? 1) A.
Lemma ones_chosen A : chosen (ones_from 0 A) (narrow A).
Proof.
  unfold chosen. replace (length (narrow A)) with (length A) by (unfold narrow; rewrite map_length; reflexivity).
  generalize (length A) at 1 as m. change 0 with (Z.of_nat 0) at 1. generalize 0%nat at 1 2 as k. induction A as [| n A IH]; intros k m; cbn [ones_from narrow map length seq select]; [constructor |].
  specialize (IH (S k) m). replace (Z.of_nat k + 1) with (Z.of_nat (S k)) by lia. destruct (n =? 1); cbn [Bool.eqb]; [constructor; [left; reflexivity | exact IH] | exact IH].
Qed.
Lemma joined_widens A B C : joined A B C -> widens A C /\ widens B C.
Proof. unfold widens. induction 1 as [| n A B C _ (IA & IB) | n A B C _ (IA & IB) | n A B C _ (IA & IB)]; split; constructor; auto. Qed.
Lemma widens_length A C : widens A C -> length A = length C.
Proof. apply Forall2_length. Qed.
Lemma narrow_shape A C : widens A C -> out_shape true (narrow A) C = A.
Proof.
  unfold out_shape, narrow. induction 1 as [| a c A C H _ IH]; cbn [map out]; [reflexivity |]. rewrite IH. destruct (Z.eqb_spec a 1); [congruence |]. destruct H; congruence.
Qed.
Lemma narrow_index A C c : widens A C -> inside c C -> out_index true (narrow A) c = picked A c.
Proof.
  unfold out_index, narrow. intros H. revert c. induction H as [| a n A C H _ IH]; intros c I; inversion I as [| i ? r ? Hi Hr]; subst; cbn [map out picked]; [reflexivity |]. rewrite IH by exact Hr. destruct (a =? 1); reflexivity.
Qed.
Lemma narrow_select A C : widens A C -> forall c c', inside c C -> inside c' C -> (select false (narrow A) c = select false (narrow A) c' <-> picked A c = picked A c').
Proof.
  unfold narrow. induction 1 as [| a n A C H _ IH]; intros c c' I I'; inversion I as [| i ? r ? Hi Hr]; subst; inversion I' as [| i' ? r' ? Hi' Hr']; subst; cbn [map select picked]; [tauto |].
  specialize (IH r r' Hr Hr'). destruct (a =? 1); cbn [Bool.eqb]; (split; intros E; [| injection E; intros]).
  - f_equal. apply IH. exact E.
  - apply IH. assumption.
  - injection E as -> E. f_equal. apply IH. exact E.
  - f_equal; [assumption | apply IH; assumption].
Qed.
Lemma narrow_group A C c : widens A C -> inside c C -> group (narrow A) C c = used_at A C (picked A c).
Proof.
  intros W I. unfold group, used_at. apply filter_ext_in. intros j Ij. apply indices_in in Ij. pose proof (narrow_select A C W j c Ij I) as E.
  destruct (list_eq_dec Z.eq_dec (select false (narrow A) j) (select false (narrow A) c)), (list_eq_dec Z.eq_dec (picked A j) (picked A c)); tauto.
Qed.
Lemma sum_for_ok junk A C x : widens A C -> above C -> has_size x (size C) ->
  exists e, sum_for junk A (C, x) = Some (A, e) /\ has_size e (size A) /\ forall a, inside a A -> qelem e A a = total (used_at A C a) (qelem x C).
Proof.
  intros W P L. assert (LN : length C = length (narrow A)) by (unfold narrow; rewrite map_length; symmetry; apply widens_length; exact W).
  destruct (ReduceProps.C49_shape (ones_from 0 A) (narrow A) true C (ones_chosen A) LN) as (f & E). rewrite (narrow_shape A C W) in E.
  assert (PA : sizes A) by (clear - W P; induction W as [| a c A C H _ IH]; [constructor |]; inversion P; subst; constructor; [lia | apply IH; assumption]).
  destruct (ReduceProps.C49_sum_partial (ones_from 0 A) (narrow A) true C f x (fresh junk A) (ones_chosen A) LN P) as (y & Y & LY & V).
  { rewrite (narrow_shape A C W). exact E. }
  { exact L. }
  { rewrite (narrow_shape A C W). apply fresh_size. exact PA. }
  exists y. unfold sum_for, py_sum, call_red. cbn [fst snd]. rewrite E. cbn [obind]. rewrite Y. split; [reflexivity |].
  pose proof (fresh_size junk A PA) as FS. split; [unfold has_size in *; congruence |].
  intros a Ia. destruct (ReduceProps.C49_onto true (narrow A) C a LN P) as (c & Ic & <-); [rewrite narrow_shape; assumption |].
  specialize (V c Ic). rewrite (narrow_shape A C W) in V. rewrite V, (narrow_index A C c W Ic), (narrow_group A C c W Ic). reflexivity.
Qed.

(** * Functions of one and two arrays *)
Lemma joined_left_top A B C : joined A B C -> joined C A C /\ joined C B C.
Proof. induction 1 as [| n A B C _ (I & J) | n A B C _ (I & J) | n A B C _ (I & J)]; split; constructor; assumption. Qed.
Lemma call2_ok junk op A B C x0 x1 : joined A B C -> above C -> has_size x0 (size A) -> has_size x1 (size B) ->
  exists y, call2 junk op (A, x0) (B, x1) = Some (C, y) /\ has_size y (size C) /\ pairwise op A B C x0 x1 y.
Proof.
  intros J P L0 L1. assert (U : unmixed A B).
  { clear - J P. unfold unmixed. induction J; [constructor | ..]; inversion P; subst; (constructor; [lia | apply IHJ; assumption]). }
  destruct (proj2 (BinProps.C67_accepted A B C) (conj J U)) as (f & S & O).
  destruct (BinProps.C67_values A B C f op x0 x1 (fresh junk C) S J (above_sizes C P) L0 L1 (fresh_size junk C (above_sizes C P))) as (y & E & L & V).
  exists y. unfold call2. cbn [fst snd]. rewrite S. cbn [obind]. rewrite O, E. cbn [obind]. auto.
Qed.
Lemma call1_ok junk op C x : sizes C -> has_size x (size C) ->
  exists y, call1 junk op (C, x) = Some (C, y) /\ has_size y (size C) /\ forall c, inside c C -> qelem y C c = op (qelem x C c).
Proof.
  intros P L. destruct (BinProps.C68_unary C op (fun _ _ _ => 0%Qc) x (fresh junk C) x true x P L (fresh_size junk C P) L L) as (y & e & E & LY & _ & _ & V).
  exists y. unfold call1. cbn [fst snd]. rewrite E. cbn [obind]. split; [reflexivity |]. split; [exact LY |]. intros c I. apply V. exact I.
Qed.

(** * Gradients of functions of two arrays *)
(** [py] is what [bin_backward] computes with gradients [g0] and [g1]. *)
Lemma same_gradients A B C f g0 g1 x0 x1 y dy d0 d1 e0 e1 : bin_setup A B = Some f -> joined A B C -> above C ->
  has_size x0 (size A) -> has_size x1 (size B) -> has_size y (size C) -> has_size dy (size C) -> has_size d0 (size A) -> has_size d1 (size B) ->
  has_size e0 (size A) -> has_size e1 (size B) ->
  (forall a, inside a A -> qelem e0 A a = total (used_at A C a) (fun c => g0 (qelem dy C c) (qelem x0 A (picked A c)) (qelem x1 B (picked B c)) (qelem y C c))) ->
  (forall b, inside b B -> qelem e1 B b = total (used_at B C b) (fun c => g1 (qelem dy C c) (qelem x0 A (picked A c)) (qelem x1 B (picked B c)) (qelem y C c))) ->
  bin_backward g0 g1 f x0 x1 y dy (Some (false, d0)) (Some (false, d1)) = Some (Some e0, Some e1).
Proof.
  intros S J P L0 L1 LY LE D0 D1 E0 E1 V0 V1.
  assert (PA : sizes A /\ sizes B).
  { clear - J P. induction J; [split; constructor | ..]; inversion P; subst; (destruct IHJ as (IA & IB); [assumption |]); split; constructor; auto; lia. }
  destruct (BinProps.C68_sums A B C f g0 g1 x0 x1 y dy (Some (false, d0)) (Some (false, d1)) S J (above_sizes C P) L0 L1 LY LE D0 D1) as (r0 & r1 & R & T0 & T1).
  rewrite R. destruct r0 as [r0 |]; [| destruct T0]. destruct r1 as [r1 |]; [| destruct T1]. cbn [each_at] in T0, T1. destruct T0 as (N0 & T0). destruct T1 as (N1 & T1).
  assert (OWN : forall (X : list Z) a (h h' : list Z -> Qc), (forall c, picked X c = a -> h c = h' c) -> total (used_at X C a) h = total (used_at X C a) h').
  { intros X a h h' H. apply total_ext. intros c I. apply filter_In in I as (_ & I). apply H. destruct (list_eq_dec Z.eq_dec (picked X c) a); [assumption | discriminate]. }
  assert (r0 = e0) as ->.
  { apply (list_by A); [apply PA | unfold has_size in *; congruence | exact E0 |]. intros a Ia. rewrite T0, V0 by exact Ia. rewrite Qcplus_0_l. apply OWN. intros c ->. reflexivity. }
  assert (r1 = e1) as ->.
  { apply (list_by B); [apply PA | unfold has_size in *; congruence | exact E1 |]. intros a Ia. rewrite T1, V1 by exact Ia. rewrite Qcplus_0_l. apply OWN. intros c ->. reflexivity. }
  reflexivity.
Qed.
Lemma used_in X C a c : In c (used_at X C a) -> inside c C /\ picked X c = a.
Proof. intros I. apply filter_In in I as (I & E). apply indices_in in I. split; [exact I |]. destruct (list_eq_dec Z.eq_dec (picked X c) a); [assumption | discriminate]. Qed.
(** It is enough that sums of [h0] and [h1] over all places are taken. *)
Lemma agrees_by py g0 g1 : (forall junk A B C x0 x1 dy, joined A B C -> above C -> has_size x0 (size A) -> has_size x1 (size B) -> has_size dy (size C) ->
    exists h0 h1, py junk (A, x0) (B, x1) (C, dy) = both (sum_for junk A (C, h0)) (sum_for junk B (C, h1)) /\ has_size h0 (size C) /\ has_size h1 (size C) /\
    forall c v, inside c C -> qelem h0 C c = g0 (qelem dy C c) (qelem x0 A (picked A c)) (qelem x1 B (picked B c)) v /\ qelem h1 C c = g1 (qelem dy C c) (qelem x0 A (picked A c)) (qelem x1 B (picked B c)) v) ->
  agrees py g0 g1.
Proof.
  intros H junk A B C f x0 x1 y dy d0 d1 S J P L0 L1 LY LE D0 D1. destruct (H junk A B C x0 x1 dy J P L0 L1 LE) as (h0 & h1 & -> & H0 & H1 & V).
  destruct (joined_widens A B C J) as (WA & WB). destruct (sum_for_ok junk A C h0 WA P H0) as (e0 & E0 & N0 & V0). destruct (sum_for_ok junk B C h1 WB P H1) as (e1 & E1 & N1 & V1).
  exists e0, e1. rewrite E0, E1. split; [reflexivity |]. apply (same_gradients A B C); try assumption.
  - intros a Ia. rewrite V0 by exact Ia. apply total_ext. intros c Ic. apply used_in in Ic as (Ic & _). apply (V c (qelem y C c) Ic).
  - intros a Ia. rewrite V1 by exact Ia. apply total_ext. intros c Ic. apply used_in in Ic as (Ic & _). apply (V c (qelem y C c) Ic).
Qed.
Lemma add2_agrees : agrees py_add2 add_g0 add_g1.
Proof. apply agrees_by. intros junk A B C x0 x1 dy J P L0 L1 LE. exists dy, dy. repeat split; assumption. Qed.
Lemma sub2_agrees : agrees py_sub2 sub_g0 sub_g1.
Proof.
  apply agrees_by. intros junk A B C x0 x1 dy J P L0 L1 LE. destruct (call1_ok junk (fun u => u * - (1))%Qc C dy (above_sizes C P) LE) as (n & N & LN & VN).
  exists dy, n. unfold py_sub2, negate. rewrite N. cbn [fst snd obind]. repeat split; try assumption. rewrite VN by assumption. unfold sub_g1. ring.
Qed.
Lemma mul2_agrees : agrees py_mul2 mul_g0 mul_g1.
Proof.
  apply agrees_by. intros junk A B C x0 x1 dy J P L0 L1 LE. destruct (joined_left_top A B C J) as (JA & JB).
  destruct (call2_ok junk mul_op C B C dy x1 JB P LE L1) as (n & N & LN & VN). destruct (call2_ok junk mul_op C A C dy x0 JA P LE L0) as (m & M & LM & VM).
  exists n, m. unfold py_mul2. rewrite N, M. cbn [fst snd obind]. repeat split; try assumption; [rewrite VN by assumption | rewrite VM by assumption]; rewrite picked_same by assumption; reflexivity.
Qed.
Lemma div2_agrees : agrees py_div2 div_g0 div_g1.
Proof.
  apply agrees_by. intros junk A B C x0 x1 dy J P L0 L1 LE. destruct (joined_left_top A B C J) as (JA & JB).
  assert (PB : sizes B) by (clear - J P; induction J; [constructor | ..]; inversion P; subst; constructor; try lia; apply IHJ; assumption).
  destruct (call2_ok junk div_op C B C dy x1 JB P LE L1) as (n & N & LN & VN). 
  destruct (call1_ok junk (fun u => u * - (1))%Qc C dy (above_sizes C P) LE) as (m & M & LM & VM). destruct (call2_ok junk mul_op C A C m x0 JA P LM L0) as (p & Q & LP & VP).
  destruct (call1_ok junk (fun u => u * u)%Qc B x1 PB L1) as (s & ES & LS & VS). destruct (call2_ok junk div_op C B C p s JB P LP LS) as (t & T & LT & VT).
  exists n, t. unfold py_div2, negate. rewrite N, M. cbn [fst snd obind]. rewrite Q. cbn [obind]. rewrite ES. cbn [obind]. rewrite T. cbn [obind]. repeat split; try assumption; [rewrite VN by assumption | rewrite VT by assumption]; rewrite picked_same by assumption; [reflexivity |].
  destruct (fit_in A B C J c) as (IA & IB); [assumption |]. rewrite VP, VS by assumption. rewrite picked_same by assumption. rewrite VM by assumption. unfold mul_op, div_op, div_g1. f_equal. ring.
Qed.
Lemma used_self A a (h : list Z -> Qc) : sizes A -> inside a A -> total (used_at A A a) h = h a.
Proof.
  intros P Ia. unfold used_at. rewrite total_filter.
  rewrite (total_indices A _ (fun q => if q =? off a A then h a else 0%Qc)); [apply (zsum_one (size A) (off a A) (fun _ => h a)); apply off_bound; exact Ia | exact P |].
  intros i Ii. rewrite picked_same by exact Ii. destruct (list_eq_dec Z.eq_dec i a) as [-> | N]; [rewrite Z.eqb_refl; reflexivity |]. destruct (Z.eqb_spec (off i A) (off a A)) as [Q |]; [| reflexivity]. exfalso. apply N. apply (SliceProofs.off_inj A); assumption.
Qed.
Lemma extreme_agrees cmp g0 g1 : (forall e a b v, g0 e a b v = (e * cmp a b)%Qc) -> (forall e a b v, g1 e a b v = (e * (1 - cmp a b))%Qc) -> agrees_same (py_extreme cmp) g0 g1.
Proof.
  intros G0 G1 junk A f x0 x1 y dy d0 d1 S P L0 L1 LY LE D0 D1. assert (J : joined A A A) by (clear; induction A; constructor; assumption). pose proof (above_sizes A P) as PA.
  destruct (call2_ok junk cmp A A A x0 x1 J P L0 L1) as (m & M & LM & VM). destruct (call1_ok junk (fun u => 1 - u)%Qc A m PA LM) as (n & N & LN & VN).
  destruct (call2_ok junk mul_op A A A dy m J P LE LM) as (e0 & E0 & N0 & V0). destruct (call2_ok junk mul_op A A A dy n J P LE LN) as (e1 & E1 & N1 & V1).
  exists e0, e1. unfold py_extreme. rewrite M. cbn [obind]. rewrite N. cbn [obind]. rewrite E0, E1. split; [reflexivity |].
  apply (same_gradients A A A); try assumption; intros a Ia; rewrite used_self by assumption; rewrite ?G0, ?G1; [rewrite V0 by exact Ia | rewrite V1 by exact Ia]; rewrite !picked_same by exact Ia; unfold mul_op; [| rewrite VN by exact Ia]; rewrite VM by exact Ia; rewrite !picked_same by exact Ia; reflexivity.
Qed.
