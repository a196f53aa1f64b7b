(** Warping by a grid: the loops. *)
From Coq Require Import List ZArith Lia Bool QArith Qcanon Qround.
From Verif Require Import NdSpec NdProofs IdxModel IdxProofs1 IdxProofs2 IdxProofs3 JoinModel JoinProofs ScanSpec ScanModel ScanProofs1 ReduceModel ReduceProofs1 ConvModel ConvSpec ConvProofs1 ConvProofs3 ConvProofs5 PoolProofs3 PoolProofs5 QuantModel QuantSpec QuantProofs1 ItpModel ItpSpec ItpProofs1 ItpProofs2 PcProofs1 WgModel WgSpec WgProofs1.
From Verif Require MatProps.
Import ListNotations.
Local Open Scope list_scope.
Local Open Scope Z_scope.

Section Warp.
Variables (f : warp) (grid : list Qc).
Notation B := (w_B f). Notation C := (w_C f). Notation Ho := (w_Ho f). Notation Wo := (w_Wo f). Notation Hi := (w_Hi f). Notation Wi := (w_Wi f).
Let xs := [B; C; Hi; Wi].
Let gs := [B; Ho; Wo; 2].
Let ys := [B; C; Ho; Wo].
Hypothesis fy : 0 < Hi.
Hypothesis fx : 0 < Wi.
Hypothesis nn : 0 <= B /\ 0 <= C /\ 0 <= Ho /\ 0 <= Wo.
Hypothesis lg : qlen grid = size gs.
Definition found (s : Qc) (n : Z) : Qc := match findex (w_mode f) (w_align f) s n with Some r => r | None => 0%Qc end.
Definition XF (b h w : Z) : Qc := found (place_of (w_align f) (qelem grid gs [b; h; w; 0]) Wi) Wi.
Definition YF (b h w : Z) : Qc := found (place_of (w_align f) (qelem grid gs [b; h; w; 1]) Hi) Hi.
Lemma found_ok v n (s := place_of (w_align f) v n) : 0 < n -> findex (w_mode f) (w_align f) s n = Some (found s n) /\ taken (border_of (w_mode f)) (w_align f) n s (found s n).
Proof using.
  intros N. unfold found. assert (D : fine (w_mode f) (w_align f) n \/ (w_mode f = Reflect /\ w_align f = true /\ n = 1)).
  { unfold fine. destruct (w_mode f), (w_align f); try (left; split; [exact N | discriminate]); try (left; split; [exact N | intros _; discriminate]). destruct (Z.eq_dec n 1); [right; auto | left; split; [exact N | lia]]. }
  destruct D as [F | (M & A & ->)]; [destruct (findex_ok _ _ n s F) as (r & E & T); rewrite E; split; [reflexivity | exact T] |].
  assert (Z0 : s = 0%Qc). { unfold s, place_of. rewrite A. change (whole_number (1 - 1)) with 0%Qc. apply Qcmult_0_r. }
  clearbody s. subst s. rewrite M, A. assert (E : findex Reflect true 0%Qc 1 = Some 0%Qc) by reflexivity. rewrite E. split; [reflexivity |]. cbn [border_of taken]. change (whole_number (1 - 1)) with 0%Qc.
  split; [apply Qcle_refl |]. split; [apply Qcle_refl |]. exists 0. left. change (whole_number (2 * 0)) with 0%Qc. ring.
Qed.
Definition on4 {A : Type} (F : Z -> Z -> Z -> Z -> A) (d : A) (i : list Z) : A := match i with [b; c; h; w] => F b c h w | _ => d end.
Lemma nny : nonneg ys.
Proof using nn. unfold ys. repeat constructor; lia. Qed.
Lemma each_output_ok {A : Type} (body : Z -> Z -> Z -> Z -> Qc -> Qc -> Z -> A -> option A) s :
  each_output f grid body s = obind (loop (fun i => on4 (fun b c h w => body b c h w (YF b h w) (XF b h w)) (fun _ _ => None) i (off i ys)) (indices ys) s) (fun s => Some (s, size ys)).
Proof using fy fx nn lg.
  rewrite <- (counted_indices (on4 (fun b c h w => body b c h w (YF b h w) (XF b h w)) (fun _ _ => None))) by exact nny. unfold each_output, ys.
  rewrite loop_cons. apply loop_ext. intros b s1 Hb. apply upto_in in Hb. rewrite loop_cons. apply loop_ext. intros c s2 Hc. rewrite loop_cons. apply loop_ext. intros h s3 Hh. apply upto_in in Hh. rewrite loop_indices_1. apply loop_ext. intros w [s4 it] Hw. apply upto_in in Hw. cbn [on4]. cbv zeta.
  assert (I0 : inside [b; h; w; 0] gs) by (unfold gs; repeat constructor; lia). assert (I1 : inside [b; h; w; 1] gs) by (unfold gs; repeat constructor; lia).
  pose proof (off_bound _ _ I0) as B0. pose proof (off_bound _ _ I1) as B1.
  replace (b * (Ho * Wo * 2) + h * (Wo * 2) + w * 2 + 0) with (off [b; h; w; 0] gs) by (unfold gs; cbn [off size]; ring).
  replace (b * (Ho * Wo * 2) + h * (Wo * 2) + w * 2 + 1) with (off [b; h; w; 1] gs) by (unfold gs; cbn [off size]; ring).
  rewrite !get_ok by (unfold within; rewrite lg; assumption). cbn [obind]. rewrite !unnormalize_ok, <- !MatProps.qelem_off by assumption.
  rewrite (proj1 (found_ok _ Wi fx)). cbn [obind]. rewrite (proj1 (found_ok _ Hi fy)). cbn [obind]. reflexivity.
Qed.
Definition P (x : list Qc) (b c h w : Z) : Qc := if (0 <=? h) && (h <? Hi) && ((0 <=? w) && (w <? Wi)) then qat x (off [b; c; h; w] xs) else 0%Qc.
Lemma pixel_ok x b c h w : qlen x = size xs -> 0 <= b < B -> 0 <= c < C -> pixel x C Hi Wi b c h w = Some (P x b c h w).
Proof using.
  intros L Hb Hc. unfold pixel, P. destruct ((0 <=? h) && (h <? Hi) && ((0 <=? w) && (w <? Wi))) eqn:E; [| reflexivity]. rewrite !andb_true_iff, !Z.leb_le, !Z.ltb_lt in E.
  assert (I : inside [b; c; h; w] xs) by (unfold xs; repeat constructor; lia). pose proof (off_bound _ _ I) as BO. replace (b * (C * Hi * Wi) + c * (Hi * Wi) + h * Wi + w) with (off [b; c; h; w] xs) by (unfold xs; cbn [off size]; ring).
  apply get_ok. unfold within. rewrite L. exact BO.
Qed.
Lemma add_pixel_ok a b c h w v : qlen a = size xs -> 0 <= b < B -> 0 <= c < C -> exists a', add_pixel C Hi Wi b c h w v a = Some a' /\ length a' = length a /\ forall u, qinner u a' = (qinner u a + P u b c h w * v)%Qc.
Proof using.
  intros L Hb Hc. unfold add_pixel, P. destruct ((0 <=? h) && (h <? Hi) && ((0 <=? w) && (w <? Wi))) eqn:E; [| exists a; split; [reflexivity |]; split; [reflexivity |]; intros u; ring]. rewrite !andb_true_iff, !Z.leb_le, !Z.ltb_lt in E.
  assert (I : inside [b; c; h; w] xs) by (unfold xs; repeat constructor; lia). pose proof (off_bound _ _ I) as BO. replace (b * (C * Hi * Wi) + c * (Hi * Wi) + h * Wi + w) with (off [b; c; h; w] xs) by (unfold xs; cbn [off size]; ring).
  apply add_at_ok. unfold within. rewrite L. exact BO.
Qed.
Definition mixed (x : list Qc) (b c : Z) (yf xf : Qc) : Qc :=
  let xi0 := Qfloor xf in let yi0 := Qfloor yf in let px0 := (xf - of_Z xi0)%Qc in let py0 := (yf - of_Z yi0)%Qc in
  (P x b c yi0 xi0 * (1 - py0) * (1 - px0) + P x b c yi0 (xi0 + 1) * (1 - py0) * px0 + P x b c (yi0 + 1) xi0 * py0 * (1 - px0) + P x b c (yi0 + 1) (xi0 + 1) * py0 * px0)%Qc.
Definition value (linear : bool) (x : list Qc) (i : list Z) : Qc :=
  on4 (fun b c h w => if linear then mixed x b c (YF b h w) (XF b h w) else P x b c (round_int (YF b h w)) (round_int (XF b h w))) 0%Qc i.
Lemma inside4 i : inside i ys -> exists b c h w, i = [b; c; h; w] /\ 0 <= b < B /\ 0 <= c < C /\ 0 <= h < Ho /\ 0 <= w < Wo.
Proof using.
  unfold ys, inside. intros I. destruct i as [| b [| c [| h [| w [| ? ?]]]]]; try (exfalso; inversion I; repeat match goal with h : Forall2 _ _ _ |- _ => inversion h; clear h end; discriminate). exists b, c, h, w. split; [reflexivity |].
  repeat match goal with h : Forall2 _ (_ :: _) (_ :: _) |- _ => inversion_clear h end. repeat split; lia.
Qed.
Lemma forward_ok linear x y0 : qlen x = size xs -> qlen y0 = size ys ->
  exists y, warp_forward f linear false x grid y0 = Some y /\ length y = length y0 /\ forall i, inside i ys -> qat y (off i ys) = value linear x i.
Proof using fy fx nn lg.
  intros LX LY. unfold warp_forward. destruct linear.
  - unfold linear_forward. rewrite each_output_ok. match goal with |- context [loop ?st _ _] => destruct (put_loop ys st (value true x) y0) as (y & E & L & V) end; [exact nny | exact LY | | rewrite E; exists y; split; [reflexivity | split; assumption]].
    intros i s I. destruct (inside4 i I) as (b & c & h & w & -> & Hb & Hc & _). cbn [on4 value]. cbv zeta. rewrite !pixel_ok by assumption. cbn [obind]. reflexivity.
  - unfold nearest_forward. rewrite each_output_ok. match goal with |- context [loop ?st _ _] => destruct (put_loop ys st (value false x) y0) as (y & E & L & V) end; [exact nny | exact LY | | rewrite E; exists y; split; [reflexivity | split; assumption]].
    intros i s I. destruct (inside4 i I) as (b & c & h & w & -> & Hb & Hc & _). cbn [on4 value]. rewrite !pixel_ok by assumption. cbn [obind]. reflexivity.
Qed.
Lemma backward_ok (linear : bool) gy d0 : qlen gy = size ys -> qlen d0 = size xs ->
  exists d, (if linear then linear_backward_data f gy grid d0 else nearest_backward_data f gy grid d0) = Some d /\ length d = length d0 /\
  forall u, qinner u d = (qinner u d0 + total (indices ys) (fun i => qat gy (off i ys) * value linear u i))%Qc.
Proof using fy fx nn lg.
  intros LG LD. destruct linear.
  - unfold linear_backward_data. rewrite each_output_ok. match goal with |- context [loop ?st _ _] => destruct (add_loop (indices ys) st (fun u i => qat gy (off i ys) * value true u i)%Qc (size xs)) with (a := d0) as (d & E & L & V) end; [| exact LD | rewrite E; exists d; split; [reflexivity | split; assumption]].
    intros i a I LA. apply indices_in in I. pose proof (off_bound _ _ I) as BO. destruct (inside4 i I) as (b & c & h & w & -> & Hb & Hc & _). cbn [on4 value]. cbv zeta. rewrite get_ok by (unfold within; lia). cbn [obind]. set (g := qat gy (off [b; c; h; w] ys)). unfold mixed. cbv zeta.
    set (x0 := Qfloor (XF b h w)). set (y0 := Qfloor (YF b h w)). set (px := (XF b h w - of_Z x0)%Qc). set (py := (YF b h w - of_Z y0)%Qc). clearbody px py x0 y0 g.
    destruct (add_pixel_ok a b c y0 x0 (g * (1 - py) * (1 - px))%Qc) as (a1 & E1 & L1 & Q1); [assumption .. |]. rewrite E1. cbn [obind].
    destruct (add_pixel_ok a1 b c y0 (x0 + 1) (g * (1 - py) * px)%Qc) as (a2 & E2 & L2 & Q2); [unfold qlen in *; congruence | assumption .. |]. rewrite E2. cbn [obind].
    destruct (add_pixel_ok a2 b c (y0 + 1) x0 (g * py * (1 - px))%Qc) as (a3 & E3 & L3 & Q3); [unfold qlen in *; congruence | assumption .. |]. rewrite E3. cbn [obind].
    destruct (add_pixel_ok a3 b c (y0 + 1) (x0 + 1) (g * py * px)%Qc) as (a4 & E4 & L4 & Q4); [unfold qlen in *; congruence | assumption .. |]. rewrite E4.
    exists a4. split; [reflexivity |]. split; [congruence |]. intros u. rewrite Q4, Q3, Q2, Q1. ring.
  - unfold nearest_backward_data. rewrite each_output_ok. match goal with |- context [loop ?st _ _] => destruct (add_loop (indices ys) st (fun u i => qat gy (off i ys) * value false u i)%Qc (size xs)) with (a := d0) as (d & E & L & V) end; [| exact LD | rewrite E; exists d; split; [reflexivity | split; assumption]].
    intros i a I LA. apply indices_in in I. pose proof (off_bound _ _ I) as BO. destruct (inside4 i I) as (b & c & h & w & -> & Hb & Hc & _). cbn [on4 value]. rewrite get_ok by (unfold within; lia). cbn [obind].
    match goal with |- context [add_pixel _ _ _ _ _ ?p ?r ?v _] => destruct (add_pixel_ok a b c p r v) as (a1 & E1 & L1 & Q1); [assumption .. |] end. exists a1. split; [exact E1 |]. split; [exact L1 |]. intros u. rewrite Q1. ring.
Qed.
Lemma mixed_ok x b c yf xf : 0 <= b < B -> 0 <= c < C -> mixed x b c yf xf = bilinear Hi Wi (fun i j => qelem x xs [b; c; i; j]) yf xf.
Proof using.
  intros Hb Hc. unfold bilinear. rewrite total_more. rewrite (zsum_ext Hi _ (fun i => hat yf i * zsum Wi (fun j => hat xf j * qelem x xs [b; c; i; j]))%Qc).
  2: { intros i _. rewrite total_one, <- zsum_scale. apply zsum_ext. intros j _. ring. }
  rewrite hat_sum. cbv zeta. rewrite !hat_sum. cbv zeta. unfold mixed. cbv zeta. change (of_Z (Qfloor xf)) with (whole_number (Qfloor xf)). change (of_Z (Qfloor yf)) with (whole_number (Qfloor yf)).
  set (px := (xf - whole_number (Qfloor xf))%Qc). set (py := (yf - whole_number (Qfloor yf))%Qc). clearbody px py. set (x0 := Qfloor xf). set (y0 := Qfloor yf). clearbody x0 y0.
  assert (PE : forall i j, P x b c i j = if in_range Hi i then if in_range Wi j then qelem x xs [b; c; i; j] else 0%Qc else 0%Qc).
  { intros i j. unfold P, in_range. destruct (0 <=? i) eqn:E1, (i <? Hi) eqn:E2, (0 <=? j) eqn:E3, (j <? Wi) eqn:E4; cbn [andb]; try reflexivity. rewrite ?Z.leb_le, ?Z.ltb_lt in *. symmetry. apply MatProps.qelem_off. unfold xs. repeat constructor; lia. }
  rewrite !PE. destruct (in_range Hi y0), (in_range Hi (y0 + 1)), (in_range Wi x0), (in_range Wi (x0 + 1)); ring.
Qed.
End Warp.
