(** Interpolation: the whole function. *)
From Coq Require Import List ZArith Lia Lqa Bool QArith Qcanon Qround.
From Verif Require Import NdSpec NdProofs IdxModel IdxProofs1 IdxProofs2 IdxProofs3 IdxProofs6 JoinModel JoinProofs ScanSpec ReduceSpec ScanModel ScanProofs1 ReduceModel ReduceProofs1 ConvModel ConvSpec ConvProofs1 ConvProofs3 ConvProofs5 ConvProofs7 PoolProofs3 PoolProofs5 FoldProofs4 ScatProofs1 BinProofs3 NmsProofs1 QuantModel QuantSpec QuantProofs1 ItpModel ItpSpec ItpProofs1 ItpProofs2 ItpProofs3.
Import ListNotations.
Local Open Scope list_scope.
Local Open Scope Z_scope.

Lemma axis_app L ns i : 0 < i <= Z.of_nat (length ns) -> axis_size (L ++ ns) i = get ns (Z.of_nat (length ns) - i).
Proof.
  intros H. unfold axis_size, get. rewrite app_length, Nat2Z.inj_add. destruct (Z.ltb_spec (Z.of_nat (length L) + Z.of_nat (length ns) - i) 0); [lia |]. destruct (Z.ltb_spec (Z.of_nat (length ns) - i) 0); [lia |].
  rewrite nth_error_app2 by lia. f_equal. lia.
Qed.
Lemma outer_ok L ns k : nonneg L -> k = size ns -> 0 < k -> divide (prod (L ++ ns)) k = Some (size L).
Proof. intros P -> K. unfold divide. destruct (Z.eqb_spec (size ns) 0); [lia |]. rewrite prod_size, size_app, Z.quot_mul by lia. reflexivity. Qed.
Lemma size_pos ns : Forall (fun n => 0 < n) ns -> 0 < size ns.
Proof. induction 1; cbn [size]; [lia | nia]. Qed.

Definition val_of (f : itp) (ns ms : list Z) : list Qc -> list Z -> Qc :=
  match mode f with
  | Nearest => V_near (align_corners f) (half_pixel f) (half_pixel_for_nn f) ns ms
  | _ => V_lin (align_corners f) (half_pixel f) ns ms
  end.
(** What setup_impl and the CPU accept. *)
Record accepted (f : itp) (L ns ms : list Z) : Prop := {
  a_lead : nonneg L; a_in : Forall (fun n => 0 < n) ns; a_out : nonneg ms;
  a_len : length ns = length ms; a_size : output_size f = ms; a_dims : 1 <= Z.of_nat (length ms) <= 3;
  a_mode : mode f <> Other_mode; a_flags : align_corners f && half_pixel f = false; a_first : channel_last f = false }.

Section acc.
Variables (f : itp) (L ns ms : list Z).
Hypothesis A : accepted f L ns ms.
Let N := size L.
Ltac open_acc := destruct A as [AL AI AO ALEN ASZ AD AM AF AC];
  assert (HN : 0 <= size L) by (apply size_nonneg; exact AL).
Ltac axes := rewrite !axis_app by (cbn [length]; lia); cbn [length Z.of_nat Pos.of_succ_nat Pos.succ Z.sub Z.add Z.opp Z.pos_sub Pos.pred_double Z.succ_double Z.double Z.pred_double];
  repeat match goal with |- context [get [?a] 0] => change (get [a] 0) with (Some a) | |- context [get [?b; ?a] 0] => change (get [b; a] 0) with (Some b) | |- context [get [?b; ?a] 1] => change (get [b; a] 1) with (Some a)
    | |- context [get [?d; ?b; ?a] 0] => change (get [d; b; a] 0) with (Some d) | |- context [get [?d; ?b; ?a] 1] => change (get [d; b; a] 1) with (Some b) | |- context [get [?d; ?b; ?a] 2] => change (get [d; b; a] 2) with (Some a) end; cbn [obind].
Lemma forward_loop src dst : qlen src = N * size ns ->
  itp_forward f (L ++ ns) (L ++ ms) src dst = loop (fun idx dst => put dst (off idx (N :: ms)) (val_of f ns ms src idx)) (indices (N :: ms)) dst.
Proof using A.
  intros LS. open_acc. unfold itp_forward, val_of. rewrite AC, ASZ. cbv zeta. pose proof (size_pos ns AI) as SP.
  destruct ms as [| a [| b [| c [| e ms']]]]; cbn [length] in ALEN, AD |- *; try lia.
  - destruct ns as [| n1 [| ? ?]]; try discriminate. pose proof (Forall_inv AI) as P1; cbv beta in P1. change (Z.of_nat 1) with 1. cbv iota. axes. rewrite (outer_ok L [n1]) by (try assumption; cbn [size] in *; lia). cbn [obind].
    destruct (mode f); [apply linear_1d_loop | apply nearest_1d_loop |]; try assumption. congruence.
  - destruct ns as [| n1 [| n2 [| ? ?]]]; try discriminate. pose proof (Forall_inv AI) as P1; pose proof (Forall_inv (Forall_inv_tail AI)) as P2; cbv beta in P1, P2. change (Z.of_nat 2) with 2. cbv iota. axes. rewrite (outer_ok L [n1; n2]) by (try assumption; cbn [size] in *; lia). cbn [obind].
    destruct (mode f); [apply linear_2d_loop | apply nearest_2d_loop |]; try assumption. congruence.
  - destruct ns as [| n1 [| n2 [| n3 [| ? ?]]]]; try discriminate. pose proof (Forall_inv AI) as P1; pose proof (Forall_inv (Forall_inv_tail AI)) as P2; pose proof (Forall_inv (Forall_inv_tail (Forall_inv_tail AI))) as P3; cbv beta in P1, P2, P3. change (Z.of_nat 3) with 3. cbv iota. axes. rewrite (outer_ok L [n1; n2; n3]) by (try assumption; cbn [size] in *; lia). cbn [obind].
    destruct (mode f); [apply linear_3d_loop | apply nearest_3d_loop |]; try assumption. congruence.
Qed.
Lemma forward_ok src dst : qlen src = N * size ns -> qlen dst = N * size ms ->
  exists y, itp_forward f (L ++ ns) (L ++ ms) src dst = Some y /\ length y = length dst /\ forall idx, inside idx (N :: ms) -> qat y (off idx (N :: ms)) = val_of f ns ms src idx.
Proof using A.
  intros LS LD. rewrite forward_loop by exact LS. open_acc. apply put_loop; [constructor; assumption | cbn [size]; exact LD | reflexivity].
Qed.
Lemma backward_ok accum gy gx : qlen gy = N * size ms -> qlen gx = N * size ns ->
  exists d, itp_backward f (L ++ ns) (L ++ ms) gy (Some (accum, gx)) = Some (Some d) /\ length d = length gx /\
  forall u, qinner u d = ((if accum then qinner u gx else 0) + total (indices (N :: ms)) (fun idx => val_of f ns ms u idx * qat gy (off idx (N :: ms))))%Qc.
Proof using A.
  intros LG LX. open_acc. set (g0 := cleared accum gx). assert (L0 : qlen g0 = N * size ns) by (rewrite <- LX; unfold g0, cleared, qlen; destruct accum; [reflexivity | rewrite map_length; reflexivity]).
  assert (L0' : length g0 = length gx) by (unfold qlen in *; lia).
  assert (DONE : forall parts, whole_parts gy N ns ms (val_of f ns ms) parts -> exists d, obind (loop (fun idx => adds (parts idx)) (indices (N :: ms)) g0) (fun a => Some (Some a)) = Some (Some d) /\ length d = length gx /\
    forall u, qinner u d = ((if accum then qinner u gx else 0) + total (indices (N :: ms)) (fun idx => val_of f ns ms u idx * qat gy (off idx (N :: ms))))%Qc).
  { intros parts W. destruct (back_sum gy N ns ms _ parts W g0 L0) as (d & E & LD & Q). exists d. rewrite E. cbn [obind]. split; [reflexivity |]. split; [congruence |]. intros u. rewrite Q. unfold g0. rewrite cleared_qinner. reflexivity. }
  unfold itp_backward, start, on_grad. rewrite AC, ASZ. cbv zeta. fold g0. pose proof (size_pos ns AI) as SP. revert DONE. unfold val_of.
  destruct ms as [| a [| b [| c [| e ms']]]]; cbn [length] in ALEN, AD |- *; try lia; intros DONE.
  - destruct ns as [| n1 [| ? ?]]; try discriminate. pose proof (Forall_inv AI) as P1; cbv beta in P1. change (Z.of_nat 1) with 1. cbv iota. axes. rewrite (outer_ok L [n1]) by (try assumption; cbn [size] in *; lia). cbn [obind].
    destruct (mode f); [| | congruence].
    + rewrite linear_1d_back_loop by assumption. apply DONE. apply parts_1_ok; assumption.
    + rewrite nearest_1d_back_loop by assumption. apply DONE. apply parts_n_ok; assumption.
  - destruct ns as [| n1 [| n2 [| ? ?]]]; try discriminate. pose proof (Forall_inv AI) as P1; pose proof (Forall_inv (Forall_inv_tail AI)) as P2; cbv beta in P1, P2. change (Z.of_nat 2) with 2. cbv iota. axes. rewrite (outer_ok L [n1; n2]) by (try assumption; cbn [size] in *; lia). cbn [obind].
    destruct (mode f); [| | congruence].
    + rewrite linear_2d_back_loop by assumption. apply DONE. apply parts_2_ok; assumption.
    + rewrite nearest_2d_back_loop by assumption. apply DONE. apply parts_n_ok; assumption.
  - destruct ns as [| n1 [| n2 [| n3 [| ? ?]]]]; try discriminate. pose proof (Forall_inv AI) as P1; pose proof (Forall_inv (Forall_inv_tail AI)) as P2; pose proof (Forall_inv (Forall_inv_tail (Forall_inv_tail AI))) as P3; cbv beta in P1, P2, P3. change (Z.of_nat 3) with 3. cbv iota. axes. rewrite (outer_ok L [n1; n2; n3]) by (try assumption; cbn [size] in *; lia). cbn [obind].
    destruct (mode f); [| | congruence].
    + rewrite linear_3d_back_loop by assumption. apply DONE. apply parts_3_ok; assumption.
    + rewrite nearest_3d_back_loop by assumption. apply DONE. apply parts_n_ok; assumption.
Qed.
Lemma adjoint_ok gy u w dst : qlen gy = N * size ms -> qlen u = N * size ns -> qlen dst = N * size ms -> itp_forward f (L ++ ns) (L ++ ms) u dst = Some w ->
  total (indices (N :: ms)) (fun idx => val_of f ns ms u idx * qat gy (off idx (N :: ms)))%Qc = qinner gy w.
Proof using A.
  intros LG LU LD E. destruct (forward_ok u dst LU LD) as (y & Ey & Ly & V). rewrite E in Ey. injection Ey as <-. open_acc.
  rewrite qinner_zsum by (unfold qlen in *; lia). replace (qlen w) with (size (N :: ms)) by (cbn [size]; unfold qlen in *; lia).
  apply total_indices; [constructor; assumption |]. intros i I. rewrite V by exact I. ring.
Qed.
(** Elements. *)
Lemma elem_out y l o : inside l L -> inside o ms -> qelem y (L ++ ms) (l ++ o) = qat y (off (off l L :: o) (N :: ms)).
Proof using.
  intros IL IO. unfold qelem, qat. rewrite position_off by (apply inside_app; assumption). rewrite Z.mul_0_l, Z.add_0_l, off_app by assumption. reflexivity.
Qed.
Lemma elem_in x l i : inside l L -> inside i ns -> qelem x (L ++ ns) (l ++ i) = E x ns (off l L) i.
Proof using.
  intros IL IO. unfold qelem, E, qat. rewrite position_off by (apply inside_app; assumption). rewrite Z.mul_0_l, Z.add_0_l, off_app by assumption. reflexivity.
Qed.
Lemma lin_elem x l o : inside l L -> inside o ms -> V_lin (align_corners f) (half_pixel f) ns ms x (off l L :: o) = interpolated (used (rule_of (align_corners f) (half_pixel f))) L ns ms x l o.
Proof using.
  intros IL IO. unfold V_lin, interpolated. apply total_ext. intros i I. apply indices_in in I. rewrite elem_in by assumption. reflexivity.
Qed.
Lemma near_elem x l o : inside l L -> inside o ms ->
  V_near (align_corners f) (half_pixel f) (half_pixel_for_nn f) ns ms x (off l L :: o) = qelem x (L ++ ns) (l ++ cuts (nn_rule (align_corners f) (half_pixel f) (half_pixel_for_nn f)) ns ms o).
Proof using A. intros IL IO. open_acc. unfold V_near. rewrite elem_in; [reflexivity | exact IL |]. apply cuts_in; assumption. Qed.
End acc.
