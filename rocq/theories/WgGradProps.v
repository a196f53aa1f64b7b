(** Properties of the gradient of the grid of warping. *)
From Coq Require Import List ZArith Lia Lqa Bool QArith Qcanon Qround.
From Verif Require Import NdSpec NdProofs IdxModel IdxProofs1 IdxProofs2 IdxProofs3 JoinModel JoinProofs ScanSpec ReduceSpec ScanModel ScanProofs1 ReduceModel ReduceProofs1 ConvModel ConvSpec ConvProofs1 ConvProofs3 ConvProofs5 PoolProofs3 FoldProofs3 NmsProofs1 QuantModel QuantSpec QuantProofs1 ItpModel ItpSpec ItpProofs1 ItpProofs2 WgModel WgSpec WgProofs1 WgProofs2 WgProps WgGradModel WgGradSpec WgGradProofs1 WgGradProofs2.
From Verif Require MatProps.
Import ListNotations.
Local Open Scope list_scope.
Local Open Scope Z_scope.

(** * C127: the gradient of the grid *)
(** Between two grids that differ in their numbers of one kind (component 0, along the width, or 1,
    along the height) by steps that do not leave a cell of the image or a piece of the border, the
    output, seen through the gradient [gy], changes as the gradient of the grid says. *)
Definition axis (f : warp) (k : Z) : Z := if k =? 0 then w_Wi f else w_Hi f.
Record moves (f : warp) (k : Z) (grid grid' : list Qc) : Prop := {
  m_other : forall b h w, inside [b; h; w; 1 - k] (grid_shape f) -> qelem grid' (grid_shape f) [b; h; w; 1 - k] = qelem grid (grid_shape f) [b; h; w; 1 - k];
  m_piece : forall b h w, inside [b; h; w; k] (grid_shape f) ->
    one_piece (border_for (w_mode f)) (w_align f) (axis f k) (place_of (w_align f) (qelem grid (grid_shape f) [b; h; w; k]) (axis f k)) (place_of (w_align f) (qelem grid' (grid_shape f) [b; h; w; k]) (axis f k));
  m_cell : forall b h w, inside [b; h; w; k] (grid_shape f) ->
    one_cell (border_for (w_mode f)) (w_align f) (axis f k) (place_of (w_align f) (qelem grid (grid_shape f) [b; h; w; k]) (axis f k)) (place_of (w_align f) (qelem grid' (grid_shape f) [b; h; w; k]) (axis f k)) }.
Theorem C127_gradient : forall f x grid grid' gy (accum : bool) d0 y0 y y' k, suits f -> k = 0 \/ k = 1 ->
  has_size x (size (in_shape f)) -> has_size grid (size (grid_shape f)) -> has_size grid' (size (grid_shape f)) -> has_size gy (size (out_shape f)) -> has_size d0 (size (grid_shape f)) -> has_size y0 (size (out_shape f)) ->
  moves f k grid grid' -> warp_forward f true false x grid y0 = Some y -> warp_forward f true false x grid' y0 = Some y' ->
  exists d, warp_backward_grid f true false gy x grid (Some (accum, d0)) = Some (Some d) /\ length d = length d0 /\
  (qinner gy y' - qinner gy y = qinner grid' d - qinner grid d - (if accum then qinner grid' d0 - qinner grid d0 else 0))%Qc.
Proof.
  intros f x grid grid' gy accum d0 y0 y y' k S K HX HG HG' HGY HD HY M EY EY'. destruct (s_pixels f S) as (F1 & F2).
  destruct (grid_ok f grid x F1 F2 (s_sizes f S) HG HX gy (cleared accum d0)) as (d & E & L & V); [exact HGY | unfold qlen, has_size in *; rewrite cleared_length; exact HD |].
  exists d. split; [unfold warp_backward_grid, on_grad, start; rewrite E; reflexivity |]. split; [rewrite L; apply cleared_length |].
  destruct (forward_ok f grid F1 F2 (s_sizes f S) HG true x y0 HX HY) as (y1 & E1 & L1 & V1). rewrite EY in E1. inversion E1; subst y1. clear E1.
  destruct (forward_ok f grid' F1 F2 (s_sizes f S) HG' true x y0 HX HY) as (y1 & E1 & L1' & V1'). rewrite EY' in E1. inversion E1; subst y1. clear E1.
  change [w_B f; w_C f; w_Ho f; w_Wo f] with (out_shape f) in *. change [w_B f; w_Ho f; w_Wo f; 2] with (grid_shape f) in *.
  assert (IN : forall v, length v = length y0 -> forall G, (forall i, inside i (out_shape f) -> qat v (off i (out_shape f)) = G i) -> qinner gy v = total (indices (out_shape f)) (fun i => qat gy (off i (out_shape f)) * G i)%Qc).
  { intros v LV G HV. unfold has_size in *. rewrite qinner_zsum by lia. unfold qlen. rewrite LV, HY. symmetry. apply total_indices; [exact (nny f (s_sizes f S)) |]. intros i I. rewrite HV by exact I. reflexivity. }
  rewrite (IN y' L1' _ V1'), (IN y L1 _ V1), !V, !cleared_qinner. clear IN V V1 V1' E.
  assert (T : (total (indices (out_shape f)) (fun i => qat gy (off i (out_shape f)) * value f grid' true x i) + total (indices (out_shape f)) (fun i => qat gy (off i (out_shape f)) * change f grid x grid i) =
    total (indices (out_shape f)) (fun i => qat gy (off i (out_shape f)) * value f grid true x i) + total (indices (out_shape f)) (fun i => qat gy (off i (out_shape f)) * change f grid x grid' i))%Qc).
  2: { set (a := total _ _) in *. clearbody a. set (a1 := total _ _) in *. clearbody a1. set (a2 := total _ _) in *. clearbody a2. set (a3 := total _ _) in *. clearbody a3. set (g1 := qinner grid d0). set (g2 := qinner grid' d0). clearbody g1 g2. destruct accum; qlra. }
  rewrite <- !total_plus. apply total_ext. intros i I. apply indices_in in I. destruct (inside4 f i I) as (b & c & h & w & -> & Hb & Hc & Hh & Hw). cbn [value change on4]. set (g := qat gy _). clearbody g.
  assert (I0 : inside [b; h; w; 0] (grid_shape f)) by (unfold grid_shape; repeat constructor; lia). assert (I1 : inside [b; h; w; 1] (grid_shape f)) by (unfold grid_shape; repeat constructor; lia).
  change [w_B f; w_Ho f; w_Wo f; 2] with (grid_shape f). rewrite <- !MatProps.qelem_off by assumption.
  destruct M as [MO MP MC]. destruct K as [-> | ->]; cbn [Z.sub Z.add Z.opp Z.pos_sub] in MO; unfold axis in *; cbn [Z.eqb] in *.
  - specialize (MO b h w I1). specialize (MP b h w I0). specialize (MC b h w I0). rewrite MO.
    assert (EYF : YF f grid' b h w = YF f grid b h w) by (unfold YF; change [w_B f; w_Ho f; w_Wo f; 2] with (grid_shape f); rewrite MO; reflexivity). rewrite EYF.
    assert (SM : (XF f grid' b h w - XF f grid b h w = slope (w_mode f) (w_align f) (place_of (w_align f) (qelem grid (grid_shape f) [b; h; w; 0%Z]) (w_Wi f)) (w_Wi f) * (qelem grid' (grid_shape f) [b; h; w; 0%Z] - qelem grid (grid_shape f) [b; h; w; 0%Z]))%Qc) by exact (slope_moves f _ _ _ F2 MP).
    assert (FL : Qfloor (XF f grid' b h w) = Qfloor (XF f grid b h w)). { destruct (MC (XF f grid b h w) (XF f grid' b h w)) as (j & (A1 & A2) & A3 & A4); [apply found_ok; exact F2 | apply found_ok; exact F2 |]. rewrite (cell_floor _ _ A1 A2), (cell_floor _ _ A3 A4). reflexivity. }
    pose proof (mixed_x f x b c (YF f grid b h w) _ _ FL) as MX. change (PX f grid b h w) with (place_of (w_align f) (qelem grid (grid_shape f) [b; h; w; 0]) (w_Wi f)).
    set (m' := mixed f x b c _ (XF f grid' b h w)) in *. set (m0 := mixed f x b c _ (XF f grid b h w)) in *. set (ax := along_x _ _ _ _ _ _) in *. set (ay := (along_y _ _ _ _ _ _ * _)%Qc). set (sl := slope _ _ _ _) in *. set (v := qelem grid _ [b; h; w; 0]) in *. set (v' := qelem grid' _ [b; h; w; 0]) in *. set (u := qelem grid _ [b; h; w; 1]) in *.
    assert (E' : m' = (m0 + ax * (sl * (v' - v)))%Qc) by (rewrite <- SM, <- MX; ring). rewrite E'. ring.
  - specialize (MO b h w I0). specialize (MP b h w I1). specialize (MC b h w I1). rewrite MO.
    assert (EXF : XF f grid' b h w = XF f grid b h w) by (unfold XF; change [w_B f; w_Ho f; w_Wo f; 2] with (grid_shape f); rewrite MO; reflexivity). rewrite EXF.
    assert (SM : (YF f grid' b h w - YF f grid b h w = slope (w_mode f) (w_align f) (place_of (w_align f) (qelem grid (grid_shape f) [b; h; w; 1%Z]) (w_Hi f)) (w_Hi f) * (qelem grid' (grid_shape f) [b; h; w; 1%Z] - qelem grid (grid_shape f) [b; h; w; 1%Z]))%Qc) by exact (slope_moves f _ _ _ F1 MP).
    assert (FL : Qfloor (YF f grid' b h w) = Qfloor (YF f grid b h w)). { destruct (MC (YF f grid b h w) (YF f grid' b h w)) as (j & (A1 & A2) & A3 & A4); [apply found_ok; exact F1 | apply found_ok; exact F1 |]. rewrite (cell_floor _ _ A1 A2), (cell_floor _ _ A3 A4). reflexivity. }
    pose proof (mixed_y f x b c _ _ (XF f grid b h w) FL) as MX. change (PY f grid b h w) with (place_of (w_align f) (qelem grid (grid_shape f) [b; h; w; 1]) (w_Hi f)).
    set (m' := mixed f x b c (YF f grid' b h w) _) in *. set (m0 := mixed f x b c (YF f grid b h w) _) in *. set (ay := along_y _ _ _ _ _ _) in *. set (ax := (along_x _ _ _ _ _ _ * _)%Qc). set (sl := slope (w_mode f) (w_align f) (place_of (w_align f) (qelem grid (grid_shape f) [b; h; w; 1]) (w_Hi f)) (w_Hi f)) in *. set (v := qelem grid _ [b; h; w; 1]) in *. set (v' := qelem grid' _ [b; h; w; 1]) in *. set (u := qelem grid _ [b; h; w; 0]) in *.
    assert (E' : m' = (m0 + ay * (sl * (v' - v)))%Qc) by (rewrite <- SM, <- MX; ring). rewrite E'. ring.
Qed.
(** Without propagate_down nothing happens; channels last and, for the grid, the mode nearest are
    refused. *)
Theorem C127_refused : forall f linear channel_last gy x grid g,
  warp_backward_grid f linear true gy x grid g = None /\
  (g <> None -> warp_backward_grid f false channel_last gy x grid g = None) /\ warp_backward_grid f linear false gy x grid None = Some None.
Proof. intros f linear cl gy x grid g. split; [reflexivity |]. split; [| reflexivity]. intros G. unfold warp_backward_grid. destruct cl; [reflexivity |]. destruct g as [[a d0] |]; [reflexivity | contradiction]. Qed.

(** * Examples *)
Definition p (a : Z) (b : BinNums.positive) : Qc := Q2Qc (a # b).
(** A place outside, which is reflected once, moves further out: the output moves back. *)
Example moves_works : moves (small Reflect true) 0 [p 3 2; 0%Qc] [p 7 4; 0%Qc].
Proof.
  split.
  - intros b h w I. unfold inside, grid_shape, small in I. cbn [w_B w_Ho w_Wo] in I. repeat match goal with h : Forall2 _ (_ :: _) (_ :: _) |- _ => inversion_clear h end. assert (b = 0) by lia. assert (h = 0) by lia. assert (w = 0) by lia. subst. reflexivity.
  - intros b h w I. unfold inside, grid_shape, small in I. cbn [w_B w_Ho w_Wo] in I. repeat match goal with h : Forall2 _ (_ :: _) (_ :: _) |- _ => inversion_clear h end. assert (b = 0) by lia. assert (h = 0) by lia. assert (w = 0) by lia. subst. exists 1. repeat split; reflexivity.
  - intros b h w I. unfold inside, grid_shape, small in I. cbn [w_B w_Ho w_Wo] in I. repeat match goal with h : Forall2 _ (_ :: _) (_ :: _) |- _ => inversion_clear h end. assert (b = 0) by lia. assert (h = 0) by lia. assert (w = 0) by lia. subst. intros s' t' T1 T2. exists 0.
    assert (E1 : s' = p 3 4). { refine (mirrored_unique _ _ _ _ _ _ T1 _); [reflexivity |]. split; [discriminate |]. split; [discriminate |]. exists 1. right. apply Qc_is_canon. reflexivity. }
    assert (E2 : t' = p 5 8). { refine (mirrored_unique _ _ _ _ _ _ T2 _); [reflexivity |]. split; [discriminate |]. split; [discriminate |]. exists 1. right. apply Qc_is_canon. reflexivity. }
    subst s' t'. split; split; (discriminate || reflexivity).
Qed.
Example outputs_work : option_map (map this) (warp_forward (small Reflect true) true false img [p 3 2; 0%Qc] [q 9]) = Some [55 # 2]%Q /\
  option_map (map this) (warp_forward (small Reflect true) true false img [p 7 4; 0%Qc] [q 9]) = Some [105 # 4]%Q.
Proof. split; vm_compute; reflexivity. Qed.
(** With the gradient 2 of the output: 2 (105/4 - 55/2) = -10 (7/4 - 3/2). *)
Example gradient_works : warp_backward_grid (small Reflect true) true false [q 2] img [p 3 2; 0%Qc] (Some (true, [q 1; q 1])) = Some (Some [q (-9); q 21]).
Proof. vm_compute. reflexivity. Qed.
Example gradient_held : warp_backward_grid (small Repeat true) true false [q 2] img [p 3 2; 0%Qc] (Some (false, [q 1; q 1])) = Some (Some [q 0; q 20]).
Proof. vm_compute. reflexivity. Qed.
Print Assumptions C127_gradient.
