(** Affine (C57) and BatchMatmul (C58). *)
From Coq Require Import List ZArith Lia Bool QArith Qcanon.
From Verif Require Import NdSpec NdProofs IdxModel IdxSpec IdxProofs1 IdxProofs2 IdxProofs3 IdxProofs6 JoinModel JoinSpec JoinProofs JoinProofs2 ScanModel ScanSpec ScanProofs1 ReduceModel ReduceSpec ReduceProofs1 ConvModel ConvSpec ConvProofs2 ConvProofs3 ConvProofs5 ConvProofs6 PoolProofs3 PoolProps MatModel MatSpec MatProofs1 MatProofs2 MatProofs3.
Import ListNotations.
Local Open Scope list_scope.
Local Open Scope Z_scope.

(** * C57 *)
(** [f] is set up for a batch of shape [A] of images of shape [S] and outputs of shape [O]. *)
Definition affine_fit (base : Z) (A S O : list Z) : Prop := sizes A /\ sizes S /\ sizes O /\ S <> [] /\ O <> [] /\ 0 < size S /\ denotes base (length A) (length (A ++ S)).
Definition affine_of (A S O : list Z) : affine := {| i_row := size A; i_col := size S; w_col := size O; a_out := A ++ O |}.
Lemma affine_setup_ok base A S O bias : affine_fit base A S O -> (bias = None \/ bias = Some O) -> affine_setup base (A ++ S) (size S :: O) bias = Some (affine_of A S O).
Proof.
  intros (HA & HS & HO & NS & NO & PS & D) HB. unfold affine_setup. destruct O as [| o O]; [congruence |]. cbn [length Nat.ltb Nat.leb].
  assert (K : (length A < length (A ++ S))%nat) by (rewrite app_length; destruct S; [congruence | cbn [length]; lia]).
  rewrite (refine_denotes base (length A)) by assumption. cbn [obind]. rewrite Nat2Z.id, size_from_app, Z.eqb_refl. cbn [negb].
  rewrite !prod_size, size_app, divide_mul by lia. cbn [obind]. cbn [size]. rewrite (Z.mul_comm (size S)), divide_mul by lia. cbn [obind].
  rewrite firstn_app, Nat.sub_diag, firstn_all, firstn_O, app_nil_r. rewrite !size_app. cbn [size]. rewrite Z.eqb_refl. cbn [negb].
  destruct HB as [-> | ->]; cbn [negb].
  - reflexivity.
  - destruct (list_eq_dec Z.eq_dec (o :: O) (o :: O)); [reflexivity | congruence].
Qed.
Theorem C57_setup : forall base A S O bias, affine_fit base A S O -> (bias = None \/ bias = Some O) ->
  exists f, affine_setup base (A ++ S) (size S :: O) bias = Some f /\ a_out f = A ++ O.
Proof. intros base A S O bias F B. exists (affine_of A S O). split; [apply affine_setup_ok; assumption | reflexivity]. Qed.
(** Everything accepted has these shapes. *)
Theorem C57_accepted : forall base data weights bias f, sizes data -> sizes weights -> affine_setup base data weights bias = Some f ->
  exists A S O, affine_fit base A S O /\ data = A ++ S /\ weights = size S :: O /\ (bias = None \/ bias = Some O) /\ a_out f = A ++ O.
Proof.
  intros base data weights bias f HD HW. unfold affine_setup, refine_axis. destruct (Nat.ltb_spec (length weights) 2) as [| LW]; [discriminate |].
  destruct (Z.ltb_spec base (Z.of_nat (length data))), (Z.leb_spec (- Z.of_nat (length data)) base); cbn [andb obind]; try discriminate.
  set (b := if base <? 0 then Z.of_nat (length data) + base else base).
  assert (B : 0 <= b < Z.of_nat (length data)) by (unfold b; destruct (Z.ltb_spec base 0); lia).
  assert (DN : denotes base (Z.to_nat b) (length data)) by (unfold denotes, b; destruct (Z.ltb_spec base 0); lia).
  destruct weights as [| w O]; [discriminate |]. destruct (Z.eqb_spec (size_from data (Z.to_nat b)) w) as [EW |]; [| discriminate]. cbn [negb].
  unfold divide. rewrite EW. destruct (Z.eqb_spec w 0) as [| NW]; [discriminate |]. cbn [obind].
  destruct (prod _ =? _); [| discriminate]. cbn [negb]. destruct (match bias with Some _ => _ | None => _ end) eqn:EB; [| discriminate]. cbn [negb]. intros H1. injection H1 as <-.
  exists (firstn (Z.to_nat b) data), (skipn (Z.to_nat b) data), O.
  assert (LF : length (firstn (Z.to_nat b) data) = Z.to_nat b) by (apply firstn_length_le; lia).
  assert (ES : size (skipn (Z.to_nat b) data) = w) by (rewrite <- EW; unfold size_from; rewrite prod_size; reflexivity).
  inversion HW as [| ? ? W0 HO]; subst.
  split; [| split; [symmetry; apply firstn_skipn | split; [rewrite ES; reflexivity | split; [| reflexivity]]]].
  - unfold affine_fit. rewrite firstn_skipn, LF. rewrite <- (firstn_skipn (Z.to_nat b) data) in HD. apply Forall_app in HD. destruct HD as (H1 & H2).
    split; [exact H1 |]. split; [exact H2 |]. split; [exact HO |]. split; [intros E; apply (f_equal (@length Z)) in E; rewrite skipn_length in E; cbn [length] in E; lia |].
    split; [intros ->; cbn [length] in LW; lia |]. split; [lia | exact DN].
  - destruct bias as [b0 |]; [| left; reflexivity]. destruct (list_eq_dec Z.eq_dec b0 O) as [-> |]; [right; reflexivity | discriminate].
Qed.
Definition affine_made (base : Z) (A S O : list Z) (f : affine) : Prop := exists bias, (bias = None \/ bias = Some O) /\ affine_setup base (A ++ S) (size S :: O) bias = Some f.
Lemma affine_made_is base A S O f : affine_fit base A S O -> affine_made base A S O f -> f = affine_of A S O.
Proof. intros F (b & B & E). rewrite (affine_setup_ok base A S O b F B) in E. congruence. Qed.
Lemma qelem_off v sh i : inside i sh -> qelem v sh i = qat v (off i sh).
Proof. intros I. unfold qelem, qat. rewrite position_off by exact I. rewrite Z.mul_0_l, Z.add_0_l. reflexivity. Qed.
Theorem C57_values : forall base A S O f x w b y0, affine_fit base A S O -> affine_made base A S O f ->
  has_size x (size (A ++ S)) -> has_size w (size (size S :: O)) -> bias_size b (size O) -> has_size y0 (size (A ++ O)) ->
  exists y, affine_forward f x w b y0 = Some y /\ has_size y (size (A ++ O)) /\
  forall a o, inside a A -> inside o O -> qelem y (A ++ O) (a ++ o) = affine_value A S O x w b a o.
Proof.
  intros base A S O f x w b y0 F M LX LW LB LY. rewrite (affine_made_is base A S O f F M). destruct F as (HA & HS & HO & _).
  unfold has_size in LX, LW, LY. rewrite size_app in LX, LY. cbn [size] in LW.
  destruct (affine_forward_ok (affine_of A S O) (size_nonneg A HA) (size_nonneg S HS) (size_nonneg O HO) x w b y0 LX LW) as (y & E & L & V); [destruct b; exact LB | exact LY |].
  exists y. split; [exact E |]. split; [unfold has_size; rewrite L, LY, size_app; reflexivity |]. intros a o Ia Io.
  rewrite qelem_app by assumption. specialize (V (off a A) (off o O) (off_bound a A Ia) (off_bound o O Io)). cbn [i_row i_col w_col affine_of] in V. rewrite V. unfold affine_value, plain, bias_at. cbn [i_row i_col w_col affine_of]. f_equal.
  - symmetry. apply total_indices; [exact HS |]. intros i Ii. rewrite qelem_app by assumption. rewrite position_off, Z.mul_0_l, Z.add_0_l by exact Ii.
    change (size S :: O) with ([size S] ++ O). change (off i S :: o) with ([off i S] ++ o).
    rewrite qelem_app; [cbn [off size]; f_equal; f_equal; ring | constructor; [apply off_bound; exact Ii | constructor] | exact Io].
  - destruct b as [b |]; [| reflexivity]. rewrite qelem_off by exact Io. reflexivity.
Qed.
(** The gradients of data and weights are adjoints of the forward pass without bias, that of the
    bias sums over the batch. *)
Theorem C57_gradient : forall base A S O f x w dy gx gw gb, affine_fit base A S O -> affine_made base A S O f ->
  has_size x (size (A ++ S)) -> has_size w (size (size S :: O)) -> has_size dy (size (A ++ O)) ->
  grad_size gx (size (A ++ S)) -> grad_size gw (size (size S :: O)) -> grad_size gb (size O) ->
  exists dx dw db, affine_backward f x w dy gx gw gb = Some (dx, dw, db) /\
  (forall y0, has_size y0 (size (A ++ O)) -> adjoint gx dx dy (fun u => affine_forward f u w None y0) /\ adjoint gw dw dy (fun u => affine_forward f x u None y0)) /\
  each_at gb db O (fun o => total (indices A) (fun a => qelem dy (A ++ O) (a ++ o))).
Proof.
  intros base A S O f x w dy gx gw gb F M LX LW LD GX GW GB. rewrite (affine_made_is base A S O f F M). destruct F as (HA & HS & HO & _).
  pose proof (size_nonneg A HA) as PA. pose proof (size_nonneg S HS) as PS. pose proof (size_nonneg O HO) as PO.
  unfold grad_size, has_size in *. rewrite size_app in LX, LD. cbn [size] in LW. unfold affine_backward, with_grad.
  assert (X : exists dx, match gx with Some (accum, a) => obind (matmul accum (size A) (size O) (size S) (mat dy 0 (size O)) (transposed_mat (mat w 0 (size O))) 0 a) (fun a => Some (Some a)) | None => Some None end = Some dx /\
    forall y0, Z.of_nat (length y0) = size (A ++ O) -> adjoint gx dx dy (fun u => affine_forward (affine_of A S O) u w None y0)).
  { destruct gx as [[accum d0] |]; [| exists None; split; [reflexivity | intros; exact I]]. rewrite size_app in GX.
    destruct (affine_dx_ok (affine_of A S O) PA PS PO accum w dy d0 LW LD GX) as (d & E & L & V). cbn [i_row i_col w_col affine_of] in E. rewrite E. exists (Some d). split; [reflexivity |].
    intros y0 LY. rewrite size_app in LY. split; [exact L |]. intros u v LU EF. exact (V u y0 v LU LY EF). }
  assert (W : exists dw, match gw with Some (accum, a) => obind (matmul accum (size S) (size A) (size O) (transposed_mat (mat x 0 (size S))) (mat dy 0 (size O)) 0 a) (fun a => Some (Some a)) | None => Some None end = Some dw /\
    forall y0, Z.of_nat (length y0) = size (A ++ O) -> adjoint gw dw dy (fun u => affine_forward (affine_of A S O) x u None y0)).
  { destruct gw as [[accum d0] |]; [| exists None; split; [reflexivity | intros; exact I]]. cbn [size] in GW.
    destruct (affine_dw_ok (affine_of A S O) PA PS PO accum x dy d0 LX LD GW) as (d & E & L & V). cbn [i_row i_col w_col affine_of] in E. rewrite E. exists (Some d). split; [reflexivity |].
    intros y0 LY. rewrite size_app in LY. split; [exact L |]. intros u v LU EF. exact (V u y0 v LU LY EF). }
  assert (B : exists db, match gb with Some (accum, a) => obind (colwise_sums accum (size A) (size O) dy a) (fun a => Some (Some a)) | None => Some None end = Some db /\
    each_at gb db O (fun o => total (indices A) (fun a => qelem dy (A ++ O) (a ++ o)))).
  { destruct gb as [[accum d0] |]; [| exists None; split; [reflexivity | exact I]].
    destruct (colwise_sums_ok accum (size A) (size O) dy d0 PA PO LD GB) as (d & E & L & V). rewrite E. exists (Some d). split; [reflexivity |]. split; [exact L |].
    intros o Io. rewrite !qelem_off by exact Io. rewrite V by (apply off_bound; exact Io). f_equal. symmetry. apply total_indices; [exact HA |]. intros a Ia. rewrite qelem_app by assumption. reflexivity. }
  destruct X as (dx & EX & VX). destruct W as (dw & EW & VW). destruct B as (db & EB & VB). exists dx, dw, db. cbn [i_row i_col w_col affine_of]. rewrite EX. cbn [obind]. rewrite EW. cbn [obind]. rewrite EB. cbn [obind].
  split; [reflexivity |]. split; [| exact VB]. intros y0 LY. split; [apply VX; exact LY | apply VW; exact LY].
Qed.

(** * C58 *)
(** Samples of shapes [A] and [B], broadcast to [C]; a repeated sample needs at most 8 axes
    because of Broadcast. *)
Record bmm_fit (ta tb : bool) (A B C : list Z) (ra ca rb cb : Z) : Prop := {
  b_joined : joined A B C; b_some : A <> []; b_A : sizes A; b_B : sizes B; b_ra : 0 <= ra; b_ca : 0 <= ca; b_rb : 0 <= rb; b_cb : 0 <= cb;
  b_inner : (if ta then ra else ca) = (if tb then cb else rb) }.
Definition broadcast_fits (A B C : list Z) : Prop := (A = C \/ length C <= 6)%nat /\ (B = C \/ length C <= 6)%nat.
Lemma joined_facts A B C : joined A B C -> stretches A C /\ stretches B C /\ length A = length C /\ length B = length C /\
  exists fa fb, bmm_axes A B = Some (C, C, C, fa, fb) /\ (fa = false <-> A = C) /\ (fb = false <-> B = C).
Proof.
  induction 1 as [| n A B C J IH | n A B C J IH | n A B C J IH].
  - split; [constructor |]. split; [constructor |]. split; [reflexivity |]. split; [reflexivity |]. exists false, false. cbn [bmm_axes]. split; [reflexivity |]. split; split; auto.
  - destruct IH as (F1 & F2 & L1 & L2 & fa & fb & E & I1 & I2). split; [constructor; auto |]. split; [constructor; auto |]. split; [cbn [length]; auto |]. split; [cbn [length]; auto |].
    exists fa, fb. cbn [bmm_axes]. rewrite Z.eqb_refl, E. cbn [orb negb obind]. split; [destruct (n =? 1); reflexivity |].
    split; [rewrite I1 | rewrite I2]; (split; [intros ->; reflexivity | intros H; injection H; auto]).
  - destruct IH as (F1 & F2 & L1 & L2 & fa & fb & E & I1 & I2). split; [constructor; auto |]. split; [constructor; auto |]. split; [cbn [length]; auto |]. split; [cbn [length]; auto |].
    cbn [bmm_axes]. rewrite E, orb_true_r. cbn [orb negb obind]. destruct (Z.eqb_spec n 1) as [-> | N].
    + exists fa, fb. cbn. split; [reflexivity |]. split; [rewrite I1 | rewrite I2]; (split; [intros ->; reflexivity | intros H; injection H; auto]).
    + exists true, fb. cbn. split; [reflexivity |]. split; [split; [discriminate | intros H; injection H; congruence] |]. rewrite I2. split; [intros ->; reflexivity | intros H; injection H; auto].
  - destruct IH as (F1 & F2 & L1 & L2 & fa & fb & E & I1 & I2). split; [constructor; auto |]. split; [constructor; auto |]. split; [cbn [length]; auto |]. split; [cbn [length]; auto |].
    cbn [bmm_axes]. rewrite E, !orb_true_r. cbn [orb negb obind]. destruct (Z.eqb_spec n 1) as [-> | N].
    + exists fa, fb. cbn. split; [reflexivity |]. split; [rewrite I1 | rewrite I2]; (split; [intros ->; reflexivity | intros H; injection H; auto]).
    + exists fa, true. cbn. split; [reflexivity |]. split; [rewrite I1; split; [intros ->; reflexivity | intros H; injection H; auto] |]. split; [discriminate | intros H; injection H; congruence].
Qed.
Lemma joined_sizes A B C : joined A B C -> sizes A -> sizes B -> sizes C.
Proof. induction 1 as [| n A B C J IH | n A B C J IH | n A B C J IH]; intros HA HB; [constructor | | |]; inversion HA as [| ? ? P1 HA']; inversion HB as [| ? ? P2 HB']; constructor; first [exact P1 | exact P2 | exact (IH HA' HB') | idtac]; assumption. Qed.
Lemma last_two A r c : nth (length (A ++ [r; c]) - 2) (A ++ [r; c]) 0 = r /\ nth (length (A ++ [r; c]) - 1) (A ++ [r; c]) 0 = c /\ length (A ++ [r; c]) = S (S (length A)) /\ firstn (length A) (A ++ [r; c]) = A.
Proof.
  assert (L : length (A ++ [r; c]) = S (S (length A))) by (rewrite app_length; cbn [length]; lia). rewrite L.
  replace (S (S (length A)) - 2)%nat with (length A) by lia. replace (S (S (length A)) - 1)%nat with (S (length A)) by lia.
  split; [rewrite app_nth2, Nat.sub_diag by lia; reflexivity |]. split; [rewrite app_nth2 by lia; replace (S (length A) - length A)%nat with 1%nat by lia; reflexivity |].
  split; [reflexivity |]. rewrite firstn_app, Nat.sub_diag, firstn_all, firstn_O, app_nil_r. reflexivity.
Qed.
Definition bmm_of (ta tb : bool) (A B C : list Z) (ra ca rb cb : Z) (ba bb : option (list Z)) : bmm :=
  {| trans_a := ta; trans_b := tb; row_a := ra; col_a := ca; row_b := rb; col_b := cb; bc_a := ba; bc_b := bb;
     samples := size C; shape_a := A ++ [ra; ca]; shape_b := B ++ [rb; cb]; m_out := C ++ [if ta then ca else ra; if tb then rb else cb] |}.
Definition bc_is (A C : list Z) (r c : Z) (b : option (list Z)) : Prop := match b with None => A = C | Some t => t = C ++ [r; c] /\ A <> C end.
Lemma bmm_setup_ok ta tb A B C ra ca rb cb : bmm_fit ta tb A B C ra ca rb cb ->
  exists ba bb, bmm_setup ta tb (A ++ [ra; ca]) (B ++ [rb; cb]) = Some (bmm_of ta tb A B C ra ca rb cb ba bb) /\ bc_is A C ra ca ba /\ bc_is B C rb cb bb.
Proof.
  intros F. destruct (joined_facts A B C (b_joined _ _ _ _ _ _ _ _ _ F)) as (_ & _ & LA & LB & fa & fb & E & IA & IB).
  destruct (last_two A ra ca) as (R1 & C1 & L1 & F1). destruct (last_two B rb cb) as (R2 & C2 & L2 & F2).
  assert (NA : (0 < length A)%nat) by (pose proof (b_some _ _ _ _ _ _ _ _ _ F); destruct A; [congruence | cbn [length]; lia]).
  unfold bmm_setup. rewrite R1, C1, R2, C2, L1, L2, LB, LA. destruct (Nat.ltb_spec (S (S (length C))) 3); [lia |]. rewrite (b_inner _ _ _ _ _ _ _ _ _ F), Z.eqb_refl, Nat.eqb_refl. cbn [negb].
  replace (S (S (length C)) - 2)%nat with (length C) by lia. rewrite LA in F1. rewrite LB in F2. rewrite F1, F2, E. cbn [obind].
  exists (if fa then Some (C ++ [ra; ca]) else None), (if fb then Some (C ++ [rb; cb]) else None).
  split; [rewrite prod_size; reflexivity |]. split.
  - destruct fa; cbn [bc_is]; [split; [reflexivity | intros H1; apply IA in H1; discriminate] | apply IA; reflexivity].
  - destruct fb; cbn [bc_is]; [split; [reflexivity | intros H1; apply IB in H1; discriminate] | apply IB; reflexivity].
Qed.
Theorem C58_setup : forall ta tb A B C ra ca rb cb, bmm_fit ta tb A B C ra ca rb cb ->
  exists f, bmm_setup ta tb (A ++ [ra; ca]) (B ++ [rb; cb]) = Some f /\ m_out f = C ++ [if ta then ca else ra; if tb then rb else cb].
Proof. intros ta tb A B C ra ca rb cb F. destruct (bmm_setup_ok ta tb A B C ra ca rb cb F) as (ba & bb & E & _). eexists. split; [exact E | reflexivity]. Qed.
Lemma axes_joined A : forall B r, length A = length B -> bmm_axes A B = Some r -> exists C, joined A B C.
Proof.
  induction A as [| m A IH]; intros [| n B] r L; try discriminate; cbn [bmm_axes].
  - intros _. exists []. constructor.
  - destruct (Z.eqb_spec m n) as [-> | N1]; [| destruct (Z.eqb_spec m 1) as [-> | N2]; [| destruct (Z.eqb_spec n 1) as [-> | N3]]]; cbn [orb negb]; try discriminate;
      (destruct (bmm_axes A B) as [r' |] eqn:E; [| discriminate]); intros _; (destruct (IH B r') as (C & J); [injection L; auto | exact E |]); eexists.
    + apply joined_same. exact J.
    + apply joined_left. exact J.
    + apply joined_right. exact J.
Qed.
Lemma split_two (l : list Z) : (2 <= length l)%nat -> l = firstn (length l - 2) l ++ [nth (length l - 2) l 0; nth (length l - 1) l 0].
Proof.
  intros H. rewrite <- (firstn_skipn (length l - 2) l) at 1. f_equal. assert (LS : length (skipn (length l - 2) l) = 2%nat) by (rewrite skipn_length; lia).
  destruct (skipn (length l - 2) l) as [| r [| c [| ? ?]]] eqn:E; try discriminate. rewrite <- (firstn_skipn (length l - 2) l) at 2 4. rewrite E.
  assert (LF : length (firstn (length l - 2) l) = (length l - 2)%nat) by (apply firstn_length_le; lia).
  rewrite !app_nth2 by lia. rewrite LF, Nat.sub_diag. replace (length l - 1 - (length l - 2))%nat with 1%nat by lia. reflexivity.
Qed.
(** Everything accepted has these shapes. *)
Theorem C58_accepted : forall ta tb a b f, sizes a -> sizes b -> bmm_setup ta tb a b = Some f ->
  exists A B C ra ca rb cb, a = A ++ [ra; ca] /\ b = B ++ [rb; cb] /\ bmm_fit ta tb A B C ra ca rb cb /\ m_out f = C ++ [if ta then ca else ra; if tb then rb else cb].
Proof.
  intros ta tb a b f Ha Hb E0. pose proof E0 as E1. unfold bmm_setup in E1.
  destruct (Nat.ltb_spec (length a) 3) as [| LA]; [discriminate |]. destruct (Nat.ltb_spec (length b) 3) as [| LB]; [discriminate |].
  set (ra := nth (length a - 2) a 0) in *. set (ca := nth (length a - 1) a 0) in *. set (rb := nth (length b - 2) b 0) in *. set (cb := nth (length b - 1) b 0) in *.
  destruct (Z.eqb_spec (if ta then ra else ca) (if tb then cb else rb)) as [EI |]; [| discriminate]. destruct (Nat.eqb_spec (length a) (length b)) as [EL |]; [| discriminate]. cbn [negb] in E1.
  rewrite EL in E1 at 2. set (A := firstn (length a - 2) a) in *. set (B := firstn (length b - 2) b) in *.
  destruct (bmm_axes A B) as [r |] eqn:EX; [| discriminate]. clear E1.
  assert (LL : length A = length B) by (unfold A, B; rewrite !firstn_length_le by lia; lia). destruct (axes_joined A B r LL EX) as (C & J).
  assert (SA : a = A ++ [ra; ca]) by (apply split_two; lia). assert (SB : b = B ++ [rb; cb]) by (apply split_two; lia).
  assert (X : bmm_fit ta tb A B C ra ca rb cb).
  { rewrite SA in Ha. rewrite SB in Hb. apply Forall_app in Ha. destruct Ha as (Ha & Ha2). apply Forall_app in Hb. destruct Hb as (Hb & Hb2).
    inversion Ha2 as [| ? ? P1 Ha3]. inversion Ha3 as [| ? ? P2 _]. inversion Hb2 as [| ? ? P3 Hb3]. inversion Hb3 as [| ? ? P4 _]. 
    constructor; try assumption. intros EN. apply (f_equal (@length Z)) in EN. unfold A in EN. rewrite firstn_length_le in EN by lia. cbn [length] in EN. lia. }
  exists A, B, C, ra, ca, rb, cb. split; [exact SA |]. split; [exact SB |]. split; [exact X |].
  destruct (C58_setup ta tb A B C ra ca rb cb X) as (f' & E' & O). rewrite <- SA, <- SB, E0 in E'. injection E' as <-. exact O.
Qed.

Lemma bc_limit (A C : list Z) r c b : (A = C \/ length C <= 6)%nat -> bc_is A C r c b -> match b with None => A = C | Some t => t = C ++ [r; c] /\ (length C <= 6)%nat end.
Proof. intros H. destruct b as [t |]; cbn [bc_is]; [| auto]. intros (-> & N). split; [reflexivity |]. destruct H; [congruence | assumption]. Qed.
Lemma term_product ta tb A B C ra ca rb cb a b c i k : bmm_fit ta tb A B C ra ca rb cb -> inside c C -> 0 <= i < (if ta then ca else ra) -> 0 <= k < (if tb then rb else cb) ->
  zsum (if ta then ra else ca) (fun j => term ta tb A B C ra ca rb cb a b (off c C) i j k) = product ta tb A B ra ca rb cb a b c i k.
Proof.
  intros F Ic Hi Hk. destruct (joined_facts A B C (b_joined _ _ _ _ _ _ _ _ _ F)) as (SA & SB & _).
  assert (PC : nonneg C) by (apply (joined_sizes A B); apply F).
  unfold product. rewrite <- upto_range, total_upto. apply zsum_ext. intros j Hj. unfold term, entry, source. rewrite !unoff_off by assumption.
  pose proof (b_inner _ _ _ _ _ _ _ _ _ F) as RED. assert (Hj2 : 0 <= j < (if tb then cb else rb)) by (rewrite <- RED; exact Hj).
  rewrite !qelem_app; [| apply picked_inside with C; assumption | | apply picked_inside with C; assumption |].
  - cbn [size]. rewrite !Z.mul_1_r. unfold pos. f_equal; f_equal; f_equal; [destruct ta | destruct tb]; cbn [off size]; ring.
  - destruct tb; repeat constructor; lia.
  - destruct ta; repeat constructor; lia.
Qed.
(** Proved if no input that is repeated has more than 8 axes; refuted below for more. *)
Theorem C58_values_partial : forall ta tb A B C ra ca rb cb f junk a b y0, bmm_fit ta tb A B C ra ca rb cb -> broadcast_fits A B C ->
  bmm_setup ta tb (A ++ [ra; ca]) (B ++ [rb; cb]) = Some f -> has_size a (size (A ++ [ra; ca])) -> has_size b (size (B ++ [rb; cb])) -> has_size y0 (size (m_out f)) ->
  exists y, bmm_forward junk f a b y0 = Some y /\ has_size y (size (m_out f)) /\
  forall c i k, inside c C -> 0 <= i < (if ta then ca else ra) -> 0 <= k < (if tb then rb else cb) -> qelem y (m_out f) (c ++ [i; k]) = product ta tb A B ra ca rb cb a b c i k.
Proof.
  intros ta tb A B C ra ca rb cb f junk a b y0 F (LA & LB) M Ha Hb Hy. destruct (bmm_setup_ok ta tb A B C ra ca rb cb F) as (ba & bb & E & BA & BB). rewrite E in M. injection M as <-.
  destruct (joined_facts A B C (b_joined _ _ _ _ _ _ _ _ _ F)) as (SA & SB & _). assert (PC : nonneg C) by (apply (joined_sizes A B); apply F).
  unfold has_size in *. cbn [m_out bmm_of] in *. rewrite rc_size in Ha, Hb, Hy. pose proof F as [J NE PA PB H1 H2 H3 H4 RED].
  destruct (bmm_forward_ok ta tb A B C ra ca rb cb ba bb PA PB PC SA SB H1 H2 H3 H4 RED (bc_limit _ _ _ _ _ LA BA) (bc_limit _ _ _ _ _ LB BB) junk a b y0 Ha Hb Hy) as (y & EY & L & V).
  exists y. split; [exact EY |]. split; [rewrite L, rc_size; exact Hy |]. intros c i k Ic Hi Hk.
  rewrite qelem_app; [| exact Ic | constructor; [exact Hi | constructor; [exact Hk | constructor]]]. cbn [size off]. rewrite !Z.mul_1_r, Z.add_0_r.
  rewrite V by (try assumption; apply off_bound; exact Ic). apply term_product; assumption.
Qed.
(** The gradient of each input is the adjoint of the forward pass; what the memory of the
    broadcast inputs holds before does not matter. *)
Theorem C58_gradient_partial : forall ta tb A B C ra ca rb cb f junk a b dy ga gb, bmm_fit ta tb A B C ra ca rb cb -> broadcast_fits A B C ->
  bmm_setup ta tb (A ++ [ra; ca]) (B ++ [rb; cb]) = Some f -> has_size a (size (A ++ [ra; ca])) -> has_size b (size (B ++ [rb; cb])) -> has_size dy (size (m_out f)) ->
  grad_size ga (size (A ++ [ra; ca])) -> grad_size gb (size (B ++ [rb; cb])) ->
  exists da db, bmm_backward junk f a b dy ga gb = Some (da, db) /\
  forall y0, has_size y0 (size (m_out f)) -> adjoint ga da dy (fun u => bmm_forward junk f u b y0) /\ adjoint gb db dy (fun u => bmm_forward junk f a u y0).
Proof.
  intros ta tb A B C ra ca rb cb f junk a b dy ga gb F (LA & LB) M Ha Hb Hy GA GB. destruct (bmm_setup_ok ta tb A B C ra ca rb cb F) as (ba & bb & E & BA & BB). rewrite E in M. injection M as <-.
  destruct (joined_facts A B C (b_joined _ _ _ _ _ _ _ _ _ F)) as (SA & SB & _). assert (PC : nonneg C) by (apply (joined_sizes A B); apply F).
  unfold grad_size, has_size in *. cbn [m_out bmm_of] in *. rewrite rc_size in Ha, Hb, Hy. pose proof F as [J NE PA PB H1 H2 H3 H4 RED].
  apply (bc_limit _ _ _ _ _ LA) in BA. apply (bc_limit _ _ _ _ _ LB) in BB. unfold bmm_backward, with_grad.
  match goal with |- exists da db, obind ?X _ = _ /\ _ => assert (XA : exists da, X = Some da /\ forall y0, Z.of_nat (length y0) = size (C ++ [if ta then ca else ra; if tb then rb else cb]) -> adjoint ga da dy (fun u => bmm_forward junk (bmm_of ta tb A B C ra ca rb cb ba bb) u b y0)) end.
  { destruct ga as [[accum d0] |]; [| exists None; split; [reflexivity | intros; exact I]]. rewrite rc_size in GA.
    destruct (bmm_da_ok ta tb A B C ra ca rb cb ba bb PA PB PC SA SB H1 H2 H3 H4 RED BA BB junk b dy accum d0 a Ha Hb Hy GA) as (d & ED & L & V).
    exists (Some d). split; [unfold bmm_of; rewrite ED; reflexivity |]. intros y0 LY. rewrite rc_size in LY. split; [exact L |]. intros u v LU EF. exact (V u y0 v LU LY EF). }
  destruct XA as (da & EA & VA). rewrite EA. cbn [obind].
  match goal with |- exists da db, obind ?X _ = _ /\ _ => assert (XB : exists db, X = Some db /\ forall y0, Z.of_nat (length y0) = size (C ++ [if ta then ca else ra; if tb then rb else cb]) -> adjoint gb db dy (fun u => bmm_forward junk (bmm_of ta tb A B C ra ca rb cb ba bb) a u y0)) end.
  { destruct gb as [[accum d0] |]; [| exists None; split; [reflexivity | intros; exact I]]. rewrite rc_size in GB.
    destruct (bmm_db_ok ta tb A B C ra ca rb cb ba bb PA PB PC SA SB H1 H2 H3 H4 RED BA BB junk a dy accum d0 b Ha Hb Hy GB) as (d & ED & L & V).
    exists (Some d). split; [unfold bmm_of; rewrite ED; reflexivity |]. intros y0 LY. rewrite rc_size in LY. split; [exact L |]. intros u v LU EF. exact (V u y0 v LU LY EF). }
  destruct XB as (db & EB & VB). exists da, db. rewrite EB. cbn [obind]. split; [reflexivity |]. intros y0 LY. split; [apply VA; exact LY | apply VB; exact LY].
Qed.

(** * Examples *)
Definition show3 (o : option (option (list Qc) * option (list Qc) * option (list Qc))) := option_map (fun '(a, b, c) => (show a, show b, show c)) o.
Definition show2 (o : option (option (list Qc) * option (list Qc))) := option_map (fun '(a, b) => (show a, show b)) o.
Definition af : affine := affine_of [2] [1; 2] [3].
Example C57_made_ex : affine_fit 1 [2] [1; 2] [3] /\ affine_fit (-2) [2] [1; 2] [3] /\ affine_setup 1 [2; 1; 2] [2; 3] (Some [3]) = Some af /\ affine_setup (-2) [2; 1; 2] [2; 3] None = Some af /\
  affine_setup 1 [2; 1; 2] [2; 3] (Some [2]) = None /\ affine_setup 1 [2; 1; 2] [3; 3] None = None /\ affine_setup 3 [2; 1; 2] [1; 3] None = None /\ affine_setup 1 [2; 1; 2] [2] None = None.
Proof. repeat split; try reflexivity; try discriminate; repeat constructor; lia. Qed.
Example C57_values_ex : show (affine_forward af (map q [1; 2; 3; 4]) (map q [1; 0; 2; 0; 1; 3]) (Some (map q [10; 20; 30])) (nines 6)) = qs [11; 22; 38; 13; 24; 48] /\
  show (affine_forward af (map q [1; 2; 3; 4]) (map q [1; 0; 2; 0; 1; 3]) None (nines 6)) = qs [1; 2; 8; 3; 4; 18] /\
  this (affine_value [2] [1; 2] [3] (map q [1; 2; 3; 4]) (map q [1; 0; 2; 0; 1; 3]) (Some (map q [10; 20; 30])) [1] [2]) = inject_Z 48.
Proof. repeat split; vm_compute; reflexivity. Qed.
Example C57_gradient_ex : show3 (affine_backward af (map q [1; 2; 3; 4]) (map q [1; 0; 2; 0; 1; 3]) (map q [1; 0; 0; 0; 1; 2]) (Some (false, nines 4)) (Some (true, nines 6)) (Some (true, nines 3))) =
    Some (qs [1; 0; 4; 7], qs [10; 12; 15; 11; 13; 17], qs [10; 10; 11]) /\
  show3 (affine_backward af (map q [1; 2; 3; 4]) (map q [1; 0; 2; 0; 1; 3]) (map q [1; 0; 0; 0; 1; 2]) None (Some (false, nines 6)) None) = Some (None, qs [1; 3; 6; 2; 4; 8], None).
Proof. split; vm_compute; reflexivity. Qed.
(** Images without elements are not accepted: their size is divided by. *)
Theorem C57_empty_refuted : affine_setup 1 [2; 0] [0; 3] None = None.
Proof. reflexivity. Qed.
(** A setup keeps the axis that a negative one denoted: set up again for data with one more axis,
    the same layer counts from another end and refuses what a new layer accepts. *)
Theorem C57_again_refuted : refine_axis 2 (-1) = Some 1 /\ (exists f, affine_setup (-1) [2; 3] [3; 4] None = Some f) /\
  affine_setup 1 [2; 2; 3] [3; 4] None = None /\ exists f, affine_setup (-1) [2; 2; 3] [3; 4] None = Some f /\ a_out f = [2; 2; 4].
Proof. split; [reflexivity |]. split; [eexists; reflexivity |]. split; [reflexivity |]. eexists. split; reflexivity. Qed.

Definition bf : bmm := bmm_of true false [2] [1] [2] 1 2 1 2 None (Some [2; 1; 2]).
Example C58_made_ex : bmm_fit true false [2] [1] [2] 1 2 1 2 /\ broadcast_fits [2] [1] [2] /\ bmm_setup true false [2; 1; 2] [1; 1; 2] = Some bf /\ m_out bf = [2; 2; 2] /\
  bmm_setup true false [2; 1; 2] [3; 1; 2] = None /\ bmm_setup false false [2; 1; 2] [2; 1; 2] = None /\ bmm_setup true false [2; 1; 2] [1; 2; 1; 2] = None /\ bmm_setup false false [1; 1] [1; 1; 1] = None /\ bmm_setup false false [1; 1; 1] [1; 1] = None.
Proof. split; [constructor; repeat constructor; try discriminate; lia |]. split; [unfold broadcast_fits; cbn [length]; lia |]. repeat split; reflexivity. Qed.
Example C58_values_ex : show (bmm_forward (q 7) bf (map q [1; 2; 3; 4]) (map q [5; 6]) (nines 8)) = qs [5; 6; 10; 12; 15; 18; 20; 24] /\
  this (product true false [2] [1] 1 2 1 2 (map q [1; 2; 3; 4]) (map q [5; 6]) [1] 1 0) = inject_Z 20.
Proof. split; vm_compute; reflexivity. Qed.
Example C58_gradient_ex : show2 (bmm_backward (q 7) bf (map q [1; 2; 3; 4]) (map q [5; 6]) (map q [1; 0; 0; 1; 0; 1; 1; 0]) (Some (true, nines 4)) (Some (true, nines 2))) = Some (qs [14; 15; 15; 14], qs [14; 14]) /\
  show2 (bmm_backward (q 7) bf (map q [1; 2; 3; 4]) (map q [5; 6]) (map q [1; 0; 0; 1; 0; 1; 1; 0]) None (Some (false, nines 2))) = Some (None, qs [5; 5]).
Proof. split; vm_compute; reflexivity. Qed.
(** With 9 axes, a product with a repeated sample is accepted, but cannot be computed; without one
    it can. *)
Theorem C58_axes_refuted : exists f g, bmm_setup false false [2; 1; 1; 1; 1; 1; 1; 1; 1] [1; 1; 1; 1; 1; 1; 1; 1; 1] = Some f /\ m_out f = [2; 1; 1; 1; 1; 1; 1; 1; 1] /\
  bmm_fit false false [2; 1; 1; 1; 1; 1; 1] [1; 1; 1; 1; 1; 1; 1] [2; 1; 1; 1; 1; 1; 1] 1 1 1 1 /\ bmm_forward (q 7) f (map q [1; 2]) [q 3] (nines 2) = None /\
  bmm_setup false false [2; 1; 1; 1; 1; 1; 1; 1; 1] [2; 1; 1; 1; 1; 1; 1; 1; 1] = Some g /\ show (bmm_forward (q 7) g (map q [1; 2]) (map q [3; 4]) (nines 2)) = qs [3; 8].
Proof.
  eexists. eexists. split; [reflexivity |]. split; [reflexivity |]. split.
  - constructor; [repeat first [apply joined_same | apply joined_right | apply joined_nil] | discriminate | | | lia | lia | lia | lia | reflexivity]; repeat constructor; lia.
  - split; [vm_compute; reflexivity |]. split; [reflexivity | vm_compute; reflexivity].
Qed.

Print Assumptions C57_setup.
Print Assumptions C57_accepted.
Print Assumptions C57_values.
Print Assumptions C57_gradient.
Print Assumptions C58_setup.
Print Assumptions C58_accepted.
Print Assumptions C58_values_partial.
Print Assumptions C58_gradient_partial.
