(** Where and BoolFill (C59), BoolGather and BoolScatter (C60), OneHot (C61). *)
From Coq Require Import List ZArith Lia Bool QArith Qcanon.
From Verif Require Import NdModel NdSpec NdProofs IdxModel IdxSpec IdxProofs1 IdxProofs2 IdxProofs3 IdxProofs6 JoinModel JoinSpec JoinProofs JoinProofs2 ScanModel ScanSpec ScanProofs1 ReduceModel ReduceSpec ReduceProofs1 ConvModel ConvSpec ConvProofs1 ConvProofs2 ConvProofs3 ConvProofs5 PoolProofs3 PoolProofs5 PoolProps MatModel MatSpec MatProofs1 MatProofs2 MatProps MaskModel MaskSpec MaskProofs1 MaskProofs2.
Import ListNotations.
Local Open Scope list_scope.
Local Open Scope Z_scope.

(** * C59 *)
Theorem C59_where_setup : forall C D, where_setup C (C ++ D) (C ++ D) = Some (C ++ D).
Proof.
  intros C D. unfold where_setup. destruct (list_eq_dec Z.eq_dec (C ++ D) (C ++ D)); [| congruence]. cbn [negb]. destruct (Nat.leb_spec (length C) (length (C ++ D))) as [| H]; [| rewrite app_length in H; lia].
  rewrite same_front_app. reflexivity.
Qed.
(** Everything accepted has these shapes. *)
Theorem C59_where_accepted : forall c t f o, where_setup c t f = Some o -> f = t /\ o = t /\ exists D, t = c ++ D.
Proof.
  intros c t f o. unfold where_setup. destruct (list_eq_dec Z.eq_dec t f) as [-> |]; [| discriminate]. cbn [negb]. destruct (Nat.leb (length c) (length f)); [| discriminate]. cbn [negb].
  destruct (same_front c f) eqn:E; [| discriminate]. cbn [negb]. intros H. injection H as <-. split; [reflexivity |]. split; [reflexivity |]. exact (same_front_inv c f E).
Qed.
(** Proved if the condition has elements; refuted below for an empty one. *)
Theorem C59_where_values_partial : forall C D cond xt xf y0, sizes C -> sizes D -> 0 < size C -> has_size cond (size C) -> has_size xt (size (C ++ D)) -> has_size xf (size (C ++ D)) -> has_size y0 (size (C ++ D)) ->
  exists y, where_forward (size C) (size (C ++ D)) cond xt xf y0 = Some y /\ has_size y (size (C ++ D)) /\
  forall c d, inside c C -> inside d D -> qelem y (C ++ D) (c ++ d) = if is_set (qelem cond C c) then qelem xt (C ++ D) (c ++ d) else qelem xf (C ++ D) (c ++ d).
Proof.
  intros C D cond xt xf y0 HC HD PC LC LT LF LY. unfold has_size in *. rewrite size_app in *. destruct (where_forward_ok (size C) (size D) cond xt xf y0 PC (size_nonneg D HD) LC LT LF LY) as (y & E & L & V).
  exists y. split; [exact E |]. split; [rewrite L; exact LY |]. intros c d Ic Id. rewrite !qelem_app by assumption. rewrite qelem_off by exact Ic. apply V; apply off_bound; assumption.
Qed.
Lemma gdone_each g d C D (T : list Z -> Qc) V : gdone g d (size C * size D) V -> (forall c e, inside c C -> inside e D -> V (off c C * size D + off e D) = T (c ++ e)) ->
  each_at g (option_map snd d) (C ++ D) T.
Proof.
  intros G H. destruct g as [[accum a0] |], d as [[accum' a] |]; cbn [gdone option_map snd each_at] in *; try contradiction; [| exact I]. destruct G as (-> & L & V1 & _). split; [exact L |].
  intros o Io. destruct (inside_split C D o Io) as (c & e & -> & Ic & Ie). rewrite !qelem_app by assumption. pose proof (off_bound c C Ic). pose proof (off_bound e D Ie). rewrite V1 by nia. rewrite H by assumption. reflexivity.
Qed.
Theorem C59_where_gradient_partial : forall C D cond dy gt gf, sizes C -> sizes D -> 0 < size C -> has_size cond (size C) -> has_size dy (size (C ++ D)) -> grad_size gt (size (C ++ D)) -> grad_size gf (size (C ++ D)) ->
  exists dt df, where_backward (size C) (size (C ++ D)) cond dy gt gf = Some (dt, df) /\
  each_at gt dt (C ++ D) (fun i => if is_set (qelem cond C (firstn (length C) i)) then qelem dy (C ++ D) i else 0%Qc) /\
  each_at gf df (C ++ D) (fun i => if is_set (qelem cond C (firstn (length C) i)) then 0%Qc else qelem dy (C ++ D) i).
Proof.
  intros C D cond dy gt gf HC HD PC LC LD GT GF. unfold grad_size, has_size in *. rewrite size_app in *.
  destruct (where_backward_ok (size C) (size D) cond dy gt gf PC (size_nonneg D HD) LC LD) as (dt & df & E & V1 & V2); [destruct gt as [[]|]; exact GT | destruct gf as [[]|]; exact GF |].
  exists (option_map snd dt), (option_map snd df). split; [exact E |].
  assert (F : forall c e, inside c C -> inside e D -> is_set (qelem cond C (firstn (length C) (c ++ e))) = is_set (qat cond ((off c C * size D + off e D) / size D)) /\ qelem dy (C ++ D) (c ++ e) = qat dy (off c C * size D + off e D)).
  { intros c e Ic Ie. rewrite qelem_app by assumption. split; [| reflexivity]. rewrite <- (Forall2_length _ _ _ Ic), firstn_app, Nat.sub_diag, firstn_all, firstn_O, app_nil_r. rewrite qelem_off by exact Ic.
    rewrite (proj1 (row_split (off c C) (size D) (off e D) (off_bound e D Ie))). reflexivity. }
  split; [eapply gdone_each; [exact V1 |] | eapply gdone_each; [exact V2 |]]; intros c e Ic Ie; destruct (F c e Ic Ie) as (F1 & F2); rewrite F1, F2; reflexivity.
Qed.

(** A first setup of BoolFill. *)
Theorem C59_fill_setup : forall M X, (exists f, fill_setup None X M = Some f) <-> (length M <= length X)%nat.
Proof. intros M X. unfold fill_setup. destruct (Nat.ltb_spec (length X) (length M)); split; try lia; [intros (f & E); discriminate | intros _; eexists; reflexivity]. Qed.
Lemma picked_self M : forall i, inside i M -> picked M i = i.
Proof. induction M as [| m M IH]; intros i I; inversion I as [| x ? r ? Hx Hr]; subst; cbn [picked]; [reflexivity |]. rewrite IH by exact Hr. destruct (Z.eqb_spec m 1); [f_equal; lia | reflexivity]. Qed.
Lemma fill_data junk M X f m : sizes X -> repeatable M X -> (M = X \/ length X <= 8)%nat -> fill_setup None X M = Some f -> qlen m = size M ->
  exists m', bc_data junk M f m = Some m' /\ qlen m' = size X /\ forall i, inside i X -> qat m' (off i X) = qelem m M (under M (length X) i).
Proof.
  intros HX R L8 E LM.
  assert (U : forall i, inside i X -> inside (under M (length X) i) M).
  { intros i Ii. destruct R as (R1 & R2). unfold under. apply (inside_skip X (length X - length M)) in Ii. apply picked_inside with (skipn (length X - length M) X); [exact R2 | exact Ii]. }
  unfold fill_setup in E. destruct (Nat.ltb (length X) (length M)); [discriminate |]. destruct (list_eq_dec Z.eq_dec X M) as [-> |]; injection E as <-.
  - exists m. split; [reflexivity |]. split; [exact LM |]. intros i Ii. rewrite qelem_off by (apply U; exact Ii). unfold under. rewrite Nat.sub_diag. cbn [skipn]. rewrite picked_self by exact Ii. reflexivity.
  - destruct (fill_mask junk M X m HX R ltac:(destruct L8; [congruence | assumption]) LM) as (m' & E & L & V). exists m'. split; [exact E |]. split; [exact L |]. intros i Ii. rewrite V by exact Ii. rewrite qelem_off by (apply U; exact Ii). reflexivity.
Qed.
(** Proved for a first setup and at most 8 axes if the mask is repeated; refuted below for more
    axes and for a second setup. *)
Theorem C59_fill_values_partial : forall junk M X f value x m y0, sizes X -> repeatable M X -> (M = X \/ length X <= 8)%nat -> fill_setup None X M = Some f ->
  has_size m (size M) -> has_size x (size X) -> has_size y0 (size X) ->
  exists y, fill_forward junk f X M value x m y0 = Some y /\ has_size y (size X) /\
  forall i, inside i X -> qelem y X i = if is_set (qelem m M (under M (length X) i)) then value else qelem x X i.
Proof.
  intros junk M X f value x m y0 HX R L8 E LM LX LY. unfold has_size in *. destruct (fill_data junk M X f m HX R L8 E LM) as (m' & EM & LM' & VM).
  unfold fill_forward. rewrite EM. cbn [obind]. rewrite prod_size. destruct (fill_forward_ok (size X) value x m' y0 (size_nonneg X HX) LX LM' LY) as (y & EY & L & V).
  exists y. split; [exact EY |]. split; [rewrite L; exact LY |]. intros i Ii. rewrite (qelem_off y), (qelem_off x) by exact Ii. rewrite V by (apply off_bound; exact Ii). rewrite VM by exact Ii. reflexivity.
Qed.
Theorem C59_fill_gradient_partial : forall junk M X f m dy gx, sizes X -> repeatable M X -> (M = X \/ length X <= 8)%nat -> fill_setup None X M = Some f ->
  has_size m (size M) -> has_size dy (size X) -> grad_size gx (size X) ->
  exists dx, fill_backward junk f X M m dy gx = Some dx /\ each_at gx dx X (fun i => if is_set (qelem m M (under M (length X) i)) then 0%Qc else qelem dy X i).
Proof.
  intros junk M X f m dy gx HX R L8 E LM LD GX. unfold fill_backward, with_grad. destruct gx as [[accum d0] |]; [| exists None; split; [reflexivity | exact I]]. unfold grad_size, has_size in *.
  destruct (fill_data junk M X f m HX R L8 E LM) as (m' & EM & LM' & VM). rewrite EM. cbn [obind]. rewrite prod_size.
  destruct (fill_backward_ok accum (size X) m' dy d0 (size_nonneg X HX) LM' LD GX) as (dx & ED & L & V). rewrite ED. cbn [obind]. exists (Some dx). split; [reflexivity |]. split; [exact L |].
  intros i Ii. rewrite !qelem_off with (sh := X) by exact Ii. rewrite V by (apply off_bound; exact Ii). rewrite VM by exact Ii. reflexivity.
Qed.

(** * C60 *)
(** The axes after those of the mask become one. *)
Definition merged (D : list Z) : list Z := match D with [] => [] | _ => [size D] end.
Lemma merged_size D : size (merged D) = size D.
Proof. destruct D as [| n D]; cbn [merged size]; lia. Qed.
Theorem C60_gather_setup_partial : forall M D mask, sizes M -> has_size mask (size M) -> binary mask ->
  bg_setup (M ++ D) M mask = Some (Z.of_nat (length (chosen M mask)) :: merged D).
Proof.
  intros M D mask HM LM Bi. unfold bg_setup. destruct (Nat.ltb_spec (length (M ++ D)) (length M)) as [H |]; [rewrite app_length in H; lia |]. rewrite same_front_app. cbn [negb]. rewrite (trunc_sum M mask HM LM Bi).
  rewrite app_length, prod_size, skipn_app, skipn_all, Nat.sub_diag. cbn [app skipn]. destruct D as [| n D]; cbn [length merged].
  - rewrite Nat.add_0_r, Nat.eqb_refl. reflexivity.
  - destruct (Nat.eqb_spec (length M + S (length D)) (length M)); [lia | reflexivity].
Qed.
Theorem C60_gather_accepted : forall g m mask out, bg_setup g m mask = Some out -> exists D, g = m ++ D.
Proof. intros g m mask out. unfold bg_setup. destruct (Nat.ltb (length g) (length m)); [discriminate |]. destruct (same_front m g) eqn:E; [| discriminate]. intros _. apply same_front_inv. exact E. Qed.
Lemma rows_ok n D : 0 < n -> sizes D -> obind (vget (n :: merged D) 0) (fun nnz => divide (prod (n :: merged D)) nnz) = Some (size D).
Proof. intros Hn HD. cbn [vget Z.ltb Z.compare Z.to_nat nth_error obind]. rewrite prod_size. cbn [size]. rewrite merged_size, Z.mul_comm. apply divide_mul. lia. Qed.
Lemma vget_0 n (l : list Z) : vget (n :: l) 0 = Some n. Proof. reflexivity. Qed.
Lemma row_at v n D j e : 0 <= j < n -> inside e D -> qelem v (n :: D) (j :: e) = qat v (j * size D + off e D).
Proof. intros Hj He. change (n :: D) with ([n] ++ D). change (j :: e) with ([j] ++ e). rewrite qelem_app; [cbn [off size]; f_equal; ring | constructor; [exact Hj | constructor] | exact He]. Qed.
(** Proved for a mask of zeros and ones, of which one at least is one; refuted below for others. *)
Theorem C60_gather_values_partial : forall M D mask out x y0, sizes M -> sizes D -> has_size mask (size M) -> binary mask -> chosen M mask <> [] -> bg_setup (M ++ D) M mask = Some out ->
  has_size x (size (M ++ D)) -> has_size y0 (size out) ->
  exists y, bg_forward M out x mask y0 = Some y /\ has_size y (size out) /\
  forall j e, (j < length (chosen M mask))%nat -> inside e D -> qelem y (Z.of_nat (length (chosen M mask)) :: D) (Z.of_nat j :: e) = qelem x (M ++ D) (nth j (chosen M mask) [] ++ e).
Proof.
  intros M D mask out x y0 HM HD LM Bi NE E LX LY. rewrite C60_gather_setup_partial in E by assumption. injection E as <-. set (n := Z.of_nat (length (chosen M mask))) in *.
  assert (PN : 0 < n) by (unfold n; destruct (chosen M mask); [congruence | cbn [length]; lia]). unfold has_size in *. unfold bg_forward.
  pose proof (rows_ok n D PN HD) as RO. rewrite vget_0 in *. cbn [obind] in *. rewrite RO. cbn [obind]. rewrite prod_size. rewrite size_app in LX. cbn [size] in LY. rewrite merged_size in LY.
  destruct (gather_ok (size D) (size M) n mask (size_nonneg D HD) (size_nonneg M HM) LM ltac:(rewrite chosen_rank by exact HM; unfold n; lia) false x y0 LX LY) as (y & EY & L & V).
  exists y. split; [exact EY |]. split; [cbn [size]; rewrite merged_size, L; exact LY |]. intros j e Hj Ie. destruct (chosen_nth M mask j HM Hj) as (I1 & T1 & R1).
  rewrite row_at by (try assumption; unfold n; lia). rewrite qelem_app by assumption. specialize (V (off (nth j (chosen M mask) []) M) (off e D) (off_bound _ _ I1) (off_bound _ _ Ie) T1). rewrite R1 in V. rewrite V. apply Qcplus_0_l.
Qed.
Theorem C60_gather_gradient_partial : forall M D mask out dy gx, sizes M -> sizes D -> has_size mask (size M) -> binary mask -> chosen M mask <> [] -> bg_setup (M ++ D) M mask = Some out ->
  has_size dy (size out) -> grad_size gx (size (M ++ D)) ->
  exists dx, bg_backward M out mask dy gx = Some dx /\
  match gx, dx with
  | Some (accum, d0), Some d => has_size d (size (M ++ D)) /\
      (forall j e, (j < length (chosen M mask))%nat -> inside e D ->
         let i := nth j (chosen M mask) [] ++ e in qelem d (M ++ D) i = ((if accum then qelem d0 (M ++ D) i else 0) + qelem dy (Z.of_nat (length (chosen M mask)) :: D) (Z.of_nat j :: e))%Qc) /\
      (forall i e, inside i M -> inside e D -> is_set (qelem mask M i) = false -> qelem d (M ++ D) (i ++ e) = if accum then qelem d0 (M ++ D) (i ++ e) else 0%Qc)
  | None, None => True
  | _, _ => False
  end.
Proof.
  intros M D mask out dy gx HM HD LM Bi NE E LDY GX. rewrite C60_gather_setup_partial in E by assumption. injection E as <-. set (n := Z.of_nat (length (chosen M mask))) in *.
  assert (PN : 0 < n) by (unfold n; destruct (chosen M mask); [congruence | cbn [length]; lia]). unfold bg_backward, with_grad. destruct gx as [[accum d0] |]; [| exists None; split; [reflexivity | exact I]].
  unfold grad_size, has_size in *. pose proof (rows_ok n D PN HD) as RO. rewrite vget_0 in *. cbn [obind] in *. rewrite RO. cbn [obind]. rewrite prod_size. rewrite size_app in GX. cbn [size] in LDY. rewrite merged_size in LDY.
  destruct (scatter_ok (size D) (size M) n mask (size_nonneg D HD) (size_nonneg M HM) LM ltac:(rewrite chosen_rank by exact HM; unfold n; lia) accum false dy d0 PN LDY GX) as (d & ED & L & V).
  rewrite ED. cbn [obind]. exists (Some d). split; [reflexivity |]. split; [rewrite size_app, L; exact GX |]. split.
  - intros j e Hj Ie. destruct (chosen_nth M mask j HM Hj) as (I1 & T1 & R1). cbv zeta. rewrite !qelem_app by assumption. rewrite row_at by (try assumption; unfold n; lia).
    rewrite V by (apply off_bound; assumption). rewrite T1, R1. reflexivity.
  - intros i e Ii Ie T. rewrite qelem_off in T by exact Ii. rewrite !qelem_app by assumption. rewrite V by (apply off_bound; assumption). rewrite T. ring.
Qed.
(** BoolScatter: [n] rows of shape [D] to the chosen places of a mask of shape [M]. *)
Theorem C60_scatter_setup : forall n D M inp, inp = None \/ inp = Some (M ++ D) -> bs_setup (n :: D) M inp = Some (M ++ D).
Proof.
  intros n D M inp [-> | ->]; unfold bs_setup; cbn [tl]; [reflexivity |]. rewrite Nat.eqb_refl. cbn [negb]. rewrite <- (app_nil_r (M ++ D)) at 2. rewrite same_front_app. reflexivity.
Qed.
Theorem C60_scatter_accepted : forall s m inp out, bs_setup s m inp = Some out -> out = m ++ tl s /\ (inp = None \/ inp = Some out).
Proof.
  intros s m inp out. unfold bs_setup. destruct inp as [g |]; [| intros H; injection H as <-; auto]. destruct (Nat.eqb_spec (length g) (length (m ++ tl s))) as [L |]; [| discriminate]. cbn [negb].
  destruct (same_front (m ++ tl s) g) eqn:E; [| discriminate]. intros H. injection H as <-. split; [reflexivity |]. right. apply same_front_inv in E. destruct E as (d & ->). rewrite app_length in L. destruct d; [rewrite app_nil_r; reflexivity | cbn [length] in L; lia].
Qed.
(** Proved if there are rows, and enough for the mask; refuted below for fewer. *)
Theorem C60_scatter_values_partial : forall (inplace : bool) n D M s mask y0, sizes M -> sizes D -> 0 < n -> (length (chosen M mask) <= Z.to_nat n)%nat ->
  has_size s (size (n :: D)) -> has_size mask (size M) -> has_size y0 (size (M ++ D)) ->
  exists y, bs_forward inplace (n :: D) M s mask y0 = Some y /\ has_size y (size (M ++ D)) /\
  (forall j e, (j < length (chosen M mask))%nat -> inside e D -> qelem y (M ++ D) (nth j (chosen M mask) [] ++ e) = qelem s (n :: D) (Z.of_nat j :: e)) /\
  (forall i e, inside i M -> inside e D -> is_set (qelem mask M i) = false -> qelem y (M ++ D) (i ++ e) = if inplace then qelem y0 (M ++ D) (i ++ e) else 0%Qc).
Proof.
  intros inplace n D M s mask y0 HM HD PN FEW LS LM LY. unfold has_size in *. cbn [size] in LS. rewrite size_app in LY. unfold bs_forward. rewrite vget_0. cbn [obind]. rewrite !prod_size. cbn [size].
  rewrite Z.mul_comm, divide_mul by lia. cbn [obind].
  destruct (scatter_ok (size D) (size M) n mask (size_nonneg D HD) (size_nonneg M HM) LM ltac:(rewrite chosen_rank by exact HM; lia) false inplace s y0 PN LS LY) as (y & EY & L & V).
  exists y. split; [exact EY |]. split; [rewrite size_app, L; exact LY |]. split.
  - intros j e Hj Ie. destruct (chosen_nth M mask j HM Hj) as (I1 & T1 & R1). rewrite qelem_app by assumption. rewrite row_at by (try assumption; lia). rewrite V by (apply off_bound; assumption). rewrite T1, R1. apply Qcplus_0_l.
  - intros i e Ii Ie T. rewrite qelem_off in T by exact Ii. rewrite !qelem_app by assumption. rewrite V by (apply off_bound; assumption). rewrite T. apply Qcplus_0_l.
Qed.
(** The gradient of the rows used is that of their places; the gradient of the third input is
    that of the other places. *)
Theorem C60_scatter_gradient_partial : forall n D M mask dy gs gi, sizes M -> sizes D -> 0 < n -> (length (chosen M mask) <= Z.to_nat n)%nat ->
  has_size mask (size M) -> has_size dy (size (M ++ D)) -> grad_size gs (size (n :: D)) -> grad_size gi (size (M ++ D)) ->
  exists ds di, bs_backward (n :: D) M mask dy gs gi = Some (ds, di) /\
  match gs, ds with
  | Some (accum, d0), Some d => has_size d (size (n :: D)) /\
      forall j e, (j < length (chosen M mask))%nat -> inside e D ->
        qelem d (n :: D) (Z.of_nat j :: e) = ((if accum then qelem d0 (n :: D) (Z.of_nat j :: e) else 0) + qelem dy (M ++ D) (nth j (chosen M mask) [] ++ e))%Qc
  | None, None => True
  | _, _ => False
  end /\
  each_at gi di (M ++ D) (fun i => if is_set (qelem mask M (firstn (length M) i)) then 0%Qc else qelem dy (M ++ D) i).
Proof.
  intros n D M mask dy gs gi HM HD PN FEW LM LDY GS GI. unfold grad_size, has_size in *. cbn [size] in *. rewrite size_app in *.
  assert (DV : divide (n * size D) n = Some (size D)) by (rewrite Z.mul_comm; apply divide_mul; lia).
  assert (RK : rank (fun b => is_set (qat mask b)) (size M) <= n) by (rewrite chosen_rank by exact HM; lia).
  assert (A : exists ds, with_grad (fun accum ds => bool_gather accum (size D) (size M) n dy mask ds) gs = Some ds /\ match gs, ds with
    | Some (accum, d0), Some d => Z.of_nat (length d) = n * size D /\
      forall j e, (j < length (chosen M mask))%nat -> inside e D ->
        qelem d (n :: D) (Z.of_nat j :: e) = ((if accum then qelem d0 (n :: D) (Z.of_nat j :: e) else 0) + qelem dy (M ++ D) (nth j (chosen M mask) [] ++ e))%Qc
    | None, None => True | _, _ => False end).
  { destruct gs as [[accum d0] |]; [| exists None; split; [reflexivity | exact I]]. unfold with_grad.
    destruct (gather_ok (size D) (size M) n mask (size_nonneg D HD) (size_nonneg M HM) LM RK accum dy d0 LDY GS) as (d & ED & L & V). rewrite ED. cbn [obind]. exists (Some d). split; [reflexivity |]. split; [rewrite L; exact GS |].
    intros j e Hj Ie. destruct (chosen_nth M mask j HM Hj) as (I1 & T1 & R1). rewrite qelem_app by assumption. rewrite !row_at by (try assumption; lia).
    specialize (V (off (nth j (chosen M mask) []) M) (off e D) (off_bound _ _ I1) (off_bound _ _ Ie) T1). rewrite R1 in V. exact V. }
  assert (B : exists di, with_grad (fun accum di => masked_identity accum (size M) (size D) dy mask di) gi = Some di /\
    each_at gi di (M ++ D) (fun i => if is_set (qelem mask M (firstn (length M) i)) then 0%Qc else qelem dy (M ++ D) i)).
  { destruct gi as [[accum d0] |]; [| exists None; split; [reflexivity | exact I]]. unfold with_grad.
    destruct (identity_ok (size D) (size M) mask (size_nonneg D HD) (size_nonneg M HM) LM accum dy d0 LDY GI) as (d & ED & L & V). rewrite ED. cbn [obind]. exists (Some d). split; [reflexivity |]. split; [exact L |].
    intros o Io. destruct (inside_split M D o Io) as (i & e & -> & Ii & Ie). rewrite <- (Forall2_length _ _ _ Ii), firstn_app, Nat.sub_diag, firstn_all, firstn_O, app_nil_r.
    rewrite !qelem_app by assumption. rewrite (qelem_off mask) by exact Ii. apply V; apply off_bound; assumption. }
  destruct A as (ds & EA & VA). destruct B as (di & EB & VB). exists ds, di. split; [| split; [exact VA | exact VB]].
  unfold bs_backward. rewrite vget_0. cbn [obind]. rewrite !prod_size. cbn [size]. rewrite DV. cbn [obind]. rewrite EA. cbn [obind]. rewrite EB. cbn [obind].
  destruct gs as [[? ?] |], gi as [[? ?] |]; try reflexivity. destruct ds, di; try contradiction. reflexivity.
Qed.

(** * C61 *)
Lemma range_upto n : range 0 n = upto (Z.of_nat n).
Proof. rewrite upto_range, Nat2Z.id. reflexivity. Qed.
Theorem C61_setup : forall shape A, shape <> [] -> oh_setup shape (A ++ [Z.of_nat (length shape)]) = Some (size A, size shape, A ++ shape).
Proof.
  intros shape A NE. unfold oh_setup. rewrite rev_unit, Z.eqb_refl. cbn [negb]. rewrite prod_size, size_app. cbn [size]. rewrite Z.mul_1_r.
  assert (0 < Z.of_nat (length shape)) by (destruct shape; [congruence | cbn [length]; lia]). rewrite divide_mul by lia. cbn [obind]. rewrite !prod_size, rev_involutive, size_app, Z.eqb_refl. reflexivity.
Qed.
(** Everything accepted has these shapes. *)
Theorem C61_accepted : forall shape x f, oh_setup shape x = Some f -> exists A, x = A ++ [Z.of_nat (length shape)] /\ shape <> [] /\ f = (size A, size shape, A ++ shape).
Proof.
  intros shape x f E0. pose proof E0 as E. unfold oh_setup in E. destruct (rev x) as [| dim front] eqn:R; [discriminate |]. destruct (Z.eqb_spec (Z.of_nat (length shape)) dim) as [<- |]; [| discriminate]. cbn [negb] in E.
  assert (X : x = rev front ++ [Z.of_nat (length shape)]) by (rewrite <- (rev_involutive x), R; reflexivity).
  assert (NE : shape <> []) by (intros ->; discriminate E). exists (rev front). split; [exact X |]. split; [exact NE |]. rewrite X, C61_setup in E0 by exact NE. congruence.
Qed.
Theorem C61_values : forall shape A x num n out y0, sizes A -> sizes shape -> oh_setup shape (A ++ [Z.of_nat (length shape)]) = Some (num, n, out) ->
  Z.of_nat (length x) = size (A ++ [Z.of_nat (length shape)]) -> has_size y0 (size out) ->
  exists y, oh_forward shape num n x y0 = Some y /\ has_size y (size out) /\ out = A ++ shape /\
  forall a o, inside a A -> inside o shape -> qelem y (A ++ shape) (a ++ o) = if list_eq_dec Z.eq_dec (labels A shape x a) o then 1%Qc else 0%Qc.
Proof.
  intros shape A x num n out y0 HA HS E LX LY. assert (NE : shape <> []) by (destruct (C61_accepted _ _ _ E) as (_ & _ & H & _); exact H). rewrite C61_setup in E by exact NE. injection E as <- <- <-.
  unfold has_size in *. rewrite size_app in LX, LY. cbn [size] in LX. rewrite Z.mul_1_r in LX. set (k := Z.of_nat (length shape)) in *. assert (PK : 0 < k) by (unfold k; destruct shape; [congruence | cbn [length]; lia]).
  set (cs := fun i => map (fun j => nth (Z.to_nat (i * k + j)) x 0) (range 0 (length shape))).
  assert (LCS : forall i, length (cs i) = length shape) by (intros i; unfold cs; rewrite map_length, range_upto; unfold upto; rewrite map_length, seq_length; lia).
  destruct (oh_forward_ok shape (size A) x (fun i => classes shape (cs i)) y0 (size_nonneg A HA) HS LY) as (y & EY & L & V).
  { intros i Hi. rewrite (oh_addr_ok x shape (cs i)); [destruct (is_inside _ _); [rewrite Z.add_0_l, Z.mul_1_l |]; reflexivity | apply LCS |].
    intros j Hj. fold k. assert (IN : 0 <= i * k + j < Z.of_nat (length x)) by (rewrite LX; fold k in Hj; nia). fold k in Hj.
    assert (EN : nth (Z.to_nat j) (cs i) 0 = nth (Z.to_nat (i * k + j)) x 0).
    { unfold cs. rewrite range_upto. unfold upto. rewrite Nat2Z.id, map_map. rewrite nth_indep with (d' := (fun n => nth (Z.to_nat (i * k + Z.of_nat n)) x 0) 0%nat) by (rewrite map_length, seq_length; unfold k in Hj; lia).
      rewrite (map_nth (fun n => nth (Z.to_nat (i * k + Z.of_nat n)) x 0)), seq_nth by (unfold k in Hj; lia). rewrite Nat.add_0_l, Z2Nat.id by lia. reflexivity. }
    rewrite EN.
    unfold get. destruct (Z.ltb_spec (i * k + j) 0); [lia |]. apply nth_error_nth'. lia. }
  exists y. split; [exact EY |]. split; [rewrite L, size_app; exact LY |]. split; [reflexivity |]. intros a o Ia Io. rewrite qelem_app by assumption. rewrite V by (first [apply off_bound; exact Ia | exact Io]).
  assert (EL : classes shape (cs (off a A)) = labels A shape x a).
  { unfold labels, cs. f_equal. apply map_ext_in. intros j J. rewrite range_upto in J. apply upto_in in J. unfold elem. fold k. rewrite position_off by (apply inside_app; [exact Ia | constructor; [exact J | constructor]]).
    rewrite Z.mul_0_l, Z.add_0_l, off_app by (first [exact Ia | constructor; [exact J | constructor]]). cbn [size off]. do 2 f_equal. ring. }
  rewrite EL. reflexivity.
Qed.

(** * Examples *)
Example C59_where_ex : where_setup [2] [2; 2] [2; 2] = Some [2; 2] /\ where_setup [] [2] [2] = Some [2] /\ where_setup [3] [2; 2] [2; 2] = None /\ where_setup [2; 2; 1] [2; 2] [2; 2] = None /\ where_setup [2] [2; 2] [2; 1] = None /\
  show (where_forward 2 4 (map q [1; 0]) (map q [1; 2; 3; 4]) (map q [5; 6; 7; 8]) (nines 4)) = qs [1; 2; 7; 8] /\
  show2 (where_backward 2 4 (map q [-3; 0]) (map q [1; 2; 3; 4]) (Some (true, nines 4)) (Some (false, nines 4))) = Some (qs [10; 11; 9; 9], qs [0; 0; 3; 4]) /\
  show2 (where_backward 2 4 (map q [-3; 0]) (map q [1; 2; 3; 4]) None (Some (true, nines 4))) = Some (None, qs [9; 9; 12; 13]).
Proof. repeat split; vm_compute; reflexivity. Qed.
(** An empty condition is divided by, where the result is empty. *)
Theorem C59_where_empty_refuted : where_setup [0] [0; 2] [0; 2] = Some [0; 2] /\ where_forward (size [0]) (size [0; 2]) [] [] [] [] = None.
Proof. split; reflexivity. Qed.
Example C59_fill_ex : repeatable [2] [2; 2] /\ repeatable [2; 1] [2; 2] /\ fill_setup None [2; 2] [2] = Some (Some [2; 2]) /\ fill_setup None [2] [2] = Some None /\
  show (fill_forward (q 5) (Some [2; 2]) [2; 2] [2] (q 7) (map q [1; 2; 3; 4]) (map q [0; 2]) (nines 4)) = qs [1; 7; 3; 7] /\
  show (fill_forward (q 5) (Some [2; 2]) [2; 2] [2; 1] (q 7) (map q [1; 2; 3; 4]) (map q [0; 2]) (nines 4)) = qs [1; 2; 7; 7] /\
  option_map show (fill_backward (q 5) (Some [2; 2]) [2; 2] [2] (map q [0; 2]) (map q [1; 2; 3; 4]) (Some (true, nines 4))) = Some (qs [10; 9; 12; 9]) /\
  option_map show (fill_backward (q 5) None [2] [2] (map q [0; 2]) (map q [1; 2]) (Some (false, nines 2))) = Some (qs [1; 0]).
Proof. split; [split; [cbn; lia | cbn; repeat apply Forall2_cons; try apply Forall2_nil; lia] |]. split; [split; [cbn; lia | cbn; repeat apply Forall2_cons; try apply Forall2_nil; lia] |]. repeat split; vm_compute; reflexivity. Qed.
(** Set up again for a mask of the shape of the data, the function still broadcasts to the shape
    of the first data: here the second element should be filled, and is not. *)
Theorem C59_fill_again_refuted : exists f, fill_setup None [2; 2] [2] = Some f /\ fill_setup f [2; 1] [2; 1] = Some f /\
  show (fill_forward (q 5) f [2; 1] [2; 1] (q 7) (map q [1; 2]) (map q [0; 1]) (nines 2)) = qs [1; 2].
Proof. exists (Some [2; 2]). repeat split; vm_compute; reflexivity. Qed.
(** Nine axes are refused when the function is run. *)
Theorem C59_fill_axes_refuted : fill_setup None [1; 1; 1; 1; 1; 1; 1; 1; 2] [2] = Some (Some [1; 1; 1; 1; 1; 1; 1; 1; 2]) /\
  fill_forward (q 5) (Some [1; 1; 1; 1; 1; 1; 1; 1; 2]) [1; 1; 1; 1; 1; 1; 1; 1; 2] [2] (q 7) (map q [1; 2]) (map q [0; 1]) (nines 2) = None.
Proof. split; vm_compute; reflexivity. Qed.
(** A mask that cannot be repeated is accepted by the setup, and refused later. *)
Theorem C59_fill_accepts_refuted : fill_setup None [2; 2] [3] = Some (Some [2; 2]) /\ ~ repeatable [3] [2; 2] /\
  fill_forward (q 5) (Some [2; 2]) [2; 2] [3] (q 7) (map q [1; 2; 3; 4]) (map q [0; 1; 0]) (nines 4) = None.
Proof. split; [reflexivity |]. split; [| vm_compute; reflexivity]. intros (_ & F). cbn [skipn length Nat.sub] in F. inversion F as [| ? ? ? ? H]; subst. destruct H; discriminate. Qed.

Example C60_gather_ex : binary (map q [1; 0; 1]) /\ chosen [3] (map q [1; 0; 1]) = [[0]; [2]] /\
  bg_setup [3; 2] [3] (map q [1; 0; 1]) = Some [2; 2] /\ bg_setup [3; 2; 2] [3; 2] (map q [1; 0; 1; 1; 0; 0]) = Some [3; 2] /\ bg_setup [2] [2] (map q [1; 0]) = Some [1] /\ bg_setup [3; 2] [2] (map q [1; 0]) = None /\ bg_setup [2] [2; 2] (map q [1; 0; 0; 0]) = None /\
  show (bg_forward [3] [2; 2] (map q [1; 2; 3; 4; 5; 6]) (map q [1; 0; 1]) (nines 4)) = qs [1; 2; 5; 6] /\
  option_map show (bg_backward [3] [2; 2] (map q [1; 0; 1]) (map q [1; 2; 3; 4]) (Some (true, nines 6))) = Some (qs [10; 11; 9; 9; 12; 13]) /\
  option_map show (bg_backward [3] [2; 2] (map q [1; 0; 1]) (map q [1; 2; 3; 4]) (Some (false, nines 6))) = Some (qs [1; 2; 0; 0; 3; 4]).
Proof. split; [constructor; [right; reflexivity | constructor; [left; reflexivity | constructor; [right; reflexivity | constructor]]] |]. repeat split; vm_compute; reflexivity. Qed.
(** A mask without ones: the number of rows is divided by. *)
Theorem C60_gather_none_refuted : bg_setup [2; 2] [2] (map q [0; 0]) = Some [0; 2] /\ chosen [2] (map q [0; 0]) = [] /\ bg_forward [2] [0; 2] (map q [1; 2; 3; 4]) (map q [0; 0]) [] = None.
Proof. repeat split; vm_compute; reflexivity. Qed.
(** The number of rows is the sum of the mask, not the number of its nonzero elements: with an
    element 3, the last row is not written; with an element 1/2, there is no row. *)
Theorem C60_gather_sum_refuted : bg_setup [2] [2] (map q [3; 0]) = Some [3] /\ chosen [2] (map q [3; 0]) = [[0]] /\ show (bg_forward [2] [3] (map q [1; 2]) (map q [3; 0]) (nines 3)) = qs [1; 0; 9] /\
  bg_setup [2] [2] [Q2Qc (1 # 2); q 0] = Some [0] /\ chosen [2] [Q2Qc (1 # 2); q 0] = [[0]].
Proof. repeat split; vm_compute; reflexivity. Qed.
Example C60_scatter_ex : bs_setup [2; 2] [3] None = Some [3; 2] /\ bs_setup [2; 2] [3] (Some [3; 2]) = Some [3; 2] /\ bs_setup [2; 2] [3] (Some [2; 2]) = None /\ bs_setup [2; 2] [3] (Some [3; 2; 1]) = None /\
  chosen [3] (map q [0; 1; 5]) = [[1]; [2]] /\
  show (bs_forward false [2; 2] [3] (map q [1; 2; 3; 4]) (map q [0; 1; 5]) (nines 6)) = qs [0; 0; 1; 2; 3; 4] /\
  show (bs_forward true [2; 2] [3] (map q [1; 2; 3; 4]) (map q [0; 1; 5]) (nines 6)) = qs [9; 9; 1; 2; 3; 4] /\
  show2 (bs_backward [2; 2] [3] (map q [0; 1; 5]) (map q [1; 2; 3; 4; 5; 6]) (Some (false, nines 4)) (Some (true, nines 6))) = Some (qs [3; 4; 5; 6], qs [10; 11; 9; 9; 9; 9]) /\
  show2 (bs_backward [2; 2] [3] (map q [0; 1; 5]) (map q [1; 2; 3; 4; 5; 6]) (Some (true, nines 4)) None) = Some (qs [12; 13; 14; 15], None).
Proof. repeat split; vm_compute; reflexivity. Qed.
(** The gradient of rows that are not used should be zero; here the third one keeps the value
    that the memory had. *)
Theorem C60_scatter_unused_refuted : show2 (bs_backward [3] [3] (map q [1; 0; 0]) (map q [1; 2; 3]) (Some (false, nines 3)) None) = Some (qs [1; 0; 9], None).
Proof. vm_compute; reflexivity. Qed.
(** With fewer rows than places, the last row is repeated without an error; without rows, their
    number is divided by. *)
Theorem C60_scatter_few_refuted : bs_setup [1] [2] None = Some [2] /\ show (bs_forward false [1] [2] (map q [4]) (map q [1; 1]) (nines 2)) = qs [4; 4] /\
  bs_setup [0] [2] None = Some [2] /\ bs_forward false [0] [2] [] (map q [0; 0]) (nines 2) = None.
Proof. repeat split; vm_compute; reflexivity. Qed.

Example C61_ex : oh_setup [3] [4; 1] = Some (4, 3, [4; 3]) /\ oh_setup [2; 3] [4; 2] = Some (4, 6, [4; 2; 3]) /\ oh_setup [3] [4; 2] = None /\ oh_setup [3] [] = None /\
  show (oh_forward [3] 4 3 [0; 2; -1; 3] (nines 12)) = qs [1; 0; 0; 0; 0; 1; 0; 0; 1; 0; 0; 0] /\ show (oh_forward [2; 3] 2 6 [1; 0; 0; -4] (nines 12)) = qs [0; 0; 0; 1; 0; 0; 0; 0; 0; 0; 0; 0] /\
  labels [2] [2; 3] [1; 0; 0; -4] [0] = [1; 0] /\ labels [2] [2; 3] [1; 0; 0; -4] [1] = [0; -1].
Proof. repeat split; vm_compute; reflexivity. Qed.
(** A shape without axes: the number of axes is divided by. *)
Theorem C61_empty_refuted : oh_setup [] [2; 0] = None.
Proof. reflexivity. Qed.

Print Assumptions C59_where_setup. Print Assumptions C59_where_accepted. Print Assumptions C59_where_values_partial. Print Assumptions C59_where_gradient_partial.
Print Assumptions C59_fill_setup. Print Assumptions C59_fill_values_partial. Print Assumptions C59_fill_gradient_partial.
Print Assumptions C60_gather_setup_partial. Print Assumptions C60_gather_values_partial. Print Assumptions C60_gather_gradient_partial. Print Assumptions C60_gather_accepted.
Print Assumptions C60_scatter_setup. Print Assumptions C60_scatter_accepted. Print Assumptions C60_scatter_values_partial. Print Assumptions C60_scatter_gradient_partial.
Print Assumptions C61_setup. Print Assumptions C61_accepted. Print Assumptions C61_values.
