(** Reading with a key. *)
From Coq Require Import List ZArith Bool Lia QArith Qcanon.
From Verif Require SliceModel SliceProofs SliceProps.
From Verif Require Import NdModel NdSpec NdProofs SliceSpec IdxModel IdxProofs1 IdxProofs2 JoinProofs ScanModel ScanSpec ScanProofs1 ConvModel ConvSpec MatModel MatProps KeyModel KeySpec KeyProofs1.
Import ListNotations.
Local Open Scope list_scope.
Local Open Scope Z_scope.

Lemma same_shape_refl a : same_shape a a = true.
Proof. unfold same_shape. destruct (list_eq_dec Z.eq_dec a a); [reflexivity | contradiction]. Qed.
Lemma same_shape_eq a b : same_shape a b = true -> a = b.
Proof. unfold same_shape. destruct (list_eq_dec Z.eq_dec a b); [auto | discriminate]. Qed.
Lemma same_shape_no a b : a <> b -> same_shape a b = false.
Proof. unfold same_shape. destruct (list_eq_dec Z.eq_dec a b); [contradiction | reflexivity]. Qed.
Lemma lists_unique shape : forall args s t, length args = length shape -> good_lists shape args s -> good_lists shape args t -> s = t.
Proof.
  induction shape as [| n shape IH]; intros [| a args] s t L S T; try discriminate; cbn [combine] in *; inversion S; inversion T; subst; [reflexivity |]. f_equal; [| eapply IH; eauto].
  eapply SliceProofs.python_unique; cbn [fst snd] in *; eassumption.
Qed.
Lemma lists_nonneg sels : Forall (fun n => 0 <= n) (SliceProps.extents sels).
Proof. unfold SliceProps.extents. induction sels; constructor; [lia | assumption]. Qed.
(** F.slice with the entries of a key. *)
Lemma sliced_ok junk shape args sels x : shape <> [] -> Forall (fun n => 0 <= n < 2147483647) shape -> length args = length shape -> Forall2 ordinary shape args -> good_lists shape args sels -> has_size x (size shape) ->
  exists axes y, sliced shape args = Some axes /\ SliceModel.out_shape axes = SliceProps.extents sels /\ SliceModel.forward shape axes x (fresh junk (SliceModel.out_shape axes)) = Some y /\
    has_size y (size (SliceProps.extents sels)) /\ forall c s, inside c (SliceProps.extents sels) -> picks sels c s -> qat y (off c (SliceProps.extents sels)) = qat x (off s shape).
Proof.
  intros NE HS LA OR GL LX. destruct (SliceProps.C25_ordinary shape args HS OR) as (filled & axes & F & S & V & C).
  assert (HN : Z.of_nat (length (fresh junk (SliceModel.out_shape axes))) = size (SliceModel.out_shape axes)).
  { unfold fresh. rewrite repeat_length, prod_size. apply Z2Nat.id. apply size_nonneg. destruct (SliceProps.axes_selected shape HS args filled axes LA C F) as (_ & sels' & _ & EO & _).
    - rewrite <- (SliceProps.setup_full shape args filled LA F). exact S.
    - exact V.
    - rewrite EO. apply lists_nonneg. }
  destruct (SliceProps.C25_forward_partial Qc shape args filled axes x (fresh junk (SliceModel.out_shape axes)) NE HS LA C F S V LX HN) as (sels' & r & P & EO & E & L & W).
  assert (sels' = sels) by (eapply lists_unique; eassumption). subst sels'. exists axes, r. split; [unfold sliced; rewrite F; exact S |]. split; [exact EO |]. split; [exact E |].
  split; [unfold has_size; rewrite L, HN, EO; reflexivity |]. intros c s I PK. destruct (W c I) as (s' & v & PK' & IS & EX & ER). pose proof (SliceProps.picks_fun _ _ _ _ PK PK') as <-.
  rewrite position_off in EX by exact IS. rewrite position_off in ER by exact I. rewrite Z.mul_0_l, Z.add_0_l in *. destruct EX as (_ & EX). destruct ER as (_ & ER). unfold qat.
  rewrite (nth_error_nth _ _ _ EX), (nth_error_nth _ _ _ ER). reflexivity.
Qed.
Lemma prepared keys full shape args : shape <> [] -> length args = length shape -> as_slices shape (axis_keys full) = Some args -> expands (length shape) keys full -> completed (length shape) keys -> prepare keys shape = Some (full, args).
Proof.
  intros NE LA EA X C. rewrite (prepare_good keys full shape X C). unfold finish. rewrite EA. cbn [obind]. destruct args; [| reflexivity]. destruct shape; [contradiction | discriminate].
Qed.
Lemma getitem_ok junk keys full shape O x : shape <> [] -> Forall (fun n => 0 <= n < 2147483647) shape -> expands (length shape) keys full -> completed (length shape) keys -> gives full shape O ->
  Forall2 ordinary_key shape (axis_keys full) -> has_size x (size shape) ->
  exists y, getitem junk keys shape x = Some (O, y) /\ has_size y (size O) /\
    forall o s, takes full shape o s -> inside o O /\ inside s shape /\ qelem y O o = qelem x shape s.
Proof.
  intros NE HS X C G OR LX. destruct (gives_args full shape O G HS OR) as (args & sels & E1 & E2 & E3 & E4 & E5 & E6 & E7 & E8 & E9 & E10 & E11).
  destruct (sliced_ok junk shape args sels x NE HS E2 E3 E4 LX) as (axes & y & S1 & S2 & S3 & S4 & S5). exists y. split.
  - unfold getitem. rewrite (prepared keys full shape args NE E2 E1 X C). cbn [obind]. rewrite S1. cbn [obind]. rewrite S3. cbn [obind]. rewrite S2, E6. cbn [obind].
    destruct (same_shape (SliceProps.extents sels) O); [reflexivity |]. unfold reshape. rewrite !prod_size, E7, Z.eqb_refl. reflexivity.
  - split; [unfold has_size in *; rewrite S4, E7; reflexivity |]. intros o s T. destruct (E10 o s T) as (c & I & PK & IS & IC & EO). split; [exact I |]. split; [exact IS |].
    rewrite (qelem_off y), (qelem_off x) by assumption. rewrite EO. apply S5; assumption.
Qed.
Lemma takes_total keys shape O : gives keys shape O -> forall o, inside o O -> exists s, takes keys shape o s.
Proof.
  induction 1 as [| v n keys shape O V G IH | a l n keys shape O P G IH | keys shape O G IH]; intros o I.
  - inversion I. exists []. constructor.
  - destruct (IH o I) as (s & T). destruct (Z.ltb_spec v 0); [exists (v + n :: s); apply takes_back | exists (v :: s); apply takes_int]; (lia || exact T).
  - inversion I as [| i ? r ? Hi Hr]; subst. destruct (IH r Hr) as (s & T). destruct (nth_error l (Z.to_nat i)) as [x |] eqn:X; [| apply nth_error_None in X; lia]. exists (x :: s). econstructor; [exact P | lia | exact X | exact T].
  - inversion I as [| i ? r ? Hi Hr]; subst. destruct (IH r Hr) as (s & T). exists s. replace i with 0 by lia. constructor. exact T.
Qed.
Lemma takes_fun keys shape o s : takes keys shape o s -> forall t, takes keys shape o t -> s = t.
Proof.
  induction 1 as [| v n keys shape o s V T IH | v n keys shape o s V T IH | a l i x n keys shape o s P Hi X T IH | keys shape o s T IH]; intros t H; inversion H; subst; try reflexivity; try lia; try (f_equal; apply IH; assumption).
  assert (l0 = l) by (eapply SliceProofs.python_unique; eassumption). subst. f_equal; [congruence | apply IH; assumption].
Qed.
Lemma takes_inj keys shape o s : takes keys shape o s -> forall p, takes keys shape p s -> o = p.
Proof.
  induction 1 as [| v n keys shape o s V T IH | v n keys shape o s V T IH | a l i x n keys shape o s P Hi X T IH | keys shape o s T IH]; intros p H; inversion H; subst; try reflexivity; try lia; try (f_equal; apply IH; assumption); try (apply IH; assumption).
  assert (l0 = l) by (eapply SliceProofs.python_unique; eassumption). subst. f_equal; [| apply IH; assumption].
  destruct a as [[a1 a2] a3]. destruct P as (K & P). assert (E1 := proj1 (P _ _) X). match goal with H : nth_error l _ = Some x |- _ => assert (E2 := proj1 (P _ _) H) end.
  destruct E1 as (E1 & _). destruct E2 as (E2 & _). rewrite !Z2Nat.id in * by lia. assert (E : Z.mul i (match a3 with Some k => k | None => 1 end) = Z.mul i0 (match a3 with Some k => k | None => 1 end)) by lia.
  apply Z.mul_cancel_r in E; assumption.
Qed.
Lemma gives_fun keys shape O : gives keys shape O -> forall P, gives keys shape P -> O = P.
Proof.
  induction 1 as [| v n keys shape O V G IH | a l n keys shape O P G IH | keys shape O G IH]; intros Q H; inversion H; subst; try reflexivity; try (apply IH; assumption); try (f_equal; apply IH; assumption).
  assert (l0 = l) by (eapply SliceProofs.python_unique; eassumption). subst. f_equal. apply IH. assumption.
Qed.
