(** What the index loop computes, and the loops over the output. *)
From Coq Require Import List ZArith Bool Lia QArith Qcanon.
From Verif Require Import NdSpec NdProofs IdxModel IdxProofs1 IdxProofs2 IdxProofs3 IdxProofs6 JoinModel JoinProofs ScanSpec ScanModel ScanProofs1 ReduceModel ConvSpec ConvModel ConvProofs3 MatSpec MatModel MatProofs2 BinSpec BinModel BinProofs1.
Import ListNotations.
Local Open Scope list_scope.
Local Open Scope Z_scope.

(** * Shapes *)
Lemma bin_out_joined s0 : forall s1 o, bin_out s0 s1 = Some o -> joined s0 s1 o.
Proof.
  induction s0 as [| m s0 IH]; intros [| n s1] o H; cbn [bin_out] in H; try discriminate; [injection H as <-; constructor |].
  destruct (Z.eqb_spec m n) as [-> | N]; cbn [negb andb] in H.
  - destruct (bin_out s0 s1) as [o' |] eqn:E; [| discriminate]. cbn [obind] in H. injection H as <-. rewrite Z.max_id. constructor. auto.
  - destruct (Z.eqb_spec (Z.min m n) 1) as [Q |]; cbn [negb] in H; [| discriminate]. destruct (bin_out s0 s1) as [o' |] eqn:E; [| discriminate]. cbn [obind] in H. injection H as <-.
    assert (m = 1 \/ n = 1) as [-> | ->] by lia.
    + replace (Z.max 1 n) with n by lia. constructor. auto.
    + replace (Z.max m 1) with m by lia. constructor. auto.
Qed.
Lemma joined_bin_out A B C : joined A B C -> unmixed A B -> bin_out A B = Some C.
Proof.
  induction 1 as [| n A B C J IH | n A B C J IH | n A B C J IH]; intros U; cbn [bin_out]; [reflexivity | | |]; inversion U as [| ? ? ? ? (U1 & U2) U3]; subst; rewrite IH by assumption; cbn [obind].
  - rewrite Z.eqb_refl. cbn [negb andb]. rewrite Z.max_id. reflexivity.
  - destruct (Z.eqb_spec 1 n) as [<- | N]; cbn [negb andb]; [reflexivity |]. replace (Z.min 1 n) with 1 by lia. cbn. replace (Z.max 1 n) with n by lia. reflexivity.
  - destruct (Z.eqb_spec n 1) as [-> | N]; cbn [negb andb]; [reflexivity |]. replace (Z.min n 1) with 1 by lia. cbn. replace (Z.max n 1) with n by lia. reflexivity.
Qed.
Lemma bin_out_unmixed s0 : forall s1 o, bin_out s0 s1 = Some o -> unmixed s0 s1.
Proof.
  induction s0 as [| m s0 IH]; intros [| n s1] o H; cbn [bin_out] in H; try discriminate; [constructor |].
  destruct (Z.eqb_spec m n) as [-> | N]; cbn [negb andb] in H.
  - destruct (bin_out s0 s1) as [o' |] eqn:E; [| discriminate]. constructor; [lia | eapply IH; eassumption].
  - destruct (Z.eqb_spec (Z.min m n) 1) as [Q |]; cbn [negb] in H; [| discriminate]. destruct (bin_out s0 s1) as [o' |] eqn:E; [| discriminate]. constructor; [lia | eapply IH; eassumption].
Qed.
Lemma joined_lengths A B C : joined A B C -> length A = length C /\ length B = length C.
Proof. induction 1; cbn [length]; intuition congruence. Qed.
Lemma joined_stretches A B C : joined A B C -> stretches A C /\ stretches B C.
Proof. induction 1 as [| n A B C J (I1 & I2) | n A B C J (I1 & I2) | n A B C J (I1 & I2)]; split; constructor; auto. Qed.
Lemma joined_sym A B C : joined A B C -> joined B A C.
Proof. induction 1; constructor; assumption. Qed.
Lemma inside_positive c C : inside c C -> positive C.
Proof. induction 1 as [| i n c C H I IH]; constructor; [lia | exact IH]. Qed.

(** * The index loop *)
Lemma zip3_joined A B C : joined A B C -> positive C -> Forall good (zip3 A B) /\ map (side false) (zip3 A B) = combine A C /\ map (side true) (zip3 A B) = combine B C.
Proof.
  induction 1 as [| n A B C J IH | n A B C J IH | n A B C J IH]; intros P; [cbn; auto | | |]; inversion P as [| ? ? Pn P']; subst; destruct (IH P') as (G & E0 & E1); cbn [zip3 map side combine]; rewrite E0, E1.
  - rewrite Z.max_id. split; [constructor; [cbn; lia | exact G] | auto].
  - replace (Z.max 1 n) with n by lia. split; [constructor; [cbn; lia | exact G] | auto].
  - replace (Z.max n 1) with n by lia. split; [constructor; [cbn; lia | exact G] | auto].
Qed.
Lemma combine_outs A : forall C, length A = length C -> outs (combine A C) = size C /\ ins (combine A C) = size A.
Proof.
  unfold outs, ins. induction A as [| a A IH]; intros [| c C] L; try discriminate; [cbn; auto |]. cbn [combine map size fst snd]. injection L as L. destruct (IH C L) as (-> & ->). auto.
Qed.
Lemma reach_off A C : stretches A C -> positive C -> forall c, inside c C -> reach (combine A C) (off c C) = off (picked A c) A.
Proof.
  induction 1 as [| a n A C K F IH]; intros P c I; inversion I as [| i ? c' ? Hi I']; subst; [reflexivity |]. inversion P as [| ? ? Pn P']; subst.
  pose proof (Forall2_length _ _ _ F) as L. destruct (combine_outs A C L) as (O & N). cbn [combine off picked]. rewrite <- O.
  assert (E : extents (combine A C)).
  { clear - F P'. unfold extents. revert P'. induction F as [| a n A C K F IH]; intros P; [constructor |]. inversion P; subst. constructor; [split; [assumption | exact K] | auto]. }
  rewrite reach_cons; [| exact Pn | exact E | exact Hi | rewrite O; apply off_bound; exact I']. rewrite IH by assumption. rewrite N.
  f_equal. destruct K as [-> | ->].
  - rewrite Z.eqb_refl. destruct (Z.eqb_spec n 1) as [-> |]; [replace i with 0 by lia; reflexivity | reflexivity].
  - rewrite Z.eqb_refl. destruct (Z.eqb_spec 1 n) as [<- |]; [replace i with 0 by lia; ring | ring].
Qed.
Lemma bin_index_ok c : Forall good c -> forall idx, 0 <= idx -> forall i0 i1,
  bin_index (zero_strides (map (fun a => fst (fst a)) c) (map snd c) (cstrides (map (fun a => fst (fst a)) c))) (zero_strides (map (fun a => snd (fst a)) c) (map snd c) (cstrides (map (fun a => snd (fst a)) c)))
    (cstrides (map snd c)) (map snd c) idx i0 i1 = Some (i0 + reach (map (side false) c) idx, i1 + reach (map (side true) c) idx).
Proof.
  induction 1 as [| ((m & n) & y) c (Py & K) G IH]; intros idx Hi i0 i1; [cbn; rewrite !Z.add_0_r; reflexivity |]. cbn [map fst snd side]. rewrite !cstrides_cons. cbn [zero_strides bin_index reach].
  assert (B : size (map snd c) = outs (map (side false) c)) by (rewrite side_outs; reflexivity). assert (Pb : 0 < outs (map (side false) c)) by (apply extents_outs; apply good_side; exact G).
  assert (I0 : size (map (fun a => fst (fst a)) c) = ins (map (side false) c)) by (unfold ins; rewrite map_map; f_equal; apply map_ext; intros ((? & ?) & ?); reflexivity).
  assert (I1 : size (map (fun a => snd (fst a)) c) = ins (map (side true) c)) by (unfold ins; rewrite map_map; f_equal; apply map_ext; intros ((? & ?) & ?); reflexivity).
  rewrite B, I0, I1. unfold divide. destruct (Z.eqb_spec (outs (map (side false) c)) 0); [lia |]. cbn [obind]. unfold remainder. destruct (Z.eqb_spec y 0); [lia |]. cbn [obind].
  rewrite Z.quot_div_nonneg by lia. assert (Q := Z.div_pos idx (outs (map (side false) c)) Hi Pb). rewrite Z.rem_mod_nonneg by lia. rewrite IH by exact Hi. rewrite !side_outs. f_equal. f_equal; ring.
Qed.
Lemma pad3_good c : Forall good c -> Forall good (pad3 c).
Proof. intros G. unfold pad3. apply Forall_app. split; [| exact G]. apply Forall_forall. intros x H. apply repeat_spec in H. subst. cbn. lia. Qed.
Lemma pad3_reach p c : Forall good c -> forall r, reach (map (side p) (pad3 c)) r = reach (map (side p) c) r.
Proof.
  intros G r. unfold pad3. induction (3 - length c)%nat as [| k IH]; [reflexivity |]. cbn [repeat app map side]. rewrite <- IH. replace (if p then 1 else 1) with 1 by (destruct p; reflexivity). apply reach_one.
  apply good_side. apply Forall_app. split; [| exact G]. apply Forall_forall. intros x H. apply repeat_spec in H. subst. cbn. lia.
Qed.
Lemma at_index_ok A B C f c : joined A B C -> bin_setup A B = Some f -> inside c C ->
  at_index f (off c C) = Some (off (picked A c) A, off (picked B c) B).
Proof.
  intros J S I. unfold bin_setup in S. destruct (bin_out A B) as [o |] eqn:E; [| discriminate]. cbn [obind] in S. injection S as <-. unfold at_index. cbn [strides_x0 strides_x1 strides_y shape_y].
  assert (P := inside_positive _ _ I). destruct (zip3_joined A B C J P) as (G & E0 & E1). destruct (joined_lengths _ _ _ J) as (L0 & L1). destruct (joined_stretches _ _ _ J) as (F0 & F1). pose proof (off_bound _ _ I) as OB.
  destruct A as [| a A].
  - destruct B; [| inversion J]. inversion J; subst. inversion I; subst. reflexivity.
  - assert (L : length (a :: A) = length B) by congruence. assert (NE : a :: A <> []) by discriminate.
    assert (FT : match zip3 (a :: A) B with [] => True | x :: _ => fits (1, 1, 1) x end) by (destruct (zip3 (a :: A) B); [exact Logic.I |]; inversion G; subst; apply good_fits_one; assumption).
    assert (GC : Forall good (compress (a :: A) B 1 1 1)) by (apply compress_good; assumption).
    rewrite bin_index_ok; [| apply pad3_good; exact GC | lia]. rewrite !pad3_reach by exact GC. rewrite !Z.add_0_l.
    assert (BG : big (zip3 (a :: A) B) = size C) by (rewrite <- (side_outs false), E0; apply combine_outs; exact L0).
    rewrite !compress_reach by (try assumption; rewrite BG; lia). cbn [side]. rewrite !reach_one by (apply good_side; exact G). rewrite E0, E1. rewrite !reach_off by assumption. reflexivity.
Qed.
