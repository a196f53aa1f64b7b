(** ScatterNd. *)
From Coq Require Import List ZArith Lia Bool QArith Qcanon.
From Verif Require Import NdModel NdSpec NdProofs IdxModel IdxSpec IdxProofs1 IdxProofs2 IdxProofs3 IdxProofs6 JoinModel JoinSpec JoinProofs JoinProofs2 ScanModel ScanSpec ScanProofs1 ReduceModel ReduceSpec ReduceProofs1 ConvModel ConvSpec ConvProofs1 ConvProofs2 ConvProofs3 ConvProofs5 ConvProofs6 PoolProofs3 PoolProofs5 PoolProps MatModel MatSpec MatProofs1 MatProofs2 MatProps MaskProofs1 ScatModel ScatSpec ScatProofs1.
Import ListNotations.
Local Open Scope list_scope.
Local Open Scope Z_scope.

Lemma snd_index_gnd idx cols i : forall rows shape m r, gnd_index idx cols i m shape rows = Some r -> snd_index idx cols i m shape rows = Some r.
Proof.
  induction rows as [| rows IH]; intros [| n shape] m r; cbn [gnd_index snd_index]; [auto | auto | auto |].
  change (rd idx (m * cols + i)) with (get idx (m * cols + i)). destruct (get idx (m * cols + i)) as [v |]; cbn [obind]; [| discriminate]. unfold norm_index. destruct (v <? n); [| discriminate]. destruct (- n <=? v); [| discriminate]. cbn [obind].
  destruct (gnd_index idx cols i (m + 1) shape rows) as [r' |] eqn:E; cbn [obind]; [| discriminate]. intros H. injection H as <-. rewrite (IH _ _ _ E). reflexivity.
Qed.
Lemma app_inj_1 {A} : forall (a b c d : list A), a ++ b = c ++ d -> length a = length c -> a = c /\ b = d.
Proof. induction a as [| x a IH]; intros b [| y c] d E L; try discriminate L; [auto |]. injection E as -> E. destruct (IH _ _ _ E) as (-> & ->); [injection L as L; exact L | auto]. Qed.
Lemma omap_mono {A B} (f g : A -> option B) : forall l r, (forall a b, f a = Some b -> g a = Some b) -> omap f l = Some r -> omap g l = Some r.
Proof.
  induction l as [| a l IH]; intros r H; cbn [omap]; [auto |]. destruct (f a) as [b |] eqn:E; cbn [obind]; [| discriminate]. rewrite (H a b E). cbn [obind].
  destruct (omap f l) as [bs |] eqn:E2; cbn [obind]; [| discriminate]. rewrite (IH bs H eq_refl). auto.
Qed.
Lemma snd_pairs_gnd shape ishape idx ps : gnd_pairs shape ishape idx = Some ps -> snd_pairs shape ishape idx = Some ps.
Proof.
  unfold gnd_pairs, snd_pairs. destruct (gnd_shape shape ishape) as [s |]; cbn [obind]; [| discriminate]. destruct (strides shape) as [st |]; cbn [obind]; [| discriminate].
  intros H. match type of H with obind ?o _ = _ => destruct o as [l |] eqn:E end; cbn [obind] in H; [| discriminate H]. erewrite omap_mono; [exact H | | exact E].
  intros i b. cbv beta. destruct (gnd_index idx (prod (tl ishape)) i 0 shape (Z.to_nat (hd 0 ishape))) as [r |] eqn:G; cbn [obind]; [| discriminate]. rewrite (snd_index_gnd _ _ _ _ _ _ _ G). auto.
Qed.

Section Nd.
Variables (A B rest idx : list Z).
Local Notation ishape := (Z.of_nat (length A) :: rest).
Hypothesis HA : A <> [].
Hypothesis HR : rest <> [].
Hypothesis PA : nonneg A.
Hypothesis PB : nonneg B.
Hypothesis PR : nonneg rest.
Hypothesis LI : Z.of_nat (length idx) = size ishape.
Hypothesis VAL : places_valid idx rest A.
(** The place of position [q]. *)
Definition dest (q : Z) : Z := off (place idx rest A (unoff rest (q / size B))) A * size B + q mod size B.
Lemma place_gnd c : place idx rest A c = gnd_at idx ishape (A ++ B) c (length A).
Proof using. clear. unfold place, gnd_at. apply map_ext_in. intros m Hm. apply in_seq in Hm. rewrite nth_app_l by lia. reflexivity. Qed.
Lemma valid_gnd c : inside c rest -> gnd_valid idx ishape (A ++ B) (length A) c.
Proof using VAL. intros Ic m Hm. rewrite nth_app_l by lia. apply VAL; assumption. Qed.
Lemma place_in c : inside c rest -> inside (place idx rest A c) A.
Proof using VAL B. intros Ic. rewrite place_gnd. apply gnd_at_inside. apply valid_gnd. exact Ic. Qed.
Lemma dest_off c r : inside c rest -> inside r B -> dest (off (c ++ r) (rest ++ B)) = off (place idx rest A c ++ r) (A ++ B).
Proof using PR VAL B. intros Ic Ir. unfold dest. destruct (off_div c rest r B Ic Ir) as (-> & ->). rewrite unoff_off by assumption. symmetry. apply off_app; [apply place_in; exact Ic | exact Ir]. Qed.
Lemma pos_split q : 0 <= q < size (rest ++ B) -> exists c r, inside c rest /\ inside r B /\ q = off (c ++ r) (rest ++ B).
Proof using PB PR. clear - PB PR. intros H. destruct (off_onto (rest ++ B) q) as (i & Ii & <-); [apply Forall_app; auto | exact H |]. destruct (inside_split rest B i Ii) as (c & r & -> & Ic & Ir). exists c, r. auto. Qed.
Lemma gnd_dest : gnd_pairs (A ++ B) ishape idx = Some (map (fun q => (q, dest q)) (upto (size (rest ++ B)))).
Proof using HA HR PA PB PR LI VAL.
  rewrite (gnd_pairs_ok A B rest idx HA HR (proj2 (Forall_app _ _ _) (conj PA PB)) PR LI) by (intros; apply valid_gnd; assumption).
  f_equal. unfold direct. rewrite size_app, upto_range. apply map_ext_in. intros q Hq. apply range_in in Hq. f_equal. rewrite <- size_app in Hq. pose proof (size_nonneg (rest ++ B) (proj2 (Forall_app _ _ _) (conj PR PB))).
  destruct (pos_split q ltac:(lia)) as (c & r & Ic & Ir & ->). unfold dest. destruct (off_div c rest r B Ic Ir) as (-> & ->). rewrite (gnd_column A B rest idx c Ic), unoff_off by assumption. rewrite <- place_gnd. reflexivity.
Qed.
Lemma dest_in q : 0 <= q < size (rest ++ B) -> 0 <= dest q < size (A ++ B).
Proof using PB PR VAL. intros H. destruct (pos_split q H) as (c & r & Ic & Ir & ->). rewrite dest_off by assumption. apply off_bound. apply inside_app; [apply place_in; exact Ic | exact Ir]. Qed.
(** Which positions are brought to [p ++ r]. *)
Lemma dest_is p r q : inside p A -> inside r B -> 0 <= q < size (rest ++ B) -> dest q = off (p ++ r) (A ++ B) -> exists c, inside c rest /\ q = off (c ++ r) (rest ++ B) /\ place idx rest A c = p.
Proof using PA PB PR VAL.
  intros Ip Ir Hq E. destruct (pos_split q Hq) as (c & r' & Ic & Ir' & ->). rewrite dest_off in E by assumption.
  apply (off_inj (A ++ B)) in E; [| apply Forall_app; auto | apply inside_app; [apply place_in; exact Ic | exact Ir'] | apply inside_app; assumption].
  apply app_inj_1 in E; [| rewrite (inside_length _ _ (place_in c Ic)), (inside_length _ _ Ip); reflexivity]. destruct E as (E & ->). exists c. auto.
Qed.
Lemma place_pos c r d : inside c rest -> inside d rest -> inside r B -> (off (c ++ r) (rest ++ B) < off (d ++ r) (rest ++ B) <-> position 0 c rest < position 0 d rest).
Proof using. clear. intros Ic Id Ir. rewrite !position_off by assumption. rewrite !off_app by assumption. pose proof (off_bound r B Ir). split; nia. Qed.

Lemma snd_add_ok (out : bool) src dst : qlen src = size (rest ++ B) -> qlen dst = size (A ++ B) ->
  exists y, snd_forward out true (A ++ B) ishape idx src dst = Some y /\ length y = length dst /\
  forall p r, inside p A -> inside r B -> qat y (off (p ++ r) (A ++ B)) =
    ((if out then qat dst (off (p ++ r) (A ++ B)) else 0) + total (indices rest) (fun c => if same (place idx rest A c) p then qat src (off (c ++ r) (rest ++ B)) else 0))%Qc.
Proof using HA HR PA PB PR LI VAL.
  intros LS LD. unfold snd_forward. rewrite gnd_dest. cbn [obind]. rewrite map_map. unfold swap. cbn [fst snd].
  destruct (adds_ok (size (rest ++ B)) dest (fun q => q) src (cleared out dst)) as (y & E & L & V).
  - apply size_nonneg. apply Forall_app. auto.
  - intros q Hq. unfold qlen, within. rewrite cleared_length. fold (qlen dst). rewrite LD. apply dest_in. exact Hq.
  - intros q Hq. unfold within. lia.
  - exists y. split; [exact E |]. split; [rewrite L; apply cleared_length |]. intros p r Ip Ir. assert (Ipr : inside (p ++ r) (A ++ B)) by (apply inside_app; assumption). pose proof (off_bound _ _ Ipr). rewrite V by lia. rewrite cleared_qat. f_equal.
    rewrite (total_indices rest _ (fun i => if same (place idx rest A (unoff rest i)) p then qat src (i * size B + off r B) else 0%Qc)); [| exact PR |].
    2: { intros c Ic. rewrite unoff_off by assumption. rewrite off_app by assumption. reflexivity. }
    rewrite size_app, zsum_mul by (apply size_nonneg; assumption). apply zsum_ext. intros i Hi. destruct (unoff_inside rest i PR Hi) as (Ii & Oi). unfold same. destruct (list_eq_dec Z.eq_dec (place idx rest A (unoff rest i)) p) as [EP | NP].
    + rewrite (zsum_only _ (off r B)); [| apply off_bound; exact Ir |].
      2: { intros j Hj NJ. destruct (Z.eqb_spec (dest (i * size B + j)) (off (p ++ r) (A ++ B))) as [EQ |]; [exfalso | reflexivity].
        apply dest_is in EQ; [| exact Ip | exact Ir | rewrite size_app; nia]. destruct EQ as (c & Ic & EQ & _). rewrite off_app in EQ by assumption. pose proof (off_bound r B Ir). assert (i = off c rest) by nia. subst i. lia. }
      rewrite <- Oi. rewrite <- off_app by assumption. rewrite dest_off, EP, Z.eqb_refl by assumption. reflexivity.
    + apply zsum_zero. intros j Hj. destruct (Z.eqb_spec (dest (i * size B + j)) (off (p ++ r) (A ++ B))) as [EQ |]; [exfalso | reflexivity].
      apply dest_is in EQ; [| exact Ip | exact Ir | rewrite size_app; nia]. destruct EQ as (c & Ic & EQ & EP). apply NP. rewrite off_app in EQ by assumption. pose proof (off_bound r B Ir). assert (i = off c rest) by nia. subst i. rewrite unoff_off by assumption. exact EP.
Qed.
Lemma snd_copy_ok (out : bool) src dst : qlen src = size (rest ++ B) -> qlen dst = size (A ++ B) ->
  exists y, snd_forward out false (A ++ B) ishape idx src dst = Some y /\ length y = length dst /\
  (forall p c r, inside p A -> inside r B -> last_to idx rest A p c -> qat y (off (p ++ r) (A ++ B)) = qat src (off (c ++ r) (rest ++ B))) /\
  (forall p r, inside p A -> inside r B -> none_to idx rest A p -> qat y (off (p ++ r) (A ++ B)) = if out then qat dst (off (p ++ r) (A ++ B)) else 0%Qc).
Proof using HA HR PA PB PR LI VAL.
  intros LS LD. unfold snd_forward. rewrite gnd_dest. cbn [obind]. rewrite map_map. unfold swap. cbn [fst snd].
  destruct (copies_ok (size (rest ++ B)) dest (fun q => q) src (cleared out dst)) as (y & E & L & V & W).
  - apply size_nonneg. apply Forall_app. auto.
  - intros q Hq. unfold qlen, within. rewrite cleared_length. fold (qlen dst). rewrite LD. apply dest_in. exact Hq.
  - intros q Hq. unfold within. lia.
  - exists y. split; [exact E |]. split; [rewrite L; apply cleared_length |]. split.
    + intros p c r Ip Ir (Ic & EP & LAST). pose proof (off_bound _ _ (inside_app _ _ Ic _ _ Ir)) as OB. rewrite <- EP, <- dest_off by assumption. apply V; [exact OB |]. intros q' Hq' EQ. rewrite dest_off, EP in EQ by assumption.
      apply dest_is in EQ; [| exact Ip | exact Ir | lia]. destruct EQ as (d & Id & -> & EP'). specialize (LAST d Id EP'). pose proof (proj1 (place_pos c r d Ic Id Ir) ltac:(lia)). lia.
    + intros p r Ip Ir NONE. pose proof (off_bound _ _ (inside_app _ _ Ip _ _ Ir)) as OB. rewrite W; [apply cleared_qat | lia |]. intros q Hq EQ. apply dest_is in EQ; [| exact Ip | exact Ir | exact Hq]. destruct EQ as (d & Id & _ & EP'). exact (NONE d Id EP').
Qed.
Lemma snd_back_ok (accum : bool) dy d0 : qlen dy = size (A ++ B) -> qlen d0 = size (rest ++ B) ->
  exists d, snd_backward false (A ++ B) ishape idx dy (Some (accum, d0)) = Some (Some d, dy) /\ length d = length d0 /\
  forall c r, inside c rest -> inside r B -> qat d (off (c ++ r) (rest ++ B)) = ((if accum then qat d0 (off (c ++ r) (rest ++ B)) else 0) + qat dy (off (place idx rest A c ++ r) (A ++ B)))%Qc.
Proof using HA HR PA PB PR LI VAL.
  intros LD L0. unfold snd_backward. rewrite (snd_pairs_gnd _ _ _ _ gnd_dest). cbn [obind]. destruct accum.
  - destruct (adds_ok (size (rest ++ B)) (fun q => q) dest dy d0) as (d & E & L & V).
    + apply size_nonneg. apply Forall_app. auto.
    + intros q Hq. unfold within. lia.
    + intros q Hq. unfold within. rewrite LD. apply dest_in. exact Hq.
    + rewrite E. cbn [obind]. exists d. split; [reflexivity |]. split; [exact L |]. intros c r Ic Ir. pose proof (off_bound _ _ (inside_app _ _ Ic _ _ Ir)) as OB. rewrite V by lia. rewrite zsum_one by exact OB. rewrite dest_off by assumption. reflexivity.
  - destruct (copies_ok (size (rest ++ B)) (fun q => q) dest dy d0) as (d & E & L & V & _).
    + apply size_nonneg. apply Forall_app. auto.
    + intros q Hq. unfold within. lia.
    + intros q Hq. unfold within. rewrite LD. apply dest_in. exact Hq.
    + rewrite E. cbn [obind]. exists d. split; [reflexivity |]. split; [exact L |]. intros c r Ic Ir. pose proof (off_bound _ _ (inside_app _ _ Ic _ _ Ir)) as OB. rewrite (V _ OB) by (intros; lia). rewrite dest_off by assumption. ring.
Qed.
Lemma snd_back_out_ok (accum : bool) dy d0 : qlen dy = size (A ++ B) -> qlen d0 = size (rest ++ B) ->
  exists d e, snd_backward true (A ++ B) ishape idx dy (Some (accum, d0)) = Some (Some d, e) /\ length d = length d0 /\ length e = length dy /\
  (forall c r, first_to idx rest A (place idx rest A c) c -> inside r B -> qat d (off (c ++ r) (rest ++ B)) = ((if accum then qat d0 (off (c ++ r) (rest ++ B)) else 0) + qat dy (off (place idx rest A c ++ r) (A ++ B)))%Qc) /\
  (forall c b r, first_to idx rest A (place idx rest A c) b -> b <> c -> inside c rest -> inside r B -> qat d (off (c ++ r) (rest ++ B)) = if accum then qat d0 (off (c ++ r) (rest ++ B)) else 0%Qc) /\
  (forall c r, inside c rest -> inside r B -> qat e (off (place idx rest A c ++ r) (A ++ B)) = 0%Qc) /\
  (forall p r, inside p A -> inside r B -> none_to idx rest A p -> qat e (off (p ++ r) (A ++ B)) = qat dy (off (p ++ r) (A ++ B))).
Proof using HA HR PA PB PR LI VAL.
  intros LD L0. unfold snd_backward. rewrite (snd_pairs_gnd _ _ _ _ gnd_dest). cbn [obind].
  destruct (moves_ok accum (size (rest ++ B)) dest d0 dy) as (d & e & E & L1 & L2 & V1 & V2 & V3 & V4).
  - apply size_nonneg. apply Forall_app. auto.
  - intros q Hq. unfold within. rewrite LD. apply dest_in. exact Hq.
  - symmetry. exact L0.
  - rewrite E. cbn [obind]. exists d, e. split; [reflexivity |]. split; [exact L1 |]. split; [exact L2 |]. split; [| split; [| split]].
    + intros c r (Ic & _ & F) Ir. pose proof (off_bound _ _ (inside_app _ _ Ic _ _ Ir)) as OB. rewrite <- dest_off by assumption. apply V1; [exact OB |]. intros q' Hq' EQ. rewrite dest_off in EQ by assumption.
      apply dest_is in EQ; [| apply place_in; exact Ic | exact Ir | lia]. destruct EQ as (b & Ib & -> & EP). specialize (F b Ib EP). pose proof (proj1 (place_pos b r c Ib Ic Ir) ltac:(lia)). lia.
    + intros c b r (Ib & EB & F) N Ic Ir. pose proof (off_bound _ _ (inside_app _ _ Ic _ _ Ir)) as OB. pose proof (off_bound _ _ (inside_app _ _ Ib _ _ Ir)) as OB2. apply (V2 _ (off (b ++ r) (rest ++ B))); [split; [lia |] | lia |].
      * apply place_pos; try assumption. specialize (F c Ic eq_refl). assert (position 0 b rest <> position 0 c rest); [| lia]. rewrite !position_off by assumption. intros EQ. apply N. apply (off_inj rest); [assumption | assumption | assumption | lia].
      * rewrite !dest_off by assumption. rewrite EB. reflexivity.
    + intros c r Ic Ir. rewrite <- dest_off by assumption. apply V3. apply off_bound. apply inside_app; assumption.
    + intros p r Ip Ir NONE. pose proof (off_bound _ _ (inside_app _ _ Ip _ _ Ir)) as OB. apply V4; [lia |]. intros q Hq EQ. apply dest_is in EQ; [| exact Ip | exact Ir | exact Hq]. destruct EQ as (d' & Id & _ & EP'). exact (NONE d' Id EP').
Qed.
End Nd.
