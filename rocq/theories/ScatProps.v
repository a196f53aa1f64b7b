(** ScatterAdd (C62) and ScatterNd (C63). *)
From Coq Require Import List ZArith Lia Bool QArith Qcanon.
From Verif Require Import NdModel NdSpec NdProofs IdxModel IdxSpec IdxProofs1 IdxProofs2 IdxProofs3 IdxProofs6 JoinModel JoinSpec JoinProofs JoinProofs2 ScanModel ScanSpec ScanProofs1 ReduceModel ReduceSpec ReduceProofs1 ConvModel ConvSpec ConvProofs1 ConvProofs2 ConvProofs3 ConvProofs5 ConvProofs6 PoolProofs3 PoolProofs5 PoolProps MatModel MatSpec MatProofs1 MatProofs2 MatProps MaskProofs1 ScatModel ScatSpec ScatProofs1 ScatProofs2.
Import ListNotations.
Local Open Scope list_scope.
Local Open Scope Z_scope.

(** * C62 *)
Lemma sa_fits_iff axis : forall I X0 X1 k, length I = length X0 -> length X1 = length X0 ->
  (sa_fits k axis I X0 X1 = true <-> (forall m, (m < length X0)%nat -> k + Z.of_nat m <> axis -> nth m I 0 <= nth m X0 0) /\ (forall m, (m < length X0)%nat -> nth m I 0 <= nth m X1 0)).
Proof.
  induction I as [| n I IH]; intros [| a X0] [| b X1] k L0 L1; cbn [length] in *; try lia; cbn [sa_fits].
  - split; [intros _; split; intros; lia | reflexivity].
  - rewrite !andb_true_iff, IH by lia. rewrite orb_true_iff, Z.eqb_eq, !Z.leb_le. split.
    + intros ((H1 & H2) & H3 & H4). split; intros [| m] Hm; cbn [nth]; intros; try (apply H3; lia); try (apply H4; lia); lia.
    + intros (H1 & H2). split; [split |].
      * destruct (Z.eq_dec k axis); [auto | right; apply (H1 0%nat); lia].
      * apply (H2 0%nat). lia.
      * split; [intros m Hm N; apply (H1 (S m)); lia | intros m Hm; apply (H2 (S m)); lia].
Qed.
Theorem C62_setup : forall k X0 I X1 axis, scatter_fit k X0 I X1 -> denotes axis k (length X0) -> sa_setup axis X0 I X1 = Some X0.
Proof.
  intros k X0 I X1 axis F AX. unfold sa_setup. rewrite (sa_axis_ok k X0 I X1 axis F AX). destruct F as [A N N1 F0 F1 _].
  destruct (Z.leb_spec (Z.of_nat k) (Z.of_nat (length X0))); [| lia]. cbn [negb]. rewrite N, N1, Nat.eqb_refl. cbn [negb].
  assert (E : sa_fits 0 (Z.of_nat k) I X0 X1 = true); [| rewrite E; reflexivity]. apply sa_fits_iff; [exact N | exact N1 |]. split; [intros m Hm NE; apply F0; lia | exact F1].
Qed.
(** Everything accepted with an axis of the data has these shapes. *)
Theorem C62_accepted_partial : forall k X0 I X1 axis o, (k < length X0)%nat -> denotes axis k (length X0) -> sizes X0 -> sizes I -> sizes X1 -> sa_setup axis X0 I X1 = Some o -> o = X0 /\ scatter_fit k X0 I X1.
Proof.
  intros k X0 I X1 axis o A AX S0 SI S1. unfold sa_setup.
  assert (EA : sa_axis axis (length X0) = Z.of_nat k) by (unfold sa_axis; destruct AX as [-> | ->]; match goal with |- context [Z.ltb ?a ?b] => destruct (Z.ltb_spec a b) end; lia). rewrite EA.
  destruct (Z.leb_spec (Z.of_nat k) (Z.of_nat (length X0))); [| lia]. cbn [negb]. destruct (Nat.eqb_spec (length X0) (length I)) as [N |]; [| discriminate]. destruct (Nat.eqb_spec (length X0) (length X1)) as [N1 |]; [| discriminate]. cbn [negb].
  destruct (sa_fits 0 (Z.of_nat k) I X0 X1) eqn:E; [| discriminate]. intros H1. injection H1 as <-. apply sa_fits_iff in E; [| lia | lia]. destruct E as (F0 & F1). split; [reflexivity |]. constructor; auto.
  intros m Hm NE. apply F0; lia.
Qed.
Lemma elem_val idx I i : inside i I -> elem idx I i = nth (Z.to_nat (off i I)) idx 0.
Proof. intros Ii. unfold elem. rewrite position_off by exact Ii. reflexivity. Qed.
Theorem C62_values : forall k X0 I X1 axis idx x0 x1 y0, scatter_fit k X0 I X1 -> denotes axis k (length X0) -> in_range k X0 idx -> Z.of_nat (length idx) = size I ->
  has_size x0 (size X0) -> has_size x1 (size X1) -> has_size y0 (size X0) ->
  exists y, sa_forward axis X0 I X1 x0 idx x1 y0 = Some y /\ has_size y (size X0) /\
  forall o, inside o X0 -> qelem y X0 o = (qelem x0 X0 o + total (indices I) (fun i => if same (replaced k (elem idx I i) i) o then qelem x1 X1 i else 0))%Qc.
Proof.
  intros k X0 I X1 axis idx x0 x1 y0 F AX R LI L0 L1 LY. destruct (sa_forward_ok k X0 I X1 idx axis F AX R LI x0 x1 y0 L0 L1 LY) as (y & E & L & V). destruct (s_sizes _ _ _ _ F) as (SZ0 & SZ & SZ1).
  exists y. split; [exact E |]. split; [unfold has_size in *; rewrite L; exact LY |]. intros o Io. rewrite (qelem_off y), (qelem_off x0) by exact Io. rewrite V by exact Io. f_equal. symmetry. apply total_indices; [exact SZ |].
  intros i Ii. rewrite elem_val by exact Ii. rewrite unoff_off by assumption. destruct (same _ _); [| reflexivity]. apply qelem_off. exact (to_x1 k X0 I X1 F i Ii).
Qed.
(** An index outside is refused. *)
Theorem C62_range : forall k X0 I X1 axis idx x0 x1 y0, scatter_fit k X0 I X1 -> denotes axis k (length X0) -> Z.of_nat (length idx) = size I -> ~ in_range k X0 idx -> sa_forward axis X0 I X1 x0 idx x1 y0 = None.
Proof.
  intros k X0 I X1 axis idx x0 x1 y0 F AX LI NR. unfold sa_forward. destruct (loop _ _ y0) as [y |]; cbn [obind]; [| reflexivity].
  assert (E : sa_pairs axis X0 I X1 idx = None); [| rewrite E; reflexivity]. unfold sa_pairs.
  destruct (strides X0) as [st0 |]; cbn [obind]; [| reflexivity]. destruct (strides I) as [st |]; cbn [obind]; [| reflexivity]. destruct (strides X1) as [st1 |]; cbn [obind]; [| reflexivity].
  assert (W : exists q, 0 <= q < size I /\ ~ 0 <= nth (Z.to_nat q) idx 0 < nth k X0 0).
  { unfold in_range in NR. apply neg_Forall_Exists_neg in NR; [| intros v; destruct (Z_le_dec 0 v), (Z_lt_dec v (nth k X0 0)); auto; right; lia]. apply Exists_exists in NR. destruct NR as (v & IV & NV).
    destruct (In_nth idx v 0 IV) as (n & Hn & EV). exists (Z.of_nat n). rewrite Nat2Z.id, EV. split; [lia | exact NV]. }
  destruct W as (q & Hq & NV). rewrite prod_size, (sa_axis_ok k X0 I X1 axis F AX). apply (omap_none _ _ q); [apply upto_in; exact Hq |].
  assert (G : get idx q = Some (nth (Z.to_nat q) idx 0)) by (unfold get; destruct (Z.ltb_spec q 0); [lia |]; apply nth_error_nth'; lia). rewrite G. cbn [obind]. pose proof (s_axis _ _ _ _ F) as A.
  assert (G2 : vget X0 (Z.of_nat k) = Some (nth k X0 0)) by (unfold vget; destruct (Z.ltb_spec (Z.of_nat k) 0); [lia |]; rewrite Nat2Z.id; apply nth_error_nth'; exact A). rewrite G2. cbn [obind].
  destruct (Z.leb_spec 0 (nth (Z.to_nat q) idx 0)); [| reflexivity]. destruct (Z.ltb_spec (nth (Z.to_nat q) idx 0) (nth k X0 0)); [lia | reflexivity].
Qed.
(** The gradients, by index. *)
Theorem C62_gradient : forall k X0 I X1 axis idx dy g0 g1, scatter_fit k X0 I X1 -> denotes axis k (length X0) -> in_range k X0 idx -> Z.of_nat (length idx) = size I ->
  has_size dy (size X0) -> grad_size g0 (size X0) -> grad_size g1 (size X1) ->
  exists d0 d1, sa_backward axis X0 I X1 idx dy g0 g1 = Some (d0, d1) /\ each_at g0 d0 X0 (fun o => qelem dy X0 o) /\
  each_at g1 d1 X1 (fun i => if is_inside i I then qelem dy X0 (replaced k (elem idx I i) i) else 0%Qc).
Proof.
  intros k X0 I X1 axis idx dy g0 g1 F AX R LI LD G0 G1. unfold has_size in LD. destruct (s_sizes _ _ _ _ F) as (SZ0 & SZ & SZ1).
  assert (A0 : exists d0, with_grad (fun accum dx => loop (fun i dx => obind (get dy i) (fun v => if accum : bool then obind (get dx i) (fun old => put dx i (old + v)%Qc) else put dx i v)) (upto (prod X0)) dx) g0 = Some d0 /\ each_at g0 d0 X0 (fun o => qelem dy X0 o)).
  { destruct g0 as [[accum e0] |]; [| exists None; split; [reflexivity | exact Logic.I]]. unfold with_grad. cbn [grad_size] in G0. unfold has_size in G0. rewrite prod_size.
    destruct (fill_ok (size X0) (fun j old => ((if accum then old else 0) + qat dy j)%Qc) (fun i dx => obind (get dy i) (fun v => if accum : bool then obind (get dx i) (fun old => put dx i (old + v)%Qc) else put dx i v)) e0 (size_nonneg X0 SZ0) G0) as (d & E & L & V).
    - intros j a Hj La. rewrite get_ok by (unfold within, qlen; lia). cbn [obind]. destruct accum; [| rewrite Qcplus_0_l; reflexivity]. rewrite get_ok by (unfold within; lia). reflexivity.
    - rewrite E. cbn [obind]. exists (Some d). split; [reflexivity |]. split; [exact L |]. intros o Io. rewrite (qelem_off d), (qelem_off dy), (qelem_off e0) by exact Io. apply V. apply off_bound. exact Io. }
  assert (A1 : exists d1, with_grad (fun accum dx => obind (sa_pairs axis X0 I X1 idx) (fun ps => (if accum : bool then add_all else copy_all) (map swap ps) dy (cleared accum dx))) g1 = Some d1 /\
    each_at g1 d1 X1 (fun i => if is_inside i I then qelem dy X0 (replaced k (elem idx I i) i) else 0%Qc)).
  { destruct g1 as [[accum e0] |]; [| exists None; split; [reflexivity | exact Logic.I]]. unfold with_grad. rewrite (sa_pairs_ok k X0 I X1 idx axis F AX R LI). cbn [obind].
    destruct (sa_back_ok k X0 I X1 idx axis F AX R LI accum dy e0 LD G1) as (d & E & L & V). rewrite E. cbn [obind]. exists (Some d). split; [reflexivity |]. split; [exact L |].
    intros i Ii. rewrite (qelem_off d), (qelem_off e0) by exact Ii. rewrite V by exact Ii. f_equal. destruct (is_inside i I) eqn:T; [| reflexivity]. apply is_inside_iff in T. rewrite elem_val by exact T. symmetry. apply qelem_off.
    apply (to_x0 k X0 I X1 F i _ T). pose proof (off_bound i I T). unfold in_range in R. rewrite Forall_forall in R. apply R. apply nth_In. lia. }
  destruct A0 as (d0 & E0 & V0). destruct A1 as (d1 & E1 & V1). exists d0, d1. split; [| auto]. unfold sa_backward. rewrite E0. cbn [obind]. rewrite E1. reflexivity.
Qed.
Lemma sum_adjoint n M N (D S : Z -> Z) (u acc dy y e : Z -> Qc) : (forall q, 0 <= q < n -> 0 <= D q < N) -> (forall q, 0 <= q < n -> 0 <= S q < M) ->
  (forall p, 0 <= p < N -> y p = zsum n (fun q => if D q =? p then u (S q) else 0%Qc)) -> (forall j, 0 <= j < M -> e j = (acc j + zsum n (fun q => if S q =? j then dy (D q) else 0))%Qc) ->
  zsum M (fun j => u j * e j)%Qc = (zsum M (fun j => u j * acc j) + zsum N (fun p => dy p * y p))%Qc.
Proof.
  intros HD HS HY HE. rewrite (zsum_ext M _ (fun j => u j * acc j + zsum n (fun q => u j * (if S q =? j then dy (D q) else 0)))%Qc) by (intros j Hj; rewrite HE, zsum_scale by exact Hj; ring). rewrite zsum_plus. f_equal.
  rewrite zsum_swap. rewrite (zsum_ext N _ (fun p => zsum n (fun q => dy p * (if D q =? p then u (S q) else 0)))%Qc) by (intros p Hp; rewrite HY, zsum_scale by exact Hp; reflexivity). rewrite (zsum_swap N n). apply zsum_ext. intros q Hq.
  rewrite (zsum_only M (S q)) by (first [apply HS; exact Hq | intros j Hj NE; destruct (Z.eqb_spec (S q) j); [congruence | ring]]).
  rewrite (zsum_only N (D q)) by (first [apply HD; exact Hq | intros j Hj NE; destruct (Z.eqb_spec (D q) j); [congruence | ring]]). rewrite !Z.eqb_refl. ring.
Qed.
Lemma qat_zeros n p : 0 <= p < n -> qat (repeat 0%Qc (Z.to_nat n)) p = 0%Qc.
Proof. intros H. unfold qat. apply nth_repeat. Qed.
(** They are those of what is computed. *)
Theorem C62_adjoint : forall k X0 I X1 axis idx dy g0 g1 y0, scatter_fit k X0 I X1 -> denotes axis k (length X0) -> in_range k X0 idx -> Z.of_nat (length idx) = size I ->
  has_size dy (size X0) -> grad_size g0 (size X0) -> grad_size g1 (size X1) -> has_size y0 (size X0) ->
  exists d0 d1, sa_backward axis X0 I X1 idx dy g0 g1 = Some (d0, d1) /\
  adjoint g0 d0 dy (fun u => sa_forward axis X0 I X1 u idx (repeat 0%Qc (Z.to_nat (size X1))) y0) /\ adjoint g1 d1 dy (fun u => sa_forward axis X0 I X1 (repeat 0%Qc (Z.to_nat (size X0))) idx u y0).
Proof.
  intros k X0 I X1 axis idx dy g0 g1 y0 F AX R LI LD G0 G1 LY. destruct (C62_gradient k X0 I X1 axis idx dy g0 g1 F AX R LI LD G0 G1) as (d0 & d1 & E & V0 & V1). exists d0, d1. split; [exact E |]. clear E. destruct (s_sizes _ _ _ _ F) as (SZ0 & SZ & SZ1).
  pose proof (size_nonneg X0 SZ0) as P0. pose proof (size_nonneg X1 SZ1) as P1. unfold has_size in *. split.
  - destruct g0 as [[accum e0] |], d0 as [d |]; try exact V0. destruct V0 as (L & V). cbn [grad_size] in G0. unfold has_size in G0. split; [exact L |]. intros u v LU EV.
    destruct (sa_forward_ok k X0 I X1 idx axis F AX R LI u (repeat 0%Qc (Z.to_nat (size X1))) y0) as (v' & EV' & LV & VV); [unfold qlen; lia | unfold qlen; rewrite repeat_length; lia | exact LY |]. rewrite EV in EV'. injection EV' as <-.
    rewrite !qinner_zsum by lia. unfold qlen. replace (Z.of_nat (length d)) with (size X0) by lia. replace (Z.of_nat (length e0)) with (size X0) by lia. replace (Z.of_nat (length v)) with (size X0) by lia.
    rewrite (zsum_ext (size X0) (fun i => qat dy i * qat v i)%Qc (fun i => qat u i * qat dy i)%Qc).
    2: { intros p Hp. destruct (off_onto X0 p SZ0 Hp) as (o & Io & <-). rewrite VV by exact Io. rewrite zsum_zero; [ring |]. intros q Hq. destruct (same _ _); [| reflexivity]. apply qat_zeros. apply off_bound. apply (to_x1 k X0 I X1 F). apply unoff_inside; assumption. }
    assert (VP : forall p, 0 <= p < size X0 -> qat d p = ((if accum then qat e0 p else 0) + qat dy p)%Qc) by (intros p Hp; destruct (off_onto X0 p SZ0 Hp) as (o & Io & <-); specialize (V o Io); rewrite !qelem_off in V by exact Io; exact V).
    destruct accum; [rewrite <- zsum_plus |]; [| rewrite Qcplus_0_l]; apply zsum_ext; intros p Hp; rewrite VP by exact Hp; ring.
  - destruct g1 as [[accum e0] |], d1 as [d |]; try exact V1. destruct V1 as (L & V). cbn [grad_size] in G1. unfold has_size in G1. split; [exact L |]. intros u v LU EV.
    destruct (sa_forward_ok k X0 I X1 idx axis F AX R LI (repeat 0%Qc (Z.to_nat (size X0))) u y0) as (v' & EV' & LV & VV); [unfold qlen; rewrite repeat_length; lia | unfold qlen; lia | exact LY |]. rewrite EV in EV'. injection EV' as <-.
    rewrite !qinner_zsum by lia. unfold qlen. replace (Z.of_nat (length d)) with (size X1) by lia. replace (Z.of_nat (length e0)) with (size X1) by lia. replace (Z.of_nat (length v)) with (size X0) by lia.
    set (D := fun q => off (replaced k (nth (Z.to_nat q) idx 0) (unoff I q)) X0). set (S := fun q => off (unoff I q) X1).
    assert (VR : forall q, 0 <= q < size I -> inside (replaced k (nth (Z.to_nat q) idx 0) (unoff I q)) X0) by (intros q Hq; apply (to_x0 k X0 I X1 F); [apply unoff_inside; assumption | exact (val_range k X0 I idx R LI q Hq)]).
    rewrite (sum_adjoint (size I) (size X1) (size X0) D S (qat u) (fun j => if accum then qat e0 j else 0%Qc) (qat dy) (qat v) (qat d)).
    + f_equal. destruct accum; [reflexivity |]. apply zsum_zero. intros. ring.
    + intros q Hq. apply off_bound. apply VR. exact Hq.
    + intros q Hq. apply off_bound. apply (to_x1 k X0 I X1 F). apply unoff_inside; assumption.
    + intros p Hp. destruct (off_onto X0 p SZ0 Hp) as (o & Io & <-). rewrite VV by exact Io. rewrite qat_zeros by exact Hp. rewrite Qcplus_0_l. apply zsum_ext. intros q Hq. unfold D, S, same. specialize (VR q Hq).
      destruct (list_eq_dec Z.eq_dec (replaced k (nth (Z.to_nat q) idx 0) (unoff I q)) o) as [-> | N]; [rewrite Z.eqb_refl; reflexivity |]. destruct (Z.eqb_spec (off (replaced k (nth (Z.to_nat q) idx 0) (unoff I q)) X0) (off o X0)) as [EQ |]; [| reflexivity].
      exfalso. apply N. apply (off_inj X0); assumption.
    + intros j Hj. destruct (off_onto X1 j SZ1 Hj) as (i & Ii & <-). specialize (V i Ii). rewrite (qelem_off d), (qelem_off e0) in V by exact Ii. rewrite V. f_equal.
      assert (UNI : forall q, 0 <= q < size I -> S q = off i X1 -> inside i I /\ q = off i I).
      { intros q Hq EQ. destruct (unoff_inside I q SZ Hq) as (Iq & Oq). apply (off_inj X1) in EQ; [| exact SZ1 | exact (to_x1 k X0 I X1 F _ Iq) | exact Ii]. rewrite <- EQ. split; [exact Iq | symmetry; exact Oq]. }
      destruct (is_inside i I) eqn:T.
      * apply is_inside_iff in T. rewrite (zsum_only (size I) (off i I)); [| apply off_bound; exact T |].
        -- unfold S at 1. rewrite unoff_off, Z.eqb_refl by assumption. unfold D. rewrite unoff_off by assumption. rewrite elem_val by exact T. apply qelem_off. specialize (VR (off i I) (off_bound _ _ T)). rewrite unoff_off in VR by assumption. exact VR.
        -- intros q Hq N. destruct (Z.eqb_spec (S q) (off i X1)) as [EQ |]; [| reflexivity]. destruct (UNI q Hq EQ) as (_ & ->). congruence.
      * symmetry. apply zsum_zero. intros q Hq. destruct (Z.eqb_spec (S q) (off i X1)) as [EQ |]; [| reflexivity]. destruct (UNI q Hq EQ) as (II & _). apply is_inside_iff in II. congruence.
Qed.

(** * C63 *)
Theorem C63_setup : forall A B rest, rest <> [] -> snd_setup (A ++ B) (rest ++ B) (Z.of_nat (length A) :: rest) = Some (A ++ B).
Proof.
  intros A B [| n rest] NE; [congruence |]. clear NE. unfold snd_setup. set (R := n :: rest).
  destruct (Z.leb_spec (Z.of_nat (length A)) (Z.of_nat (length (A ++ B)))) as [| H]; [| rewrite app_length in H; lia]. cbn [negb].
  destruct (Z.eqb_spec (Z.of_nat (length (A ++ B))) (Z.of_nat (length (R ++ B)) + Z.of_nat (length A) - Z.of_nat (length R))) as [| H2]; [| rewrite !app_length in H2; lia]. cbn [negb].
  rewrite first_of, rest_of, Nat2Z.id, rest_of. destruct (list_eq_dec Z.eq_dec R R); [| congruence]. destruct (list_eq_dec Z.eq_dec B B); [| congruence]. reflexivity.
Qed.
(** Everything accepted has these shapes. *)
Theorem C63_accepted : forall shape data ishape o, sizes ishape -> snd_setup shape data ishape = Some o ->
  o = shape /\ exists A B rest, rest <> [] /\ shape = A ++ B /\ data = rest ++ B /\ ishape = Z.of_nat (length A) :: rest.
Proof.
  intros shape data [| rows [| n rest]] o SI; cbn [snd_setup]; try discriminate. set (R := n :: rest). inversion SI as [| ? ? Hr _]; subst.
  destruct (Z.leb_spec rows (Z.of_nat (length shape))); [| discriminate]. cbn [negb]. destruct (Z.eqb_spec (Z.of_nat (length shape)) (Z.of_nat (length data) + rows - Z.of_nat (length R))); [| discriminate]. cbn [negb].
  destruct (list_eq_dec Z.eq_dec (firstn (length R) data) R) as [ER |]; [| discriminate]. destruct (list_eq_dec Z.eq_dec (skipn (length R) data) (skipn (Z.to_nat rows) shape)) as [EB |]; [| discriminate]. cbn [negb].
  intros E. injection E as <-. split; [reflexivity |]. exists (firstn (Z.to_nat rows) shape), (skipn (Z.to_nat rows) shape), R. split; [unfold R; discriminate |]. split; [symmetry; apply firstn_skipn |].
  split; [rewrite <- EB, <- (firstn_skipn (length R) data) at 1; f_equal; exact ER |]. rewrite firstn_length_le by lia. rewrite Z2Nat.id by lia. reflexivity.
Qed.
(** With add, the entries are added to the previous array or to zero. *)
Theorem C63_add_values : forall (out : bool) A B rest idx src dst, A <> [] -> rest <> [] -> sizes A -> sizes B -> sizes rest -> Z.of_nat (length idx) = size (Z.of_nat (length A) :: rest) -> places_valid idx rest A ->
  has_size src (size (rest ++ B)) -> has_size dst (size (A ++ B)) ->
  exists y, snd_forward out true (A ++ B) (Z.of_nat (length A) :: rest) idx src dst = Some y /\ has_size y (size (A ++ B)) /\
  forall p r, inside p A -> inside r B -> qelem y (A ++ B) (p ++ r) =
    ((if out then qelem dst (A ++ B) (p ++ r) else 0) + total (indices rest) (fun c => if same (place idx rest A c) p then qelem src (rest ++ B) (c ++ r) else 0))%Qc.
Proof.
  intros out A B rest idx src dst HA HR PA PB PR LI V LS LD. destruct (snd_add_ok A B rest idx HA HR PA PB PR LI V out src dst LS LD) as (y & E & L & W). exists y. split; [exact E |]. split; [unfold has_size in *; rewrite L; exact LD |].
  intros p r Ip Ir. assert (Ipr := inside_app _ _ Ip _ _ Ir). rewrite (qelem_off y), (qelem_off dst) by exact Ipr. rewrite W by assumption. f_equal. unfold total. f_equal. apply map_ext_in. intros c Ic. apply indices_in in Ic.
  rewrite qelem_off by (apply inside_app; assumption). reflexivity.
Qed.
(** Without it, the last entry is kept. *)
Theorem C63_copy_values : forall (out : bool) A B rest idx src dst, A <> [] -> rest <> [] -> sizes A -> sizes B -> sizes rest -> Z.of_nat (length idx) = size (Z.of_nat (length A) :: rest) -> places_valid idx rest A ->
  has_size src (size (rest ++ B)) -> has_size dst (size (A ++ B)) ->
  exists y, snd_forward out false (A ++ B) (Z.of_nat (length A) :: rest) idx src dst = Some y /\ has_size y (size (A ++ B)) /\
  (forall p c r, inside p A -> inside r B -> last_to idx rest A p c -> qelem y (A ++ B) (p ++ r) = qelem src (rest ++ B) (c ++ r)) /\
  (forall p r, inside p A -> inside r B -> none_to idx rest A p -> qelem y (A ++ B) (p ++ r) = if out then qelem dst (A ++ B) (p ++ r) else 0%Qc).
Proof.
  intros out A B rest idx src dst HA HR PA PB PR LI V LS LD. destruct (snd_copy_ok A B rest idx HA HR PA PB PR LI V out src dst LS LD) as (y & E & L & W1 & W2). exists y. split; [exact E |]. split; [unfold has_size in *; rewrite L; exact LD |]. split.
  - intros p c r Ip Ir LT. rewrite qelem_off by (apply inside_app; assumption). rewrite qelem_off by (apply inside_app; [apply LT | exact Ir]). apply W1; assumption.
  - intros p r Ip Ir NT. assert (Ipr := inside_app _ _ Ip _ _ Ir). rewrite (qelem_off y), (qelem_off dst) by exact Ipr. apply W2; assumption.
Qed.
(** An index outside is refused. *)
Lemma gnd_index_inv idx cols i : forall A B m r, gnd_index idx cols i m (A ++ B) (length A) = Some r -> forall k, (k < length A)%nat -> exists v, get idx ((m + Z.of_nat k) * cols + i) = Some v /\ - nth k A 0 <= v < nth k A 0.
Proof.
  induction A as [| n A IH]; intros B m r E k Hk; cbn [length] in *; [lia |]. cbn [app gnd_index] in E. change (rd idx (m * cols + i)) with (get idx (m * cols + i)) in E. destruct (get idx (m * cols + i)) as [v |] eqn:G; cbn [obind] in E; [| discriminate].
  unfold norm_index in E. destruct (Z.ltb_spec v n); [| discriminate]. destruct (Z.leb_spec (- n) v); [| discriminate]. cbn [obind] in E. destruct (gnd_index idx cols i (m + 1) (A ++ B) (length A)) as [r' |] eqn:E'; [| discriminate].
  destruct k as [| k]; [exists v; rewrite Z.add_0_r; cbn [nth]; auto |]. destruct (IH _ _ _ E' k ltac:(lia)) as (w & GW & RW). exists w. split; [| exact RW]. rewrite <- GW. f_equal. lia.
Qed.
Lemma omap_each {T U} (f : T -> option U) : forall l r a, omap f l = Some r -> In a l -> exists b, f a = Some b.
Proof.
  induction l as [| b l IH]; intros r a E HI; [contradiction |]. cbn [omap] in E. destruct (f b) as [u |] eqn:EF; cbn [obind] in E; [| discriminate]. destruct (omap f l) as [t |] eqn:EL; [| discriminate].
  destruct HI as [-> | HI]; [eauto | eapply IH; [reflexivity | exact HI]].
Qed.
Theorem C63_range : forall (out add : bool) A B rest idx src dst, sizes rest -> Z.of_nat (length idx) = size (Z.of_nat (length A) :: rest) -> ~ places_valid idx rest A -> snd_forward out add (A ++ B) (Z.of_nat (length A) :: rest) idx src dst = None.
Proof.
  intros out add A B rest idx src dst PR LI NV. unfold snd_forward. destruct (gnd_pairs _ _ _) as [ps |] eqn:E; [| reflexivity]. exfalso. apply NV. intros c m Ic Hm. unfold gnd_pairs in E.
  destruct (gnd_shape _ _); [| discriminate]. cbn [obind] in E. destruct (strides (A ++ B)) as [st |]; [| discriminate]. cbn [obind hd tl] in E. rewrite Nat2Z.id in E. match type of E with obind ?o _ = _ => destruct o as [ls |] eqn:EO end; [| discriminate].
  destruct (omap_each _ _ _ (off c rest) EO) as (b & EB); [apply upto_in; rewrite prod_size; apply off_bound; exact Ic |]. cbv beta in EB. destruct (gnd_index _ _ _ _ _ _) as [r |] eqn:G in EB; [| discriminate].
  destruct (gnd_index_inv _ _ _ _ _ _ _ G m Hm) as (v & GV & RV). rewrite elem_val by (constructor; [lia | exact Ic]). cbn [off]. rewrite prod_size in GV. replace (nth (Z.to_nat (Z.of_nat m * size rest + off c rest)) idx 0) with v; [exact RV |].
  unfold get in GV. destruct (_ <? 0); [discriminate |]. symmetry. apply (nth_error_nth _ _ 0). rewrite Z.add_0_l in GV. exact GV.
Qed.
(** The gradient without a third input: every entry takes that of its place.  (It is the gradient
    of the function with add, and without it if no two entries have the same place; refuted below
    for others.) *)
Theorem C63_gradient_partial : forall A B rest idx dy gx, A <> [] -> rest <> [] -> sizes A -> sizes B -> sizes rest -> Z.of_nat (length idx) = size (Z.of_nat (length A) :: rest) -> places_valid idx rest A ->
  has_size dy (size (A ++ B)) -> grad_size gx (size (rest ++ B)) ->
  exists dx, snd_backward false (A ++ B) (Z.of_nat (length A) :: rest) idx dy gx = Some (dx, dy) /\
  each_at gx dx (rest ++ B) (fun i => qelem dy (A ++ B) (place idx rest A (firstn (length rest) i) ++ skipn (length rest) i)).
Proof.
  intros A B rest idx dy gx HA HR PA PB PR LI V LD GX. destruct gx as [[accum d0] |]; [| exists None; split; [reflexivity | exact I]]. destruct (snd_back_ok A B rest idx HA HR PA PB PR LI V accum dy d0 LD GX) as (d & E & L & W).
  exists (Some d). split; [exact E |]. split; [exact L |]. intros o Io. destruct (inside_split rest B o Io) as (c & r & -> & Ic & Ir). rewrite <- (inside_length _ _ Ic), first_of, rest_of.
  rewrite (qelem_off d), (qelem_off d0) by exact Io. rewrite qelem_off by (apply inside_app; [exact (place_in A B rest idx V c Ic) | exact Ir]). apply W; assumption.
Qed.
Theorem C63_adjoint_partial : forall (add : bool) A B rest idx dy gx y0, A <> [] -> rest <> [] -> sizes A -> sizes B -> sizes rest -> Z.of_nat (length idx) = size (Z.of_nat (length A) :: rest) -> places_valid idx rest A ->
  add = true \/ distinct idx rest A -> has_size dy (size (A ++ B)) -> grad_size gx (size (rest ++ B)) -> has_size y0 (size (A ++ B)) ->
  exists dx, snd_backward false (A ++ B) (Z.of_nat (length A) :: rest) idx dy gx = Some (dx, dy) /\ adjoint gx dx dy (fun u => snd_forward false add (A ++ B) (Z.of_nat (length A) :: rest) idx u y0).
Proof.
  intros add A B rest idx dy gx y0 HA HR PA PB PR LI V AD LD GX LY. destruct (C63_gradient_partial A B rest idx dy gx HA HR PA PB PR LI V LD GX) as (dx & E & W). exists dx. split; [exact E |]. clear E.
  destruct gx as [[accum d0] |], dx as [d |]; try exact W. destruct W as (L & W). cbn [grad_size] in GX. unfold has_size in *. split; [exact L |]. intros u v LU EV.
  assert (PS : nonneg (A ++ B)) by (apply Forall_app; auto). assert (PX : nonneg (rest ++ B)) by (apply Forall_app; auto).
  assert (VV : length v = length y0 /\ forall p, 0 <= p < size (A ++ B) -> qat v p = zsum (size (rest ++ B)) (fun q => if dest A B rest idx q =? p then qat u q else 0%Qc)).
  { destruct add.
    - unfold snd_forward in EV. rewrite (gnd_dest A B rest idx HA HR PA PB PR LI V) in EV. cbn [obind] in EV. rewrite map_map in EV. unfold swap in EV. cbn [fst snd] in EV.
      destruct (adds_ok (size (rest ++ B)) (dest A B rest idx) (fun q => q) u (cleared false y0)) as (y & E & LV & VV).
      + apply size_nonneg. exact PX.
      + intros q Hq. unfold qlen, within. rewrite cleared_length. fold (qlen y0). unfold qlen. rewrite LY. apply (dest_in A B rest idx PB PR V). exact Hq.
      + intros q Hq. unfold within, qlen. lia.
      + rewrite E in EV. injection EV as <-. rewrite LV. split; [apply (cleared_length false) |]. intros p Hp. rewrite VV by lia. rewrite cleared_qat. apply Qcplus_0_l.
    - destruct AD as [AD | AD]; [discriminate |]. destruct (snd_copy_ok A B rest idx HA HR PA PB PR LI V false u y0) as (y & E & LV & W1 & W2); [unfold qlen; lia | exact LY |]. rewrite E in EV. injection EV as <-. split; [exact LV |].
      intros p0 Hp0. destruct (off_onto (A ++ B) p0 PS Hp0) as (o & Io & <-). destruct (inside_split A B o Io) as (p & r & -> & Ip & Ir).
      destruct (Exists_dec (fun c => place idx rest A c = p) (indices rest)) as [EX | NX]; [intros c; apply (list_eq_dec Z.eq_dec) | |].
      + apply Exists_exists in EX. destruct EX as (c & Ic & EP). apply indices_in in Ic.
        assert (LT : last_to idx rest A p c) by (split; [exact Ic |]; split; [exact EP |]; intros d' Id EPd; rewrite (AD d' c Id Ic) by congruence; lia).
        rewrite (W1 p c r Ip Ir LT). rewrite (zsum_only _ (off (c ++ r) (rest ++ B))); [| apply off_bound; apply inside_app; assumption |].
        * rewrite (dest_off A B rest idx PR V c r Ic Ir), EP, Z.eqb_refl. reflexivity.
        * intros q Hq NQ. destruct (Z.eqb_spec (dest A B rest idx q) (off (p ++ r) (A ++ B))) as [EQ |]; [| reflexivity]. destruct (dest_is A B rest idx PA PB PR V p r q Ip Ir Hq EQ) as (c' & Ic' & -> & EP'). exfalso. apply NQ. rewrite (AD c' c Ic' Ic) by congruence. reflexivity.
      + rewrite W2; [| exact Ip | exact Ir |].
        * symmetry. apply zsum_zero. intros q Hq. destruct (Z.eqb_spec (dest A B rest idx q) (off (p ++ r) (A ++ B))) as [EQ |]; [| reflexivity]. destruct (dest_is A B rest idx PA PB PR V p r q Ip Ir Hq EQ) as (c' & Ic' & _ & EP').
          exfalso. apply NX. apply Exists_exists. exists c'. split; [apply indices_in; assumption | exact EP'].
        * intros c' Ic' EP'. apply NX. apply Exists_exists. exists c'. split; [apply indices_in; assumption | exact EP']. }
  destruct VV as (LV & VV). rewrite !qinner_zsum by lia. unfold qlen. replace (Z.of_nat (length d)) with (size (rest ++ B)) by lia. replace (Z.of_nat (length d0)) with (size (rest ++ B)) by lia. replace (Z.of_nat (length v)) with (size (A ++ B)) by lia.
  rewrite (sum_adjoint (size (rest ++ B)) (size (rest ++ B)) (size (A ++ B)) (dest A B rest idx) (fun q => q) (qat u) (fun j => if accum then qat d0 j else 0%Qc) (qat dy) (qat v) (qat d)).
  - f_equal. destruct accum; [reflexivity |]. apply zsum_zero. intros. ring.
  - intros q Hq. apply (dest_in A B rest idx PB PR V). exact Hq.
  - auto.
  - exact VV.
  - intros j Hj. rewrite zsum_one by exact Hj. destruct (off_onto (rest ++ B) j PX Hj) as (o & Io & <-). specialize (W o Io). destruct (inside_split rest B o Io) as (c & r & -> & Ic & Ir). rewrite <- (inside_length _ _ Ic), first_of, rest_of in W.
    rewrite (qelem_off d), (qelem_off d0) in W by exact Io. rewrite qelem_off in W by (apply inside_app; [exact (place_in A B rest idx V c Ic) | exact Ir]). rewrite W. f_equal. rewrite (dest_off A B rest idx PR V c r Ic Ir). reflexivity.
Qed.
(** With a third input, the first entry brought to a place takes its gradient and others nothing;
    the gradient of the third input is that of the output with the places of entries cleared.
    (That is the gradient of the function without add if no two entries have the same place;
    refuted below for others.) *)
Theorem C63_gradient_out_partial : forall A B rest idx dy (accum : bool) d0, A <> [] -> rest <> [] -> sizes A -> sizes B -> sizes rest -> Z.of_nat (length idx) = size (Z.of_nat (length A) :: rest) -> places_valid idx rest A ->
  has_size dy (size (A ++ B)) -> has_size d0 (size (rest ++ B)) ->
  exists d e, snd_backward true (A ++ B) (Z.of_nat (length A) :: rest) idx dy (Some (accum, d0)) = Some (Some d, e) /\ has_size d (size (rest ++ B)) /\ has_size e (size (A ++ B)) /\
  (forall c r, first_to idx rest A (place idx rest A c) c -> inside r B -> qelem d (rest ++ B) (c ++ r) = ((if accum then qelem d0 (rest ++ B) (c ++ r) else 0) + qelem dy (A ++ B) (place idx rest A c ++ r))%Qc) /\
  (forall c b r, first_to idx rest A (place idx rest A c) b -> b <> c -> inside c rest -> inside r B -> qelem d (rest ++ B) (c ++ r) = if accum then qelem d0 (rest ++ B) (c ++ r) else 0%Qc) /\
  (forall c r, inside c rest -> inside r B -> qelem e (A ++ B) (place idx rest A c ++ r) = 0%Qc) /\
  (forall p r, inside p A -> inside r B -> none_to idx rest A p -> qelem e (A ++ B) (p ++ r) = qelem dy (A ++ B) (p ++ r)).
Proof.
  intros A B rest idx dy accum d0 HA HR PA PB PR LI V LD GX. destruct (snd_back_out_ok A B rest idx HA HR PA PB PR LI V accum dy d0 LD GX) as (d & e & E & L1 & L2 & W1 & W2 & W3 & W4).
  exists d, e. split; [exact E |]. unfold has_size in *. split; [lia |]. split; [lia |]. assert (PI := place_in A B rest idx V). split; [| split; [| split]].
  - intros c r FT Ir. assert (Ic : inside c rest) by apply FT. assert (Icr := inside_app _ _ Ic _ _ Ir). rewrite (qelem_off d), (qelem_off d0) by exact Icr. rewrite qelem_off by (apply inside_app; [apply PI; exact Ic | exact Ir]). apply W1; assumption.
  - intros c b r FT N Ic Ir. assert (Icr := inside_app _ _ Ic _ _ Ir). rewrite (qelem_off d), (qelem_off d0) by exact Icr. apply (W2 c b); assumption.
  - intros c r Ic Ir. rewrite qelem_off by (apply inside_app; [apply PI; exact Ic | exact Ir]). apply W3; assumption.
  - intros p r Ip Ir NT. assert (Ipr := inside_app _ _ Ip _ _ Ir). rewrite !qelem_off by exact Ipr. apply W4; assumption.
Qed.

(** * Examples *)
Lemma fit_ex : scatter_fit 0 [3; 2] [2; 2] [2; 3].
Proof. constructor; cbn [length]; try lia; [intros [| [| m]] ? ?; cbn [nth]; lia | intros [| [| m]] ?; cbn [nth]; lia |]. split; [| split]; repeat apply Forall_cons; try apply Forall_nil; lia. Qed.
Example C62_ex : scatter_fit 0 [3; 2] [2; 2] [2; 3] /\ denotes 0 0 2 /\ denotes (-2) 0 2 /\ in_range 0 [3; 2] [2; 0; 2; 1] /\ sa_setup (-2) [3; 2] [2; 2] [2; 3] = Some [3; 2] /\
  show (sa_forward 0 [3; 2] [2; 2] [2; 3] (map q [1; 2; 3; 4; 5; 6]) [2; 0; 2; 1] (map q [10; 20; 30; 40; 50; 60]) (nines 6)) = qs [1; 22; 3; 54; 55; 6] /\
  show2 (sa_backward (-2) [3; 2] [2; 2] [2; 3] [2; 0; 2; 1] (map q [1; 2; 3; 4; 5; 6]) (Some (true, nines 6)) (Some (false, nines 6))) = Some (qs [10; 11; 12; 13; 14; 15], qs [5; 2; 0; 5; 4; 0]) /\
  show2 (sa_backward 0 [3; 2] [2; 2] [2; 3] [2; 0; 2; 1] (map q [1; 2; 3; 4; 5; 6]) None (Some (true, nines 6))) = Some (None, qs [14; 11; 9; 14; 13; 9]).
Proof. split; [exact fit_ex |]. split; [left; reflexivity |]. split; [right; reflexivity |]. split; [repeat apply Forall_cons; try apply Forall_nil; cbn; lia |]. repeat split; vm_compute; reflexivity. Qed.
Example C62_range_ex : ~ in_range 0 [3; 2] [2; 0; 3; 1] /\ sa_forward 0 [3; 2] [2; 2] [2; 3] (map q [1; 2; 3; 4; 5; 6]) [2; 0; 3; 1] (map q [10; 20; 30; 40; 50; 60]) (nines 6) = None /\
  ~ in_range 0 [3; 2] [2; 0; -1; 1] /\ sa_forward 0 [3; 2] [2; 2] [2; 3] (map q [1; 2; 3; 4; 5; 6]) [2; 0; -1; 1] (map q [10; 20; 30; 40; 50; 60]) (nines 6) = None.
Proof.
  assert (X : forall v, ~ 0 <= v < 3 -> ~ in_range 0 [3; 2] [2; 0; v; 1]) by (intros v N F; unfold in_range in F; rewrite Forall_forall in F; apply N; apply (F v); cbn; auto).
  split; [apply X; lia |]. split; [vm_compute; reflexivity |]. split; [apply X; lia | vm_compute; reflexivity].
Qed.
Example C62_refused_ex : sa_setup 0 [3; 2] [2; 3] [2; 3] = None /\ sa_setup 1 [3; 2] [2; 3] [2; 3] = Some [3; 2] /\ sa_setup 0 [3; 2] [3; 2] [2; 3] = None /\ sa_setup 0 [3; 2] [2] [2; 3] = None /\ sa_setup 0 [3; 2] [2; 2] [2] = None /\ sa_setup 3 [3; 2] [2; 2] [2; 2] = None.
Proof. repeat split. Qed.
(** The number of axes is accepted as an axis, and so is any negative one; then an element outside
    of the shape is read. *)
Theorem C62_axis_refuted : sa_setup 2 [3; 2] [2; 2] [2; 3] = Some [3; 2] /\ sa_forward 2 [3; 2] [2; 2] [2; 3] (map q [1; 2; 3; 4; 5; 6]) [0; 0; 0; 0] (map q [10; 20; 30; 40; 50; 60]) (nines 6) = None /\
  sa_setup (-3) [3; 2] [2; 2] [2; 3] = Some [3; 2] /\ sa_forward (-3) [3; 2] [2; 2] [2; 3] (map q [1; 2; 3; 4; 5; 6]) [0; 0; 0; 0] (map q [10; 20; 30; 40; 50; 60]) (nines 6) = None.
Proof. repeat split; vm_compute; reflexivity. Qed.

(** Entries at [0; 1], [1; 1] and again [0; 1] of a matrix, and slices of a matrix. *)
Definition nd_idx : list Z := [0; -1; 0; 1; 1; -1].
Lemma valid_ex : places_valid nd_idx [3] [2; 2].
Proof.
  intros c m Ic Hm. inversion Ic as [| x ? r ? Hx Hr]; subst. inversion Hr; subst. assert (X : x = 0 \/ x = 1 \/ x = 2) by lia. cbn [length] in Hm. destruct m as [| [| m]]; [| | lia]; destruct X as [-> | [-> | ->]]; cbv; split; congruence.
Qed.
Example C63_ex : snd_setup [2; 2] [3] [2; 3] = Some [2; 2] /\ snd_setup [4; 2] [3; 2] [1; 3] = Some [4; 2] /\ places_valid nd_idx [3] [2; 2] /\ last_to nd_idx [3] [2; 2] [0; 1] [2] /\ first_to nd_idx [3] [2; 2] [0; 1] [0] /\ none_to nd_idx [3] [2; 2] [0; 0] /\
  show (snd_forward false false [2; 2] [2; 3] nd_idx (map q [1; 2; 3]) (nines 4)) = qs [0; 3; 0; 2] /\ show (snd_forward true false [2; 2] [2; 3] nd_idx (map q [1; 2; 3]) (nines 4)) = qs [9; 3; 9; 2] /\
  show (snd_forward false true [2; 2] [2; 3] nd_idx (map q [1; 2; 3]) (nines 4)) = qs [0; 4; 0; 2] /\ show (snd_forward true true [2; 2] [2; 3] nd_idx (map q [1; 2; 3]) (nines 4)) = qs [9; 13; 9; 11] /\
  show (snd_forward false false [4; 2] [1; 3] [3; 0; -2] (map q [1; 2; 3; 4; 5; 6]) (nines 8)) = qs [3; 4; 0; 0; 5; 6; 1; 2].
Proof.
  split; [reflexivity |]. split; [reflexivity |]. split; [exact valid_ex |].
  assert (C : forall c, inside c [3] -> c = [0] \/ c = [1] \/ c = [2]) by (intros c Ic; inversion Ic as [| x ? r ? Hx Hr]; subst; inversion Hr; subst; assert (X : x = 0 \/ x = 1 \/ x = 2) by lia; destruct X as [-> | [-> | ->]]; auto).
  assert (I3 : forall x, 0 <= x < 3 -> inside [x] [3]) by (intros x Hx; constructor; [exact Hx | constructor]).
  split; [split; [apply I3; lia | split; [reflexivity | intros d Id _; destruct (C d Id) as [-> | [-> | ->]]; cbn; lia]] |].
  split; [split; [apply I3; lia | split; [reflexivity | intros d Id _; destruct (C d Id) as [-> | [-> | ->]]; cbn; lia]] |].
  split; [intros d Id; destruct (C d Id) as [-> | [-> | ->]]; cbv; discriminate |]. repeat split; vm_compute; reflexivity.
Qed.
Example C63_refused_ex : snd_setup [2; 2] [3] [3] = None /\ snd_setup [2] [3] [2; 3] = None /\ snd_setup [2; 2] [3; 2] [2; 3] = None /\ snd_setup [2; 2] [4] [2; 3] = None /\ snd_setup [4; 2] [3; 3] [1; 3] = None.
Proof. repeat split. Qed.
Example C63_range_ex : snd_forward false false [2; 2] [2; 1] [2; 0] (map q [1]) (nines 4) = None /\ snd_forward false false [2; 2] [2; 1] [0; -3] (map q [1]) (nines 4) = None /\ show (snd_forward false false [2; 2] [2; 1] [0; -2] (map q [1]) (nines 4)) = qs [1; 0; 0; 0].
Proof. repeat split; vm_compute; reflexivity. Qed.
Definition showe (o : option (option (list Qc) * list Qc)) := option_map (fun '(a, b) => (show a, map this b)) o.
Example C63_gradient_ex : distinct [3; 0; -2] [3] [4] /\
  showe (snd_backward false [4; 2] [1; 3] [3; 0; -2] (map q [1; 2; 3; 4; 5; 6; 7; 8]) (Some (false, nines 6))) = Some (qs [7; 8; 1; 2; 5; 6], map inject_Z [1; 2; 3; 4; 5; 6; 7; 8]) /\
  showe (snd_backward false [4; 2] [1; 3] [3; 0; -2] (map q [1; 2; 3; 4; 5; 6; 7; 8]) (Some (true, nines 6))) = Some (qs [16; 17; 10; 11; 14; 15], map inject_Z [1; 2; 3; 4; 5; 6; 7; 8]) /\
  showe (snd_backward true [4; 2] [1; 3] [3; 0; -2] (map q [1; 2; 3; 4; 5; 6; 7; 8]) (Some (false, nines 6))) = Some (qs [7; 8; 1; 2; 5; 6], map inject_Z [0; 0; 3; 4; 0; 0; 0; 0]) /\
  showe (snd_backward true [2; 2] [2; 3] nd_idx (map q [1; 2; 3; 4]) (Some (true, nines 3))) = Some (qs [11; 13; 9], map inject_Z [1; 0; 3; 0]).
Proof.
  split; [| repeat split; vm_compute; reflexivity].
  assert (C : forall c, inside c [3] -> c = [0] \/ c = [1] \/ c = [2]) by (intros c Ic; inversion Ic as [| x ? r ? Hx Hr]; subst; inversion Hr; subst; assert (X : x = 0 \/ x = 1 \/ x = 2) by lia; destruct X as [-> | [-> | ->]]; auto).
  intros c d Ic Id. destruct (C c Ic) as [-> | [-> | ->]], (C d Id) as [-> | [-> | ->]]; cbv; intros E; congruence.
Qed.
(** Two entries at the same place without add: the first one is overwritten, and its gradient
    should be zero, but is that of the place. *)
Theorem C63_twice_refuted : show (snd_forward false false [2] [1; 2] [0; 0] (map q [1; 2]) (nines 2)) = qs [2; 0] /\ show (snd_forward false false [2] [1; 2] [0; 0] (map q [5; 2]) (nines 2)) = qs [2; 0] /\
  showe (snd_backward false [2] [1; 2] [0; 0] (map q [1; 0]) (Some (false, nines 2))) = Some (qs [1; 1], map inject_Z [1; 0]).
Proof. repeat split; vm_compute; reflexivity. Qed.
(** The same with a third input: the first entry takes the gradient and the second one, which is
    the one that is kept, nothing. *)
Theorem C63_twice_out_refuted : show (snd_forward true false [2] [1; 2] [0; 0] (map q [5; 2]) (nines 2)) = qs [2; 9] /\ showe (snd_backward true [2] [1; 2] [0; 0] (map q [1; 0]) (Some (false, nines 2))) = Some (qs [1; 0], map inject_Z [0; 0]).
Proof. split; vm_compute; reflexivity. Qed.
(** With add and a third input, the output is the sum of both; the gradient of the third input
    should be that of the output, but is zero. *)
Theorem C63_add_out_refuted : show (snd_forward true true [2] [1; 1] [0] (map q [1]) (map q [3; 4])) = qs [4; 4] /\ show (snd_forward true true [2] [1; 1] [0] (map q [1]) (map q [5; 4])) = qs [6; 4] /\
  showe (snd_backward true [2] [1; 1] [0] (map q [1; 1]) (Some (false, nines 1))) = Some (qs [1], map inject_Z [0; 1]).
Proof. repeat split; vm_compute; reflexivity. Qed.
(** When the gradient of the data is not asked for, that of the third input is not cleared at the
    places of the data, though the output does not depend on it there. *)
Theorem C63_only_out_refuted : show (snd_forward true false [2] [1; 1] [0] (map q [1]) (map q [3; 4])) = qs [1; 4] /\ show (snd_forward true false [2] [1; 1] [0] (map q [1]) (map q [5; 4])) = qs [1; 4] /\
  showe (snd_backward true [2] [1; 1] [0] (map q [1; 1]) None) = Some (None, map inject_Z [1; 1]).
Proof. repeat split; vm_compute; reflexivity. Qed.
(** Backward does not check indices: one that forward refuses reads another element. *)
Theorem C63_unchecked_refuted : snd_forward false false [2; 2] [2; 1] [0; 3] (map q [1]) (nines 4) = None /\ showe (snd_backward false [2; 2] [2; 1] [0; 3] (map q [1; 2; 3; 4]) (Some (false, nines 1))) = Some (qs [4], map inject_Z [1; 2; 3; 4]).
Proof. split; vm_compute; reflexivity. Qed.
(** Indices without rows are accepted, and then an element outside is read. *)
Theorem C63_rows_refuted : snd_setup [2] [1; 2] [0; 1] = Some [2] /\ snd_forward false false [2] [0; 1] [] (map q [1; 2]) (nines 2) = None.
Proof. split; vm_compute; reflexivity. Qed.

Print Assumptions C62_setup. Print Assumptions C62_accepted_partial. Print Assumptions C62_values. Print Assumptions C62_range. Print Assumptions C62_gradient. Print Assumptions C62_adjoint.
Print Assumptions C63_setup. Print Assumptions C63_accepted. Print Assumptions C63_add_values. Print Assumptions C63_copy_values. Print Assumptions C63_range. Print Assumptions C63_gradient_partial. Print Assumptions C63_adjoint_partial. Print Assumptions C63_gradient_out_partial.
