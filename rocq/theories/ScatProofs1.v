(** The loops of ScatterAdd and ScatterNd. *)
From Coq Require Import List ZArith Lia Bool QArith Qcanon.
From Verif Require Import NdModel NdSpec NdProofs IdxModel IdxSpec IdxProofs1 IdxProofs2 IdxProofs3 IdxProofs6 JoinModel JoinSpec JoinProofs JoinProofs2 ScanModel ScanSpec ScanProofs1 ReduceModel ReduceSpec ReduceProofs1 ConvModel ConvSpec ConvProofs1 ConvProofs2 ConvProofs3 ConvProofs5 ConvProofs6 PoolProofs3 PoolProofs5 PoolProps MatModel MatSpec MatProofs1 MatProofs2 MatProps MaskProofs1 ScatModel ScatSpec.
Import ListNotations.
Local Open Scope list_scope.
Local Open Scope Z_scope.

(** * Lists of pairs *)
Section Pairs.
Variables (n : Z) (D S : Z -> Z) (src dst : list Qc).
Hypothesis Hn : 0 <= n.
Hypothesis HD : forall q, 0 <= q < n -> within (qlen dst) (D q).
Hypothesis HS : forall q, 0 <= q < n -> within (qlen src) (S q).
Lemma adds_ok : exists r, add_all (map (fun q => (D q, S q)) (upto n)) src dst = Some r /\ length r = length dst /\
  forall p, 0 <= p -> qat r p = (qat dst p + zsum n (fun q => if D q =? p then qat src (S q) else 0))%Qc.
Proof using Hn HD HS.
  unfold add_all. rewrite <- (loop_map (fun '(d, s) dst => obind (get src s) (fun v => obind (get dst d) (fun old => put dst d (old + v)%Qc))) (fun q => (D q, S q))).
  apply (loop_inv (fun q r => length r = length dst /\ forall p, 0 <= p -> qat r p = (qat dst p + zsum q (fun q => if D q =? p then qat src (S q) else 0))%Qc)); [exact Hn | |].
  - intros q r Hq (L & V). assert (W : within (qlen r) (D q)) by (unfold qlen; rewrite L; apply HD; exact Hq). rewrite get_ok by (apply HS; exact Hq). cbn [obind]. rewrite get_ok by exact W. cbn [obind].
    destruct (put_ok r (D q) (qat r (D q) + qat src (S q))%Qc W) as (r' & E & L' & V' & _). exists r'. split; [exact E |]. split; [congruence |]. intros p Hp. rewrite V' by exact Hp. rewrite zsum_S by lia. rewrite (Z.eqb_sym (D q) p).
    destruct (Z.eqb_spec p (D q)) as [-> |]; [rewrite V by exact Hp; ring | rewrite V by exact Hp; ring].
  - split; [reflexivity |]. intros p Hp. rewrite zsum_0. ring.
Qed.
Lemma copies_ok : exists r, copy_all (map (fun q => (D q, S q)) (upto n)) src dst = Some r /\ length r = length dst /\
  (forall q, 0 <= q < n -> (forall q', q < q' < n -> D q' <> D q) -> qat r (D q) = qat src (S q)) /\
  (forall p, 0 <= p -> (forall q, 0 <= q < n -> D q <> p) -> qat r p = qat dst p).
Proof using Hn HD HS.
  unfold copy_all. rewrite <- (loop_map (fun '(d, s) dst => obind (get src s) (fun v => put dst d v)) (fun q => (D q, S q))).
  apply (loop_inv (fun n r => length r = length dst /\ (forall q, 0 <= q < n -> (forall q', q < q' < n -> D q' <> D q) -> qat r (D q) = qat src (S q)) /\
    (forall p, 0 <= p -> (forall q, 0 <= q < n -> D q <> p) -> qat r p = qat dst p))); [exact Hn | |].
  - intros q r Hq (L & V & W0). assert (W : within (qlen r) (D q)) by (unfold qlen; rewrite L; apply HD; exact Hq). rewrite get_ok by (apply HS; exact Hq). cbn [obind].
    destruct (put_ok r (D q) (qat src (S q))%Qc W) as (r' & E & L' & V' & _). exists r'. split; [exact E |]. split; [congruence |]. split.
    + intros j Hj HL. assert (0 <= D j) by (apply HD; lia). rewrite V' by assumption. destruct (Z.eq_dec j q) as [-> | N]; [rewrite Z.eqb_refl; reflexivity |].
      destruct (Z.eqb_spec (D j) (D q)) as [EQ |]; [exfalso; apply (HL q); [lia | congruence] |]. apply V; [lia |]. intros q' Hq'. apply HL. lia.
    + intros p Hp HN. rewrite V' by exact Hp. destruct (Z.eqb_spec p (D q)) as [EQ |]; [exfalso; apply (HN q); [lia | congruence] |]. apply W0; [exact Hp |]. intros j Hj. apply HN. lia.
  - split; [reflexivity |]. split; [intros; lia | reflexivity].
Qed.
End Pairs.
(** The loop of ScatterNd with a third input: [q] takes from [D q] and leaves zero there. *)
Lemma moves_ok (accum : bool) n (D : Z -> Z) dx0 dy0 : 0 <= n -> (forall q, 0 <= q < n -> within (qlen dy0) (D q)) -> n = qlen dx0 ->
  exists dx dy, loop (snd_step accum) (map (fun q => (q, D q)) (upto n)) (dx0, dy0) = Some (dx, dy) /\ length dx = length dx0 /\ length dy = length dy0 /\
  (forall q, 0 <= q < n -> (forall q', 0 <= q' < q -> D q' <> D q) -> qat dx q = ((if accum then qat dx0 q else 0) + qat dy0 (D q))%Qc) /\
  (forall q q', 0 <= q' < q -> q < n -> D q' = D q -> qat dx q = if accum then qat dx0 q else 0%Qc) /\
  (forall q, 0 <= q < n -> qat dy (D q) = 0%Qc) /\ (forall p, 0 <= p -> (forall q, 0 <= q < n -> D q <> p) -> qat dy p = qat dy0 p).
Proof.
  intros Hn HD LN. rewrite <- (loop_map (snd_step accum) (fun q => (q, D q))).
  destruct (loop_inv (fun n st => let '(dx, dy) := st in length dx = length dx0 /\ length dy = length dy0 /\
    (forall q, 0 <= q < n -> (forall q', 0 <= q' < q -> D q' <> D q) -> qat dx q = ((if accum then qat dx0 q else 0) + qat dy0 (D q))%Qc) /\
    (forall q q', 0 <= q' < q -> q < n -> D q' = D q -> qat dx q = if accum then qat dx0 q else 0%Qc) /\
    (forall q, 0 <= q < n -> qat dy (D q) = 0%Qc) /\ (forall p, 0 <= p -> (forall q, 0 <= q < n -> D q <> p) -> qat dy p = qat dy0 p) /\
    (forall q, n <= q -> qat dx q = qat dx0 q)) (fun q => snd_step accum (q, D q)) n Hn) with (s := (dx0, dy0)) as ([dx dy] & E & I).
  - intros q [dx dy] Hq (LX & LY & V1 & V2 & V3 & V4 & V5). unfold snd_step. cbn [fst snd].
    assert (WY : within (qlen dy) (D q)) by (unfold qlen; rewrite LY; apply HD; exact Hq). assert (WX : within (qlen dx) q) by (unfold within, qlen in *; lia).
    rewrite get_ok by exact WY. cbn [obind].
    assert (P : exists dx', (if accum then obind (get dx q) (fun old => put dx q (old + qat dy (D q))%Qc) else put dx q (qat dy (D q))) = Some dx' /\ length dx' = length dx /\
      forall j, 0 <= j -> qat dx' j = if j =? q then ((if accum then qat dx0 q else 0) + qat dy (D q))%Qc else qat dx j).
    { destruct accum.
      - rewrite get_ok by exact WX. cbn [obind]. destruct (put_ok dx q (qat dx q + qat dy (D q))%Qc WX) as (r & E & L & V & _). exists r. split; [exact E |]. split; [exact L |]. intros j Hj. rewrite V by exact Hj. rewrite V5 by lia. reflexivity.
      - destruct (put_ok dx q (qat dy (D q)) WX) as (r & E & L & V & _). exists r. split; [exact E |]. split; [exact L |]. intros j Hj. rewrite V by exact Hj. rewrite Qcplus_0_l. reflexivity. }
    destruct P as (dx' & E1 & L1 & P1). rewrite E1. cbn [obind]. destruct (put_ok dy (D q) 0%Qc WY) as (dy' & E2 & L2 & P2 & _). rewrite E2. cbn [obind]. exists (dx', dy'). split; [reflexivity |].
    split; [congruence |]. split; [congruence |]. split; [| split; [| split; [| split]]].
    + intros j Hj F. rewrite P1 by lia. destruct (Z.eqb_spec j q) as [-> |]; [| apply V1; [lia | exact F]]. rewrite V4; [reflexivity | apply WY | exact F].
    + intros j i Hi Hj EQ. rewrite P1 by lia. destruct (Z.eqb_spec j q) as [-> |]; [| apply (V2 j i); [lia | lia | exact EQ]]. rewrite <- EQ, V3 by lia. ring.
    + intros j Hj. rewrite P2 by (apply HD; lia). destruct (Z.eqb_spec (D j) (D q)); [reflexivity |]. apply V3. destruct (Z.eq_dec j q); [congruence | lia].
    + intros p Hp HN. rewrite P2 by exact Hp. destruct (Z.eqb_spec p (D q)) as [EQ |]; [exfalso; apply (HN q); [lia | congruence] |]. apply V4; [exact Hp |]. intros j Hj. apply HN. lia.
    + intros j Hj. rewrite P1 by lia. destruct (Z.eqb_spec j q); [lia |]. apply V5. lia.
  - split; [reflexivity |]. split; [reflexivity |]. split; [intros; lia |]. split; [intros; lia |]. split; [intros; lia |]. split; reflexivity.
  - exists dx, dy. destruct I as (LX & LY & V1 & V2 & V3 & V4 & _). split; [exact E |]. auto 10.
Qed.
(** A sum with at most one term. *)
Lemma zsum_one n p (v : Z -> Qc) : 0 <= p < n -> zsum n (fun i => if i =? p then v i else 0%Qc) = v p.
Proof. intros H. rewrite <- (zsum_hit n p v H). apply zsum_ext. intros i Hi. destruct (i =? p); ring. Qed.
Lemma zsum_only n p (f : Z -> Qc) : 0 <= p < n -> (forall i, 0 <= i < n -> i <> p -> f i = 0%Qc) -> zsum n f = f p.
Proof. intros H Z0. rewrite <- (zsum_one n p f H). apply zsum_ext. intros i Hi. destruct (Z.eqb_spec i p) as [-> |]; [reflexivity | apply Z0; assumption]. Qed.

(** * ScatterAdd *)
Lemma inside_nth : forall X i, inside i X <-> length i = length X /\ forall m, (m < length X)%nat -> 0 <= nth m i 0 < nth m X 0.
Proof.
  induction X as [| n X IH]; intros i; split.
  - intros I. inversion I. split; [reflexivity | cbn [length]; lia].
  - intros (L & _). destruct i; [constructor | discriminate].
  - intros I. inversion I as [| x ? r ? Hx Hr]; subst. apply IH in Hr. destruct Hr as (L & V). split; [cbn [length]; congruence |]. intros [| m] Hm; cbn [nth length] in *; [exact Hx | apply V; lia].
  - intros (L & V). destruct i as [| x i]; [discriminate |]. constructor; [apply (V 0%nat); cbn [length]; lia |]. apply IH. split; [cbn [length] in L; lia |]. intros m Hm. apply (V (S m)). cbn [length]. lia.
Qed.
Lemma replaced_length k v i : (k < length i)%nat -> length (replaced k v i) = length i.
Proof. intros H. unfold replaced. rewrite app_length. cbn [length]. rewrite firstn_length_le, skipn_length by lia. lia. Qed.
Lemma replaced_nth : forall k v i m, (k < length i)%nat -> nth m (replaced k v i) 0 = if Nat.eqb m k then v else nth m i 0.
Proof.
  unfold replaced. induction k as [| k IH]; intros v [| x i] m H; cbn [length] in H; try lia.
  - cbn [firstn app skipn]. destruct m; reflexivity.
  - cbn [firstn app skipn]. destruct m as [| m]; [reflexivity |]. cbn [nth Nat.eqb]. apply IH. lia.
Qed.
Section Add.
Variables (k : nat) (X0 I X1 idx : list Z) (axis : Z).
Hypothesis FIT : scatter_fit k X0 I X1.
Hypothesis AX : denotes axis k (length X0).
Hypothesis RNG : in_range k X0 idx.
Hypothesis LI : Z.of_nat (length idx) = size I.
Local Notation val := (fun q => nth (Z.to_nat q) idx 0).
Lemma val_range q : 0 <= q < size I -> 0 <= nth (Z.to_nat q) idx 0 < nth k X0 0.
Proof using RNG LI. intros H. unfold in_range in RNG. rewrite Forall_forall in RNG. apply RNG. apply nth_In. lia. Qed.
Lemma to_x1 i : inside i I -> inside i X1.
Proof using FIT. clear - FIT. rewrite !inside_nth. intros (L & V). pose proof (s_ndim _ _ _ _ FIT). pose proof (s_ndim1 _ _ _ _ FIT). split; [lia |]. intros m Hm. pose proof (s_x1 _ _ _ _ FIT m ltac:(lia)). specialize (V m ltac:(lia)). lia. Qed.
Lemma to_x0 i v : inside i I -> 0 <= v < nth k X0 0 -> inside (replaced k v i) X0.
Proof using FIT.
  clear - FIT. rewrite !inside_nth. intros (L & V) Hv. pose proof (s_ndim _ _ _ _ FIT). pose proof (s_axis _ _ _ _ FIT). split; [rewrite replaced_length by lia; lia |].
  intros m Hm. rewrite replaced_nth by lia. destruct (Nat.eqb_spec m k) as [-> | N]; [exact Hv |]. pose proof (s_x0 _ _ _ _ FIT m Hm N). specialize (V m ltac:(lia)). lia.
Qed.
Lemma sa_axis_ok : sa_axis axis (length X0) = Z.of_nat k.
Proof using AX FIT. clear - AX FIT. pose proof (s_axis _ _ _ _ FIT). unfold sa_axis. destruct AX as [-> | ->]; match goal with |- context [Z.ltb ?a ?b] => destruct (Z.ltb_spec a b) end; lia. Qed.
Lemma strides_dot X : X <> [] -> exists st, strides X = Some st /\ (forall i, inside i X -> dot i st = off i X) /\ (forall i, inside i X -> flat2nd (off i X) st = i).
Proof using.
  clear. destruct X as [| n X]; [congruence |]. intros _. exists (sfx X). split; [apply strides_sfx |]. split; [intros i Ii; apply dot_off; exact Ii |]. intros i Ii. eapply flat2nd_ok; [reflexivity | exact Ii].
Qed.
Lemma sa_pairs_ok : sa_pairs axis X0 I X1 idx = Some (map (fun q => (off (replaced k (val q) (unoff I q)) X0, off (unoff I q) X1)) (upto (size I))).
Proof using FIT AX RNG LI.
  pose proof (s_axis _ _ _ _ FIT) as A. pose proof (s_ndim _ _ _ _ FIT) as N1. pose proof (s_ndim1 _ _ _ _ FIT) as N2. destruct (s_sizes _ _ _ _ FIT) as (SZ0 & SZ & SZ1).
  assert (E0 : X0 <> []) by (intros ->; cbn [length] in A; lia). assert (E1 : I <> []) by (intros ->; cbn [length] in N1; lia). assert (E2 : X1 <> []) by (intros ->; cbn [length] in N2; lia).
  destruct (strides_dot X0 E0) as (st0 & S0 & D0 & _). destruct (strides_dot I E1) as (st & S1 & _ & F1). destruct (strides_dot X1 E2) as (st1 & S2 & D2 & _).
  unfold sa_pairs. rewrite S0, S1, S2. cbn [obind]. rewrite prod_size, sa_axis_ok. apply omap_some. intros q Hq. apply upto_in in Hq. destruct (unoff_inside I q SZ Hq) as (Iq & Oq). pose proof (val_range q Hq) as Vq.
  assert (G : get idx q = Some (nth (Z.to_nat q) idx 0)) by (unfold get; destruct (Z.ltb_spec q 0); [lia |]; apply nth_error_nth'; lia). rewrite G. cbn [obind].
  assert (G2 : vget X0 (Z.of_nat k) = Some (nth k X0 0)) by (unfold vget; destruct (Z.ltb_spec (Z.of_nat k) 0); [lia |]; rewrite Nat2Z.id; apply nth_error_nth'; exact A). rewrite G2. cbn [obind].
  destruct (Z.leb_spec 0 (nth (Z.to_nat q) idx 0)); [| lia]. destruct (Z.ltb_spec (nth (Z.to_nat q) idx 0) (nth k X0 0)); [| lia]. cbn [andb].
  rewrite <- Oq at 1. rewrite F1 by exact Iq. assert (LQ : length (unoff I q) = length I) by (apply (inside_nth I); exact Iq).
  unfold vset. destruct (Z.leb_spec 0 (Z.of_nat k)); [| lia]. destruct (Z.ltb_spec (Z.of_nat k) (Z.of_nat (length (unoff I q)))); [| lia]. cbn [andb obind]. rewrite Nat2Z.id. fold (replaced k (nth (Z.to_nat q) idx 0) (unoff I q)).
  rewrite D0 by (apply to_x0; assumption). rewrite <- Oq at 3. rewrite F1 by exact Iq. rewrite D2 by (apply to_x1; exact Iq). reflexivity.
Qed.
Lemma sa_forward_ok data upd y0 : qlen data = size X0 -> qlen upd = size X1 -> qlen y0 = size X0 ->
  exists y, sa_forward axis X0 I X1 data idx upd y0 = Some y /\ length y = length y0 /\
  forall o, inside o X0 -> qat y (off o X0) = (qat data (off o X0) + zsum (size I) (fun q => if same (replaced k (val q) (unoff I q)) o then qat upd (off (unoff I q) X1) else 0))%Qc.
Proof using FIT AX RNG LI.
  intros LD LU LY. destruct (s_sizes _ _ _ _ FIT) as (SZ0 & SZ & SZ1). unfold sa_forward. rewrite prod_size.
  destruct (fill_ok (size X0) (fun j _ => qat data j) (fun i y => obind (get data i) (put y i)) y0 (size_nonneg X0 SZ0) LY) as (y1 & E1 & L1 & V1).
  { intros j a Hj La. rewrite get_ok by (unfold within; lia). reflexivity. }
  rewrite E1. cbn [obind]. rewrite sa_pairs_ok. cbn [obind].
  destruct (adds_ok (size I) (fun q => off (replaced k (val q) (unoff I q)) X0) (fun q => off (unoff I q) X1) upd y1 (size_nonneg I SZ)) as (y & E & L & V).
  - intros q Hq. unfold qlen. rewrite L1. fold (qlen y0). rewrite LY. apply off_bound. apply to_x0; [apply unoff_inside; assumption | apply val_range; exact Hq].
  - intros q Hq. rewrite LU. apply off_bound. apply to_x1. apply unoff_inside; assumption.
  - exists y. split; [exact E |]. split; [congruence |]. intros o Io. pose proof (off_bound o X0 Io). rewrite V by lia. rewrite V1 by lia. f_equal. apply zsum_ext. intros q Hq.
    assert (IR : inside (replaced k (val q) (unoff I q)) X0) by (apply to_x0; [apply unoff_inside; assumption | apply val_range; exact Hq]).
    unfold same. destruct (list_eq_dec Z.eq_dec (replaced k (nth (Z.to_nat q) idx 0) (unoff I q)) o) as [-> | N]; [rewrite Z.eqb_refl; reflexivity |].
    destruct (Z.eqb_spec (off (replaced k (nth (Z.to_nat q) idx 0) (unoff I q)) X0) (off o X0)) as [EQ |]; [| reflexivity]. exfalso. apply N. apply (off_inj X0); assumption.
Qed.
Lemma sa_back_ok (accum : bool) dy d0 : qlen dy = size X0 -> qlen d0 = size X1 ->
  exists d, (if accum then add_all else copy_all) (map swap (map (fun q => (off (replaced k (val q) (unoff I q)) X0, off (unoff I q) X1)) (upto (size I)))) dy (cleared accum d0) = Some d /\ length d = length d0 /\
  forall i, inside i X1 -> qat d (off i X1) = ((if accum then qat d0 (off i X1) else 0) + (if is_inside i I then qat dy (off (replaced k (val (off i I)) i) X0) else 0))%Qc.
Proof using FIT AX RNG LI.
  intros LD L0. destruct (s_sizes _ _ _ _ FIT) as (SZ0 & SZ & SZ1). rewrite map_map. unfold swap. cbn [fst snd].
  assert (H1 : forall q, 0 <= q < size I -> within (qlen (cleared accum d0)) (off (unoff I q) X1)).
  { intros q Hq. unfold qlen. rewrite cleared_length. fold (qlen d0). rewrite L0. apply off_bound. apply to_x1. apply unoff_inside; assumption. }
  assert (H2 : forall q, 0 <= q < size I -> within (qlen dy) (off (replaced k (val q) (unoff I q)) X0)).
  { intros q Hq. rewrite LD. apply off_bound. apply to_x0; [apply unoff_inside; assumption | apply val_range; exact Hq]. }
  assert (UNI : forall i q, inside i X1 -> 0 <= q < size I -> off (unoff I q) X1 = off i X1 -> inside i I /\ q = off i I).
  { intros i q Ii Hq EQ. destruct (unoff_inside I q SZ Hq) as (Iq & Oq). apply (off_inj X1) in EQ; [| exact SZ1 | apply to_x1; exact Iq | exact Ii]. rewrite <- EQ. split; [exact Iq | symmetry; exact Oq]. }
  destruct accum; cbn [cleared] in *.
  - destruct (adds_ok (size I) (fun q => off (unoff I q) X1) (fun q => off (replaced k (val q) (unoff I q)) X0) dy d0 (size_nonneg I SZ) H1 H2) as (d & E & L & V). exists d. split; [exact E |]. split; [exact L |].
    intros i Ii. pose proof (off_bound i X1 Ii). rewrite V by lia. f_equal. destruct (is_inside i I) eqn:T.
    + apply is_inside_iff in T. rewrite (zsum_only (size I) (off i I)); [rewrite unoff_off, Z.eqb_refl by assumption; reflexivity | apply off_bound; exact T |].
      intros q Hq N. destruct (Z.eqb_spec (off (unoff I q) X1) (off i X1)) as [EQ |]; [| reflexivity]. destruct (UNI i q Ii Hq EQ) as (_ & ->). congruence.
    + apply zsum_zero. intros q Hq. destruct (Z.eqb_spec (off (unoff I q) X1) (off i X1)) as [EQ |]; [| reflexivity]. destruct (UNI i q Ii Hq EQ) as (II & _). apply is_inside_iff in II. congruence.
  - destruct (copies_ok (size I) (fun q => off (unoff I q) X1) (fun q => off (replaced k (val q) (unoff I q)) X0) dy (cleared false d0) (size_nonneg I SZ) H1 H2) as (d & E & L & V & W). exists d. split; [exact E |]. split; [rewrite L; apply (cleared_length false) |].
    intros i Ii. pose proof (off_bound i X1 Ii). destruct (is_inside i I) eqn:T.
    + apply is_inside_iff in T. specialize (V (off i I) (off_bound i I T)). rewrite unoff_off in V by assumption. rewrite V; [ring |].
      intros q Hq EQ. apply UNI in EQ; [lia | exact Ii | pose proof (off_bound i I T); lia].
    + rewrite W; [rewrite cleared_qat; ring | lia |]. intros q Hq EQ. destruct (UNI i q Ii Hq EQ) as (II & _). apply is_inside_iff in II. congruence.
Qed.
End Add.
