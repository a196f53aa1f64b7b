(** Reduced and kept axes, and the transposition between them. *)
From Coq Require Import List ZArith Lia Bool Permutation QArith Qcanon.
From Verif Require Import NdModel NdSpec NdProofs IdxModel IdxSpec IdxProofs1 IdxProofs2 IdxProofs3 IdxProofs5 IdxProofs6 JoinModel JoinSpec JoinProofs JoinProofs2 ScanModel ScanSpec ScanProofs1 ReduceModel ReduceSpec ReduceProofs1.
Import ListNotations.
Local Open Scope list_scope.
Local Open Scope Z_scope.

(** ** Transposing arrays of rational numbers *)
Lemma tr_pairs_in ps ta shape : somed ps = combine (range 0 (Z.to_nat (size shape))) (srcs (tdesc ta shape)) -> good ta shape ->
  forall idx, inside idx shape -> In (off (perm ta idx) (perm ta shape), off idx shape) ps.
Proof.
  intros SP G idx I. pose proof (perm_inside _ _ _ G I) as PI. pose proof (perm_positive _ _ G) as PP. pose proof (perm_size _ _ G) as PS.
  assert (E : dot (perm ta idx) (perm ta (cstrides shape)) = off idx shape).
  { rewrite dot_perm; [apply dot_cstrides; auto|]. rewrite (inside_length _ _ I). apply good_perm. auto. }
  assert (H : In (off (perm ta idx) (perm ta shape), Some (off idx shape)) (somed ps)).
  { rewrite SP, tdesc_srcs. pose proof (off_bound _ _ PI) as B. rewrite PS in B.
    assert (LI : length (indices (perm ta shape)) = Z.to_nat (size shape)).
    { pose proof (indices_length _ (positive_nonneg _ PP)) as L. rewrite PS in L. lia. }
    pose proof (nth_indices (fun idx => Some (dot idx (perm ta (cstrides shape)))) (perm ta shape) (perm ta idx) (Some 0) (positive_nonneg _ PP) PI) as N.
    rewrite position_off in N by auto. cbn [Z.mul] in N. rewrite Z.add_0_l in N. rewrite E in N.
    set (j := off (perm ta idx) (perm ta shape)) in *.
    replace (j, Some (off idx shape)) with (nth (Z.to_nat j) (combine (range 0 (Z.to_nat (size shape))) (map (fun idx => Some (dot idx (perm ta (cstrides shape)))) (indices (perm ta shape)))) (0, Some 0)).
    - apply nth_In. rewrite combine_length, range_length, map_length, LI. lia.
    - rewrite combine_nth by (rewrite range_length, map_length, LI; auto). rewrite range_nth by lia. f_equal; [lia|exact N]. }
  unfold somed in H. apply in_map_iff in H as ([d s] & H1 & H2). inversion H1; subst. auto.
Qed.

Lemma transposed_ok ta shape x : shape <> [] -> good ta shape -> qlen x = size shape ->
  exists xt, transposed ta shape x = Some xt /\ qlen xt = size shape /\
    forall idx, inside idx shape -> qat xt (off (perm ta idx) (perm ta shape)) = qat x (off idx shape).
Proof.
  intros NE G L. pose proof (size_nonneg _ (positive_nonneg _ (g_pos _ _ G))) as SN.
  destruct (transpose_ok ta shape NE G) as (t & ET & ps & qs & E1 & E2 & SP & F1 & F2 & B & PM). unfold transposed. rewrite ET. cbn [obind]. rewrite E1. cbn [obind].
  rewrite size_from_0. set (z := repeat 0%Qc (Z.to_nat (size shape))). assert (Lz : qlen z = size shape) by (unfold qlen, z; rewrite repeat_length; lia).
  destruct (copyq_ok ps x z) as (xt & E & Lx & V & _).
  - intros p Hp. rewrite Lz, L. unfold bounded in B. rewrite Forall_forall in B. apply B. auto.
  - rewrite F1. apply nodup_range.
  - exists xt. split; [auto|]. split; [unfold qlen in *; congruence|]. intros idx I. apply V. eapply tr_pairs_in; eauto.
Qed.
Lemma untransposed_ok ta shape (accum : bool) dxt dx : shape <> [] -> good ta shape -> qlen dxt = size shape -> qlen dx = size shape ->
  exists dx', untransposed ta shape accum dxt dx = Some dx' /\ length dx' = length dx /\
    forall idx, inside idx shape -> qat dx' (off idx shape) = ((if accum then qat dx (off idx shape) else 0) + qat dxt (off (perm ta idx) (perm ta shape)))%Qc.
Proof.
  intros NE G Lt L. destruct (transpose_ok ta shape NE G) as (t & ET & ps & qs & E1 & E2 & SP & F1 & F2 & B & PM). unfold untransposed. rewrite ET. cbn [obind]. rewrite E2. cbn [obind].
  assert (Bq : forall p, In p qs -> within (qlen dx) (fst p) /\ within (qlen dxt) (snd p)).
  { intros p Hp. apply (Permutation_in _ (Permutation_sym PM)) in Hp. apply in_map_iff in Hp as ([d s] & <- & Hp). cbn [swap fst snd]. rewrite L, Lt.
    unfold bounded in B. rewrite Forall_forall in B. destruct (B (d, s) Hp). auto. }
  assert (N : NoDup (map fst qs)) by (rewrite F2; apply nodup_range).
  assert (Q : forall idx, inside idx shape -> In (off idx shape, off (perm ta idx) (perm ta shape)) qs).
  { intros idx I. apply (Permutation_in _ PM). apply in_map_iff. exists (off (perm ta idx) (perm ta shape), off idx shape). split; [reflexivity|]. eapply tr_pairs_in; eauto. }
  destruct accum.
  - destruct (addq_ok qs dxt dx Bq N) as (r & E & Lr & V & _). exists r. split; [auto|]. split; [auto|]. intros idx I. apply V, Q, I.
  - destruct (copyq_ok qs dxt dx Bq N) as (r & E & Lr & V & _). exists r. split; [auto|]. split; [auto|]. intros idx I. rewrite (V _ _ (Q _ I)). ring.
Qed.

(** ** Selecting axes *)
Lemma select_map {A B} (f : A -> B) b mask : forall l, select b mask (map f l) = map f (select b mask l).
Proof. induction mask as [|m mask IH]; intros [|a l]; cbn [select map]; auto. destruct (Bool.eqb m b); cbn [map]; rewrite IH; auto. Qed.
Lemma select_perm {A} mask : forall l : list A, length l = length mask -> Permutation (select false mask l ++ select true mask l) l.
Proof.
  induction mask as [|m mask IH]; intros [|a l] L; try discriminate; cbn [select]; [constructor|]. destruct m; cbn [Bool.eqb app].
  - rewrite <- Permutation_middle. constructor. apply IH. cbn in L. lia.
  - constructor. apply IH. cbn in L. lia.
Qed.
Lemma range_at l : map (at_ l) (range 0 (length l)) = l.
Proof.
  apply (nth_ext _ _ 0 0); [rewrite map_length, range_length; auto|]. intros n H. rewrite map_length, range_length in H.
  rewrite (nth_indep _ 0 (at_ l 0)) by (rewrite map_length, range_length; auto). rewrite map_nth, range_nth by auto. unfold at_. f_equal. lia.
Qed.
Definition kept_axes (s : Z) (mask : list bool) : list Z := select false mask (range s (length mask)).
Definition reduced_axes (s : Z) (mask : list bool) : list Z := select true mask (range s (length mask)).
Definition transpose_axes (mask : list bool) : list Z := kept_axes 0 mask ++ reduced_axes 0 mask.
Lemma perm_select mask l : length l = length mask -> perm (transpose_axes mask) l = select false mask l ++ select true mask l.
Proof.
  intros L. unfold perm, transpose_axes, kept_axes, reduced_axes. rewrite map_app, <- !select_map, <- L, range_at. auto.
Qed.
Lemma ta_good mask shape : positive shape -> length shape = length mask -> good (transpose_axes mask) shape.
Proof. intros P L. apply perm_good; [|auto]. rewrite L. apply select_perm. apply range_length. Qed.

Lemma chosen_refine axes mask : chosen axes mask -> refine_axes (length mask) axes = Some (reduced_axes 0 mask).
Proof.
  unfold chosen, reduced_axes. intros H.
  assert (E : range 0 (length mask) = map Z.of_nat (seq 0 (length mask))). { rewrite <- (Nat2Z.id (length mask)) at 1. rewrite <- upto_range. unfold upto. rewrite Nat2Z.id. auto. }
  rewrite E, select_map.
  assert (B : forall k, In k (select true mask (seq 0 (length mask))) -> (k < length mask)%nat).
  { intros k Hk. assert (I : In k (select false mask (seq 0 (length mask)) ++ select true mask (seq 0 (length mask)))) by (apply in_or_app; auto).
    apply (Permutation_in _ (select_perm mask (seq 0 (length mask)) (seq_length _ _))) in I. apply in_seq in I. lia. }
  revert B. induction H as [|a k axes ks D H IH]; intros B; cbn [refine_axes map]; [auto|].
  rewrite (refine_denotes _ _ _ D) by (apply B; left; auto). cbn [obind]. rewrite IH; [reflexivity|]. intros. apply B. right. auto.
Qed.

Lemma between_self a : between a a = [].
Proof. unfold between. rewrite Z.sub_diag. reflexivity. Qed.
Lemma between_next a b : a <= b -> between a (b + 1) = between a b ++ [b].
Proof.
  intros H. unfold between. replace (b + 1 - a) with (Z.of_nat (S (Z.to_nat (b - a)))) by lia. rewrite upto_S, map_app, Z2Nat.id by lia. cbn [map]. do 2 f_equal. lia.
Qed.
Lemma between_in a b x : In x (between a b) <-> a <= x < b.
Proof.
  unfold between. rewrite in_map_iff. split; [intros (i & <- & H); apply upto_in in H; lia|]. intros H. exists (x - a). split; [lia|]. apply upto_in. lia.
Qed.
Lemma at_mid (pre l : list Z) n : at_ (pre ++ n :: l) (len pre) = n.
Proof. unfold at_, len. rewrite Nat2Z.id. apply nth_at. Qed.
Lemma red_axes_ok keep_dims : forall mask pre l p, length l = length mask -> -1 <= p < len pre ->
  red_axes p (reduced_axes (len pre) mask) (pre ++ l) keep_dims =
  Some (between (p + 1) (len pre) ++ kept_axes (len pre) mask,
        perm (between (p + 1) (len pre)) (pre ++ l) ++ out_shape keep_dims mask l,
        size (select true mask l)).
Proof.
  unfold reduced_axes, kept_axes. induction mask as [|m mask IH]; intros pre [|n l] p L P; try discriminate; cbn [length range select].
  - cbn [red_axes]. rewrite !app_nil_r. fold (len pre). rewrite omap_vget; [reflexivity|]. apply Forall_forall. intros x Hx. apply between_in in Hx. unfold within. lia.
  - assert (L' : length l = length mask) by (cbn in L; lia).
    assert (E : len (pre ++ [n]) = len pre + 1) by (unfold len; rewrite app_length; cbn; lia).
    assert (E2 : (pre ++ [n]) ++ l = pre ++ n :: l) by (rewrite <- app_assoc; reflexivity).
    assert (BW : Forall (within (len (pre ++ n :: l))) (between (p + 1) (len pre))).
    { apply Forall_forall. intros x Hx. apply between_in in Hx. unfold within. unfold len in *. rewrite app_length. cbn [length]. lia. }
    destruct m; cbn [Bool.eqb].
    + cbn [red_axes]. rewrite omap_vget by auto. cbn [obind].
      assert (V : vget (pre ++ n :: l) (len pre) = Some n). { unfold vget, len. destruct (Z.ltb_spec (Z.of_nat (length pre)) 0); [lia|]. rewrite Nat2Z.id, nth_error_at. auto. }
      rewrite V. cbn [obind]. specialize (IH (pre ++ [n]) l (len pre) L'). rewrite E, E2 in IH. rewrite IH by lia. cbn [obind].
      rewrite between_self. cbn [app perm map out_shape out]. unfold out_shape. cbn [out]. destruct keep_dims; reflexivity.
    + specialize (IH (pre ++ [n]) l p L'). rewrite E, E2 in IH. rewrite IH by (unfold len in *; lia). rewrite between_next by lia.
      unfold perm. rewrite map_app. cbn [map]. rewrite at_mid, <- !app_assoc. reflexivity.
Qed.
Lemma red_setup_ok axes mask keep_dims shape : chosen axes mask -> length shape = length mask ->
  red_setup (created axes) keep_dims shape =
  Some ({| r_axes := reduced_axes 0 mask;
           r_transpose := if list_eq_dec Z.eq_dec (transpose_axes mask) (upto (Z.of_nat (length shape))) then None else Some (transpose_axes mask);
           r_size := size (select true mask shape) |}, out_shape keep_dims mask shape).
Proof.
  intros C L. unfold red_setup, created. cbn [r_axes r_transpose]. rewrite L, (chosen_refine _ _ C). cbn [obind].
  pose proof (red_axes_ok keep_dims mask [] shape (-1) L ltac:(unfold len; cbn; lia)) as R. cbn [app] in R. change (len []) with 0 in R. rewrite R. cbn [obind].
  change (-1 + 1) with 0. rewrite between_self. reflexivity.
Qed.

(** ** Indices *)
Lemma select_inside b mask : forall idx shape, inside idx shape -> inside (select b mask idx) (select b mask shape).
Proof.
  induction mask as [|m mask IH]; intros idx shape H; [constructor|]. inversion H as [|i s idx' shape' Hi F]; subst; cbn [select]; [constructor|].
  destruct (Bool.eqb m b); [constructor; auto|]; apply IH; auto.
Qed.
Lemma select_positive b mask : forall shape, positive shape -> positive (select b mask shape).
Proof.
  induction mask as [|m mask IH]; intros shape H; [constructor|]. destruct H as [|s shape Hs H]; cbn [select]; [constructor|].
  destruct (Bool.eqb m b); [constructor; auto|]; apply IH; auto.
Qed.
Lemma select_size mask : forall shape, length shape = length mask -> size (select false mask shape) * size (select true mask shape) = size shape.
Proof.
  induction mask as [|m mask IH]; intros [|s shape] L; try discriminate; [reflexivity|]. cbn in L. specialize (IH shape ltac:(lia)). destruct m; cbn [select Bool.eqb size]; nia.
Qed.
Lemma out_position keep_dims mask : forall idx shape acc, length idx = length mask -> length shape = length mask ->
  position acc (out_index keep_dims mask idx) (out_shape keep_dims mask shape) = position acc (select false mask idx) (select false mask shape).
Proof.
  unfold out_index, out_shape. induction mask as [|m mask IH]; intros [|i idx] [|s shape] acc L1 L2; try discriminate; [reflexivity|]. cbn in L1, L2.
  destruct m; cbn [out select Bool.eqb position].
  - destruct keep_dims; cbn [position]; rewrite IH by lia; [f_equal; lia|auto].
  - apply IH; lia.
Qed.
Lemma out_size keep_dims mask : forall shape, length shape = length mask -> size (out_shape keep_dims mask shape) = size (select false mask shape).
Proof.
  unfold out_shape. induction mask as [|m mask IH]; intros [|s shape] L; try discriminate; [reflexivity|]. cbn in L. specialize (IH shape ltac:(lia)).
  destruct m; cbn [out select Bool.eqb size]; [destruct keep_dims; cbn [size]; lia|]. rewrite IH. auto.
Qed.
Fixpoint merge (mask : list bool) (k r : list Z) : list Z :=
  match mask with
  | [] => []
  | true :: mask => match r with a :: r => a :: merge mask k r | [] => [] end
  | false :: mask => match k with a :: k => a :: merge mask k r | [] => [] end
  end.
Lemma merge_ok mask : forall shape k r, length shape = length mask -> inside k (select false mask shape) -> inside r (select true mask shape) ->
  inside (merge mask k r) shape /\ select false mask (merge mask k r) = k /\ select true mask (merge mask k r) = r.
Proof.
  induction mask as [|m mask IH]; intros [|s shape] k r L K R; try discriminate; cbn in L.
  - inversion K; inversion R; subst. cbn. repeat split; constructor.
  - destruct m; cbn [select Bool.eqb merge] in *.
    + inversion R as [|a ? r' ? Ha R']; subst. destruct (IH shape k r') as (A & B & C); auto. cbn [select Bool.eqb]. rewrite B, C. repeat split; auto. constructor; auto.
    + inversion K as [|a ? k' ? Ha K']; subst. destruct (IH shape k' r) as (A & B & C); auto. cbn [select Bool.eqb]. rewrite B, C. repeat split; auto. constructor; auto.
Qed.
Lemma filter_flat_map {A B} (f : B -> bool) (g : A -> list B) l : filter f (flat_map g l) = flat_map (fun a => filter f (g a)) l.
Proof. induction l as [|a l IH]; cbn [flat_map filter]; [auto|]. rewrite filter_app, IH. auto. Qed.
Lemma filter_map {A B} (f : B -> bool) (g : A -> B) l : filter f (map g l) = map g (filter (fun a => f (g a)) l).
Proof. induction l as [|a l IH]; cbn [map filter]; [auto|]. destruct (f (g a)); cbn [map]; rewrite IH; auto. Qed.
Lemma flat_map_one {B} (g : Z -> list B) (i : Z) n : forall s, s <= i < s + Z.of_nat n -> (forall a, a <> i -> g a = []) -> flat_map g (range s n) = g i.
Proof.
  intros s H Z. revert s H. induction n as [|n IH]; intros s H; [lia|]. cbn [range flat_map]. destruct (Z.eq_dec s i) as [->|N].
  - assert (E : forall n s, i < s -> flat_map g (range s n) = []).
    { clear - Z. induction n as [|n IH]; intros s H; cbn [range flat_map]; [auto|]. rewrite Z, IH by lia. auto. }
    rewrite E by lia. apply app_nil_r.
  - rewrite (Z s N), IH by lia. auto.
Qed.
Definition same (a b : list Z) : bool := if list_eq_dec Z.eq_dec a b then true else false.
Lemma same_cons x y a b : same (x :: a) (y :: b) = (x =? y) && same a b.
Proof.
  unfold same. destruct (list_eq_dec Z.eq_dec (x :: a) (y :: b)) as [E|E], (Z.eqb_spec x y), (list_eq_dec Z.eq_dec a b); cbn; auto; try congruence.
Qed.
Lemma group_merge mask : forall shape k, length shape = length mask -> inside k (select false mask shape) ->
  filter (fun j => same (select false mask j) k) (indices shape) = map (merge mask k) (indices (select true mask shape)).
Proof.
  induction mask as [|m mask IH]; intros [|s shape] k L K; try discriminate; cbn in L.
  - inversion K; subst. reflexivity.
  - cbn [indices]. rewrite filter_flat_map. destruct m; cbn [select Bool.eqb] in *.
    + cbn [indices]. rewrite flat_map_concat_map, flat_map_concat_map, concat_map, map_map. f_equal. apply map_ext. intros i.
      rewrite filter_map. cbn [select Bool.eqb]. rewrite IH by auto. rewrite !map_map. apply map_ext. intros r. reflexivity.
    + inversion K as [|a ? k' ? Ha K']; subst. rewrite (flat_map_one _ a) by (try lia; intros i N; rewrite filter_map; cbn [select Bool.eqb];
        rewrite (filter_ext _ (fun _ => false)) by (intros j; rewrite same_cons; destruct (Z.eqb_spec i a); [tauto|auto]); induction (indices shape); auto).
      rewrite filter_map. cbn [select Bool.eqb]. rewrite (filter_ext _ (fun j => same (select false mask j) k')) by (intros j; rewrite same_cons, Z.eqb_refl; auto).
      rewrite IH by auto. rewrite !map_map. apply map_ext. intros r. reflexivity.
Qed.
