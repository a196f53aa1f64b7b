(** Property C26: flat and multi-dimensional indices. *)
From Coq Require Import List ZArith Bool Lia.
From Verif Require Import NdModel NdSpec NdProofs.
Import ListNotations.
Local Open Scope list_scope.
Local Open Scope Z_scope.

(** C26: converting an index to a flat offset gives its row-major position, converting
    back gives the index.  Partial: for shapes of at most 2^31 elements. *)
Theorem C26_offset_partial : forall shape index, shape <> [] -> inside index shape -> size shape <= 2147483648 ->
  exists st, strides shape = Some st /\ nd2flat index st = Some (position 0 index shape) /\
    0 <= position 0 index shape < size shape /\ flat2nd (position 0 index shape) st = index.
Proof.
  intros [|s t] index N H L; [congruence|]. exists (sfx t). split; [apply strides_sfx|]. split; [apply nd2flat_ok; auto|].
  rewrite (position_off _ _ H). pose proof (off_bound _ _ H). replace (0 * size (s :: t) + off index (s :: t)) with (off index (s :: t)) by lia.
  split; auto. eapply flat2nd_ok; eauto.
Qed.

(** C26: every offset is the position of exactly one index. *)
Theorem C26_index_partial : forall shape k, shape <> [] -> Forall (fun s => 0 < s) shape -> 0 <= k < size shape -> size shape <= 2147483648 ->
  exists st, strides shape = Some st /\ inside (flat2nd k st) shape /\ nd2flat (flat2nd k st) st = Some k /\
    forall index, inside index shape -> nd2flat index st = Some k -> index = flat2nd k st.
Proof.
  intros [|s t] k N P K L; [congruence|]. exists (sfx t). split; [apply strides_sfx|].
  destruct (flat2nd_inside (s :: t) k s t eq_refl P K) as (A & B). split; auto. split.
  - rewrite (nd2flat_ok _ s t A L), (position_off _ _ A), B. reflexivity.
  - intros index H E. rewrite (nd2flat_ok _ s t H L), (position_off _ _ H) in E. injection E as E.
    rewrite <- (flat2nd_ok (s :: t) index s t eq_refl H). f_equal. lia.
Qed.

(** The version of nd2flat that takes a pair of axes adds in the element type, so it is
    exact for every size. *)
Theorem C26_offset_range : forall shape index, shape <> [] -> inside index shape ->
  exists st, strides shape = Some st /\ nd2flat_range index st 0 (Z.of_nat (length shape)) = Some (position 0 index shape) /\
    flat2nd (position 0 index shape) st = index.
Proof.
  intros [|s t] index N H; [congruence|]. exists (sfx t). split; [apply strides_sfx|].
  pose proof (inside_length _ _ H) as Len. rewrite (position_off _ _ H).
  replace (0 * size (s :: t) + off index (s :: t)) with (off index (s :: t)) by lia. split; [|eapply flat2nd_ok; eauto].
  unfold nd2flat_range, norm_axis. rewrite sfx_length, Len. cbn [length]. rewrite Nat.leb_refl.
  destruct (Z.ltb_spec (Z.of_nat (S (length t))) 0); [lia|].
  destruct (Z.leb_spec 0 (Z.of_nat (S (length t)))); [|lia]. rewrite Z.leb_refl. cbn [andb Z.ltb Z.compare Z.leb Z.to_nat skipn].
  rewrite Nat2Z.id. cbn [length] in Len. rewrite firstn_all2 by lia. rewrite (dot_off _ _ _ H). rewrite Z.leb_refl, (proj2 (Z.leb_le _ _) H1). reflexivity.
Qed.

(** C26: increment goes to the next position, and back to the origin from the last. *)
Theorem C26_increment : forall shape index, inside index shape ->
  (position 0 index shape + 1 < size shape -> exists next, increment index shape = Some (next, true) /\
     inside next shape /\ position 0 next shape = position 0 index shape + 1) /\
  (position 0 index shape + 1 = size shape -> increment index shape = Some (map (fun _ => 0) shape, false)).
Proof.
  intros shape index H. rewrite increment_inc by (apply inside_length; auto). rewrite (position_off _ _ H).
  destruct (inc_ok _ _ H) as (A & B). split.
  - intros L. destruct (A ltac:(lia)) as (n & E & I & O). exists n. rewrite E. split; auto. split; auto. rewrite (position_off _ _ I). lia.
  - intros L. rewrite B by lia. auto.
Qed.

(** C26: the documented loop visits every index once, in the order of the offsets. *)
Theorem C26_enumeration : forall shape, Forall (fun s => 0 < s) shape ->
  exists l, visit (Z.to_nat (size shape)) (map (fun _ => 0) shape) shape = Some l /\
    (forall index, In index l <-> inside index shape) /\
    map (fun index => position 0 index shape) l = range 0 (Z.to_nat (size shape)).
Proof.
  intros shape P. exists (indices shape).
  assert (P' : Forall (fun s => 0 <= s) shape) by (eapply Forall_impl; [|exact P]; cbn; intros; lia).
  assert (E : map (fun index => position 0 index shape) (indices shape) = range 0 (Z.to_nat (size shape))).
  { rewrite <- indices_off by auto. apply map_ext_in. intros x Hx. apply indices_in in Hx. rewrite (position_off _ _ Hx). lia. }
  split; [|split; auto; intros; apply indices_in].
  apply V_visit; [apply V_all; auto|apply map_length|].
  rewrite <- (map_length (fun index => position 0 index shape)), E. clear. generalize (Z.to_nat (size shape)) as n.
  intros n. generalize 0. induction n as [|n IH]; intros z; cbn; [lia|]. specialize (IH (z + 1)). lia.
Qed.

(** C26: inner_size and outer_size split the size.  Partial: up to 2^31 elements. *)
Lemma accumulate_size l : Forall (fun s => 0 < s) l -> forall acc, 0 < acc -> acc * size l < 2147483648 ->
  fold_left (fun acc x => wrap (acc * x)) l acc = acc * size l.
Proof.
  induction 1 as [|x l Hx F IH]; intros acc A L; cbn [fold_left size] in *; [lia|].
  pose proof (size_pos l F). rewrite wrap_small by nia. rewrite IH; nia.
Qed.
Lemma size_app a b : size (a ++ b) = size a * size b.
Proof. induction a as [|x a IH]; cbn [app size]; [lia|]. rewrite IH. lia. Qed.
Theorem C26_sizes_partial : forall shape axis, Forall (fun s => 0 < s) shape -> size shape < 2147483648 ->
  (axis < length shape)%nat ->
  outer_size shape (Z.of_nat axis) = Some (size (firstn axis shape)) /\
  inner_size shape (Z.of_nat axis) = Some (size (skipn axis shape)) /\
  size (firstn axis shape) * size (skipn axis shape) = size shape /\
  batch_reduced_shape shape axis = Some (size (firstn axis shape) :: skipn axis shape).
Proof.
  intros shape axis P L A.
  assert (Sp : size (firstn axis shape) * size (skipn axis shape) = size shape) by (rewrite <- size_app, firstn_skipn; auto).
  assert (P' := P). rewrite <- (firstn_skipn axis shape) in P'. apply Forall_app in P' as (P1 & P2).
  pose proof (size_pos _ P1). pose proof (size_pos _ P2).
  assert (O : outer_size shape (Z.of_nat axis) = Some (size (firstn axis shape))).
  { unfold outer_size, norm_axis. destruct (Z.ltb_spec (Z.of_nat axis) 0); [lia|]. destruct (Z.leb_spec 0 (Z.of_nat axis)); [|lia].
    destruct (Z.ltb_spec (Z.of_nat axis) (Z.of_nat (length shape))); [|lia]. cbn [andb]. rewrite Nat2Z.id. f_equal.
    unfold accumulate. rewrite accumulate_size; [lia|auto|lia|nia]. }
  assert (I : inner_size shape (Z.of_nat axis) = Some (size (skipn axis shape))).
  { unfold inner_size, norm_axis. destruct (Z.ltb_spec (Z.of_nat axis) 0); [lia|]. destruct (Z.leb_spec 0 (Z.of_nat axis)); [|lia].
    destruct (Z.ltb_spec (Z.of_nat axis) (Z.of_nat (length shape))); [|lia]. cbn [andb]. rewrite Nat2Z.id. f_equal.
    unfold accumulate. rewrite accumulate_size; [lia|auto|lia|nia]. }
  split; auto. split; auto. split; auto. unfold batch_reduced_shape. rewrite (proj2 (Nat.ltb_lt _ _) A), O. auto.
Qed.

(** C26: with an axis, the axes from it on count as zero. *)
Lemma dot_zeros {A} a (l : list A) b : dot (a ++ map (fun _ => 0) l) b = dot a b.
Proof.
  revert b. induction a as [|x a IH]; intros [|y b]; cbn [app dot]; auto.
  - destruct (map (fun _ : A => 0) l); reflexivity.
  - revert y b. induction l as [|z l IHl]; intros y b; cbn [map dot]; auto. destruct b as [|w b]; [destruct l; cbn; lia|]. rewrite IHl. lia.
  - rewrite IH. auto.
Qed.
Lemma inside_prefix index shape k : inside index shape -> inside (firstn k index ++ map (fun _ => 0) (skipn k shape)) shape.
Proof.
  intros H. revert k. induction H as [|i s index shape Hi F IH]; intros k.
  - destruct k; constructor.
  - destruct k; cbn [firstn skipn app map].
    + constructor; [lia|]. apply (IH O).
    + constructor; [exact Hi|]. exact (IH k).
Qed.
Theorem C26_axis_partial : forall shape index axis, shape <> [] -> inside index shape -> size shape <= 2147483648 ->
  (axis < length shape)%nat ->
  exists st, strides shape = Some st /\
    nd2flat_axis index st (Z.of_nat axis) = Some (position 0 (firstn axis index ++ map (fun _ => 0) (skipn axis shape)) shape).
Proof.
  intros [|s t] index axis N H L A; [congruence|]. exists (sfx t). split; [apply strides_sfx|].
  pose proof (inside_length _ _ H) as Len. pose proof (inside_prefix _ _ axis H) as H'.
  unfold nd2flat_axis, norm_axis. destruct (Z.ltb_spec (Z.of_nat axis) 0); [lia|].
  rewrite sfx_length, Len. cbn [length] in *. rewrite Nat.leb_refl.
  rewrite (proj2 (Z.leb_le _ _)) by lia. rewrite (proj2 (Z.ltb_lt _ _)) by lia. cbn [andb]. rewrite Nat2Z.id. f_equal.
  rewrite (position_off _ _ H'), <- (dot_off _ _ _ H'), dot_zeros.
  pose proof (off_bound _ _ H') as B. rewrite <- (dot_off _ _ _ H'), dot_zeros in B.
  pose proof (inside_positive _ _ H) as P. inversion P; subst.
  rewrite inner_dot; [lia|lia| |apply sfx_nonneg; auto|lia].
  apply inside_nonneg in H. rewrite <- (firstn_skipn axis index) in H. apply Forall_app in H. tauto.
Qed.

(** C26: incrementing up to an axis counts in the outer axes and leaves the others. *)
Theorem C26_increment_axis : forall shape index axis, inside index shape -> (axis < length shape)%nat ->
  let k := S axis in
  exists next b, increment_axis index shape (Z.of_nat axis) = Some (next, b) /\ skipn k next = skipn k index /\
    increment (firstn k index) (firstn k shape) = Some (firstn k next, b).
Proof.
  intros shape index axis H A k. pose proof (inside_length _ _ H) as Len.
  assert (Lk : length (firstn k index) = length (firstn k shape)) by (rewrite !firstn_length; lia).
  assert (Lk2 : length (firstn k index) = k) by (rewrite firstn_length; unfold k; lia).
  unfold increment_axis, norm_axis. destruct (Z.ltb_spec (Z.of_nat axis) 0); [lia|].
  rewrite Len, Nat.eqb_refl. rewrite (proj2 (Z.leb_le _ _)) by lia. rewrite (proj2 (Z.ltb_lt _ _)) by lia. cbn [andb]. rewrite Nat2Z.id. fold k.
  rewrite inc_inc_rev by auto. rewrite increment_inc by auto. pose proof (inc_length _ _ Lk) as IL.
  destruct (inc (firstn k index) (firstn k shape)) as [r b]. cbn [fst] in IL. rewrite rev_involutive.
  exists (r ++ skipn k index), b. split; auto.
  assert (Lr : length r = k) by lia. split.
  - rewrite skipn_app, skipn_all2 by lia. rewrite Lr, Nat.sub_diag. reflexivity.
  - rewrite firstn_app, firstn_all2 by lia. rewrite Lr, Nat.sub_diag. cbn [firstn]. rewrite app_nil_r. auto.
Qed.

(** C26: with a pair of axes, the axes outside them count as zero. *)
Lemma dot_zero_prefix {A} (l : list A) a b : (length l <= length b)%nat -> dot (map (fun _ => 0) l ++ a) b = dot a (skipn (length l) b).
Proof.
  revert b. induction l as [|x l IH]; intros b L; cbn [map app length skipn]; [auto|]. destruct b as [|y b]; cbn [length] in L; [lia|].
  cbn [dot skipn]. rewrite IH by lia. lia.
Qed.
Lemma inside_zero_prefix index shape k : inside index shape -> inside (map (fun _ => 0) (firstn k shape) ++ skipn k index) shape.
Proof.
  intros H. revert k. induction H as [|i s index shape Hi F IH]; intros k.
  - destruct k; constructor.
  - destruct k; cbn [firstn skipn app map]; constructor; try lia; auto. exact (IH k).
Qed.
Lemma dot_app_zeros {A} a (l : list A) n b : (n <= 0)%nat -> dot (a ++ skipn n (map (fun _ => 0) l)) b = dot a b.
Proof. intros H. replace n with O by lia. cbn [skipn]. apply dot_zeros. Qed.
Theorem C26_axes : forall shape index from to, shape <> [] -> inside index shape ->
  (from <= to)%nat -> (to <= length shape)%nat ->
  exists st, strides shape = Some st /\
    nd2flat_range index st (Z.of_nat from) (Z.of_nat to) = Some (position 0
      (map (fun _ => 0) (firstn from shape) ++ skipn from (firstn to index ++ map (fun _ => 0) (skipn to shape))) shape).
Proof.
  intros [|s t] index from to N H F T; [congruence|]. exists (sfx t). split; [apply strides_sfx|].
  pose proof (inside_length _ _ H) as Len. pose proof (inside_prefix _ _ to H) as H1. pose proof (inside_zero_prefix _ _ from H1) as H2.
  unfold nd2flat_range, norm_axis. destruct (Z.ltb_spec (Z.of_nat from) 0); [lia|]. destruct (Z.ltb_spec (Z.of_nat to) 0); [lia|].
  rewrite sfx_length, Len. cbn [length] in *. rewrite Nat.leb_refl.
  rewrite !(proj2 (Z.leb_le _ _)) by lia. cbn [andb]. rewrite !Nat2Z.id. f_equal.
  rewrite (position_off _ _ H2), <- (dot_off _ _ _ H2).
  assert (L : length (firstn from (s :: t)) = from) by (rewrite firstn_length; cbn [length]; lia).
  rewrite dot_zero_prefix by (rewrite L, sfx_length; lia). rewrite L, skipn_app, dot_app_zeros.
  - lia.
  - rewrite firstn_length. lia.
Qed.
(** C26: a negative axis counts from the end. *)
Theorem C26_negative_axis : forall shape index stride axis, (0 < axis <= length shape)%nat ->
  length index = length shape -> length stride = length shape ->
  let ax := Z.of_nat (length shape - axis) in let neg := - Z.of_nat axis in
  nd2flat_axis index stride neg = nd2flat_axis index stride ax /\
  (forall to, nd2flat_range index stride neg to = nd2flat_range index stride ax to) /\
  (forall from, nd2flat_range index stride from neg = nd2flat_range index stride from ax) /\
  inner_size shape neg = inner_size shape ax /\ outer_size shape neg = outer_size shape ax /\
  increment_axis index shape neg = increment_axis index shape ax.
Proof.
  intros shape index stride axis A Li Ls ax neg.
  assert (E : norm_axis neg (length shape) = norm_axis ax (length shape)).
  { unfold norm_axis, ax, neg. destruct (Z.ltb_spec (- Z.of_nat axis) 0); destruct (Z.ltb_spec (Z.of_nat (length shape - axis)) 0); lia. }
  unfold nd2flat_axis, nd2flat_range, inner_size, outer_size, increment_axis. rewrite Ls, Li, E. repeat split; auto.
Qed.

(** Refutation: beyond 2^31 elements the offset and the size overflow an int. *)
Theorem C26_large_refuted : exists shape index st, inside index shape /\ strides shape = Some st /\
  position 0 index shape = 2147483648 /\ nd2flat index st = Some (-2147483648) /\
  inner_size shape 0 = Some 0.
Proof.
  exists [4; 1073741824], [2; 0], [1073741824; 1]. split; [repeat constructor; cbn; lia|]. vm_compute. auto.
Qed.

Example C26_example : strides [2; 3; 4] = Some [12; 4; 1] /\ nd2flat [1; 2; 3] [12; 4; 1] = Some 23 /\
  flat2nd 17 [12; 4; 1] = [1; 1; 1] /\ increment [0; 2; 3] [2; 3; 4] = Some ([1; 0; 0], true) /\
  visit 6 [0; 0] [2; 3] = Some [[0; 0]; [0; 1]; [0; 2]; [1; 0]; [1; 1]; [1; 2]] /\
  batch_reduced_shape [2; 3; 4] 2 = Some [6; 4] /\ increment_axis [0; 2; 3] [2; 3; 4] 1 = Some ([1; 0; 3], true).
Proof. vm_compute. repeat split. Qed.
Example C26_inside : inside [1; 2; 3] [2; 3; 4] /\ size [2; 3; 4] = 24.
Proof. split; [repeat constructor; cbn; lia|reflexivity]. Qed.

Print Assumptions C26_offset_partial.
Print Assumptions C26_index_partial.
Print Assumptions C26_offset_range.
Print Assumptions C26_increment.
Print Assumptions C26_enumeration.
Print Assumptions C26_sizes_partial.
Print Assumptions C26_large_refuted.
Print Assumptions C26_axis_partial.
Print Assumptions C26_increment_axis.
Print Assumptions C26_axes.
Print Assumptions C26_negative_axis.
