(** NumPy arrays: elements of built arrays, broadcasting, axes switched. *)
From Coq Require Import List ZArith Bool QArith Qcanon Lia.
From Verif Require Import NdSpec ScanSpec ReduceSpec ConvSpec NdProofs SliceProofs IdxModel FoldModel FoldSpec.
Import ListNotations.
Local Open Scope list_scope.
Local Open Scope Z_scope.

Lemma size_fold s : fold_right Z.mul 1 s = size s.
Proof. induction s; cbn; congruence. Qed.
Lemma ravel_off s : forall i, ravel i s = off i s.
Proof. induction s as [| n s IH]; intros [| i idx]; cbn [ravel off]; reflexivity. Qed.
Lemma seq_range n : forall k, map Z.of_nat (seq k n) = range (Z.of_nat k) n.
Proof. induction n as [| n IH]; intros k; cbn [seq map range]; [reflexivity |]. rewrite IH. do 2 f_equal. lia. Qed.
Lemma ndindex_indices s : ndindex s = indices s.
Proof.
  induction s as [| n s IH]; cbn [ndindex indices]; [reflexivity |]. rewrite IH. change 0 with (Z.of_nat 0). rewrite <- seq_range.
  induction (seq 0 (Z.to_nat n)) as [| k l IHl]; cbn [map flat_map]; [reflexivity |]. rewrite IHl. reflexivity.
Qed.
Lemma inside_nonneg_shape i s : inside i s -> Forall (fun n => 0 <= n) s.
Proof. induction 1; constructor; auto. lia. Qed.
Lemma range_nth n : forall k j d, (j < n)%nat -> nth j (range k n) d = k + Z.of_nat j.
Proof. induction n as [| n IH]; intros k [| j] d H; cbn [range nth]; try lia. rewrite IH by lia. lia. Qed.
Lemma indices_nth s i : inside i s -> nth (Z.to_nat (off i s)) (indices s) [] = i.
Proof.
  intros I. pose proof (off_bound i s I) as B. pose proof (inside_nonneg_shape i s I) as P. pose proof (indices_off s P) as E.
  assert (L : length (indices s) = Z.to_nat (size s)).
  { apply (f_equal (@length Z)) in E. rewrite map_length in E. rewrite E. clear. generalize 0. induction (Z.to_nat (size s)); intros; cbn; congruence. }
  assert (J : inside (nth (Z.to_nat (off i s)) (indices s) []) s) by (apply indices_in, nth_In; lia).
  apply (f_equal (fun l => nth (Z.to_nat (off i s)) l 0)) in E.
  rewrite range_nth in E by lia.
  rewrite (nth_indep (map _ _) 0 (off [] s)) in E by (rewrite map_length; lia). rewrite (map_nth (fun x => off x s)) in E.
  rewrite Z2Nat.id in E by lia. eapply SliceProofs.off_inj; eauto.
Qed.
Lemma indices_length s : Forall (fun n => 0 <= n) s -> Z.of_nat (length (indices s)) = size s.
Proof.
  intros P. pose proof (indices_off s P) as E. apply (f_equal (@length Z)) in E. rewrite map_length in E. rewrite E.
  assert (0 <= size s) by (clear E; induction P; cbn [size]; nia).
  assert (forall n k, length (range k n) = n) by (induction n; intros; cbn; congruence). rewrite H0. lia.
Qed.
Lemma at_build s f i : inside i s -> np_at (np_build s f) i = f i.
Proof.
  intros I. unfold np_at, np_build. cbn [sh el]. rewrite ravel_off, ndindex_indices. pose proof (off_bound i s I).
  pose proof (indices_length s (inside_nonneg_shape i s I)).
  rewrite (nth_indep _ _ (f [])) by (rewrite map_length; lia). rewrite map_nth, indices_nth by exact I. reflexivity.
Qed.
Lemma build_valued s f : Forall (fun n => 0 <= n) s -> valued (np_build s f) s.
Proof. intros P. split; [reflexivity |]. cbn [np_build el]. rewrite map_length, ndindex_indices. apply indices_length. exact P. Qed.
Lemma at_value a i : inside i (sh a) -> np_at a i = value a i.
Proof. intros I. unfold np_at, value, qelem. rewrite ravel_off, position_off by exact I. reflexivity. Qed.

(** ** Broadcasting *)
Definition fits (s t : list Z) : Prop := Forall2 (fun m n => m = n \/ m = 1) s t.
Lemma fits_rev s t : fits s t -> fits (rev s) (rev t).
Proof.
  unfold fits. induction 1 as [| m n s t H F IH]; cbn [rev]; [constructor |]. apply Forall2_app; [exact IH |]. constructor; [exact H | constructor].
Qed.
Lemma bshape_rev_fits s t : fits s t -> bshape_rev s t = Some t.
Proof.
  induction 1 as [| m n s t H F IH]; cbn [bshape_rev]; [reflexivity |]. rewrite IH.
  destruct (Z.eqb_spec m n) as [-> |]; [reflexivity |]. destruct H as [-> | ->]; [congruence |]. reflexivity.
Qed.
Lemma bshape_rev_fits_r s t : fits s t -> bshape_rev t s = Some t.
Proof.
  induction 1 as [| m n s t H F IH]; cbn [bshape_rev]; [reflexivity |]. rewrite IH.
  destruct (Z.eqb_spec n m) as [-> |]; [reflexivity |]. destruct H as [-> | ->]; [congruence |]. destruct (Z.eqb_spec n 1) as [-> |]; reflexivity.
Qed.
Lemma bshape_fits s t : fits s t -> bshape s t = Some t /\ bshape t s = Some t.
Proof. intros F. apply fits_rev in F. unfold bshape. rewrite bshape_rev_fits, bshape_rev_fits_r by exact F. cbn [obind]. rewrite rev_involutive. split; reflexivity. Qed.
Lemma fits_refl s : fits s s.
Proof. induction s; constructor; auto. Qed.
Lemma pick_self i s : inside i s -> pick s i = i.
Proof. induction 1 as [| i n idx s H F IH]; cbn [pick]; [reflexivity |]. rewrite IH. destruct (Z.eqb_spec n 1); f_equal. lia. Qed.
Lemma fits_length s t : fits s t -> length s = length t.
Proof. induction 1; cbn; congruence. Qed.
Lemma inside_length i s : inside i s -> length i = length s.
Proof. induction 1; cbn; congruence. Qed.
Lemma pick_at a i : length i = length (sh a) -> np_pick a i = np_at a (pick (sh a) i).
Proof. intros L. unfold np_pick. rewrite L, Nat.sub_diag. reflexivity. Qed.
(** The left operand is repeated. *)
Lemma op_left op a b : fits (sh a) (sh b) -> Forall (fun n => 0 <= n) (sh b) -> exists r, np_op op a b = Some r /\ valued r (sh b) /\
  forall i, inside i (sh b) -> np_at r i = op (np_at a (pick (sh a) i)) (np_at b i).
Proof.
  intros F P. unfold np_op. destruct (bshape_fits _ _ F) as [-> _]. cbn [obind]. eexists. split; [reflexivity |]. split; [apply build_valued; exact P |].
  intros i I. rewrite at_build by exact I. pose proof (inside_length _ _ I). pose proof (fits_length _ _ F). rewrite !pick_at by congruence. rewrite (pick_self i (sh b)) by exact I. reflexivity.
Qed.
Lemma op_right op a b : fits (sh b) (sh a) -> Forall (fun n => 0 <= n) (sh a) -> exists r, np_op op a b = Some r /\ valued r (sh a) /\
  forall i, inside i (sh a) -> np_at r i = op (np_at a i) (np_at b (pick (sh b) i)).
Proof.
  intros F P. unfold np_op. destruct (bshape_fits _ _ F) as [_ ->]. cbn [obind]. eexists. split; [reflexivity |]. split; [apply build_valued; exact P |].
  intros i I. rewrite at_build by exact I. pose proof (inside_length _ _ I). pose proof (fits_length _ _ F). rewrite !pick_at by congruence. rewrite (pick_self i (sh a)) by exact I. reflexivity.
Qed.
Lemma op_same op a b s : sh a = s -> sh b = s -> Forall (fun n => 0 <= n) s -> exists r, np_op op a b = Some r /\ valued r s /\
  forall i, inside i s -> np_at r i = op (np_at a i) (np_at b i).
Proof.
  intros <- E P. destruct (op_right op a b) as (r & R & V & A); [rewrite E; apply fits_refl | exact P |]. exists r. split; [exact R |]. split; [exact V |].
  intros i I. rewrite A by exact I. rewrite E, pick_self by exact I. reflexivity.
Qed.
Lemma same_shape_refl s : same_shape s s = true.
Proof. unfold same_shape. destruct (list_eq_dec Z.eq_dec s s); congruence. Qed.
Lemma same_shape_eq s t : same_shape s t = true -> s = t.
Proof. unfold same_shape. destruct (list_eq_dec Z.eq_dec s t); [auto | discriminate]. Qed.

(** ** Shapes with one axis *)
Definition unit_index (k n : nat) (c : Z) : list Z := map (fun i => if Nat.eqb i k then c else 0) (seq 0 n).
Lemma inside_map {T} (f g : T -> Z) l : (forall x, In x l -> 0 <= f x < g x) -> inside (map f l) (map g l).
Proof. unfold inside. induction l as [| x l IH]; intros H; cbn [map]; constructor; [apply H; left; reflexivity | apply IH; intros; apply H; right; assumption]. Qed.
Lemma unit_inside k n C c : 0 <= c < C -> inside (unit_index k n c) (stat_shape k n C).
Proof. intros H. apply inside_map. intros i _. destruct (Nat.eqb i k); lia. Qed.
Lemma stat_nonneg k n C : 0 <= C -> Forall (fun n => 0 <= n) (stat_shape k n C).
Proof. intros H. apply Forall_forall. intros m I. apply in_map_iff in I as (i & <- & _). destruct (Nat.eqb i k); lia. Qed.
Lemma unit_map_size k C : forall n st, size (map (fun i => if Nat.eqb i k then C else 1) (seq st n)) = if (st <=? k)%nat && (k <? st + n)%nat then C else 1.
Proof.
  induction n as [| n IH]; intros st; cbn [seq map size].
  - destruct (Nat.leb_spec st k), (Nat.ltb_spec k (st + 0)%nat); cbn [andb]; try reflexivity; lia.
  - rewrite IH. destruct (Nat.eqb_spec st k), (Nat.leb_spec (S st) k), (Nat.ltb_spec k (S st + n)), (Nat.leb_spec st k), (Nat.ltb_spec k (st + S n)); cbn [andb]; lia.
Qed.
Lemma stat_size k n C : (k < n)%nat -> size (stat_shape k n C) = C.
Proof. intros H. unfold stat_shape. rewrite unit_map_size. destruct (Nat.leb_spec 0 k), (Nat.ltb_spec k (0 + n)); cbn [andb]; try lia; reflexivity. Qed.
Lemma unit_map_off k C c : forall n st, off (map (fun i => if Nat.eqb i k then c else 0) (seq st n)) (map (fun i => if Nat.eqb i k then C else 1) (seq st n)) = if (st <=? k)%nat && (k <? st + n)%nat then c else 0.
Proof.
  induction n as [| n IH]; intros st; cbn [seq map off].
  - destruct (Nat.leb_spec st k), (Nat.ltb_spec k (st + 0)%nat); cbn [andb]; try reflexivity; lia.
  - rewrite IH, unit_map_size. destruct (Nat.eqb_spec st k), (Nat.leb_spec (S st) k), (Nat.ltb_spec k (S st + n)), (Nat.leb_spec st k), (Nat.ltb_spec k (st + S n)); cbn [andb]; lia.
Qed.
Lemma unit_at a k n C c : (k < n)%nat -> sh a = stat_shape k n C -> 0 <= c < C -> np_at a (unit_index k n c) = channel a c.
Proof.
  intros H E I. unfold np_at, channel. rewrite ravel_off, E. unfold unit_index, stat_shape. rewrite unit_map_off.
  destruct (Nat.leb_spec 0 k), (Nat.ltb_spec k (0 + n)); cbn [andb]; try lia; reflexivity.
Qed.
Lemma pick_unit k C : forall i st, (C = 1 -> forall j, nth (k - st) i 0 = j -> (st <= k)%nat -> j = 0) ->
  pick (map (fun i => if Nat.eqb i k then C else 1) (seq st (length i))) i = map (fun j => if Nat.eqb j k then nth (k - st) i 0 else 0) (seq st (length i)).
Proof.
  induction i as [| x i IH]; intros st H; cbn [length seq map pick]; [reflexivity |]. f_equal.
  - destruct (Nat.eqb_spec st k) as [-> |]; [| reflexivity]. rewrite Nat.sub_diag in *. cbn [nth] in *. destruct (Z.eqb_spec C 1) as [E |]; [| reflexivity]. symmetry. apply H; auto.
  - rewrite IH.
    + apply map_ext_in. intros j J. apply in_seq in J. destruct (Nat.eqb_spec j k) as [-> |]; [| reflexivity]. replace (k - st)%nat with (S (k - S st)) by lia. reflexivity.
    + intros E j <- L. specialize (H E _ eq_refl). replace (k - st)%nat with (S (k - S st)) in H by lia. cbn [nth] in H. apply H. lia.
Qed.
Lemma pick_stat k n C i : length i = n -> (C = 1 -> nth k i 0 = 0) -> pick (stat_shape k n C) i = unit_index k n (nth k i 0).
Proof.
  intros <- H. unfold stat_shape, unit_index. rewrite pick_unit.
  - rewrite Nat.sub_0_r. reflexivity.
  - intros E j <- _. rewrite Nat.sub_0_r. auto.
Qed.
Lemma fits_stat k C : forall s st, (forall m, (st <= k)%nat -> nth_error s (k - st) = Some m -> m = C) -> fits (map (fun i => if Nat.eqb i k then C else 1) (seq st (length s))) s.
Proof.
  induction s as [| n s IH]; intros st H; cbn [length seq map]; constructor.
  - destruct (Nat.eqb_spec st k) as [-> |]; [left | right; reflexivity]. symmetry. apply H; [lia |]. rewrite Nat.sub_diag. reflexivity.
  - apply IH. intros m L E. apply H; [lia |]. replace (k - st)%nat with (S (k - S st)) by lia. exact E.
Qed.
Lemma stat_fits k s C : nth_error s k = Some C -> fits (stat_shape k (length s) C) s.
Proof. intros E. apply fits_stat. intros m _ E'. rewrite Nat.sub_0_r, E in E'. congruence. Qed.
Lemma stat_nth k n C i : (i < n)%nat -> nth i (stat_shape k n C) 0 = if Nat.eqb i k then C else 1.
Proof. intros H. unfold stat_shape. rewrite (nth_indep _ _ ((fun i => if Nat.eqb i k then C else 1) O)) by (rewrite map_length, seq_length; lia). rewrite (map_nth (fun i => if Nat.eqb i k then C else 1)). rewrite seq_nth by lia. reflexivity. Qed.
Lemma unit_nth k n c i : (i < n)%nat -> nth i (unit_index k n c) 0 = if Nat.eqb i k then c else 0.
Proof. intros H. unfold unit_index. rewrite (nth_indep _ _ ((fun i => if Nat.eqb i k then c else 0) O)) by (rewrite map_length, seq_length; lia). rewrite (map_nth (fun i => if Nat.eqb i k then c else 0)). rewrite seq_nth by lia. reflexivity. Qed.
Lemma stat_length k n C : length (stat_shape k n C) = n.
Proof. unfold stat_shape. rewrite map_length, seq_length. reflexivity. Qed.
(** An index of such an array is the index of a channel. *)
Lemma inside_unit k n C i : (k < n)%nat -> inside i (stat_shape k n C) -> 0 <= nth k i 0 < C /\ i = unit_index k n (nth k i 0).
Proof.
  intros L I. assert (B : forall j, (j < n)%nat -> 0 <= nth j i 0 < nth j (stat_shape k n C) 0).
  { clear L. pose proof (stat_length k n C) as E. revert E I. generalize (stat_shape k n C) as s. intros s <- I. induction I as [| x m i s H F IH]; intros [| j] J; cbn [length nth] in *; try lia. apply IH. lia. }
  pose proof (B k L) as Bk. rewrite stat_nth, Nat.eqb_refl in Bk by exact L. split; [exact Bk |].
  pose proof (inside_length _ _ I) as E. rewrite stat_length in E.
  apply (nth_ext _ _ 0 0); [unfold unit_index; rewrite map_length, seq_length; exact E |]. intros j J. rewrite E in J. rewrite unit_nth by exact J.
  pose proof (B j J) as Bj. rewrite stat_nth in Bj by exact J. destruct (Nat.eqb_spec j k) as [E' |]; [congruence | lia].
Qed.

(** ** Switching axes *)
Definition swap (k i : nat) : nat := if Nat.eqb i 0 then k else if Nat.eqb i k then O else i.
Lemma swap_swap k i : swap k (swap k i) = i.
Proof. unfold swap. destruct (Nat.eqb_spec i 0) as [-> |]; [destruct (Nat.eqb_spec k 0) as [-> |]; [reflexivity | rewrite Nat.eqb_refl; reflexivity] |]. destruct (Nat.eqb_spec i k) as [-> |]; [reflexivity |]. destruct (Nat.eqb_spec i 0); [lia |]. destruct (Nat.eqb_spec i k); [lia | reflexivity]. Qed.
Lemma swap_bound k n i : (k < n)%nat -> (i < n)%nat -> (swap k i < n)%nat.
Proof. unfold swap. destruct (Nat.eqb i 0), (Nat.eqb i k); lia. Qed.
Lemma where_is_swap k m : forall n st, (st <= swap k m < st + n)%nat -> where_is m (map (swap k) (seq st n)) = (swap k m - st)%nat.
Proof.
  induction n as [| n IH]; intros st H; [lia |]. cbn [seq map where_is]. destruct (Nat.eqb_spec (swap k st) m) as [E | N].
  - rewrite <- E, swap_swap. lia.
  - assert (st <> swap k m) by (intros ->; apply N, swap_swap). rewrite IH by lia. lia.
Qed.
Lemma switched_is (channel_last : bool) n : let k := if channel_last then (n - 1)%nat else 1%nat in (k < n)%nat -> switched channel_last n = Some (map (swap k) (seq 0 n)).
Proof. intros k H. unfold switched. fold k. destruct (Nat.ltb_spec k n); [| lia]. reflexivity. Qed.
Lemma transpose_stat k n C a : (k < n)%nat -> 0 <= C -> sh a = stat_shape k n C ->
  let r := np_transpose (map (swap k) (seq 0 n)) a in valued r (stat_shape 0 n C) /\ forall c, 0 <= c < C -> channel r c = channel a c.
Proof.
  intros H PC E r. assert (S : map (fun i => nth i (sh a) 0) (map (swap k) (seq 0 n)) = stat_shape 0 n C).
  { rewrite map_map, E. apply map_ext_in. intros i J. apply in_seq in J. rewrite stat_nth by (apply swap_bound; lia). unfold swap.
    destruct (Nat.eqb_spec i 0) as [-> |]; [rewrite Nat.eqb_refl; reflexivity |]. destruct (Nat.eqb_spec i k) as [-> |]; [destruct (Nat.eqb_spec 0 k); [lia | reflexivity] |]. destruct (Nat.eqb_spec i k); [lia | reflexivity]. }
  split; [unfold r, np_transpose; rewrite S; apply build_valued, stat_nonneg; exact PC |]. intros c I.
  assert (V : sh r = stat_shape 0 n C) by (unfold r, np_transpose; rewrite S; reflexivity).
  rewrite <- (unit_at r 0 n C c), <- (unit_at a k n C c) by (assumption || lia). unfold r, np_transpose. rewrite S, at_build by (apply unit_inside; exact I). f_equal.
  rewrite E, stat_length. unfold unit_index at 2. apply map_ext_in. intros i J. apply in_seq in J. rewrite where_is_swap by (pose proof (swap_bound k n i H ltac:(lia)); lia).
  rewrite Nat.sub_0_r, unit_nth by (apply swap_bound; lia). unfold swap. destruct (Nat.eqb_spec i 0) as [-> |]; [destruct (Nat.eqb_spec k 0) as [-> |]; [reflexivity |]; destruct (Nat.eqb_spec 0 k); [lia | reflexivity] |].
  destruct (Nat.eqb_spec i k) as [-> |]; [reflexivity |]. destruct (Nat.eqb_spec i 0); [lia | reflexivity].
Qed.
