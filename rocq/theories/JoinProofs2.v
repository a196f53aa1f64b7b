(** Concatenating, stacking and splitting arrays with axes. *)
From Coq Require Import List ZArith Lia Bool.
From Verif Require Import NdModel NdSpec NdProofs IdxModel IdxSpec IdxProofs1 IdxProofs2 IdxProofs3 IdxProofs6 JoinModel JoinSpec JoinProofs.
Import ListNotations.
Local Open Scope list_scope.
Local Open Scope Z_scope.

Lemma size_from_0 s : size_from s 0 = size s. Proof. apply prod_size. Qed.
Lemma size_from_app A s : size_from (A ++ s) (length A) = size s.
Proof. unfold size_from. rewrite rest_of. apply prod_size. Qed.
Lemma divide_mul a b : b <> 0 -> divide (a * b) b = Some a.
Proof. intros H. unfold divide. destruct (Z.eqb_spec b 0); [lia|]. rewrite Z.quot_mul by auto. auto. Qed.
Lemma refine_denotes axis k n : denotes axis k n -> (k < n)%nat -> refine_axis n axis = Some (Z.of_nat k).
Proof.
  unfold denotes, refine_axis. intros H K.
  destruct (Z.ltb_spec axis (Z.of_nat n)), (Z.leb_spec (- Z.of_nat n) axis), (Z.ltb_spec axis 0); cbn [andb]; try lia; f_equal; lia.
Qed.
Lemma others_same ax : forall first s j, (forall i, (i < length first)%nat -> (j + i)%nat <> ax -> nth_error s (j + i) = nth_error first i) ->
  others_agree j ax first s = Some true.
Proof.
  induction first as [|n first IH]; intros s j H; cbn [others_agree]; [auto|].
  rewrite IH; cbn [obind].
  - destruct (Nat.eqb_spec j ax) as [|N]; [auto|]. specialize (H 0%nat). rewrite Nat.add_0_r in H. rewrite H by (cbn; lia). cbn. rewrite Z.eqb_refl. auto.
  - intros i Hi Ni. specialize (H (S i)). cbn [nth_error length] in H. rewrite <- H by lia. f_equal. lia.
Qed.
Lemma nth_error_mid (A B : list Z) m n i : i <> length A -> nth_error (A ++ n :: B) i = nth_error (A ++ m :: B) i.
Proof.
  intros H. destruct (Nat.ltb_spec i (length A)); [rewrite !nth_error_app1 by auto; auto|].
  rewrite !nth_error_app2 by auto. destruct (i - length A)%nat eqn:E; [lia|reflexivity].
Qed.
Lemma nth_error_at {T} (A B : list T) n : nth_error (A ++ n :: B) (length A) = Some n.
Proof. rewrite nth_error_app2, Nat.sub_diag by auto. reflexivity. Qed.
Lemma nth_at {T} (A B : list T) n d : nth (length A) (A ++ n :: B) d = n.
Proof. rewrite app_nth2, Nat.sub_diag by auto. reflexivity. Qed.
Lemma set_nth_at (A B : list Z) n v : set_nth (A ++ n :: B) (length A) v = A ++ v :: B.
Proof. induction A as [|a A IH]; cbn [app set_nth length]; [auto|]. f_equal. auto. Qed.
Lemma cat_shape_ok A B ns : forall m, cat_shape (length A) (A ++ m :: B) (map (fun n => A ++ n :: B) ns) = Some (A ++ (m + sum ns) :: B).
Proof.
  induction ns as [|n ns IH]; intros m; cbn [map cat_shape sum fold_right]; [rewrite Z.add_0_r; auto|].
  destruct (A ++ n :: B) as [|h t] eqn:E; [destruct A; discriminate|]. rewrite <- E.
  rewrite nth_error_at. cbn [obind]. rewrite nth_at, set_nth_at. rewrite others_same; cbn [obind].
  - rewrite IH, <- Z.add_assoc. reflexivity.
  - intros i _ H. rewrite Nat.add_0_l in *. apply nth_error_mid. auto.
Qed.
Lemma off_mid p A k r n B : inside p A -> inside (k :: r) (n :: B) ->
  off (p ++ k :: r) (A ++ n :: B) = off p A * (n * size B) + (k * size B + off r B).
Proof. intros Hp Hr. rewrite (off_app p A Hp (k :: r) (n :: B) Hr). reflexivity. Qed.
Lemma kr_bound k n r B : 0 <= k < n -> inside r B -> 0 <= k * size B + off r B < n * size B.
Proof. intros H Hr. pose proof (off_bound r B Hr). nia. Qed.
Lemma arrays_nth shapes xs : arrays shapes xs -> forall c x, nth_error xs c = Some x -> exists s, nth_error shapes c = Some s /\ len x = size s.
Proof.
  unfold arrays, len. induction 1 as [|s x shapes xs E F IH]; intros [|c] y H; cbn [nth_error] in *; try discriminate; [|auto].
  inversion H; subst. eauto.
Qed.
Lemma arrays_length shapes xs : arrays shapes xs -> length shapes = length xs.
Proof. induction 1; cbn; auto. Qed.
Lemma elem_ext s a b : nonneg s -> Z.of_nat (length a) = size s -> length b = length a -> (forall idx, inside idx s -> elem a s idx = elem b s idx) -> a = b.
Proof.
  intros P La Lb H. apply at_ext; [auto|]. intros j Hj. unfold len in Hj. rewrite La in Hj.
  destruct (off_onto s j P Hj) as (idx & I & O). specialize (H idx I). rewrite !elem_at, O in H by auto. auto.
Qed.

Section cat.
Variables A B : list Z.
Hypothesis PA : nonneg A.
Hypothesis PB : positive B.
Notation sh n := (A ++ n :: B).

Lemma cat_setup_ok axis n ns : denotes axis (length A) (length (sh n)) -> 0 < n -> Forall (fun m => 0 <= m) ns ->
  cat_setup axis (map (fun m => sh m) (n :: ns)) = Some (length A, sh (sum (n :: ns)), size A, sum (n :: ns) * size B).
Proof.
  intros D Hn Hns. unfold cat_setup. cbn [map]. rewrite (refine_denotes _ _ _ D) by (rewrite app_length; cbn; lia). cbn [obind].
  rewrite Nat2Z.id, cat_shape_ok. cbn [obind]. rewrite size_from_0, size_from_app, size_app. cbn [size].
  pose proof (size_pos B PB). rewrite divide_mul by nia. cbn [obind]. do 2 f_equal.
  assert (G : forall l t, fold_left (fun t s => t + size_from s (length A)) (map (fun m => sh m) l) t = t + sum l * size B).
  { clear. induction l as [|m l IH]; intros t; cbn [map fold_left sum fold_right]; [lia|]. rewrite IH, size_from_app. cbn [size]. fold (sum l). ring. }
  exact (G (n :: ns) 0).
Qed.
Lemma cat_sizes ns : map (fun s => size_from s (length A)) (map (fun m => sh m) ns) = map (fun m => m * size B) ns.
Proof. rewrite map_map. apply map_ext. intros m. rewrite size_from_app. reflexivity. Qed.
Lemma nth_combine {T U} (a : list T) (b : list U) c x y : nth_error a c = Some x -> nth_error b c = Some y -> nth_error (combine a b) c = Some (x, y).
Proof. revert b c. induction a as [|h a IH]; intros [|g b] [|c]; cbn; try discriminate; [congruence|auto]. Qed.
Lemma total_combine {T : Type} ns (xs : list (list Z)) c : length xs = length ns ->
  total_of (firstn c (combine (map (fun m => m * size B) ns) xs)) = sum (firstn c ns) * size B.
Proof.
  revert xs c. induction ns as [|n ns IH]; intros [|x xs] [|c] L; cbn in L; try discriminate; cbn [map combine firstn total_of fold_right sum fst]; try lia.
  fold (total_of (firstn c (combine (map (fun m => m * size B) ns) xs))). rewrite IH by lia. fold (sum (firstn c ns)). ring.
Qed.
Lemma firstn_sum ns : forall c n, Forall (fun m => 0 <= m) ns -> nth_error ns c = Some n -> 0 <= sum (firstn c ns) /\ sum (firstn c ns) + n <= sum ns.
Proof.
  induction ns as [|m ns IH]; intros [|c] n F N; cbn [nth_error] in N; try discriminate; inversion F; subst; cbn [firstn sum fold_right].
  - inversion N; subst. assert (0 <= sum ns). { clear - H2. induction H2 as [|a l]; cbn [sum fold_right]; [lia|]. fold (sum l). lia. } fold (sum ns). lia.
  - fold (sum ns). fold (sum (firstn c ns)). destruct (IH c n); auto. lia.
Qed.
Lemma arrays_map ns xs : arrays (map (fun m => sh m) ns) xs -> length xs = length ns /\
  Forall (fun p => 0 <= fst p /\ size A * fst p <= len (snd p)) (combine (map (fun m => m * size B) ns) xs) \/ Exists (fun m => m < 0) ns.
Proof.
  revert xs. induction ns as [|n ns IH]; intros xs H; inversion H as [|? x ? xs' E F]; subst; cbn [map combine].
  - left. split; [auto|constructor].
  - destruct (Z.ltb_spec n 0); [right; constructor; auto|]. destruct (IH xs' F) as [(L & G)|G]; [left|right; right; auto].
    split; [cbn; auto|]. constructor; [|auto]. cbn [fst snd]. pose proof (size_pos B PB). split; [nia|].
    rewrite size_app in E. cbn [size] in E. unfold len. lia.
Qed.
Lemma arrays_ok ns xs : Forall (fun m => 0 <= m) ns -> arrays (map (fun m => sh m) ns) xs -> length xs = length ns /\
  Forall (fun p => 0 <= fst p /\ size A * fst p <= len (snd p)) (combine (map (fun m => m * size B) ns) xs).
Proof.
  intros F H. destruct (arrays_map ns xs H) as [G|G]; [auto|]. exfalso. apply Exists_exists in G. destruct G as (m & I & L).
  pose proof (proj1 (Forall_forall _ _) F m I). cbn in *. lia.
Qed.
Lemma cat_copy_join outer total l : forall off y, cat_copy outer total off l y = join false outer total off l y.
Proof.
  induction l as [|[i x] l IH]; intros off y; cbn [cat_copy join]; [auto|]. rewrite copy_acc.
  destruct (acc_loop false _ x y); cbn [obind]; auto.
Qed.

Theorem cat_forward_ok axis ns xs y0 : denotes axis (length A) (length (sh 0)) -> 0 < hd 0 ns -> Forall (fun m => 0 <= m) ns ->
  arrays (map (fun m => sh m) ns) xs -> Z.of_nat (length y0) = size (sh (sum ns)) ->
  exists y, cat_forward axis (map (fun m => sh m) ns) xs y0 = Some y /\ length y = length y0 /\
    forall c n x, nth_error ns c = Some n -> nth_error xs c = Some x ->
    forall p k r, inside p A -> 0 <= k < n -> inside r B ->
      elem y (sh (sum ns)) (p ++ (sum (firstn c ns) + k) :: r) = elem x (sh n) (p ++ k :: r).
Proof.
  intros D Hn F HX Ly. destruct ns as [|n0 ns]; [cbn in Hn; lia|]. cbn [hd] in Hn. unfold cat_forward.
  rewrite cat_setup_ok; [|rewrite app_length in *; exact D|auto|inversion F; auto]. cbn [obind].
  set (NS := n0 :: ns) in *. rewrite cat_sizes, cat_copy_join. destruct (arrays_ok NS xs F HX) as (L & G).
  pose proof (size_pos B PB) as SB. pose proof (size_nonneg A PA) as SA.
  set (l := combine (map (fun m => m * size B) NS) xs) in *.
  assert (T : total_of l = sum NS * size B).
  { pose proof (@total_combine Z NS xs (length l) L) as E. fold l in E. rewrite firstn_all in E.
    rewrite E. f_equal. f_equal. apply firstn_all2. unfold l. rewrite combine_length, map_length. lia. }
  assert (Ly' : len y0 = size A * (sum NS * size B)) by (unfold len; rewrite Ly, size_app; reflexivity).
  destruct (join_ok false (size A) (sum NS * size B) l 0 y0) as (y & E & Ly2 & _ & I); try lia; auto.
  exists y. split; [auto|]. split; [auto|]. intros c n x Nc Xc p k r Hp Hk Hr.
  assert (Nl : nth_error l c = Some (n * size B, x)) by (apply nth_combine; [apply (map_nth_error (fun m => m * size B)); auto|auto]).
  destruct (firstn_sum NS c n F Nc) as (S0 & S1).
  assert (Hy : inside (p ++ (sum (firstn c NS) + k) :: r) (sh (sum NS))) by (apply inside_app; [auto|constructor; [lia|auto]]).
  assert (Hx : inside (p ++ k :: r) (sh n)) by (apply inside_app; [auto|constructor; [lia|auto]]).
  rewrite !elem_at by auto. rewrite !off_mid by (auto; constructor; auto; lia).
  specialize (I c _ _ Nl (off p A) (k * size B + off r B) (off_bound p A Hp) (kr_bound k n r B Hk Hr)).
  unfold l in I. rewrite (@total_combine Z) in I by auto. cbn [kept] in I.
  replace (off p A * (sum NS * size B) + ((sum (firstn c NS) + k) * size B + off r B)) with
    (off p A * (sum NS * size B) + (0 + sum (firstn c NS) * size B) + (k * size B + off r B)) by ring. rewrite I. apply Z.add_0_l.
Qed.

Lemma fold_combine {T : Type} ns (xs : list T) c : length xs = length ns ->
  fold_right (fun p t => fst p + t) 0 (firstn c (combine (map (fun m => m * size B) ns) xs)) = sum (firstn c ns) * size B.
Proof.
  revert xs c. induction ns as [|n ns IH]; intros [|x xs] [|c] L; cbn in L; try discriminate; cbn [map combine firstn fold_right sum fst]; try lia.
  rewrite IH by lia. fold (sum (firstn c ns)). ring.
Qed.
Theorem cat_backward_ok axis ns dy dxs : denotes axis (length A) (length (sh 0)) -> 0 < hd 0 ns -> Forall (fun m => 0 <= m) ns ->
  Z.of_nat (length dy) = size (sh (sum ns)) -> arrays (map (fun m => sh m) ns) (map snd dxs) ->
  exists rs, cat_backward axis (map (fun m => sh m) ns) dy dxs = Some rs /\ length rs = length dxs /\
    forall c n prop accum dx, nth_error ns c = Some n -> nth_error dxs c = Some (prop, accum, dx) ->
    exists r, nth_error rs c = Some r /\ length r = length dx /\ (prop = false -> r = dx) /\
    (prop = true -> forall p k q, inside p A -> 0 <= k < n -> inside q B ->
       elem r (sh n) (p ++ k :: q) = before accum (elem dx (sh n) (p ++ k :: q)) + elem dy (sh (sum ns)) (p ++ (sum (firstn c ns) + k) :: q)).
Proof.
  intros D Hn F Ly HX. destruct ns as [|n0 ns]; [cbn in Hn; lia|]. cbn [hd] in Hn. unfold cat_backward.
  rewrite cat_setup_ok; [|rewrite app_length in *; exact D|auto|inversion F; auto]. cbn [obind].
  set (NS := n0 :: ns) in *. rewrite cat_sizes. destruct (arrays_ok NS (map snd dxs) F HX) as (L & G). rewrite map_length in L.
  pose proof (size_pos B PB) as SB. pose proof (size_nonneg A PA) as SA.
  assert (Ly' : len dy = size A * (sum NS * size B)) by (unfold len; rewrite Ly, size_app; reflexivity).
  set (l := combine (map (fun m => m * size B) NS) dxs) in *.
  assert (T : fold_right (fun p t => fst p + t) 0 l = sum NS * size B).
  { pose proof (fold_combine NS dxs (length l) L) as E. fold l in E. rewrite firstn_all in E.
    rewrite E. f_equal. f_equal. apply firstn_all2. unfold l. rewrite combine_length, map_length. lia. }
  assert (G' : Forall (fun p => 0 <= fst p /\ size A * fst p <= len (snd (snd p))) l).
  { unfold l. clear - G. revert dxs G. induction NS as [|m NS IH]; intros [|[[p a] d] dxs] G; cbn [map combine] in *; try constructor; inversion G; subst; auto. }
  destruct (cat_back_ok (size A) (sum NS * size B) dy SA ltac:(lia) l 0 ltac:(lia) ltac:(lia) G') as (rs & E & Lr & I).
  exists rs. split; [auto|]. split; [rewrite Lr; unfold l; rewrite combine_length, map_length; lia|].
  intros c n prop accum dx Nc Xc.
  assert (Nl : nth_error l c = Some (n * size B, (prop, accum, dx))) by (apply nth_combine; [apply (map_nth_error (fun m => m * size B)); auto|auto]).
  destruct (I c _ _ _ _ Nl) as (r & Nr & Lr' & P0 & P1). exists r. split; [auto|]. split; [auto|]. split; [auto|].
  intros -> p k q Hp Hk Hq. destruct (firstn_sum NS c n F Nc) as (S0 & S1).
  assert (Hy : inside (p ++ (sum (firstn c NS) + k) :: q) (sh (sum NS))) by (apply inside_app; [auto|constructor; [lia|auto]]).
  assert (Hx : inside (p ++ k :: q) (sh n)) by (apply inside_app; [auto|constructor; [lia|auto]]).
  rewrite !elem_at by auto. rewrite !off_mid by (auto; constructor; auto; lia).
  specialize (P1 eq_refl (off p A) (k * size B + off q B) (off_bound p A Hp) (kr_bound k n q B Hk Hq)).
  unfold l in P1. rewrite fold_combine in P1 by auto.
  replace (off p A * (sum NS * size B) + ((sum (firstn c NS) + k) * size B + off q B)) with
    (off p A * (sum NS * size B) + (0 + sum (firstn c NS) * size B) + (k * size B + off q B)) by ring. exact P1.
Qed.
End cat.

(** ** Stacking and splitting *)
Lemma stack_copy_join num outer inner xs : forall i0 y, stack_copy num outer inner i0 xs y = join false outer (inner * num) (i0 * inner) (map (fun x => (inner, x)) xs) y.
Proof.
  induction xs as [|x xs IH]; intros i0 y; cbn [stack_copy map join]; [auto|]. rewrite copy_acc.
  destruct (acc_loop false _ x y); cbn [obind]; [|auto]. rewrite IH. f_equal. ring.
Qed.
Lemma split_back_join num outer inner accum xs : forall i0 y, split_back num outer inner i0 accum xs y = join accum outer (inner * num) (i0 * inner) (map (fun x => (inner, x)) xs) y.
Proof.
  induction xs as [|x xs IH]; intros i0 y; cbn [split_back map join]; [auto|].
  destruct (acc_loop accum _ x y); cbn [obind]; [|auto]. rewrite IH. f_equal. ring.
Qed.
Lemma stack_back_cat num outer inner dy l : forall i0, stack_back num outer inner i0 dy l = cat_back outer (inner * num) (i0 * inner) dy (map (fun x => (inner, x)) l).
Proof.
  induction l as [|[[p a] d] l IH]; intros i0; cbn [stack_back map cat_back]; [auto|]. rewrite IH. replace ((i0 + 1) * inner) with (i0 * inner + inner) by ring. auto.
Qed.
Lemma split_copy_cat num outer inner dy l : forall i0, split_copy num outer inner i0 dy l = cat_back outer (inner * num) (i0 * inner) dy (map (fun x => (inner, (true, false, x))) l).
Proof.
  induction l as [|d l IH]; intros i0; cbn [split_copy map cat_back]; [auto|]. rewrite IH. replace ((i0 + 1) * inner) with (i0 * inner + inner) by ring. auto.
Qed.
Lemma total_const {T : Type} inner (g : T -> list Z) (xs : list T) c : (c <= length xs)%nat -> total_of (firstn c (map (fun x => (inner, g x)) xs)) = Z.of_nat c * inner.
Proof.
  revert c. induction xs as [|x xs IH]; intros [|c] L; cbn [length] in L; cbn [map firstn total_of fold_right fst]; try lia.
  fold (total_of (firstn c (map (fun x => (inner, g x)) xs))). rewrite IH by lia. lia.
Qed.
Lemma fold_const {T U : Type} inner (g : T -> U) (xs : list T) c : (c <= length xs)%nat ->
  fold_right (fun p t => fst p + t) 0 (firstn c (map (fun x => (inner, g x)) xs)) = Z.of_nat c * inner.
Proof.
  revert c. induction xs as [|x xs IH]; intros [|c] L; cbn [length] in L; cbn [map firstn fold_right fst]; try lia.
  rewrite IH by lia. lia.
Qed.

Lemma skipn_mid (A B : list Z) n : skipn (S (length A)) (A ++ n :: B) = B.
Proof. induction A as [|a A IH]; [reflexivity|]. exact IH. Qed.

Section stack.
Variables A B : list Z.
Hypothesis PA : nonneg A.
Hypothesis PB : positive B.
Notation sh n := (A ++ n :: B).

Lemma stack_setup_ok axis num : denotes axis (length A) (S (length (A ++ B))) -> (0 < num)%nat ->
  stack_setup axis (repeat (A ++ B) num) = Some (sh (Z.of_nat num), size A, size B).
Proof.
  intros D Hn. destruct num as [|num]; [lia|]. cbn [repeat stack_setup].
  assert (E : (if axis <? 0 then axis + (Z.of_nat (length (A ++ B)) + 1) else axis) = Z.of_nat (length A)).
  { unfold denotes in D. rewrite app_length in *. destruct (Z.ltb_spec axis 0); lia. }
  rewrite E. destruct (Z.ltb_spec (Z.of_nat (length A)) 0); [lia|]. destruct (Z.ltb_spec (Z.of_nat (length (A ++ B))) (Z.of_nat (length A))) as [C|C]; [rewrite app_length in C; lia|].
  assert (R : forallb (fun s => if list_eq_dec Z.eq_dec s (A ++ B) then true else false) (repeat (A ++ B) num) = true).
  { apply forallb_forall. intros s Hs. apply repeat_spec in Hs. subst. destruct (list_eq_dec Z.eq_dec (A ++ B) (A ++ B)); auto. }
  rewrite R. cbn [negb]. rewrite Nat2Z.id, size_from_0, size_from_app, size_app. pose proof (size_pos B PB).
  rewrite divide_mul by lia. cbn [obind length]. rewrite first_of, rest_of, repeat_length. reflexivity.
Qed.
Lemma split_setup_ok axis num : denotes axis (length A) (length (sh 0)) -> (0 < num)%nat ->
  split_setup axis (sh (Z.of_nat num)) num = Some (A ++ B, Z.of_nat num, size A, size B).
Proof.
  intros D Hn. unfold split_setup.
  assert (LS : Z.of_nat (length (sh (Z.of_nat num))) = Z.of_nat (length A) + Z.of_nat (length B) + 1) by (rewrite app_length; cbn [length]; lia).
  assert (E : (if axis <? 0 then axis + Z.of_nat (length (sh (Z.of_nat num))) else axis) = Z.of_nat (length A)).
  { unfold denotes in D. rewrite app_length in *. cbn [length] in *. destruct (Z.ltb_spec axis 0); lia. }
  rewrite E, LS. destruct (Z.ltb_spec (Z.of_nat (length A)) 0); [lia|]. destruct (Z.leb_spec (Z.of_nat (length A) + Z.of_nat (length B) + 1) (Z.of_nat (length A))); [lia|].
  rewrite Nat2Z.id, nth_at, Z.eqb_refl. cbn [negb]. rewrite first_of.
  replace (skipn (S (length A)) (sh (Z.of_nat num))) with B by (symmetry; apply skipn_mid).
  pose proof (size_pos B PB). rewrite !size_from_0, size_from_app, !size_app. rewrite divide_mul by lia.
  destruct num as [|num]; [lia|]. destruct (Z.eqb_spec (size B) 0); [lia|]. cbn [obind size].
  destruct (Z.eqb_spec (size B * Z.of_nat (S num) * size A) (size A * (Z.of_nat (S num) * size B))); [reflexivity|lia].
Qed.
Lemma alike_arrays num xs : arrays (repeat (A ++ B) num) xs -> length xs = num /\ Forall (fun x => len x = size A * size B) xs.
Proof.
  revert xs. induction num as [|num IH]; intros xs H; inversion H as [|? x ? xs' E F]; subst; [split; [auto|constructor]|].
  destruct (IH xs' F). split; [cbn; auto|]. constructor; [|auto]. unfold len. rewrite E, size_app. auto.
Qed.
Lemma pos_mid num c p r : inside p A -> inside r B -> 0 <= c < num ->
  off (p ++ c :: r) (sh num) = off p A * (size B * num) + (0 + c * size B) + off r B /\ off (p ++ r) (A ++ B) = off p A * size B + off r B.
Proof. intros Hp Hr Hc. rewrite off_mid by (auto; constructor; auto). rewrite (off_app p A Hp r B Hr). split; ring. Qed.

Lemma join_stack accum num xs y0 : (0 < num)%nat -> arrays (repeat (A ++ B) num) xs -> Z.of_nat (length y0) = size (sh (Z.of_nat num)) ->
  exists y, join accum (size A) (size B * Z.of_nat num) (0 * size B) (map (fun x => (size B, x)) xs) y0 = Some y /\ length y = length y0 /\
    forall c x, nth_error xs c = Some x -> forall p r, inside p A -> inside r B ->
      elem y (sh (Z.of_nat num)) (p ++ Z.of_nat c :: r) = before accum (elem y0 (sh (Z.of_nat num)) (p ++ Z.of_nat c :: r)) + elem x (A ++ B) (p ++ r).
Proof.
  intros Hn HX Ly. destruct (alike_arrays num xs HX) as (L & G). pose proof (size_pos B PB) as SB. pose proof (size_nonneg A PA) as SA.
  assert (Ly' : len y0 = size A * (size B * Z.of_nat num)) by (unfold len; rewrite Ly, size_app; cbn [size]; ring).
  pose proof (total_const (size B) (fun x : list Z => x) xs (length xs) ltac:(lia)) as T. rewrite firstn_all2 in T by (rewrite map_length; lia).
  destruct (join_ok accum (size A) (size B * Z.of_nat num) (map (fun x => (size B, x)) xs) 0 y0) as (y & E & Ly2 & _ & I); try lia.
  { apply Forall_map. eapply Forall_impl; [|exact G]. cbn. lia. }
  exists y. split; [exact E|]. split; [auto|]. intros c x Xc p r Hp Hr.
  assert (Hc : (c < num)%nat) by (rewrite <- L; apply nth_error_Some; congruence).
  assert (Nl : nth_error (map (fun x => (size B, x)) xs) c = Some (size B, x)) by (apply (map_nth_error (fun x => (size B, x))); auto).
  specialize (I c _ _ Nl (off p A) (off r B) (off_bound p A Hp) (off_bound r B Hr)).
  rewrite (total_const (size B) (fun x : list Z => x)) in I by lia.
  assert (Hy : inside (p ++ Z.of_nat c :: r) (sh (Z.of_nat num))) by (apply inside_app; [auto|constructor; [lia|auto]]).
  rewrite !elem_at by (auto; apply inside_app; auto). destruct (pos_mid (Z.of_nat num) (Z.of_nat c) p r Hp Hr) as (O1 & O2); [lia|].
  rewrite O1, O2. exact I.
Qed.
Lemma take_stack num dy dxs : (0 < num)%nat -> arrays (repeat (A ++ B) num) (map snd dxs) -> Z.of_nat (length dy) = size (sh (Z.of_nat num)) ->
  exists rs, cat_back (size A) (size B * Z.of_nat num) (0 * size B) dy (map (fun x => (size B, x)) dxs) = Some rs /\ length rs = length dxs /\
    forall c prop accum dx, nth_error dxs c = Some (prop, accum, dx) -> exists r, nth_error rs c = Some r /\ length r = length dx /\ (prop = false -> r = dx) /\
    (prop = true -> forall p q, inside p A -> inside q B ->
      elem r (A ++ B) (p ++ q) = before accum (elem dx (A ++ B) (p ++ q)) + elem dy (sh (Z.of_nat num)) (p ++ Z.of_nat c :: q)).
Proof.
  intros Hn HX Ly. destruct (alike_arrays num (map snd dxs) HX) as (L & G). rewrite map_length in L.
  pose proof (size_pos B PB) as SB. pose proof (size_nonneg A PA) as SA.
  assert (Ly' : len dy = size A * (size B * Z.of_nat num)) by (unfold len; rewrite Ly, size_app; cbn [size]; ring).
  pose proof (fold_const (size B) (fun x : bool * bool * list Z => x) dxs (length dxs) ltac:(lia)) as T. rewrite firstn_all2 in T by (rewrite map_length; lia).
  destruct (cat_back_ok (size A) (size B * Z.of_nat num) dy SA ltac:(lia) (map (fun x => (size B, x)) dxs) 0 ltac:(lia) ltac:(lia)) as (rs & E & Lr & I).
  { apply Forall_map. apply (proj1 (Forall_map _ _ _)) in G. eapply Forall_impl; [|exact G]. cbn. lia. }
  exists rs. split; [exact E|]. split; [rewrite Lr, map_length; auto|]. intros c prop accum dx Xc.
  assert (Hc : (c < num)%nat) by (rewrite <- L; apply nth_error_Some; congruence).
  assert (Nl : nth_error (map (fun x => (size B, x)) dxs) c = Some (size B, (prop, accum, dx))) by (apply (map_nth_error (fun x => (size B, x))); auto).
  destruct (I c _ _ _ _ Nl) as (r & Nr & Lr' & P0 & P1). exists r. split; [auto|]. split; [auto|]. split; [auto|].
  intros -> p q Hp Hq. specialize (P1 eq_refl (off p A) (off q B) (off_bound p A Hp) (off_bound q B Hq)).
  rewrite (fold_const (size B) (fun x : bool * bool * list Z => x)) in P1 by lia.
  assert (Hy : inside (p ++ Z.of_nat c :: q) (sh (Z.of_nat num))) by (apply inside_app; [auto|constructor; [lia|auto]]).
  rewrite !elem_at by (auto; apply inside_app; auto). destruct (pos_mid (Z.of_nat num) (Z.of_nat c) p q Hp Hq) as (O1 & O2); [lia|].
  rewrite O1, O2. exact P1.
Qed.

Theorem stack_forward_ok axis num xs y0 : denotes axis (length A) (S (length (A ++ B))) -> (0 < num)%nat ->
  arrays (repeat (A ++ B) num) xs -> Z.of_nat (length y0) = size (sh (Z.of_nat num)) ->
  exists y, stack_forward axis (repeat (A ++ B) num) xs y0 = Some y /\ length y = length y0 /\
    forall c x, nth_error xs c = Some x -> forall p r, inside p A -> inside r B ->
      elem y (sh (Z.of_nat num)) (p ++ Z.of_nat c :: r) = elem x (A ++ B) (p ++ r).
Proof.
  intros D Hn HX Ly. unfold stack_forward. rewrite stack_setup_ok by auto. cbn [obind]. rewrite repeat_length, stack_copy_join.
  destruct (join_stack false num xs y0 Hn HX Ly) as (y & E & L & I). exists y. split; [auto|]. split; [auto|].
  intros c x Hc p r Hp Hr. rewrite (I c x Hc p r Hp Hr). apply Z.add_0_l.
Qed.
Theorem stack_backward_ok axis num dy dxs : denotes axis (length A) (S (length (A ++ B))) -> (0 < num)%nat ->
  arrays (repeat (A ++ B) num) (map snd dxs) -> Z.of_nat (length dy) = size (sh (Z.of_nat num)) ->
  exists rs, stack_backward axis (repeat (A ++ B) num) dy dxs = Some rs /\ length rs = length dxs /\
    forall c prop accum dx, nth_error dxs c = Some (prop, accum, dx) -> exists r, nth_error rs c = Some r /\ length r = length dx /\ (prop = false -> r = dx) /\
    (prop = true -> forall p q, inside p A -> inside q B ->
      elem r (A ++ B) (p ++ q) = before accum (elem dx (A ++ B) (p ++ q)) + elem dy (sh (Z.of_nat num)) (p ++ Z.of_nat c :: q)).
Proof.
  intros D Hn HX Ly. unfold stack_backward. rewrite stack_setup_ok by auto. cbn [obind]. rewrite repeat_length, stack_back_cat.
  apply take_stack; auto.
Qed.
Theorem split_forward_ok axis num x ys0 : denotes axis (length A) (length (sh 0)) -> (0 < num)%nat ->
  Z.of_nat (length x) = size (sh (Z.of_nat num)) -> arrays (repeat (A ++ B) num) ys0 ->
  exists ys, split_forward axis (sh (Z.of_nat num)) x ys0 = Some ys /\ arrays (repeat (A ++ B) num) ys /\
    forall c y, nth_error ys c = Some y -> forall p r, inside p A -> inside r B ->
      elem y (A ++ B) (p ++ r) = elem x (sh (Z.of_nat num)) (p ++ Z.of_nat c :: r).
Proof.
  intros D Hn Lx HY. destruct (alike_arrays num ys0 HY) as (L & G). unfold split_forward. rewrite L, split_setup_ok by auto. cbn [obind].
  rewrite split_copy_cat. replace (map (fun x0 => (size B, (true, false, x0))) ys0) with (map (fun x0 => (size B, x0)) (map (fun y => (true, false, y)) ys0)) by (rewrite map_map; auto).
  destruct (take_stack num x (map (fun y => (true, false, y)) ys0) Hn) as (rs & E & Lr & I); auto.
  { rewrite map_map. cbn [snd]. rewrite map_id. auto. }
  rewrite map_length in Lr. exists rs. split; [exact E|].
  assert (X : forall c y, nth_error rs c = Some y -> exists y0, nth_error ys0 c = Some y0 /\ length y = length y0 /\
     forall p r, inside p A -> inside r B -> elem y (A ++ B) (p ++ r) = elem x (sh (Z.of_nat num)) (p ++ Z.of_nat c :: r)).
  { intros c y Hc. assert (Hl : (c < length ys0)%nat) by (rewrite <- Lr; apply nth_error_Some; congruence).
    destruct (nth_error ys0 c) as [y0|] eqn:E0; [|apply nth_error_Some in Hl; tauto]. exists y0. split; [auto|].
    assert (E1 : nth_error (map (fun y => (true, false, y)) ys0) c = Some (true, false, y0)) by (apply (map_nth_error (fun y => (true, false, y))); auto).
    destruct (I c _ _ _ E1) as (r & Nr & Lr' & _ & P). assert (r = y) by congruence. subst r. split; [auto|].
    intros p r Hp Hr. rewrite (P eq_refl p r Hp Hr). apply Z.add_0_l. }
  split.
  - assert (X' : forall c y, nth_error rs c = Some y -> exists y0, nth_error ys0 c = Some y0 /\ length y = length y0).
    { intros c y Hc. destruct (X c y Hc) as (y0 & H1 & H2 & _). eauto. }
    clear - X' Lr L G. rename X' into X. unfold arrays. subst num. revert rs Lr X. induction G as [|y0 ys0 E G IH]; intros [|y rs] Lr X; cbn [length] in Lr; try discriminate; cbn [repeat length]; constructor.
    + destruct (X 0%nat y eq_refl) as (y' & E' & L'). cbn in E'. inversion E'; subst. rewrite L', size_app. exact E.
    + apply IH; [lia|]. intros c z Hz. apply (X (S c) z). exact Hz.
  - intros c y Hc. destruct (X c y Hc) as (y0 & _ & _ & P). exact P.
Qed.
Theorem split_backward_ok axis num accum dys dx0 : denotes axis (length A) (length (sh 0)) -> (0 < num)%nat ->
  arrays (repeat (A ++ B) num) dys -> Z.of_nat (length dx0) = size (sh (Z.of_nat num)) ->
  exists dx, split_backward axis (sh (Z.of_nat num)) accum dys dx0 = Some dx /\ length dx = length dx0 /\
    forall c dy, nth_error dys c = Some dy -> forall p r, inside p A -> inside r B ->
      elem dx (sh (Z.of_nat num)) (p ++ Z.of_nat c :: r) = before accum (elem dx0 (sh (Z.of_nat num)) (p ++ Z.of_nat c :: r)) + elem dy (A ++ B) (p ++ r).
Proof.
  intros D Hn HX Ly. destruct (alike_arrays num dys HX) as (L & G). unfold split_backward. rewrite L, split_setup_ok by auto. cbn [obind].
  rewrite split_back_join. apply join_stack; auto.
Qed.

Lemma nonneg_AB : nonneg (A ++ B).
Proof. apply Forall_app. split; [auto|]. apply positive_nonneg. auto. Qed.
Theorem split_stack_ok axis axis' num xs y0 ys0 : denotes axis (length A) (S (length (A ++ B))) -> denotes axis' (length A) (length (sh 0)) -> (0 < num)%nat ->
  arrays (repeat (A ++ B) num) xs -> Z.of_nat (length y0) = size (sh (Z.of_nat num)) -> arrays (repeat (A ++ B) num) ys0 ->
  exists y, stack_forward axis (repeat (A ++ B) num) xs y0 = Some y /\ split_forward axis' (sh (Z.of_nat num)) y ys0 = Some xs.
Proof.
  intros D D' Hn HX Ly HY. destruct (stack_forward_ok axis num xs y0 D Hn HX Ly) as (y & E & L & I). exists y. split; [auto|].
  destruct (split_forward_ok axis' num y ys0 D' Hn) as (ys & E' & L' & I'); [congruence|auto|]. rewrite E'. f_equal.
  destruct (alike_arrays num xs HX) as (Lx & Gx). destruct (alike_arrays num ys L') as (Lys & Gy).
  apply (nth_ext ys xs [] []); [congruence|]. intros c Hc.
  assert (Ey : nth_error ys c = Some (nth c ys [])) by (apply nth_error_nth'; auto).
  assert (Ex : nth_error xs c = Some (nth c xs [])) by (apply nth_error_nth'; congruence).
  pose proof (proj1 (Forall_forall _ _) Gx _ (nth_error_In _ _ Ex)) as S1. pose proof (proj1 (Forall_forall _ _) Gy _ (nth_error_In _ _ Ey)) as S2.
  cbn in S1, S2. unfold len in S1, S2. apply (elem_ext (A ++ B)); [apply nonneg_AB|rewrite size_app; auto|lia|].
  intros idx Hi. destruct (inside_split A B idx Hi) as (p & r & -> & Hp & Hr). rewrite (I' c _ Ey p r Hp Hr), (I c _ Ex p r Hp Hr). auto.
Qed.
Theorem stack_split_ok axis axis' num x y0 ys0 : denotes axis (length A) (S (length (A ++ B))) -> denotes axis' (length A) (length (sh 0)) -> (0 < num)%nat ->
  Z.of_nat (length x) = size (sh (Z.of_nat num)) -> Z.of_nat (length y0) = size (sh (Z.of_nat num)) -> arrays (repeat (A ++ B) num) ys0 ->
  exists ys, split_forward axis' (sh (Z.of_nat num)) x ys0 = Some ys /\ stack_forward axis (repeat (A ++ B) num) ys y0 = Some x.
Proof.
  intros D D' Hn Lx Ly HY. destruct (split_forward_ok axis' num x ys0 D' Hn Lx HY) as (ys & E' & L' & I'). exists ys. split; [auto|].
  destruct (stack_forward_ok axis num ys y0 D Hn L' Ly) as (y & E & L & I). rewrite E. f_equal. destruct (alike_arrays num ys L') as (Lys & _).
  apply (elem_ext (sh (Z.of_nat num))); [|congruence|lia|].
  - apply Forall_app. split; [auto|]. constructor; [lia|]. apply positive_nonneg. auto.
  - intros idx Hi. destruct (inside_split A _ idx Hi) as (p & r' & -> & Hp & Hr'). inversion Hr' as [|k ? r ? Hk Hr]; subst.
    assert (Ey : nth_error ys (Z.to_nat k) = Some (nth (Z.to_nat k) ys [])) by (apply nth_error_nth'; lia).
    replace k with (Z.of_nat (Z.to_nat k)) by lia. rewrite (I _ _ Ey p r Hp Hr), (I' _ _ Ey p r Hp Hr). auto.
Qed.
End stack.
