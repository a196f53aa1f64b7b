(** Which elements the element-copying functions read, and their gradients. *)
From Coq Require Import List ZArith Lia Bool Permutation.
From Verif Require Import NdModel NdSpec NdProofs IdxModel IdxSpec IdxProofs1 IdxProofs2 IdxProofs3 IdxProofs4 IdxProofs5 IdxProofs6.
Import ListNotations.
Local Open Scope list_scope.
Local Open Scope Z_scope.

Lemma amap_eq fs : forall idx j, length fs = length idx -> length j = length idx ->
  (forall k f, nth_error fs k = Some f -> nth k j 0 = f (nth k idx 0)) -> j = amap fs idx.
Proof.
  induction fs as [|f fs IH]; intros [|i idx] [|x j] L1 L2 H; try discriminate; cbn [amap]; [auto|].
  pose proof (H 0%nat f eq_refl) as H0. cbn in H0. rewrite H0. f_equal. apply IH; [cbn in L1; lia|cbn in L2; lia|].
  intros k g Hk. exact (H (S k) g Hk).
Qed.

(** ** C44: Shift *)

(** Shifting by [s] along an axis reads the element [s] positions before, with the axis
    extended by its outermost elements or mirrored. *)
Theorem C44_shift_partial : forall (reflect : bool) shifts shape, Forall (fun n => 0 <= n) shape -> shape <> [] ->
  (reflect = true -> forall k, (k < length shape)%nat -> aligned shifts (length shape) k <= 2 * nth k shape 0) ->
  computes shape shape (shift_forward reflect shifts shape) (fun ex ey => forall idx j, inside idx shape -> length j = length shape ->
    (forall k, (k < length shape)%nat ->
       nth k j 0 = (if reflect then mirror_half else nearest) (nth k shape 0) (nth k idx 0 - aligned shifts (length shape) k)) ->
    ey idx = ex j).
Proof.
  intros r sh shape P NE HR. eapply computes_impl; [apply (shift_ok r sh shape P NE)|]. cbn. intros ex ey H idx j I L K. rewrite (H idx I). f_equal. symmetry.
  pose proof (inside_length _ _ I) as LI. apply amap_eq; [rewrite shift_fs_length; auto|congruence|]. intros k f Hf.
  assert (Hk : (k < length shape)%nat) by (rewrite <- (shift_fs_length r sh (length shape) 0 shape); apply nth_error_Some; congruence).
  rewrite shift_fs_nth in Hf by auto. inversion Hf; subst f. rewrite K by auto. cbn [Nat.add]. rewrite shift_at_aligned. destruct r.
  - rewrite shift_j_reflect; auto. clear - I Hk. revert k Hk. unfold inside in I. induction I as [|i s idx shape Hi I IH]; intros [|k] Hk; cbn in *; try lia. apply IH. lia.
  - rewrite shift_j_nearest. auto.
Qed.
Example C44_shift_ex : shift_forward false [1] [2; 3] [1; 2; 3; 4; 5; 6] [0; 0; 0; 0; 0; 0] = Some [1; 1; 2; 4; 4; 5] /\
  shift_forward true [-1] [2; 3] [1; 2; 3; 4; 5; 6] [0; 0; 0; 0; 0; 0] = Some [2; 3; 3; 5; 6; 6] /\
  shift_forward true [3; 0] [2; 3] [1; 2; 3; 4; 5; 6] [0; 0; 0; 0; 0; 0] = Some [4; 5; 6; 4; 5; 6].
Proof. repeat split; reflexivity. Qed.
(** A larger shift to the right is not mirrored properly. *)
Theorem C44_shift_reflect_refuted : ~ forall shifts shape, Forall (fun n => 0 < n) shape -> shape <> [] ->
  computes shape shape (shift_forward true shifts shape) (fun ex ey => forall idx j, inside idx shape -> length j = length shape ->
    (forall k, (k < length shape)%nat -> nth k j 0 = mirror_half (nth k shape 0) (nth k idx 0 - aligned shifts (length shape) k)) ->
    ey idx = ex j).
Proof.
  intros H. assert (P4 : Forall (fun n => 0 < n) [4]) by (constructor; [lia|constructor]).
  destruct (H [9] [4] P4 ltac:(discriminate) [0; 1; 2; 3] [0; 0; 0; 0] eq_refl eq_refl) as (y & E & _ & R).
  vm_compute in E. inversion E; subst y. specialize (R [0] [0]). assert (X : elem [1; 0; 1; 2] [4] [0] = elem [0; 1; 2; 3] [4] [0]).
  { apply R; [constructor; [lia|constructor]|auto|]. intros [|k] Hk; cbn in Hk; [reflexivity|lia]. }
  vm_compute in X. discriminate.
Qed.

(** ** C44: Flip *)
Theorem C44_flip : forall axes shape, Forall (fun n => 0 <= n) shape -> shape <> [] ->
  Forall (fun a => - Z.of_nat (length shape) <= a < Z.of_nat (length shape)) axes ->
  computes shape shape (flip_forward axes shape) (fun ex ey => forall idx j, inside idx shape -> length j = length shape ->
    (forall k, (k < length shape)%nat ->
       nth k j 0 = if among axes (length shape) k then nth k shape 0 - 1 - nth k idx 0 else nth k idx 0) ->
    ey idx = ex j).
Proof.
  intros axes shape P NE HA. destruct (flip_ok (flags axes (length shape)) shape _ P (flags_length _ _) eq_refl) as (C & _).
  eapply computes_ext; [eapply computes_impl; [exact C|]|].
  - cbn. intros ex ey H idx j I L K. rewrite (H idx I). f_equal. symmetry. pose proof (inside_length _ _ I) as LI.
    pose proof (flags_length axes (length shape)) as LF.
    apply amap_eq; [unfold flip_fs; rewrite map_length, combine_length, LF, LI; lia|congruence|]. intros k f Hf.
    assert (Hk : (k < length shape)%nat).
    { assert (k < length (flip_fs (flags axes (length shape)) shape))%nat by (apply nth_error_Some; congruence). unfold flip_fs in *. rewrite map_length, combine_length in *. lia. }
    rewrite (flip_fs_nth _ _ k (among axes (length shape) k)) in Hf; [|auto|apply flags_nth; auto]. inversion Hf; subst f. apply K. auto.
  - intros x y. unfold flip_forward, flip_pairs. destruct shape as [|s shape]; [congruence|]. rewrite refine_axes_ok by auto. reflexivity.
Qed.
Example C44_flip_ex : flip_forward [-1] [2; 3] [1; 2; 3; 4; 5; 6] [0; 0; 0; 0; 0; 0] = Some [3; 2; 1; 6; 5; 4] /\
  flip_forward [0; 1] [2; 3] [1; 2; 3; 4; 5; 6] [0; 0; 0; 0; 0; 0] = Some [6; 5; 4; 3; 2; 1].
Proof. split; reflexivity. Qed.

(** ** C44: Pad *)
Lemma pad_shape_eq shape w ys : Nat.even (length w) = true -> (length w <= 2 * length shape)%nat -> length ys = length shape ->
  (forall k, (k < length shape)%nat -> nth k ys 0 = nth k shape 0 + pad_before w (length shape) k + pad_after w (length shape) k) ->
  ys = pad_shape shape (padding_of (length shape) w).
Proof.
  intros EV LW LY K.
  assert (LP : length (padding_of (length shape) w) = length shape).
  { unfold padding_of. rewrite app_length, repeat_length. pose proof (pad_pairs_length w EV). lia. }
  assert (G : forall s p, length p = length s -> forall k, (k < length s)%nat -> nth k (pad_shape s p) 0 = nth k s 0 + fst (nth k p (0, 0)) + snd (nth k p (0, 0))).
  { induction s as [|n s IH]; intros [|[a b] p] L k Hk; try discriminate; [cbn in Hk; lia|]. destruct k as [|k]; cbn [pad_shape nth fst snd]; [auto|]. apply IH; cbn in *; lia. }
  apply (nth_ext _ _ 0 0); [rewrite pad_shape_length; auto|]. intros k Hk. rewrite LY in Hk. rewrite K, G by auto. rewrite padding_nth by auto. auto.
Qed.
Theorem C44_pad_constant : forall c shape w ys, Forall (fun n => 0 < n) shape -> shape <> [] ->
  Nat.even (length w) = true -> (length w <= 2 * length shape)%nat -> Forall (fun v => 0 <= v) w -> length ys = length shape ->
  (forall k, (k < length shape)%nat -> nth k ys 0 = nth k shape 0 + pad_before w (length shape) k + pad_after w (length shape) k) ->
  computes shape ys (pad_forward PConstant c shape w) (fun ex ey => forall idx j, inside idx ys -> length j = length shape ->
    (forall k, (k < length shape)%nat -> nth k j 0 = nth k idx 0 - pad_before w (length shape) k) ->
    (inside j shape -> ey idx = ex j) /\ (~ inside j shape -> ey idx = c)).
Proof.
  intros c shape w ys P NE EV LW PW LY K. pose proof (pad_shape_eq shape w ys EV LW LY K) as EQ. clear K LY. subst ys.
  destruct (pad_list_ok PConstant shape w P NE EV LW PW) as (LP & PY & EL). set (padding := padding_of (length shape) w) in *. set (ys := pad_shape shape padding) in *.
  assert (LS : length ys = length shape) by (apply pad_shape_length; auto).
  assert (SO : forall idx, inside idx ys -> osum (pad_desc PConstant ys padding (cstrides shape)) idx =
     if insideb (sub_pad idx padding) shape then Some (off (sub_pad idx padding) shape) else None).
  { intros idx I. unfold ys. rewrite const_osum; [|auto|apply cstrides_length|rewrite (inside_length _ _ I); auto].
    destruct (insideb _ _) eqn:E; [|auto]. apply insideb_ok in E. rewrite dot_cstrides by auto. auto. }
  eapply computes_impl.
  - apply (computes_src c ys shape (fun idx => osum (pad_desc PConstant ys padding (cstrides shape)) idx) _ (positive_nonneg _ PY)).
    + intros idx I. rewrite SO by auto. destruct (insideb _ _) eqn:E; [|exact Logic.I]. apply insideb_ok in E. apply off_bound. auto.
    + intros x y0. unfold pad_forward. rewrite EL. cbn [obind]. f_equal. f_equal.
      * f_equal. pose proof (indices_length ys (positive_nonneg _ PY)). lia.
      * rewrite srcs_osum, pad_desc_fst by (try rewrite cstrides_length; congruence). auto.
  - cbn. intros ex ey H idx j I L K. specialize (H idx I). rewrite SO in H by auto.
    assert (EJ : j = sub_pad idx padding).
    { assert (PN : forall k, (k < length shape)%nat -> fst (nth k padding (0, 0)) = pad_before w (length shape) k) by (intros k Hk; unfold padding; rewrite padding_nth by auto; auto).
      assert (LI : length idx = length padding) by (rewrite (inside_length _ _ I); congruence).
      assert (K' : forall k, (k < length padding)%nat -> nth k j 0 = nth k idx 0 - fst (nth k padding (0, 0))) by (intros k Hk; rewrite LP in Hk; rewrite PN by auto; auto).
      rewrite <- LP in L. clear - K' L LI. revert j idx L LI K'. induction padding as [|[a b] p IH]; intros [|x j] [|i idx] L LI K; try discriminate; [auto|]. cbn [sub_pad].
      pose proof (K 0%nat ltac:(cbn; lia)) as K0. cbn in K0. rewrite K0. f_equal. apply IH; [cbn in L; lia|cbn in LI; lia|]. intros k Hk. apply (K (S k)). cbn. lia. }
    split; intros J.
    + assert (E : insideb (sub_pad idx padding) shape = true) by (apply insideb_ok; rewrite <- EJ; auto). rewrite E in H. apply H; auto. rewrite EJ. auto.
    + assert (E : insideb (sub_pad idx padding) shape = false) by (apply not_true_iff_false; intros X; apply insideb_ok in X; rewrite <- EJ in X; auto). rewrite E in H. auto.
Qed.
Lemma fill_some {A} (f : A -> Z) c c' x : forall I l y0, fill_loop c (combine l (map (fun i => Some (f i)) I)) x y0 = fill_loop c' (combine l (map (fun i => Some (f i)) I)) x y0.
Proof. induction I as [|i I IH]; intros [|d l] y0; auto. cbn [map combine fill_loop]. destruct (rd x _); cbn [obind]; [|auto]. destruct (wr y0 d _); cbn [obind]; auto. Qed.
Theorem C44_pad_extend : forall m c shape w ys, m <> PConstant -> Forall (fun n => 0 < n) shape -> shape <> [] ->
  Nat.even (length w) = true -> (length w <= 2 * length shape)%nat -> Forall (fun v => 0 <= v) w -> length ys = length shape ->
  (forall k, (k < length shape)%nat -> nth k ys 0 = nth k shape 0 + pad_before w (length shape) k + pad_after w (length shape) k) ->
  computes shape ys (pad_forward m c shape w) (fun ex ey => forall idx j, inside idx ys -> length j = length shape ->
    (forall k, (k < length shape)%nat ->
       nth k j 0 = match m with PReflect => mirror_whole | _ => nearest end (nth k shape 0) (nth k idx 0 - pad_before w (length shape) k)) ->
    ey idx = ex j).
Proof.
  intros m c shape w ys M P NE EV LW PW LY K. pose proof (pad_shape_eq shape w ys EV LW LY K) as EQ. clear K LY. subst ys.
  destruct (pad_list_ok m shape w P NE EV LW PW) as (LP & PY & EL). set (padding := padding_of (length shape) w) in *. set (ys := pad_shape shape padding) in *.
  assert (LS : length ys = length shape) by (apply pad_shape_length; auto).
  destruct (ext_srcs m shape padding M P LP) as (FT & SR). fold ys in FT, SR. specialize (SR (cstrides shape) (cstrides_length shape)).
  eapply computes_impl.
  - apply (computes_desc ys (ext_fs (ext_of m) shape padding) shape _ (positive_nonneg _ PY) FT).
    intros x y0. unfold pad_forward. rewrite EL. cbn [obind]. rewrite SR, (srcs_desc _ _ _ FT).
    apply fill_some.
  - cbn. intros ex ey H idx j I L K. rewrite (H idx I). f_equal. symmetry. apply amap_eq.
    + rewrite ext_fs_length, (inside_length _ _ I) by auto. auto.
    + rewrite L, (inside_length _ _ I). auto.
    + intros k f Hf. assert (Hk : (k < length shape)%nat) by (rewrite <- (ext_fs_length (ext_of m) shape padding LP); apply nth_error_Some; congruence).
      rewrite ext_nth in Hf by auto. inversion Hf; subst f. rewrite K by auto. unfold padding. rewrite padding_nth by auto. destruct m; auto.
Qed.
Example C44_pad_ex : pad_forward PConstant 7 [2; 2] [1; 0] [1; 2; 3; 4] [0; 0; 0; 0; 0; 0] = Some [7; 1; 2; 7; 3; 4] /\
  pad_forward PReflect 7 [3] [3; 3] [1; 2; 3] (repeat 0 9) = Some [2; 3; 2; 1; 2; 3; 2; 1; 2] /\
  pad_forward PRepeat 7 [2; 2] [1; 1; 0; 1] [1; 2; 3; 4] (repeat 0 12) = Some [1; 2; 2; 1; 2; 2; 3; 4; 4; 3; 4; 4].
Proof. repeat split; reflexivity. Qed.

(** ** C44: Broadcast *)
Theorem C44_broadcast_partial : forall shape target, Forall (fun n => 0 <= n) target ->
  (length shape <= length target <= 8)%nat ->
  (forall k, (k < length shape)%nat -> nth k shape 0 = nth (k + length target - length shape) target 0 \/ nth k shape 0 = 1) ->
  computes shape target (bc_forward shape target) (fun ex ey => forall idx j, inside idx target -> length j = length shape ->
    (forall k, (k < length shape)%nat -> nth k j 0 = if nth k shape 0 =? 1 then 0 else nth (k + length target - length shape) idx 0) ->
    ey idx = ex j).
Proof.
  intros shape target P LT HC. set (d := (length target - length shape)%nat). set (es := expand_shape shape (length target)).
  assert (LE : length es = length target) by (unfold es, expand_shape; rewrite app_length, repeat_length; lia).
  assert (F : Forall2 (fun e n => e = n \/ e = 1) es target).
  { assert (K : forall k, (k < length target)%nat -> nth k es 0 = nth k target 0 \/ nth k es 0 = 1).
    { intros k Hk. unfold es, expand_shape. fold d. destruct (Nat.ltb_spec k d) as [C|C].
      - right. rewrite app_nth1 by (rewrite repeat_length; auto). apply (repeat_spec d 1). apply nth_In. rewrite repeat_length. auto.
      - rewrite app_nth2, repeat_length by (rewrite repeat_length; auto). destruct (HC (k - d)%nat ltac:(unfold d in *; lia)) as [E|E]; [left|right; auto]. rewrite E. f_equal. unfold d in *. lia. }
    clear - LE K. revert LE K. generalize es as e. induction target as [|n t IH]; intros [|x e] L K; try discriminate; constructor.
    - exact (K 0%nat ltac:(cbn; lia)).
    - apply IH; [cbn in L; lia|]. intros k Hk. apply (K (S k)). cbn. lia. }
  destruct (bc_ok es target P F) as (st & E & H). destruct (H _ eq_refl) as (C & _). clear H.
  intros x y0 Lx Ly. destruct (C x y0) as (y & EY & LY & R); [unfold es, expand_shape; rewrite size_ones; auto|auto|].
  exists y. split; [|split; [auto|]].
  - unfold bc_forward, bc_pairs. destruct (Nat.leb_spec (length shape) (length target)); [|lia]. destruct (Nat.leb_spec (length target) 8); [|lia]. cbn [andb]. fold es. rewrite E. cbn [obind]. exact EY.
  - intros idx j I LJ K. rewrite (R idx I). unfold es, expand_shape. fold d.
    assert (EA : amap (bc_fs (repeat 1 d ++ shape)) idx = repeat 0 d ++ j).
    { symmetry. assert (BL : forall l, length (bc_fs l) = length l) by (induction l; cbn; auto). apply amap_eq.
      - rewrite BL, app_length, repeat_length, (inside_length _ _ I). unfold d. lia.
      - rewrite app_length, repeat_length, LJ, (inside_length _ _ I). unfold d. lia.
      - intros k f Hf. assert (BN : forall l k, nth_error (bc_fs l) k = match nth_error l k with Some e => Some (fun i => if e =? 1 then 0 else i) | None => None end).
        { clear. induction l as [|e l IH]; intros [|k]; cbn; auto. }
        rewrite BN in Hf. destruct (nth_error (repeat 1 d ++ shape) k) as [e|] eqn:N; [|discriminate]. inversion Hf; subst f.
        destruct (Nat.ltb_spec k d) as [Ck|Ck].
        + rewrite nth_error_app1 in N by (rewrite repeat_length; auto). apply nth_error_In, repeat_spec in N. subst e. cbn.
          rewrite app_nth1 by (rewrite repeat_length; auto). apply (repeat_spec d 0). apply nth_In. rewrite repeat_length. auto.
        + rewrite nth_error_app2, repeat_length in N by (rewrite repeat_length; auto). rewrite app_nth2, repeat_length by (rewrite repeat_length; auto).
          assert (Hk : (k - d < length shape)%nat) by (apply nth_error_Some; congruence). rewrite K by auto. rewrite (nth_error_nth _ _ 0 N).
          replace (k - d + length target - length shape)%nat with k by (unfold d in *; lia). auto. }
    rewrite EA. apply elem_ones; [|apply repeat_length]. apply Forall_forall. intros z Hz. apply repeat_spec in Hz. auto.
Qed.
Example C44_broadcast_ex : bc_forward [1; 3] [2; 2; 3] [1; 2; 3] (repeat 0 12) = Some [1; 2; 3; 1; 2; 3; 1; 2; 3; 1; 2; 3] /\
  bc_forward [2; 1] [2; 3] [1; 2] (repeat 0 6) = Some [1; 1; 1; 2; 2; 2] /\ bc_forward [2] [3] [1; 2] (repeat 0 3) = None.
Proof. repeat split; reflexivity. Qed.

(** ** C44: Transpose *)
Lemma somed_fill c ps : forall x y, fill_loop c (somed ps) x y = copy_loop ps x y.
Proof. intros. symmetry. apply copy_fill. Qed.
Lemma perm_of axes l : forall m, length m = length axes -> (forall k, (k < length axes)%nat -> nth k m 0 = nth (Z.to_nat (nth k axes 0)) l 0) -> m = perm axes l.
Proof.
  intros m L K. apply (nth_ext _ _ 0 0); [rewrite perm_length; auto|]. intros k Hk. rewrite L in Hk. rewrite K by auto. unfold perm.
  rewrite (nth_indep (map (at_ l) axes) 0 (at_ l 0)) by (rewrite map_length; auto). rewrite map_nth. reflexivity.
Qed.
Theorem C44_transpose_partial : forall axes shape ys, shape <> [] -> Forall (fun n => 0 < n) shape ->
  Permutation axes (map Z.of_nat (seq 0 (length shape))) -> length ys = length shape ->
  (forall k, (k < length shape)%nat -> nth k ys 0 = nth (Z.to_nat (nth k axes 0)) shape 0) ->
  computes shape ys (transpose_forward axes shape) (fun ex ey => forall idx j, inside j shape -> length idx = length shape ->
    (forall k, (k < length shape)%nat -> nth k idx 0 = nth (Z.to_nat (nth k axes 0)) j 0) ->
    ey idx = ex j).
Proof.
  intros axes shape ys NE P PM LY K.
  assert (G : good axes shape).
  { apply perm_good; [|auto]. pose proof (upto_range (Z.of_nat (length shape))) as U. unfold upto in U. rewrite Nat2Z.id in U. rewrite <- U. auto. }
  pose proof (g_len _ _ G) as GL. rewrite <- GL in K, LY. pose proof (perm_of axes shape ys LY K) as EQ. clear K LY. subst ys.
  destruct (transpose_ok axes shape NE G) as (t & ET & ps & qs & E1 & E2 & SP & _ & _ & B & _).
  eapply computes_impl.
  - apply (computes_src 0 (perm axes shape) shape (fun idx => Some (dot idx (perm axes (cstrides shape)))) _ (positive_nonneg _ (perm_positive _ _ G))).
    + intros idx I. cbn [sbound].
      assert (EU : perm axes (unperm axes idx) = idx) by (apply (perm_unperm axes shape); auto; rewrite (inside_length _ _ I); apply perm_length).
      pose proof (unperm_inside _ _ _ G I) as U. rewrite <- EU, dot_perm by (rewrite (inside_length _ _ U); apply good_perm; auto). rewrite dot_cstrides by auto. apply off_bound. auto.
    + intros x y0. unfold transpose_forward. rewrite ET. cbn [obind]. rewrite E1. cbn [obind]. rewrite <- (somed_fill 0), SP, tdesc_srcs. f_equal. f_equal. f_equal.
      pose proof (indices_length _ (positive_nonneg _ (perm_positive _ _ G))) as L. rewrite perm_size in L by auto. lia.
  - cbn. intros ex ey H idx j J LI K. rewrite <- GL in LI, K. rewrite (perm_of axes j idx LI K). pose proof (perm_inside _ _ _ G J) as I. apply (H _ I); auto.
    rewrite dot_perm by (rewrite (inside_length _ _ J); apply good_perm; auto). rewrite dot_cstrides; auto.
Qed.
Example C44_transpose_ex : transpose_forward [1; 0] [2; 3] [1; 2; 3; 4; 5; 6] (repeat 0 6) = Some [1; 4; 2; 5; 3; 6] /\
  transpose_forward [2; 0; 1] [2; 1; 3] [1; 2; 3; 4; 5; 6] (repeat 0 6) = Some [1; 4; 2; 5; 3; 6].
Proof. split; reflexivity. Qed.
(** Negative axes pass the check of refine_axes but are then used as they are; and arrays
    without elements are written to. *)
Theorem C44_transpose_negative_refuted : ~ forall axes shape, shape <> [] -> Forall (fun n => 0 < n) shape ->
  (exists l, refine_axes (length shape) axes = Some l /\ Permutation l (map Z.of_nat (seq 0 (length shape)))) ->
  forall x y0, Z.of_nat (length x) = size shape -> length y0 = length x -> exists y, transpose_forward axes shape x y0 = Some y.
Proof.
  intros H. destruct (H [-1; 0] [2; 3] ltac:(discriminate) ltac:(repeat constructor; lia)) with (x := repeat 0 6) (y0 := repeat 0 6) as (y & E); auto.
  - exists [1; 0]. split; [reflexivity|]. cbn. apply perm_swap.
  - vm_compute in E. discriminate.
Qed.
Theorem C44_transpose_empty_refuted : ~ forall axes shape, shape <> [] -> Forall (fun n => 0 <= n) shape ->
  Permutation axes (map Z.of_nat (seq 0 (length shape))) ->
  forall x y0, Z.of_nat (length x) = size shape -> length y0 = length x -> exists y, transpose_forward axes shape x y0 = Some y.
Proof.
  intros H. destruct (H [1; 0] [0; 3] ltac:(discriminate) ltac:(repeat constructor; lia)) with (x := @nil Z) (y0 := @nil Z) as (y & E); auto.
  - cbn. apply perm_swap.
  - vm_compute in E. discriminate.
Qed.

(** ** C45: the functions reading at positions given by another array *)
Theorem C45_gather_nd_partial : forall A B rest idx, A <> [] -> rest <> [] -> Forall (fun n => 0 <= n) (A ++ B) -> Forall (fun n => 0 <= n) rest ->
  let ishape := Z.of_nat (length A) :: rest in
  Z.of_nat (length idx) = size ishape ->
  (forall c m, inside c rest -> (m < length A)%nat -> - nth m A 0 <= elem idx ishape (Z.of_nat m :: c) < nth m A 0) ->
  computes (A ++ B) (rest ++ B) (gnd_forward (A ++ B) ishape idx) (fun ex ey => forall c r j, inside c rest -> inside r B -> length j = length A ->
    (forall m, (m < length A)%nat -> let v := elem idx ishape (Z.of_nat m :: c) in nth m j 0 = if v <? 0 then v + nth m A 0 else v) ->
    ey (c ++ r) = ex (j ++ r)).
Proof.
  intros A B rest idx HA HR PA PR ishape LI V.
  destruct (gnd_ok A B rest idx HA HR PA PR LI) as (C & _).
  { intros c Hc m Hm. rewrite app_nth1 by auto. apply V; auto. }
  eapply computes_impl; [exact C|]. cbn. intros ex ey H c r j Hc Hr LJ K. rewrite (H c r Hc Hr). do 2 f_equal. symmetry. unfold gnd_at.
  apply (nth_ext _ _ 0 0); [rewrite map_length, seq_length; auto|]. intros m Hm. rewrite LJ in Hm. rewrite K by auto.
  set (h := fun m0 => wrapped (nth m0 (A ++ B) 0) (elem idx (Z.of_nat (length A) :: rest) (Z.of_nat m0 :: c))).
  rewrite (nth_indep (map h (seq 0 (length A))) 0 (h 0%nat)) by (rewrite map_length, seq_length; auto). rewrite map_nth, seq_nth by auto. unfold h, wrapped. cbn [Nat.add]. rewrite app_nth1 by auto. reflexivity.
Qed.
Example C45_gather_nd_ex : gnd_forward [2; 2; 2] [2; 3] [0; 1; -1; 1; -2; 0] [1; 2; 3; 4; 5; 6; 7; 8] (repeat 0 6) = Some [3; 4; 5; 6; 5; 6].
Proof. reflexivity. Qed.
(** A position outside an axis is an error. *)
Theorem C45_gather_nd_checks_partial : forall A B rest idx c m, A <> [] -> rest <> [] -> Forall (fun n => 0 <= n) (A ++ B) -> Forall (fun n => 0 <= n) rest ->
  let ishape := Z.of_nat (length A) :: rest in
  Z.of_nat (length idx) = size ishape -> inside c rest -> (m < length A)%nat ->
  ~ (- nth m A 0 <= elem idx ishape (Z.of_nat m :: c) < nth m A 0) ->
  forall x y, gnd_forward (A ++ B) ishape idx x y = None.
Proof.
  intros A B rest idx c m HA HR PA PR ishape LI Hc Hm V x y. unfold gnd_forward, gnd_pairs. pose proof (gnd_shape_ok A B rest idx HR) as GS. fold ishape in GS. rewrite GS. cbn [obind].
  assert (ST : strides (A ++ B) = Some (cstrides (A ++ B))) by (apply strides_cstrides; destruct A; [congruence|discriminate]). rewrite ST. cbn [obind].
  unfold ishape. cbn [hd tl]. rewrite (omap_none _ _ (off c rest)); [reflexivity| |].
  - rewrite upto_range, prod_size. apply range_in. pose proof (off_bound _ _ Hc) as X. pose proof (size_nonneg _ PR). lia.
  - rewrite Nat2Z.id, prod_size.
    assert (EV : elem idx ishape (Z.of_nat m :: c) = at_ idx (Z.of_nat m * size rest + off c rest)).
    { rewrite elem_at by (constructor; [lia|auto]). reflexivity. }
    rewrite EV in V. clear EV.
    assert (G : forall A m0, (m < length A)%nat -> ~ (- nth m A 0 <= at_ idx ((m0 + Z.of_nat m) * size rest + off c rest) < nth m A 0) ->
      gnd_index idx (size rest) (off c rest) m0 (A ++ B) (length A) = None).
    { clear. revert m. intros m A. revert m. induction A as [|n A IH]; intros m m0 Hm V; [cbn in Hm; lia|]. cbn [app length gnd_index].
      destruct (rd idx _) as [v|] eqn:R; cbn [obind]; [|auto]. destruct m as [|m].
      - cbn [nth] in V. rewrite Z.add_0_r in V. unfold rd in R. destruct (_ <? 0); [discriminate|]. apply (nth_error_nth _ _ 0) in R. unfold at_ in V. rewrite R in V.
        unfold norm_index. destruct (Z.ltb_spec v n), (Z.leb_spec (- n) v); try reflexivity. exfalso. apply V. lia.
      - rewrite (IH m (m0 + 1)); [destruct (norm_index v n); reflexivity|cbn in Hm; lia|]. cbn [nth] in V. replace (m0 + 1 + Z.of_nat m) with (m0 + Z.of_nat (S m)) by lia. auto. }
    rewrite (G A 0 Hm V). reflexivity.
Qed.
Example C45_gather_nd_checks_ex : gnd_forward [2] [1; 2] [0; 2] [1; 2] [0; 0] = None /\ gnd_forward [2] [1; 2] [0; -3] [1; 2] [0; 0] = None /\
  gnd_forward [2] [1; 2] [0; -2] [1; 2] [0; 0] = Some [1; 1].
Proof. repeat split; reflexivity. Qed.

Theorem C45_gather_partial : forall P x1 R C idx bd, (bd <= length P)%nat -> Forall (fun n => 0 < n) P -> 0 <= x1 ->
  Forall (fun n => 0 <= n) C -> Forall (fun n => 0 <= n) R ->
  let ishape := firstn bd P ++ C in
  Z.of_nat (length idx) = size ishape ->
  (forall a c, inside a P -> inside c C -> 0 <= elem idx ishape (firstn bd a ++ c) < x1) ->
  computes (P ++ x1 :: R) (P ++ C ++ R) (ga_forward (length P) bd (P ++ x1 :: R) ishape idx) (fun ex ey => forall a c r,
    inside a P -> inside c C -> inside r R -> ey (a ++ c ++ r) = ex (a ++ elem idx ishape (firstn bd a ++ c) :: r)).
Proof. intros P x1 R C idx bd BD PP PX PC PR ishape LI V. exact (proj1 (ga_ok P C R idx x1 bd BD PP PC PR LI V)). Qed.
Example C45_gather_ex : ga_forward 1 0 [2; 3] [2] [2; 0] [1; 2; 3; 4; 5; 6] (repeat 0 4) = Some [3; 1; 6; 4] /\
  ga_forward 1 1 [2; 3] [2; 2] [2; 0; 1; 1] [1; 2; 3; 4; 5; 6] (repeat 0 4) = Some [3; 1; 5; 5].
Proof. split; reflexivity. Qed.
(** With more batch dimensions than axes before the gathered one, which the checks allow, the
    forward pass divides by zero. *)
Theorem C45_gather_batch_refuted : ~ forall axis bd shape ishape idx ys, Forall (fun n => 0 < n) shape -> Forall (fun n => 0 < n) ishape ->
  ga_shape axis bd shape ishape = Some ys -> Z.of_nat (length idx) = size ishape -> Forall (fun g => 0 <= g < nth axis shape 0) idx ->
  forall x y0, Z.of_nat (length x) = size shape -> Z.of_nat (length y0) = size ys -> exists y, ga_forward axis bd shape ishape idx x y0 = Some y.
Proof.
  intros H. assert (P1 : Forall (fun n => 0 < n) [2; 3]) by (repeat apply Forall_cons; try apply Forall_nil; lia).
  assert (P2 : Forall (fun n => 0 < n) [2; 1]) by (repeat apply Forall_cons; try apply Forall_nil; lia).
  assert (P3 : Forall (fun g => 0 <= g < nth 0 [2; 3] 0) [0; 0]) by (cbn [nth]; repeat apply Forall_cons; try apply Forall_nil; lia).
  destruct (H 0%nat 1%nat [2; 3] [2; 1] [0; 0] [1; 3] P1 P2 eq_refl eq_refl P3 (repeat 0 6) (repeat 0 3) eq_refl eq_refl) as (y & E).
  vm_compute in E. discriminate.
Qed.

Theorem C45_embed_partial : forall ishape n rest ix, Forall (fun n => 0 <= n) ishape -> Forall (fun n => 0 <= n) rest -> 0 <= n ->
  Z.of_nat (length ix) = size ishape -> (forall c, inside c ishape -> 0 <= elem ix ishape c < n) ->
  computes (n :: rest) (ishape ++ rest) (em_forward ishape (n :: rest) ix) (fun ew ey => forall c r, inside c ishape -> inside r rest ->
    ey (c ++ r) = ew (elem ix ishape c :: r)).
Proof. intros ishape n rest ix PI PR Hn LI V. exact (proj1 (em_ok ishape n rest ix PI PR Hn LI V)). Qed.
Example C45_embed_ex : em_forward [3] [2; 2] [1; 0; 1] [1; 2; 3; 4] (repeat 0 6) = Some [3; 4; 1; 2; 3; 4].
Proof. reflexivity. Qed.

Theorem C45_diag_part_partial : forall C n, Forall (fun n => 0 <= n) C -> 0 < n ->
  computes (C ++ [n; n]) (C ++ [n]) (mdp_forward (C ++ [n; n])) (fun ex ey => forall c i, inside c C -> 0 <= i < n -> ey (c ++ [i]) = ex (c ++ [i; i])).
Proof. intros C n PC Hn. exact (proj1 (mdp_ok C n PC Hn)). Qed.
Theorem C45_diag : forall C n, Forall (fun n => 0 <= n) C -> 0 < n ->
  computes (C ++ [n]) (C ++ [n; n]) (md_forward (C ++ [n])) (fun ex ey => forall c i j, inside c C -> 0 <= i < n -> 0 <= j < n ->
    ey (c ++ [i; j]) = if i =? j then ex (c ++ [i]) else 0).
Proof. intros C n PC Hn. exact (proj1 (md_ok C n PC Hn)). Qed.
Example C45_diag_ex : mdp_forward [2; 2; 2] [1; 2; 3; 4; 5; 6; 7; 8] (repeat 0 4) = Some [1; 4; 5; 8] /\
  md_forward [2; 2] [1; 2; 3; 4] (repeat 9 8) = Some [1; 0; 0; 2; 3; 0; 0; 4].
Proof. split; reflexivity. Qed.
(** The check that the matrices are square assigns instead of comparing, so that others are
    accepted; they are then read outside of the array. *)
Theorem C45_diag_part_square_refuted : ~ forall shape n ys, mdp_setup shape = Some (n, ys) -> Forall (fun n => 0 < n) shape ->
  forall x y0, Z.of_nat (length x) = size shape -> Z.of_nat (length y0) = size ys -> exists y, mdp_forward shape x y0 = Some y.
Proof.
  intros H. destruct (H [2; 3] 3 [3] eq_refl ltac:(repeat constructor; lia) (repeat 0 6) (repeat 0 3) eq_refl eq_refl) as (y & E).
  vm_compute in E. discriminate.
Qed.

(** ** C46: the gradients *)
Theorem C46_shift : forall reflect shifts shape, Forall (fun n => 0 <= n) shape -> shape <> [] ->
  adjoint (size shape) (size shape) (shift_forward reflect shifts shape) (shift_backward reflect shifts shape).
Proof. intros r sh shape P NE. exact (proj2 (shift_ok r sh shape P NE)). Qed.
Theorem C46_flip : forall axes shape, Forall (fun n => 0 <= n) shape -> shape <> [] ->
  Forall (fun a => - Z.of_nat (length shape) <= a < Z.of_nat (length shape)) axes ->
  adjoint (size shape) (size shape) (flip_forward axes shape) (flip_backward axes shape).
Proof.
  intros axes shape P NE HA. destruct (flip_ok (flags axes (length shape)) shape _ P (flags_length _ _) eq_refl) as (_ & D).
  assert (FP : flip_pairs axes shape = Some (flip_rec (flags axes (length shape)) shape (cstrides shape) 0 0)).
  { unfold flip_pairs. destruct shape as [|s shape]; [congruence|]. rewrite refine_axes_ok by auto. reflexivity. }
  eapply adjoint_ext; [exact D| |].
  - intros x y. unfold flip_forward. rewrite FP. reflexivity.
  - intros a x y. unfold flip_backward. rewrite FP. reflexivity.
Qed.
Theorem C46_pad : forall m shape w ys, Forall (fun n => 0 < n) shape -> shape <> [] ->
  Nat.even (length w) = true -> (length w <= 2 * length shape)%nat -> Forall (fun v => 0 <= v) w -> length ys = length shape ->
  (forall k, (k < length shape)%nat -> nth k ys 0 = nth k shape 0 + pad_before w (length shape) k + pad_after w (length shape) k) ->
  adjoint (size shape) (size ys) (pad_forward m 0 shape w) (pad_backward m shape w).
Proof.
  intros m shape w ys P NE EV LW PW LY K. pose proof (pad_shape_eq shape w ys EV LW LY K) as EQ. clear K LY. subst ys.
  destruct (pad_list_ok m shape w P NE EV LW PW) as (LP & PY & EL). set (padding := padding_of (length shape) w) in *. set (ys := pad_shape shape padding) in *.
  assert (LS : length ys = length shape) by (apply pad_shape_length; auto). set (Q := srcs (pad_desc m ys padding (cstrides shape))) in *.
  assert (LQ : Z.of_nat (length Q) = size ys).
  { unfold Q. rewrite srcs_osum, map_length, pad_desc_fst by (try rewrite cstrides_length; congruence). apply indices_length. apply positive_nonneg. auto. }
  assert (EL' : pad_list m shape w = Some (combine (range 0 (length Q)) Q)) by (rewrite EL; do 3 f_equal; lia).
  rewrite <- LQ. destruct m.
  - apply adjoint_const; [apply size_nonneg; apply positive_nonneg; auto| | |].
    + unfold Q, ys. apply const_somes; [apply positive_nonneg; auto|auto|]. unfold padding, padding_of. apply Forall_app. split.
      * apply Forall_forall. intros p Hp. apply repeat_spec in Hp. subst p. cbn. lia.
      * apply pad_pairs_nonneg. auto.
    + intros x y0. unfold pad_forward. rewrite EL'. reflexivity.
    + intros accum dy dx0. unfold pad_backward. rewrite EL'. destruct accum; reflexivity.
  - destruct (ext_srcs PReflect shape padding ltac:(discriminate) P LP) as (FT & SR). apply adjoint_add.
    + unfold Q, ys. rewrite SR by apply cstrides_length. apply srcs_desc_bound. auto.
    + intros x y0. unfold pad_forward. rewrite EL'. reflexivity.
    + intros accum dy dx0. unfold pad_backward. rewrite EL'. reflexivity.
  - destruct (ext_srcs PRepeat shape padding ltac:(discriminate) P LP) as (FT & SR). apply adjoint_add.
    + unfold Q, ys. rewrite SR by apply cstrides_length. apply srcs_desc_bound. auto.
    + intros x y0. unfold pad_forward. rewrite EL'. reflexivity.
    + intros accum dy dx0. unfold pad_backward. rewrite EL'. reflexivity.
Qed.
Theorem C46_broadcast : forall shape target, Forall (fun n => 0 <= n) target -> (length shape <= length target <= 8)%nat ->
  (forall k, (k < length shape)%nat -> nth k shape 0 = nth (k + length target - length shape) target 0 \/ nth k shape 0 = 1) ->
  adjoint (size shape) (size target) (bc_forward shape target) (bc_backward shape target).
Proof.
  intros shape target P LT HC. set (d := (length target - length shape)%nat). set (es := expand_shape shape (length target)).
  assert (LE : length es = length target) by (unfold es, expand_shape; rewrite app_length, repeat_length; lia).
  assert (F : Forall2 (fun e n => e = n \/ e = 1) es target).
  { assert (K : forall k, (k < length target)%nat -> nth k es 0 = nth k target 0 \/ nth k es 0 = 1).
    { intros k Hk. unfold es, expand_shape. fold d. destruct (Nat.ltb_spec k d) as [C|C].
      - right. rewrite app_nth1 by (rewrite repeat_length; auto). apply (repeat_spec d 1). apply nth_In. rewrite repeat_length. auto.
      - rewrite app_nth2, repeat_length by (rewrite repeat_length; auto). destruct (HC (k - d)%nat ltac:(unfold d in *; lia)) as [E|E]; [left|right; auto]. rewrite E. f_equal. unfold d in *. lia. }
    clear - LE K. revert LE K. generalize es as e. induction target as [|n t IH]; intros [|x e] L K; try discriminate; constructor.
    - exact (K 0%nat ltac:(cbn; lia)).
    - apply IH; [cbn in L; lia|]. intros k Hk. apply (K (S k)). cbn. lia. }
  destruct (bc_ok es target P F) as (st & E & H). destruct (H _ eq_refl) as (_ & D). clear H.
  assert (BP : bc_pairs shape target = Some (map (fun i => (i, strided_index i target st)) (upto (prod target)))).
  { unfold bc_pairs. destruct (Nat.leb_spec (length shape) (length target)); [|lia]. destruct (Nat.leb_spec (length target) 8); [|lia]. cbn [andb]. fold es. rewrite E. reflexivity. }
  assert (SE : size es = size shape) by (unfold es, expand_shape; apply size_ones). rewrite SE in D.
  eapply adjoint_ext; [exact D| |].
  - intros x y. unfold bc_forward. rewrite BP. reflexivity.
  - intros a x y. unfold bc_backward. rewrite BP. reflexivity.
Qed.
Theorem C46_transpose : forall axes shape, shape <> [] -> Forall (fun n => 0 < n) shape ->
  Permutation axes (map Z.of_nat (seq 0 (length shape))) ->
  adjoint (size shape) (size shape) (transpose_forward axes shape) (transpose_backward axes shape).
Proof.
  intros axes shape NE P PM.
  assert (G : good axes shape).
  { apply perm_good; [|auto]. pose proof (upto_range (Z.of_nat (length shape))) as U. unfold upto in U. rewrite Nat2Z.id in U. rewrite <- U. auto. }
  destruct (transpose_ok axes shape NE G) as (t & ET & ps & qs & E1 & E2 & SP & F1 & F2 & B & PM').
  assert (SN : 0 <= size shape) by (apply size_nonneg; apply positive_nonneg; auto).
  apply (adjoint_cover _ _ ps qs); auto.
  - intros x y0. unfold transpose_forward. rewrite ET. cbn [obind]. rewrite E1. reflexivity.
  - intros accum dy dx0. unfold transpose_backward. rewrite ET. cbn [obind]. rewrite E2. reflexivity.
Qed.
Theorem C46_gather_nd : forall A B rest idx, A <> [] -> rest <> [] -> Forall (fun n => 0 <= n) (A ++ B) -> Forall (fun n => 0 <= n) rest ->
  let ishape := Z.of_nat (length A) :: rest in
  Z.of_nat (length idx) = size ishape ->
  (forall c m, inside c rest -> (m < length A)%nat -> - nth m A 0 <= elem idx ishape (Z.of_nat m :: c) < nth m A 0) ->
  adjoint (size (A ++ B)) (size (rest ++ B)) (gnd_forward (A ++ B) ishape idx) (gnd_backward (A ++ B) ishape idx).
Proof.
  intros A B rest idx HA HR PA PR ishape LI V. apply (gnd_ok A B rest idx HA HR PA PR LI).
  intros c Hc m Hm. rewrite app_nth1 by auto. apply V; auto.
Qed.
(** Gather's backward pass adds to the gradient whether it is told to or not: it is right when
    the gradient is cleared before. *)
Theorem C46_gather_partial : forall P x1 R C idx bd, (bd <= length P)%nat -> Forall (fun n => 0 < n) P -> 0 <= x1 ->
  Forall (fun n => 0 <= n) C -> Forall (fun n => 0 <= n) R ->
  let ishape := firstn bd P ++ C in
  Z.of_nat (length idx) = size ishape ->
  (forall a c, inside a P -> inside c C -> 0 <= elem idx ishape (firstn bd a ++ c) < x1) ->
  adjoint (size (P ++ x1 :: R)) (size (P ++ C ++ R)) (ga_forward (length P) bd (P ++ x1 :: R) ishape idx)
    (fun accum dy dx => ga_backward (length P) bd (P ++ x1 :: R) ishape idx accum dy (if accum then dx else map (fun _ => 0) dx)).
Proof. intros P x1 R C idx bd BD PP PX PC PR ishape LI V. exact (proj2 (ga_ok P C R idx x1 bd BD PP PC PR LI V)). Qed.
Theorem C46_gather_refuted : ~ forall P x1 R C idx bd, (bd <= length P)%nat -> Forall (fun n => 0 < n) P -> 0 <= x1 ->
  Forall (fun n => 0 <= n) C -> Forall (fun n => 0 <= n) R ->
  let ishape := firstn bd P ++ C in
  Z.of_nat (length idx) = size ishape ->
  (forall a c, inside a P -> inside c C -> 0 <= elem idx ishape (firstn bd a ++ c) < x1) ->
  adjoint (size (P ++ x1 :: R)) (size (P ++ C ++ R)) (ga_forward (length P) bd (P ++ x1 :: R) ishape idx)
    (ga_backward (length P) bd (P ++ x1 :: R) ishape idx).
Proof.
  intros H. assert (A : adjoint 2 1 (ga_forward 0 0 [2] [1] [1]) (ga_backward 0 0 [2] [1] [1])).
  { apply (H [] 2 [] [1] [1] 0%nat); cbn; auto; try lia; try (repeat constructor; lia). intros a c Ha Hc. inversion Ha; subst. inversion Hc as [|i n c' s' Hi Hc']; subst. inversion Hc'; subst.
    cbn [app]. assert (i = 0) by lia. subst i. vm_compute. split; [discriminate|reflexivity]. }
  destruct (A false [1] [5; 5] eq_refl eq_refl) as (dx & E & _ & R). destruct (R [1; 0] [0] eq_refl eq_refl) as (y & F & I).
  vm_compute in E, F. inversion E; subst dx. inversion F; subst y. vm_compute in I. discriminate.
Qed.
Theorem C46_embed : forall ishape n rest ix, Forall (fun n => 0 <= n) ishape -> Forall (fun n => 0 <= n) rest -> 0 <= n ->
  Z.of_nat (length ix) = size ishape -> (forall c, inside c ishape -> 0 <= elem ix ishape c < n) ->
  adjoint (size (n :: rest)) (size (ishape ++ rest)) (em_forward ishape (n :: rest) ix) (em_backward ishape (n :: rest) ix).
Proof. intros ishape n rest ix PI PR Hn LI V. exact (proj2 (em_ok ishape n rest ix PI PR Hn LI V)). Qed.
Theorem C46_diag : forall C n, Forall (fun n => 0 <= n) C -> 0 < n ->
  adjoint (size (C ++ [n; n])) (size (C ++ [n])) (mdp_forward (C ++ [n; n])) (mdp_backward (C ++ [n; n])) /\
  adjoint (size (C ++ [n])) (size (C ++ [n; n])) (md_forward (C ++ [n])) (md_backward (C ++ [n])).
Proof. intros C n PC Hn. split; [exact (proj2 (mdp_ok C n PC Hn))|exact (proj2 (md_ok C n PC Hn))]. Qed.
Example C46_ex : shift_backward false [1] [3] false [1; 2; 4] [9; 9; 9] = Some [3; 4; 0] /\
  shift_backward false [1] [3] true [1; 2; 4] [10; 20; 30] = Some [13; 24; 30] /\
  flip_backward [0] [2] true [1; 2] [10; 20] = Some [12; 21] /\
  pad_backward PReflect [2] [1; 1] false [1; 2; 4; 8] [9; 9] = Some [10; 5] /\
  pad_backward PConstant [2] [1; 1] false [1; 2; 4; 8] [9; 9] = Some [2; 4] /\
  bc_backward [1; 2] [2; 2] false [1; 2; 4; 8] [9; 9] = Some [5; 10] /\
  transpose_backward [1; 0] [2; 2] true [1; 2; 4; 8] [10; 20; 30; 40] = Some [11; 24; 32; 48] /\
  gnd_backward [2] [1; 3] [0; 1; 0] false [1; 2; 4] [9; 9] = Some [5; 2] /\
  ga_backward 0 0 [2] [3] [0; 1; 0] true [1; 2; 4] [10; 20] = Some [15; 22] /\
  em_backward [2] [2; 2] [1; 1] false [1; 2; 4; 8] [9; 9; 9; 9] = Some [0; 0; 5; 10] /\
  mdp_backward [2; 2] false [1; 2] [9; 9; 9; 9] = Some [1; 0; 0; 2] /\
  md_backward [2] false [1; 2; 4; 8] [9; 9] = Some [1; 8].
Proof. repeat split; reflexivity. Qed.

Print Assumptions C44_shift_partial.
Print Assumptions C44_flip.
Print Assumptions C44_pad_constant.
Print Assumptions C44_pad_extend.
Print Assumptions C44_broadcast_partial.
Print Assumptions C44_transpose_partial.
Print Assumptions C45_gather_nd_partial.
Print Assumptions C45_gather_nd_checks_partial.
Print Assumptions C45_gather_partial.
Print Assumptions C45_embed_partial.
Print Assumptions C45_diag.
Print Assumptions C46_pad.
Print Assumptions C46_transpose.
Print Assumptions C46_gather_partial.
Print Assumptions C46_diag.
