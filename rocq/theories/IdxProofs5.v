(** Transpose. *)
From Coq Require Import List ZArith Lia Bool Permutation.
From Verif Require Import NdModel NdSpec NdProofs IdxModel IdxSpec IdxProofs1 IdxProofs2 IdxProofs3.
Import ListNotations.
Local Open Scope list_scope.
Local Open Scope Z_scope.

Record good (axes shape : list Z) : Prop := {
  g_len : length axes = length shape;
  g_nodup : NoDup axes;
  g_bound : Forall (within (len shape)) axes;
  g_pos : positive shape }.
Lemma good_perm axes shape : good axes shape -> Permutation axes (range 0 (length shape)).
Proof.
  intros [L N B P]. apply NoDup_Permutation_bis; auto.
  - rewrite range_length, L. lia.
  - intros a Ha. rewrite Forall_forall in B. specialize (B a Ha). apply range_in. unfold within, len in B. lia.
Qed.
Lemma perm_good axes shape : Permutation axes (range 0 (length shape)) -> positive shape -> good axes shape.
Proof.
  intros H P. constructor; auto.
  - rewrite (Permutation_length H), range_length. auto.
  - apply (Permutation_NoDup (Permutation_sym H)). apply nodup_range.
  - apply Forall_forall. intros a Ha. apply (Permutation_in _ H), range_in in Ha. unfold within, len. lia.
Qed.

(** ** Permuted indices *)
Definition perm (axes l : list Z) : list Z := map (at_ l) axes.
Lemma dot_inner a : forall b, dot a b = inner a b.
Proof. induction a as [|x a IH]; intros [|y b]; cbn; auto; rewrite IH; auto. Qed.
Lemma dot_perm axes a b : Permutation axes (range 0 (length a)) -> dot (perm axes a) (perm axes b) = dot a b.
Proof.
  intros P. rewrite (dot_inner a b), (dot_inner (perm axes a)), (inner_at b a). rewrite <- (psum_perm (map (fun i => (i, i)) axes) _ a b (Permutation_map _ P)).
  unfold perm. clear P. induction axes as [|x axes IH]; cbn [map inner psum]; [auto|]. rewrite IH. ring.
Qed.
Lemma perm_inside axes shape j : good axes shape -> inside j shape -> inside (perm axes j) (perm axes shape).
Proof.
  intros [_ _ B _] I. unfold perm. induction B as [|a axes Ha B IH]; cbn [map]; constructor; auto.
  clear - I Ha. unfold within, len in Ha. unfold at_. revert Ha. generalize a as z. clear a. intros z H.
  assert (K : (Z.to_nat z < length shape)%nat) by lia. revert K. generalize (Z.to_nat z) as k. clear H z.
  induction I as [|i s j shape Hi I IH]; intros [|k] K; cbn in *; try lia; auto. apply IH. lia.
Qed.
Fixpoint find (a : Z) (axes : list Z) : nat := match axes with [] => O | x :: axes => if x =? a then O else S (find a axes) end.
Lemma find_ok axes : forall k, NoDup axes -> (k < length axes)%nat -> find (nth k axes 0) axes = k.
Proof.
  induction axes as [|x axes IH]; intros k N H; [cbn in H; lia|]. inversion N as [|? ? N1 N2]; subst. destruct k as [|k]; cbn [nth find].
  - rewrite Z.eqb_refl. auto.
  - cbn in H. destruct (Z.eqb_spec x (nth k axes 0)) as [E|E].
    + exfalso. apply N1. rewrite E. apply nth_In. lia.
    + rewrite IH; auto. lia.
Qed.
Lemma find_in a axes : In a axes -> (find a axes < length axes)%nat /\ nth (find a axes) axes 0 = a.
Proof.
  induction axes as [|x axes IH]; intros H; [inversion H|]. cbn [find length]. destruct (Z.eqb_spec x a) as [->|N]; [cbn; split; [lia|auto]|].
  destruct H as [H|H]; [congruence|]. destruct (IH H). cbn [nth]. split; [lia|auto].
Qed.
Definition unperm (axes idx : list Z) : list Z := map (fun a => nth (find a axes) idx 0) (range 0 (length axes)).
Lemma perm_unperm axes shape idx : good axes shape -> length idx = length axes -> perm axes (unperm axes idx) = idx.
Proof.
  intros G L. pose proof (g_len _ _ G) as GL. pose proof (g_nodup _ _ G) as GN. pose proof (g_bound _ _ G) as GB.
  apply (nth_ext _ _ 0 0); unfold perm; [rewrite map_length; auto|]. intros k Hk. rewrite map_length in Hk.
  rewrite (nth_indep _ 0 (at_ (unperm axes idx) 0)) by (rewrite map_length; auto). rewrite map_nth.
  assert (B : within (len shape) (nth k axes 0)) by (rewrite Forall_forall in GB; apply GB; apply nth_In; auto).
  unfold within, len in B. unfold at_, unperm.
  rewrite (nth_indep _ 0 ((fun a => nth (find a axes) idx 0) 0)) by (rewrite map_length, range_length; lia).
  rewrite (map_nth (fun a => nth (find a axes) idx 0)), range_nth by lia. rewrite Z.add_0_l, Z2Nat.id by lia.
  rewrite find_ok by auto. auto.
Qed.
Lemma unperm_inside axes shape idx : good axes shape -> inside idx (perm axes shape) -> inside (unperm axes idx) shape.
Proof.
  intros G I. pose proof (g_len _ _ G) as GL. pose proof (good_perm _ _ G) as GP.
  assert (X : forall k, (k < length shape)%nat -> 0 <= nth k (unperm axes idx) 0 < nth k shape 0).
  { intros k Hk. unfold unperm.
    rewrite (nth_indep _ 0 ((fun a => nth (find a axes) idx 0) 0)) by (rewrite map_length, range_length; lia).
    rewrite (map_nth (fun a => nth (find a axes) idx 0)), range_nth by lia. rewrite Z.add_0_l.
    assert (IN : In (Z.of_nat k) axes) by (apply (Permutation_in _ (Permutation_sym GP)), range_in; lia).
    destruct (find_in _ _ IN) as (F1 & F2). set (q := find (Z.of_nat k) axes) in *.
    assert (Y : forall (s i : list Z) q, inside i s -> (q < length s)%nat -> 0 <= nth q i 0 < nth q s 0).
    { clear. intros s i q I. revert q. induction I as [|x n i s Hx I IH]; intros [|q] H; cbn in *; try lia. apply IH. lia. }
    specialize (Y _ _ q I). unfold perm in Y. rewrite map_length in Y. specialize (Y F1).
    rewrite (nth_indep (map (at_ shape) axes) 0 (at_ shape 0)) in Y by (rewrite map_length; auto). rewrite (map_nth (at_ shape)) in Y.
    rewrite F2 in Y. unfold at_ in Y. rewrite Nat2Z.id in Y. exact Y. }
  assert (Lu : length (unperm axes idx) = length shape) by (unfold unperm; rewrite map_length, range_length; auto).
  clear - X Lu. revert Lu X. generalize (unperm axes idx) as j. induction shape as [|n s IH]; intros [|i j] L X; try discriminate; [constructor|].
  constructor; [apply (X 0%nat); cbn; lia|]. apply IH; [cbn in L; lia|]. intros k Hk. apply (X (S k)). cbn. lia.
Qed.
Lemma perm_length axes l : length (perm axes l) = length axes. Proof. apply map_length. Qed.
Lemma perm_positive axes shape : good axes shape -> positive (perm axes shape).
Proof.
  intros [_ _ B P]. unfold perm. apply Forall_map. eapply Forall_impl; [|exact B]. intros a Ha. unfold within, len in Ha. cbn.
  unfold at_. unfold positive in P. rewrite Forall_forall in P. apply P. apply nth_In. lia.
Qed.
Lemma perm_size axes shape : good axes shape -> size (perm axes shape) = size shape.
Proof.
  intros G. pose proof (good_perm _ _ G) as P.
  assert (S1 : forall l l', Permutation l l' -> size l = size l') by (induction 1; cbn [size]; lia).
  rewrite (S1 _ (perm (range 0 (length shape)) shape)).
  - f_equal. unfold perm. apply (nth_ext _ _ 0 0); [rewrite map_length, range_length; auto|]. intros k Hk. rewrite map_length, range_length in Hk.
    rewrite (nth_indep _ 0 (at_ shape 0)) by (rewrite map_length, range_length; auto). rewrite map_nth, range_nth by auto. unfold at_. f_equal. lia.
  - unfold perm. apply Permutation_map. auto.
Qed.

(** ** Compacting *)
Definition tdesc (axes shape : list Z) : list (Z * (Z -> option Z)) :=
  map (fun a => (at_ shape a, fun i => Some (i * at_ (cstrides shape) a))) axes.
Lemma tdesc_srcs axes shape : srcs (tdesc axes shape) = map (fun idx => Some (dot idx (perm axes (cstrides shape)))) (indices (perm axes shape)).
Proof.
  rewrite srcs_osum. unfold tdesc at 2. rewrite map_map. cbn [fst]. fold (perm axes shape). apply map_ext_in. intros idx Hi. apply indices_in, inside_length in Hi.
  rewrite perm_length in Hi. revert idx Hi. unfold perm, tdesc. induction axes as [|a axes IH]; intros [|i idx] L; try discriminate; cbn [map osum dot]; [auto|].
  rewrite IH by (cbn in L; lia). reflexivity.
Qed.
Lemma srcs_prefix P X Y : srcs X = srcs Y -> srcs (P ++ X) = srcs (P ++ Y).
Proof. intros H. induction P as [|[n h] P IH]; cbn [app srcs]; [auto|]. rewrite IH. auto. Qed.
Lemma cstrides_at s : forall k, (k < length s)%nat -> nth k (cstrides s) 0 = size (skipn (S k) s).
Proof.
  induction s as [|n s IH]; intros k H; [cbn in H; lia|]. rewrite cstrides_cons. destruct k as [|k]; [reflexivity|]. cbn [nth]. rewrite IH by (cbn in H; lia). reflexivity.
Qed.
Section Merge.
Variables (A B : list Z) (np nt : Z).
Let old := A ++ np :: nt :: B.
Let new := A ++ np * nt :: B.
Let p := Z.of_nat (length A).
Let g (a : Z) : Z := if p + 1 <? a then a - 1 else a.
Lemma info_other a : within (len old) a -> a <> p -> a <> p + 1 ->
  within (len new) (g a) /\ at_ new (g a) = at_ old a /\ at_ (cstrides new) (g a) = at_ (cstrides old) a.
Proof.
  unfold within, len, old, new, g. rewrite !app_length. cbn [length]. intros H N1 N2.
  destruct (Z.ltb_spec (p + 1) a) as [C|C].
  - assert (K : exists k, Z.to_nat a = (length A + S (S k))%nat /\ Z.to_nat (a - 1) = (length A + S k)%nat).
    { exists (Z.to_nat a - length A - 2)%nat. unfold p in *. lia. }
    destruct K as (k & K1 & K2). split; [lia|]. unfold at_. rewrite K1, K2.
    rewrite !cstrides_at by (rewrite app_length; cbn [length]; lia). rewrite !app_nth2_plus.
    split; [reflexivity|]. f_equal.
    rewrite !skipn_app. replace (S (length A + S k) - length A)%nat with (S (S k)) by lia. replace (S (length A + S (S k)) - length A)%nat with (S (S (S k))) by lia.
    rewrite (skipn_all2 (n := S (length A + S k))), (skipn_all2 (n := S (length A + S (S k)))) by lia. reflexivity.
  - assert (K : (Z.to_nat a < length A)%nat) by (unfold p in *; lia). split; [lia|]. unfold at_.
    rewrite !cstrides_at by (rewrite app_length; cbn [length]; lia). rewrite !app_nth1 by auto. split; [auto|].
    rewrite !skipn_app. replace (S (Z.to_nat a) - length A)%nat with 0%nat by lia. cbn [skipn]. rewrite !size_app. cbn [size]. ring.
Qed.
Lemma g_inj a b : a <> p + 1 -> b <> p + 1 -> g a = g b -> a = b.
Proof. unfold g. destruct (Z.ltb_spec (p + 1) a), (Z.ltb_spec (p + 1) b); lia. Qed.
Lemma merge_good U W : good (U ++ p :: p + 1 :: W) old ->
  good (map g (U ++ p :: W)) new /\ srcs (tdesc (map g (U ++ p :: W)) new) = srcs (tdesc (U ++ p :: p + 1 :: W) old).
Proof.
  intros [L N Bd P].
  assert (Q : 0 < np /\ 0 < nt).
  { pose proof P as P'. unfold old, positive in P'. apply Forall_app in P' as (_ & P2). inversion P2 as [|? ? Q1 P3]; subst. inversion P3 as [|? ? Q2 P4]; subst. auto. }
  assert (Eg : g p = p) by (unfold g; destruct (Z.ltb_spec (p + 1) p); lia).
  assert (NT : ~ In (p + 1) (U ++ p :: W)).
  { pose proof (NoDup_remove_2 (U ++ [p]) W (p + 1)) as X. rewrite <- !app_assoc in X. cbn [app] in X. auto. }
  assert (N' : NoDup (U ++ p :: W)).
  { pose proof (NoDup_remove_1 (U ++ [p]) W (p + 1)) as X. rewrite <- !app_assoc in X. cbn [app] in X. auto. }
  assert (NP : ~ In p (U ++ W)) by (apply NoDup_remove_2; auto).
  assert (Bd' : forall a, In a (U ++ W) -> within (len old) a /\ a <> p /\ a <> p + 1).
  { intros a Ha. rewrite Forall_forall in Bd. split; [apply Bd; apply in_app_or in Ha; apply in_or_app; cbn [In]; tauto|].
    split; [congruence|]. intros ->. apply NT. apply in_app_or in Ha. apply in_or_app. cbn [In]. tauto. }
  split.
  - constructor.
    + revert L. unfold old, new. rewrite map_length, !app_length. cbn [length]. lia.
    + assert (NI : forall l, ~ In (p + 1) l -> NoDup l -> NoDup (map g l)).
      { induction l as [|x l IH]; intros X Y; cbn [map]; constructor; inversion Y as [|? ? Y1 Y2]; subst.
        - intros H. apply in_map_iff in H as (z & Ez & Hz). apply g_inj in Ez; [subst; auto| |]; intros ->; apply X; cbn; auto.
        - apply IH; auto. intros H. apply X. right. auto. }
      apply NI; auto.
    + apply Forall_map, Forall_forall. intros a Ha. destruct (Z.eq_dec a p) as [->|Na].
      * rewrite Eg. unfold within, len, new, p. rewrite app_length. cbn [length]. lia.
      * apply info_other; apply Bd'; apply in_app_or in Ha; apply in_or_app; cbn [In] in Ha; destruct Ha as [?|[?|?]]; auto; congruence.
    + unfold new. unfold old in P. unfold positive in *. apply Forall_app in P as (P1 & P2). inversion P2 as [|? ? Q1 P3]; subst. inversion P3 as [|? ? Q2 P4]; subst.
      apply Forall_app. split; [auto|]. constructor; [nia|auto].
  - unfold tdesc. rewrite map_map, !map_app. cbn [map].
    assert (E : forall l, (forall a, In a l -> In a (U ++ W)) ->
      map (fun a => (at_ new (g a), fun i => Some (i * at_ (cstrides new) (g a)))) l = map (fun a => (at_ old a, fun i => Some (i * at_ (cstrides old) a))) l).
    { intros l Hl. apply map_ext_in. intros a Ha. destruct (Bd' a (Hl a Ha)) as (X1 & X2 & X3). destruct (info_other a X1 X2 X3) as (_ & E1 & E2). rewrite E1, E2. auto. }
    rewrite (E U), (E W) by (intros a Ha; apply in_or_app; auto). apply srcs_prefix. rewrite Eg.
    assert (I1 : at_ old p = np) by (unfold at_, old, p; rewrite Nat2Z.id, app_nth2, Nat.sub_diag by lia; auto).
    assert (I2 : at_ old (p + 1) = nt).
    { unfold at_, old, p. replace (Z.to_nat (Z.of_nat (length A) + 1)) with (length A + 1)%nat by lia. rewrite app_nth2_plus. auto. }
    assert (I3 : at_ new p = np * nt) by (unfold at_, new, p; rewrite Nat2Z.id, app_nth2, Nat.sub_diag by lia; auto).
    assert (SK : forall (l q : list Z) n, skipn (length l + n) (l ++ q) = skipn n q) by (intros l q n; rewrite skipn_app, skipn_all2 by lia; replace (length l + n - length l)%nat with n by lia; auto).
    assert (I4 : at_ (cstrides old) p = nt * size B).
    { unfold at_, old, p. rewrite Nat2Z.id, cstrides_at by (rewrite app_length; cbn [length]; lia). replace (S (length A)) with (length A + 1)%nat by lia. rewrite SK. auto. }
    assert (I5 : at_ (cstrides old) (p + 1) = size B).
    { unfold at_, old, p. replace (Z.to_nat (Z.of_nat (length A) + 1)) with (length A + 1)%nat by lia. rewrite cstrides_at by (rewrite app_length; cbn [length]; lia).
      replace (S (length A + 1)) with (length A + 2)%nat by lia. rewrite SK. auto. }
    assert (I6 : at_ (cstrides new) p = size B).
    { unfold at_, new, p. rewrite Nat2Z.id, cstrides_at by (rewrite app_length; cbn [length]; lia). replace (S (length A)) with (length A + 1)%nat by lia. rewrite SK. auto. }
    rewrite I1, I2, I3, I4, I5, I6. symmetry.
    apply srcs_merge; lia.
Qed.
End Merge.

Lemma split_at2 (l : list Z) k : (S k < length l)%nat -> exists A x y B, l = A ++ x :: y :: B /\ length A = k.
Proof.
  intros H. destruct (nth_split l 0 (n := k)) as (A & R & E & L); [lia|]. destruct R as [|y B].
  - apply (f_equal (@length Z)) in E. rewrite app_length in E. cbn in E. lia.
  - exists A, (nth k l 0), y, B. auto.
Qed.
Lemma erase_app {X} (A : list X) x B : erase (length A) (A ++ x :: B) = A ++ B.
Proof. induction A as [|a A IH]; cbn; [auto|]. rewrite IH. auto. Qed.
Lemma wr_app A x B v : wr (A ++ x :: B) (Z.of_nat (length A)) v = Some (A ++ v :: B).
Proof.
  unfold wr. destruct (Z.ltb_spec (Z.of_nat (length A)) 0); [lia|]. rewrite Nat2Z.id. induction A as [|a A IH]; cbn [app length wr_nat]; [auto|].
  rewrite IH by lia. auto.
Qed.
Lemma compact_ok fuel : forall i axes shape, good axes shape -> (1 <= i)%nat -> (2 * length axes < fuel + i)%nat -> (i <= length axes)%nat ->
  exists axes' shape', compact fuel i axes shape = Some (axes', shape') /\ good axes' shape' /\ (1 <= length axes')%nat /\
    srcs (tdesc axes' shape') = srcs (tdesc axes shape).
Proof.
  induction fuel as [|fuel IH]; intros i axes shape G Hi F Ne.
  - exists axes, shape. exfalso. lia.
  - cbn [compact]. destruct (Nat.ltb_spec i (length axes)) as [Lt|Ge]; [|exists axes, shape; split; [auto|split; [auto|split; [lia|auto]]]].
    destruct (split_at2 axes (i - 1)) as (U & p & t & W & E & LU); [lia|].
    assert (N1 : nth_error axes i = Some t).
    { rewrite E, nth_error_app2 by lia. replace (i - length U)%nat with 1%nat by lia. auto. }
    assert (N2 : nth_error axes (i - 1) = Some p).
    { rewrite E, nth_error_app2 by lia. replace (i - 1 - length U)%nat with 0%nat by lia. auto. }
    rewrite N1, N2. cbn [obind]. destruct (Z.eqb_spec t (p + 1)) as [->|Nt].
    + assert (Bp : within (len shape) p /\ within (len shape) (p + 1)).
      { pose proof (g_bound _ _ G) as B. rewrite Forall_forall in B. split; apply B; rewrite E; apply in_or_app; cbn; auto. }
      unfold within, len in Bp. destruct (split_at2 shape (Z.to_nat p)) as (A & np & nt & B & Es & LA); [lia|].
      assert (Ep : p = Z.of_nat (length A)) by lia.
      assert (V1 : vget shape p = Some np).
      { unfold vget. destruct (Z.ltb_spec p 0); [lia|]. rewrite Es, nth_error_app2 by lia. rewrite LA, Nat.sub_diag. auto. }
      assert (V2 : vget shape (p + 1) = Some nt).
      { unfold vget. destruct (Z.ltb_spec (p + 1) 0); [lia|]. rewrite Es, nth_error_app2 by lia. replace (Z.to_nat (p + 1) - length A)%nat with 1%nat by lia. auto. }
      rewrite V1, V2. cbn [obind].
      assert (V3 : wr shape p (np * nt) = Some (A ++ np * nt :: nt :: B)) by (rewrite Es, Ep; apply wr_app).
      rewrite V3. cbn [obind].
      assert (V4 : erase i axes = U ++ p :: W).
      { rewrite E. replace i with (length (U ++ [p])) by (rewrite app_length; cbn; lia). replace (U ++ p :: p + 1 :: W) with ((U ++ [p]) ++ p + 1 :: W) by (rewrite <- app_assoc; auto).
        rewrite erase_app, <- app_assoc. auto. }
      assert (V5 : erase (Z.to_nat (p + 1)) (A ++ np * nt :: nt :: B) = A ++ np * nt :: B).
      { replace (Z.to_nat (p + 1)) with (length (A ++ [np * nt])) by (rewrite app_length; cbn; lia). replace (A ++ np * nt :: nt :: B) with ((A ++ [np * nt]) ++ nt :: B) by (rewrite <- app_assoc; auto).
        rewrite erase_app, <- app_assoc. auto. }
      rewrite V4, V5. rewrite E, Es in G. rewrite Ep in G. destruct (merge_good A B np nt U W G) as (G' & SS). rewrite <- Ep in *.
      destruct (IH i (map (fun a => if p + 1 <? a then a - 1 else a) (U ++ p :: W)) (A ++ np * nt :: B)) as (axes' & shape' & C & G2 & Ne' & S').
      * exact G'.
      * auto.
      * rewrite map_length. rewrite E in F. rewrite app_length in *. cbn [length] in *. lia.
      * rewrite map_length. rewrite E in Lt. rewrite app_length in *. cbn [length] in *. lia.
      * exists axes', shape'. split; [exact C|]. split; [auto|]. split; [auto|]. rewrite S', E, Es. exact SS.
    + apply IH; auto; lia.
Qed.

(** ** The whole function *)
Lemma omap_vget l axes : Forall (within (len l)) axes -> omap (vget l) axes = Some (perm axes l).
Proof.
  induction 1 as [|a axes Ha H IH]; cbn [omap]; [reflexivity|]. rewrite IH. unfold vget, within, len in *. destruct (Z.ltb_spec a 0); [lia|].
  rewrite (nth_error_nth' l 0) by lia. reflexivity.
Qed.
Lemma strides_cstrides s : s <> [] -> strides s = Some (cstrides s).
Proof. destruct s as [|n s]; [congruence|]. intros _. rewrite strides_sfx, cstrides_sfx. auto. Qed.
Lemma scatter_ok ps : forall l, Forall (fun p => within (len l) (fst p)) ps -> NoDup (map fst ps) ->
  exists r, scatter ps l = Some r /\ length r = length l /\ (forall j, 0 <= j -> ~ In j (map fst ps) -> at_ r j = at_ l j) /\
  forall a v, In (a, v) ps -> at_ r a = v.
Proof.
  induction ps as [|[a v] ps IH]; intros l B N; cbn [scatter].
  - exists l. split; [auto|]. split; [auto|]. split; [auto|]. intros ? ? [].
  - inversion B as [|? ? Ha B']; subst. cbn [map fst] in *. inversion N as [|? ? N1 N2]; subst.
    destruct (wr_ok l a v Ha) as (r & E & L & J & _). rewrite E. cbn [obind]. destruct (IH r) as (r' & E' & L' & K & I); auto.
    { unfold len in *. rewrite L. auto. }
    unfold within in Ha. exists r'. split; [auto|]. split; [congruence|]. split.
    + intros j Hj H. cbn [In] in H. rewrite K, J by tauto. destruct (Z.eqb_spec j a); [subst; tauto|auto].
    + intros a' v' [H|H]; [|auto]. inversion H; subst. rewrite K, J, Z.eqb_refl by (auto; lia). auto.
Qed.
Lemma distinct_ok l : NoDup l -> distinct l = true.
Proof.
  induction 1 as [|a l N H IH]; cbn [distinct]; [auto|]. rewrite IH, andb_true_r. apply negb_true_iff.
  apply not_true_iff_false. intros E. apply existsb_exists in E as (x & Hx & E). apply Z.eqb_eq in E. subst. auto.
Qed.
Lemma tr_pairs_ok shape st : positive shape ->
  tr_pairs shape st = Some (map (fun idx => (off idx shape, dot idx st)) (indices shape)).
Proof.
  intros P. unfold tr_pairs. rewrite (zeros_map shape) by auto. rewrite visit_all by auto. cbn [obind]. f_equal.
  rewrite upto_range. pose proof (indices_length shape (positive_nonneg _ P)) as L. rewrite L, <- (indices_off shape (positive_nonneg _ P)). apply combine_map.
Qed.

Theorem transpose_ok axes shape : shape <> [] -> good axes shape -> exists t,
  tr_setup axes shape = Some t /\ exists ps qs, tr_pairs (t_yshape t) (t_xstt t) = Some ps /\ tr_pairs (t_xshape t) (t_ystt t) = Some qs /\
  somed ps = combine (range 0 (Z.to_nat (size shape))) (srcs (tdesc axes shape)) /\
  map fst ps = range 0 (Z.to_nat (size shape)) /\ map fst qs = range 0 (Z.to_nat (size shape)) /\
  bounded ps (size shape) (size shape) /\ Permutation (map swap ps) qs.
Proof.
  intros NE G. destruct (compact_ok (S (2 * length axes)) 1 axes shape G) as (axes' & shape' & C & G' & Ne' & SS).
  { lia. } { lia. } { rewrite (g_len _ _ G). destruct shape; [congruence|cbn; lia]. }
  assert (NE' : shape' <> []). { pose proof (g_len _ _ G') as X. intros ->. cbn in X. lia. }
  assert (NEy : perm axes' shape' <> []). { intros H. apply (f_equal (@length Z)) in H. rewrite perm_length in H. cbn in H. lia. }
  pose proof (good_perm _ _ G') as GP. pose proof (g_bound _ _ G') as GB. pose proof (g_len _ _ G') as GL. pose proof (g_nodup _ _ G') as GN.
  destruct (scatter_ok (combine axes' (cstrides (perm axes' shape'))) (repeat 0 (length axes'))) as (ystt & Esc & Lsc & _ & Hsc).
  { apply Forall_forall. intros [a v] Hi. apply in_combine_l in Hi. rewrite Forall_forall in GB. specialize (GB a Hi). cbn [fst]. unfold within, len in *. rewrite repeat_length. lia. }
  { assert (FC : forall (a b : list Z), length a = length b -> map fst (combine a b) = a) by (induction a as [|x a IHa]; intros b H; destruct b as [|y b]; try discriminate; cbn; f_equal; auto).
    rewrite FC; auto. rewrite cstrides_length, perm_length. auto. }
  assert (PY : perm axes' ystt = cstrides (perm axes' shape')).
  { assert (LL : length (cstrides (perm axes' shape')) = length axes') by (rewrite cstrides_length, perm_length; auto).
    clear - Hsc LL. unfold perm in *. revert Hsc LL. generalize (cstrides (map (at_ shape') axes')) as v. induction axes' as [|a axes' IH]; intros [|x v] H L; try discriminate; [auto|].
    cbn [map]. rewrite (H a x) by (left; auto). f_equal. apply IH; [|cbn in L; lia]. intros b w Hb. apply H. right. auto. }
  exists {| t_xshape := shape'; t_yshape := perm axes' shape'; t_xstt := perm axes' (cstrides shape'); t_ystt := ystt |}.
  split.
  { unfold tr_setup. rewrite refine_axes_ok; [|eapply Forall_impl; [|exact (g_bound _ _ G)]; intros a Ha; unfold within, len in Ha; cbn; lia].
    cbn [obind]. rewrite (g_len _ _ G), Nat.eqb_refl, (distinct_ok _ (g_nodup _ _ G)). cbn [andb]. rewrite (omap_vget shape axes (g_bound _ _ G)). cbn [obind].
    rewrite (g_len _ _ G) in C. rewrite C. cbn [obind]. rewrite (omap_vget shape' axes' GB). cbn [obind].
    rewrite (strides_cstrides shape'), (strides_cstrides (perm axes' shape')) by auto. cbn [obind].
    rewrite (omap_vget (cstrides shape') axes') by (unfold len in *; rewrite cstrides_length; auto). cbn [obind]. rewrite Esc. reflexivity. }
  cbn [t_xshape t_yshape t_xstt t_ystt].
  pose proof (perm_positive _ _ G') as PPy. pose proof (g_pos _ _ G') as PPx. pose proof (perm_size _ _ G') as PS.
  eexists. eexists. split; [apply tr_pairs_ok; auto|]. split; [apply tr_pairs_ok; auto|].
  assert (S1 : size shape' = size shape).
  { apply (f_equal (@length (option Z))) in SS. rewrite !tdesc_srcs, !map_length in SS.
    pose proof (indices_length _ (positive_nonneg _ PPy)) as I1. pose proof (indices_length _ (positive_nonneg _ (perm_positive _ _ G))) as I2.
    rewrite perm_size in I1, I2 by auto. lia. }
  assert (FWD : forall j, inside j shape' -> dot (perm axes' j) (perm axes' (cstrides shape')) = off j shape').
  { intros j Hj. rewrite dot_perm; [apply dot_cstrides; auto|]. rewrite (inside_length _ _ Hj). auto. }
  assert (BWD : forall j, inside j shape' -> dot j ystt = off (perm axes' j) (perm axes' shape')).
  { intros j Hj. rewrite <- (dot_perm axes' j ystt) by (rewrite (inside_length _ _ Hj); auto). rewrite PY. apply dot_cstrides. apply perm_inside; auto. }
  split.
  { rewrite <- SS, tdesc_srcs, <- S1, <- PS, <- (indices_off _ (positive_nonneg _ PPy)), combine_map. unfold somed. rewrite map_map. reflexivity. }
  split. { rewrite map_map. cbn [fst]. rewrite indices_off by (apply positive_nonneg; auto). rewrite PS, S1. auto. }
  split. { rewrite map_map. cbn [fst]. rewrite indices_off by (apply positive_nonneg; auto). rewrite S1. auto. }
  split.
  { apply Forall_map, Forall_forall. intros idx Hi. apply indices_in in Hi. cbn [fst snd]. split.
    - pose proof (off_bound _ _ Hi) as X. rewrite PS, S1 in X. exact X.
    - rewrite <- (perm_unperm axes' shape' idx G') by (rewrite (inside_length _ _ Hi); apply perm_length).
      pose proof (unperm_inside _ _ _ G' Hi) as U. rewrite FWD by auto. rewrite <- S1. apply off_bound. auto. }
  apply NoDup_Permutation.
  - apply FinFun.Injective_map_NoDup; [intros [a b] [c d] H; unfold swap in H; cbn in H; congruence|]. apply nodup_fst. rewrite map_map. cbn [fst].
    rewrite indices_off by (apply positive_nonneg; auto). apply nodup_range.
  - apply nodup_fst. rewrite map_map. cbn [fst]. rewrite indices_off by (apply positive_nonneg; auto). apply nodup_range.
  - intros [a b]. rewrite map_map. unfold swap. cbn [fst snd]. rewrite !in_map_iff. split.
    + intros (idx & E & Hi). apply indices_in in Hi. pose proof (unperm_inside _ _ _ G' Hi) as U.
      assert (EU : perm axes' (unperm axes' idx) = idx) by (apply (perm_unperm axes' shape'); auto; rewrite (inside_length _ _ Hi); apply perm_length).
      exists (unperm axes' idx). split; [|apply indices_in; auto]. rewrite <- E, BWD, EU, <- (FWD _ U), EU by auto. auto.
    + intros (j & E & Hj). apply indices_in in Hj. exists (perm axes' j). split; [|apply indices_in; apply perm_inside; auto].
      rewrite <- E, FWD, BWD by auto. auto.
Qed.
