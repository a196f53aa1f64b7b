(** Setup of a pooling, and its loops by positions. *)
From Coq Require Import List ZArith Lia Bool QArith Qcanon.
From Verif Require Import NdModel NdSpec NdProofs IdxModel IdxSpec IdxProofs1 IdxProofs2 IdxProofs3 IdxProofs6 JoinModel JoinSpec JoinProofs JoinProofs2 ScanModel ScanSpec ScanProofs1 ReduceModel ReduceSpec ReduceProofs1 SortProofs2 SortProofs3 ConvModel ConvSpec ConvProofs1 ConvProofs2 ConvProofs3 ConvProofs5 ConvProofs6 ConvProofs7 PoolModel PoolSpec PoolProofs1.
Import ListNotations.
Local Open Scope list_scope.
Local Open Scope Z_scope.

Lemma sensible_length w : forall S K St P, sensible w S K St P -> length K = length S /\ length St = length S /\ length P = length S.
Proof.
  induction S as [| n S IH]; intros [| k K] [| s St] [| p P] H; cbn [sensible] in H; try contradiction; [auto |].
  destruct H as (_ & _ & _ & _ & H). apply IH in H as (A & B & C). cbn [length]. auto.
Qed.
Lemma sensible_margin w : forall S K St P, sensible w S K St P -> Forall (fun p => 0 <= p) P.
Proof.
  induction S as [| n S IH]; intros [| k K] [| s St] [| p P] H; cbn [sensible] in H; try contradiction; [constructor |].
  destruct H as (_ & _ & B & _ & H). constructor; [lia | eapply IH; exact H].
Qed.
Lemma sensible_field w : forall S K St P, sensible w S K St P -> positive S.
Proof.
  induction S as [| n S IH]; intros [| k K] [| s St] [| p P] H; cbn [sensible] in H; try contradiction; [constructor |].
  destruct H as (B & _ & _ & _ & H). constructor; [lia | eapply IH; exact H].
Qed.
Lemma counts_ok w : forall S K St P, sensible w S K St P -> pool_extents w S K St P = Some (counts w S K St P) /\ positive (counts w S K St P) /\ length (counts w S K St P) = length S.
Proof.
  induction S as [| n S IH]; intros [| k K] [| s St] [| p P] H; cbn [sensible] in H; try contradiction; [repeat split; constructor |].
  destruct H as (B1 & B2 & B3 & B4 & H). apply IH in H as (A & B & C). cbn [pool_extents counts]. rewrite A. unfold divide. destruct (Z.eqb_spec s 0); [lia |].
  cbn [obind]. split; [| split; [constructor; [| exact B] | cbn [length]; lia]].
  - destruct w; [specialize (B4 eq_refl) |]; rewrite Z.quot_div_nonneg by lia; [replace (n + p - (k - p)) with (n + 2 * p - k) by lia |]; reflexivity.
  - destruct w; [specialize (B4 eq_refl); pose proof (Z.div_pos (n + 2 * p - k) s) | pose proof (Z.div_pos (n + p - 1) s)]; lia.
Qed.

(** A window of a sensible pooling contains an element. *)
Lemma spans_full w : forall S K St P o, sensible w S K St P -> inside o (counts w S K St P) ->
  Forall (fun ab => fst ab < snd ab) (clips S (spans o St P K S)) /\ Forall (fun ab => fst ab < snd ab) (spans o St P K S).
Proof.
  induction S as [| n S IH]; intros [| k K] [| s St] [| p P] o H I; cbn [sensible] in H; try contradiction; cbn [counts] in I; inversion I; subst; [split; constructor |].
  destruct H as (B1 & B2 & B3 & B4 & H). match goal with X : Forall2 _ _ _ |- _ => destruct (IH _ _ _ _ H X) as (A & B) end.
  cbn [spans]. unfold clips. cbn [combine map]. fold (clips S (spans l St P K S)). unfold clip, span. cbn [fst snd].
  assert (Q : x * s <= n + p - 1).
  { destruct w.
    - specialize (B4 eq_refl). assert (BX : 0 <= x < (n + 2 * p - k) / s + 1) by assumption. pose proof (Z.mul_div_le (n + 2 * p - k) s B2). pose proof (Z.mul_le_mono_nonneg_r x ((n + 2 * p - k) / s) s). lia.
    - assert (BX : 0 <= x < (n + p - 1) / s + 1) by assumption. pose proof (Z.mul_div_le (n + p - 1) s B2). pose proof (Z.mul_le_mono_nonneg_r x ((n + p - 1) / s) s). lia. }
  assert (0 <= x * s) by (apply Z.mul_nonneg_nonneg; lia).
  split; constructor; cbn [fst snd]; try assumption; lia.
Qed.
Lemma box_head l : Forall (fun ab => fst ab < snd ab) l -> exists r, box l = map fst l :: r.
Proof.
  induction 1 as [| [a b] l L _ (r & IH)]; [exists []; reflexivity |]. cbn [box map fst snd] in *. rewrite shifted_range, IH.
  replace (Z.to_nat (b - a)) with (S (Z.to_nat (b - a - 1))) by lia. cbn [range flat_map map app]. eexists. reflexivity.
Qed.
(** The number of places counted with the padding. *)
Lemma padded_size w : forall S K St P o, sensible w S K St P -> inside o (counts w S K St P) ->
  Z.of_nat (length (filter (covers St (map (fun _ => 0) P) K o) (indices (map (fun np => fst np + 2 * snd np) (combine S P))))) = pool_size (spans o St P K S).
Proof.
  intros S K St P o H I. pose proof (sensible_length _ _ _ _ _ H) as (L1 & L2 & L3). pose proof (counts_ok _ _ _ _ _ H) as (_ & _ & L4). pose proof (inside_length _ _ I) as L5.
  rewrite <- box_region; try (rewrite ?map_length, ?combine_length; lia); [| apply Forall_forall; intros z Z0; apply in_map_iff in Z0 as (? & <- & _); lia].
  assert (G : forall r, fold_left (fun r ab => r * (snd ab - fst ab)) (clips (map (fun np => fst np + 2 * snd np) (combine S P)) (spans o St (map (fun _ => 0) P) K (map (fun np => fst np + 2 * snd np) (combine S P)))) r =
    fold_left (fun r ab => r * (snd ab - fst ab)) (spans o St P K S) r /\
    Forall (fun ab => fst ab < snd ab) (clips (map (fun np => fst np + 2 * snd np) (combine S P)) (spans o St (map (fun _ => 0) P) K (map (fun np => fst np + 2 * snd np) (combine S P))))).
  { clear L1 L2 L3 L4 L5. revert K St P o H I. induction S as [| n S IH]; intros [| k K] [| s St] [| p P] o H I r; cbn [sensible] in H; try contradiction; cbn [counts] in I; inversion I; subst; [split; [reflexivity | constructor] |].
    pose proof (spans_full w (n :: S) (k :: K) (s :: St) (p :: P) _ H I) as (_ & F). cbn [spans] in F. apply Forall_inv in F. unfold span in F. cbn [fst snd] in F.
    destruct H as (B1 & B2 & B3 & B4 & H). match goal with X : Forall2 _ _ _ |- _ => pose proof (IH _ _ _ _ H X) as G end.
    cbn [combine map fst snd spans]. unfold clips. cbn [combine map fold_left fst snd].
    fold (clips (map (fun np => fst np + 2 * snd np) (combine S P)) (spans l St (map (fun _ => 0) P) K (map (fun np => fst np + 2 * snd np) (combine S P)))).
    assert (0 <= x * s) by (apply Z.mul_nonneg_nonneg; lia). split.
    - rewrite (proj1 (G _)). f_equal. unfold clip, span. cbn [fst snd]. f_equal. lia.
    - constructor; [| apply (proj2 (G 1))]. unfold clip, span. cbn [fst snd]. lia. }
  rewrite box_length.
  - unfold pool_size. apply (proj1 (G 1)).
  - eapply Forall_impl; [| apply (proj2 (G 1))]. intros; cbn beta in *; lia.
Qed.

Lemma cstrides_app A B : skipn (length A) (cstrides (A ++ B)) = cstrides B.
Proof. induction A as [| a A IH]; [reflexivity |]. cbn [app length]. rewrite cstrides_cons. cbn [skipn]. exact IH. Qed.
Lemma cstrides_nth A B d : (0 < length A)%nat -> nth (length A - 1) (cstrides (A ++ B)) d = size B.
Proof.
  induction A as [| a A IH]; intros H; [cbn in H; lia |]. cbn [app length]. rewrite cstrides_cons. destruct A as [| b A]; [reflexivity |].
  replace (S (length (b :: A)) - 1)%nat with (S (length (b :: A) - 1)) by (cbn [length]; lia). cbn [nth]. apply IH. cbn [length]. lia.
Qed.
Lemma map_size_ok A B : map_size (A ++ B) (length A) = size B.
Proof.
  unfold map_size. destruct (length A) eqn:L.
  - destruct A; [| discriminate]. apply prod_size.
  - pose proof (cstrides_nth A B 0) as H. rewrite L in H. replace (S n - 1)%nat with n in H by lia. apply H. lia.
Qed.

(** The loops over the index of the output are loops over its positions. *)
Lemma over_map_ok {T} sh (body : list Z -> Z -> T -> option T) t : nonneg sh -> over_map sh body t = loop (fun idx => body idx (off idx sh)) (indices sh) t.
Proof.
  intros N. unfold over_map. rewrite box_indices.
  enough (G : forall L k t, map (fun i => off i sh) L = range k (length L) -> obind (loop (fun idx '(k, t) => obind (body idx k t) (fun t => Some (k + 1, t))) L (k, t)) (fun '(_, t) => Some t) = loop (fun idx => body idx (off idx sh)) L t).
  { apply G. rewrite indices_off by exact N. f_equal. rewrite <- (map_length (fun i => off i sh)), indices_off by exact N. clear. generalize 0. induction (Z.to_nat (size sh)) as [| n IH]; intros z; [reflexivity |]. cbn [range length]. f_equal. apply IH. }
  induction L as [| i L IH]; intros k u E; [reflexivity |]. cbn [map length range] in E. injection E as E1 E2. cbn [loop]. rewrite E1.
  destruct (body i k u) as [v |]; [| reflexivity]. cbn [obind]. apply IH. exact E2.
Qed.
Lemma loop2 {T} (F : Z -> Z -> T -> option T) N Y s : 0 <= N -> 0 < Y -> loop (fun n => loop (F n) (upto Y)) (upto N) s = loop (fun q => F (q / Y) (q mod Y)) (upto (N * Y)) s.
Proof.
  intros HN HY. rewrite <- (Z2Nat.id N) by lia. induction (Z.to_nat N) as [| n IH]; [reflexivity |].
  rewrite upto_S, loop_app, IH. replace (Z.of_nat (S n) * Y) with (Z.of_nat n * Y + Y) by lia.
  assert (E : upto (Z.of_nat n * Y + Y) = upto (Z.of_nat n * Y) ++ map (Z.add (Z.of_nat n * Y)) (upto Y)).
  { rewrite shifted_range, !upto_range. replace (Z.to_nat (Z.of_nat n * Y + Y)) with (Z.to_nat (Z.of_nat n * Y) + Z.to_nat Y)%nat by nia. rewrite range_app. f_equal. f_equal. nia. }
  rewrite E, loop_app. destruct (loop _ (upto (Z.of_nat n * Y)) s) as [t |]; [| reflexivity]. cbn [obind loop].
  rewrite <- loop_map. rewrite (loop_ext (fun a => F ((Z.of_nat n * Y + a) / Y) ((Z.of_nat n * Y + a) mod Y)) (F (Z.of_nat n)) (upto Y)).
  - destruct (loop _ _ t); reflexivity.
  - intros a u I. apply upto_in in I. rewrite Z.div_add_l, Z.div_small by lia. rewrite Z.add_0_r, Z.add_comm, Z.mod_add, Z.mod_small by lia. reflexivity.
Qed.
