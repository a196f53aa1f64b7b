(** Batch normalization: in terms of shapes and positions. *)
From Coq Require Import List ZArith Lia Bool Reals Lra.
From Verif Require Import NdModel NdSpec NdProofs IdxModel IdxSpec IdxProofs1 IdxProofs2 IdxProofs3 IdxProofs6 JoinModel JoinSpec JoinProofs JoinProofs2 ScanModel ScanProofs1 ScanProofs4 ReduceProofs1 ConvProofs3 SortProofs3 BinModel ActModel ActSpec ActProofs1 ActProofs2 ActProofs4 SmSpec SmModel SmProofs1 SmProofs2 SmProofs3 SmProofs5 BnSpec BnModel BnProofs1 BnProofs2 BnProofs3 BnProofs4 BnProofs5.
Import ListNotations.
Local Open Scope list_scope.
Local Open Scope Z_scope.

Section shapes.
Variables (A B : list Z) (n : Z).
Hypothesis PA : positive A.
Hypothesis Pn : 0 < n.
Hypothesis PB : positive B.
Local Notation sh := (A ++ n :: B).
Local Notation a := (length A).
Local Notation s0 := (size A).
Local Notation s2 := (size B).
Local Notation K := (s0 * s2).
Local Notation pos := (pos n s2).
Lemma Q0 : 0 < s0.
Proof using PA. apply size_pos; exact PA. Qed.
Lemma Q2 : 0 < s2.
Proof using PB. apply size_pos; exact PB. Qed.
Lemma size_is : size sh = s0 * n * s2.
Proof using. rewrite size_app. cbn [size]. ring. Qed.
Lemma channel_is e : channel_of sh a e = (e / s2) mod n.
Proof using.
  unfold channel_of. replace (skipn (S a) sh) with B; [replace (nth a sh 1) with n; [reflexivity |] |].
  - rewrite app_nth2, Nat.sub_diag by lia. reflexivity.
  - rewrite skipn_app. replace (S a - a)%nat with 1%nat by lia. rewrite skipn_all2 by lia. reflexivity.
Qed.
Lemma over_is c f : 0 <= c < n -> over_channel sh a c f = rsum K (fun k => f (pos c k)).
Proof using PA Pn PB.
  intros C. unfold over_channel. rewrite size_is. rewrite (rsum_ext _ _ (fun e => if (e / s2) mod n =? c then f e else 0%R)) by (intros; rewrite channel_is; reflexivity). apply rsum_chan; [exact Q0 | exact Pn | exact Q2 | exact C].
Qed.
Lemma count_is c : 0 <= c < n -> count_of sh a c = IZR K.
Proof using PA Pn PB. intros C. unfold count_of. rewrite over_is, rsum_const by (pose proof Q0; pose proof Q2; first [exact C | nia]). ring. Qed.
Lemma mean_is x c : 0 <= c < n -> mean_of sh a x c = cmean s0 n s2 (el x) c.
Proof using PA Pn PB. intros C. unfold mean_of. rewrite over_is, count_is by exact C. reflexivity. Qed.
Lemma deviations_is x c : 0 <= c < n -> deviations sh a x c = rsum K (fun k => (el x (pos c k) - cmean s0 n s2 (el x) c) * (el x (pos c k) - cmean s0 n s2 (el x) c))%R.
Proof using PA Pn PB. intros C. unfold deviations. rewrite over_is, mean_is by exact C. reflexivity. Qed.
Lemma var_is x c : 0 <= c < n -> var_of sh a x c = cvar s0 n s2 (el x) c.
Proof using PA Pn PB. intros C. unfold var_of. rewrite deviations_is, count_is, (cvar_dev s0 n s2 Q0 Q2) by exact C. reflexivity. Qed.
Lemma channel_range e : 0 <= channel_of sh a e < n.
Proof using Pn. rewrite channel_is. apply Z.mod_pos_bound. exact Pn. Qed.
Lemma at_onto e : 0 <= e < size sh -> exists c k, 0 <= c < n /\ 0 <= k < K /\ e = pos c k /\ channel_of sh a e = c.
Proof using PA Pn PB.
  rewrite size_is. intros H. destruct (pos_onto s0 n s2 Q0 Pn Q2 e H) as (c & k & C & Hk & ->). exists c, k. split; [exact C |]. split; [exact Hk |]. split; [reflexivity |]. rewrite channel_is. apply (chan_pos s0 n s2 Q0 Pn Q2); assumption.
Qed.
(** The coordinate of an index. *)
Lemma channel_index p k r : inside p A -> 0 <= k < n -> inside r B -> channel_of sh a (position 0 (p ++ k :: r) sh) = k.
Proof using PA Pn PB.
  intros Hp Hk Hr. rewrite channel_is, (SmProofs5.pos_at A B) by assumption. unfold at3. pose proof (off_bound r B Hr). rewrite Z.div_add_l, (Z.div_small (off r B)) by lia. rewrite Z.add_0_r, Z.add_comm, Z.mod_add, Z.mod_small by lia. reflexivity.
Qed.
Lemma count_more c : 0 <= c < n -> (count_of sh a c - 1 <> 0)%R -> (K - 1 =? 0) = false.
Proof using PA Pn PB. intros C H. rewrite count_is in H by exact C. apply Z.eqb_neq. intros E. apply H. replace K with 1 by lia. ring. Qed.
Lemma running_is decay x c r : 0 <= c < n -> (count_of sh a c <> 1)%R ->
  running_var decay K (cvar s0 n s2 (el x) c) (Some r) = Some (decay * r + (1 - decay) * unbiased_of sh a x c)%R.
Proof using PA Pn PB.
  intros C H. unfold running_var. rewrite (count_more c C) by (intros E; apply H; lra). f_equal. unfold unbiased_of. rewrite deviations_is, count_is by exact C. rewrite count_is in H by exact C. rewrite (cvar_dev s0 n s2 Q0 Q2). rewrite minus_IZR.
  pose proof (K_real s0 s2 Q0 Q2). field. split; lra.
Qed.
End shapes.

Lemma setup_cond A B n axis batch_stat no_scale no_bias rest nout : positive A -> 0 < n -> positive B -> denotes axis (length A) (length (A ++ n :: B)) ->
  let good := Z.of_nat (length rest) = 2 + (if no_scale : bool then 0 else 1) + (if no_bias : bool then 0 else 1) /\ Forall (fun s => s = repeat 1 (length A) ++ n :: repeat 1 (length B)) rest /\ (nout = 1 \/ nout = 3 /\ batch_stat = true) in
  (good -> bn_setup [axis] batch_stat no_scale no_bias ((A ++ n :: B) :: rest) nout = Some (size A, n, size B)) /\
  (~ good -> bn_setup [axis] batch_stat no_scale no_bias ((A ++ n :: B) :: rest) nout = None).
Proof.
  intros PA Pn PB D good.
  assert (RF : refined axis (A ++ n :: B) = length A).
  { unfold refined, denotes in *. rewrite app_length in *. cbn [length] in *. destruct (Z.ltb_spec axis 0); lia. }
  assert (SH : bn_shape (length A) (A ++ n :: B) = repeat 1 (length A) ++ n :: repeat 1 (length B)).
  { unfold bn_shape. rewrite app_nth2, Nat.sub_diag by lia. cbn [nth]. rewrite app_length. cbn [length]. replace (length A + S (length B) - S (length A))%nat with (length B) by lia. reflexivity. }
  assert (SZ : (size A * n * size B =? size_from (A ++ n :: B) 0) = true).
  { apply Z.eqb_eq. rewrite size_from_0, size_app. cbn [size]. ring. }
  set (E := repeat 1 (length A) ++ n :: repeat 1 (length B)) in *.
  assert (SS : forall s, same_shape E s = true <-> s = E) by (intros s; unfold same_shape; destruct (list_eq_dec Z.eq_dec E s); split; intros; congruence).
  assert (OUT : negb batch_stat && negb (nout =? 1) = false /\ negb ((nout =? 1) || (nout =? 3)) = false <-> (nout = 1 \/ nout = 3 /\ batch_stat = true)).
  { destruct batch_stat, (Z.eqb_spec nout 1), (Z.eqb_spec nout 3); cbn [negb andb orb]; split; try (intros [H1 H2]; try discriminate); try (intros [H1 | [H1 H2]]); try discriminate; try lia; auto. }
  unfold bn_setup.
  assert (LEN : Z.of_nat (length rest) <> 2 + (if no_scale : bool then 0 else 1) + (if no_bias : bool then 0 else 1) -> bn_roles no_scale no_bias ((A ++ n :: B) :: rest) = None).
  { intros H. unfold bn_roles. cbn [length]. destruct (Z.eqb_spec (Z.of_nat (S (length rest))) (3 + (if no_scale then 0 else 1) + (if no_bias then 0 else 1))); [destruct no_scale, no_bias; lia | reflexivity]. }
  assert (ALL : forall (x : list (list Z)) (chk : bool), (chk = true <-> Forall (fun s => s = E) rest) -> Z.of_nat (length rest) = 2 + (if no_scale : bool then 0 else 1) + (if no_bias : bool then 0 else 1) ->
     (good -> (if negb batch_stat && negb (nout =? 1) then None else if negb ((nout =? 1) || (nout =? 3)) then None else if chk then Some (size A, n, size B) else None) = Some (size A, n, size B)) /\
     (~ good -> (if negb batch_stat && negb (nout =? 1) then None else if negb ((nout =? 1) || (nout =? 3)) then None else if chk then Some (size A, n, size B) else None) = None)).
  { intros _ chk CH LL. split.
    - intros (_ & F & O). apply OUT in O. destruct O as (-> & ->). apply CH in F. rewrite F. reflexivity.
    - intros NG. destruct (negb batch_stat && negb (nout =? 1)) eqn:O1; [reflexivity |]. destruct (negb ((nout =? 1) || (nout =? 3))) eqn:O2; [reflexivity |]. destruct chk; [| reflexivity]. exfalso. apply NG. split; [exact LL |]. split; [apply CH; reflexivity | apply OUT; auto]. }
  destruct (Z.eq_dec (Z.of_nat (length rest)) (2 + (if no_scale : bool then 0 else 1) + (if no_bias : bool then 0 else 1))) as [LL | LL]; [| rewrite LEN by exact LL; split; [intros (G & _); contradiction | reflexivity]].
  destruct no_scale, no_bias.
  - destruct rest as [| m [| v [| ? ?]]]; cbn [length] in LL; try lia. change (bn_roles true true [(A ++ n :: B); m; v]) with (Some ((A ++ n :: B), @None (list Z), @None (list Z), m, v)). cbn [obind]. rewrite scan_setup_ok by assumption. cbn [obind]. rewrite SZ, RF, SH. cbn [negb]. apply (ALL []); [| exact LL]. cbn [shape_fits andb]. rewrite andb_true_iff, !SS. split; [intros (-> & ->); repeat constructor | intros F; inversion F as [| ? ? F1 F2]; inversion F2; auto].
  - destruct rest as [| b [| m [| v [| ? ?]]]]; cbn [length] in LL; try lia. change (bn_roles true false [(A ++ n :: B); b; m; v]) with (Some ((A ++ n :: B), Some b, @None (list Z), m, v)). cbn [obind]. rewrite scan_setup_ok by assumption. cbn [obind]. rewrite SZ, RF, SH. cbn [negb]. apply (ALL []); [| exact LL]. cbn [shape_fits]. rewrite !andb_true_iff, !SS. split; [intros (((-> & _) & ->) & ->); repeat constructor | intros F; inversion F as [| ? ? F1 F2]; inversion F2 as [| ? ? F3 F4]; inversion F4; auto].
  - destruct rest as [| b [| m [| v [| ? ?]]]]; cbn [length] in LL; try lia. change (bn_roles false true [(A ++ n :: B); b; m; v]) with (Some ((A ++ n :: B), @None (list Z), Some b, m, v)). cbn [obind]. rewrite scan_setup_ok by assumption. cbn [obind]. rewrite SZ, RF, SH. cbn [negb]. apply (ALL []); [| exact LL]. cbn [shape_fits]. rewrite !andb_true_iff, !SS. split; [intros (((_ & ->) & ->) & ->); repeat constructor | intros F; inversion F as [| ? ? F1 F2]; inversion F2 as [| ? ? F3 F4]; inversion F4; auto].
  - destruct rest as [| b [| g [| m [| v [| ? ?]]]]]; cbn [length] in LL; try lia. change (bn_roles false false [(A ++ n :: B); b; g; m; v]) with (Some ((A ++ n :: B), Some b, Some g, m, v)). cbn [obind]. rewrite scan_setup_ok by assumption. cbn [obind]. rewrite SZ, RF, SH. cbn [negb]. apply (ALL []); [| exact LL]. cbn [shape_fits]. rewrite !andb_true_iff, !SS. split; [intros (((-> & ->) & ->) & ->); repeat constructor | intros F; inversion F as [| ? ? F1 F2]; inversion F2 as [| ? ? F3 F4]; inversion F4 as [| ? ? F5 F6]; inversion F6; auto 8].
Qed.
