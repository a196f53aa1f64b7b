(** Unique: sorting rows and walking over them. *)
From Coq Require Import List ZArith Lia Bool Permutation Sorted QArith Qcanon.
From Verif Require Import NdModel NdSpec NdProofs IdxModel IdxSpec IdxProofs1 IdxProofs2 IdxProofs3 IdxProofs6 JoinModel JoinSpec JoinProofs JoinProofs2 ScanModel ScanSpec ScanProofs1 ReduceModel ReduceSpec ReduceProofs1 ReduceProofs2 ReduceProofs5 SortModel SortSpec SortProofs1 SortProofs2 SortProofs3 ConvProofs1 FindModel FindSpec FindProofs1 FindProofs4.
Import ListNotations.
Local Open Scope list_scope.
Local Open Scope Z_scope.

(** * Rows *)
Lemma qc_irr (q : Qc) : ~ (q < q)%Qc.
Proof. intros H. apply (Qclt_not_le _ _ H), Qcle_refl. Qed.
Lemma lex_less_lex a : forall b, lex_less a b = true -> lex a b.
Proof.
  induction a as [|x a IH]; intros [|y b] H; cbn [lex_less] in H; try discriminate.
  destruct (less x y) eqn:E1; [exists [], x, y, a, b; apply less_true in E1; auto|]. destruct (less y x) eqn:E2; [discriminate|].
  apply less_false in E1, E2. assert (x = y) by (apply Qcle_antisym; auto). subst y. destruct (IH b H) as (w & u & v & s & t & -> & -> & L). exists (x :: w), u, v, s, t. auto.
Qed.
Lemma lex_less_irr a : lex_less a a = false.
Proof. induction a as [|x a IH]; cbn [lex_less]; [auto|]. assert (E : less x x = false) by (apply less_false, Qcle_refl). rewrite !E. auto. Qed.
Lemma lex_less_total a : forall b, length a = length b -> lex_less a b = false -> lex_less b a = false -> a = b.
Proof.
  induction a as [|x a IH]; intros [|y b] L; cbn [length lex_less] in *; try discriminate; [auto|].
  destruct (less x y) eqn:E1; [discriminate|]. destruct (less y x) eqn:E2; [discriminate|]. intros H1 H2. apply less_false in E1, E2.
  f_equal; [apply Qcle_antisym; auto|apply IH; auto].
Qed.
Lemma lex_less_trans a : forall b c, lex_less a b = true -> lex_less b c = true -> lex_less a c = true.
Proof.
  induction a as [|x a IH]; intros [|y b] [|z c]; cbn [lex_less]; try discriminate.
  destruct (less x y) eqn:E1.
  - intros _ H. apply less_true in E1. destruct (less y z) eqn:E2; [apply less_true in E2; rewrite (proj2 (less_true x z)); [auto|eapply Qclt_trans; eauto]|].
    destruct (less z y) eqn:E3; [discriminate|]. apply less_false in E2, E3. assert (y = z) by (apply Qcle_antisym; auto). subst z. rewrite (proj2 (less_true x y)); auto.
  - destruct (less y x) eqn:E1'; [discriminate|]. apply less_false in E1, E1'. assert (x = y) by (apply Qcle_antisym; auto). subst y. intros H.
    destruct (less x z); [auto|]. destruct (less z x); [discriminate|]. apply IH. auto.
Qed.
Lemma rows_equal_true a : forall b, length a = length b -> (rows_equal a b = true <-> a = b).
Proof.
  induction a as [|x a IH]; intros [|y b] L; cbn [length rows_equal] in *; try discriminate; [tauto|].
  rewrite andb_true_iff, same_true, IH by lia. split; [intros [-> ->]; auto|intros E; inversion E; auto].
Qed.

Section keyed.
Variables (K : Z -> list Qc) (c : nat).
Hypothesis KL : forall a, length (K a) = c.
Let R a b := lex_less (K a) (K b).
Lemma R_weak : strict_weak R.
Proof.
  unfold R. split; [intros; apply lex_less_irr|]. split.
  - intros a b H. destruct (lex_less (K b) (K a)) eqn:E; [|auto]. pose proof (lex_less_trans _ _ _ H E). rewrite lex_less_irr in H0. auto.
  - split; [intros a b d; apply lex_less_trans|]. intros a b d H1 H2.
    destruct (lex_less (K b) (K a)) eqn:E1.
    + destruct (lex_less (K a) (K d)) eqn:E; [|auto]. rewrite (lex_less_trans _ _ _ E1 E) in H2. discriminate.
    + assert (E : K a = K b) by (apply lex_less_total; auto; rewrite !KL; auto). rewrite E. auto.
Qed.
Lemma R_total a b : R a b = false -> R b a = false -> K a = K b.
Proof. intros. apply lex_less_total; auto. rewrite !KL. auto. Qed.
Variable sort : (Z -> Z -> bool) -> list Z -> list Z.
Hypothesis SORT : sorting sort.
Hypothesis STABLE : stable sort.
Variable n : Z.
Let args := sort R (upto n).
Lemma args_perm : Permutation args (upto n).
Proof. apply SORT, R_weak. Qed.
Lemma args_nodup : NoDup args.
Proof. eapply Permutation_NoDup; [apply Permutation_sym, args_perm|apply upto_nodup]. Qed.
Lemma args_in a : In a args <-> 0 <= a < n.
Proof. rewrite <- upto_in. split; apply Permutation_in; [|apply Permutation_sym]; apply args_perm. Qed.
Lemma args_length : 0 <= n -> glen args = n.
Proof. intros H. unfold glen. rewrite (Permutation_length args_perm). unfold upto. rewrite map_length, seq_length. lia. Qed.
Lemma upto_sorted m : StronglySorted Z.lt (upto m).
Proof.
  unfold upto. generalize 0%nat. induction (Z.to_nat m) as [|k IH]; intros s; cbn [seq map]; constructor; [auto|].
  rewrite Forall_forall. intros z H. apply in_map_iff in H as (q & <- & H). apply in_seq in H. lia.
Qed.
Lemma filter_sorted (P : Z -> bool) l : StronglySorted Z.lt l -> StronglySorted Z.lt (filter P l).
Proof. induction 1 as [|a l S IH F]; cbn [filter]; [constructor|]. destruct (P a); [|auto]. constructor; [auto|]. rewrite Forall_forall in F |- *. intros z H. apply filter_In in H. apply F. tauto. Qed.
Lemma sorted_pair (l : list Z) : StronglySorted Z.lt l -> forall l1 a l2 b l3, l = l1 ++ a :: l2 ++ b :: l3 -> a < b.
Proof.
  induction 1 as [|z l S IH F]; intros l1 a l2 b l3 E; [destruct l1; discriminate|]. destruct l1 as [|y l1]; cbn [app] in E; inversion E; subst.
  - rewrite Forall_forall in F. apply F. apply in_or_app. right. left. auto.
  - eapply IH. reflexivity.
Qed.
(** Positions in [args]: keys rise, and among equal keys positions do. *)
Lemma args_order i j : 0 <= i < j -> j < glen args ->
  R (gat 0 args i) (gat 0 args j) = true \/ (K (gat 0 args i) = K (gat 0 args j) /\ gat 0 args i < gat 0 args j).
Proof.
  intros I J. unfold glen in J. destruct (SORT R (upto n) R_weak) as [_ O]. specialize (O 0 (Z.to_nat i) (Z.to_nat j) ltac:(fold args; lia)). fold args in O. fold (gat 0 args i) (gat 0 args j) in O.
  destruct (R (gat 0 args i) (gat 0 args j)) eqn:E; [auto|right]. assert (EK := R_total _ _ E O). split; [auto|].
  set (a := gat 0 args i) in *. set (b := gat 0 args j) in *.
  assert (SP : exists l1 l2 l3, args = l1 ++ a :: l2 ++ b :: l3).
  { destruct (nth_split args 0 (n := Z.to_nat j)) as (u & l3 & E3 & L3); [lia|]. destruct (nth_split u 0 (n := Z.to_nat i)) as (l1 & l2 & E1 & L1); [lia|].
    exists l1, l2, l3. unfold a, b, gat. rewrite E3 at 1. rewrite E1 at 1. rewrite <- app_assoc. cbn [app]. f_equal. f_equal. rewrite E3, app_nth1 by lia. reflexivity. }
  destruct SP as (l1 & l2 & l3 & SP). pose proof (STABLE R (upto n) a R_weak) as ST. fold args in ST. rewrite SP in ST.
  rewrite !filter_app in ST. cbn [filter] in ST. rewrite !filter_app in ST. cbn [filter] in ST. rewrite E, O in ST. assert (RA : R a a = false) by apply lex_less_irr. rewrite RA in ST. cbn [negb andb] in ST.
  symmetry in ST. eapply sorted_pair; [|exact ST]. apply filter_sorted, upto_sorted.
Qed.

(** * The walk *)
Variables (x : list Qc) (col : Z).
Hypothesis KX : K = row_at x col.
Record walked (m : Z) (s : scan_state) : Prop := {
  w_args : glen (s_args s) = n /\ forall q, m - 1 <= q < n -> gat 0 (s_args s) q = gat 0 args q;
  w_num : s_num s = glen (s_indices s) /\ s_num s = glen (s_counts s) /\ 1 <= s_num s <= m;
  w_len : glen (s_inverse s) = n;
  w_inv : forall q, 0 <= q < m -> let k := gat 0 (s_inverse s) (gat 0 args q) in
     0 <= k < s_num s /\ K (gat 0 (s_indices s) k) = K (gat 0 args q) /\ gat 0 (s_indices s) k <= gat 0 args q;
  w_src : forall k, 0 <= k < s_num s -> exists q, 0 <= q < m /\ gat 0 (s_indices s) k = gat 0 args q;
  w_inc : forall k k', 0 <= k < k' -> k' < s_num s -> R (gat 0 (s_indices s) k) (gat 0 (s_indices s) k') = true;
  w_last : K (gat 0 (s_indices s) (s_num s - 1)) = K (gat 0 args (m - 1));
  w_count : forall k, 0 <= k < s_num s -> gat 0 (s_counts s) k = Z.of_nat (length (filter (fun a => gat 0 (s_inverse s) a =? k) (firstn (Z.to_nat m) args))) }.

Lemma args_inj i j : 0 <= i < n -> 0 <= j < n -> gat 0 args i = gat 0 args j -> i = j.
Proof.
  intros I J E. assert (Hn : 0 <= n) by lia. pose proof (args_length Hn) as L. unfold glen in L.
  assert (Z.to_nat i = Z.to_nat j); [|lia]. apply (proj1 (NoDup_nth args 0) args_nodup); [lia|lia|exact E].
Qed.
Lemma args_bound i : 0 <= i < n -> 0 <= gat 0 args i < n.
Proof. intros I. apply args_in. apply nth_In. pose proof (args_length ltac:(lia)) as L. unfold glen in L. lia. Qed.
Lemma first_args m : 0 <= m < n -> firstn (Z.to_nat (m + 1)) args = firstn (Z.to_nat m) args ++ [gat 0 args m].
Proof.
  intros M. pose proof (args_length ltac:(lia)) as L. unfold glen in L. replace (Z.to_nat (m + 1)) with (S (Z.to_nat m)) by lia.
  destruct (nth_split args 0 (n := Z.to_nat m)) as (u & w & E & LU); [lia|]. unfold gat. rewrite E at 1 2. rewrite <- LU.
  rewrite firstn_app, firstn_all2 by lia. replace (S (length u) - length u)%nat with 1%nat by lia. cbn [firstn]. rewrite firstn_app, Nat.sub_diag, firstn_all. cbn [firstn]. rewrite app_nil_r. reflexivity.
Qed.
Lemma first_not_in m : 0 <= m < n -> ~ In (gat 0 args m) (firstn (Z.to_nat m) args).
Proof.
  intros M H. apply (In_nth _ _ 0) in H as (k & Hk & E). rewrite firstn_length in Hk. rewrite nth_first in E. destruct (Nat.ltb_spec k (Z.to_nat m)); [|lia].
  assert (Z.of_nat k = m); [|lia]. apply args_inj; [lia|auto|]. unfold gat at 1. rewrite Nat2Z.id. auto.
Qed.
Lemma walk_step m s : 1 <= m < n -> walked m s -> exists s', unique_step x col m s = Some s' /\ walked (m + 1) s'.
Proof.
  intros M W. pose proof (w_args _ _ W) as [A1 A2]. pose proof (w_num _ _ W) as (N1 & N2 & N3). pose proof (w_len _ _ W) as LI. pose proof (args_length ltac:(lia)) as LA.
  unfold unique_step. rewrite (gget_ok 0 (s_args s) m) by (unfold within; lia). cbn [obind]. rewrite (gget_ok 0 (s_args s) (m - 1)) by (unfold within; lia). cbn [obind].
  rewrite !A2 by lia. rewrite <- KX. set (cur := gat 0 args m). set (prev := gat 0 args (m - 1)). pose proof (args_bound m ltac:(lia)) as CB. fold cur in CB.
  assert (OLD : forall q, 0 <= q < m -> gat 0 args q <> cur) by (intros q Q E; assert (q = m) by (apply args_inj; auto; lia); lia).
  assert (LAST : forall k, 0 <= k < s_num s -> k = s_num s - 1 \/ R (gat 0 (s_indices s) k) (gat 0 (s_indices s) (s_num s - 1)) = true).
  { intros k Hk. destruct (Z.eq_dec k (s_num s - 1)); [auto|right]. apply (w_inc _ _ W); lia. }
  destruct (rows_equal (K cur) (K prev)) eqn:EQ; cbn [negb].
  - apply rows_equal_true in EQ; [|rewrite !KL; auto].
    destruct (put_gen 0 (s_inverse s) cur (s_num s - 1)) as (inv & E1 & L1 & V1); [unfold glen in LI; lia|]. rewrite E1. cbn [obind].
    rewrite (gget_ok 0 (s_counts s) (s_num s - 1)) by (unfold within; lia). cbn [obind].
    destruct (put_gen 0 (s_counts s) (s_num s - 1) (gat 0 (s_counts s) (s_num s - 1) + 1)) as (cn & E2 & L2 & V2); [unfold glen in N2; lia|]. rewrite E2. cbn [obind].
    eexists. split; [reflexivity|].
    assert (IV : forall a, 0 <= a -> gat 0 inv a = if a =? cur then s_num s - 1 else gat 0 (s_inverse s) a) by (intros; apply V1; auto).
    assert (IQ : forall q, 0 <= q < m -> gat 0 inv (gat 0 args q) = gat 0 (s_inverse s) (gat 0 args q)).
    { intros q Q. rewrite IV by (apply args_bound; lia). destruct (Z.eqb_spec (gat 0 args q) cur) as [X|]; [exfalso; apply (OLD q); auto|auto]. }
    assert (IC : gat 0 inv cur = s_num s - 1) by (rewrite IV, Z.eqb_refl by lia; auto).
    constructor; cbn [s_args s_indices s_inverse s_counts s_num].
    + split; [auto|]. intros q Q. apply A2. lia.
    + unfold glen in *. rewrite L2. split; [auto|]. split; [auto|lia].
    + unfold glen in *. congruence.
    + intros q Q. cbn zeta. destruct (Z.eq_dec q m) as [->|].
      * fold cur. rewrite IC. split; [lia|]. rewrite (w_last _ _ W). fold prev. split; [auto|].
        destruct (w_src _ _ W (s_num s - 1)) as (q & Q' & E); [lia|]. rewrite E. destruct (args_order q m) as [O|[_ O]]; [lia|lia| |fold cur in O; lia].
        exfalso. unfold R in O. rewrite <- E in O. fold cur in O. rewrite (w_last _ _ W) in O. fold prev in O. rewrite <- EQ, lex_less_irr in O. discriminate.
      * rewrite IQ by lia. apply (w_inv _ _ W). lia.
    + intros k Hk. destruct (w_src _ _ W k Hk) as (q & Q & E). exists q. split; [lia|auto].
    + apply (w_inc _ _ W).
    + rewrite (w_last _ _ W). replace (m + 1 - 1) with m by lia. fold prev cur. auto.
    + intros k Hk. rewrite first_args by lia. fold cur. rewrite filter_app, app_length. cbn [filter]. rewrite IC.
      replace (length (filter (fun a => gat 0 inv a =? k) (firstn (Z.to_nat m) args))) with (length (filter (fun a => gat 0 (s_inverse s) a =? k) (firstn (Z.to_nat m) args))).
      2:{ f_equal. apply filter_ext_in. intros a Ha. assert (AB : 0 <= a < n) by (apply args_in; rewrite <- (firstn_skipn (Z.to_nat m) args); apply in_or_app; left; auto).
          rewrite IV by lia. destruct (Z.eqb_spec a cur) as [->|]; [exfalso; apply (first_not_in m); [lia|auto]|auto]. }
      pose proof (w_count _ _ W k Hk) as WC. unfold gat at 1. rewrite V2 by lia. destruct (Z.eqb_spec k (s_num s - 1)) as [->|].
      * rewrite Z.eqb_refl. cbn [length]. rewrite WC. lia.
      * destruct (Z.eqb_spec (s_num s - 1) k); [lia|]. cbn [length]. fold (gat 0 (s_counts s) k). rewrite WC. lia.
  - assert (NE : K cur <> K prev) by (intros X; apply rows_equal_true in X; [congruence|rewrite !KL; auto]).
    assert (PC : R prev cur = true).
    { destruct (args_order (m - 1) m) as [O|[O _]]; [lia|lia| |]; [auto|]. fold prev cur in O. congruence. }
    destruct (put_gen 0 (s_args s) (s_num s) cur) as (ar & E0 & L0 & V0); [unfold glen in A1; lia|]. rewrite E0. cbn [obind].
    destruct (put_gen 0 (s_inverse s) cur (s_num s)) as (inv & E1 & L1 & V1); [unfold glen in LI; lia|]. rewrite E1. cbn [obind].
    eexists. split; [reflexivity|].
    assert (IV : forall a, 0 <= a -> gat 0 inv a = if a =? cur then s_num s else gat 0 (s_inverse s) a) by (intros; apply V1; auto).
    assert (IQ : forall q, 0 <= q < m -> gat 0 inv (gat 0 args q) = gat 0 (s_inverse s) (gat 0 args q)).
    { intros q Q. rewrite IV by (apply args_bound; lia). destruct (Z.eqb_spec (gat 0 args q) cur) as [X|]; [exfalso; apply (OLD q); auto|auto]. }
    assert (IC : gat 0 inv cur = s_num s) by (rewrite IV, Z.eqb_refl by lia; auto).
    assert (XI : forall k, 0 <= k < s_num s -> gat 0 (s_indices s ++ [cur]) k = gat 0 (s_indices s) k) by (intros k Hk; unfold gat; rewrite app_nth1; [auto|unfold glen in N1; lia]).
    assert (XL : gat 0 (s_indices s ++ [cur]) (s_num s) = cur) by (unfold gat; rewrite app_nth2 by (unfold glen in N1; lia); replace (Z.to_nat (s_num s) - length (s_indices s))%nat with 0%nat by (unfold glen in N1; lia); auto).
    constructor; cbn [s_args s_indices s_inverse s_counts s_num].
    + split; [unfold glen in *; congruence|]. intros q Q. unfold gat at 1. rewrite V0 by lia. destruct (Z.eqb_spec q (s_num s)) as [->|]; [unfold cur; f_equal; lia|]. apply A2. lia.
    + unfold glen in *. rewrite !app_length. cbn [length]. lia.
    + unfold glen in *. congruence.
    + intros q Q. cbn zeta. destruct (Z.eq_dec q m) as [->|].
      * fold cur. rewrite IC, XL. split; [lia|]. split; [auto|lia].
      * rewrite IQ by lia. destruct (w_inv _ _ W q ltac:(lia)) as (B1 & B2 & B3). rewrite XI by auto. split; [lia|auto].
    + intros k Hk. destruct (Z.eq_dec k (s_num s)) as [->|]; [exists m; split; [lia|auto]|]. rewrite XI by lia. destruct (w_src _ _ W k ltac:(lia)) as (q & Q & E). exists q. split; [lia|auto].
    + intros k k' H1 H2. rewrite (XI k) by lia. destruct (Z.eq_dec k' (s_num s)) as [->|]; [|rewrite XI by lia; apply (w_inc _ _ W); lia]. rewrite XL.
      assert (PR : R (gat 0 (s_indices s) (s_num s - 1)) cur = true) by (unfold R; rewrite (w_last _ _ W); exact PC).
      destruct (LAST k ltac:(lia)) as [->|T]; [auto|]. eapply lex_less_trans; [exact T|exact PR].
    + replace (s_num s + 1 - 1) with (s_num s) by lia. rewrite XL. replace (m + 1 - 1) with m by lia. auto.
    + intros k Hk. rewrite first_args by lia. fold cur. rewrite filter_app, app_length. cbn [filter]. rewrite IC.
      replace (length (filter (fun a => gat 0 inv a =? k) (firstn (Z.to_nat m) args))) with (length (filter (fun a => gat 0 (s_inverse s) a =? k) (firstn (Z.to_nat m) args))).
      2:{ f_equal. apply filter_ext_in. intros a Ha. assert (AB : 0 <= a < n) by (apply args_in; rewrite <- (firstn_skipn (Z.to_nat m) args); apply in_or_app; left; auto).
          rewrite IV by lia. destruct (Z.eqb_spec a cur) as [->|]; [exfalso; apply (first_not_in m); [lia|auto]|auto]. }
      destruct (Z.eqb_spec (s_num s) k) as [<-|].
      * cbn [length]. unfold gat at 1. rewrite app_nth2 by (unfold glen in N2; lia). replace (Z.to_nat (s_num s) - length (s_counts s))%nat with 0%nat by (unfold glen in N2; lia). cbn [nth].
        replace (length (filter _ _)) with 0%nat; [auto|]. symmetry. apply length_zero_iff_nil. 
        destruct (filter _ _) as [|a f] eqn:F; [auto|]. exfalso. assert (In a (a :: f)) as Ha by (left; auto). rewrite <- F in Ha. apply filter_In in Ha as [Ha Hk']. apply Z.eqb_eq in Hk'.
        apply (In_nth _ _ 0) in Ha as (q & Hq & E). rewrite firstn_length in Hq. rewrite nth_first in E. destruct (Nat.ltb_spec q (Z.to_nat m)); [|lia].
        destruct (w_inv _ _ W (Z.of_nat q) ltac:(lia)) as (B1 & _). assert (GQ : gat 0 args (Z.of_nat q) = a) by (unfold gat; rewrite Nat2Z.id; auto). rewrite GQ in B1. lia.
      * cbn [length]. unfold gat at 1. rewrite app_nth1 by (unfold glen in N2; lia). fold (gat 0 (s_counts s) k). rewrite (w_count _ _ W) by lia. lia.
Qed.
Lemma walk_ok : 0 < n -> exists s, unique_scan sort x n col = Some s /\ walked n s.
Proof.
  intros Hn. unfold unique_scan.
  assert (EA : sort (fun a b => lex_less (row_at x col a) (row_at x col b)) (upto n) = args).
  { rewrite <- KX. reflexivity. }
  rewrite EA. pose proof (args_length ltac:(lia)) as LA. rewrite (gget_ok 0 args 0) by (unfold within; lia). cbn [obind].
  pose proof (args_bound 0 ltac:(lia)) as B0.
  destruct (put_gen 0 (repeat 0 (Z.to_nat n)) (gat 0 args 0) 0) as (inv & E1 & L1 & V1); [rewrite repeat_length; lia|]. rewrite repeat_length in L1. rewrite E1. cbn [obind].
  set (s0 := {| s_args := args; s_indices := [gat 0 args 0]; s_inverse := inv; s_counts := [1]; s_num := 1 |}).
  assert (I0 : gat 0 inv (gat 0 args 0) = 0) by (unfold gat at 1; rewrite V1 by lia; rewrite Z.eqb_refl; auto).
  assert (W0 : walked 1 s0).
  { constructor; cbn [s0 s_args s_indices s_inverse s_counts s_num].
    - auto.
    - cbn. lia.
    - unfold glen. lia.
    - intros q Q. replace q with 0 by lia. cbn zeta. rewrite I0. change (gat 0 [gat 0 args 0] 0) with (gat 0 args 0). split; [lia|]. split; [auto|lia].
    - intros k Hk. exists 0. split; [lia|]. replace k with 0 by lia. reflexivity.
    - intros. lia.
    - reflexivity.
    - intros k Hk. replace k with 0 by lia. change (Z.to_nat 1) with (Z.to_nat (0 + 1)). rewrite first_args by lia. cbn [Z.to_nat firstn app filter]. rewrite I0. reflexivity. }
  assert (G : forall m, 1 + Z.of_nat m <= n -> exists s, loop (unique_step x col) (between 1 (1 + Z.of_nat m)) s0 = Some s /\ walked (1 + Z.of_nat m) s).
  { induction m as [|m IH]; intros H; [exists s0; auto|]. destruct IH as (s & E & W); [lia|].
    replace (1 + Z.of_nat (S m)) with ((1 + Z.of_nat m) + 1) by lia. rewrite between_next by lia. rewrite loop_app, E. cbn [obind loop].
    destruct (walk_step (1 + Z.of_nat m) s ltac:(lia) W) as (s' & E' & W'). rewrite E'. cbn [obind]. eauto. }
  destruct (G (Z.to_nat (n - 1))) as (s & E & W); [lia|]. replace (1 + Z.of_nat (Z.to_nat (n - 1))) with n in * by lia. fold (glen args). rewrite LA. eauto.
Qed.
End keyed.
