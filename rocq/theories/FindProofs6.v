(** Unique: the outputs. *)
From Coq Require Import List ZArith Lia Bool Permutation Sorted QArith Qcanon.
From Verif Require Import NdModel NdSpec NdProofs IdxModel IdxSpec IdxProofs1 IdxProofs2 IdxProofs3 IdxProofs5 IdxProofs6 JoinModel JoinSpec JoinProofs JoinProofs2 ScanModel ScanSpec ScanProofs1 ReduceModel ReduceSpec ReduceProofs1 ReduceProofs2 ReduceProofs5 SortModel SortSpec SortProofs1 SortProofs2 SortProofs3 ConvProofs1 FindModel FindSpec FindProofs1 FindProofs3 FindProofs4 FindProofs5.
Import ListNotations.
Local Open Scope list_scope.
Local Open Scope Z_scope.

Lemma gat_upto {T} (d : T) (f : Z -> T) m i : 0 <= i < m -> gat d (map f (upto m)) i = f i.
Proof. intros I. unfold gat, upto. rewrite map_map. rewrite nth_indep with (d' := (fun x => f (Z.of_nat x)) 0%nat) by (rewrite map_length, seq_length; lia). rewrite (map_nth (fun x => f (Z.of_nat x))), seq_nth by lia. f_equal. lia. Qed.
Section outputs.
Variables (K : Z -> list Qc) (c : nat).
Hypothesis KL : forall a, length (K a) = c.
Let R a b := lex_less (K a) (K b).
Variables std_sort sort : (Z -> Z -> bool) -> list Z -> list Z.
Hypothesis STD : sorting std_sort.
Hypothesis SORT : sorting sort.
Hypothesis STABLE : stable sort.
Variable n : Z.
Hypothesis Hn : 0 < n.
Variable s : scan_state.
Hypothesis W : walked K sort n n s.
Let num := s_num s.
Let args := sort R (upto n).
Notation idx := (gat 0 (s_indices s)).
Notation inv := (gat 0 (s_inverse s)).
Lemma num_pos : 1 <= num <= n.
Proof. apply (w_num _ _ _ _ _ W). Qed.
Lemma len_indices : glen (s_indices s) = num.
Proof. symmetry. apply (w_num _ _ _ _ _ W). Qed.
Lemma at_args a : 0 <= a < n -> exists q, 0 <= q < n /\ a = gat 0 args q.
Proof.
  intros Ha. apply (args_in K c KL sort SORT n) in Ha. apply (In_nth _ _ 0) in Ha as (q & Hq & E). pose proof (args_length K c KL sort SORT n ltac:(lia)) as L. unfold glen in L.
  exists (Z.of_nat q). split; [lia|]. unfold gat. rewrite Nat2Z.id. auto.
Qed.
Lemma inv_ok a : 0 <= a < n -> 0 <= inv a < num /\ K (idx (inv a)) = K a /\ idx (inv a) <= a.
Proof. intros Ha. destruct (at_args a Ha) as (q & Q & ->). apply (w_inv _ _ _ _ _ W q Q). Qed.
Lemma idx_ok k : 0 <= k < num -> 0 <= idx k < n.
Proof. intros Hk. destruct (w_src _ _ _ _ _ W k Hk) as (q & Q & ->). apply (args_bound K c KL sort SORT n). auto. Qed.
Lemma idx_key k k' : 0 <= k < num -> 0 <= k' < num -> K (idx k) = K (idx k') -> k = k'.
Proof.
  intros H1 H2 E. destruct (Z.lt_trichotomy k k') as [H|[H|H]]; [|auto|].
  - pose proof (w_inc _ _ _ _ _ W k k' ltac:(lia) ltac:(unfold num in *; lia)) as X. cbv beta in X. rewrite E, lex_less_irr in X. discriminate.
  - pose proof (w_inc _ _ _ _ _ W k' k ltac:(lia) ltac:(unfold num in *; lia)) as X. cbv beta in X. rewrite E, lex_less_irr in X. discriminate.
Qed.
Lemma inv_key k a : 0 <= k < num -> 0 <= a < n -> (inv a = k <-> K a = K (idx k)).
Proof. intros Hk Ha. destruct (inv_ok a Ha) as (B & E & _). split; [intros <-; auto|]. intros X. apply idx_key; auto. congruence. Qed.
Lemma idx_first k a : 0 <= k < num -> 0 <= a < n -> K a = K (idx k) -> idx k <= a.
Proof. intros Hk Ha E. apply (inv_key k a Hk Ha) in E. subst k. apply inv_ok. auto. Qed.
Lemma count_occurs k : 0 <= k < num -> occurs n K (K (idx k)) (gat 0 (s_counts s) k).
Proof.
  intros Hk. exists (filter (fun a => inv a =? k) args). rewrite (w_count _ _ _ _ _ W) by auto. pose proof (args_length K c KL sort SORT n ltac:(lia)) as L. unfold glen in L.
  rewrite firstn_all2 by lia. split; [apply NoDup_filter, (args_nodup K c KL sort SORT n)|]. split; [|auto].
  intros a. rewrite filter_In, Z.eqb_eq. pose proof (args_in K c KL sort SORT n a) as AI. change (In a args <-> 0 <= a < n) in AI. rewrite AI. split; intros [H1 H2]; (split; [auto|]); apply (inv_key k a); auto.
Qed.

(** The order of the outputs. *)
Variable sorted : bool.
Let order := output_order std_sort sorted (s_indices s).
Lemma by_index_weak : strict_weak (fun a b => nth (Z.to_nat a) (s_indices s) 0 <? nth (Z.to_nat b) (s_indices s) 0).
Proof.
  split; [intros; apply Z.ltb_irrefl|]. split; [intros a b H; apply Z.ltb_lt in H; apply Z.ltb_ge; lia|]. split; intros a b d H1 H2; [apply Z.ltb_lt in H1, H2; apply Z.ltb_lt; lia|apply Z.ltb_ge in H1, H2; apply Z.ltb_ge; lia].
Qed.
Lemma order_perm : Permutation order (upto num).
Proof.
  unfold order, output_order. fold (glen (s_indices s)). rewrite len_indices. destruct sorted; [apply Permutation_refl|]. apply (STD _ _ by_index_weak).
Qed.
Lemma order_length : glen order = num.
Proof. pose proof num_pos. unfold glen. rewrite (Permutation_length order_perm). unfold upto. rewrite map_length, seq_length. lia. Qed.
Lemma order_nodup : NoDup order.
Proof. eapply Permutation_NoDup; [apply Permutation_sym, order_perm|apply upto_nodup]. Qed.
Lemma order_in o : In o order <-> 0 <= o < num.
Proof. rewrite <- upto_in. split; apply Permutation_in; [|apply Permutation_sym]; apply order_perm. Qed.
Notation od := (gat 0 order).
Lemma od_ok i : 0 <= i < num -> 0 <= od i < num.
Proof. intros I. apply order_in. apply nth_In. pose proof order_length as L. unfold glen in L. lia. Qed.
Lemma od_inj i j : 0 <= i < num -> 0 <= j < num -> od i = od j -> i = j.
Proof. intros I J E. pose proof order_length as L. unfold glen in L. assert (Z.to_nat i = Z.to_nat j); [|lia]. apply (proj1 (NoDup_nth order 0) order_nodup); [lia|lia|exact E]. Qed.
Lemma od_sorted i j : 0 <= i < j -> j < num -> if sorted then lex (K (idx (od i))) (K (idx (od j))) else idx (od i) < idx (od j).
Proof.
  intros I J. assert (NE : od i <> od j) by (intros E; apply od_inj in E; lia). pose proof (od_ok i ltac:(lia)) as B1. pose proof (od_ok j ltac:(lia)) as B2.
  pose proof order_length as L. unfold glen in L. unfold order, output_order in *. fold (glen (s_indices s)) in *. rewrite len_indices in *. destruct sorted.
  - assert (U : forall k, 0 <= k < num -> gat 0 (upto num) k = k). { intros k Hk. rewrite <- (map_id (upto num)). apply (gat_upto 0 (fun k => k)). auto. }
    rewrite !U by lia. apply lex_less_lex. apply (w_inc _ _ _ _ _ W); [lia|exact J].
  - destruct (STD _ (upto num) by_index_weak) as [_ O]. specialize (O 0 (Z.to_nat i) (Z.to_nat j) ltac:(lia)). apply Z.ltb_ge in O. unfold gat in *.
    match goal with |- ?a < ?b => assert (a <> b) end; [|lia]. intros E. apply NE. apply idx_key; auto. unfold gat. rewrite E. auto.
Qed.

(** The outputs but y. *)
Lemma get_od i : 0 <= i < num -> get order i = Some (od i).
Proof. intros I. apply gget_ok. unfold within. rewrite order_length. auto. Qed.
Lemma get_idx k : 0 <= k < num -> get (s_indices s) k = Some (idx k).
Proof. intros I. apply gget_ok. unfold within. rewrite len_indices. auto. Qed.
Lemma index_ok : unique_index (s_indices s) order = Some (map (fun i => idx (od i)) (upto num)).
Proof.
  unfold unique_index. fold (glen (s_indices s)). rewrite len_indices. apply omap_some. intros i Hi. apply upto_in in Hi. rewrite get_od by auto. cbn [obind]. apply get_idx, od_ok. auto.
Qed.
Lemma counts_ok : unique_counts (s_counts s) order num = Some (map (fun i => gat 0 (s_counts s) (od i)) (upto num)).
Proof.
  unfold unique_counts. apply omap_some. intros i Hi. apply upto_in in Hi. rewrite get_od by auto. cbn [obind]. apply gget_ok. unfold within.
  replace (glen (s_counts s)) with num by apply (w_num _ _ _ _ _ W). apply od_ok. auto.
Qed.
Lemma inverse_ok : exists f, unique_inverse (s_inverse s) order num = Some (map f (upto n)) /\ forall a, 0 <= a < n -> 0 <= f a < num /\ od (f a) = inv a.
Proof.
  pose proof num_pos as NP. unfold unique_inverse.
  destruct (writes_ok 0 num (fun i => od i) (fun i _ => i) (fun i t => obind (get order i) (fun o => put t o i)) (upto num)) with (a := repeat 0 (Z.to_nat num)) as (t & E & L & V & _).
  - apply nodup_map; [|apply upto_nodup]. intros a b Ha Hb. apply upto_in in Ha, Hb. apply od_inj; auto.
  - intros i Hi. apply upto_in in Hi. apply od_ok. auto.
  - intros i a Hi La. apply upto_in in Hi. rewrite get_od by auto. reflexivity.
  - unfold glen. rewrite repeat_length. lia.
  - rewrite E. cbn [obind]. rewrite repeat_length in L. exists (fun a => gat 0 t (inv a)). fold (glen (s_inverse s)). rewrite (w_len _ _ _ _ _ W).
    split.
    + apply omap_some. intros a Ha. apply upto_in in Ha. rewrite (gget_ok 0 (s_inverse s)) by (unfold within; rewrite (w_len _ _ _ _ _ W); auto). cbn [obind]. apply gget_ok.
      unfold within, glen. destruct (inv_ok a Ha) as [B _]. lia.
    + intros a Ha. destruct (inv_ok a Ha) as [B _]. apply order_in in B. apply (In_nth _ _ 0) in B as (i & Hi & Ei). pose proof order_length as LO. unfold glen in LO.
      assert (OI : od (Z.of_nat i) = inv a) by (unfold gat at 1; rewrite Nat2Z.id; auto). rewrite <- OI. rewrite V by (apply upto_in; lia). split; [lia|auto].
Qed.
Lemma distinct_ok : exists inverse, unique_inverse (s_inverse s) order num = Some (map inverse (upto n)) /\
  distinct lex sorted n K num (fun i => K (idx (od i))) (fun i => idx (od i)) inverse (fun i => gat 0 (s_counts s) (od i)).
Proof.
  destruct inverse_ok as (f & E & F). exists f. split; [auto|]. constructor.
  - intros k Hk. pose proof (od_ok k Hk) as O. split; [apply idx_ok; auto|]. split; [auto|]. intros j J E1. pose proof (idx_first (od k) j O ltac:(pose proof (idx_ok _ O); lia) E1). lia.
  - intros i I. destruct (F i I) as [F1 F2]. split; [auto|]. rewrite F2. apply inv_ok. auto.
  - intros k Hk. apply count_occurs, od_ok. auto.
  - intros k k' H1 H2. apply od_sorted; auto.
Qed.
End outputs.
