(** Unique: slices along an axis. *)
From Coq Require Import List ZArith Lia Bool Permutation Sorted QArith Qcanon.
From Verif Require Import NdModel NdSpec NdProofs IdxModel IdxSpec IdxProofs1 IdxProofs2 IdxProofs3 IdxProofs5 IdxProofs6 JoinModel JoinSpec JoinProofs JoinProofs2 ScanModel ScanSpec ScanProofs1 ReduceModel ReduceSpec ReduceProofs1 ReduceProofs2 ReduceProofs5 SortModel SortSpec SortProofs1 SortProofs2 SortProofs3 ConvProofs1 FindModel FindSpec FindProofs1 FindProofs3 FindProofs4 FindProofs5 FindProofs6 FindProofs7.
Import ListNotations.
Local Open Scope list_scope.
Local Open Scope Z_scope.

Lemma filter_all {T} (f : T -> bool) l : (forall a, In a l -> f a = true) -> filter f l = l.
Proof. induction l as [|a l IH]; intros H; cbn [filter]; [auto|]. rewrite H by (left; auto). rewrite IH; auto. intros b Hb. apply H. right. auto. Qed.
Lemma axis_first_is la lb : axis_first (Z.of_nat la) (Z.of_nat (la + S lb)) = Z.of_nat la :: range 0 la ++ range (Z.of_nat la + 1) lb.
Proof.
  unfold axis_first. f_equal. rewrite upto_range, Nat2Z.id, range_app, filter_app. cbn [range filter]. rewrite Z.add_0_l, Z.eqb_refl. cbn [negb].
  rewrite !filter_all; [auto| |]; intros a Ha; apply range_in in Ha; destruct (Z.eqb_spec a (Z.of_nat la)); auto; lia.
Qed.
Lemma axis_first_perm la lb : Permutation (axis_first (Z.of_nat la) (Z.of_nat (la + S lb))) (range 0 (la + S lb)).
Proof. rewrite axis_first_is, range_app. cbn [range]. rewrite Z.add_0_l. apply Permutation_middle. Qed.
Lemma at_range p : map (at_ p) (range 0 (length p)) = p.
Proof.
  apply nth_ext with (d := 0) (d' := 0); [rewrite map_length, range_length; auto|]. intros k Hk. rewrite map_length, range_length in Hk.
  rewrite (nth_indep _ 0 (at_ p 0)) by (rewrite map_length, range_length; auto). rewrite (map_nth (at_ p)). rewrite range_nth by auto. unfold at_. f_equal. lia.
Qed.
Lemma axis_first_app p a r : perm (axis_first (Z.of_nat (length p)) (Z.of_nat (length p + S (length r)))) (p ++ a :: r) = a :: p ++ r.
Proof.
  rewrite axis_first_is. unfold perm. cbn [map]. f_equal; [unfold at_; rewrite Nat2Z.id, app_nth2, Nat.sub_diag by auto; reflexivity|]. rewrite map_app. f_equal.
  - transitivity (map (at_ p) (range 0 (length p))); [|apply at_range]. apply map_ext_in. intros i Hi. apply range_in in Hi. unfold at_. apply app_nth1. lia.
  - transitivity (map (at_ r) (range 0 (length r))); [|apply at_range].
    rewrite <- (Z.add_0_r (Z.of_nat (length p) + 1)), <- map_add_range, map_map. apply map_ext_in. intros i Hi. apply range_in in Hi. unfold at_.
    rewrite app_nth2 by lia. replace (Z.to_nat (Z.of_nat (length p) + 1 + i) - length p)%nat with (S (Z.to_nat i)) by lia. reflexivity.
Qed.
Lemma indices_app A B : indices (A ++ B) = map (fun pr => fst pr ++ snd pr) (list_prod (indices A) (indices B)).
Proof.
  induction A as [|a A IH]; cbn [app indices]; [cbn [list_prod]; rewrite app_nil_r, map_map, map_id; auto|].
  rewrite IH. induction (range 0 (Z.to_nat a)) as [|i l IL]; cbn [flat_map]; [auto|]. rewrite IL. rewrite !list_prod_flat, flat_map_app, map_app. f_equal.
  clear. induction (indices A) as [|p l IH]; cbn [flat_map map]; [auto|]. rewrite !map_app, IH. f_equal. rewrite !map_map. auto.
Qed.

Section slices.
Variables (A : list Z) (n : Z) (B : list Z) (x : list Qc).
Hypothesis PA : positive A.
Hypothesis Hn : 0 < n.
Hypothesis PB : positive B.
Notation sh := (A ++ n :: B).
Hypothesis LX : qlen x = size sh.

Lemma preprocess_ok : exists xt, unique_preprocess false (Z.of_nat (length A)) sh x = Some (xt, n, size (A ++ B)) /\
  forall a, 0 <= a < n -> row_at xt (size (A ++ B)) a = slice_of x A n B a.
Proof.
  assert (PS : positive sh) by (apply Forall_app; split; [auto|constructor; auto]).
  unfold unique_preprocess. rewrite app_length. cbn [length].
  set (ta := axis_first (Z.of_nat (length A)) (Z.of_nat (length A + S (length B)))).
  assert (G : good ta sh) by (apply perm_good; [rewrite app_length; cbn [length]; apply axis_first_perm|auto]).
  destruct (transposed_ok ta sh x) as (xt & E & L & V); [destruct A; discriminate|auto|auto|]. rewrite E. cbn [obind].
  rewrite omap_vget; [|apply Forall_forall; intros a Ha; apply (Permutation_in _ (axis_first_perm _ _)), range_in in Ha; unfold within, len; rewrite app_length; cbn [length]; lia].
  cbn [obind]. assert (PT : perm ta sh = n :: A ++ B) by apply axis_first_app. rewrite PT. cbn [hd tl]. rewrite prod_size. exists xt. split; [auto|].
  intros a Ha. unfold row_at, slice_of. rewrite upto_indices by (apply Forall_app; split; apply positive_nonneg; auto). rewrite indices_app, !map_map. apply map_ext_in. intros [p r] H.
  apply in_prod_iff in H as [P R]. apply indices_in in P, R. cbn [fst snd].
  assert (I : inside (p ++ a :: r) sh) by (apply inside_app; [auto|constructor; auto]).
  unfold qelem. rewrite position_off by auto. rewrite Z.mul_0_l, Z.add_0_l. specialize (V _ I). unfold qat in V. rewrite <- V. do 2 f_equal. rewrite PT.
  replace (perm ta (p ++ a :: r)) with (a :: p ++ r); [cbn [off]; reflexivity|]. symmetry. unfold ta.
  rewrite <- (inside_length _ _ P), <- (inside_length _ _ R). apply axis_first_app.
Qed.

Lemma slice_y_ok indices_val order num : (forall i, 0 <= i < num -> get order i = Some (gat 0 order i) /\ exists k, get indices_val (gat 0 order i) = Some k /\ 0 <= k < n) -> glen indices_val = num ->
  exists y, unique_y false (Z.of_nat (length A)) sh x indices_val order = Some (A ++ num :: B, y) /\ qlen y = size (A ++ num :: B) /\
  forall i, 0 <= i < num -> slice_of y A num B i = slice_of x A n B (gat 0 indices_val (gat 0 order i)).
Proof.
  intros OK LI. pose proof (positive_nonneg _ PA) as NA. pose proof (positive_nonneg _ PB) as NB. pose proof (size_nonneg _ NA) as SA. pose proof (size_nonneg _ NB) as SB.
  assert (NP : 0 <= num) by (rewrite <- LI; unfold glen; lia).
  unfold unique_y. fold (glen indices_val). rewrite LI. unfold vget. destruct (Z.ltb_spec (Z.of_nat (length A)) 0) as [X|_]; [lia|].
  rewrite Nat2Z.id, nth_error_app2, Nat.sub_diag by auto. cbn [nth_error obind].
  rewrite firstn_app, Nat.sub_diag, firstn_all. cbn [firstn]. rewrite app_nil_r.
  replace (skipn (S (length A)) sh) with B by (rewrite skipn_app, skipn_all2 by lia; replace (S (length A) - length A)%nat with 1%nat by lia; reflexivity).
  rewrite !prod_size. set (outer := size A) in *. set (inner := size B) in *.
  set (pos := fun c : Z * (Z * Z) => fst c * inner + fst (snd c) * (num * inner) + snd (snd c)).
  set (src := fun c : Z * (Z * Z) => gat 0 indices_val (gat 0 order (fst c)) * inner + fst (snd c) * (n * inner) + snd (snd c)).
  set (L := flat_map (fun i => map (pair i) (cells outer inner)) (upto num)).
  assert (LIN : forall c, In c L <-> 0 <= fst c < num /\ 0 <= fst (snd c) < outer /\ 0 <= snd (snd c) < inner).
  { intros [i c]. unfold L. rewrite in_flat_map. cbn [fst snd]. rewrite <- cells_in. split.
    - intros (i' & Hi & H). apply in_map_iff in H as (c' & E & H). inversion E; subst. apply upto_in in Hi. auto.
    - intros [Hi H]. exists i. split; [apply upto_in; auto|]. apply in_map. auto. }
  assert (SZ : size (A ++ num :: B) = outer * num * inner) by (rewrite size_app; cbn [size]; unfold outer, inner; ring).
  assert (SX : qlen x = outer * n * inner) by (rewrite LX, size_app; cbn [size]; unfold outer, inner; ring).
  assert (POS : forall m i j t, 0 <= i < m -> 0 <= j < outer -> 0 <= t < inner -> 0 <= i * inner + j * (m * inner) + t < outer * m * inner).
  { intros m i j t Hi Hj Ht. replace (i * inner + j * (m * inner) + t) with ((j * m + i) * inner + t) by ring.
    assert (U : 0 <= j * m + i < outer * m) by nia. nia. }
  match goal with |- context [loop ?f (upto num) ?y0] => replace (loop f (upto num) y0) with
    (loop (fun c y => obind (get order (fst c)) (fun o => obind (get indices_val o) (fun k => obind (get x (k * inner + fst (snd c) * (n * inner) + snd (snd c))) (fun v => put y (pos c) v)))) L y0) end.
  2:{ unfold L. rewrite <- loop_flat. apply loop_ext. intros i y Hi. apply upto_in in Hi. destruct (OK i Hi) as (G1 & k & G2 & _).
      rewrite <- (loop_map (fun c y => obind (get order (fst c)) (fun o => obind (get indices_val o) (fun k => obind (get x (k * inner + fst (snd c) * (n * inner) + snd (snd c))) (fun v => put y (pos c) v)))) (pair i)).
      cbn [fst snd]. rewrite G1. cbn [obind]. rewrite G2. cbn [obind]. symmetry.
      apply (loop_cells (fun j t y => obind (get x (k * inner + j * (n * inner) + t)) (fun v => put y (i * inner + j * (num * inner) + t) v))). }
  destruct (writes_ok 0%Qc (outer * num * inner) pos (fun c _ => qat x (src c))
    (fun c y => obind (get order (fst c)) (fun o => obind (get indices_val o) (fun k => obind (get x (k * inner + fst (snd c) * (n * inner) + snd (snd c))) (fun v => put y (pos c) v)))) L)
    with (a := repeat 0%Qc (Z.to_nat (outer * num * inner))) as (y & Ey & Ly & Vy & _).
  - apply nodup_map.
    + intros [i [j t]] [i' [j' t']] H H' E. apply LIN in H, H'. unfold pos in E. cbn [fst snd] in *. destruct H as (H1 & H2 & H3), H' as (H1' & H2' & H3').
      replace (i * inner + j * (num * inner) + t) with ((j * num + i) * inner + t) in E by ring. replace (i' * inner + j' * (num * inner) + t') with ((j' * num + i') * inner + t') in E by ring.
      assert (E1 : j * num + i = j' * num + i') by nia. assert (j = j') by nia. subst. assert (i = i') by nia. subst. assert (t = t') by nia. subst. auto.
    + unfold L. apply nodup_flat; [apply upto_nodup| |].
      * intros i _. apply nodup_map; [intros ? ? _ _ E; inversion E; auto|]. eapply NoDup_map_inv. apply cells_nodup.
      * intros i i' c _ _ Hx Hy. apply in_map_iff in Hx as (u & <- & _). apply in_map_iff in Hy as (w & E & _). inversion E; subst. auto.
  - intros [i [j t]] H. apply LIN in H as (H1 & H2 & H3). unfold pos. cbn [fst snd] in *. auto.
  - intros [i [j t]] a H _. apply LIN in H as (H1 & H2 & H3). unfold src. cbn [fst snd] in *. destruct (OK i H1) as (G1 & k & G2 & K). rewrite G1. cbn [obind]. rewrite G2. cbn [obind].
    assert (KG : gat 0 indices_val (gat 0 order i) = k).
    { unfold gat at 1. unfold get in G2. destruct (_ <? 0); [discriminate|]. apply nth_error_nth. auto. }
    rewrite KG. rewrite get_ok; [reflexivity|]. unfold within. rewrite SX. auto.
  - unfold glen. rewrite repeat_length. apply Z2Nat.id. apply Z.mul_nonneg_nonneg; [apply Z.mul_nonneg_nonneg|]; auto.
  - rewrite Ey. cbn [obind]. exists y. split; [auto|]. rewrite repeat_length in Ly. split.
    { rewrite SZ. unfold qlen. rewrite Ly. apply Z2Nat.id. apply Z.mul_nonneg_nonneg; [apply Z.mul_nonneg_nonneg|]; auto. }
    intros i Hi. unfold slice_of. apply map_ext_in. intros [p r] H. apply in_prod_iff in H as [P R]. apply indices_in in P, R. cbn [fst snd].
    pose proof (off_bound _ _ P) as OP. pose proof (off_bound _ _ R) as OR. destruct (OK i Hi) as (G1 & k & G2 & K).
    assert (KG : gat 0 indices_val (gat 0 order i) = k).
    { unfold gat at 1. unfold get in G2. destruct (_ <? 0); [discriminate|]. apply nth_error_nth. auto. }
    unfold qelem. rewrite KG. rewrite !position_off by (apply inside_app; [auto|constructor; auto]). rewrite !off_app by (auto; constructor; auto). cbn [off size].
    specialize (Vy (i, (off p A, off r B))). rewrite LIN in Vy. cbn [fst snd] in Vy. specialize (Vy (conj Hi (conj OP OR))). unfold pos, src, gat at 1, qat in Vy. cbn [fst snd] in Vy. rewrite KG in Vy.
    fold inner. transitivity (nth (Z.to_nat (i * inner + off p A * (num * inner) + off r B)) y 0%Qc); [do 2 f_equal; ring|]. rewrite Vy. do 2 f_equal. ring.
Qed.
End slices.

Section unique.
Variables std_sort std_stable : (Z -> Z -> bool) -> list Z -> list Z.
Hypothesis STD : sorting std_sort.
Hypothesis SORT : sorting std_stable.
Hypothesis STABLE : stable std_stable.

Lemma unique_axis_ok sorted axis A n B x : positive A -> 0 < n -> positive B -> qlen x = size (A ++ n :: B) -> denotes axis (length A) (length (A ++ n :: B)) ->
  exists u num, unique std_sort std_stable false axis sorted (A ++ n :: B) x = Some u /\ u_shape u = A ++ num :: B /\ qlen (u_y u) = size (A ++ num :: B) /\
    glen (u_index u) = num /\ glen (u_inverse u) = n /\ glen (u_counts u) = num /\
    distinct lex sorted n (slice_of x A n B) num (slice_of (u_y u) A num B) (gat 0 (u_index u)) (gat 0 (u_inverse u)) (gat 0 (u_counts u)).
Proof.
  intros PA Hn PB LX D. unfold unique. rewrite (refine_denotes _ _ _ D) by (rewrite app_length; cbn [length]; lia). cbn [obind].
  destruct (preprocess_ok A n B x PA Hn PB LX) as (xt & EX & RX). rewrite EX. cbn [obind]. set (col := size (A ++ B)) in *.
  destruct (walk_ok (row_at xt col) (length (upto col)) (row_length xt col) std_stable SORT STABLE n xt col eq_refl Hn) as (s & E & W).
  rewrite E. cbn [obind]. pose proof (num_pos _ _ _ _ W) as NP. pose proof (len_indices _ _ _ _ W) as LI.
  set (order := output_order std_sort sorted (s_indices s)). set (num := s_num s) in *.
  pose proof (fun i H => get_od (row_at xt col) std_sort std_stable STD n s W sorted i H) as GO. fold order num in GO.
  pose proof (fun i H => od_ok (row_at xt col) std_sort std_stable STD n s W sorted i H) as OO. fold order num in OO.
  pose proof (fun i H => get_idx (row_at xt col) std_stable n s W i H) as GI. fold num in GI.
  pose proof (fun i H => idx_ok (row_at xt col) _ (row_length xt col) std_stable SORT n s W i H) as IO. fold num in IO.
  destruct (slice_y_ok A n B x PA PB LX (s_indices s) order num) as (y & EY & LY & VY); [|auto|].
  { intros i Hi. split; [apply GO; auto|]. eexists. split; [apply GI, OO; auto|]. apply IO, OO. auto. }
  rewrite EY. cbn [obind].
  pose proof (index_ok (row_at xt col) std_sort std_stable STD n s W sorted) as EI. fold order num in EI. rewrite EI. cbn [obind].
  destruct (distinct_ok (row_at xt col) _ (row_length xt col) std_sort std_stable STD SORT n Hn s W sorted) as (f & Ef & DD). fold order num in Ef, DD.
  fold (glen (s_indices s)). rewrite LI. rewrite Ef. cbn [obind].
  pose proof (counts_ok (row_at xt col) std_sort std_stable STD n s W sorted) as EC. fold order num in EC. rewrite EC. cbn [obind].
  eexists. exists num. split; [reflexivity|]. cbn [u_shape u_y u_index u_inverse u_counts].
  split; [auto|]. split; [auto|]. unfold glen. rewrite !map_length, !upto_len by lia. split; [auto|]. split; [auto|]. split; [auto|].
  eapply distinct_map; [exact DD| | | | |].
  - intros a b Ha Hb. rewrite !RX by auto. tauto.
  - intros a b Ha Hb. rewrite !RX by auto. auto.
  - intros j Hj. apply VY. auto.
  - intros j Hj. rewrite !gat_upto by auto. auto.
  - intros a Ha. apply gat_upto. auto.
Qed.
End unique.
