(** NonZero. *)
From Coq Require Import List ZArith Lia Bool Permutation QArith Qcanon.
From Verif Require Import NdModel NdSpec NdProofs IdxModel IdxSpec IdxProofs1 IdxProofs2 IdxProofs3 IdxProofs6 JoinModel JoinSpec JoinProofs JoinProofs2 ScanModel ScanSpec ScanProofs1 ReduceModel ReduceSpec ReduceProofs1 ReduceProofs2 ReduceProofs5 SortModel SortSpec SortProofs1 SortProofs2 SortProofs3 ConvProofs1 FindModel FindSpec FindProofs1.
Import ListNotations.
Local Open Scope list_scope.
Local Open Scope Z_scope.

Lemma flat_back idx shape : inside idx shape -> flat2nd (off idx shape) (cstrides shape) = idx.
Proof.
  intros I. destruct shape as [|s t]; [inversion I; reflexivity|]. rewrite cstrides_sfx. apply flat2nd_ok with (s := s); auto.
Qed.
Lemma elements_indices x shape : nonneg shape -> qlen x = size shape -> x = map (qelem x shape) (indices shape).
Proof.
  intros N L. apply nth_ext with (d := 0%Qc) (d' := 0%Qc).
  - rewrite map_length. pose proof (indices_length _ N). unfold qlen in L. lia.
  - intros k Hk. assert (K : within (size shape) (Z.of_nat k)) by (unfold within, qlen in *; lia).
    destruct (off_onto shape _ N K) as (idx & I & O).
    pose proof (nth_indices (qelem x shape) shape idx 0%Qc N I) as E. rewrite position_off in E by auto. cbn [Z.mul Z.add] in E. rewrite O in E. rewrite Nat2Z.id in E. rewrite E.
    unfold qelem. rewrite position_off by auto. cbn [Z.mul Z.add]. rewrite O, Nat2Z.id. reflexivity.
Qed.
Lemma count_nonzeros_ok x : count_nonzeros x = Z.of_nat (length (filter (fun v => negb (is_zero v)) x)).
Proof.
  unfold count_nonzeros. assert (G : forall x n, fold_left (fun n v => n + (if is_zero v then 0 else 1)) x n = n + Z.of_nat (length (filter (fun v => negb (is_zero v)) x))).
  { clear. induction x as [|v x IH]; intros n; cbn [fold_left filter]; [cbn; lia|]. rewrite IH. destruct (is_zero v); cbn [negb length]; lia. }
  rewrite G. lia.
Qed.
Lemma filter_map_length {A B} (f : A -> B) (P : B -> bool) l : length (filter P (map f l)) = length (filter (fun a => P (f a)) l).
Proof. induction l as [|a l IH]; cbn [map filter]; [auto|]. destruct (P (f a)); cbn [length]; auto. Qed.
Lemma filter_ext_in' {A} (P Q : A -> bool) l : (forall a, In a l -> P a = Q a) -> filter P l = filter Q l.
Proof. apply filter_ext_in. Qed.
Lemma is_zero_dec v : negb (is_zero v) = if Qc_eq_dec v 0 then false else true.
Proof.
  unfold is_zero. destruct (Qc_eq_dec v 0) as [->|N]; [rewrite (proj2 (same_true 0%Qc 0%Qc) eq_refl); reflexivity|]. rewrite (proj2 (same_false _ _) N). reflexivity.
Qed.

Section nonzero.
Variables (shape : list Z) (x : list Qc).
Hypothesis NN : nonneg shape.
Hypothesis LX : qlen x = size shape.
Let nz := fun idx => if Qc_eq_dec (qelem x shape idx) 0 then false else true.
Let L := nonzero_indices shape x.
Let num := Z.of_nat (length L).
Let ndim := Z.of_nat (length shape).
Lemma count_ok : count_nonzeros (firstn (Z.to_nat (size_from shape 0)) x) = num.
Proof.
  rewrite size_from_0. rewrite firstn_all2 by (unfold qlen in LX; lia). rewrite count_nonzeros_ok. unfold num, L, nonzero_indices. f_equal.
  rewrite (elements_indices x shape NN LX) at 1. rewrite filter_map_length. f_equal. apply filter_ext. intros idx. apply is_zero_dec.
Qed.
Lemma nonzero_loop l : forall P y, P ++ l = indices shape -> glen y = ndim * num ->
  exists y' k, loop (fun idx => nonzero_step (cstrides shape) ndim num x (off idx shape)) l (y, Z.of_nat (length (filter nz P))) = Some (y', k) /\ length y' = length y /\
  (forall d c, 0 <= d < ndim -> Z.of_nat (length (filter nz P)) <= c < num -> gat 0 y' (d * num + c) = gat 0 (gat [] L c) d) /\
  (forall d c, 0 <= d < ndim -> 0 <= c < Z.of_nat (length (filter nz P)) -> gat 0 y' (d * num + c) = gat 0 y (d * num + c)).
Proof.
  induction l as [|idx l IH]; intros P y E LY.
  - exists y, (Z.of_nat (length (filter nz P))). split; [reflexivity|]. split; [auto|]. split; [|auto].
    intros d c D C. rewrite app_nil_r in E. unfold num, L, nonzero_indices in C. rewrite <- E in C. fold nz in C. lia.
  - cbn [loop]. assert (I : inside idx shape) by (apply indices_in; rewrite <- E; apply in_or_app; right; left; auto).
    pose proof (off_bound _ _ I) as O. unfold nonzero_step at 1. rewrite get_ok by (unfold within; lia). cbn [obind].
    assert (Q : is_zero (qat x (off idx shape)) = negb (nz idx)).
    { pose proof (is_zero_dec (qat x (off idx shape))) as H. unfold nz. unfold qelem. rewrite position_off by auto. cbn [Z.mul Z.add]. unfold qat in *.
      rewrite <- H, negb_involutive. reflexivity. }
    rewrite Q. assert (E' : (P ++ [idx]) ++ l = indices shape) by (rewrite <- app_assoc; auto). assert (FP : filter nz (P ++ [idx]) = filter nz P ++ filter nz [idx]) by apply filter_app.
    cbn [filter] in FP. destruct (nz idx) eqn:NZ; cbn [negb].
    + rewrite flat_back by auto. assert (LI : length idx = length shape) by (apply inside_length; auto).
      set (k := Z.of_nat (length (filter nz P))) in *.
      assert (LL : L = filter nz P ++ idx :: filter nz l).
      { unfold L, nonzero_indices. fold nz. rewrite <- E, filter_app. cbn [filter]. rewrite NZ. reflexivity. }
      assert (K : 0 <= k < num) by (unfold num; rewrite LL, app_length; cbn [length]; lia).
      destruct (writes_ok 0 (ndim * num) (fun dim => dim * num + k) (fun dim _ => gat 0 idx dim) (fun dim y => obind (get idx dim) (fun d => put y (dim * num + k) d)) (upto ndim)) with (a := y) as (y1 & E1 & L1 & V1 & U1).
      * apply nodup_map; [|apply upto_nodup]. intros a b _ _ H. nia.
      * intros d H. apply upto_in in H. nia.
      * intros d a H _. apply upto_in in H. rewrite (gget_ok 0 idx d) by (unfold within, glen; lia). reflexivity.
      * auto.
      * rewrite E1. cbn [obind]. destruct (IH (P ++ [idx]) y1 E') as (y2 & k2 & E2 & L2 & V2 & U2); [unfold glen in *; congruence|].
        rewrite FP, app_length in E2, V2, U2. cbn [length] in E2, V2, U2. replace (Z.of_nat (length (filter nz P) + 1)) with (k + 1) in * by lia.
        rewrite E2. exists y2, k2. split; [auto|]. split; [congruence|]. split.
        -- intros d c D C. destruct (Z.eq_dec c k) as [->|]; [|apply V2; [auto|lia]].
           rewrite U2 by lia. rewrite V1 by (apply upto_in; auto). unfold gat at 3. rewrite LL. unfold k. rewrite Nat2Z.id, nth_middle. reflexivity.
        -- intros d c D C. rewrite U2 by lia. apply U1; [nia|]. intros H. apply in_map_iff in H as (d' & H & Hd). apply upto_in in Hd. destruct (Z.lt_trichotomy d' d) as [X|[X|X]]; nia.
    + destruct (IH (P ++ [idx]) y E' LY) as (y2 & k2 & E2 & L2 & V2 & U2). rewrite FP, app_nil_r in E2, V2, U2.
      cbn [obind]. rewrite E2. exists y2, k2. auto.
Qed.
Lemma non_zero_ok : exists y, non_zero shape x = Some ([ndim; num], y) /\ glen y = ndim * num /\
  forall d c, 0 <= d < ndim -> 0 <= c < num -> gat 0 y (d * num + c) = gat 0 (gat [] L c) d.
Proof.
  unfold non_zero. rewrite count_ok. fold ndim. rewrite size_from_0. rewrite loop_indices by auto.
  assert (LR : glen (repeat 0 (Z.to_nat (ndim * num))) = ndim * num) by (unfold glen; rewrite repeat_length; unfold ndim, num; lia).
  destruct (nonzero_loop (indices shape) [] _ eq_refl LR) as (y & k & E & Ly & V & _). cbn [filter length Z.of_nat] in E, V. rewrite E. cbn [obind fst].
  exists y. split; [auto|]. split; [unfold glen in *; congruence|]. intros d c D C. apply V; auto.
Qed.
End nonzero.
