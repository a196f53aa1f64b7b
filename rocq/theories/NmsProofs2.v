(** Non-maximum suppression: the two nested loops. *)
From Coq Require Import List ZArith Lia Bool Permutation QArith Qcanon.
From Verif Require Import NdSpec NdProofs IdxModel IdxProofs1 IdxProofs2 IdxProofs3 JoinModel JoinProofs ScanModel ScanProofs1 ReduceModel SortProofs1 SortProofs2 SortProofs3 ConvProofs3 FindModel FindProofs4 NmsModel NmsSpec.
Import ListNotations.
Local Open Scope list_scope.
Local Open Scope Z_scope.

Section greedy.
Variables (St : Type) (n : Z) (order : list Z) (test : Z -> St -> option bool) (step : Z -> Z -> St -> option St) (over : Z -> Z -> bool) (Rep : (Z -> bool) -> St -> Prop).
Hypothesis PERM : Permutation order (upto n).
Hypothesis NN : 0 <= n.
Hypothesis TEST : forall f s a, Rep f s -> 0 <= a < n -> test a s = Some (f a).
Hypothesis STEP : forall f s a b, Rep f s -> 0 <= a < n -> 0 <= b < n -> exists s', step a b s = Some s' /\ Rep (fun c => f c && negb ((c =? b) && over a b)) s'.
Notation od := (gat 0 order).

Lemma order_len : glen order = n.
Proof. unfold glen. rewrite (Permutation_length PERM). unfold upto. rewrite map_length, seq_length. lia. Qed.
Lemma order_in a : In a order <-> 0 <= a < n.
Proof. rewrite <- upto_in. split; apply Permutation_in; [|apply Permutation_sym]; auto. Qed.
Lemma order_nodup : NoDup order.
Proof. apply (Permutation_NoDup (Permutation_sym PERM)), upto_nodup. Qed.
Lemma order_get i : 0 <= i < n -> get order i = Some (od i).
Proof. intros I. apply gget_ok. unfold within. rewrite order_len. auto. Qed.
Lemma order_bound i : 0 <= i < n -> 0 <= od i < n.
Proof. intros I. apply order_in. apply nth_In. pose proof order_len as L. unfold glen in L. lia. Qed.
Lemma order_inj i j : 0 <= i < n -> 0 <= j < n -> od i = od j -> i = j.
Proof.
  intros I J E. pose proof order_len as L. unfold glen in L.
  assert (Z.to_nat i = Z.to_nat j); [|lia]. apply (proj1 (NoDup_nth order 0) order_nodup); [lia|lia|exact E].
Qed.
Lemma order_first m : 0 <= m < n -> firstn (Z.to_nat (m + 1)) order = firstn (Z.to_nat m) order ++ [od m].
Proof.
  intros M. pose proof order_len as L. unfold glen in L. replace (Z.to_nat (m + 1)) with (S (Z.to_nat m)) by lia.
  destruct (nth_split order 0 (n := Z.to_nat m)) as (u & w & E & LU); [lia|]. unfold gat. rewrite E at 1 2. rewrite <- LU.
  rewrite firstn_app, firstn_all2 by lia. replace (S (length u) - length u)%nat with 1%nat by lia. cbn [firstn].
  rewrite firstn_app, firstn_all, Nat.sub_diag. cbn [firstn]. rewrite app_nil_r. reflexivity.
Qed.

Variable f0 : Z -> bool.
Definition kept (l : list Z) : list Z := fold_left (fun K a => if f0 a && negb (existsb (fun b => over b a) K) then K ++ [a] else K) l [].
Lemma kept_snoc l a : kept (l ++ [a]) = if f0 a && negb (existsb (fun b => over b a) (kept l)) then kept l ++ [a] else kept l.
Proof. unfold kept. rewrite fold_left_app. reflexivity. Qed.
Definition K (m : Z) : list Z := kept (firstn (Z.to_nat m) order).
Definition good (t m : Z) : bool := f0 (od t) && negb (existsb (fun b => over b (od t)) (K m)).
Lemma K_next m : 0 <= m < n -> K (m + 1) = if good m m then K m ++ [od m] else K m.
Proof. intros M. unfold K. rewrite order_first by auto. rewrite kept_snoc. reflexivity. Qed.
Lemma K_in m c : 0 <= m <= n -> (In c (K m) <-> exists t, 0 <= t < m /\ c = od t /\ good t t = true).
Proof.
  intros M. assert (G : forall k : nat, Z.of_nat k <= n -> In c (K (Z.of_nat k)) <-> exists t, 0 <= t < Z.of_nat k /\ c = od t /\ good t t = true).
  2:{ replace m with (Z.of_nat (Z.to_nat m)) by lia. apply G. lia. }
  induction k as [|k IH]; intros Hk.
  - split; [intros []|intros (t & H & _); lia].
  - replace (Z.of_nat (S k)) with (Z.of_nat k + 1) in * by lia. rewrite K_next by lia. specialize (IH ltac:(lia)). destruct (good (Z.of_nat k) (Z.of_nat k)) eqn:E.
    + rewrite in_app_iff, IH. cbn [In]. split.
      * intros [(t & H & R)|[<-|[]]]; [exists t; split; [lia|auto]|exists (Z.of_nat k); split; [lia|auto]].
      * intros (t & H & -> & R). destruct (Z.eq_dec t (Z.of_nat k)) as [->|]; [right; left; auto|left; exists t; split; [lia|auto]].
    + rewrite IH. split; intros (t & H & -> & R); exists t; (split; [|auto]); [lia|]. destruct (Z.eq_dec t (Z.of_nat k)) as [->|]; [congruence|lia].
Qed.

Definition inner (i : Z) (a : Z) : St -> option St := loop (fun j s => obind (get order j) (fun b => step a b s)) (between (i + 1) n).
Lemma inner_ok f s i : 0 <= i < n -> Rep f s -> exists s' f', inner i (od i) s = Some s' /\ Rep f' s' /\
  forall t, 0 <= t < n -> f' (od t) = if i <? t then f (od t) && negb (over (od i) (od t)) else f (od t).
Proof.
  intros I R. unfold inner, between. rewrite <- (loop_map (fun j s => obind (get order j) (fun b => step (od i) b s)) (fun q => i + 1 + q)).
  destruct (loop_inv (fun q s => exists f', Rep f' s /\ forall t, 0 <= t < n -> f' (od t) = if (i <? t) && (t <? i + 1 + q) then f (od t) && negb (over (od i) (od t)) else f (od t))
    (fun q s => obind (get order (i + 1 + q)) (fun b => step (od i) b s)) (n - (i + 1)) ltac:(lia)) with (s := s) as (s' & E & f' & R' & V).
  - intros q s1 Hq (f1 & R1 & V1). rewrite order_get by lia. cbn [obind]. destruct (STEP f1 s1 (od i) (od (i + 1 + q)) R1) as (s2 & E2 & R2); [apply order_bound; lia|apply order_bound; lia|].
    exists s2. split; [auto|]. eexists. split; [exact R2|]. intros t T. cbv beta. rewrite V1 by auto. destruct (Z.eqb_spec (od t) (od (i + 1 + q))) as [X|X].
    + apply order_inj in X; [|lia|lia]. subst t. replace (i <? i + 1 + q) with true by (symmetry; apply Z.ltb_lt; lia). replace (i + 1 + q <? i + 1 + q) with false by (symmetry; apply Z.ltb_ge; lia).
      replace (i + 1 + q <? i + 1 + (q + 1)) with true by (symmetry; apply Z.ltb_lt; lia). cbn [andb]. reflexivity.
    + cbn [andb negb]. rewrite andb_true_r. assert (t <> i + 1 + q) by congruence. destruct (Z.ltb_spec i t), (Z.ltb_spec t (i + 1 + q)), (Z.ltb_spec t (i + 1 + (q + 1))); cbn [andb]; auto; lia.
  - exists f. split; [auto|]. intros t T. destruct (Z.ltb_spec i t), (Z.ltb_spec t (i + 1 + 0)); cbn [andb]; auto; lia.
  - exists s', f'. split; [auto|]. split; [auto|]. intros t T. rewrite V by auto. replace (t <? i + 1 + (n - (i + 1))) with true by (symmetry; apply Z.ltb_lt; lia). rewrite andb_true_r. auto.
Qed.
Lemma suppress_loop s : Rep f0 s -> exists s' f, suppress test step order n s = Some s' /\ Rep f s' /\ forall t, 0 <= t < n -> f (od t) = good t t.
Proof.
  intros R. unfold suppress.
  destruct (loop_inv (fun i s => exists f, Rep f s /\ forall t, 0 <= t < n -> f (od t) = good t (Z.min i t))
    (fun i s => obind (get order i) (fun a => obind (test a s) (fun t => if negb t then Some s else loop (fun j s => obind (get order j) (fun b => step a b s)) (between (i + 1) n) s))) n NN) with (s := s) as (s' & E & f & R' & V).
  - intros i s1 I (f & R1 & V). rewrite order_get by auto. cbn [obind]. rewrite (TEST f s1) by (auto; apply order_bound; auto). cbn [obind]. pose proof (V i I) as Vi. rewrite Z.min_id in Vi. rewrite Vi.
    destruct (good i i) eqn:G; cbn [negb].
    + destruct (inner_ok f s1 i I R1) as (s2 & f2 & E2 & R2 & V2). exists s2. split; [exact E2|]. exists f2. split; [auto|]. intros t T. rewrite V2, V by auto.
      destruct (Z.ltb_spec i t) as [L|L].
      * rewrite !Z.min_l by lia. unfold good at 2. rewrite K_next, G by auto. rewrite existsb_app. cbn [existsb]. rewrite orb_false_r, negb_orb. unfold good. rewrite andb_assoc. auto.
      * rewrite !Z.min_r by lia. auto.
    + exists s1. split; [auto|]. exists f. split; [auto|]. intros t T. rewrite V by auto. destruct (Z.ltb_spec i t) as [L|L].
      * rewrite !Z.min_l by lia. unfold good. rewrite (K_next i) by auto. rewrite G. auto.
      * rewrite !Z.min_r by lia. auto.
  - exists f0. split; [auto|]. intros t T. rewrite Z.min_l by lia. unfold good, K. cbn. rewrite andb_true_r. auto.
  - exists s', f. split; [exact E|]. split; [auto|]. intros t T. rewrite V by auto. rewrite Z.min_r by lia. auto.
Qed.
Lemma nth_od k : (k < length order)%nat -> nth k order 0 = od (Z.of_nat k) /\ 0 <= Z.of_nat k < n.
Proof. intros H. unfold gat. rewrite Nat2Z.id. split; [auto|]. pose proof order_len as L. unfold glen in L. lia. Qed.
Lemma good_selection f : (forall t, 0 <= t < n -> f (od t) = good t t) ->
  selection order (fun a => f0 a = true) (fun a b => over a b = true) (fun a => In a order /\ f a = true).
Proof.
  intros V. constructor.
  - intros a [I F]. split; [auto|]. apply (In_nth _ _ 0) in I as (k & Hk & <-). destruct (nth_od k Hk) as [E B]. rewrite E in *. rewrite V in F by auto. apply andb_true_iff in F. tauto.
  - intros i j H [_ Fi] [_ Fj] O. destruct (nth_od i ltac:(lia)) as [Ei Bi]. destruct (nth_od j ltac:(lia)) as [Ej Bj]. rewrite Ei, Ej in *. rewrite V in Fi, Fj by auto.
    apply andb_true_iff in Fj as [_ Fj]. apply negb_true_iff in Fj. enough (existsb (fun b => over b (od (Z.of_nat j))) (K (Z.of_nat j)) = true) by congruence.
    apply existsb_exists. exists (od (Z.of_nat i)). split; [|auto]. apply K_in; [lia|]. exists (Z.of_nat i). split; [lia|auto].
  - intros j H P NK. destruct (nth_od j H) as [Ej Bj]. assert (F : f (nth j order 0) <> true) by (intros F; apply NK; split; [apply nth_In; auto|auto]). rewrite Ej in *. rewrite V in F by auto.
    unfold good in F. rewrite P in F. cbn [andb] in F. destruct (existsb _ _) eqn:EX in F; [|destruct F; auto]. apply existsb_exists in EX as (b & Hb & O). apply K_in in Hb; [|lia].
    destruct Hb as (t & T & -> & G). exists (Z.to_nat t). assert (LT : (Z.to_nat t < j)%nat) by lia. destruct (nth_od (Z.to_nat t) ltac:(lia)) as [Et Bt]. rewrite Z2Nat.id in Et by lia. rewrite Et.
    split; [auto|]. split; [|auto]. split; [apply order_in, order_bound; lia|]. rewrite V by lia. auto.
Qed.
Lemma suppress_ok s : Rep f0 s -> exists s' f, suppress test step order n s = Some s' /\ Rep f s' /\
  selection order (fun a => f0 a = true) (fun a b => over a b = true) (fun a => In a order /\ f a = true).
Proof. intros R. destruct (suppress_loop s R) as (s' & f & E & R' & V). exists s', f. split; [auto|]. split; [auto|]. apply good_selection. auto. Qed.
End greedy.
