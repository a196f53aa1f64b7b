(** Random choice: all populations, and the gradient. *)
From Coq Require Import List ZArith Lia Lqa Bool QArith Qcanon.
From Verif Require Import NdSpec IdxModel IdxProofs1 JoinModel JoinProofs ScanSpec ScanModel ScanProofs1 ReduceModel ConvModel ConvSpec ConvProofs3 ConvProofs5 ConvProofs7 PoolProofs3 ItpModel ItpProofs2 NmsProofs1 RcModel RcSpec RcProofs1 RcProofs2.
Import ListNotations.
Local Open Scope list_scope.
Local Open Scope Qc_scope.

(** * All populations *)
Section rows.
Variables (replace : bool) (inner : nat) (ok : list Qc -> Prop) (draws : list Qc -> Prop) (R : list Qc -> list Qc -> list nat -> Prop).
Hypothesis D_app : forall a b, draws (a ++ b) -> draws b.
Hypothesis each_row : forall w r l r', ok w -> draws r -> choose replace inner w r = Done (l, r') -> exists used, r = used ++ r' /\ R w used l.
Lemma rows_some : forall xs ws r y idx r', length xs = length ws -> Forall ok ws -> draws r -> random_choice replace inner xs ws r = Done (y, idx, r') ->
  exists ls used, length ls = length ws /\ length used = length ws /\ r = concat used ++ r' /\ idx = concat ls /\
  y = concat (map (fun '(x, l) => elements x l) (combine xs ls)) /\ forall b, (b < length ws)%nat -> R (nth b ws []) (nth b used []) (nth b ls []).
Proof.
  induction xs as [| x xs IH]; intros ws r y idx r' L O U H; destruct ws as [| w ws]; try discriminate L.
  - cbn in H. injection H as <- <- <-. exists [], []. repeat split. intros b B. cbn in B. lia.
  - cbn [random_choice] in H. destruct (choose replace inner w r) as [[l r1] | |] eqn:C; cbn [andthen] in H; try discriminate. destruct (random_choice replace inner xs ws r1) as [[[y1 i1] r2] | |] eqn:E; cbn [andthen] in H; try discriminate. injection H as <- <- <-.
    inversion O; subst. destruct (each_row w r l r1 ltac:(assumption) U C) as (u & -> & Ru). cbn in L. injection L as L. destruct (IH ws r1 y1 i1 r2 L ltac:(assumption) (D_app _ _ U) E) as (ls & used & L1 & L2 & -> & -> & -> & F).
    exists (l :: ls), (u :: used). split; [cbn; rewrite L1; reflexivity |]. split; [cbn; rewrite L2; reflexivity |]. split; [cbn; rewrite app_assoc; reflexivity |]. split; [reflexivity |]. split; [reflexivity |].
    intros [| b] B; [exact Ru |]. apply F. cbn in B. lia.
Qed.
End rows.
(** If every population can be sampled with at most [most] numbers, so can all. *)
Section total.
Variables (replace : bool) (inner most : nat) (ok : list Qc -> Prop).
Hypothesis each_total : forall w r, ok w -> Forall unit_number r -> (most <= length r)%nat -> exists l r', choose replace inner w r = Done (l, r') /\ (length r <= most + length r')%nat /\ Forall unit_number r'.
Lemma rows_total : forall xs ws r, length xs = length ws -> Forall ok ws -> Forall unit_number r -> (length ws * most <= length r)%nat -> exists y idx r', random_choice replace inner xs ws r = Done (y, idx, r').
Proof.
  induction xs as [| x xs IH]; intros ws r L O U B; destruct ws as [| w ws]; try discriminate L; [do 3 eexists; reflexivity |].
  inversion O; subst. cbn in B. destruct (each_total w r ltac:(assumption) U ltac:(lia)) as (l & r1 & E & L1 & U1). cbn in L. injection L as L. destruct (IH ws r1 L ltac:(assumption) U1 ltac:(lia)) as (y & idx & r2 & E2).
  cbn [random_choice]. rewrite E. cbn [andthen]. rewrite E2. cbn [andthen]. do 3 eexists. reflexivity.
Qed.
End total.

Lemma choose_bound replace inner w r l r' : choose replace inner w r = Done (l, r') -> length l = inner /\ Forall (fun k => (k < length w)%nat) l.
Proof.
  destruct replace; intros H.
  - unfold choose in H. destruct (existsb _ w); [discriminate |]. rewrite back_sum in H. destruct (less 0 (sum_of w)) eqn:S0; [| discriminate]. cbn [negb] in H. apply less_iff in S0.
    assert (LW : (0 < length w)%nat) by (destruct w; [exfalso; exact (Qclt_not_eq _ _ S0 eq_refl) | cbn; lia]). clear S0. revert r l r' H. induction inner as [| n IH]; intros r l r' H.
    + destruct r; injection H as <- <-; split; constructor.
    + destruct r as [| c r]; [discriminate |]. cbn [with_replacement] in H. destruct (with_replacement (length w) (partial_sum 0 w) n r) as [[l1 r1] | |] eqn:E; cbn [andthen] in H; try discriminate. destruct (IH _ _ _ E) as [L1 F1].
      injection H as <- <-. split; [cbn; rewrite L1; reflexivity |]. constructor; [| exact F1]. destruct (first_above _ _) as [i |] eqn:F; [| lia]. apply above_some in F as (B & _). rewrite partial_length in B. exact B.
  - apply choose_without in H as (_ & _ & L & _ & P & _). split; [exact L |]. apply Forall_forall. intros k K. apply P in K. destruct (Nat.lt_ge_cases k (length w)) as [B | B]; [exact B |]. exfalso. rewrite nth_overflow in K by exact B. exact (Qclt_not_eq _ _ K eq_refl).
Qed.
Lemma choose_suffix replace inner w r l r' : choose replace inner w r = Done (l, r') -> exists used, r = used ++ r'.
Proof.
  destruct replace; intros H; [| apply choose_without in H as (u & E & _); exists u; exact E].
  unfold choose in H. destruct (existsb _ w); [discriminate |]. destruct (negb _); [discriminate |]. revert r l r' H. induction inner as [| n IH]; intros r l r' H.
  - destruct r; injection H as <- <-; exists []; reflexivity.
  - destruct r as [| c r]; [discriminate |]. cbn [with_replacement] in H. destruct (with_replacement (length w) (partial_sum 0 w) n r) as [[l1 r1] | |] eqn:E; cbn [andthen] in H; try discriminate. injection H as <- <-. destruct (IH _ _ _ E) as (u & ->). exists (c :: u). reflexivity.
Qed.

(** * Positions *)
Lemma nth_concat {T} (d : T) m : forall ls b i, (forall b, (b < length ls)%nat -> length (nth b ls []) = m) -> (b < length ls)%nat -> (i < m)%nat -> nth (b * m + i) (concat ls) d = nth i (nth b ls []) d.
Proof.
  induction ls as [| l ls IH]; intros b i H B I; [cbn in B; lia |]. pose proof (H 0%nat ltac:(cbn; lia)) as L. cbn in L. destruct b as [| b]; cbn [concat nth].
  - rewrite app_nth1 by (cbn; lia). reflexivity.
  - rewrite app_nth2 by (cbn; lia). replace (S b * m + i - length l)%nat with (b * m + i)%nat by (cbn; lia). apply IH; [| cbn in B; lia | exact I]. intros c C. apply (H (S c)). cbn. lia.
Qed.
Lemma length_concat {T} m : forall (ls : list (list T)), (forall b, (b < length ls)%nat -> length (nth b ls []) = m) -> length (concat ls) = (length ls * m)%nat.
Proof.
  induction ls as [| l ls IH]; intros H; [reflexivity |]. cbn. rewrite app_length, IH by (intros b B; apply (H (S b)); cbn; lia). pose proof (H 0%nat ltac:(cbn; lia)) as L. cbn in L. rewrite L. reflexivity.
Qed.
Lemma rows_at replace inner xs ws r y idx r' : length xs = length ws -> random_choice replace inner xs ws r = Done (y, idx, r') ->
  length idx = (length ws * inner)%nat /\ length y = (length ws * inner)%nat /\
  forall b i, (b < length ws)%nat -> (i < inner)%nat -> (nth (b * inner + i) idx 0 < length (nth b ws []))%nat /\ nth (b * inner + i) y 0 = nth (nth (b * inner + i) idx 0%nat) (nth b xs []) 0.
Proof.
  intros L H. destruct (rows_some replace inner (fun _ => True) (fun _ => True) (fun w _ l => length l = inner /\ Forall (fun k => (k < length w)%nat) l) (fun _ _ _ => I)) with (xs := xs) (ws := ws) (r := r) (y := y) (idx := idx) (r' := r') as (ls & used & L1 & _ & _ & -> & -> & F); auto.
  { intros w r0 l r0' _ _ C. destruct (choose_suffix _ _ _ _ _ _ C) as (u & E). exists u. split; [exact E |]. apply (choose_bound _ _ _ _ _ _ C). }
  { apply Forall_forall. auto. }
  assert (A : forall b, (b < length ls)%nat -> length (nth b ls []) = inner) by (intros b B; apply F; lia).
  set (f := fun '(x, l) => elements x l). assert (NM : forall b, (b < length ls)%nat -> nth b (map f (combine xs ls)) [] = elements (nth b xs []) (nth b ls [])).
  { intros b B. change (@nil Qc) with (f ([], [])) at 1. rewrite map_nth, combine_nth by lia. reflexivity. }
  assert (LM : length (map f (combine xs ls)) = length ls) by (rewrite map_length, combine_length; lia).
  assert (A2 : forall b, (b < length (map f (combine xs ls)))%nat -> length (nth b (map f (combine xs ls)) []) = inner) by (intros b B; rewrite LM in B; rewrite NM by exact B; unfold elements; rewrite map_length; apply A; exact B).
  split; [rewrite (length_concat inner) by exact A; lia |]. split; [rewrite (length_concat inner) by exact A2; lia |].
  intros b i B Ib. rewrite !(nth_concat _ inner) by (try exact A; try exact A2; lia). destruct (F b B) as [Lb Fb]. split; [apply (proj1 (Forall_forall _ _) Fb), nth_In; lia |].
  rewrite NM by lia. unfold elements. set (g := fun k => nth k (nth b xs []) 0). rewrite (nth_indep (map g (nth b ls [])) 0 (g 0%nat)) by (rewrite map_length; lia). rewrite map_nth. reflexivity.
Qed.
(** The places do not depend on the elements. *)
Lemma rows_same replace inner : forall xs us ws r y idx r', length us = length xs -> random_choice replace inner xs ws r = Done (y, idx, r') -> exists v, random_choice replace inner us ws r = Done (v, idx, r').
Proof.
  induction xs as [| x xs IH]; intros us ws r y idx r' L H; destruct us as [| u us]; try discriminate L.
  - destruct ws; injection H as <- <- <-; exists []; reflexivity.
  - destruct ws as [| w ws]; [injection H as <- <- <-; exists []; reflexivity |]. cbn [random_choice] in *. destruct (choose replace inner w r) as [[l r1] | |]; cbn [andthen] in *; try discriminate.
    destruct (random_choice replace inner xs ws r1) as [[[y1 i1] r2] | |] eqn:E; cbn [andthen] in H; try discriminate. injection H as <- <- <-. cbn in L. injection L as L. destruct (IH us ws r1 y1 i1 r2 L E) as (v & Ev). rewrite Ev. cbn [andthen]. eexists. reflexivity.
Qed.
Lemma populations_length n : forall k a, length (populations n k a) = k.
Proof. induction k as [| k IH]; intros a; cbn; [reflexivity | rewrite IH; reflexivity]. Qed.
Lemma firstn_nth {T} (d : T) n : forall (a : list T) i, (i < n)%nat -> nth i (firstn n a) d = nth i a d.
Proof. induction n as [| n IH]; intros a i I; [lia |]. destruct a as [| x a]; [reflexivity |]. destruct i as [| i]; [reflexivity |]. cbn. apply IH. lia. Qed.
Lemma skipn_nth {T} (d : T) n : forall (a : list T) i, nth i (skipn n a) d = nth (n + i) a d.
Proof. induction n as [| n IH]; intros a i; [reflexivity |]. destruct a as [| x a]; [destruct i; reflexivity |]. cbn. apply IH. Qed.
Lemma populations_nth n : forall k a b i, (b < k)%nat -> (i < n)%nat -> nth i (nth b (populations n k a) []) 0 = nth (b * n + i) a 0.
Proof.
  induction k as [| k IH]; intros a b i B I; [lia |]. destruct b as [| b]; cbn [populations nth].
  - apply firstn_nth. exact I.
  - rewrite IH by lia. rewrite skipn_nth. f_equal. cbn. lia.
Qed.
Lemma populations_size n : forall k a b, (b < k)%nat -> (k * n <= length a)%nat -> length (nth b (populations n k a) []) = n.
Proof.
  induction k as [| k IH]; intros a b B L; [lia |]. cbn in L. destruct b as [| b]; cbn [populations nth].
  - rewrite firstn_length. lia.
  - apply IH; [lia |]. rewrite skipn_length. lia.
Qed.

(** * The gradient *)
Lemma get_idx (idx : list nat) p : (0 <= p < Z.of_nat (length idx))%Z -> get idx p = Some (nth (Z.to_nat p) idx 0%nat).
Proof. intros H. unfold get. destruct (Z.ltb_spec p 0); [lia |]. apply nth_error_nth'. lia. Qed.
Lemma add_rows_ok (n k inner : nat) idx gy a : length idx = (k * inner)%nat -> length gy = (k * inner)%nat -> length a = (k * n)%nat ->
  (forall b i, (b < k)%nat -> (i < inner)%nat -> (nth (b * inner + i) idx 0 < n)%nat) ->
  exists a', add_rows (Z.of_nat n) (Z.of_nat k) (Z.of_nat inner) idx gy a = Some a' /\ length a' = length a /\
  forall u, qinner u a' = qinner u a + zsum (Z.of_nat k) (fun b => zsum (Z.of_nat inner) (fun i => qat u (b * Z.of_nat n + Z.of_nat (nth (Z.to_nat (b * Z.of_nat inner + i)) idx 0%nat))%Z * qat gy (b * Z.of_nat inner + i)%Z)).
Proof.
  intros LI LG LA B. unfold add_rows.
  destruct (add_loop (upto (Z.of_nat k)) (fun b => loop (fun i a => obind (get idx (b * Z.of_nat inner + i)%Z) (fun j => obind (get gy (b * Z.of_nat inner + i)%Z) (fun g => add_at a (b * Z.of_nat n + Z.of_nat j)%Z g))) (upto (Z.of_nat inner)))
    (fun u b => total (upto (Z.of_nat inner)) (fun i => qat u (b * Z.of_nat n + Z.of_nat (nth (Z.to_nat (b * Z.of_nat inner + i)) idx 0%nat))%Z * qat gy (b * Z.of_nat inner + i)%Z)) (Z.of_nat k * Z.of_nat n)%Z) with (a := a) as (a' & E & L & Q).
  - intros b c Ib Lc. apply upto_in in Ib. apply (add_loop (upto (Z.of_nat inner)) (fun i a => obind (get idx (b * Z.of_nat inner + i)%Z) (fun j => obind (get gy (b * Z.of_nat inner + i)%Z) (fun g => add_at a (b * Z.of_nat n + Z.of_nat j)%Z g)))
      (fun u i => qat u (b * Z.of_nat n + Z.of_nat (nth (Z.to_nat (b * Z.of_nat inner + i)) idx 0%nat))%Z * qat gy (b * Z.of_nat inner + i)%Z) (Z.of_nat k * Z.of_nat n)%Z); [| exact Lc].
    intros i e Ii Le. apply upto_in in Ii. assert (P : (0 <= b * Z.of_nat inner + i < Z.of_nat k * Z.of_nat inner)%Z) by nia.
    rewrite get_idx by (rewrite LI; lia). cbn [obind]. rewrite get_ok by (unfold within, qlen; rewrite LG; lia). cbn [obind]. apply add_at_ok. rewrite Le. unfold within.
    specialize (B (Z.to_nat b) (Z.to_nat i) ltac:(lia) ltac:(lia)). replace (Z.to_nat b * inner + Z.to_nat i)%nat with (Z.to_nat (b * Z.of_nat inner + i)) in B by nia. nia.
  - unfold qlen. rewrite LA. lia.
  - exists a'. split; [exact E |]. split; [exact L |]. intros u. rewrite Q. f_equal. rewrite upto_range, total_range. apply zsum_ext. intros b _. rewrite upto_range, total_range. reflexivity.
Qed.
