(** TopKData and TopKGrad, and functions that keep the promises of the standard library. *)
From Coq Require Import List ZArith Lia Bool Permutation Sorted QArith Qcanon.
From Verif Require Import NdModel NdSpec NdProofs IdxModel IdxSpec IdxProofs1 IdxProofs2 IdxProofs3 IdxProofs6 JoinModel JoinSpec JoinProofs JoinProofs2 ScanModel ScanSpec ScanProofs1 ReduceModel ReduceSpec ReduceProofs1 ReduceProofs2 ReduceProofs5 SortModel SortSpec SortProofs1 SortProofs2.
Import ListNotations.
Local Open Scope list_scope.
Local Open Scope Z_scope.

(** Writing to different places. *)
Lemma writes_ok {T I} (d : T) (N : Z) (pos : I -> Z) (W : I -> T -> T) (step : I -> list T -> option (list T)) : forall l, NoDup (map pos l) ->
  (forall i, In i l -> 0 <= pos i < N) ->
  (forall i a, In i l -> glen a = N -> step i a = put a (pos i) (W i (gat d a (pos i)))) ->
  forall a, glen a = N -> exists a', loop step l a = Some a' /\ length a' = length a /\
    (forall i, In i l -> gat d a' (pos i) = W i (gat d a (pos i))) /\
    (forall q, 0 <= q -> ~ In q (map pos l) -> gat d a' q = gat d a q).
Proof.
  induction l as [|i l IH]; intros ND IN ST a L; cbn [loop].
  - exists a. split; [auto|]. split; [auto|]. split; [intros ? []|auto].
  - cbn [map] in ND. inversion ND as [|? ? N1 N2]; subst. assert (Pi := IN i (or_introl eq_refl)). rewrite ST by (auto; left; auto).
    destruct (put_gen d a (pos i) (W i (gat d a (pos i)))) as (b & E & Lb & Vb); [unfold glen in *; lia|]. rewrite E. cbn [obind].
    destruct (IH N2) with (a := b) as (c & E' & Lc & Vc & Uc).
    { intros; apply IN; right; auto. } { intros; apply ST; [right|]; auto. } { unfold glen in *. congruence. }
    exists c. split; [auto|]. split; [congruence|]. split.
    + intros j [<-|Hj].
      * rewrite Uc by (auto; lia). unfold gat at 1. rewrite Vb by lia. rewrite Z.eqb_refl. auto.
      * assert (Pj := IN j (or_intror Hj)). rewrite Vc by auto. f_equal. unfold gat at 1. rewrite Vb by lia.
        destruct (Z.eqb_spec (pos j) (pos i)) as [Q|Q]; [exfalso; apply N1; rewrite <- Q; apply in_map; auto|reflexivity].
    + intros q Q NI. cbn [map In] in NI. rewrite Uc by tauto. unfold gat at 1. rewrite Vb by lia. destruct (Z.eqb_spec q (pos i)) as [->|]; [tauto|reflexivity].
Qed.

(** * Insertion sort *)
Fixpoint insert {A} (R : A -> A -> bool) (a : A) (l : list A) : list A :=
  match l with [] => [a] | b :: l' => if R b a then b :: insert R a l' else a :: l end.
Fixpoint isort {A} (R : A -> A -> bool) (l : list A) : list A := match l with [] => [] | a :: l => insert R a (isort R l) end.
Lemma insert_perm {A} (R : A -> A -> bool) a l : Permutation (insert R a l) (a :: l).
Proof. induction l as [|b l IH]; cbn; [auto|]. destruct (R b a); [|auto]. rewrite IH. apply perm_swap. Qed.
Lemma isort_perm {A} (R : A -> A -> bool) l : Permutation (isort R l) l.
Proof. induction l as [|a l IH]; cbn; [auto|]. rewrite insert_perm. auto. Qed.
Lemma insert_sorted {A} (R : A -> A -> bool) a l : strict_weak R -> StronglySorted (fun a b => R b a = false) l -> StronglySorted (fun a b => R b a = false) (insert R a l).
Proof.
  intros (H1 & H2 & H3 & H4). induction 1 as [|b l S IH F]; cbn; [constructor; [constructor|constructor]|].
  destruct (R b a) eqn:E.
  - constructor; [auto|]. rewrite Forall_forall in F |- *. intros c Hc. apply (Permutation_in _ (insert_perm R a l)) in Hc as [<-|Hc]; [apply H2; auto|auto].
  - constructor; [constructor; auto|]. constructor; [auto|]. rewrite Forall_forall in F |- *. intros c Hc. eapply H4; eauto.
Qed.
Lemma isort_sorted {A} (R : A -> A -> bool) l : strict_weak R -> StronglySorted (fun a b => R b a = false) (isort R l).
Proof. intros H. induction l as [|a l IH]; cbn; [constructor|apply insert_sorted; auto]. Qed.
Lemma sorted_ordered {A} (R : A -> A -> bool) l : StronglySorted (fun a b => R b a = false) l -> ordered R l.
Proof.
  induction 1 as [|a l S IH F]; intros d i j H; cbn [length] in H; [lia|]. destruct j as [|j]; [lia|]. destruct i as [|i]; cbn [nth].
  - rewrite Forall_forall in F. apply F, nth_In. lia.
  - apply IH. lia.
Qed.
Lemma isort_sorting {A} : sorting (@isort A).
Proof. intros R l H. split; [apply isort_perm|]. apply sorted_ordered, isort_sorted. auto. Qed.

Definition flip {A} (R : A -> A -> bool) (a b : A) : bool := R b a.
Lemma flip_weak {A} (R : A -> A -> bool) : strict_weak R -> strict_weak (flip R).
Proof. intros (H1 & H2 & H3 & H4). unfold flip. split; [auto|]. split; [auto|]. split; intros; eauto. Qed.
Lemma ordered_heap {A} (R : A -> A -> bool) l : ordered (flip R) l -> is_heap R l.
Proof. intros H d i Hi. apply (H d). split; [|lia]. apply Nat.div_lt_upper_bound; lia. Qed.
Definition heaps : heap_functions := {|
  make_heap R l := isort (flip R) l;
  pop_heap R l := match l with [] => [] | a :: l => isort (flip R) l ++ [a] end;
  push_heap R l := isort (flip R) l;
  sort_heap R l := isort R l |}.
Lemma heaps_heaping : heaping heaps.
Proof.
  intros R SW. pose proof (flip_weak R SW) as SF. cbn.
  assert (MK : forall l, Permutation (isort (flip R) l) l /\ is_heap R (isort (flip R) l)).
  { intros l. split; [apply isort_perm|]. apply ordered_heap, sorted_ordered, isort_sorted. auto. }
  split; [auto|]. split; [|split].
  - intros a l _. exists (isort (flip R) l). split; [auto|]. apply MK.
  - intros h a _. apply MK.
  - intros l _. apply isort_sorting. auto.
Qed.

(** * Samples *)
Lemma sample_upto {T} (d : T) n o a : 0 <= n -> 0 <= o -> sample d n o a = map (fun i => gat d a (o * n + i)) (upto n).
Proof.
  intros N O. unfold sample, upto. rewrite map_map. apply map_ext. intros i. unfold gat. f_equal. nia.
Qed.
Lemma sample_row x n o : 0 <= n -> 0 <= o -> row_of x o n = sample 0%Qc n o x.
Proof. intros. rewrite sample_upto by auto. reflexivity. Qed.
Lemma sample_nth {T} (d : T) n o a i : 0 <= n -> 0 <= o -> 0 <= i < n -> nth (Z.to_nat i) (sample d n o a) d = gat d a (o * n + i).
Proof.
  intros N O I. unfold sample. rewrite (nth_indep _ d (nth (Z.to_nat (o * n) + 0) a d)) by (rewrite map_length, seq_length; lia).
  rewrite (map_nth (fun i => nth (Z.to_nat (o * n) + i) a d)), seq_nth by lia. unfold gat. f_equal. nia.
Qed.
Lemma sample_length {T} (d : T) n o a : length (sample d n o a) = Z.to_nat n.
Proof. unfold sample. rewrite map_length, seq_length. auto. Qed.

Section top.
Variable std : heap_functions.
Hypothesis STD : heaping std.
Variables (largest abs : bool) (k ns ss : Z) (x : list Qc).
Hypothesis K : 0 < k <= ss.
Hypothesis NS : 0 <= ns.
Hypothesis LX : qlen x = ns * ss.
Definition TK (s : Z) : list Z := match top_k std largest abs (sample 0%Qc ss s x) k with Some l => l | None => [] end.
Lemma TK_ok s : 0 <= s < ns -> row x s ss = Some (sample 0%Qc ss s x) /\ top_k std largest abs (sample 0%Qc ss s x) k = Some (TK s) /\
  best_k (before_in largest abs) (sample 0%Qc ss s x) k (TK s).
Proof.
  intros HS. split; [rewrite (row_ok x ns) by (auto; lia); f_equal; apply sample_row; lia|].
  destruct (top_k_ok std STD largest abs (sample 0%Qc ss s x) k) as (l & E & B); [unfold qlen; rewrite sample_length; lia|].
  unfold TK. rewrite E. auto.
Qed.
Lemma TK_length s : 0 <= s < ns -> Z.of_nat (length (TK s)) = k.
Proof. intros HS. apply (TK_ok s HS). Qed.
Lemma TK_nodup s : 0 <= s < ns -> NoDup (TK s).
Proof. intros HS. apply (TK_ok s HS). Qed.
Lemma TK_in s i : 0 <= s < ns -> In i (TK s) -> 0 <= i < ss.
Proof. intros HS I. destruct (TK_ok s HS) as (_ & _ & _ & _ & B & _). specialize (B i I). rewrite sample_length in B. lia. Qed.
Lemma TK_at s j : 0 <= s < ns -> 0 <= j < k -> In (nth (Z.to_nat j) (TK s) 0) (TK s).
Proof. intros HS J. apply nth_In. pose proof (TK_length s HS). lia. Qed.

Variable reduce : bool.
Let fs := if reduce then k else ss.
Definition dest (s j : Z) : Z := if reduce then j else nth (Z.to_nat j) (TK s) 0.
Lemma dest_in s j : 0 <= s < ns -> 0 <= j < k -> 0 <= dest s j < fs.
Proof.
  intros HS J. unfold dest, fs. assert (EX : reduce = true \/ reduce = false) by (destruct reduce; auto). destruct EX as [-> | ->]; [auto|].
  apply (TK_in s); [auto|]. apply TK_at; auto.
Qed.
Lemma dest_inj s j j' : 0 <= s < ns -> 0 <= j < k -> 0 <= j' < k -> dest s j = dest s j' -> j = j'.
Proof.
  intros HS J J'. unfold dest. assert (EX : reduce = true \/ reduce = false) by (destruct reduce; auto). destruct EX as [-> | ->]; [auto|]. intros E.
  pose proof (TK_length s HS). assert (Z.to_nat j = Z.to_nat j'); [|lia]. eapply NoDup_nth; eauto; try lia. apply TK_nodup. auto.
Qed.

Definition top_body (s : Z) (st : list Qc * list Z) : option (list Qc * list Z) :=
  let '(y, ind) := st in
  obind (row x s ss) (fun l => obind (top_k std largest abs l k) (fun tk =>
  obind (loop (fun p ind => put ind (s * k + fst p) (snd p)) (combine (upto k) tk) ind) (fun ind =>
  obind (loop (fun j y => obind (get ind (s * k + j)) (fun i => obind (get x (s * ss + i)) (fun v =>
    put y (s * fs + (if reduce then j else i)) v))) (upto k) y) (fun y => Some (y, ind))))).
Lemma top_body_ok s y ind : 0 <= s < ns -> glen y = ns * fs -> glen ind = ns * k -> exists y' ind', top_body s (y, ind) = Some (y', ind') /\
  length y' = length y /\ length ind' = length ind /\
  (forall j, 0 <= j < k -> gat 0 ind' (s * k + j) = nth (Z.to_nat j) (TK s) 0) /\ (forall q, 0 <= q -> ~ s * k <= q < (s + 1) * k -> gat 0 ind' q = gat 0 ind q) /\
  (forall j, 0 <= j < k -> qat y' (s * fs + dest s j) = qat x (s * ss + nth (Z.to_nat j) (TK s) 0)) /\
  (forall q, 0 <= q -> (forall j, 0 <= j < k -> q <> s * fs + dest s j) -> qat y' q = qat y q).
Proof.
  intros HS Ly Li. destruct (TK_ok s HS) as (E1 & E2 & _). unfold top_body. rewrite E1. cbn [obind]. rewrite E2. cbn [obind].
  rewrite (combine_upto 0) by (apply TK_length; auto). rewrite <- (loop_map (fun p ind => put ind (s * k + fst p) (snd p))). cbn [fst snd].
  destruct (writes_ok 0 (ns * k) (fun j => s * k + j) (fun j _ => nth (Z.to_nat j) (TK s) 0) (fun i a => put a (s * k + i) (nth (Z.to_nat i) (TK s) 0)) (upto k)) with (a := ind) as (ind' & E3 & L3 & V3 & U3); auto.
  { apply nodup_map; [intros; lia|apply upto_nodup]. } { intros i Hi. apply upto_in in Hi. nia. }
  rewrite E3. cbn [obind].
  assert (V3' : forall j, 0 <= j < k -> gat 0 ind' (s * k + j) = nth (Z.to_nat j) (TK s) 0) by (intros; apply V3, upto_in; auto).
  destruct (writes_ok 0%Qc (ns * fs) (fun j => s * fs + dest s j) (fun j _ => qat x (s * ss + nth (Z.to_nat j) (TK s) 0))
     (fun j y => obind (get ind' (s * k + j)) (fun i => obind (get x (s * ss + i)) (fun v => put y (s * fs + (if reduce then j else i)) v))) (upto k)) with (a := y) as (y' & E4 & L4 & V4 & U4); auto.
  { apply nodup_map; [|apply upto_nodup]. intros a b Ha Hb E. apply upto_in in Ha, Hb. apply (dest_inj s); auto. lia. }
  { intros i Hi. apply upto_in in Hi. pose proof (dest_in s i HS Hi). nia. }
  { intros j a Hj La. apply upto_in in Hj. rewrite (gget_ok 0 ind') by (unfold within; unfold glen in *; rewrite L3; nia). cbn [obind]. rewrite V3' by auto.
    rewrite get_ok; [reflexivity|]. pose proof (TK_in s _ HS (TK_at s j HS Hj)). unfold within. rewrite LX. nia. }
  rewrite E4. cbn [obind]. exists y', ind'. split; [auto|]. split; [auto|]. split; [auto|]. split; [auto|]. split; [|split].
  - intros q Q N. apply U3; [auto|]. intros H. apply in_map_iff in H as (i & <- & Hi). apply upto_in in Hi. nia.
  - intros j Hj. apply (V4 j), upto_in. auto.
  - intros q Q N. apply U4; [auto|]. intros H. apply in_map_iff in H as (i & <- & Hi). apply upto_in in Hi. apply (N i); auto.
Qed.
Lemma top_samples_ok y0 ind0 : glen y0 = ns * fs -> glen ind0 = ns * k -> exists y ind, loop top_body (upto ns) (y0, ind0) = Some (y, ind) /\
  length y = length y0 /\ length ind = length ind0 /\
  (forall s j, 0 <= s < ns -> 0 <= j < k -> gat 0 ind (s * k + j) = nth (Z.to_nat j) (TK s) 0) /\
  (forall s j, 0 <= s < ns -> 0 <= j < k -> qat y (s * fs + dest s j) = qat x (s * ss + nth (Z.to_nat j) (TK s) 0)) /\
  (forall q, 0 <= q -> (forall s j, 0 <= s < ns -> 0 <= j < k -> q <> s * fs + dest s j) -> qat y q = qat y0 q).
Proof.
  intros Ly Li.
  assert (G : forall m, Z.of_nat m <= ns -> exists y ind, loop top_body (upto (Z.of_nat m)) (y0, ind0) = Some (y, ind) /\
    length y = length y0 /\ length ind = length ind0 /\
    (forall s j, 0 <= s < Z.of_nat m -> 0 <= j < k -> gat 0 ind (s * k + j) = nth (Z.to_nat j) (TK s) 0) /\
    (forall s j, 0 <= s < Z.of_nat m -> 0 <= j < k -> qat y (s * fs + dest s j) = qat x (s * ss + nth (Z.to_nat j) (TK s) 0)) /\
    (forall q, 0 <= q -> (forall s j, 0 <= s < Z.of_nat m -> 0 <= j < k -> q <> s * fs + dest s j) -> qat y q = qat y0 q)).
  { induction m as [|m IH]; intros M; [exists y0, ind0; split; [reflexivity|]; split; [auto|]; split; [auto|]; split; [lia|]; split; [lia|auto]|].
    destruct IH as (y & ind & E & L1 & L2 & V1 & V2 & U); [lia|]. rewrite upto_S, loop_app, E. cbn [obind loop].
    destruct (top_body_ok (Z.of_nat m) y ind) as (y' & ind' & E' & L1' & L2' & V1' & U1' & V2' & U2'); [lia|unfold glen in *; congruence|unfold glen in *; congruence|].
    rewrite E'. cbn [obind]. exists y', ind'. split; [auto|]. split; [congruence|]. split; [congruence|]. split; [|split].
    - intros s j HS J. destruct (Z.eq_dec s (Z.of_nat m)) as [->|]; [apply V1'; auto|]. rewrite U1' by nia. apply V1; lia.
    - intros s j HS J. destruct (Z.eq_dec s (Z.of_nat m)) as [->|]; [apply V2'; auto|]. pose proof (dest_in s j ltac:(lia) J) as D.
      rewrite U2'; [apply V2; lia|nia|]. intros j' J' Q. pose proof (dest_in (Z.of_nat m) j' ltac:(lia) J') as D'.
      destruct (split_pos fs s (Z.of_nat m) (dest s j) (dest (Z.of_nat m) j')) as (X & _); auto.
    - intros q Q N. rewrite U2'; [apply U; [auto|]|auto|]; intros; apply N; auto; lia. }
  destruct (G (Z.to_nat ns)) as (y & ind & H); [lia|]. rewrite Z2Nat.id in H by lia. eauto.
Qed.
End top.

Lemma top_setup_ok k (reduce : bool) base_axis A B : denotes base_axis (length A) (length (A ++ B)) -> B <> [] -> 0 < k <= size B ->
  top_setup k reduce base_axis (A ++ B) = Some (if reduce then A ++ [k] else A ++ B, size B, size A, if reduce then k else size B).
Proof.
  intros D NB K. unfold top_setup. rewrite (refine_denotes _ _ _ D) by (rewrite app_length; destruct B; [tauto|cbn; lia]). cbn [obind]. rewrite Nat2Z.id, size_from_app, size_from_0, size_app.
  destruct (Z.leb_spec k 0); [lia|]. destruct (Z.ltb_spec (size B) k); [lia|]. rewrite divide_mul by lia. cbn [obind].
  replace (firstn (length A) (A ++ B)) with A by (rewrite firstn_app, Nat.sub_diag, firstn_all; cbn; rewrite app_nil_r; auto).
  destruct reduce; [|rewrite size_from_app; auto]. rewrite size_from_app. cbn [size]. rewrite Z.mul_1_r. auto.
Qed.
Lemma qat_zeros (a : list Qc) q : qat (map (fun _ => 0%Qc) a) q = 0%Qc.
Proof. unfold qat. revert a. induction (Z.to_nat q) as [|n IH]; intros [|b a]; cbn; auto. Qed.

Section data.
Variable std : heap_functions.
Hypothesis STD : heaping std.
Variables (A B : list Z) (k base_axis : Z).
Hypothesis NA : nonneg A.
Hypothesis NB : B <> [].
Hypothesis DEN : denotes base_axis (length A) (length (A ++ B)).
Hypothesis K : 0 < k <= size B.
Lemma pairs_nodup (l : Z -> list Z) (n ss : Z) : (forall s, 0 <= s < n -> NoDup (l s) /\ forall i, In i (l s) -> 0 <= i < ss) ->
  NoDup (map (fun p => fst p * ss + snd p) (flat_map (fun s => map (pair s) (l s)) (upto n))).
Proof.
  intros H. rewrite map_flat_map. apply nodup_flat; [apply upto_nodup| |].
  - intros s Hs. apply upto_in in Hs. rewrite map_map. apply nodup_map; [cbn [fst snd]; intros; lia|apply H; auto].
  - intros s s' q Hs Hs' Hq Hq'. apply upto_in in Hs, Hs'. rewrite map_map in Hq, Hq'. apply in_map_iff in Hq as (i & <- & Hi), Hq' as (i' & E & Hi'). cbn [fst snd] in *.
    apply (H s Hs) in Hi. apply (H s' Hs') in Hi'. destruct (split_pos ss s s' i i') as (X & _); auto.
Qed.
Lemma in_pairs (l : Z -> list Z) (n : Z) p : In p (flat_map (fun s => map (pair s) (l s)) (upto n)) <-> 0 <= fst p < n /\ In (snd p) (l (fst p)).
Proof.
  rewrite in_flat_map. split.
  - intros (s & Hs & H). apply in_map_iff in H as (i & <- & Hi). apply upto_in in Hs. auto.
  - intros (H1 & H2). exists (fst p). split; [apply upto_in; auto|]. apply in_map_iff. exists (snd p). destruct p. auto.
Qed.

Lemma top_forward_ok (abs reduce largest : bool) x y0 ind0 : qlen x = size (A ++ B) -> qlen y0 = size A * (if reduce then k else size B) -> Z.of_nat (length ind0) = size A * k ->
  exists y ind, top_forward std k abs reduce base_axis largest (A ++ B) x y0 ind0 = Some (y, ind) /\ length y = length y0 /\ length ind = length ind0 /\
  forall s, 0 <= s < size A -> best_k (before_in largest abs) (sample 0%Qc (size B) s x) k (sample 0 k s ind) /\
    if reduce then forall j, 0 <= j < k -> qat y (s * k + j) = qat x (s * size B + gat 0 ind (s * k + j))
    else forall i, 0 <= i < size B -> qat y (s * size B + i) = if in_dec Z.eq_dec i (sample 0 k s ind) then qat x (s * size B + i) else 0%Qc.
Proof.
  intros LX LY LI. rewrite size_app in LX. pose proof (size_nonneg _ NA) as PA. unfold top_forward. rewrite top_setup_ok by auto. cbn [obind].
  set (fs := if reduce then k else size B). set (y1 := if reduce then y0 else map (fun _ => 0%Qc) y0).
  assert (L1 : length y1 = length y0) by (unfold y1; destruct reduce; [auto|apply map_length]).
  destruct (top_samples_ok std STD largest abs k (size A) (size B) x K PA LX reduce y1 ind0) as (y & ind & E & Ly & Li & V1 & V2 & U).
  { unfold glen. rewrite L1. exact LY. } { exact LI. }
  exists y, ind. split; [exact E|]. split; [congruence|]. split; [auto|]. intros s HS.
  assert (SM : sample 0 k s ind = TK std largest abs k (size B) x s).
  { pose proof (TK_length std STD largest abs k (size A) (size B) x K LX s HS). apply (nth_ext _ _ 0 0); [rewrite sample_length; lia|]. rewrite sample_length. intros i Hi.
    rewrite <- (Nat2Z.id i). rewrite sample_nth by lia. apply V1; [auto|lia]. }
  split; [rewrite SM; apply (TK_ok std STD largest abs k (size A)); auto|].
  destruct reduce; unfold dest in *.
  - intros j J. rewrite V2, V1; auto.
  - intros i I. destruct (in_dec Z.eq_dec i (sample 0 k s ind)) as [IN|NI].
    + rewrite SM in IN. destruct (In_nth _ _ 0 IN) as (j & Hj & <-). pose proof (TK_length std STD largest abs k (size A) (size B) x K LX s HS).
      rewrite <- (Nat2Z.id j). apply V2; [auto|lia].
    + rewrite U; [unfold y1; apply qat_zeros|nia|]. intros s' j HS' J Q. apply NI. rewrite SM.
      pose proof (TK_at std STD largest abs k (size A) (size B) x K LX s' j HS' J) as T. pose proof (TK_in std STD largest abs k (size A) (size B) x K LX s' _ HS' T) as T'.
      destruct (split_pos (size B) s s' i (nth (Z.to_nat j) (TK std largest abs k (size B) x s') 0)) as (X & Y); auto. subst. auto.
Qed.

Lemma add_samples (n : Z) (l : Z -> list Z) (G : Z -> Z -> Qc) (step : Z -> Z -> list Qc -> option (list Qc)) dx0 : n = size A ->
  (forall s, 0 <= s < n -> NoDup (l s) /\ forall i, In i (l s) -> 0 <= i < size B) -> qlen dx0 = n * size B ->
  (forall s i a, 0 <= s < n -> In i (l s) -> qlen a = n * size B -> step s i a = put a (s * size B + i) (qat a (s * size B + i) + G s i)%Qc) ->
  exists dx, loop (fun s => loop (step s) (l s)) (upto n) dx0 = Some dx /\ length dx = length dx0 /\
  forall s i, 0 <= s < n -> 0 <= i < size B -> qat dx (s * size B + i) = (qat dx0 (s * size B + i) + if in_dec Z.eq_dec i (l s) then G s i else 0)%Qc.
Proof.
  intros -> H L ST. pose proof (size_nonneg _ NA) as PA.
  assert (E : forall a, loop (fun s => loop (step s) (l s)) (upto (size A)) a = loop (fun p => step (fst p) (snd p)) (flat_map (fun s => map (pair s) (l s)) (upto (size A))) a).
  { intros a. rewrite <- loop_flat. apply loop_ext. intros s b _. apply (loop_map (fun p => step (fst p) (snd p)) (pair s)). }
  rewrite E. destruct (writes_ok 0%Qc (size A * size B) (fun p => fst p * size B + snd p) (fun p old => (old + G (fst p) (snd p))%Qc) (fun p => step (fst p) (snd p)) (flat_map (fun s => map (pair s) (l s)) (upto (size A)))) with (a := dx0) as (dx & E' & L' & V & U).
  { apply pairs_nodup. auto. }
  { intros p Hp. apply in_pairs in Hp as (Hs & Hi). apply (H _ Hs) in Hi. nia. }
  { intros p a Hp La. apply in_pairs in Hp as (Hs & Hi). apply ST; auto. }
  { auto. }
  exists dx. split; [auto|]. split; [auto|]. intros s i HS I. destruct (in_dec Z.eq_dec i (l s)) as [IN|NI].
  - apply (V (s, i)). apply in_pairs. auto.
  - etransitivity; [apply U; [nia|]|unfold gat, qat; ring]. intros Q. apply in_map_iff in Q as (p & E2 & Hp). apply in_pairs in Hp as (Hs & Hi). pose proof (proj2 (H _ Hs) _ Hi).
    destruct (split_pos (size B) (fst p) s (snd p) i) as (X & Y); auto. subst. auto.
Qed.
Lemma top_backward_reduce_ok (accum : bool) ind dy dx0 : qlen dy = size A * k -> qlen dx0 = size (A ++ B) -> Z.of_nat (length ind) = size A * k ->
  (forall s, 0 <= s < size A -> NoDup (sample 0 k s ind) /\ forall i, In i (sample 0 k s ind) -> 0 <= i < size B) ->
  exists dx, top_backward k true base_axis (A ++ B) accum ind dy dx0 = Some dx /\ length dx = length dx0 /\
  forall s, 0 <= s < size A ->
    (forall j, 0 <= j < k -> qat dx (s * size B + gat 0 ind (s * k + j)) = ((if accum then qat dx0 (s * size B + gat 0%Z ind (s * k + j)) else 0) + qat dy (s * k + j))%Qc) /\
    (forall i, 0 <= i < size B -> ~ In i (sample 0 k s ind) -> qat dx (s * size B + i) = if accum then qat dx0 (s * size B + i) else 0%Qc).
Proof.
  intros LY LX LI H. rewrite size_app in LX. pose proof (size_nonneg _ NA) as PA. unfold top_backward. rewrite top_setup_ok by auto. cbn [obind].
  set (dx1 := if accum then dx0 else map (fun _ => 0%Qc) dx0).
  assert (L1 : length dx1 = length dx0) by (unfold dx1; destruct accum; [auto|apply map_length]).
  assert (Q1 : forall q, qat dx1 q = if accum then qat dx0 q else 0%Qc) by (intros; unfold dx1; destruct accum; [auto|apply qat_zeros]).
  assert (IJ : forall s j, 0 <= s < size A -> 0 <= j < k -> In (gat 0 ind (s * k + j)) (sample 0 k s ind)).
  { intros s j HS J. rewrite <- (sample_nth 0 k s) by lia. apply nth_In. rewrite sample_length. lia. }
  set (step := fun s j dx => obind (get ind (s * k + j)) (fun i => obind (get dy (s * k + j)) (fun g =>
      obind (get dx (s * size B + i)) (fun old => put dx (s * size B + i) (old + g)%Qc)))).
  assert (E : forall a, loop (fun s => loop (step s) (upto k)) (upto (size A)) a = loop (fun p => step (fst p) (snd p)) (flat_map (fun s => map (pair s) (upto k)) (upto (size A))) a).
  { intros a. rewrite <- loop_flat. apply loop_ext. intros s b _. apply (loop_map (fun p => step (fst p) (snd p)) (pair s)). }
  fold step. rewrite E. clear E.
  destruct (writes_ok 0%Qc (size A * size B) (fun p => fst p * size B + gat 0 ind (fst p * k + snd p)) (fun p old => (old + qat dy (fst p * k + snd p))%Qc) (fun p => step (fst p) (snd p)) (flat_map (fun s => map (pair s) (upto k)) (upto (size A)))) with (a := dx1) as (dx & E' & L' & V & U).
  { rewrite map_flat_map. apply nodup_flat; [apply upto_nodup| |].
    - intros s Hs. apply upto_in in Hs. rewrite map_map. apply nodup_map; [|apply upto_nodup]. cbn [fst snd]. intros a b Ha Hb Q. apply upto_in in Ha, Hb.
      assert (Q' : gat 0 ind (s * k + a) = gat 0 ind (s * k + b)) by lia. rewrite <- !(sample_nth 0 k s) in Q' by lia.
      assert (Z.to_nat a = Z.to_nat b); [|lia]. eapply NoDup_nth; [apply (H s Hs)| | |exact Q']; rewrite sample_length; lia.
    - intros s s' q Hs Hs' Hq Hq'. apply upto_in in Hs, Hs'. rewrite map_map in Hq, Hq'. apply in_map_iff in Hq as (i & <- & Hi), Hq' as (i' & E & Hi'). cbn [fst snd] in *. apply upto_in in Hi, Hi'.
      destruct (split_pos (size B) s s' (gat 0 ind (s * k + i)) (gat 0 ind (s' * k + i'))) as (X & _); auto; [apply (proj2 (H s Hs))|apply (proj2 (H s' Hs'))]; apply IJ; auto. }
  { intros p Hp. apply in_pairs in Hp as (Hs & Hj). apply upto_in in Hj. pose proof (proj2 (H _ Hs) _ (IJ _ _ Hs Hj)). nia. }
  { intros p a Hp La. apply in_pairs in Hp as (Hs & Hj). apply upto_in in Hj. pose proof (proj2 (H _ Hs) _ (IJ _ _ Hs Hj)) as HB. unfold step.
    rewrite (gget_ok 0 ind) by (unfold within, glen; nia). cbn [obind]. rewrite get_ok by (unfold within; nia). cbn [obind].
    rewrite get_ok by (unfold glen in La; unfold within, qlen; nia). reflexivity. }
  { unfold glen, qlen in *. congruence. }
  exists dx. split; [auto|]. split; [congruence|]. intros s HS. split.
  - intros j J. etransitivity; [apply (V (s, j)); apply in_pairs; split; [auto|apply upto_in; auto]|]. cbn [fst snd]. fold (qat dx1 (s * size B + gat 0 ind (s * k + j))). rewrite Q1. auto.
  - intros i I NI. rewrite <- Q1. apply U; [nia|]. intros Q. apply in_map_iff in Q as (p & E2 & Hp). apply in_pairs in Hp as (Hs & Hj). apply upto_in in Hj. pose proof (IJ _ _ Hs Hj) as HI.
    destruct (split_pos (size B) (fst p) s (gat 0 ind (fst p * k + snd p)) i) as (X & Y); [apply (H _ Hs); auto|auto|auto|]. subst. auto.
Qed.
Lemma top_backward_all_ok (accum : bool) ind dy dx0 : qlen dy = size (A ++ B) -> qlen dx0 = size (A ++ B) ->
  exists dx, top_backward k false base_axis (A ++ B) accum ind dy dx0 = Some dx /\ length dx = length dx0 /\
  forall q, within (size (A ++ B)) q -> qat dx q = ((if accum then qat dx0 q else 0) + qat dy q)%Qc.
Proof.
  intros LY LX. unfold top_backward. rewrite top_setup_ok by auto. cbn [obind]. rewrite size_from_0.
  set (dx1 := if accum then dx0 else map (fun _ => 0%Qc) dx0).
  assert (L1 : length dx1 = length dx0) by (unfold dx1; destruct accum; [auto|apply map_length]).
  assert (Q1 : forall q, qat dx1 q = if accum then qat dx0 q else 0%Qc) by (intros; unfold dx1; destruct accum; [auto|apply qat_zeros]).
  destruct (writes_ok 0%Qc (size (A ++ B)) (fun p => p) (fun p old => (old + qat dy p)%Qc) (fun i dx => obind (get dy i) (fun g => obind (get dx i) (fun old => put dx i (old + g)%Qc))) (upto (size (A ++ B)))) with (a := dx1) as (dx & E' & L' & V & U).
  { rewrite map_id. apply upto_nodup. } { intros i Hi. apply upto_in in Hi. auto. }
  { intros i a Hi La. apply upto_in in Hi. rewrite get_ok by (unfold within; lia). cbn [obind]. rewrite get_ok by (unfold glen in La; unfold within, qlen; lia). reflexivity. }
  { unfold glen, qlen in *. congruence. }
  exists dx. split; [auto|]. split; [congruence|]. intros q Q. rewrite <- Q1. apply (V q), upto_in. auto.
Qed.
Lemma top_grad_ok (abs accum : bool) dy dx0 : qlen dy = size (A ++ B) -> qlen dx0 = size (A ++ B) ->
  exists dx, top_grad std k abs base_axis (A ++ B) accum dy dx0 = Some dx /\ length dx = length dx0 /\
  forall s, 0 <= s < size A -> exists l, best_k (before_in true abs) (sample 0%Qc (size B) s dy) k l /\
  forall i, 0 <= i < size B -> qat dx (s * size B + i) = ((if accum then qat dx0 (s * size B + i) else 0) + if in_dec Z.eq_dec i l then qat dy (s * size B + i) else 0)%Qc.
Proof.
  intros LY LX. rewrite size_app in LX, LY. pose proof (size_nonneg _ NA) as PA. unfold top_grad. rewrite top_setup_ok by auto. cbn [obind].
  set (dx1 := if accum then dx0 else map (fun _ => 0%Qc) dx0).
  assert (L1 : length dx1 = length dx0) by (unfold dx1; destruct accum; [auto|apply map_length]).
  assert (Q1 : forall q, qat dx1 q = if accum then qat dx0 q else 0%Qc) by (intros; unfold dx1; destruct accum; [auto|apply qat_zeros]).
  set (l := TK std true abs k (size B) dy).
  assert (E : forall a, loop (fun s dx => obind (row dy s (size B)) (fun l => obind (top_k std true abs l k) (fun tk =>
    loop (fun i dx => obind (get dy (s * size B + i)) (fun g => obind (get dx (s * size B + i)) (fun old => put dx (s * size B + i) (old + g)%Qc))) tk dx))) (upto (size A)) a =
    loop (fun s => loop (fun i dx => obind (get dy (s * size B + i)) (fun g => obind (get dx (s * size B + i)) (fun old => put dx (s * size B + i) (old + g)%Qc))) (l s)) (upto (size A)) a).
  { intros a. apply loop_ext. intros s b Hs. apply upto_in in Hs. destruct (TK_ok std STD true abs k (size A) (size B) dy K LY s Hs) as (E1 & E2 & _). rewrite E1. cbn [obind]. rewrite E2. reflexivity. }
  rewrite E. clear E.
  assert (HL : forall s, 0 <= s < size A -> NoDup (l s) /\ forall i, In i (l s) -> 0 <= i < size B).
  { intros s Hs. split; [apply (TK_nodup std STD true abs k (size A)); auto|]. intros i. apply (TK_in std STD true abs k (size A)); auto. }
  destruct (add_samples (size A) l (fun s i => qat dy (s * size B + i)) (fun s i dx => obind (get dy (s * size B + i)) (fun g => obind (get dx (s * size B + i)) (fun old => put dx (s * size B + i) (old + g)%Qc))) dx1) as (dx & E & L & V); auto.
  { unfold qlen in *. congruence. }
  { intros s i a Hs Hi La. pose proof (proj2 (HL s Hs) i Hi). rewrite get_ok by (unfold within; rewrite LY; nia). cbn [obind]. rewrite get_ok by (unfold within; rewrite La; nia). reflexivity. }
  exists dx. split; [auto|]. split; [congruence|]. intros s HS. exists (l s). split; [apply (TK_ok std STD true abs k (size A)); auto|].
  intros i I. rewrite V by auto. rewrite Q1. auto.
Qed.
End data.
