(** Sorting along an axis. *)
From Coq Require Import List ZArith Lia Bool Permutation QArith Qcanon.
From Verif Require Import NdModel NdSpec NdProofs IdxModel IdxSpec IdxProofs1 IdxProofs2 IdxProofs3 IdxProofs6 JoinModel JoinSpec JoinProofs JoinProofs2 ScanModel ScanSpec ScanProofs1 ReduceModel ReduceSpec ReduceProofs1 ReduceProofs2 ReduceProofs5 SortModel SortSpec SortProofs1.
Import ListNotations.
Local Open Scope list_scope.
Local Open Scope Z_scope.

Section generic.
Context {T : Type} (d : T).
Definition gat (a : list T) (i : Z) : T := nth (Z.to_nat i) a d.
Definition glen (a : list T) : Z := Z.of_nat (length a).
Lemma gget_ok a i : within (glen a) i -> get a i = Some (gat a i).
Proof. apply get_gen. Qed.

Section lines.
Variables size0 size1 size2 : Z.
Hypothesis H0 : 0 <= size0.
Hypothesis H1 : 0 <= size1.
Hypothesis H2 : 0 <= size2.
Let N := size0 * size1 * size2.
Notation onl := (onl size1 size2).
Notation isline := (isline size0 size1 size2).
Notation onl_within := (onl_within size0 size1 size2 H0 H1 H2).
Notation onl_disjoint := (onl_disjoint size0 size1 size2).
Variable body : Z -> list T -> option (list T).
Variable V : Z -> Z -> T -> T.
Hypothesis body_ok : forall j y, isline j -> glen y = N -> exists y', body j y = Some y' /\ length y' = length y /\
  (forall q, onl j q -> gat y' q = V j q (gat y q)) /\ (forall q, 0 <= q -> ~ onl j q -> gat y' q = gat y q).

Lemma glines_ok y : glen y = N -> exists y', lines size0 size1 size2 body y = Some y' /\ length y' = length y /\
  forall j q, isline j -> onl j q -> gat y' q = V j q (gat y q).
Proof.
  intros L. unfold lines.
  assert (E : forall s, loop (fun i0 => loop (fun i2 => body (i0 * size1 * size2 + i2)) (upto size2)) (upto size0) s =
     loop body (flat_map (fun i0 => map (fun i2 => i0 * size1 * size2 + i2) (upto size2)) (upto size0)) s).
  { intros s. rewrite <- loop_flat. apply loop_ext. intros a s' _. apply (loop_map body (fun i2 => a * size1 * size2 + i2)). }
  rewrite E. set (js := flat_map _ _).
  assert (J : forall j, In j js <-> isline j).
  { intros j. unfold js. rewrite in_flat_map. split.
    - intros (o & Ho & H). apply in_map_iff in H. destruct H as (i & <- & Hi). apply upto_in in Ho, Hi. exists o, i. auto.
    - intros (o & i & Ho & Hi & ->). exists o. split; [apply upto_in; auto|]. apply in_map_iff. exists i. split; [auto|]. apply upto_in. auto. }
  assert (G : forall l y, (forall j, In j l -> isline j) -> (NoDup l \/ size1 <= 0) -> glen y = N -> exists y', loop body l y = Some y' /\ length y' = length y /\
     (forall j q, In j l -> onl j q -> gat y' q = V j q (gat y q)) /\ (forall q, 0 <= q -> (forall j, In j l -> ~ onl j q) -> gat y' q = gat y q)).
  { clear y L E J js. induction l as [|j l IH]; intros y HJ ND L; cbn [loop].
    - exists y. split; [auto|]. split; [auto|]. split; [intros ? ? []|auto].
    - destruct (body_ok j y) as (y1 & E1 & L1 & A1 & B1); [apply HJ; left; auto|auto|]. rewrite E1. cbn [obind].
      destruct (IH y1) as (y2 & E2 & L2 & A2 & B2).
      { intros. apply HJ. right. auto. } { destruct ND as [ND|ND]; [left; inversion ND; auto|right; auto]. } { unfold glen in *. rewrite L1. auto. }
      exists y2. split; [auto|]. split; [congruence|].
      assert (D : forall i q, onl i q -> In i l -> isline j -> onl j q -> False).
      { intros i q Hq Hi Jj Oj. destruct ND as [ND|ND].
        - inversion ND as [|? ? X ?]; subst. rewrite (onl_disjoint i j q) in Hi; auto. apply HJ. right. auto.
        - destruct Hq as (k & Hk & _). lia. }
      assert (Jj : isline j) by (apply HJ; left; auto).
      split.
      + intros i q [<-|Hi] Hq.
        * rewrite B2; [auto| |].
          { destruct (onl_within j q Jj Hq). auto. }
          { intros i Hi Oi. exact (D i q Oi Hi Jj Hq). }
        * rewrite (A2 i q Hi Hq). f_equal. apply B1.
          { destruct (onl_within i q (HJ i (or_intror Hi)) Hq). auto. }
          { intros Oj. exact (D i q Hq Hi Jj Oj). }
      + intros q Hq Hn. rewrite B2, B1; auto; intros; apply Hn; [left; auto|right; auto]. }
  destruct (G js y) as (y' & E' & L' & A & _); [apply J| |auto|].
  - destruct (Z.ltb_spec 0 size1); [left|right; lia]. unfold js. apply nodup_flat.
    + apply upto_nodup.
    + intros o _. apply nodup_map; [intros; lia|apply upto_nodup].
    + intros o o' j Ho Ho' Hj Hj'. apply in_map_iff in Hj, Hj'. destruct Hj as (i & <- & Hi), Hj' as (i' & E' & Hi'). apply upto_in in Hi, Hi', Ho, Ho'.
      assert (size2 <= size1 * size2) by nia. assert (E1 : o * (size1 * size2) + i = o' * (size1 * size2) + i') by (rewrite !Z.mul_assoc; lia).
      destruct (split_pos (size1 * size2) o o' i i') as (G1 & _); [lia|lia|exact E1|]. auto.
  - exists y'. split; [auto|]. split; [auto|]. intros j q Hj Hq. apply (A j q); [apply J|]; auto.
Qed.
End lines.

(** Writing each place of each line once. *)
Lemma line_write (n s j N : Z) (step : Z -> list T -> option (list T)) (W : Z -> T -> T) : 0 < s -> 0 <= j -> (forall i, 0 <= i < n -> within N (i * s + j)) ->
  (forall i a, 0 <= i < n -> glen a = N -> step i a = put a (i * s + j) (W i (gat a (i * s + j)))) ->
  forall a, glen a = N -> exists a', loop step (upto n) a = Some a' /\ length a' = length a /\
    (forall i, 0 <= i < n -> gat a' (i * s + j) = W i (gat a (i * s + j))) /\
    (forall q, 0 <= q -> (forall i, 0 <= i < n -> q <> i * s + j) -> gat a' q = gat a q).
Proof.
  intros S0 J0 WI ST a L.
  assert (G : forall m, Z.of_nat m <= n -> exists a', loop step (upto (Z.of_nat m)) a = Some a' /\ length a' = length a /\
    (forall i, 0 <= i < Z.of_nat m -> gat a' (i * s + j) = W i (gat a (i * s + j))) /\
    (forall q, 0 <= q -> (forall i, 0 <= i < Z.of_nat m -> q <> i * s + j) -> gat a' q = gat a q)).
  { induction m as [|m IH]; intros M; [exists a; split; [reflexivity|split; [auto|split; [lia|auto]]]|].
    destruct IH as (b & E & Lb & V & U); [lia|]. rewrite upto_S, loop_app, E. cbn [obind loop].
    rewrite ST by (try lia; unfold glen in *; congruence). rewrite U by (try (apply (WI (Z.of_nat m)); lia); intros i Hi; nia).
    destruct (put_gen d b (Z.of_nat m * s + j) (W (Z.of_nat m) (gat a (Z.of_nat m * s + j)))) as (c & E' & L' & V').
    { specialize (WI (Z.of_nat m) ltac:(lia)). unfold within, glen in *. lia. }
    rewrite E'. cbn [obind]. exists c. split; [auto|]. split; [congruence|]. split.
    - intros i Hi. unfold gat at 1. rewrite V' by (apply (WI i); lia). destruct (Z.eqb_spec (i * s + j) (Z.of_nat m * s + j)) as [Q|Q].
      + assert (i = Z.of_nat m) by nia. subst. auto.
      + apply V. destruct (Z.eq_dec i (Z.of_nat m)) as [->|]; [tauto|lia].
    - intros q Q D. unfold gat at 1. rewrite V' by auto. destruct (Z.eqb_spec q (Z.of_nat m * s + j)) as [->|]; [exfalso; apply (D (Z.of_nat m)); [lia|auto]|]. apply U; [auto|]. intros i Hi. apply D. lia. }
  destruct (Z_le_gt_dec 0 n).
  - destruct (G (Z.to_nat n)) as (a' & H); [lia|]. rewrite Z2Nat.id in H by lia. eauto.
  - exists a. assert (upto n = []) as -> by (unfold upto; replace (Z.to_nat n) with 0%nat by lia; reflexivity). split; [reflexivity|]. split; [auto|]. split; [lia|auto].
Qed.
Lemma lines_write size0 n s (step : Z -> Z -> list T -> option (list T)) (W : Z -> Z -> T -> T) : 0 <= size0 -> 0 <= n -> 0 <= s ->
  (forall j i a, isline size0 n s j -> 0 <= i < n -> glen a = size0 * n * s -> step j i a = put a (i * s + j) (W j i (gat a (i * s + j)))) ->
  forall a, glen a = size0 * n * s -> exists a', lines size0 n s (fun j => loop (step j) (upto n)) a = Some a' /\ length a' = length a /\
    forall j i, isline size0 n s j -> 0 <= i < n -> gat a' (i * s + j) = W j i (gat a (i * s + j)).
Proof.
  intros P0 P1 P2 ST a L.
  destruct (glines_ok size0 n s P0 P1 P2 (fun j => loop (step j) (upto n)) (fun j q old => W j ((q - j) / s) old)) with (y := a) as (a' & E & L' & A); auto.
  - intros j y J Ly. assert (0 < s) by (destruct J as (o & i & _ & Hi & _); lia). assert (0 <= j) by (destruct J as (o & i & Ho & Hi & ->); nia).
    destruct (line_write n s j (size0 * n * s) (step j) (W j)) with (a := y) as (y' & E & L' & V & U); auto.
    + intros i Hi. apply (onl_within size0 n s P0 P1 P2 j); [auto|]. exists i. auto.
    + exists y'. split; [auto|]. split; [auto|]. split.
      * intros q (k & Hk & ->). rewrite V by auto. replace (k * s + j - j) with (k * s) by lia. rewrite Z.div_mul by lia. auto.
      * intros q Q N. apply U; [auto|]. intros i Hi ->. apply N. exists i. auto.
  - exists a'. split; [auto|]. split; [auto|]. intros j i J I. assert (0 < s) by (destruct J as (o & i' & _ & Hi & _); lia). rewrite (A j) by (auto; exists i; auto).
    replace (i * s + j - j) with (i * s) by lia. rewrite Z.div_mul by lia. auto.
Qed.
End generic.

Lemma combine_upto {T} (d : T) l n : Z.of_nat (length l) = n -> combine (upto n) l = map (fun i => (i, nth (Z.to_nat i) l d)) (upto n).
Proof.
  intros <-. unfold upto. rewrite Nat2Z.id. assert (G : forall k, combine (map Z.of_nat (seq k (length l))) l = map (fun i => (i, nth (Z.to_nat i - k) l d)) (map Z.of_nat (seq k (length l)))).
  { induction l as [|a l IH]; intros k; [reflexivity|]. cbn [length seq map combine]. rewrite Nat2Z.id, Nat.sub_diag. cbn [nth]. f_equal. rewrite IH. apply map_ext_in. intros i Hi.
    apply in_map_iff in Hi as (m & <- & Hm). apply in_seq in Hm. rewrite Nat2Z.id. replace (m - k)%nat with (S (m - S k)) by lia. reflexivity. }
  rewrite (G 0%nat). apply map_ext. intros i. rewrite Nat.sub_0_r. auto.
Qed.
Lemma sort_setup_ok axis A n B : denotes axis (length A) (length (A ++ n :: B)) -> sort_setup axis (A ++ n :: B) = Some (size A, n, size B).
Proof.
  intros D. unfold sort_setup. rewrite (refine_denotes _ _ _ D) by (rewrite app_length; cbn; lia). cbn [obind]. unfold vget.
  destruct (Z.ltb_spec (Z.of_nat (length A)) 0); [lia|]. rewrite !Nat2Z.id, nth_error_at. cbn [obind]. rewrite firstn_app_len by auto.
  replace (skipn (S (length A)) (A ++ n :: B)) with B by (clear; induction A; cbn; auto). rewrite !prod_size. auto.
Qed.

(** Lines of one axis. *)
Section axis.
Variables (A : list Z) (n : Z) (B : list Z).
Hypothesis NA : nonneg A.
Hypothesis Nn : 0 <= n.
Hypothesis NB : nonneg B.
Let sh := A ++ n :: B.
Definition lineno (p r : list Z) : Z := off p A * n * size B + off r B.
Lemma sh_size : size sh = size A * n * size B.
Proof. unfold sh. rewrite size_app. cbn [size]. ring. Qed.
Lemma lineno_line p r : inside p A -> inside r B -> isline (size A) n (size B) (lineno p r).
Proof. intros P R. exists (off p A), (off r B). split; [apply off_bound; auto|]. split; [apply off_bound; auto|]. reflexivity. Qed.
Lemma lineno_at p k r : inside p A -> 0 <= k < n -> inside r B -> position 0 (p ++ k :: r) sh = k * size B + lineno p r.
Proof.
  intros P K R. rewrite position_off by (apply Forall2_app; [auto|constructor; auto]). unfold sh. rewrite off_app by (auto; constructor; auto). cbn [size off]. unfold lineno. ring.
Qed.

Variable std_sort : (Z -> Z -> bool) -> list Z -> list Z.
Hypothesis STD : sorting std_sort.
Definition line_of (x : list Qc) (j : Z) : list Qc := map (fun i => qat x (i * size B + j)) (upto n).
Lemma line_ok x j : qlen x = size sh -> isline (size A) n (size B) j -> line n (size B) j x = Some (line_of x j).
Proof.
  intros L J. unfold line, line_of. apply omap_some. intros i Hi. apply upto_in in Hi. apply get_ok. rewrite L, sh_size.
  pose proof (size_nonneg _ NA). pose proof (size_nonneg _ NB). eapply onl_within; eauto. exists i. auto.
Qed.
Lemma line_at x j i : 0 <= i < n -> at_line (line_of x j) i = qat x (i * size B + j).
Proof.
  intros I. unfold at_line, line_of. rewrite (nth_indep _ _ (qat x (0 * size B + j))) by (rewrite map_length; unfold upto; rewrite map_length, seq_length; lia).
  rewrite (map_nth (fun i => qat x (i * size B + j))). unfold upto. change 0 with (Z.of_nat 0) at 1. rewrite map_nth, seq_nth by lia. replace (Z.of_nat (0 + Z.to_nat i)) with i by lia. reflexivity.
Qed.
Definition sorted_line (reverse : bool) (x : list Qc) (j : Z) : list Z := std_sort (sort_cmp reverse (line_of x j)) (upto n).
Lemma sorted_line_ok reverse x j : Permutation (sorted_line reverse x j) (upto n) /\ ordered (sort_cmp reverse (line_of x j)) (sorted_line reverse x j).
Proof. apply STD, sort_cmp_weak. Qed.
Lemma sorted_length reverse x j : Z.of_nat (length (sorted_line reverse x j)) = n.
Proof. destruct (sorted_line_ok reverse x j) as (P & _). rewrite (Permutation_length P). unfold upto. rewrite map_length, seq_length. lia. Qed.
Lemma sorted_bound reverse x j i : 0 <= i < n -> 0 <= nth (Z.to_nat i) (sorted_line reverse x j) 0 < n.
Proof. intros I. destruct (sorted_line_ok reverse x j) as (P & _). apply upto_in. eapply Permutation_in; [exact P|]. apply nth_In. pose proof (sorted_length reverse x j). lia. Qed.

Lemma sort_indices_ok reverse x ind0 : qlen x = size sh -> Z.of_nat (length ind0) = size sh ->
  exists ind, sort_indices std_sort reverse (size A) n (size B) x ind0 = Some ind /\ length ind = length ind0 /\
    forall j i, isline (size A) n (size B) j -> 0 <= i < n -> gat 0 ind (i * size B + j) = nth (Z.to_nat i) (sorted_line reverse x j) 0.
Proof.
  intros Lx Li. pose proof (size_nonneg _ NA). pose proof (size_nonneg _ NB). unfold sort_indices. rewrite sh_size in Li.
  set (body := fun j ind => obind (line n (size B) j x) (fun l => loop (fun p ind => put ind (fst p * size B + j) (snd p)) (combine (upto n) (std_sort (sort_cmp reverse l) (upto n))) ind)).
  set (body' := fun j => loop (fun i ind => put ind (i * size B + j) (nth (Z.to_nat i) (sorted_line reverse x j) 0)) (upto n)).
  assert (EQ : forall ind, lines (size A) n (size B) body ind = lines (size A) n (size B) body' ind).
  { intros ind. unfold lines. apply loop_ext. intros o s Ho. apply loop_ext. intros i s' Hi. apply upto_in in Ho, Hi. unfold body, body'.
    rewrite line_ok by (auto; exists o, i; auto). cbn [obind]. fold (sorted_line reverse x (o * n * size B + i)). rewrite (combine_upto 0) by apply sorted_length.
    rewrite <- (loop_map (fun p ind => put ind (fst p * size B + (o * n * size B + i)) (snd p))). reflexivity. }
  rewrite EQ. destruct (lines_write 0 (size A) n (size B) (fun j i ind => put ind (i * size B + j) (nth (Z.to_nat i) (sorted_line reverse x j) 0)) (fun j i _ => nth (Z.to_nat i) (sorted_line reverse x j) 0)) with (a := ind0) as (ind & E & L & V); auto.
  exists ind. auto.
Qed.
Lemma sort_values_ok ind x y0 : qlen x = size sh -> qlen y0 = size sh -> Z.of_nat (length ind) = size sh ->
  (forall j i, isline (size A) n (size B) j -> 0 <= i < n -> 0 <= gat 0 ind (i * size B + j) < n) ->
  exists y, sort_values (size A) n (size B) ind x y0 = Some y /\ length y = length y0 /\
    forall j i, isline (size A) n (size B) j -> 0 <= i < n -> qat y (i * size B + j) = qat x (gat 0 ind (i * size B + j) * size B + j).
Proof.
  intros Lx Ly Li BD. pose proof (size_nonneg _ NA) as P1. pose proof (size_nonneg _ NB) as P2. rewrite sh_size in *. unfold sort_values.
  apply (lines_write 0%Qc (size A) n (size B) _ (fun j i _ => qat x (gat 0 ind (i * size B + j) * size B + j))); auto.
  intros j i a J I L. rewrite (gget_ok 0 ind) by (unfold glen; rewrite Li; eapply onl_within; eauto; exists i; auto). cbn [obind].
  rewrite get_ok; [reflexivity|]. rewrite Lx. eapply onl_within; eauto. exists (gat 0 ind (i * size B + j)). auto.
Qed.
Lemma sort_backward_ok axis (accum : bool) ind dy dx0 : denotes axis (length A) (length sh) -> qlen dy = size sh -> qlen dx0 = size sh -> Z.of_nat (length ind) = size sh ->
  (forall j i, isline (size A) n (size B) j -> 0 <= i < n -> 0 <= gat 0 ind (i * size B + j) < n) ->
  exists dx, sort_backward axis sh accum ind dy dx0 = Some dx /\ length dx = length dx0 /\
    forall j i, isline (size A) n (size B) j -> 0 <= i < n ->
      qat dx (i * size B + j) = ((if accum then qat dx0 (i * size B + j) else 0) + qat dy (gat 0%Z ind (i * size B + j) * size B + j))%Qc.
Proof.
  intros D Ly Lx Li BD. pose proof (size_nonneg _ NA) as P1. pose proof (size_nonneg _ NB) as P2. unfold sort_backward, sh. rewrite sort_setup_ok by auto. cbn [obind]. rewrite sh_size in *.
  apply (lines_write 0%Qc (size A) n (size B) _ (fun j i old => ((if accum then old else 0) + qat dy (gat 0%Z ind (i * size B + j) * size B + j))%Qc)); auto.
  intros j i a J I L. rewrite (gget_ok 0 ind) by (unfold glen; rewrite Li; eapply onl_within; eauto; exists i; auto). cbn [obind].
  rewrite get_ok by (rewrite Ly; eapply onl_within; eauto; exists (gat 0 ind (i * size B + j)); auto). cbn [obind]. destruct accum.
  - rewrite get_ok; [reflexivity|]. unfold glen in L. unfold qlen. rewrite L. eapply onl_within; eauto. exists i. auto.
  - f_equal. ring.
Qed.
Lemma sort_forward_ok axis reverse x y0 ind0 : denotes axis (length A) (length sh) -> qlen x = size sh -> qlen y0 = size sh -> Z.of_nat (length ind0) = size sh ->
  exists y ind, sort_forward std_sort axis reverse sh x y0 ind0 = Some (y, ind) /\ length y = length y0 /\ length ind = length ind0 /\
    forall j i, isline (size A) n (size B) j -> 0 <= i < n -> gat 0 ind (i * size B + j) = nth (Z.to_nat i) (sorted_line reverse x j) 0 /\
      qat y (i * size B + j) = qat x (gat 0 ind (i * size B + j) * size B + j).
Proof.
  intros D Lx Ly Li. unfold sort_forward, sh. rewrite sort_setup_ok by auto. cbn [obind].
  destruct (sort_indices_ok reverse x ind0 Lx Li) as (ind & E & L & V). rewrite E. cbn [obind].
  destruct (sort_values_ok ind x y0 Lx Ly) as (y & E' & L' & V').
  - unfold sh in *. congruence.
  - intros j i J I. rewrite V by auto. apply sorted_bound. auto.
  - rewrite E'. cbn [obind]. exists y, ind. split; [auto|]. split; [auto|]. split; [auto|]. intros j i J I. split; auto.
Qed.
End axis.
