(** SearchSorted (C88), Unique (C89), NonZero (C90), TopNError, ConfusionMatrix and
    BinaryError (C91). *)
From Coq Require Import List ZArith Lia Bool Permutation Sorted QArith Qcanon.
From Verif Require JoinProofs2.
From Verif Require Import NdSpec NdProofs IdxModel IdxSpec JoinSpec JoinProofs ScanModel ScanSpec ScanProofs1 ReduceModel SortModel SortSpec SortProofs3 FindModel FindSpec FindProofs1 FindProofs2 FindProofs3 FindProofs4 FindProofs6 FindProofs7 FindProofs8.
Import ListNotations.
Local Open Scope list_scope.
Local Open Scope Z_scope.

Definition nonneg (s : list Z) : Prop := Forall (fun n => 0 <= n) s.
Definition positive (s : list Z) : Prop := Forall (fun n => 0 < n) s.
Definition len {T : Type} (l : list T) : Z := Z.of_nat (length l).
Definition qth (l : list Qc) (i : Z) : Qc := nth (Z.to_nat i) l 0%Qc.

(** * SearchSorted *)

(** For every value, the output is the place where the sorted sequence of the same row keeps its
    order if the value is inserted there, before or behind equal elements.  If the sequence is
    not sorted, the output is some place of the sequence. *)
Theorem C88_search : forall right A n m s v y0, nonneg A -> 0 < n -> 0 <= m ->
  len s = size (A ++ [n]) -> len v = size (A ++ [m]) -> len y0 = size (A ++ [m]) ->
  exists y, search_forward right (A ++ [n]) (A ++ [m]) s v y0 = Some y /\ length y = length y0 /\
  forall p j, inside p A -> 0 <= j < m -> let k := elem y (A ++ [m]) (p ++ [j]) in 0 <= k <= n /\
  (rising n (fun i => qelem s (A ++ [n]) (p ++ [i])) ->
   insertion right n (fun i => qelem s (A ++ [n]) (p ++ [i])) (qelem v (A ++ [m]) (p ++ [j])) k).
Proof. exact search_forward_ok. Qed.
Example C88_search_works :
  search_forward false [2; 4] [2; 3] (map Q2Qc [1; 2; 2; 4; 0; 3; 3; 3]%Q) (map Q2Qc [2; 5; 0; 3; 1; 4]%Q) [7; 7; 7; 7; 7; 7] = Some [1; 4; 0; 1; 1; 4] /\
  search_forward true [2; 4] [2; 3] (map Q2Qc [1; 2; 2; 4; 0; 3; 3; 3]%Q) (map Q2Qc [2; 5; 0; 3; 1; 4]%Q) [7; 7; 7; 7; 7; 7] = Some [3; 4; 0; 4; 1; 4].
Proof. split; reflexivity. Qed.
(** The place is unique. *)
Theorem C88_unique : forall right n f v k k', insertion right n f v k -> insertion right n f v k' -> k = k'.
Proof.
  intros right n f v k k' [B P] [B' P'].
  destruct (Z.lt_trichotomy k k') as [L|[E|L]]; [|exact E|].
  - pose proof (proj2 (P k ltac:(lia)) (proj1 (P' k ltac:(lia)) L)). lia.
  - pose proof (proj2 (P' k' ltac:(lia)) (proj1 (P k' ltac:(lia)) L)). lia.
Qed.
(** Every value should be inserted at 0 into an empty sequence, but then the sequence is read
    outside its elements. *)
Definition C88_empty_statement : Prop := forall right A m s v y0, nonneg A -> 0 <= m ->
  len s = size (A ++ [0]) -> len v = size (A ++ [m]) -> len y0 = size (A ++ [m]) ->
  exists y, search_forward right (A ++ [0]) (A ++ [m]) s v y0 = Some y.
Theorem C88_empty_refuted : ~ C88_empty_statement.
Proof.
  intros H. destruct (H false [] 1 [] [0%Qc] [0]) as (y & E); [constructor|lia|reflexivity|reflexivity|reflexivity|]. cbv in E. discriminate.
Qed.

(** * Unique *)

(** Insertion sort keeps the order of equivalent elements. *)
Lemma insert_stable R a l b : strict_weak R -> StronglySorted (fun a b : Z => R b a = false) l ->
  filter (fun c => negb (R b c) && negb (R c b)) (insert R a l) = filter (fun c => negb (R b c) && negb (R c b)) (a :: l).
Proof.
  intros (I & AS & T & N) S. induction S as [|c l S IH F]; [reflexivity|]. cbn [insert]. destruct (R c a) eqn:E; [|reflexivity].
  cbn [filter]. rewrite IH. cbn [filter]. destruct (R b a) eqn:E1, (R a b) eqn:E2, (R b c) eqn:E3, (R c b) eqn:E4; cbn [negb andb]; try reflexivity.
  exfalso. pose proof (N c b a E4 E1). congruence.
Qed.
Lemma isort_stable : stable (@isort Z).
Proof.
  intros R l a W. induction l as [|b l IH]; [reflexivity|]. cbn [isort]. rewrite insert_stable; [|exact W|apply isort_sorted; exact W]. cbn [filter]. rewrite IH. reflexivity.
Qed.

(** All elements: y has the distinct elements, in order of their values if sorted and of their
    first occurrences if not; the indices say where each occurs first, the inverse indices which
    of them each element is, and the counts how often each occurs. *)
Theorem C89_elements : forall std_sort std_stable_sort, sorting std_sort -> sorting std_stable_sort -> stable std_stable_sort ->
  forall sorted axis k shape x, nonneg shape -> 0 < size shape -> len x = size shape -> denotes axis k (length shape) -> (k < length shape)%nat ->
  exists u, unique std_sort std_stable_sort true axis sorted shape x = Some u /\ u_shape u = [len (u_y u)] /\
    len (u_index u) = len (u_y u) /\ len (u_inverse u) = size shape /\ len (u_counts u) = len (u_y u) /\
    distinct Qclt sorted (size shape) (qth x) (len (u_y u)) (qth (u_y u)) (ith (u_index u)) (ith (u_inverse u)) (ith (u_counts u)).
Proof. exact unique_flat_ok. Qed.
(** The slices along an axis, compared lexicographically. *)
Theorem C89_slices : forall std_sort std_stable_sort, sorting std_sort -> sorting std_stable_sort -> stable std_stable_sort ->
  forall sorted axis A n B x, positive A -> 0 < n -> positive B -> len x = size (A ++ n :: B) -> denotes axis (length A) (length (A ++ n :: B)) ->
  exists u num, unique std_sort std_stable_sort false axis sorted (A ++ n :: B) x = Some u /\ u_shape u = A ++ num :: B /\ len (u_y u) = size (A ++ num :: B) /\
    len (u_index u) = num /\ len (u_inverse u) = n /\ len (u_counts u) = num /\
    distinct lex sorted n (slice_of x A n B) num (slice_of (u_y u) A num B) (ith (u_index u)) (ith (u_inverse u)) (ith (u_counts u)).
Proof. exact unique_axis_ok. Qed.
Example C89_works :
  sorting (@isort Z) /\ stable (@isort Z) /\
  option_map (fun u => (u_shape u, map this (u_y u), u_index u, u_inverse u, u_counts u)) (unique isort isort true 0 true [6] (map Q2Qc [3; 1; 2; 3; 3; 1]%Q)) =
    Some ([3], [1; 2; 3]%Q, [1; 2; 0], [2; 0; 1; 2; 2; 0], [2; 1; 3]) /\
  option_map (fun u => (u_shape u, map this (u_y u), u_index u, u_inverse u, u_counts u)) (unique isort isort true 0 false [6] (map Q2Qc [3; 1; 2; 3; 3; 1]%Q)) =
    Some ([3], [3; 1; 2]%Q, [0; 1; 2], [0; 1; 2; 0; 0; 1], [3; 2; 1]) /\
  option_map (fun u => (u_shape u, map this (u_y u), u_index u, u_inverse u, u_counts u)) (unique isort isort false 1 true [2; 3] (map Q2Qc [4; 1; 4; 5; 2; 5]%Q)) =
    Some ([2; 2], [1; 4; 2; 5]%Q, [1; 0], [1; 0; 1], [1; 2]).
Proof. split; [exact isort_sorting|]. split; [exact isort_stable|]. repeat split; reflexivity. Qed.
(** Slices and their order say what is meant. *)
Example C89_slices_mean :
  map this (slice_of (map Q2Qc [4; 1; 4; 5; 2; 5]%Q) [2] 3 [] 1) = [1; 2]%Q /\ lex (map Q2Qc [1; 2; 7]%Q) (map Q2Qc [1; 3; 0]%Q) /\ ~ lex (map Q2Qc [1; 2]%Q) (map Q2Qc [1; 2]%Q).
Proof.
  split; [reflexivity|]. split; [exists [Q2Qc 1], (Q2Qc 2), (Q2Qc 3), [Q2Qc 7], [Q2Qc 0]; repeat split; reflexivity|].
  intros (w & u & v & s & t & E1 & E2 & L). rewrite E1 in E2. apply app_inv_head in E2. inversion E2; subst. exact (Qclt_not_eq _ _ L eq_refl).
Qed.
(** What is distinct is so: no two outputs are equal. *)
Theorem C89_distinct : forall sorted n val num out index inverse counts, distinct Qclt sorted n val num out index inverse counts ->
  forall k k', 0 <= k < k' -> k' < num -> out k <> out k'.
Proof.
  intros sorted n val num out index inverse counts [D1 D2 D3 D4] k k' H1 H2 E. specialize (D4 k k' H1 H2). destruct sorted; [rewrite E in D4; exact (Qclt_not_eq _ _ D4 eq_refl)|].
  destruct (D1 k' ltac:(lia)) as (_ & _ & N). destruct (D1 k ltac:(lia)) as (B & V & _). apply (N (index k)); [lia|]. rewrite V. exact E.
Qed.
(** No distinct elements are found in an array of no elements: the first element of an empty
    vector is read. *)
Definition C89_empty_statement : Prop := forall std_sort std_stable_sort, sorting std_sort -> sorting std_stable_sort -> stable std_stable_sort ->
  exists u, unique std_sort std_stable_sort true 0 true [0] [] = Some u /\ u_y u = [].
Theorem C89_empty_refuted : ~ C89_empty_statement.
Proof. intros H. destruct (H isort isort isort_sorting isort_sorting isort_stable) as (u & E & _). cbv in E. discriminate. Qed.

(** * NonZero *)

(** Column c of the output is the index of the c-th element that is not zero. *)
Theorem C90_nonzero : forall shape x, nonneg shape -> len x = size shape ->
  let l := nonzero_indices shape x in
  exists y, nonzero_setup shape x = Some ([len shape; len l], y) /\ len y = len shape * len l /\
  forall d c, 0 <= d < len shape -> 0 <= c < len l -> elem y [len shape; len l] [d; c] = ith (nth (Z.to_nat c) l []) d.
Proof.
  intros shape x N L. cbn zeta. destruct (non_zero_ok shape x N L) as (y & E & LY & V). exists y. split; [exact E|]. split; [exact LY|].
  intros d c D C. unfold elem. cbn [position]. rewrite Z.mul_0_l, Z.add_0_l. exact (V d c D C).
Qed.
Example C90_nonzero_works : nonzero_setup [2; 3] (map Q2Qc [0; 1; 0; 4; 0; -2]%Q) = Some ([2; 3], [0; 1; 1; 1; 0; 2]) /\ nonzero_setup [] [Q2Qc 5] = Some ([0; 1], []) /\
  nonzero_indices [2; 3] (map Q2Qc [0; 1; 0; 4; 0; -2]%Q) = [[0; 1]; [1; 0]; [1; 2]].
Proof. repeat split; reflexivity. Qed.
(** A forward pass should give the indices of its input.  The indices are those of the input
    when the function was set up. *)
Definition C90_forward_statement : Prop := forall shape x0 x, len x0 = size shape -> len x = size shape ->
  obind (nonzero_setup shape x0) (nonzero_forward shape x) = nonzero_setup shape x.
Theorem C90_forward_refuted : ~ C90_forward_statement.
Proof. intros H. specialize (H [2] (map Q2Qc [1; 0]%Q) (map Q2Qc [0; 1]%Q) eq_refl eq_refl). cbv in H. discriminate. Qed.

(** * TopNError, ConfusionMatrix and BinaryError *)

(** There is no error if the label is within the first N places however the classes are ranked
    by their scores, and an error otherwise. *)
Theorem C91_top_n : forall axis N A n B x l y0, positive A -> 0 < n -> positive B -> denotes axis (length A) (length (A ++ n :: B)) ->
  len x = size (A ++ n :: B) -> len l = size (A ++ 1 :: B) -> len y0 = size (A ++ 1 :: B) ->
  (forall p r, inside p A -> inside r B -> 0 <= elem l (A ++ 1 :: B) (p ++ 0 :: r) < n) ->
  exists y, top_n_forward axis N (A ++ n :: B) (A ++ 1 :: B) x l y0 = Some y /\ length y = length y0 /\
  forall p r, inside p A -> inside r B ->
    let e := elem y (A ++ 1 :: B) (p ++ 0 :: r) in let label := elem l (A ++ 1 :: B) (p ++ 0 :: r) in
    (e = 0 \/ e = 1) /\
    (e = 0 <-> forall places, ranking n (fun c => qelem x (A ++ n :: B) (p ++ c :: r)) places -> In label (firstn (Z.to_nat N) places)).
Proof.
  intros axis N A n B x l y0 PA Hn PB D LX LL LY LB. destruct (top_n_forward_ok A n B PA Hn PB x l LX LL LB axis N y0 D LY) as (y & E & L & V).
  exists y. split; [exact E|]. split; [exact L|]. intros p r P R. cbn zeta. rewrite V by assumption. pose proof (LB p r P R) as HL.
  split; [destruct (N <? _); auto|].
  rewrite (place_ok n (fun c => qelem x (A ++ n :: B) (p ++ c :: r)) _ HL N).
  enough (EQ : atleast n B x (off p A) (off r B) (qelem x (A ++ n :: B) (p ++ elem l (A ++ 1 :: B) (p ++ 0 :: r) :: r)) =
    Z.of_nat (length (filter (fun c => negb (less (qelem x (A ++ n :: B) (p ++ c :: r)) (qelem x (A ++ n :: B) (p ++ elem l (A ++ 1 :: B) (p ++ 0 :: r) :: r)))) (upto n)))).
  { rewrite EQ. destruct (Z.ltb_spec N (Z.of_nat (length (filter (fun c => negb (less (qelem x (A ++ n :: B) (p ++ c :: r)) (qelem x (A ++ n :: B) (p ++ elem l (A ++ 1 :: B) (p ++ 0 :: r) :: r)))) (upto n))))); split; intros; try lia; discriminate. }
  unfold atleast. do 2 f_equal. apply filter_ext_in. intros c C. apply upto_in in C. f_equal. f_equal. unfold sc. unfold qelem. rewrite at_score by assumption. reflexivity.
Qed.
Example C91_top_n_works :
  top_n_forward 1 1 [2; 3] [2; 1] (map Q2Qc [1; 5; 3; 4; 4; 2]%Q) [1; 0] [7; 7] = Some [0; 1] /\
  top_n_forward (-1) 2 [2; 3] [2; 1] (map Q2Qc [1; 5; 3; 4; 4; 2]%Q) [0; 0] [7; 7] = Some [1; 0].
Proof. split; reflexivity. Qed.
(** A label that is no class should be refused or counted as an error.  The score of another
    sample is taken for it. *)
Definition C91_label_statement : Prop := forall axis N n m x l y0 y, denotes axis 1 2 -> len x = m * n -> len l = m -> len y0 = m ->
  top_n_forward axis N [m; n] [m; 1] x l y0 = Some y -> forall i, 0 <= i < m -> n <= ith l i -> ith y i = 1.
Theorem C91_label_refuted : ~ C91_label_statement.
Proof.
  intros H. specialize (H 1 1 2 2 (map Q2Qc [0; 0; 1; 0]%Q) [2; 0] [7; 7] [0; 0] (or_introl eq_refl) eq_refl eq_refl eq_refl eq_refl 0 ltac:(lia) ltac:(cbv; discriminate)).
  cbv in H. discriminate.
Qed.
(** Entry (a, b) is the number of samples of class a for which class b is predicted: the first
    of those of the highest score. *)
Theorem C91_confusion : forall A n B x l axis y0, positive A -> 0 < n -> positive B -> len x = size (A ++ n :: B) -> len l = size (A ++ 1 :: B) ->
  (forall p r, inside p A -> inside r B -> 0 <= elem l (A ++ 1 :: B) (p ++ 0 :: r) < n) ->
  denotes axis (length A) (length (A ++ n :: B)) -> len y0 = n * n ->
  exists y pred, confusion_forward axis (A ++ n :: B) (A ++ 1 :: B) x l y0 = Some y /\ length y = length y0 /\
  (forall p r, inside p A -> inside r B -> predicted n (fun c => qelem x (A ++ n :: B) (p ++ c :: r)) (pred (p, r))) /\
  forall a b, 0 <= a < n -> 0 <= b < n -> elem y [n; n] [a; b] =
    len (filter (fun pr => (elem l (A ++ 1 :: B) (fst pr ++ 0 :: snd pr) =? a) && (pred pr =? b)) (list_prod (indices A) (indices B))).
Proof. exact confusion_forward_ok. Qed.
Example C91_confusion_works :
  confusion_forward 1 [4; 2] [4; 1] (map Q2Qc [1; 5; 3; 2; 4; 4; 0; 2]%Q) [1; 0; 1; 0] [7; 7; 7; 7] = Some [1; 1; 1; 1].
Proof. reflexivity. Qed.
(** There is an error where one of the two elements is at least one half and the other is not. *)
Theorem C91_binary : forall shape x0 x1 y0, nonneg shape -> len x0 = size shape -> len x1 = size shape -> len y0 = size shape ->
  exists y, binary_error_forward shape shape x0 x1 y0 = Some y /\ length y = length y0 /\
  forall idx, inside idx shape -> (elem y shape idx = 0 \/ elem y shape idx = 1) /\
    (elem y shape idx = 0 <-> (Q2Qc (1 # 2) <= qelem x0 shape idx <-> Q2Qc (1 # 2) <= qelem x1 shape idx)%Qc).
Proof.
  intros shape x0 x1 y0 N L0 L1 LY. destruct (binary_error_ok shape x0 x1 y0 N L0 L1 LY) as (y & E & L & V). exists y. split; [exact E|]. split; [exact L|].
  intros idx I. rewrite V by exact I. split; [destruct (Bool.eqb _ _); auto|].
  assert (H : forall v, negb (less v half) = true <-> (Q2Qc (1 # 2) <= v)%Qc) by (intros v; rewrite negb_true_iff; apply less_false).
  rewrite <- !H. destruct (negb (less (qelem x0 shape idx) half)), (negb (less (qelem x1 shape idx) half)); cbn [Bool.eqb]; split; intros; try reflexivity; try discriminate; try tauto.
  - destruct H0 as [H1 H2]. discriminate (H1 eq_refl).
  - destruct H0 as [H1 H2]. discriminate (H2 eq_refl).
Qed.
Example C91_binary_works : binary_error_forward [4] [4] (map Q2Qc [0; 1 # 2; 1; 1 # 3]%Q) (map Q2Qc [1; 1; 0; 0]%Q) [7; 7; 7; 7] = Some [1; 0; 1; 0] /\
  binary_error_forward [4] [2; 2] (map Q2Qc [0; 1 # 2; 1; 1 # 3]%Q) (map Q2Qc [1; 1; 0; 0]%Q) [7; 7; 7; 7] = None.
Proof. split; reflexivity. Qed.
(** Labels of another shape are refused. *)
Theorem C91_shapes : forall axis N A n B L x l y0, denotes axis (length A) (length (A ++ n :: B)) -> L <> A ++ 1 :: B ->
  top_n_forward axis N (A ++ n :: B) L x l y0 = None /\ confusion_forward axis (A ++ n :: B) L x l y0 = None.
Proof.
  intros axis N A n B L x l y0 D NE. unfold top_n_forward, confusion_forward.
  enough (E : label_setup axis (A ++ n :: B) L = None) by (rewrite E; auto).
  unfold label_setup. rewrite (JoinProofs2.refine_denotes _ _ _ D) by (rewrite app_length; cbn [length]; lia). cbn [obind].
  enough (F : labels_fit (Z.of_nat (length A)) (A ++ n :: B) L = false) by (rewrite F; reflexivity).
  clear D. revert L NE. induction A as [|a A IH]; intros L NE; cbn [app length].
  - destruct L as [|m L]; cbn [labels_fit]; [reflexivity|]. cbn. destruct (Z.eqb_spec m 1) as [->|]; [|reflexivity]. cbn [andb].
    assert (G : forall k B L, k < 0 -> labels_fit k B L = true -> L = B).
    { intros k B'. revert k. induction B' as [|b B' IB]; intros k [|c L'] K F; cbn [labels_fit] in F; try discriminate; [reflexivity|].
      destruct (Z.eqb_spec k 0); [lia|]. apply andb_true_iff in F as [F1 F2]. apply Z.eqb_eq in F1 as ->. f_equal. apply (IB (k - 1)); [lia|exact F2]. }
    destruct (labels_fit (-1) B L) eqn:F; [|reflexivity]. apply G in F; [|lia]. subst. exfalso. apply NE. reflexivity.
  - destruct L as [|m L]; cbn [labels_fit]; [reflexivity|]. destruct (Z.eqb_spec (Z.of_nat (S (length A))) 0); [lia|]. destruct (Z.eqb_spec m a) as [->|]; [|reflexivity]. cbn [andb].
    replace (Z.of_nat (S (length A)) - 1) with (Z.of_nat (length A)) by lia. apply IH. intros ->. apply NE. reflexivity.
Qed.
Example C91_shapes_works : top_n_forward 1 1 [2; 3] [2; 2] (map Q2Qc [1; 5; 3; 4; 4; 2]%Q) [1; 0; 0; 0] [7; 7; 7; 7] = None.
Proof. reflexivity. Qed.

(** BinaryError takes arrays of the same shape. *)
Theorem C91_binary_shapes : forall A B x0 x1 y0, A <> B -> binary_error_forward A B x0 x1 y0 = None.
Proof. intros A B x0 x1 y0 N. unfold binary_error_forward. destruct (list_eq_dec Z.eq_dec A B); [contradiction | reflexivity]. Qed.
Example C91_binary_shapes_works : binary_error_forward [2; 2] [2; 1; 2] (map Q2Qc [0; 1; 1; 0]%Q) (map Q2Qc [0; 1; 1; 0]%Q) [7; 7; 7; 7] = None.
Proof. reflexivity. Qed.

Print Assumptions C88_search.
Print Assumptions C89_elements.
Print Assumptions C89_slices.
Print Assumptions C90_nonzero.
Print Assumptions C91_top_n.
Print Assumptions C91_confusion.
Print Assumptions C91_binary.
