(** Sort (C50), TopKData and TopKGrad (C51). *)
From Coq Require Import List ZArith Lia Bool Permutation QArith Qcanon.
From Verif Require Import NdSpec NdProofs IdxModel IdxSpec JoinSpec JoinProofs ScanModel ScanSpec ScanProofs1 ReduceProofs5 SortModel SortSpec SortProofs1 SortProofs2 SortProofs3.
Import ListNotations.
Local Open Scope list_scope.
Local Open Scope Z_scope.

Definition nonneg (s : list Z) : Prop := Forall (fun n => 0 <= n) s.
Definition numbers (n : Z) : list Z := map Z.of_nat (seq 0 (Z.to_nat n)).

(** The output is in order along the axis; the indices along the axis are all indices, once
    each; and each output element is the input element at its index. *)
Theorem C50_sort : forall std_sort, sorting std_sort -> forall A B n axis reverse x y0 ind0, nonneg A -> 0 <= n -> nonneg B ->
  denotes axis (length A) (length (A ++ n :: B)) ->
  Z.of_nat (length x) = size (A ++ n :: B) -> Z.of_nat (length y0) = size (A ++ n :: B) -> Z.of_nat (length ind0) = size (A ++ n :: B) ->
  exists y ind, sort_forward std_sort axis reverse (A ++ n :: B) x y0 ind0 = Some (y, ind) /\ length y = length y0 /\ length ind = length ind0 /\
  forall p r, inside p A -> inside r B ->
    Permutation (map (fun k => elem ind (A ++ n :: B) (p ++ k :: r)) (numbers n)) (numbers n) /\
    (forall k, 0 <= k < n -> qelem y (A ++ n :: B) (p ++ k :: r) = qelem x (A ++ n :: B) (p ++ elem ind (A ++ n :: B) (p ++ k :: r) :: r)) /\
    (forall i k, 0 <= i < k -> k < n ->
      if reverse then (qelem y (A ++ n :: B) (p ++ k :: r) <= qelem y (A ++ n :: B) (p ++ i :: r))%Qc
      else (qelem y (A ++ n :: B) (p ++ i :: r) <= qelem y (A ++ n :: B) (p ++ k :: r))%Qc).
Proof.
  intros std_sort STD A B n axis reverse x y0 ind0 NA Nn NB D LX LY LI.
  destruct (sort_forward_ok A n B NA Nn NB std_sort STD axis reverse x y0 ind0 D LX LY LI) as (y & ind & E & L1 & L2 & V).
  exists y, ind. split; [auto|]. split; [auto|]. split; [auto|]. intros p r P R.
  set (j := lineno A n B p r).
  assert (J : isline (size A) n (size B) j) by (apply lineno_line; auto).
  set (l := sorted_line n B std_sort reverse x j) in *.
  assert (LN : Z.of_nat (length l) = n) by (apply sorted_length; auto).
  assert (EI : forall k, 0 <= k < n -> elem ind (A ++ n :: B) (p ++ k :: r) = nth (Z.to_nat k) l 0).
  { intros k K. unfold elem. rewrite lineno_at by auto. apply (V j k); auto. }
  assert (EX : forall k, 0 <= k < n -> qelem x (A ++ n :: B) (p ++ k :: r) = at_line (line_of n B x j) k).
  { intros k K. unfold qelem. rewrite lineno_at by auto. rewrite line_at by auto. reflexivity. }
  assert (EY : forall k, 0 <= k < n -> qelem y (A ++ n :: B) (p ++ k :: r) = at_line (line_of n B x j) (nth (Z.to_nat k) l 0)).
  { intros k K. destruct (V j k J K) as (V1 & V2). unfold qelem. rewrite lineno_at by auto. fold j. fold (qat y (k * size B + j)). rewrite V2, V1. symmetry. apply line_at.
    unfold l. apply sorted_bound; auto. }
  destruct (sorted_line_ok n B std_sort STD reverse x j) as (PM & OR). fold l in PM, OR.
  split; [|split].
  - enough (Q : map (fun k => elem ind (A ++ n :: B) (p ++ k :: r)) (numbers n) = l) by (rewrite Q; exact PM). unfold numbers. rewrite map_map. apply (nth_ext _ _ 0 0); [rewrite map_length, seq_length; lia|].
    intros i Hi. rewrite map_length, seq_length in Hi. rewrite (nth_indep _ 0 (elem ind (A ++ n :: B) (p ++ Z.of_nat 0 :: r))) by (rewrite map_length, seq_length; lia).
    rewrite (map_nth (fun m => elem ind (A ++ n :: B) (p ++ Z.of_nat m :: r))), seq_nth by lia. rewrite EI by lia. rewrite Nat2Z.id. auto.
  - intros k K. rewrite EI, EY by auto. symmetry. apply EX. unfold l. apply sorted_bound; auto.
  - intros i k H1 H2. rewrite !EY by lia. specialize (OR 0 (Z.to_nat i) (Z.to_nat k) ltac:(lia)). unfold sort_cmp in OR. destruct reverse; [apply more_f in OR|apply less_f in OR]; auto.
Qed.

Definition q (z : Z) : Qc := Q2Qc (inject_Z z).
Definition show2 (o : option (list Qc * list Z)) : option (list Q * list Z) := option_map (fun p => (map this (fst p), snd p)) o.
Definition show (o : option (list Qc)) : option (list Q) := option_map (map this) o.
Definition qs (l : list Z) : option (list Q) := Some (map inject_Z l).
Definition nines (n : nat) : list Qc := repeat (q 9) n.
Example C50_sort_ex : sorting (@isort Z) /\
  show2 (sort_forward isort 1 false [2; 3] (map q [2; 3; 1; 6; 5; 6]) (nines 6) (repeat 9 6)) = Some (map inject_Z [1; 2; 3; 5; 6; 6], [2; 0; 1; 1; 0; 2]) /\
  show2 (sort_forward isort (-2) true [2; 3] (map q [2; 3; 1; 6; 5; 6]) (nines 6) (repeat 9 6)) = Some (map inject_Z [6; 5; 6; 2; 3; 1], [1; 1; 1; 0; 0; 0]).
Proof. split; [apply isort_sorting|]. split; vm_compute; reflexivity. Qed.

(** What the backward pass computes: element [k] of the input receives the gradient of the
    output element with number [ind k]. *)
Theorem C50_backward : forall A B n axis accum ind dy dx0, nonneg A -> 0 <= n -> nonneg B ->
  denotes axis (length A) (length (A ++ n :: B)) ->
  Z.of_nat (length dy) = size (A ++ n :: B) -> Z.of_nat (length dx0) = size (A ++ n :: B) -> Z.of_nat (length ind) = size (A ++ n :: B) ->
  (forall p k r, inside p A -> 0 <= k < n -> inside r B -> 0 <= elem ind (A ++ n :: B) (p ++ k :: r) < n) ->
  exists dx, sort_backward axis (A ++ n :: B) accum ind dy dx0 = Some dx /\ length dx = length dx0 /\
  forall p k r, inside p A -> 0 <= k < n -> inside r B ->
    qelem dx (A ++ n :: B) (p ++ k :: r) =
    ((if accum then qelem dx0 (A ++ n :: B) (p ++ k :: r) else 0) + qelem dy (A ++ n :: B) (p ++ elem ind (A ++ n :: B) (p ++ k :: r) :: r))%Qc.
Proof.
  intros A B n axis accum ind dy dx0 NA Nn NB D LY LX LI H.
  destruct (sort_backward_ok A n B NA Nn NB axis accum ind dy dx0 D LY LX LI) as (dx & E & L & V).
  - intros j i (o & m & Ho & Hm & ->) I. destruct (IdxProofs6.off_onto A o NA Ho) as (p & P & <-). destruct (IdxProofs6.off_onto B m NB Hm) as (r & R & <-).
    specialize (H p i r P I R). unfold elem in H. rewrite lineno_at in H by auto. exact H.
  - exists dx. split; [auto|]. split; [auto|]. intros p k r P K R. specialize (H p k r P K R). specialize (V (lineno A n B p r) k (lineno_line A n B p r P R) K).
    unfold qelem. rewrite (lineno_at A n B p k r) by auto. unfold elem in H |- *. rewrite (lineno_at A n B p k r) in H |- * by auto. rewrite lineno_at by auto. exact V.
Qed.
Example C50_backward_ex :
  show (sort_backward 0 [3] true [2; 0; 1] (map q [10; 20; 30]) (map q [1; 2; 3])) = qs [31; 12; 23] /\
  show (sort_backward 0 [3] false [2; 0; 1] (map q [10; 20; 30]) (map q [1; 2; 3])) = qs [30; 10; 20].
Proof. split; vm_compute; reflexivity. Qed.

(** The gradient of an output element should go to the input element that it is a copy of.
    This holds if sorting exchanges elements in pairs only. *)
Theorem C50_gradient_partial : forall A B n axis accum ind dy dx0, nonneg A -> 0 <= n -> nonneg B ->
  denotes axis (length A) (length (A ++ n :: B)) ->
  Z.of_nat (length dy) = size (A ++ n :: B) -> Z.of_nat (length dx0) = size (A ++ n :: B) -> Z.of_nat (length ind) = size (A ++ n :: B) ->
  (forall p k r, inside p A -> 0 <= k < n -> inside r B ->
    0 <= elem ind (A ++ n :: B) (p ++ k :: r) < n /\ elem ind (A ++ n :: B) (p ++ elem ind (A ++ n :: B) (p ++ k :: r) :: r) = k) ->
  exists dx, sort_backward axis (A ++ n :: B) accum ind dy dx0 = Some dx /\ length dx = length dx0 /\
  forall p k r, inside p A -> 0 <= k < n -> inside r B ->
    let i := elem ind (A ++ n :: B) (p ++ k :: r) in
    qelem dx (A ++ n :: B) (p ++ i :: r) = ((if accum then qelem dx0 (A ++ n :: B) (p ++ i :: r) else 0) + qelem dy (A ++ n :: B) (p ++ k :: r))%Qc.
Proof.
  intros A B n axis accum ind dy dx0 NA Nn NB D LY LX LI H.
  destruct (C50_backward A B n axis accum ind dy dx0) as (dx & E & L & V); auto; [intros; apply H; auto|].
  exists dx. split; [auto|]. split; [auto|]. intros p k r P K R. destruct (H p k r P K R) as (H1 & H2). cbv zeta. rewrite (V p _ r P H1 R), H2. auto.
Qed.
Example C50_gradient_ex :
  show2 (sort_forward isort 0 false [3] (map q [3; 2; 1]) (nines 3) (repeat 9 3)) = Some (map inject_Z [1; 2; 3], [2; 1; 0]) /\
  show (sort_backward 0 [3] false [2; 1; 0] (map q [10; 20; 30]) (nines 3)) = qs [30; 20; 10].
Proof. split; vm_compute; reflexivity. Qed.
(** In general it does not hold: with inputs 2, 3, 1 the output is 1, 2, 3, copied from
    positions 2, 0, 1, and the gradient of the first output goes to input 1 (which is the
    last output) instead of input 2. *)
Theorem C50_gradient_refuted : ~ forall std_sort, sorting std_sort -> forall n reverse x y0 ind0 y ind accum dy dx0 dx,
  sort_forward std_sort 0 reverse [n] x y0 ind0 = Some (y, ind) -> Z.of_nat (length dy) = n -> Z.of_nat (length dx0) = n ->
  sort_backward 0 [n] accum ind dy dx0 = Some dx ->
  forall k, 0 <= k < n -> let i := elem ind [n] [k] in qelem dx [n] [i] = ((if accum then qelem dx0 [n] [i] else 0) + qelem dy [n] [k])%Qc.
Proof.
  intros H. specialize (H (@isort Z) isort_sorting 3 false (map q [2; 3; 1]) (nines 3) (repeat 9 3)).
  destruct (sort_forward isort 0 false [3] (map q [2; 3; 1]) (nines 3) (repeat 9 3)) as [(y, ind)|] eqn:E; [|vm_compute in E; discriminate].
  assert (EI : ind = [2; 0; 1]) by (vm_compute in E; injection E; auto). subst ind.
  destruct (sort_backward 0 [3] false [2; 0; 1] (map q [10; 20; 30]) (nines 3)) as [dx|] eqn:E2; [|vm_compute in E2; discriminate].
  specialize (H y [2; 0; 1] false (map q [10; 20; 30]) (nines 3) dx eq_refl eq_refl eq_refl E2 0 ltac:(lia)).
  apply (f_equal this) in H. revert H. vm_compute in E2. injection E2 as <-. vm_compute. discriminate.
Qed.

(** An axis that the input does not have is refused. *)
Theorem C50_axis : forall std_sort axis reverse shape x y ind, ~ - Z.of_nat (length shape) <= axis < Z.of_nat (length shape) ->
  sort_forward std_sort axis reverse shape x y ind = None.
Proof.
  intros std_sort axis reverse shape x y ind H. unfold sort_forward, sort_setup, refine_axis.
  destruct (Z.ltb_spec axis (Z.of_nat (length shape))); [|reflexivity]. destruct (Z.leb_spec (- Z.of_nat (length shape)) axis); [lia|reflexivity].
Qed.
Example C50_axis_ex : sort_forward isort 1 false [1] [q 1] [q 1] [0] = None /\ sort_forward isort (-2) false [1] [q 1] [q 1] [0] = None /\
  show2 (sort_forward isort (-1) false [1] [q 1] [q 9] [9]) = Some ([inject_Z 1], [0]).
Proof. repeat split; vm_compute; reflexivity. Qed.

(** TopKData: for each sample, the indices are those of the k best elements, best first; the
    output has these elements in this order, or, without reduction, in their places among
    zeros. *)
Theorem C51_forward : forall std, heaping std -> forall A B k abs (reduce : bool) base_axis largest x y0 ind0, nonneg A -> B <> [] ->
  denotes base_axis (length A) (length (A ++ B)) -> 0 < k <= size B ->
  Z.of_nat (length x) = size (A ++ B) -> Z.of_nat (length y0) = size A * (if reduce then k else size B) -> Z.of_nat (length ind0) = size A * k ->
  exists y ind, top_forward std k abs reduce base_axis largest (A ++ B) x y0 ind0 = Some (y, ind) /\ length y = length y0 /\ length ind = length ind0 /\
  forall s, 0 <= s < size A ->
    let xs := sample 0%Qc (size B) s x in let is := sample 0 k s ind in
    best_k (before_in largest abs) xs k is /\
    if reduce then sample 0%Qc k s y = map (fun i => nth (Z.to_nat i) xs 0%Qc) is
    else forall i, 0 <= i < size B -> nth (Z.to_nat i) (sample 0%Qc (size B) s y) 0%Qc = if in_dec Z.eq_dec i is then nth (Z.to_nat i) xs 0%Qc else 0%Qc.
Proof.
  intros std STD A B k abs reduce base_axis largest x y0 ind0 NA NB D K LX LY LI.
  destruct (top_forward_ok std STD A B k base_axis NA NB D K abs reduce largest x y0 ind0 LX LY LI) as (y & ind & E & L1 & L2 & V).
  exists y, ind. split; [auto|]. split; [auto|]. split; [auto|]. intros s HS. destruct (V s HS) as (BK & V'). cbv zeta. split; [auto|]. destruct reduce.
  - apply (nth_ext _ _ 0%Qc 0%Qc); [rewrite map_length, !sample_length; auto|]. rewrite sample_length. intros j J.
    rewrite (nth_indep (map _ _) 0%Qc (nth (Z.to_nat 0) (sample 0%Qc (size B) s x) 0%Qc)) by (rewrite map_length, sample_length; auto).
    rewrite (map_nth (fun i => nth (Z.to_nat i) (sample 0%Qc (size B) s x) 0%Qc)). rewrite <- (Nat2Z.id j). rewrite (sample_nth 0%Qc k), (sample_nth 0 k) by lia.
    assert (IB : 0 <= gat 0 ind (s * k + Z.of_nat j) < size B).
    { destruct BK as (_ & _ & BK & _). specialize (BK (gat 0 ind (s * k + Z.of_nat j))). rewrite sample_length in BK.
      rewrite Z2Nat.id in BK by lia. apply BK. rewrite <- (sample_nth 0 k s) by lia. apply nth_In. rewrite sample_length. lia. }
    rewrite (sample_nth _ (size B)) by lia. apply V'. lia.
  - intros i I. rewrite sample_nth by lia. etransitivity; [apply V'; auto|]. rewrite sample_nth by lia. reflexivity.
Qed.
Example C51_forward_ex : heaping heaps /\
  show2 (top_forward heaps 2 false true 1 true [2; 4] (map q [3; -5; 4; 1; 2; 8; -9; 7]) (nines 4) (repeat 9 4)) = Some (map inject_Z [4; 3; 8; 7], [2; 0; 1; 3]) /\
  show2 (top_forward heaps 2 true true (-1) true [2; 4] (map q [3; -5; 4; 1; 2; 8; -9; 7]) (nines 4) (repeat 9 4)) = Some (map inject_Z [-5; 4; -9; 8], [1; 2; 2; 1]) /\
  show2 (top_forward heaps 2 false false 1 false [2; 4] (map q [3; -5; 4; 1; 2; 8; -9; 7]) (nines 8) (repeat 9 4)) = Some (map inject_Z [0; -5; 0; 1; 2; 0; -9; 0], [1; 3; 2; 0]).
Proof. split; [apply heaps_heaping|]. repeat split; vm_compute; reflexivity. Qed.

(** The gradient with reduction: an input element that was selected receives the gradient of
    its output element, other elements receive nothing. *)
Theorem C51_gradient : forall A B k base_axis accum ind dy dx0, nonneg A -> B <> [] ->
  denotes base_axis (length A) (length (A ++ B)) -> 0 < k <= size B ->
  Z.of_nat (length dy) = size A * k -> Z.of_nat (length dx0) = size (A ++ B) -> Z.of_nat (length ind) = size A * k ->
  (forall s, 0 <= s < size A -> NoDup (sample 0 k s ind) /\ forall i, In i (sample 0 k s ind) -> 0 <= i < size B) ->
  exists dx, top_backward k true base_axis (A ++ B) accum ind dy dx0 = Some dx /\ length dx = length dx0 /\
  forall s i, 0 <= s < size A -> 0 <= i < size B ->
    let old := if accum then nth (Z.to_nat i) (sample 0%Qc (size B) s dx0) 0%Qc else 0%Qc in
    let new := nth (Z.to_nat i) (sample 0%Qc (size B) s dx) 0%Qc in
    (forall j, 0 <= j < k -> nth (Z.to_nat j) (sample 0 k s ind) 0 = i -> new = (old + nth (Z.to_nat j) (sample 0 k s dy) 0)%Qc) /\
    (~ In i (sample 0 k s ind) -> new = old).
Proof.
  intros A B k base_axis accum ind dy dx0 NA NB D K LY LX LI H.
  destruct (top_backward_reduce_ok A B k base_axis NA NB D K accum ind dy dx0 LY LX LI H) as (dx & E & L & V).
  exists dx. split; [auto|]. split; [auto|]. intros s i HS I. destruct (V s HS) as (V1 & V2). cbv zeta. rewrite !sample_nth by lia. split.
  - intros j J Q. rewrite sample_nth in Q by lia. rewrite sample_nth by lia. subst i. apply V1. auto.
  - intros NI. apply V2; auto.
Qed.
Example C51_gradient_ex :
  show (top_backward 2 true 1 [2; 4] true [2; 0; 1; 3] (map q [10; 20; 30; 40]) (map q [1; 2; 3; 4; 5; 6; 7; 8])) = qs [21; 2; 13; 4; 5; 36; 7; 48] /\
  show (top_backward 2 true 1 [2; 4] false [2; 0; 1; 3] (map q [10; 20; 30; 40]) (map q [1; 2; 3; 4; 5; 6; 7; 8])) = qs [20; 0; 10; 0; 0; 30; 0; 40].
Proof. split; vm_compute; reflexivity. Qed.

(** Without reduction, the whole gradient is passed on ... *)
Theorem C51_gradient_all : forall A B k base_axis accum ind dy dx0, nonneg A -> B <> [] ->
  denotes base_axis (length A) (length (A ++ B)) -> 0 < k <= size B ->
  Z.of_nat (length dy) = size (A ++ B) -> Z.of_nat (length dx0) = size (A ++ B) ->
  exists dx, top_backward k false base_axis (A ++ B) accum ind dy dx0 = Some dx /\ length dx = length dx0 /\
  forall i, (i < length dx0)%nat -> nth i dx 0%Qc = ((if accum then nth i dx0 0 else 0) + nth i dy 0)%Qc.
Proof.
  intros A B k base_axis accum ind dy dx0 NA NB D K LY LX.
  destruct (top_backward_all_ok A B k base_axis NB D K accum ind dy dx0 LY LX) as (dx & E & L & V).
  exists dx. split; [auto|]. split; [auto|]. intros i I. specialize (V (Z.of_nat i) ltac:(split; lia)). unfold qat in V. rewrite Nat2Z.id in V. auto.
Qed.
(** ... also to the elements that were not selected, on which the output does not depend. *)
Theorem C51_gradient_refuted : ~ forall std, heaping std -> forall A B k abs base_axis largest x y0 ind0 y ind accum dy dx0 dx,
  nonneg A -> B <> [] -> denotes base_axis (length A) (length (A ++ B)) -> 0 < k <= size B ->
  top_forward std k abs false base_axis largest (A ++ B) x y0 ind0 = Some (y, ind) -> top_backward k false base_axis (A ++ B) accum ind dy dx0 = Some dx ->
  forall s i, 0 <= s < size A -> 0 <= i < size B -> ~ In i (sample 0 k s ind) ->
    nth (Z.to_nat i) (sample 0%Qc (size B) s dx) 0%Qc = if accum then nth (Z.to_nat i) (sample 0%Qc (size B) s dx0) 0%Qc else 0%Qc.
Proof.
  intros H. specialize (H heaps heaps_heaping [] [2] 1 false 0 true (map q [3; 4]) (nines 2) [9]).
  destruct (top_forward heaps 1 false false 0 true ([] ++ [2]) (map q [3; 4]) (nines 2) [9]) as [(y, ind)|] eqn:E; [|vm_compute in E; discriminate].
  assert (EI : ind = [1]) by (vm_compute in E; injection E; auto). subst ind.
  destruct (top_backward 1 false 0 ([] ++ [2]) false [1] (map q [10; 20]) (nines 2)) as [dx|] eqn:E2; [|vm_compute in E2; discriminate].
  specialize (H y [1] false (map q [10; 20]) (nines 2) dx). cbv iota in H.
  assert (C : nth 0 dx 0%Qc = 0%Qc).
  { apply (H ltac:(constructor) ltac:(discriminate) ltac:(left; reflexivity) ltac:(cbn; lia) eq_refl E2 0 0); [cbn; lia|cbn; lia|]. cbn. intros [X|[]]; discriminate. }
  apply (f_equal this) in C. revert C. vm_compute in E2. injection E2 as <-. vm_compute. discriminate.
Qed.

(** TopKGrad passes on, of each sample, the k largest elements of the gradient only. *)
Theorem C51_grad : forall std, heaping std -> forall A B k abs base_axis accum dy dx0, nonneg A -> B <> [] ->
  denotes base_axis (length A) (length (A ++ B)) -> 0 < k <= size B ->
  Z.of_nat (length dy) = size (A ++ B) -> Z.of_nat (length dx0) = size (A ++ B) ->
  exists dx, top_grad std k abs base_axis (A ++ B) accum dy dx0 = Some dx /\ length dx = length dx0 /\
  forall s, 0 <= s < size A -> exists l, best_k (before_in true abs) (sample 0%Qc (size B) s dy) k l /\
  forall i, 0 <= i < size B -> nth (Z.to_nat i) (sample 0%Qc (size B) s dx) 0%Qc =
    ((if accum then nth (Z.to_nat i) (sample 0 (size B) s dx0) 0 else 0) + (if in_dec Z.eq_dec i l then nth (Z.to_nat i) (sample 0 (size B) s dy) 0 else 0))%Qc.
Proof.
  intros std STD A B k abs base_axis accum dy dx0 NA NB D K LY LX.
  destruct (top_grad_ok std STD A B k base_axis NA NB D K abs accum dy dx0 LY LX) as (dx & E & L & V).
  exists dx. split; [auto|]. split; [auto|]. intros s HS. destruct (V s HS) as (l & BK & V'). exists l. split; [auto|]. intros i I. rewrite !sample_nth by lia. apply V'. auto.
Qed.
Example C51_grad_ex :
  show (top_grad heaps 1 true 1 [2; 3] true (map q [1; -5; 4; 2; 3; 1]) (map q [1; 2; 3; 4; 5; 6])) = qs [1; -3; 3; 4; 8; 6] /\
  show (top_grad heaps 2 false 0 [2; 3] false (map q [1; -5; 4; 2; 3; 1]) (map q [1; 2; 3; 4; 5; 6])) = qs [0; 0; 4; 0; 3; 0].
Proof. split; vm_compute; reflexivity. Qed.

(** A number of elements below one or above the size of a sample is refused. *)
Theorem C51_setup : forall std A B k abs reduce base_axis largest x y ind, B <> [] ->
  denotes base_axis (length A) (length (A ++ B)) -> ~ 0 < k <= size B ->
  top_forward std k abs reduce base_axis largest (A ++ B) x y ind = None /\ top_grad std k abs base_axis (A ++ B) false y y = None.
Proof.
  intros std A B k abs reduce base_axis largest x y ind NB D K.
  assert (S : forall reduce, top_setup k reduce base_axis (A ++ B) = None).
  { intros r. unfold top_setup. rewrite (JoinProofs2.refine_denotes _ _ _ D) by (rewrite app_length; destruct B; [tauto|cbn; lia]). cbn [obind]. rewrite Nat2Z.id, JoinProofs2.size_from_app.
    destruct (Z.leb_spec k 0); [auto|]. destruct (Z.ltb_spec (size B) k); [auto|lia]. }
  unfold top_forward, top_grad. rewrite !S. auto.
Qed.
Example C51_setup_ex : top_forward heaps 0 false true 0 true [2] (map q [1; 2]) (nines 1) [9] = None /\ top_forward heaps 3 false true 0 true [2] (map q [1; 2]) (nines 3) [9; 9; 9] = None /\
  show2 (top_forward heaps 2 false true 0 true [2] (map q [1; 2]) (nines 2) [9; 9]) = Some (map inject_Z [2; 1], [1; 0]).
Proof. repeat split; vm_compute; reflexivity. Qed.

Print Assumptions C50_sort.
Print Assumptions C50_gradient_partial.
Print Assumptions C50_gradient_refuted.
Print Assumptions C51_forward.
Print Assumptions C51_gradient.
Print Assumptions C51_gradient_all.
Print Assumptions C51_gradient_refuted.
Print Assumptions C51_grad.
Print Assumptions C51_setup.
