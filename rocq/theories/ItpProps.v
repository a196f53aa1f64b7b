(** Interpolate: the theorems. *)
From Coq Require Import List ZArith Lia Lqa Bool QArith Qcanon Qround.
From Verif Require Import NdSpec NdProofs IdxModel IdxProofs1 IdxProofs2 IdxProofs3 IdxProofs6 JoinModel JoinProofs ScanSpec ReduceSpec ScanModel ScanProofs1 ReduceModel ReduceProofs1 ConvModel ConvSpec ConvProofs3 ConvProofs7 PoolProofs3 FoldProofs3 FoldProofs4 NmsProofs1 QuantModel QuantSpec QuantProofs1 ItpModel ItpSpec ItpProofs1 ItpProofs2 ItpProofs3 ItpProofs4 ItpProofs5.
Import ListNotations.
Local Open Scope list_scope.
Local Open Scope Z_scope.

Definition q (k : Z) : Qc := whole_number k.
Definition args m o a h nn cl := {| mode := m; output_size := o; align_corners := a; half_pixel := h; half_pixel_for_nn := nn; channel_last := cl |}.
Lemma sized x L ns : has_size x (size (L ++ ns)) -> qlen x = size L * size ns.
Proof. unfold has_size, qlen. rewrite size_app. auto. Qed.

(** * C114: linear interpolation *)
(** Axes [L] come first and are kept; axes [ns] get sizes [ms].  Every element is the mean of the
    pixels around its coordinate, weighted by closeness on every axis. *)
Theorem C114_linear_values : forall f L ns ms x y0, accepted f L ns ms -> mode f = Linear ->
  has_size x (size (L ++ ns)) -> has_size y0 (size (L ++ ms)) ->
  exists y, itp_forward f (L ++ ns) (L ++ ms) x y0 = Some y /\ has_size y (size (L ++ ms)) /\
  forall l o, inside l L -> inside o ms ->
    qelem y (L ++ ms) (l ++ o) = interpolated (used (rule_of (align_corners f) (half_pixel f))) L ns ms x l o.
Proof.
  intros f L ns ms x y0 A M HX HY. destruct (forward_ok f L ns ms A x y0 (sized _ _ _ HX) (sized _ _ _ HY)) as (y & E & LY & V). exists y. split; [exact E |]. split; [unfold has_size in *; lia |].
  intros l o IL IO. rewrite (elem_out L ms) by assumption. rewrite V by (constructor; [apply off_bound; exact IL | exact IO]). unfold val_of. rewrite M. apply lin_elem; assumption.
Qed.
(** The coordinates are the documented ones, but for axes of one place with half_pixel. *)
Theorem C114_documented : forall f L ns ms x y0, accepted f L ns ms -> mode f = Linear ->
  has_size x (size (L ++ ns)) -> has_size y0 (size (L ++ ms)) ->
  no_single (rule_of (align_corners f) (half_pixel f)) ns ms ->
  exists y, itp_forward f (L ++ ns) (L ++ ms) x y0 = Some y /\
  forall l o, inside l L -> inside o ms ->
    qelem y (L ++ ms) (l ++ o) = interpolated (documented (rule_of (align_corners f) (half_pixel f))) L ns ms x l o.
Proof.
  intros f L ns ms x y0 A M HX HY NS. destruct (C114_linear_values f L ns ms x y0 A M HX HY) as (y & E & _ & V). exists y. split; [exact E |]. intros l o IL IO. rewrite V by assumption. unfold interpolated. apply total_ext. intros i I. apply indices_in in I.
  rewrite hats_documented; [reflexivity | apply (a_in _ _ _ _ A) | exact NS | exact IO | exact I].
Qed.
(** Results are between the smallest and the greatest pixel; so a constant image stays the same. *)
Theorem C114_range : forall f L ns ms x y0 y lo hi, accepted f L ns ms -> mode f = Linear ->
  has_size x (size (L ++ ns)) -> has_size y0 (size (L ++ ms)) -> itp_forward f (L ++ ns) (L ++ ms) x y0 = Some y ->
  forall l o, inside l L -> inside o ms ->
  (forall i, inside i ns -> lo <= qelem x (L ++ ns) (l ++ i) /\ qelem x (L ++ ns) (l ++ i) <= hi)%Qc ->
  (lo <= qelem y (L ++ ms) (l ++ o) /\ qelem y (L ++ ms) (l ++ o) <= hi)%Qc.
Proof.
  intros f L ns ms x y0 y lo hi A M HX HY E l o IL IO B. destruct (C114_linear_values f L ns ms x y0 A M HX HY) as (y' & E' & _ & V). rewrite E in E'. injection E' as <-. rewrite V by assumption.
  apply mean_range; [apply (a_in _ _ _ _ A) | apply (a_len _ _ _ _ A) | exact IO | exact B].
Qed.
Theorem C114_constant : forall f L ns ms x y0 y v, accepted f L ns ms -> mode f = Linear ->
  has_size x (size (L ++ ns)) -> has_size y0 (size (L ++ ms)) -> itp_forward f (L ++ ns) (L ++ ms) x y0 = Some y ->
  forall l o, inside l L -> inside o ms -> (forall i, inside i ns -> qelem x (L ++ ns) (l ++ i) = v) -> qelem y (L ++ ms) (l ++ o) = v.
Proof.
  intros f L ns ms x y0 y v A M HX HY E l o IL IO B. destruct (C114_range f L ns ms x y0 y v v A M HX HY E l o IL IO) as [B1 B2]; [| apply Qcle_antisym; assumption]. intros i I. rewrite (B i I). split; apply Qcle_refl.
Qed.
(** With align_corners, corners keep their values: [corner ns ms o p] says that [o] and [p] are
    the same corner of the output and the input. *)
Theorem C114_corners : forall f L ns ms x y0 y, accepted f L ns ms -> mode f = Linear -> align_corners f = true ->
  has_size x (size (L ++ ns)) -> has_size y0 (size (L ++ ms)) -> itp_forward f (L ++ ns) (L ++ ms) x y0 = Some y ->
  forall l o p, inside l L -> inside o ms -> corner ns ms o p -> qelem y (L ++ ms) (l ++ o) = qelem x (L ++ ns) (l ++ p).
Proof.
  intros f L ns ms x y0 y A M AC HX HY E l o p IL IO C. destruct (C114_linear_values f L ns ms x y0 A M HX HY) as (y' & E' & _ & V). rewrite E in E'. injection E' as <-. rewrite V by assumption. rewrite AC. cbn [rule_of].
  unfold interpolated. apply (point_value (used Corners) ns ms o p (fun i => qelem x (L ++ ns) (l ++ i))). apply corner_points; [apply (a_in _ _ _ _ A) | exact C].
Qed.
(** An image that keeps its size is not changed, in any mode. *)
Theorem C114_same_size : forall f L ns x y0 y, accepted f L ns ns -> has_size x (size (L ++ ns)) -> has_size y0 (size (L ++ ns)) ->
  itp_forward f (L ++ ns) (L ++ ns) x y0 = Some y -> forall l o, inside l L -> inside o ns -> qelem y (L ++ ns) (l ++ o) = qelem x (L ++ ns) (l ++ o).
Proof.
  intros f L ns x y0 y A HX HY E l o IL IO. destruct (forward_ok f L ns ns A x y0 (sized _ _ _ HX) (sized _ _ _ HY)) as (y' & E' & LY & V). rewrite E in E'. injection E' as <-.
  rewrite (elem_out L ns y) by assumption. rewrite V by (constructor; [apply off_bound; exact IL | exact IO]). unfold val_of. destruct (mode f) eqn:M.
  - rewrite (lin_elem f L ns ns) by assumption. apply (point_value _ ns ns o o (fun i => qelem x (L ++ ns) (l ++ i))). apply points_same. exact IO.
  - rewrite (near_elem f L ns ns A) by assumption. rewrite cuts_same by exact IO. reflexivity.
  - destruct (a_mode _ _ _ _ A M).
Qed.

Definition f_corner := args Linear [2; 3] true false false false.
Lemma f_corner_ok : accepted f_corner [2] [2; 2] [2; 3].
Proof. split; try (repeat constructor; lia); try reflexivity; try discriminate; cbn; lia. Qed.
Example C114_example : itp_forward f_corner [2; 2; 2] [2; 2; 3] (map q [0; 2; 4; 6; 1; 1; 1; 5]) (repeat 0%Qc 12)
  = Some (map q [0; 1; 2; 4; 5; 6; 1; 1; 1; 1; 3; 5]) /\ has_size (map q [0; 2; 4; 6; 1; 1; 1; 5]) (size ([2] ++ [2; 2])) /\ corner [2; 2] [2; 3] [1; 2] [1; 1].
Proof. split; [vm_compute; reflexivity |]. split; [reflexivity |]. cbn. lia. Qed.
(** The weights of a coordinate between pixels. *)
Example C114_example_half : accepted (args Linear [4] false true false false) [] [2] [4] /\ no_single Half_pixels [2] [4] /\
  itp_forward (args Linear [4] false true false false) [2] [4] (map q [0; 4]) (repeat 0%Qc 4) = Some (map q [0; 1; 3; 4]).
Proof. split; [split; try (repeat constructor; lia); try reflexivity; try discriminate; cbn; lia |]. split; [intros _; repeat constructor; lia | vm_compute; reflexivity]. Qed.
(** The same size. *)
Example C114_example_same : accepted (args Linear [3] false true false false) [2] [3] [3] /\
  itp_forward (args Linear [3] false true false false) [2; 3] [2; 3] (map q [5; 1; 2; 7; 0; 4]) (repeat 0%Qc 6) = Some (map q [5; 1; 2; 7; 0; 4]).
Proof. split; [split; try (repeat constructor; lia); try reflexivity; try discriminate; cbn; lia | vm_compute; reflexivity]. Qed.
(** Three axes. *)
Example C114_example_3d : accepted (args Linear [1; 2; 2] false false false false) [] [2; 2; 1] [1; 2; 2] /\
  itp_forward (args Linear [1; 2; 2] false false false false) [2; 2; 1] [1; 2; 2] (map q [1; 2; 3; 4]) (repeat 0%Qc 4) = Some (map q [1; 1; 2; 2]).
Proof. split; [split; try (repeat constructor; lia); try reflexivity; try discriminate; cbn; lia | vm_compute; reflexivity]. Qed.

(** Refuted: half_pixel with one place on an axis takes pixel 0, where the documented coordinate
    (0 + 0.5) * 3 / 1 - 0.5 = 1 is the middle. *)
Theorem C114_one_place_refuted : exists f ns ms x y0, accepted f [] ns ms /\ mode f = Linear /\ has_size x (size ns) /\ has_size y0 (size ms) /\
  exists y, itp_forward f ns ms x y0 = Some y /\ exists o, inside o ms /\ qelem y ms o <> interpolated (documented (rule_of (align_corners f) (half_pixel f))) [] ns ms x [] o.
Proof.
  exists (args Linear [1] false true false false), [3], [1], (map q [0; 10; 20]), [0%Qc]. split; [split; try (repeat constructor; lia); try reflexivity; try discriminate; cbn; lia |]. do 3 (split; [reflexivity |]).
  exists [q 0]. split; [vm_compute; reflexivity |]. exists [0]. split; [repeat constructor; lia |]. intros H. apply (f_equal this) in H. vm_compute in H. discriminate.
Qed.

(** * C115: nearest neighbours *)
(** Every element is that of the pixel whose number is the coordinate, cut down. *)
Theorem C115_nearest_values : forall f L ns ms x y0, accepted f L ns ms -> mode f = Nearest ->
  has_size x (size (L ++ ns)) -> has_size y0 (size (L ++ ms)) ->
  exists y, itp_forward f (L ++ ns) (L ++ ms) x y0 = Some y /\ has_size y (size (L ++ ms)) /\
  forall l o, inside l L -> inside o ms ->
    inside (cuts (nn_rule (align_corners f) (half_pixel f) (half_pixel_for_nn f)) ns ms o) ns /\
    qelem y (L ++ ms) (l ++ o) = qelem x (L ++ ns) (l ++ cuts (nn_rule (align_corners f) (half_pixel f) (half_pixel_for_nn f)) ns ms o).
Proof.
  intros f L ns ms x y0 A M HX HY. destruct (forward_ok f L ns ms A x y0 (sized _ _ _ HX) (sized _ _ _ HY)) as (y & E & LY & V). exists y. split; [exact E |]. split; [unfold has_size in *; lia |].
  intros l o IL IO. split; [apply cuts_in; [apply (a_flags _ _ _ _ A) | apply (a_in _ _ _ _ A) | apply (a_len _ _ _ _ A) | exact IO] |].
  rewrite (elem_out L ms) by assumption. rewrite V by (constructor; [apply off_bound; exact IL | exact IO]). unfold val_of. rewrite M. apply (near_elem f L ns ms A); assumption.
Qed.
(** With half_pixel_for_nn that is a pixel with the nearest centre, on every axis. *)
Theorem C115_old_is_nearest : forall f L ns ms x y0, accepted f L ns ms -> mode f = Nearest -> half_pixel_for_nn f = true ->
  has_size x (size (L ++ ns)) -> has_size y0 (size (L ++ ms)) ->
  exists y, itp_forward f (L ++ ns) (L ++ ms) x y0 = Some y /\
  forall l o, inside l L -> inside o ms -> exists p, qelem y (L ++ ms) (l ++ o) = qelem x (L ++ ns) (l ++ p) /\ length p = length ns /\
    forall k, (k < length ns)%nat -> nearest_pixel one_half (nth k ns 0) (documented_old (nth k ns 0) (nth k ms 0) (nth k o 0)) (nth k p 0).
Proof.
  intros f L ns ms x y0 A M NN HX HY. destruct (C115_nearest_values f L ns ms x y0 A M HX HY) as (y & E & _ & V). exists y. split; [exact E |]. intros l o IL IO. destruct (V l o IL IO) as [IC VE]. exists (cuts (nn_rule (align_corners f) (half_pixel f) (half_pixel_for_nn f)) ns ms o).
  split; [exact VE |]. split; [revert IC; clear; generalize (cuts (nn_rule (align_corners f) (half_pixel f) (half_pixel_for_nn f)) ns ms o); intros p J; induction J; cbn [length]; congruence |]. rewrite NN. clear V VE IC. pose proof (a_in _ _ _ _ A) as PN. pose proof (a_len _ _ _ _ A) as LE. clear A HX HY E IL. revert ms o PN LE IO. induction ns as [| n ns IH]; intros [| m ms] o PN LE IO k K; cbn [length] in K, LE; try lia; try discriminate.
  inversion IO; subst. inversion PN; subst. cbn [cuts]. destruct k as [| k]; cbn [nth].
  - unfold nn_rule. apply old_nearest; assumption.
  - apply IH; [assumption | lia | assumption | lia].
Qed.
Example C115_example : accepted (args Nearest [3] false false true false) [] [5] [3] /\
  itp_forward (args Nearest [3] false false true false) [5] [3] (map q [0; 1; 2; 3; 4]) (repeat 0%Qc 3) = Some (map q [0; 2; 4]) /\
  itp_forward (args Nearest [3] false false false false) [5] [3] (map q [0; 1; 2; 3; 4]) (repeat 0%Qc 3) = Some (map q [0; 1; 3]) /\
  itp_forward (args Nearest [2; 2] true false false false) [3; 2] [2; 2] (map q [0; 1; 2; 3; 4; 5]) (repeat 0%Qc 4) = Some (map q [0; 1; 4; 5]).
Proof. split; [split; try (repeat constructor; lia); try reflexivity; try discriminate; cbn; lia |]. repeat split; vm_compute; reflexivity. Qed.
(** Refuted: without half_pixel_for_nn, the pixel is not one nearest to the documented
    coordinate.  Place 1 of 3 on 5 pixels has coordinate 5/3: pixel 1 is taken, pixel 2 is nearer. *)
Lemma distance_sym a b : distance a b = distance b a.
Proof. unfold distance. destruct (Qclt_le_dec a b), (Qclt_le_dec b a); try reflexivity; [exfalso; qlra |]. assert (a = b) as -> by (apply Qcle_antisym; assumption). ring. Qed.
Theorem C115_nearest_refuted : exists f ns ms x y0, accepted f [] ns ms /\ mode f = Nearest /\ half_pixel_for_nn f = false /\ has_size x (size ns) /\ has_size y0 (size ms) /\
  exists y, itp_forward f ns ms x y0 = Some y /\ exists n m o, ns = [n] /\ ms = [m] /\ inside [o] ms /\
  forall p, inside [p] ns -> qelem y ms [o] = qelem x ns [p] -> ~ nearest_pixel 0 n (documented (rule_of (align_corners f) (half_pixel f)) n m o) p.
Proof.
  exists (args Nearest [3] false false false false), [5], [3], (map q [0; 1; 2; 3; 4]), (repeat 0%Qc 3). split; [split; try (repeat constructor; lia); try reflexivity; try discriminate; cbn; lia |]. do 4 (split; [reflexivity |]).
  exists (map q [0; 1; 3]). split; [vm_compute; reflexivity |]. exists 5, 3, 1. do 2 (split; [reflexivity |]). split; [repeat constructor; lia |]. intros p I E [B H]. assert (p = 1).
  { assert (p = 0 \/ p = 1 \/ p = 2 \/ p = 3 \/ p = 4) as C by lia. destruct C as [-> | [-> | [-> | [-> | ->]]]]; try reflexivity; exfalso; apply (f_equal this) in E; vm_compute in E; discriminate. }
  subst p. specialize (H 2 ltac:(lia)). cbn [args align_corners half_pixel rule_of documented] in H. unfold Qcle in H. vm_compute in H. apply H. reflexivity.
Qed.

(** * C116: the gradient *)
(** The gradient of the input is the transpose of the forward map applied to the gradient of the
    output, added to the previous one if accum.  Both modes; [u] is any change of the input. *)
Theorem C116_gradient : forall f L ns ms gy g y0, accepted f L ns ms -> has_size gy (size (L ++ ms)) -> has_size y0 (size (L ++ ms)) ->
  match g with Some (_, d0) => has_size d0 (size (L ++ ns)) | None => True end ->
  exists d, itp_backward f (L ++ ns) (L ++ ms) gy g = Some d /\ adjoint g d gy (fun u => itp_forward f (L ++ ns) (L ++ ms) u y0).
Proof.
  intros f L ns ms gy [[accum d0] |] y0 A HG HY HD.
  - destruct (backward_ok f L ns ms A accum gy d0 (sized _ _ _ HG) (sized _ _ _ HD)) as (d & E & LD & Q). exists (Some d). split; [exact E |]. split; [exact LD |]. intros u v LU F. rewrite Q. f_equal.
    apply (adjoint_ok f L ns ms A gy u v y0); [apply sized; exact HG | | apply sized; exact HY | exact F]. apply sized. unfold has_size in *. lia.
  - exists None. split; [| exact I]. unfold itp_backward. rewrite (a_first _ _ _ _ A). reflexivity.
Qed.
(** For every input there is a forward result, so the statement is not void. *)
Theorem C116_forward_total : forall f L ns ms u y0, accepted f L ns ms -> has_size u (size (L ++ ns)) -> has_size y0 (size (L ++ ms)) ->
  exists v, itp_forward f (L ++ ns) (L ++ ms) u y0 = Some v /\ has_size v (size (L ++ ms)).
Proof.
  intros f L ns ms u y0 A HU HY. destruct (forward_ok f L ns ms A u y0 (sized _ _ _ HU) (sized _ _ _ HY)) as (y & E & LY & _). exists y. split; [exact E | unfold has_size in *; lia].
Qed.
Example C116_example : itp_backward f_corner [2; 2; 2] [2; 2; 3] (map q [1; 2; 3; 0; 0; 0; 0; 2; 0; 0; 0; 5]) (Some (true, repeat 1%Qc 8))
  = Some (Some (map q [3; 5; 1; 1; 2; 2; 1; 6])) /\
  itp_backward (args Nearest [3] false false false false) [5] [3] (map q [1; 2; 3]) (Some (false, repeat 1%Qc 5)) = Some (Some (map q [1; 2; 0; 3; 0])).
Proof. split; vm_compute; reflexivity. Qed.
(** Without accum the previous gradient does not matter; with several layers of the same pixel the
    gradients add up. *)
Example C116_example_3d : itp_backward (args Linear [1; 1; 2] false false false false) [1; 1; 1] [1; 1; 2] (map q [3; 4]) (Some (false, [q 9])) = Some (Some [q 7]) /\
  itp_backward (args Nearest [1; 1; 2] false false false false) [1; 1; 1] [1; 1; 2] (map q [3; 4]) (Some (true, [q 9])) = Some (Some [q 16]).
Proof. split; vm_compute; reflexivity. Qed.

(** * C117: shapes *)
Lemma skipn_skipn {T} a : forall b (l : list T), skipn a (skipn b l) = skipn (a + b) l.
Proof. induction b as [| b IH]; intros l; [rewrite Nat.add_0_r; reflexivity |]. rewrite Nat.add_succ_r. destruct l; [rewrite !skipn_nil; reflexivity | apply IH]. Qed.
(** Exactly these arguments are accepted, and the output has these sizes. *)
Theorem C117_setup : forall f shape out, itp_setup f shape = Some out <->
  1 <= Z.of_nat (length (output_size f)) <= 3 /\ mode f <> Other_mode /\ ~ (align_corners f = true /\ half_pixel f = true) /\
  exists L ns T, shape = L ++ ns ++ T /\ out = L ++ output_size f ++ T /\ length ns = length (output_size f) /\ length T = (if channel_last f then 1 else 0)%nat.
Proof.
  intros f shape out. unfold itp_setup. set (ms := output_size f). cbv zeta. set (k := Z.of_nat (length ms)). split.
  - intros H. destruct (Z.leb_spec 1 k), (Z.leb_spec k 3); cbn [andb negb] in H; try discriminate. destruct (mode f) eqn:M; try discriminate.
    all: destruct (align_corners f) eqn:Ea, (half_pixel f) eqn:Eh; cbn [negb orb] in H; try discriminate.
    all: match type of H with context [if ?b then None else _] => destruct b eqn:B; [discriminate |]; apply Z.ltb_ge in B end; injection H as <-.
    all: split; [lia |]; split; [congruence |]; split; [intros [? ?]; congruence |].
    all: set (off := if channel_last f then Z.of_nat (length shape) - k - 1 else Z.of_nat (length shape) - k) in *.
    all: exists (firstn (Z.to_nat off) shape), (firstn (length ms) (skipn (Z.to_nat off) shape)), (skipn (Z.to_nat (off + k)) shape).
    all: assert (OB : (Z.to_nat off + length ms <= length shape)%nat) by (unfold off, k in *; destruct (channel_last f); lia).
    all: split; [| split; [reflexivity | split; [rewrite firstn_length, skipn_length; lia | rewrite skipn_length; unfold off, k in *; destruct (channel_last f); lia]]].
    all: replace (Z.to_nat (off + k)) with (length ms + Z.to_nat off)%nat by (unfold k in *; lia); rewrite <- skipn_skipn, firstn_skipn; symmetry; apply firstn_skipn.
  - intros (K & M & FL & L & ns & T & -> & -> & LE & LT). destruct (Z.leb_spec 1 k); [| lia]. destruct (Z.leb_spec k 3); [| lia]. cbn [andb negb].
    assert (LL : Z.of_nat (length (L ++ ns ++ T)) = Z.of_nat (length L) + k + Z.of_nat (length T)) by (rewrite !app_length; unfold k; lia).
    assert (OFF : (if channel_last f then Z.of_nat (length (L ++ ns ++ T)) - k - 1 else Z.of_nat (length (L ++ ns ++ T)) - k) = Z.of_nat (length L)) by (rewrite LL, LT; destruct (channel_last f); lia).
    rewrite OFF. assert (G : (if Z.of_nat (length L) <? 0 then None else Some (firstn (Z.to_nat (Z.of_nat (length L))) (L ++ ns ++ T) ++ ms ++ skipn (Z.to_nat (Z.of_nat (length L) + k)) (L ++ ns ++ T))) = Some (L ++ ms ++ T)).
    { destruct (Z.ltb_spec (Z.of_nat (length L)) 0); [lia |]. f_equal. rewrite Nat2Z.id, firstn_app, Nat.sub_diag, firstn_all. cbn [firstn]. rewrite app_nil_r. f_equal. f_equal.
      replace (Z.to_nat (Z.of_nat (length L) + k)) with (length L + length ns)%nat by (unfold k; lia). rewrite app_assoc, <- app_length, skipn_app, Nat.sub_diag, skipn_all. reflexivity. }
    destruct (mode f); [| | congruence]; destruct (align_corners f), (half_pixel f); cbn [negb orb]; try exact G; destruct FL; auto.
Qed.
(** F.interpolate: with scale, the size of an axis is the scale times its old size, cut down;
    output_size goes first; one of them is needed. *)
Theorem C117_scale : forall L ns T scale (cl : bool), length ns = length scale -> length T = (if cl then 1 else 0)%nat ->
  exists ms, f_interpolate_size (L ++ ns ++ T) (Some scale) None cl = Some ms /\ length ms = length ns /\
  forall k, (k < length ns)%nat -> (whole_number (nth k ms 0%Z) <= nth k scale 0 * whole_number (nth k ns 0%Z) /\ nth k scale 0 * whole_number (nth k ns 0%Z) < whole_number (nth k ms 0%Z) + 1)%Qc.
Proof.
  intros L ns T scale cl LE LT. assert (LA : last_axes (L ++ ns ++ T) (length scale) cl = ns).
  { unfold last_axes. assert (SK : skipn (length L) (L ++ ns ++ T) = ns ++ T) by (rewrite skipn_app, Nat.sub_diag, skipn_all; reflexivity). destruct cl.
    - replace (length (L ++ ns ++ T) - length scale - 1)%nat with (length L) by (rewrite !app_length; lia). rewrite SK. destruct T as [| t [| ? ?]]; try discriminate. apply removelast_last.
    - replace (length (L ++ ns ++ T) - length scale)%nat with (length L) by (rewrite !app_length; lia). rewrite SK. destruct T; [apply app_nil_r | discriminate]. }
  unfold f_interpolate_size. rewrite LA. eexists. split; [reflexivity |]. split; [rewrite map_length, combine_length, LE, Nat.min_id; reflexivity |]. intros k K.
  set (F := fun '(d, s) => Qfloor (s * of_Z d)%Qc).
  assert (E : nth k (map F (combine ns scale)) 0 = Qfloor (this (nth k scale 0 * whole_number (nth k ns 0%Z))%Qc)).
  { rewrite (nth_indep _ 0 (F (0, 0%Qc))) by (rewrite map_length, combine_length; lia). rewrite map_nth, combine_nth by exact LE. reflexivity. }
  rewrite E. apply floor_ok.
Qed.
Theorem C117_size_first : forall shape scale ms cl, f_interpolate_size shape scale (Some ms) cl = Some ms.
Proof. intros shape [scale |] ms cl; reflexivity. Qed.
Theorem C117_needs_one : forall shape cl, f_interpolate_size shape None None cl = None.
Proof. reflexivity. Qed.
Example C117_example : itp_setup (args Linear [6; 7] false false false false) [8; 3; 4; 5] = Some [8; 3; 6; 7] /\
  itp_setup (args Nearest [6; 7] false false false true) [8; 4; 5; 3] = Some [8; 6; 7; 3] /\
  itp_setup (args Linear [6; 7] false false false false) [5] = None /\ itp_setup (args Linear [6] true true false false) [5] = None /\
  f_interpolate_size [8; 3; 4; 5] (Some [Q2Qc (3 # 2); Q2Qc (1 # 2)]) None false = Some [6; 2].
Proof. repeat split; vm_compute; reflexivity. Qed.
(** Refuted: setup accepts channel_last, which neither pass supports (on the CPU), and empty
    axes, for which both passes divide by zero even if no element is to be computed. *)
Theorem C117_accepted_but_fails_refuted :
  (forall f ishape oshape x y0 gy g, channel_last f = true -> itp_forward f ishape oshape x y0 = None /\ itp_backward f ishape oshape gy g = None) /\
  (exists f, itp_setup f [2; 3; 4] = Some [2; 6; 4] /\ channel_last f = true) /\
  exists f, itp_setup f [2; 0] = Some [2; 0] /\ itp_forward f [2; 0] [2; 0] [] [] = None.
Proof.
  split; [intros f ishape oshape x y0 gy g H; unfold itp_forward, itp_backward; rewrite H; split; reflexivity |]. split.
  - exists (args Linear [6] false false false true). split; reflexivity.
  - exists (args Linear [0] false false false false). split; vm_compute; reflexivity.
Qed.
Print Assumptions C114_documented.
Print Assumptions C114_range.
Print Assumptions C114_corners.
Print Assumptions C114_same_size.
Print Assumptions C115_old_is_nearest.
Print Assumptions C116_gradient.
Print Assumptions C117_setup.
Print Assumptions C117_scale.
