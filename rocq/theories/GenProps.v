(** Tile (C101), Trilu and EyeLike (C102), Meshgrid (C103), Linspace and Arange (C104), Shape and
    BitShift (C105). *)
From Coq Require Import List ZArith Lia Bool QArith Qcanon SpecFloat.
From Verif Require Import NdSpec NdModel NdProofs IdxModel IdxProofs6 JoinSpec JoinModel ScanSpec ScanModel ScanProofs1 ReduceSpec ReduceModel ReduceProofs4 ReduceProofs5 ConvSpec ConvModel MatSpec MatModel BinSpec BinModel BfaModel BfaSpec BfaProofs1 GenModel GenSpec GenProofs2 GenProofs3 GenProofs4 GenProofs5 GenProofs6.
From Verif Require MatProps.
Import ListNotations.
Local Open Scope list_scope.
Local Open Scope Z_scope.

Definition qs (l : list Z) : list Qc := map (fun z => Q2Qc (inject_Z z)) l.
Definition shown (r : option nd) : option (list Z * list Q) := option_map (fun y => (fst y, map this (snd y))) r.
Definition shown_data (r : option (list Qc)) : option (list Q) := option_map (map this) r.

(** * Tile *)

(** Partial: rational numbers instead of floats here and below, and the output has less than
    2^31 elements.  With ones in front of the shorter one of the shape and the repetitions, the
    output has as many copies along each axis as given. *)
Theorem C101_values_partial : forall junk new reps shape x, Forall (fun n => 0 < n) shape -> Forall (fun r => 1 <= r) reps -> shape <> [] \/ reps <> [] -> has_size x (size shape) ->
  let n := axes_of shape reps in let s := lengthened n shape in let o := times s (lengthened n reps) in size o < 2147483648 ->
  exists y, tile junk new reps (shape, x) = Some (o, y) /\ has_size y (size o) /\ forall c, inside c o -> inside (folded c s) s /\ qelem y o c = qelem x s (folded c s).
Proof.
  intros junk new reps shape x PS UR NE L n s o SO. assert (NZ : (0 < axes_of shape reps)%nat) by (unfold axes_of; destruct shape, reps; cbn [length]; destruct NE; try congruence; lia).
  destruct (tile_ok junk reps shape PS UR NZ SO new x L) as (y & E & LY & V). exists y. split; [exact E |]. split; [exact LY |]. intros c I. split; [| apply V; exact I].
  apply (folded_inside c s (lengthened n reps)); [apply sr_length; assumption | apply lengthened_positive; exact PS | exact I].
Qed.
Example C101_values_works : shown (tile 9 0%Qc [2; 1; 2] ([2; 2], qs [1; 2; 3; 4])) = Some ([2; 2; 4], [1; 2; 1; 2; 3; 4; 3; 4; 1; 2; 1; 2; 3; 4; 3; 4]%Q) /\
  shown (tile 9 0%Qc [2] ([2; 2], qs [1; 2; 3; 4])) = Some ([2; 4], [1; 2; 1; 2; 3; 4; 3; 4]%Q) /\ shown (tile 9 0%Qc [3; 1] ([2; 1], qs [1; 2])) = Some ([6; 1], [1; 2; 1; 2; 1; 2]%Q).
Proof. repeat split; vm_compute; reflexivity. Qed.
(** The gradient of an element is the sum over its copies. *)
Theorem C101_gradient_partial : forall junk reps shape (accum : bool) dy dx, Forall (fun n => 0 < n) shape -> Forall (fun r => 1 <= r) reps -> shape <> [] \/ reps <> [] -> 
  let n := axes_of shape reps in let s := lengthened n shape in let o := times s (lengthened n reps) in size o < 2147483648 -> has_size dy (size o) -> has_size dx (size shape) ->
  exists d, tile_backward junk reps shape accum dy dx = Some d /\ has_size d (size shape) /\
  forall a, inside a s -> qelem d s a = ((if accum then qelem dx s a else 0) + total (copies s o a) (qelem dy o))%Qc.
Proof.
  intros junk reps shape accum dy dx PS UR NE n s o SO LY LX. assert (NZ : (0 < axes_of shape reps)%nat) by (unfold axes_of; destruct shape, reps; cbn [length]; destruct NE; try congruence; lia).
  exact (tile_backward_ok junk reps shape PS UR NZ SO accum dy dx LY LX).
Qed.
Example C101_gradient_works : shown_data (tile_backward 9 [2; 2] [2] true (qs [1; 2; 3; 4; 5; 6; 7; 8]) (qs [100; 200])) = Some [116; 220]%Q /\
  shown_data (tile_backward 9 [2; 2] [2] false (qs [1; 2; 3; 4; 5; 6; 7; 8]) (qs [100; 200])) = Some [16; 20]%Q.
Proof. split; vm_compute; reflexivity. Qed.
(** A number of repetitions below one is an error. *)
Theorem C101_errors : forall junk new reps x, Exists (fun r => r < 1) reps -> tile junk new reps x = None.
Proof. exact tile_wrong. Qed.
Example C101_errors_works : tile 0 0%Qc [1; 0] ([1], [1%Qc]) = None /\ tile 0 0%Qc [1; 1] ([1], [1%Qc]) <> None.
Proof. split; vm_compute; [reflexivity | discriminate]. Qed.
(** Arrays without elements are not repeated: the map of indices is written outside of its
    bounds. *)
Definition C101_empty_statement : Prop := forall junk new reps shape x, Forall (fun n => 0 <= n) shape -> Forall (fun r => 1 <= r) reps -> shape <> [] \/ reps <> [] -> has_size x (size shape) ->
  let n := axes_of shape reps in let s := lengthened n shape in let o := times s (lengthened n reps) in size o < 2147483648 -> exists y, tile junk new reps (shape, x) = Some (o, y).
Theorem C101_empty_refuted : ~ C101_empty_statement.
Proof.
  intros H. destruct (H 0 0%Qc [2] [0; 3] [] ltac:(repeat constructor; lia) ltac:(repeat constructor; lia) ltac:(left; discriminate) eq_refl ltac:(reflexivity)) as (y & E). vm_compute in E. discriminate.
Qed.
(** A scalar cannot be repeated along no axis: an assertion of ndi::increment fails. *)
Definition C101_scalar_statement : Prop := forall junk new x, exists y, tile junk new [] ([], [x]) = Some ([], y).
Theorem C101_scalar_refuted : ~ C101_scalar_statement.
Proof. intros H. destruct (H 0 0%Qc 1%Qc) as (y & E). vm_compute in E. discriminate. Qed.

(** * Trilu and EyeLike *)

(** Of each matrix, the entries on one side of diagonal number k are kept, the others become
    zero. *)
Theorem C102_trilu_partial : forall junk k upper A rows cols x, Forall (fun n => 0 <= n) A -> 0 < rows -> 0 < cols -> let sh := A ++ [rows; cols] in has_size x (size sh) ->
  exists y, trilu junk k upper (sh, x) = Some (sh, y) /\ has_size y (size sh) /\
  forall b i j, inside b A -> 0 <= i < rows -> 0 <= j < cols ->
    (kept_part upper k i j -> qelem y sh (b ++ [i; j]) = qelem x sh (b ++ [i; j])) /\ (~ kept_part upper k i j -> qelem y sh (b ++ [i; j]) = 0%Qc).
Proof.
  intros junk k upper A rows cols x PA HR HC sh L. destruct (trilu_ok A rows cols PA HR HC junk k upper x L) as (y & E & LY & V). exists y. split; [exact E |]. split; [exact LY |].
  intros b i j Ib Hi Hj. unfold sh. rewrite (V b i j Ib Hi Hj). unfold weight. pose proof (retained_kept upper k i j) as RK. split; intros K.
  - rewrite (proj2 RK K). ring.
  - destruct (retained upper k i j); [destruct K; apply RK; reflexivity | ring].
Qed.
Example C102_trilu_works : shown (trilu (Q2Qc 9) 1 true ([2; 3], qs [1; 2; 3; 4; 5; 6])) = Some ([2; 3], [0; 2; 3; 0; 0; 6]%Q) /\ shown (trilu (Q2Qc 9) (-1) true ([3; 2], qs [1; 2; 3; 4; 5; 6])) = Some ([3; 2], [1; 2; 3; 4; 0; 6]%Q) /\
  shown (trilu (Q2Qc 9) 0 false ([2; 2; 2], qs [1; 2; 3; 4; 5; 6; 7; 8])) = Some ([2; 2; 2], [1; 0; 3; 4; 5; 0; 7; 8]%Q).
Proof. repeat split; vm_compute; reflexivity. Qed.
Theorem C102_trilu_gradient_partial : forall junk k upper A rows cols (accum : bool) dy dx, Forall (fun n => 0 <= n) A -> 0 < rows -> 0 < cols -> let sh := A ++ [rows; cols] in has_size dy (size sh) -> has_size dx (size sh) ->
  exists d, trilu_backward junk k upper sh accum dy dx = Some d /\ has_size d (size sh) /\
  forall b i j, inside b A -> 0 <= i < rows -> 0 <= j < cols -> let old := if accum then qelem dx sh (b ++ [i; j]) else 0%Qc in
    (kept_part upper k i j -> qelem d sh (b ++ [i; j]) = (old + qelem dy sh (b ++ [i; j]))%Qc) /\ (~ kept_part upper k i j -> qelem d sh (b ++ [i; j]) = old).
Proof.
  intros junk k upper A rows cols accum dy dx PA HR HC sh L1 L2. destruct (trilu_backward_ok A rows cols PA HR HC junk k upper accum dy dx L1 L2) as (d & E & LD & V). exists d. split; [exact E |]. split; [exact LD |].
  intros b i j Ib Hi Hj old. unfold sh. rewrite (V b i j Ib Hi Hj). unfold old, sh, weight. pose proof (retained_kept upper k i j) as RK. split; intros K.
  - rewrite (proj2 RK K). ring.
  - destruct (retained upper k i j); [destruct K; apply RK; reflexivity | ring].
Qed.
Example C102_trilu_gradient_works : shown_data (trilu_backward (Q2Qc 9) 1 true [2; 3] true (qs [1; 2; 3; 4; 5; 6]) (qs [10; 20; 30; 40; 50; 60])) = Some [10; 22; 33; 40; 50; 66]%Q /\
  shown_data (trilu_backward (Q2Qc 9) 1 true [2; 3] false (qs [1; 2; 3; 4; 5; 6]) (qs [10; 20; 30; 40; 50; 60])) = Some [0; 2; 3; 0; 0; 6]%Q.
Proof. split; vm_compute; reflexivity. Qed.
(** Ones on diagonal number k, zeros elsewhere; not for other numbers of axes than two. *)
Theorem C102_eye : forall k rows cols, 0 <= rows -> 0 <= cols ->
  exists y, eye_like k [rows; cols] = Some ([rows; cols], y) /\ has_size y (size [rows; cols]) /\
  forall i j, 0 <= i < rows -> 0 <= j < cols -> qelem y [rows; cols] [i; j] = if j =? i + k then 1%Qc else 0%Qc.
Proof. exact eye_like_ok. Qed.
Theorem C102_eye_errors : forall k shape, length shape <> 2%nat -> eye_like k shape = None.
Proof. intros k [| a [| b [| c shape]]] L; try reflexivity. destruct L. reflexivity. Qed.
Example C102_eye_works : shown (eye_like 1 [2; 3]) = Some ([2; 3], [0; 1; 0; 0; 0; 1]%Q) /\ shown (eye_like (-1) [3; 2]) = Some ([3; 2], [0; 0; 1; 0; 0; 1]%Q) /\ shown (eye_like 5 [2; 2]) = Some ([2; 2], [0; 0; 0; 0]%Q) /\
  shown (eye_like (-2) [2; 2]) = Some ([2; 2], [0; 0; 0; 0]%Q) /\ eye_like 0 [2] = None.
Proof. repeat split; vm_compute; reflexivity. Qed.
(** Trilu does not check its input: an array with one axis is read outside of its shape, and a
    matrix without elements leads to a division by zero. *)
Definition C102_shapes_statement : Prop := forall junk k upper sh x, Forall (fun n => 0 <= n) sh -> has_size x (size sh) -> exists y, trilu junk k upper (sh, x) = Some y.
Theorem C102_vector_refuted : ~ C102_shapes_statement.
Proof. intros H. destruct (H 0%Qc 0 true [2] [0%Qc; 0%Qc] ltac:(repeat constructor; lia) eq_refl) as (y & E). vm_compute in E. discriminate. Qed.
Theorem C102_empty_refuted : ~ forall junk k upper sh x, (2 <= length sh)%nat -> Forall (fun n => 0 <= n) sh -> has_size x (size sh) -> exists y, trilu junk k upper (sh, x) = Some y.
Proof. intros H. destruct (H 0%Qc 0 true [0; 2] [] ltac:(cbn; lia) ltac:(repeat constructor; lia) eq_refl) as (y & E). vm_compute in E. discriminate. Qed.

(** * Meshgrid *)

(** Output i holds, at each place of the grid, the element of input i for the coordinate of its own
    axis. Partial: at most eight inputs, the limit of Broadcast. *)
Theorem C103_values_partial : forall junk ij xs, (length xs <= 8)%nat -> let C := grid ij (map (fun x => Z.of_nat (length x)) xs) in
  exists ys, meshgrid junk ij (map (fun x => ([Z.of_nat (length x)], x)) xs) = Some (map (fun y => (C, y)) ys) /\ length ys = length xs /\
  forall i, (i < length xs)%nat -> has_size (nth i ys []) (size C) /\ forall c, inside c C -> qelem (nth i ys []) C c = nth (Z.to_nat (nth (own_axis ij (length xs) i) c 0)) (nth i xs []) 0%Qc.
Proof. exact meshgrid_ok. Qed.
Definition shown_all (r : option (list nd)) : option (list (list Z * list Q)) := option_map (map (fun y => (fst y, map this (snd y)))) r.
Example C103_values_works : shown_all (meshgrid (Q2Qc 9) true (map axis_of [qs [1; 2]; qs [3; 4; 5]])) = Some [([2; 3], [1; 1; 1; 2; 2; 2]%Q); ([2; 3], [3; 4; 5; 3; 4; 5]%Q)] /\
  shown_all (meshgrid (Q2Qc 9) false (map axis_of [qs [1; 2]; qs [3; 4; 5]])) = Some [([3; 2], [1; 2; 1; 2; 1; 2]%Q); ([3; 2], [3; 3; 4; 4; 5; 5]%Q)] /\
  shown_all (meshgrid (Q2Qc 9) false (map axis_of [qs [1; 2]; qs [3]; qs [6; 7]])) = Some [([1; 2; 2], [1; 1; 2; 2]%Q); ([1; 2; 2], [3; 3; 3; 3]%Q); ([1; 2; 2], [6; 7; 6; 7]%Q)] /\
  shown_all (meshgrid (Q2Qc 9) false (map axis_of [qs [1; 2]])) = Some [([2], [1; 2]%Q)].
Proof. repeat split; vm_compute; reflexivity. Qed.
(** Inputs must have one axis. *)
Lemma mesh_out_bad ij n shapes : forall i out, Exists (fun s => length s <> 1%nat) shapes -> mesh_out ij n i shapes out = None.
Proof.
  induction shapes as [| s shapes IH]; intros i out H; inversion H as [? ? H' | ? ? H']; subst; cbn [mesh_out].
  - destruct s as [| m [| m' s]]; try reflexivity. destruct H'. reflexivity.
  - destruct s as [| m [| m' s]]; try reflexivity. apply IH. exact H'.
Qed.
Theorem C103_errors : forall junk ij xs, Exists (fun x => length (fst x) <> 1%nat) xs -> meshgrid junk ij xs = None.
Proof. intros junk ij xs H. unfold meshgrid, mesh_shape. rewrite mesh_out_bad; [reflexivity |]. apply Exists_exists in H as (x & I & H). apply Exists_exists. exists (fst x). split; [apply in_map; exact I | exact H]. Qed.
Example C103_errors_works : meshgrid 0%Qc true [([1], [1%Qc]); ([1; 1], [1%Qc])] = None /\ meshgrid 0%Qc true [([1], [1%Qc]); ([1], [1%Qc])] <> None.
Proof. split; vm_compute; [reflexivity | discriminate]. Qed.
(** Gradients are sums over the places with the coordinate.  Partial: one of the first two inputs
    has to want its gradient, and with one input, that one; the other cases are refuted below. *)
Theorem C103_gradient_partial : forall ij dys dxs, (length dxs <= 8)%nat -> length dys = length dxs ->
  let C := grid ij (map (fun d => Z.of_nat (length (snd d))) dxs) in Forall (fun dy => has_size dy (size C)) dys ->
  (exists i, (i < 2)%nat /\ (i < length dxs)%nat /\ fst (fst (nth i dxs (false, false, []))) = true) ->
  exists ds, meshgrid_backward ij dys dxs = Some ds /\ length ds = length dxs /\
  forall i, (i < length dxs)%nat -> let '(want, accum, dx) := nth i dxs (false, false, []) in
    if want : bool then length (nth i ds []) = length dx /\ forall j, (j < length dx)%nat ->
      nth j (nth i ds []) 0%Qc = ((if accum then nth j dx 0 else 0) + total (slab C (own_axis ij (length dxs) i) (Z.of_nat j)) (qelem (nth i dys []) C))%Qc
    else nth i ds [] = dx.
Proof.
  intros ij dys dxs N LY C FD (w & W2 & WL & W). unfold meshgrid_backward.
  replace (map (fun d : bool * bool * list Qc => [Z.of_nat (length (snd d))]) dxs) with (map (fun m => [m]) (map (fun d : bool * bool * list Qc => Z.of_nat (length (snd d))) dxs)) by (rewrite map_map; reflexivity).
  rewrite mesh_shape_ok. cbn [obind]. fold C. rewrite (nth_error_nth' dxs (false, false, [])) by lia. cbn [obind].
  assert (SOME : (if fst (fst (nth 0 dxs (false, false, []))) then Some true else obind (nth_error dxs 1) (fun d1 => Some (fst (fst d1)))) = Some true).
  { destruct (fst (fst (nth 0 dxs (false, false, [])))) eqn:F0; [reflexivity |]. assert (w = 1)%nat by (destruct w as [| [| w]]; [congruence | reflexivity | lia]). subst w. rewrite (nth_error_nth' dxs (false, false, [])) by lia. cbn [obind]. rewrite W. reflexivity. }
  rewrite SOME. cbn [obind].
  destruct (mesh_back_ok ij (length dxs) C dys dxs 0) as (ds & E & L & V); auto.
  - unfold C. rewrite grid_length, map_length. reflexivity.
  - apply grid_sizes. apply Forall_forall. intros m H. apply in_map_iff in H as (d & <- & _). lia.
  - intros k Hk. cbn [Nat.add]. unfold C. rewrite <- (map_length (fun d : bool * bool * list Qc => Z.of_nat (length (snd d))) dxs) at 1. rewrite grid_nth by (rewrite map_length; exact Hk).
    exact (map_nth (fun d : bool * bool * list Qc => Z.of_nat (length (snd d))) dxs (false, false, []) k).
  - exists ds. split; [exact E |]. split; [exact L |]. intros i Hi. specialize (V i Hi). destruct (nth i dxs (false, false, [])) as ((want, accum), dx). destruct want; [| exact V]. destruct V as (V1 & V2). split; [exact V1 |].
    intros j Hj. specialize (V2 (Z.of_nat j) ltac:(lia)). unfold qat in V2. rewrite Nat2Z.id in V2. exact V2.
Qed.
Definition shown_lists (r : option (list (list Qc))) : option (list (list Q)) := option_map (map (map this)) r.
Example C103_gradient_works : shown_lists (meshgrid_backward true [qs [1; 2; 3; 4; 5; 6]; qs [1; 2; 3; 4; 5; 6]] [(true, true, qs [10; 20]); (true, false, qs [7; 7; 7])]) = Some [[16; 35]; [5; 7; 9]]%Q /\
  shown_lists (meshgrid_backward false [qs [1; 2; 3; 4; 5; 6]; qs [1; 2; 3; 4; 5; 6]] [(true, true, qs [10; 20]); (false, false, qs [7; 7; 7])]) = Some [[19; 32]; [7; 7; 7]]%Q.
Proof. split; vm_compute; reflexivity. Qed.
(** If neither of the first two inputs wants its gradient, others do not get theirs. *)
Definition C103_later_statement : Prop := forall ij dys dxs, (length dxs <= 8)%nat -> length dys = length dxs ->
  let C := grid ij (map (fun d => Z.of_nat (length (snd d))) dxs) in Forall (fun dy => has_size dy (size C)) dys ->
  forall ds, meshgrid_backward ij dys dxs = Some ds -> forall i, (i < length dxs)%nat -> let '(want, accum, dx) := nth i dxs (false, false, []) in
    want = true -> forall j, (j < length dx)%nat -> nth j (nth i ds []) 0%Qc = ((if accum : bool then nth j dx 0 else 0) + total (slab C (own_axis ij (length dxs) i) (Z.of_nat j)) (qelem (nth i dys []) C))%Qc.
Theorem C103_later_refuted : ~ C103_later_statement.
Proof.
  intros H. specialize (H true [[1%Qc; 1%Qc]; [1%Qc; 1%Qc]; [1%Qc; 1%Qc]] [(false, false, [0%Qc]); (false, false, [0%Qc]); (true, false, [0%Qc; 0%Qc])] ltac:(cbn; lia) eq_refl ltac:(repeat constructor) _ eq_refl 2%nat ltac:(cbn; lia) eq_refl 0%nat ltac:(cbn; lia)).
  apply (f_equal this) in H. vm_compute in H. discriminate.
Qed.
(** With one input that does not want its gradient, propagate_down[1] is read. *)
Definition C103_single_statement : Prop := forall ij dy dx, length dy = length dx -> meshgrid_backward ij [dy] [(false, false, dx)] = Some [dx].
Theorem C103_single_refuted : ~ C103_single_statement.
Proof. intros H. specialize (H true [1%Qc] [1%Qc] eq_refl). vm_compute in H. discriminate. Qed.

(** * Linspace and Arange *)

(** From two numbers on, the first is start, the last is stop, and all steps are equal. *)
Lemma elem_1 y num i : qelem y [num] [i] = nth (Z.to_nat i) y 0%Qc.
Proof. unfold qelem. cbn [position]. f_equal. Qed.
Lemma of_Z_apart r : 0 < r -> of_Z r <> 0%Qc.
Proof. intros H C. apply (f_equal to_Z) in C. rewrite of_Z_floor in C. vm_compute in C. lia. Qed.
Theorem C104_linspace_partial : forall junk start stop num, 2 <= num ->
  exists y, linspace junk start stop num = Some ([num], y) /\ has_size y num /\ qelem y [num] [0] = start /\ qelem y [num] [num - 1] = stop /\
  exists step, forall i, 0 <= i < num - 1 -> qelem y [num] [i + 1] = (qelem y [num] [i] + step)%Qc.
Proof.
  intros junk start stop num H. destruct (linspace_ok junk start stop num ltac:(lia)) as (y & E & L & V). destruct (Z.ltb_spec 1 num); [| lia]. exists y. split; [exact E |]. split; [exact L |].
  assert (V' : forall i, 0 <= i < num -> qelem y [num] [i] = (start + (stop - start) / of_Z (num - 1) * of_Z i)%Qc) by (intros i Hi; rewrite elem_1; apply V; exact Hi).
  split; [rewrite V' by lia; change (of_Z 0) with 0%Qc; ring |]. split; [rewrite V' by lia; field; apply of_Z_apart; lia |].
  exists ((stop - start) / of_Z (num - 1))%Qc. intros i Hi. rewrite !V' by lia. rewrite of_Z_plus. change (of_Z 1) with 1%Qc. ring.
Qed.
Theorem C104_linspace_one : forall junk start stop, linspace junk start stop 1 = Some ([1], [start]).
Proof.
  intros junk start stop. destruct (linspace_ok junk start stop 1 ltac:(lia)) as (y & E & L & V). rewrite E. unfold has_size in L. destruct y as [| v [| w y]]; cbn [length] in L; [lia | | lia].
  specialize (V 0 ltac:(lia)). unfold qat in V. change (1 <? 1) with false in V. cbn [Z.to_nat nth] in V. rewrite V. do 3 f_equal. ring.
Qed.
Theorem C104_linspace_errors : forall junk start stop num, num < 0 -> linspace junk start stop num = None.
Proof. intros junk start stop num H. unfold linspace. destruct (Z.ltb_spec num 0); [reflexivity | lia]. Qed.
Example C104_linspace_works : shown (linspace (Q2Qc 9) (Q2Qc 1) (Q2Qc 2) 5) = Some ([5], [1; 5 # 4; 3 # 2; 7 # 4; 2]%Q) /\ shown (linspace (Q2Qc 9) (Q2Qc 1) (Q2Qc 2) 0) = Some ([0], []) /\
  shown (linspace (Q2Qc 9) (Q2Qc 1) (Q2Qc (-1)) 2) = Some ([2], [1; -1]%Q).
Proof. repeat split; vm_compute; reflexivity. Qed.

(** The numbers start + i * step that come before stop, in order. *)
Theorem C104_arange_partial : forall start stop step, step <> 0%Qc ->
  exists fuel0, forall fuel junk, (fuel0 <= fuel)%nat -> exists y, arange_q fuel junk start stop step = Some y /\
  (forall i, (i < length y)%nat -> let v := (start + Q2Qc (inject_Z (Z.of_nat i)) * step)%Qc in nth i y 0%Qc = v /\ (0 < step -> v < stop)%Qc /\ (step < 0 -> stop < v)%Qc) /\
  let v := (start + Q2Qc (inject_Z (Z.of_nat (length y))) * step)%Qc in (0 < step -> stop <= v)%Qc /\ (step < 0 -> v <= stop)%Qc.
Proof.
  intros start stop step NZ. destruct (arange_q_ok start stop step NZ) as (f0 & H). exists f0. intros fuel junk F. destruct (H fuel junk F) as (y & E & V & Q). exists y. split; [exact E |].
  assert (B1 : (0 < step)%Qc -> less step 0 = false) by (intros P; apply less_f; apply Qclt_le_weak; exact P). assert (B2 : (step < 0)%Qc -> less step 0 = true) by (intros P; apply less_t; exact P).
  split.
  - intros i Hi v. destruct (V i Hi) as (V1 & V2). split; [exact V1 |]. unfold before_stop in V2. split; intros P; [rewrite (B1 P) in V2 | rewrite (B2 P) in V2]; apply less_t in V2; exact V2.
  - intros v. unfold before_stop in Q. split; intros P; [rewrite (B1 P) in Q | rewrite (B2 P) in Q]; apply less_f in Q; exact Q.
Qed.
Theorem C104_arange_errors : forall fuel junk start stop, arange_q fuel junk start stop 0%Qc = None.
Proof. intros. apply arange_zero; reflexivity. Qed.
Example C104_arange_works : shown_data (arange_q 9 (Q2Qc 9) (Q2Qc 1) (Q2Qc 2) (Q2Qc (1 # 3))) = Some [1; 4 # 3; 5 # 3]%Q /\ shown_data (arange_q 9 (Q2Qc 9) (Q2Qc 1) (Q2Qc (-1)) (Q2Qc (-1))) = Some [1; 0]%Q /\
  shown_data (arange_q 9 (Q2Qc 9) (Q2Qc 1) (Q2Qc 0) (Q2Qc 1)) = Some [].
Proof. repeat split; vm_compute; reflexivity. Qed.
(** With floats, it does not always end: 16777216 + 1 is rounded to 16777216. *)
Definition float (m : BinNums.positive) (e : Z) : spec_float := S754_finite false m e.
Definition C104_ends_statement : Prop := forall start stop step, SFltb (S754_zero false) step = true -> exists fuel y, arange_f fuel (S754_zero false) start stop step = Some y.
Theorem C104_ends_refuted : ~ C104_ends_statement.
Proof.
  intros H. destruct (H (float 8388608 1) (float 8388609 1) (float 8388608 (-23)) eq_refl) as (fuel & y & E). revert E. unfold arange_f, arange.
  change (SFltb (float 8388608 (-23)) (S754_zero false)) with false. change (SFltb (S754_zero false) (float 8388608 (-23))) with true. cbn [negb andb].
  rewrite count_stuck; [discriminate | vm_compute; reflexivity | reflexivity].
Qed.
(** Rounding errors of the running value add up: from 0 to 2.4 in steps of 0.3, as floats, there are
    nine numbers, although eight steps are exactly the stop. *)
Definition exact (m : BinNums.positive) (e : Z) : Qc := Q2Qc (if e <? 0 then Z.pos m # (2 ^ Z.to_pos (- e)) else inject_Z (Z.pos m * 2 ^ e)).
Definition C104_rounding_statement : Prop := forall m e m' e' fuel y z,
  arange_f fuel (S754_zero false) (S754_zero false) (float m e) (float m' e') = Some y -> arange_q fuel 0%Qc 0%Qc (exact m e) (exact m' e') = Some z -> length y = length z.
Lemma some_length {T} (o : option (list T)) n : option_map (@length T) o = Some n -> exists y, o = Some y /\ length y = n.
Proof. destruct o as [y |]; [| discriminate]. intros E. injection E as E. eauto. Qed.
Theorem C104_rounding_refuted : ~ C104_rounding_statement.
Proof.
  intros H. specialize (H 10066330%positive (-22) 10066330%positive (-25) 20%nat).
  assert (LY : option_map (@length spec_float) (arange_f 20 (S754_zero false) (S754_zero false) (float 10066330 (-22)) (float 10066330 (-25))) = Some 9%nat) by (vm_compute; reflexivity).
  assert (LZ : option_map (@length Qc) (arange_q 20 0%Qc 0%Qc (exact 10066330 (-22)) (exact 10066330 (-25))) = Some 8%nat) by (vm_compute; reflexivity).
  destruct (some_length _ _ LY) as (y & EY & NY). destruct (some_length _ _ LZ) as (z & EZ & NZ). specialize (H y z EY EZ). congruence.
Qed.

(** * Shape and BitShift *)

(** A slice of the shape, unless it is empty or starts before the first axis. *)
Theorem C105_shape_partial : forall junk start stop old shape, - Z.of_nat (length shape) <= start -> sliced start stop shape <> [] ->
  shape_op junk start stop old shape = Some ([Z.of_nat (length (sliced start stop shape))], sliced start stop shape).
Proof. exact shape_op_ok. Qed.
Example C105_shape_works : shape_op 9 0 0 [] [4; 5; 6] = Some ([3], [4; 5; 6]) /\ shape_op 9 (-2) (-1) [] [4; 5; 6] = Some ([1], [5]) /\ shape_op 9 1 9 [] [4; 5; 6] = Some ([2], [5; 6]) /\ sliced 1 (-1) [4; 5; 6] = [5].
Proof. repeat split; reflexivity. Qed.
Theorem C105_shape_errors : forall junk start stop old, shape_op junk start stop old [] = None.
Proof. reflexivity. Qed.
Definition C105_shape_statement : Prop := forall junk start stop old shape, shape <> [] -> shape_op junk start stop old shape = Some ([Z.of_nat (length (sliced start stop shape))], sliced start stop shape).
(** Before the first axis, the vector is read outside of its bounds. *)
Theorem C105_start_refuted : ~ C105_shape_statement.
Proof. intros H. specialize (H 0 (-3) 0 [] [4; 5] ltac:(discriminate)). vm_compute in H. discriminate. Qed.
(** For an empty slice, the output keeps the shape it had, and is not written. *)
Theorem C105_empty_refuted : ~ forall junk start stop old shape, shape <> [] -> - Z.of_nat (length shape) <= start -> shape_op junk start stop old shape = Some ([Z.of_nat (length (sliced start stop shape))], sliced start stop shape).
Proof. intros H. specialize (H 7 2 0 [] [4; 5] ltac:(discriminate) ltac:(cbn; lia)). vm_compute in H. discriminate. Qed.

(** Shifts of unsigned numbers multiply by powers of two modulo the range, or divide by them;
    shapes are broadcast. *)
Definition whole_number (z : Z) : Qc := Q2Qc (inject_Z z).
Definition width (dtype : Z) : option Z := match dtype with 0 => Some 8 | 1 => Some 16 | 2 => Some 32 | 3 | 4 => Some 64 | _ => None end.
Lemma width_get dtype bits : width dtype = Some bits -> get [8; 16; 32; 64; 64] dtype = Some bits /\ 0 < bits.
Proof. intros H. destruct dtype as [| p |]; [injection H as <-; split; [reflexivity | lia] | | discriminate]. destruct p as [[p | p |] | [p | [|p|] |] |]; try discriminate H; injection H as <-; (split; [reflexivity | lia]). Qed.
Theorem C105_shift_partial : forall junk dtype bits direction A B C x0 x1, joined A B C -> above C -> has_size x0 (size A) -> has_size x1 (size B) -> width dtype = Some bits -> direction = 0 \/ direction = 1 ->
  exists y, bit_shift junk dtype direction (A, x0) (B, x1) = Some (C, y) /\ has_size y (size C) /\
  forall c a b, inside c C -> qelem x0 A (picked A c) = whole_number a -> qelem x1 B (picked B c) = whole_number b -> 0 <= a < 2 ^ bits -> 0 <= b < 2 ^ bits ->
    qelem y C c = whole_number (if direction =? 0 then (a * 2 ^ b) mod 2 ^ bits else a / 2 ^ b).
Proof.
  intros junk dtype bits direction A B C x0 x1 J P L0 L1 W D. destruct (width_get dtype bits W) as (W' & HB). destruct (bit_shift_ok junk dtype bits direction A B C x0 x1 J P L0 L1 W' D) as (y & E & L & V).
  exists y. split; [exact E |]. split; [exact L |]. intros c a b I E0 E1 Ha Hb. rewrite (V c I), E0, E1. change (whole_number a) with (of_Z a). change (whole_number b) with (of_Z b). rewrite !of_Z_floor.
  unfold unsigned. rewrite (Z.mod_small b) by exact Hb. unfold whole_number, of_Z. do 2 f_equal. destruct D as [-> | ->]; cbn [Z.eqb]; [apply shift_left_ok; lia | apply shift_right_ok; lia].
Qed.
Example C105_shift_works : shown (bit_shift (Q2Qc 9) 0 0 ([3], qs [1; 129; 255]) ([3], qs [3; 1; 9])) = Some ([3], [8; 2; 0]%Q) /\ shown (bit_shift (Q2Qc 9) 1 1 ([2; 1], qs [1; 129]) ([1; 2], qs [0; 3])) = Some ([2; 2], [1; 0; 129; 16]%Q) /\
  joined [2; 1] [1; 2] [2; 2].
Proof. split; [vm_compute; reflexivity |]. split; [vm_compute; reflexivity |]. repeat constructor. Qed.
Theorem C105_shift_errors : forall junk dtype direction x0 x1, (direction <> 0 /\ direction <> 1) \/ width dtype = None -> bit_shift junk dtype direction x0 x1 = None.
Proof.
  intros junk dtype direction x0 x1 H. unfold bit_shift. destruct (bin_setup (fst x0) (fst x1)); [| reflexivity]. cbn [obind]. destruct H as [(H0 & H1) | H].
  - destruct (Z.eqb_spec direction 0), (Z.eqb_spec direction 1); try contradiction. reflexivity.
  - destruct (negb _); [reflexivity |]. replace (get [8; 16; 32; 64; 64] dtype) with (@None Z); [reflexivity |]. symmetry. unfold get. destruct (Z.ltb_spec dtype 0); [reflexivity |]. apply nth_error_None. cbn [length].
    destruct (Z_lt_le_dec dtype 5) as [K |]; [| lia]. assert (C : dtype = 0 \/ dtype = 1 \/ dtype = 2 \/ dtype = 3 \/ dtype = 4) by lia. destruct C as [-> | [-> | [-> | [-> | ->]]]]; discriminate.
Qed.
Example C105_shift_errors_works : bit_shift 0%Qc 5 0 ([1], [1%Qc]) ([1], [1%Qc]) = None /\ bit_shift 0%Qc 0 2 ([1], [1%Qc]) ([1], [1%Qc]) = None /\ bit_shift 0%Qc 4 1 ([1], [1%Qc]) ([1], [1%Qc]) <> None.
Proof. split; [vm_compute; reflexivity |]. split; [vm_compute; reflexivity |]. vm_compute. discriminate. Qed.
(** A shift that does not fit in the type of the input is cast: by 256 bits, an unsigned char is not
    shifted at all. *)
Definition C105_wrap_statement : Prop := forall junk a b, 0 <= a < 2 ^ 8 -> 0 <= b -> exists y, bit_shift junk 0 1 ([1], [whole_number a]) ([1], [whole_number b]) = Some ([1], y) /\ qelem y [1] [0] = whole_number (a / 2 ^ b).
Theorem C105_wrap_refuted : ~ C105_wrap_statement.
Proof. intros H. destruct (H 0%Qc 5 256 ltac:(lia) ltac:(lia)) as (y & E & V). vm_compute in E. injection E as <-. apply (f_equal this) in V. vm_compute in V. discriminate. Qed.

Print Assumptions C101_values_partial.
Print Assumptions C101_gradient_partial.
Print Assumptions C102_trilu_partial.
Print Assumptions C102_trilu_gradient_partial.
Print Assumptions C102_eye.
Print Assumptions C103_values_partial.
Print Assumptions C103_gradient_partial.
Print Assumptions C104_linspace_partial.
Print Assumptions C104_arange_partial.
Print Assumptions C104_ends_refuted.
Print Assumptions C105_shape_partial.
Print Assumptions C105_shift_partial.
