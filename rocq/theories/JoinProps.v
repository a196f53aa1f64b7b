(** Concatenating, stacking and splitting arrays along an axis. *)
From Coq Require Import List ZArith Lia Bool.
From Verif Require Import NdModel NdSpec NdProofs IdxModel IdxSpec IdxProofs1 IdxProofs2 IdxProofs3 IdxProofs6 JoinModel JoinSpec JoinProofs JoinProofs2.
Import ListNotations.
Local Open Scope list_scope.
Local Open Scope Z_scope.

Definition nn (s : list Z) : Prop := Forall (fun n => 0 <= n) s.
Definition pos (s : list Z) : Prop := Forall (fun n => 0 < n) s.

(** ** C47: elements *)

(** The arrays have extents [ns] on the axis; array [c] starts where the previous ones end. *)
Theorem C47_concatenate_partial : forall A B ns axis xs y0, nn A -> pos B -> denotes axis (length A) (length (A ++ 0 :: B)) ->
  0 < hd 0 ns -> nn ns -> arrays (map (fun n => A ++ n :: B) ns) xs -> Z.of_nat (length y0) = size (A ++ sum ns :: B) ->
  exists y, cat_forward axis (map (fun n => A ++ n :: B) ns) xs y0 = Some y /\ length y = length y0 /\
    forall c n x, nth_error ns c = Some n -> nth_error xs c = Some x ->
    forall p k r, inside p A -> 0 <= k < n -> inside r B ->
      elem y (A ++ sum ns :: B) (p ++ (sum (firstn c ns) + k) :: r) = elem x (A ++ n :: B) (p ++ k :: r).
Proof. intros A B ns axis xs y0 PA PB. intros. apply cat_forward_ok; auto. Qed.
Theorem C47_concatenate_shape : forall A B n ns axis, nn A -> pos B -> denotes axis (length A) (length (A ++ n :: B)) ->
  0 < n -> nn ns -> exists outer total, cat_setup axis (map (fun n => A ++ n :: B) (n :: ns)) = Some (length A, A ++ sum (n :: ns) :: B, outer, total).
Proof. intros A B n ns axis PA PB D Hn Hns. rewrite cat_setup_ok by auto. eauto. Qed.
Example C47_concatenate_ex : cat_forward (-1) [[2; 1]; [2; 2]] [[1; 2]; [3; 4; 5; 6]] (repeat 0 6) = Some [1; 3; 4; 2; 5; 6] /\
  cat_forward 0 [[1; 2]; [0; 2]; [2; 2]] [[1; 2]; []; [3; 4; 5; 6]] (repeat 0 6) = Some [1; 2; 3; 4; 5; 6].
Proof. split; reflexivity. Qed.

(** Array [c] becomes entry [c] of the new axis. *)
Theorem C47_stack_partial : forall A B num axis xs y0, nn A -> pos B -> denotes axis (length A) (S (length (A ++ B))) -> (0 < num)%nat ->
  arrays (repeat (A ++ B) num) xs -> Z.of_nat (length y0) = size (A ++ Z.of_nat num :: B) ->
  exists y, stack_forward axis (repeat (A ++ B) num) xs y0 = Some y /\ length y = length y0 /\
    forall c x, nth_error xs c = Some x -> forall p r, inside p A -> inside r B ->
      elem y (A ++ Z.of_nat num :: B) (p ++ Z.of_nat c :: r) = elem x (A ++ B) (p ++ r).
Proof. intros A B num axis xs y0 PA PB. apply stack_forward_ok; auto. Qed.
Theorem C47_stack_shape : forall A B num axis, nn A -> pos B -> denotes axis (length A) (S (length (A ++ B))) -> (0 < num)%nat ->
  exists outer inner, stack_setup axis (repeat (A ++ B) num) = Some (A ++ Z.of_nat num :: B, outer, inner).
Proof. intros A B num axis PA PB D Hn. rewrite stack_setup_ok by auto. eauto. Qed.
Example C47_stack_ex : stack_forward 1 [[2; 2]; [2; 2]] [[1; 2; 3; 4]; [5; 6; 7; 8]] (repeat 0 8) = Some [1; 2; 5; 6; 3; 4; 7; 8] /\
  stack_forward (-1) [[2]; [2]; [2]] [[1; 2]; [3; 4]; [5; 6]] (repeat 0 6) = Some [1; 3; 5; 2; 4; 6].
Proof. split; reflexivity. Qed.

Theorem C47_split_partial : forall A B num axis x ys0, nn A -> pos B -> denotes axis (length A) (length (A ++ 0 :: B)) -> (0 < num)%nat ->
  Z.of_nat (length x) = size (A ++ Z.of_nat num :: B) -> arrays (repeat (A ++ B) num) ys0 ->
  exists ys, split_forward axis (A ++ Z.of_nat num :: B) x ys0 = Some ys /\ arrays (repeat (A ++ B) num) ys /\
    forall c y, nth_error ys c = Some y -> forall p r, inside p A -> inside r B ->
      elem y (A ++ B) (p ++ r) = elem x (A ++ Z.of_nat num :: B) (p ++ Z.of_nat c :: r).
Proof. intros A B num axis x ys0 PA PB. apply split_forward_ok; auto. Qed.
Theorem C47_split_shape : forall A B num axis, pos B -> denotes axis (length A) (length (A ++ 0 :: B)) -> (0 < num)%nat ->
  exists outer inner, split_setup axis (A ++ Z.of_nat num :: B) num = Some (A ++ B, Z.of_nat num, outer, inner).
Proof. intros A B num axis PB D Hn. rewrite split_setup_ok by auto. eauto. Qed.
Example C47_split_ex : split_forward 1 [2; 3] [1; 2; 3; 4; 5; 6] [[0; 0]; [0; 0]; [0; 0]] = Some [[1; 4]; [2; 5]; [3; 6]].
Proof. reflexivity. Qed.

(** Splitting undoes stacking, and stacking undoes splitting. *)
Theorem C47_split_stack : forall A B num axis axis' xs y0 ys0, nn A -> pos B ->
  denotes axis (length A) (S (length (A ++ B))) -> denotes axis' (length A) (length (A ++ 0 :: B)) -> (0 < num)%nat ->
  arrays (repeat (A ++ B) num) xs -> Z.of_nat (length y0) = size (A ++ Z.of_nat num :: B) -> arrays (repeat (A ++ B) num) ys0 ->
  exists y, stack_forward axis (repeat (A ++ B) num) xs y0 = Some y /\ split_forward axis' (A ++ Z.of_nat num :: B) y ys0 = Some xs.
Proof. intros. apply split_stack_ok; auto. Qed.
Theorem C47_stack_split : forall A B num axis axis' x y0 ys0, nn A -> pos B ->
  denotes axis (length A) (S (length (A ++ B))) -> denotes axis' (length A) (length (A ++ 0 :: B)) -> (0 < num)%nat ->
  Z.of_nat (length x) = size (A ++ Z.of_nat num :: B) -> Z.of_nat (length y0) = size (A ++ Z.of_nat num :: B) -> arrays (repeat (A ++ B) num) ys0 ->
  exists ys, split_forward axis' (A ++ Z.of_nat num :: B) x ys0 = Some ys /\ stack_forward axis (repeat (A ++ B) num) ys y0 = Some x.
Proof. intros. apply stack_split_ok; auto. Qed.
Example C47_split_stack_ex : exists y, stack_forward 0 [[2]; [2]] [[1; 2]; [3; 4]] (repeat 9 4) = Some y /\ split_forward (-2) [2; 2] y [[0; 0]; [0; 0]] = Some [[1; 2]; [3; 4]].
Proof. exists [1; 2; 3; 4]. split; reflexivity. Qed.

(** ** C47: gradients *)

(** The gradient of an input is the part of the gradient of the output made from it; it is
    left alone if not asked for. *)
Theorem C47_concatenate_gradient : forall A B ns axis dy dxs, nn A -> pos B -> denotes axis (length A) (length (A ++ 0 :: B)) ->
  0 < hd 0 ns -> nn ns -> Z.of_nat (length dy) = size (A ++ sum ns :: B) -> arrays (map (fun n => A ++ n :: B) ns) (map snd dxs) ->
  exists rs, cat_backward axis (map (fun n => A ++ n :: B) ns) dy dxs = Some rs /\ length rs = length dxs /\
    forall c n prop accum dx, nth_error ns c = Some n -> nth_error dxs c = Some (prop, accum, dx) ->
    exists r, nth_error rs c = Some r /\ length r = length dx /\ (prop = false -> r = dx) /\
    (prop = true -> forall p k q, inside p A -> 0 <= k < n -> inside q B ->
       elem r (A ++ n :: B) (p ++ k :: q) =
       before accum (elem dx (A ++ n :: B) (p ++ k :: q)) + elem dy (A ++ sum ns :: B) (p ++ (sum (firstn c ns) + k) :: q)).
Proof. intros. apply cat_backward_ok; auto. Qed.
Example C47_concatenate_gradient_ex :
  cat_backward 1 [[2; 1]; [2; 2]; [2; 1]] [1; 2; 3; 4; 5; 6; 7; 8] [(true, true, [10; 20]); (true, false, [9; 9; 9; 9]); (false, false, [7; 7])] =
  Some [[11; 25]; [2; 3; 6; 7]; [7; 7]].
Proof. reflexivity. Qed.
Theorem C47_stack_gradient : forall A B num axis dy dxs, nn A -> pos B -> denotes axis (length A) (S (length (A ++ B))) -> (0 < num)%nat ->
  arrays (repeat (A ++ B) num) (map snd dxs) -> Z.of_nat (length dy) = size (A ++ Z.of_nat num :: B) ->
  exists rs, stack_backward axis (repeat (A ++ B) num) dy dxs = Some rs /\ length rs = length dxs /\
    forall c prop accum dx, nth_error dxs c = Some (prop, accum, dx) ->
    exists r, nth_error rs c = Some r /\ length r = length dx /\ (prop = false -> r = dx) /\
    (prop = true -> forall p q, inside p A -> inside q B ->
      elem r (A ++ B) (p ++ q) = before accum (elem dx (A ++ B) (p ++ q)) + elem dy (A ++ Z.of_nat num :: B) (p ++ Z.of_nat c :: q)).
Proof. intros. apply stack_backward_ok; auto. Qed.
Theorem C47_split_gradient : forall A B num axis accum dys dx0, nn A -> pos B -> denotes axis (length A) (length (A ++ 0 :: B)) -> (0 < num)%nat ->
  arrays (repeat (A ++ B) num) dys -> Z.of_nat (length dx0) = size (A ++ Z.of_nat num :: B) ->
  exists dx, split_backward axis (A ++ Z.of_nat num :: B) accum dys dx0 = Some dx /\ length dx = length dx0 /\
    forall c dy, nth_error dys c = Some dy -> forall p r, inside p A -> inside r B ->
      elem dx (A ++ Z.of_nat num :: B) (p ++ Z.of_nat c :: r) =
      before accum (elem dx0 (A ++ Z.of_nat num :: B) (p ++ Z.of_nat c :: r)) + elem dy (A ++ B) (p ++ r).
Proof. intros. apply split_backward_ok; auto. Qed.
Example C47_stack_gradient_ex :
  stack_backward 1 [[2]; [2]] [1; 2; 3; 4] [(true, true, [10; 20]); (false, true, [5; 5])] = Some [[11; 23]; [5; 5]] /\
  split_backward 1 [2; 2] true [[1; 2]; [3; 4]] [10; 20; 30; 40] = Some [11; 23; 32; 44] /\
  split_backward 1 [2; 2] false [[1; 2]; [3; 4]] [10; 20; 30; 40] = Some [1; 3; 2; 4].
Proof. repeat split; reflexivity. Qed.

(** ** C47: what does not fit is refused *)
Lemma others_differ ax : forall first s j i n m, nth_error first i = Some n -> nth_error s (j + i) = Some m -> (j + i)%nat <> ax -> m <> n ->
  others_agree j ax first s <> Some true.
Proof.
  induction first as [|v first IH]; intros s j i n m F S N D; [destruct i; discriminate|]. cbn [others_agree].
  destruct i as [|i]; cbn [nth_error] in F.
  - inversion F; subst. rewrite Nat.add_0_r in *. destruct (others_agree _ _ _ _); cbn [obind]; [|discriminate].
    destruct (Nat.eqb_spec j ax); [lia|]. rewrite S. cbn [obind]. destruct (Z.eqb_spec m n); [lia|]. discriminate.
  - specialize (IH s (Datatypes.S j) i n m F). replace (Datatypes.S j + i)%nat with (j + Datatypes.S i)%nat in IH by lia. specialize (IH S N D).
    destruct (others_agree (Datatypes.S j) ax first s) as [[]|]; cbn [obind]; [tauto| |discriminate].
    destruct (Nat.eqb j ax); [discriminate|]. destruct (nth_error s j); cbn [obind]; [|discriminate]. rewrite andb_false_r. discriminate.
Qed.
Lemma nth_set_nth l : forall k i v, i <> k -> nth_error (set_nth l k v) i = nth_error l i.
Proof. induction l as [|x l IH]; intros [|k] [|i] v H; cbn; auto; lia. Qed.
Theorem C47_concatenate_refuses : forall axis first rest s j n m a, In s rest -> refine_axis (length first) axis = Some a -> Z.of_nat j <> a ->
  nth_error first j = Some n -> nth_error s j = Some m -> m <> n -> cat_setup axis (first :: rest) = None.
Proof.
  intros axis first rest s j n m a H R N F S D. unfold cat_setup. rewrite R. cbn [obind].
  assert (E : cat_shape (Z.to_nat a) first rest = None); [|rewrite E; reflexivity].
  assert (N2 : j <> Z.to_nat a). { unfold refine_axis in R. destruct (Z.ltb_spec axis (Z.of_nat (length first))), (Z.leb_spec (- Z.of_nat (length first)) axis), (Z.ltb_spec axis 0); cbn [andb] in R; inversion R; lia. }
  clear R N. revert first F. induction rest as [|t rest IH]; intros first F; [destruct H|]. cbn [cat_shape].
  destruct t as [|h t]; [reflexivity|]. set (t' := h :: t) in *. destruct (nth_error t' (Z.to_nat a)) as [v|]; cbn [obind]; [|reflexivity].
  set (shape := set_nth first (Z.to_nat a) _).
  assert (F' : nth_error shape j = Some n) by (unfold shape; rewrite nth_set_nth by auto; auto).
  destruct H as [H|H].
  - rewrite H. pose proof (others_differ (Z.to_nat a) shape s 0 j n m F' S N2 D) as O. destruct (others_agree _ _ _ _) as [[]|]; cbn [obind]; [tauto| |]; reflexivity.
  - destruct (others_agree _ _ _ _) as [[]|]; cbn [obind]; [|reflexivity|reflexivity]. apply IH; auto.
Qed.
Theorem C47_stack_refuses : forall axis shape rest s, In s rest -> s <> shape -> stack_setup axis (shape :: rest) = None.
Proof.
  intros axis shape rest s H D. cbn [stack_setup]. destruct (_ <? 0); [reflexivity|]. destruct (_ <? _); [reflexivity|].
  assert (E : forallb (fun s => if list_eq_dec Z.eq_dec s shape then true else false) rest = false); [|rewrite E; reflexivity].
  apply not_true_is_false. intros F. pose proof (proj1 (forallb_forall _ _) F s H) as G. cbn in G. destruct (list_eq_dec Z.eq_dec s shape); [tauto|discriminate].
Qed.
Theorem C47_split_refuses : forall A B n axis outputs, denotes axis (length A) (length (A ++ n :: B)) -> n <> Z.of_nat outputs ->
  split_setup axis (A ++ n :: B) outputs = None.
Proof.
  intros A B n axis outputs D N. unfold split_setup.
  assert (E : (if axis <? 0 then axis + Z.of_nat (length (A ++ n :: B)) else axis) = Z.of_nat (length A)).
  { unfold denotes in D. rewrite app_length in *. cbn [length] in *. destruct (Z.ltb_spec axis 0); lia. }
  rewrite E. clear E. destruct (Z.of_nat (length A) <? 0); [reflexivity|]. destruct (_ <=? _); [reflexivity|]. rewrite Nat2Z.id, nth_at.
  destruct (Z.eqb_spec n (Z.of_nat outputs)); [lia|reflexivity].
Qed.
Example C47_refuses_ex : cat_setup 1 [[2; 3]; [2; 1]; [4; 3]] = None /\ stack_setup 0 [[2]; [2]; [3]] = None /\ split_setup 1 [2; 3] 2 = None.
Proof. repeat split; reflexivity. Qed.

(** Arrays with more axes than the first one are not refused, although the output has no
    room for them: forward writes past its end. *)
Theorem C47_concatenate_axes_refuted : ~ forall axis shapes xs a ys outer total y0, Forall pos shapes ->
  cat_setup axis shapes = Some (a, ys, outer, total) -> arrays shapes xs -> Z.of_nat (length y0) = size ys ->
  exists y, cat_forward axis shapes xs y0 = Some y.
Proof.
  intros H. assert (P : Forall pos [[2; 3]; [2; 3; 4]]).
  { unfold pos. repeat apply Forall_cons; try apply Forall_nil; lia. }
  destruct (H 1 [[2; 3]; [2; 3; 4]] [repeat 1 6; repeat 2 24] 1%nat [2; 6] 2 15 (repeat 0 12) P eq_refl) as (y & E); [|reflexivity|].
  - unfold arrays. repeat constructor.
  - vm_compute in E. discriminate.
Qed.
(** An empty array first, or empty arrays stacked, divide by zero. *)
Theorem C47_concatenate_empty_refuted : ~ forall A B ns axis xs y0, nn A -> pos B -> denotes axis (length A) (length (A ++ 0 :: B)) ->
  ns <> [] -> nn ns -> arrays (map (fun n => A ++ n :: B) ns) xs -> Z.of_nat (length y0) = size (A ++ sum ns :: B) ->
  exists y, cat_forward axis (map (fun n => A ++ n :: B) ns) xs y0 = Some y.
Proof.
  intros H. destruct (H [] [2] [0; 2] 0 [[]; [1; 2; 3; 4]] [0; 0; 0; 0]) as (y & E).
  - constructor.
  - repeat apply Forall_cons; try apply Forall_nil; lia.
  - left. reflexivity.
  - discriminate.
  - repeat apply Forall_cons; try apply Forall_nil; lia.
  - repeat constructor.
  - reflexivity.
  - vm_compute in E. discriminate.
Qed.
Theorem C47_stack_empty_refuted : ~ forall A B num axis, nn A -> nn B -> denotes axis (length A) (S (length (A ++ B))) -> (0 < num)%nat ->
  exists outer inner, stack_setup axis (repeat (A ++ B) num) = Some (A ++ Z.of_nat num :: B, outer, inner).
Proof.
  intros H. destruct (H [2] [0] 2%nat 1) as (o & i & E).
  - repeat apply Forall_cons; try apply Forall_nil; lia.
  - repeat apply Forall_cons; try apply Forall_nil; lia.
  - left. reflexivity.
  - lia.
  - vm_compute in E. discriminate.
Qed.

Print Assumptions C47_concatenate_partial.
Print Assumptions C47_stack_partial.
Print Assumptions C47_split_partial.
Print Assumptions C47_concatenate_gradient.
Print Assumptions C47_stack_gradient.
Print Assumptions C47_split_gradient.
Print Assumptions C47_split_stack.
Print Assumptions C47_stack_split.
Print Assumptions C47_concatenate_refuses.
