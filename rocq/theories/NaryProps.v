(** Properties of sums and products of many inputs. *)
From Coq Require Import List ZArith Lia Bool QArith Qcanon Field.
From Verif Require Import NaryModel NarySpec.
Import ListNotations.
Local Open Scope list_scope.
Local Open Scope Qc_scope.

Lemma each_nth {A B C} (op : A -> B -> C) : forall y x k a b c, length y = length x -> (k < length y)%nat -> nth k (each op y x) c = op (nth k y a) (nth k x b).
Proof. induction y as [| u y IH]; intros [| v x] [| k] a b c L K; cbn [length nth each] in *; try discriminate; try lia; [reflexivity |]. apply IH; lia. Qed.
Lemma each_length {A B C} (op : A -> B -> C) : forall y x, length y = length x -> length (each op y x) = length y.
Proof. induction y as [| u y IH]; intros [| v x] L; cbn [length each] in *; try discriminate; [reflexivity |]. rewrite IH; lia. Qed.

Lemma add_rest n : forall mask inputs y, length y = n -> Forall (fun x => length x = n) inputs ->
  length (remaining Qcplus mask inputs y) = n /\ forall k, (k < n)%nat -> nth k (remaining Qcplus mask inputs y) 0 = nth k y 0 + sum_at k mask inputs.
Proof.
  induction mask as [| a mask IH]; intros [| x inputs] y L F; cbn [remaining sum_at]; try (split; [exact L | intros; ring]). inversion F as [| ? ? Lx F']; subst.
  assert (LY : length (if a then each Qcplus y x else y) = length y) by (destruct a; [apply each_length; congruence | reflexivity]). destruct (IH inputs _ LY F') as (H1 & H2). split; [exact H1 |]. intros k K. rewrite H2 by exact K.
  destruct a; [rewrite (each_nth _ _ _ _ 0 0) by (congruence || lia) |]; ring.
Qed.
Lemma mul_rest n : forall mask inputs y, length y = n -> Forall (fun x => length x = n) inputs ->
  length (remaining Qcmult mask inputs y) = n /\ forall k, (k < n)%nat -> nth k (remaining Qcmult mask inputs y) 1 = nth k y 1 * product_at k mask inputs.
Proof.
  induction mask as [| a mask IH]; intros [| x inputs] y L F; cbn [remaining product_at]; try (split; [exact L | intros; ring]). inversion F as [| ? ? Lx F']; subst.
  assert (LY : length (if a then each Qcmult y x else y) = length y) by (destruct a; [apply each_length; congruence | reflexivity]). destruct (IH inputs _ LY F') as (H1 & H2). split; [exact H1 |]. intros k K. rewrite H2 by exact K.
  destruct a; [rewrite (each_nth _ _ _ _ 1 1) by (congruence || lia) |]; ring.
Qed.
(** * C132: values *)
Theorem C132_sum : forall n mask inputs y0, length mask = length inputs -> Forall (fun x => length x = n) inputs -> In true mask ->
  length (add_n mask inputs y0) = n /\ forall k, (k < n)%nat -> nth k (add_n mask inputs y0) 0 = sum_at k mask inputs.
Proof.
  intros n. induction mask as [| a mask IH]; intros [| x inputs] y0 L F T; try discriminate; [destruct T |]. inversion F; subst. unfold add_n. cbn [from_first sum_at]. destruct a.
  - destruct (add_rest (length x) mask inputs x) as (H1' & H2'); auto.
  - destruct T as [T | T]; [discriminate |]. destruct (IH inputs y0) as (H1' & H2'); auto. split; [exact H1' |]. intros k K. change (nth k (add_n mask inputs y0) 0 = 0 + sum_at k mask inputs). rewrite H2' by exact K. ring.
Qed.
Theorem C132_product : forall n mask inputs y0, length mask = length inputs -> Forall (fun x => length x = n) inputs -> In true mask ->
  length (mul_n mask inputs y0) = n /\ forall k, (k < n)%nat -> nth k (mul_n mask inputs y0) 1 = product_at k mask inputs.
Proof.
  intros n. induction mask as [| a mask IH]; intros [| x inputs] y0 L F T; try discriminate; [destruct T |]. inversion F; subst. unfold mul_n. cbn [from_first product_at]. destruct a.
  - destruct (mul_rest (length x) mask inputs x) as (H1' & H2'); auto.
  - destruct T as [T | T]; [discriminate |]. destruct (IH inputs y0) as (H1' & H2'); auto. split; [exact H1' |]. intros k K. change (nth k (mul_n mask inputs y0) 1 = 1 * product_at k mask inputs). rewrite H2' by exact K. ring.
Qed.
(** Refuted: without active inputs the sum is not 0 and the product not 1, but what was there. *)
Theorem C132_none_refuted : forall mask inputs y0, ~ In true mask -> add_n mask inputs y0 = y0 /\ mul_n mask inputs y0 = y0.
Proof.
  unfold add_n, mul_n. induction mask as [| a mask IH]; intros [| x inputs] y0 N; cbn [from_first]; try (split; reflexivity). destruct a; [exfalso; apply N; left; reflexivity |]. apply IH. intros T. apply N. right. exact T.
Qed.

(** * C133: gradients *)
Theorem C133_sum : forall accum dx dy k, length dx = length dy -> (k < length dy)%nat -> nth k (add_n_backward true true accum dx dy) 0 = (if accum then nth k dx 0 else 0) + nth k dy 0.
Proof. intros accum dx dy k L K. unfold add_n_backward. cbn [andb]. destruct accum; [rewrite (each_nth _ _ _ _ 0 0) by lia; reflexivity | ring]. Qed.
Lemma product_split k : forall mask inputs i, nth i mask false = true -> (i < length inputs)%nat -> product_at k mask inputs = nth k (nth i inputs []) 1 * product_at k (without i mask) inputs.
Proof.
  induction mask as [| a mask IH]; intros [| x inputs] [| i] T L; cbn [nth length without product_at] in *; try discriminate; try lia; [subst a; ring |]. rewrite (IH inputs i T) by lia. ring.
Qed.
(** The gradient of a product is the product of the other active inputs, if the element itself is not
    zero. *)
Theorem C133_product : forall n mask inputs y0 i accum dx dy k, length mask = length inputs -> Forall (fun x => length x = n) inputs -> nth i mask false = true -> (i < length inputs)%nat ->
  length dx = n -> length dy = n -> (k < n)%nat -> nth k (nth i inputs []) 0 <> 0 ->
  nth k (mul_n_backward true true accum dx dy (mul_n mask inputs y0) (nth i inputs [])) None = Some ((if accum then nth k dx 0 else 0) + nth k dy 0 * product_at k (without i mask) inputs).
Proof.
  intros n mask inputs y0 i accum dx dy k L F A I LX LY K NZ. assert (T : In true mask). { rewrite <- A. apply nth_In. lia. }
  destruct (C132_product n mask inputs y0 L F T) as (Y1 & Y2). assert (LI : length (nth i inputs []) = n). { rewrite Forall_forall in F. apply F. apply nth_In. exact I. }
  unfold mul_n_backward. cbn [andb]. cbv zeta.
  assert (V : nth k (each (fun d x => quotient d x) (each Qcmult dy (mul_n mask inputs y0)) (nth i inputs [])) None = Some (nth k dy 0 * product_at k (without i mask) inputs)).
  { rewrite (each_nth _ _ _ _ 0 0) by (rewrite each_length; congruence || lia). rewrite (each_nth _ _ _ _ 0 1) by (congruence || lia). rewrite Y2 by exact K. rewrite (product_split k mask inputs i A I). unfold quotient. rewrite (nth_indep (nth i inputs []) 1 0) by lia. destruct (Qc_eq_dec (nth k (nth i inputs []) 0) 0); [contradiction |]. f_equal. field. exact NZ. }
  destruct accum.
  - rewrite (each_nth _ _ _ _ 0 None) by (first [lia | rewrite each_length; rewrite ?each_length; congruence]). rewrite V. reflexivity.
  - rewrite V. f_equal. ring.
Qed.
(** Refuted where the element is zero: the gradient is not a number. *)
Theorem C133_zero_refuted : forall accum dx dy y x k, length dx = length dy -> length y = length dy -> length x = length dy -> (k < length dy)%nat -> nth k x 0 = 0 ->
  nth k (mul_n_backward true true accum dx dy y x) (Some 0) = None.
Proof.
  intros accum dx dy y x k L1 L2 L3 K Z. unfold mul_n_backward. cbn [andb]. cbv zeta.
  assert (V : forall c, nth k (each (fun d x => quotient d x) (each Qcmult dy y) x) c = None). { intros c. rewrite (each_nth _ _ _ _ 0 0) by (rewrite each_length; congruence || lia). unfold quotient. rewrite Z. destruct (Qc_eq_dec 0 0); [reflexivity | contradiction]. }
  destruct accum; [| apply V]. rewrite (each_nth _ _ _ _ 0 None) by (first [lia | rewrite each_length; rewrite ?each_length; congruence]). rewrite V. reflexivity.
Qed.
(** Refuted: the gradient of an inactive input is 0 if nothing is to be added to; it stays what it
    was. *)
Theorem C133_inactive_refuted : forall propagate accum dx dy y x, add_n_backward false propagate accum dx dy = dx /\ mul_n_backward false propagate accum dx dy y x = map Some dx.
Proof. split; reflexivity. Qed.
Theorem C133_not_wanted : forall active accum dx dy y x, add_n_backward active false accum dx dy = dx /\ mul_n_backward active false accum dx dy y x = map Some dx.
Proof. intros. unfold add_n_backward, mul_n_backward. rewrite andb_false_r. split; reflexivity. Qed.

(** * Examples *)
Definition z (k : Z) : Qc := Q2Qc (inject_Z k).
Definition ins : list (list Qc) := [[z 1; z 2]; [z 3; z 4]; [z 5; 0]].
Example values_work : map this (add_n [true; false; true] ins []) = map this [z 6; z 2] /\ map this (mul_n [false; true; true] ins []) = map this [z 15; 0].
Proof. split; vm_compute; reflexivity. Qed.
Example gradients_work : map (option_map this) (mul_n_backward true true true [1; 1] [z 2; z 2] (mul_n [true; true; true] ins []) (nth 1 ins [])) = map (fun v => Some (this v)) [z 11; z 1] /\
  map (option_map this) (mul_n_backward true true false [1; 1] [z 2; z 2] (mul_n [true; true; true] ins []) (nth 2 ins [])) = [Some (this (z 6)); None].
Proof. split; vm_compute; reflexivity. Qed.
Print Assumptions C132_sum.
Print Assumptions C132_product.
Print Assumptions C133_product.
