(** Properties of random flips. *)
From Coq Require Import List ZArith Lia Bool QArith Qcanon.
From Verif Require Import FlipModel FlipSpec.
Import ListNotations.
Local Open Scope list_scope.
Local Open Scope Z_scope.

Lemma count_elements s : count s = elements s.
Proof. unfold count. induction s as [| n s IH]; [reflexivity |]. cbn [fold_right elements]. rewrite <- IH. lia. Qed.
Lemma seq_ext_flat {A} (f g : nat -> list A) a n : (forall i, (a <= i < a + n)%nat -> f i = g i) -> flat_map f (seq a n) = flat_map g (seq a n).
Proof. revert a. induction n as [| n IH]; intros a H; [reflexivity |]. cbn [seq flat_map]. rewrite H, (IH (S a)) by (intros; try apply H; lia). reflexivity. Qed.
Lemma flat_shift {A} (f : nat -> list A) a n : flat_map f (seq (S a) n) = flat_map (fun i => f (S i)) (seq a n).
Proof. revert a. induction n as [| n IH]; intros a; [reflexivity |]. cbn [seq flat_map]. rewrite IH. reflexivity. Qed.
Lemma map_flat {A B C} (g : B -> C) (f : A -> list B) l : map g (flat_map f l) = flat_map (fun a => map g (f a)) l.
Proof. induction l as [| a l IH]; [reflexivity |]. cbn [flat_map]. rewrite map_app, IH. reflexivity. Qed.
Lemma flat_single {A B} (f : A -> B) l : flat_map (fun a => [f a]) l = map f l.
Proof. induction l as [| a l IH]; [reflexivity |]. cbn [flat_map map]. rewrite IH. reflexivity. Qed.

(** Within a sample the flips of this sample are used. *)
Lemma reads_sample flips base : forall shape dim x0 k, shape <> [] -> (base <= dim)%nat ->
  reads flips base dim shape x0 k = (map (fun js => x0 + place shape (turned (flip_at flips k) dim shape js)) (indices shape), k).
Proof.
  induction shape as [| n s IH]; intros dim x0 k NE B; [contradiction |]. clear NE. cbn [reads]. set (c := if flip_at flips k dim then x0 + count s * (Z.of_nat n - 1) else x0). set (st := if flip_at flips k dim then - count s else count s).
  assert (G : forall j, c + j * st = x0 + (if flip_at flips k dim then Z.of_nat n - 1 - j else j) * elements s) by (intros j; unfold c, st; rewrite count_elements; destruct (flip_at flips k dim); ring).
  cbn [indices]. rewrite map_flat. destruct s as [| n1 s1] eqn:ES.
  - f_equal. rewrite <- flat_single. apply seq_ext_flat. intros i _. cbn [indices map]. f_equal. cbn [turned place]. rewrite G. cbn [elements]. ring.
  - rewrite <- ES in *. clearbody c st. assert (LT : Nat.ltb dim base = false) by (apply Nat.ltb_ge; exact B). rewrite LT.
    match goal with |- ?L n c k = _ => set (loop := L) end.
    assert (LL : forall m c0 i0, (forall j, c0 + j * st = x0 + (if flip_at flips k dim then Z.of_nat n - 1 - (Z.of_nat i0 + j) else Z.of_nat i0 + j) * elements s) ->
      loop m c0 k = (flat_map (fun j => map (fun js => x0 + place (n :: s) (turned (flip_at flips k) dim (n :: s) js)) (map (cons (Z.of_nat j)) (indices s))) (seq i0 m), k)).
    { induction m as [| m IHm]; intros c0 i0 G0; [reflexivity |]. unfold loop. cbn [seq flat_map]. fold loop. rewrite (IH (S dim) c0 k) by (lia || (rewrite ES; discriminate)).
      change ((let '(l', k0) := loop m (c0 + st) k in (map (fun js => c0 + place s (turned (flip_at flips k) (S dim) s js)) (indices s) ++ l', k0)) = (map (fun js => x0 + place (n :: s) (turned (flip_at flips k) dim (n :: s) js)) (map (cons (Z.of_nat i0)) (indices s)) ++ flat_map (fun j => map (fun js => x0 + place (n :: s) (turned (flip_at flips k) dim (n :: s) js)) (map (cons (Z.of_nat j)) (indices s))) (seq (S i0) m), k)).
      rewrite (IHm (c0 + st) (S i0)).
      - f_equal. f_equal. rewrite map_map. apply map_ext. intros js. cbn [turned place]. specialize (G0 0). rewrite Z.mul_0_l, !Z.add_0_r in G0. rewrite G0. ring.
      - intros j. specialize (G0 (j + 1)). rewrite Nat2Z.inj_succ. replace (Z.succ (Z.of_nat i0) + j) with (Z.of_nat i0 + (j + 1)) by lia. rewrite <- G0. ring. }
    apply LL. intros j. rewrite G. cbn [Z.of_nat]. rewrite Z.add_0_l. reflexivity.
Qed.
Lemma draw_at size ndim axes bit i d : (i < size)%nat -> (d < ndim)%nat -> flip_at (draw size ndim axes bit) i d = bit (i * ndim + d)%nat && existsb (Nat.eqb d) axes.
Proof.
  intros I D. unfold flip_at, draw. set (row := fun i => map (fun id => bit (i * ndim + id)%nat && existsb (Nat.eqb id) axes) (seq 0 ndim)). rewrite (nth_indep _ [] (row 0%nat)) by (rewrite map_length, seq_length; exact I). rewrite map_nth, seq_nth by exact I. cbn [plus]. unfold row.
  set (f := fun id => bit (i * ndim + id)%nat && existsb (Nat.eqb id) axes). rewrite (nth_indep _ false (f 0%nat)) by (rewrite map_length, seq_length; exact D). rewrite map_nth, seq_nth by exact D. reflexivity.
Qed.
(** With one sample axis that is not turned, every sample has its own flips. *)
Lemma reads_samples axes bit n s : s <> [] -> ~ In 0%nat axes ->
  let flips := flips_of 1 (n :: s) axes bit in
  fst (reads flips 1 0 (n :: s) 0 0) = flat_map (fun i => map (fun js => place (n :: s) (Z.of_nat i :: turned (flip_at flips i) 1 s js)) (indices s)) (seq 0 n).
Proof.
  intros NE A flips. assert (LF : length flips = n) by (unfold flips, flips_of, draw, size_of; rewrite map_length, seq_length; cbn [firstn fold_right]; lia).
  destruct n as [| n0] eqn:EN; [destruct s; [contradiction | reflexivity] |]. rewrite <- EN in *. assert (F0 : flip_at flips 0 0 = false).
  { unfold flips, flips_of. rewrite draw_at by (unfold size_of; cbn [firstn fold_right length]; lia). destruct (existsb (Nat.eqb 0) axes) eqn:X; [| apply andb_false_r]. exfalso. apply existsb_exists in X. destruct X as (v & V1 & V2). apply Nat.eqb_eq in V2. subst v. contradiction. }
  cbn [reads]. rewrite F0. destruct s as [| n1 s1] eqn:ES; [contradiction |]. rewrite <- ES in *. cbn [Nat.ltb Nat.leb].
  match goal with |- fst (?L n 0 0%nat) = _ => set (loop := L) end.
  assert (LL : forall m i0, (i0 + m = n)%nat -> fst (loop m (Z.of_nat i0 * elements s) i0) = flat_map (fun i => map (fun js => place (n :: s) (Z.of_nat i :: turned (flip_at flips i) 1 s js)) (indices s)) (seq i0 m)).
  { induction m as [| m IHm]; intros i0 E; [reflexivity |]. unfold loop. cbn [seq flat_map]. fold loop. rewrite (reads_sample flips 1 s 1 (Z.of_nat i0 * elements s) i0) by (lia || (rewrite ES; discriminate)).
    match goal with |- fst (let '(l', k0) := ?R in (?a ++ l', k0)) = ?b ++ ?c => destruct R as (l', k0) eqn:ER; cbn [fst]; assert (ELB : a = b) by reflexivity; rewrite ELB; f_equal end.
    destruct m as [| m1]; [unfold loop in ER; injection ER as <- <-; reflexivity |]. change ((fix loop (n2 : nat) (current : Z) (flip_index : nat) {struct n2} : list Z * nat := _) ) with loop in ER || idtac.
    assert (KM : ((i0 + 1) mod length flips = S i0)%nat) by (rewrite LF, Nat.mod_small by lia; lia). rewrite KM in ER.
    assert (OE : Z.of_nat i0 * elements s + count s = Z.of_nat (S i0) * elements s) by (rewrite count_elements; lia). rewrite OE in ER. rewrite <- (IHm (S i0)) by lia. rewrite ER. reflexivity. }
  apply (LL n 0%nat). lia.
Qed.
(** * Positions *)
Lemma flat_at {A} (f : nat -> list A) m : forall n a j p, (forall i, (a <= i < a + n)%nat -> length (f i) = m) -> (j < n)%nat -> (p < m)%nat -> nth_error (flat_map f (seq a n)) (j * m + p) = nth_error (f (a + j)%nat) p.
Proof.
  induction n as [| n IH]; intros a j p L J P; [lia |]. cbn [seq flat_map]. destruct j as [| j].
  - rewrite Nat.add_0_r. cbn [Nat.mul plus]. rewrite nth_error_app1 by (rewrite L by lia; exact P). reflexivity.
  - rewrite nth_error_app2 by (rewrite L by lia; cbn [Nat.mul]; lia). rewrite L by lia. replace (S j * m + p - m)%nat with (j * m + p)%nat by (cbn [Nat.mul]; lia). rewrite IH by (auto; try lia; intros; apply L; lia). f_equal. f_equal. lia.
Qed.
Lemma elements_nn s : 0 <= elements s.
Proof. induction s as [| n s IH]; cbn [elements]; lia. Qed.
Lemma indices_length s : length (indices s) = Z.to_nat (elements s).
Proof.
  induction s as [| n s IH]; [reflexivity |]. cbn [indices elements]. rewrite Z2Nat.inj_mul, Nat2Z.id by (lia || apply elements_nn). rewrite <- IH. generalize 0%nat. induction n as [| n IHn]; intros a; [reflexivity |]. cbn [seq flat_map]. rewrite app_length, map_length, IHn. reflexivity.
Qed.
Lemma indices_at : forall s js, In js (indices s) -> 0 <= place s js < elements s /\ nth_error (indices s) (Z.to_nat (place s js)) = Some js.
Proof.
  induction s as [| n s IH]; intros js I; cbn [indices] in I.
  - destruct I as [<- | []]. split; [cbn; lia | reflexivity].
  - apply in_flat_map in I. destruct I as (j & J & M). apply in_seq in J. apply in_map_iff in M. destruct M as (js1 & <- & M). destruct (IH js1 M) as (B & E). cbn [place elements]. pose proof (elements_nn s) as EN.
    split; [split; [lia | nia] |]. cbn [indices]. rewrite Z2Nat.inj_add, Z2Nat.inj_mul, Nat2Z.id by lia.
    rewrite (flat_at _ (Z.to_nat (elements s))); [| intros i _; rewrite map_length; apply indices_length | lia | lia]. cbn [plus]. rewrite nth_error_map, E. reflexivity.
Qed.
Lemma turned_ext f g : forall s dim js, (forall d, (dim <= d < dim + length s)%nat -> f d = g d) -> turned f dim s js = turned g dim s js.
Proof. induction s as [| n s IH]; intros dim [| j js] H; try reflexivity. cbn [turned length] in *. rewrite H by lia. f_equal. apply IH. intros d D. apply H. lia. Qed.
Lemma turned_in f : forall s dim js, In js (indices s) -> In (turned f dim s js) (indices s).
Proof.
  induction s as [| n s IH]; intros dim js I; cbn [indices] in *; [destruct I as [<- | []]; left; reflexivity |]. apply in_flat_map in I. destruct I as (j & J & M). apply in_seq in J. apply in_map_iff in M. destruct M as (js1 & <- & M). apply in_flat_map. cbn [turned].
  exists (if f dim then n - 1 - j else j)%nat. split; [apply in_seq; destruct (f dim); lia |]. apply in_map_iff. exists (turned f (S dim) s js1). split; [f_equal; destruct (f dim); lia | apply IH; exact M].
Qed.
Lemma turned_twice f : forall s dim js, In js (indices s) -> turned f dim s (turned f dim s js) = js.
Proof.
  induction s as [| n s IH]; intros dim js I; cbn [indices] in *; [destruct I as [<- | []]; reflexivity |]. apply in_flat_map in I. destruct I as (j & J & M). apply in_map_iff in M. destruct M as (js1 & <- & M). cbn [turned]. f_equal; [destruct (f dim); lia | apply IH; exact M].
Qed.
Lemma cons_in n s i js : (i < n)%nat -> In js (indices s) -> In (Z.of_nat i :: js) (indices (n :: s)).
Proof. intros I J. cbn [indices]. apply in_flat_map. exists i. split; [apply in_seq; lia | apply in_map; exact J]. Qed.
Lemma reads_at axes bit n s i js : s <> [] -> ~ In 0%nat axes -> (i < n)%nat -> In js (indices s) ->
  nth_error (fst (reads (flips_of 1 (n :: s) axes bit) 1 0 (n :: s) 0 0)) (Z.to_nat (place (n :: s) (Z.of_nat i :: js))) =
  Some (place (n :: s) (Z.of_nat i :: turned (fun d => bit (i * length (n :: s) + d)%nat && existsb (Nat.eqb d) axes) 1 s js)).
Proof.
  intros NE A I J. rewrite reads_samples by assumption. destruct (indices_at s js J) as (B & E). cbn [place]. rewrite Z2Nat.inj_add, Z2Nat.inj_mul, Nat2Z.id by (lia || apply elements_nn || (pose proof (elements_nn s); nia)).
  rewrite (flat_at _ (Z.to_nat (elements s))); [| intros k _; rewrite map_length; apply indices_length | exact I | lia]. cbn [plus]. rewrite nth_error_map, E. cbn [option_map]. do 3 f_equal. apply turned_ext. intros d D. unfold flips_of. apply draw_at; [unfold size_of; cbn [firstn fold_right]; lia | cbn [length]; lia].
Qed.

(** * C138 *)
(** Each sample is turned along those of the given axes for which its own numbers are odd. *)
Theorem C138_values : forall n s axes bit x i js, s <> [] -> ~ In 0%nat axes -> (i < n)%nat -> In js (indices s) ->
  nth (Z.to_nat (place (n :: s) (Z.of_nat i :: js))) (flip_forward 1 (n :: s) axes bit x) 0%Qc =
  nth (Z.to_nat (place (n :: s) (Z.of_nat i :: turned (fun d => bit (i * length (n :: s) + d)%nat && existsb (Nat.eqb d) axes) 1 s js))) x 0%Qc.
Proof.
  intros n s axes bit x i js NE A I J. unfold flip_forward. apply nth_error_nth. rewrite nth_error_map, (reads_at axes bit n s i js NE A I J). reflexivity.
Qed.
Lemma put_at add : forall dx values k v, length dx = length values -> nth_error values k = Some v -> nth k (put_each add dx values) 0%Qc = ((if add then nth k dx 0 else 0) + v)%Qc.
Proof.
  induction dx as [| d dx IH]; intros [| w values] [| k] v L E; cbn [nth_error put_each nth length] in *; try discriminate; [injection E as ->; reflexivity |]. apply IH; [lia | exact E].
Qed.
(** Backward takes the gradient of each element from where forward put it. *)
Theorem C138_gradient : forall n s axes bit accum dx dy i js, s <> [] -> ~ In 0%nat axes -> (i < n)%nat -> In js (indices s) ->
  length dx = length (flip_forward 1 (n :: s) axes bit dy) ->
  exists js', In js' (indices s) /\
  nth (Z.to_nat (place (n :: s) (Z.of_nat i :: js))) (flip_backward 1 (n :: s) axes bit accum dx dy) 0%Qc =
    ((if accum then nth (Z.to_nat (place (n :: s) (Z.of_nat i :: js))) dx 0 else 0) + nth (Z.to_nat (place (n :: s) (Z.of_nat i :: js'))) dy 0)%Qc /\
  forall x, nth (Z.to_nat (place (n :: s) (Z.of_nat i :: js'))) (flip_forward 1 (n :: s) axes bit x) 0%Qc = nth (Z.to_nat (place (n :: s) (Z.of_nat i :: js))) x 0%Qc.
Proof.
  intros n s axes bit accum dx dy i js NE A I J L. set (f := fun d => bit (i * length (n :: s) + d)%nat && existsb (Nat.eqb d) axes). exists (turned f 1 s js). split; [apply turned_in; exact J |]. split.
  - unfold flip_backward. apply put_at; [exact L |]. rewrite nth_error_map, (reads_at axes bit n s i js NE A I J). reflexivity.
  - intros x. rewrite (C138_values n s axes bit x i (turned f 1 s js) NE A I (turned_in f s 1 js J)). fold f. rewrite turned_twice by exact J. reflexivity.
Qed.
(** The output has as many elements as the input. *)
Theorem C138_size : forall n s axes bit x, s <> [] -> ~ In 0%nat axes -> Z.of_nat (length (flip_forward 1 (n :: s) axes bit x)) = elements (n :: s).
Proof.
  intros n s axes bit x NE A. unfold flip_forward. rewrite map_length, reads_samples by assumption. cbn [elements]. assert (H : forall (g : nat -> list Z -> Z) a, length (flat_map (fun i => map (g i) (indices s)) (seq a n)) = (n * Z.to_nat (elements s))%nat).
  { intros g. induction n as [| m IH]; intros a; [reflexivity |]. cbn [seq flat_map]. rewrite app_length, map_length, indices_length, IH. reflexivity. }
  rewrite (H (fun i js => place (n :: s) (Z.of_nat i :: turned (flip_at (flips_of 1 (n :: s) axes bit) i) 1 s js))). rewrite Nat2Z.inj_mul, Z2Nat.id by apply elements_nn. reflexivity.
Qed.
(** Refuted: with two sample axes every sample has flips of its own.  The last sample takes the flips
    of the first, and the flips of the third are never used. *)
Definition numbered (n : nat) : list Qc := map (fun i => Q2Qc (inject_Z (Z.of_nat i))) (seq 0 n).
Definition shown (l : list Qc) : list Q := map this l.
Theorem C138_two_axes_refuted : shown (flip_forward 2 [2; 2; 2]%nat [2%nat] (Nat.eqb 2) (numbered 8)) = map inject_Z [1; 0; 2; 3; 4; 5; 7; 6] /\
  shown (flip_forward 2 [2; 2; 2]%nat [2%nat] (Nat.eqb 8) (numbered 8)) = map inject_Z [0; 1; 2; 3; 4; 5; 6; 7].
Proof. split; vm_compute; reflexivity. Qed.
(** Refuted: the gradient is taken from where the value was put, if the sample axis is turned as
    well.  Here the first element of the input goes to the third of the output, but its gradient is
    taken from the last. *)
Theorem C138_sample_axis_refuted : let bit := fun k => Nat.ltb k 2 in
  shown (flip_forward 1 [2; 2]%nat [0; 1]%nat bit (numbered 4)) = map inject_Z [3; 2; 0; 1] /\ shown (flip_backward 1 [2; 2]%nat [0; 1]%nat bit false (numbered 4) (numbered 4)) = map inject_Z [3; 2; 0; 1].
Proof. split; vm_compute; reflexivity. Qed.
Example flip_works : shown (flip_forward 1 [2; 2; 2]%nat [1; 2]%nat (fun k => Nat.eqb k 1 || Nat.eqb k 5) (numbered 8)) = map inject_Z [2; 3; 0; 1; 5; 4; 7; 6].
Proof. vm_compute. reflexivity. Qed.
Print Assumptions C138_values.
Print Assumptions C138_gradient.
Print Assumptions C138_size.
