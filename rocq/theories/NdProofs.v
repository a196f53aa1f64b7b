(** Proofs about index arithmetic. *)
From Coq Require Import List ZArith Bool Lia.
From Verif Require Import NdModel NdSpec.
Import ListNotations.
Local Open Scope list_scope.
Local Open Scope Z_scope.

Definition positive (shape : list Z) : Prop := Forall (fun s => 0 < s) shape.

Lemma size_pos shape : positive shape -> 0 < size shape.
Proof. induction 1; cbn; [lia|]. nia. Qed.
Lemma size_nonneg shape : Forall (fun s => 0 <= s) shape -> 0 <= size shape.
Proof. induction 1; cbn; [lia|]. nia. Qed.
Lemma inside_positive index shape : inside index shape -> positive shape.
Proof. induction 1; constructor; auto. lia. Qed.
Lemma inside_length index shape : inside index shape -> length index = length shape.
Proof. induction 1; cbn; auto. Qed.

(** Strides are the sizes of the inner shapes. *)
Fixpoint sfx (t : list Z) : list Z := size t :: match t with [] => [] | _ :: t => sfx t end.
Lemma psum_sfx t : psum_r (t ++ [1]) = sfx t.
Proof.
  induction t as [|x t IH]; [reflexivity|]. cbn [app psum_r sfx]. rewrite IH. destruct t; cbn [sfx size]; f_equal; lia.
Qed.
Lemma sfx_length t : length (sfx t) = S (length t).
Proof. induction t; cbn [sfx length]; auto. Qed.
Lemma strides_sfx s t : strides (s :: t) = Some (sfx t).
Proof. unfold strides. rewrite psum_sfx. auto. Qed.

Fixpoint off (index shape : list Z) : Z :=
  match index, shape with i :: index, _ :: shape => i * size shape + off index shape | _, _ => 0 end.
Lemma position_off index shape : inside index shape -> forall acc, position acc index shape = acc * size shape + off index shape.
Proof. induction 1 as [|i s index shape H F IH]; intros acc; cbn [position off size]; [lia|]. rewrite IH. ring. Qed.
Lemma off_bound index shape : inside index shape -> 0 <= off index shape < size shape.
Proof. induction 1 as [|i s index shape H F IH]; cbn [off size]; nia. Qed.
Lemma dot_off index s t : inside index (s :: t) -> dot index (sfx t) = off index (s :: t).
Proof.
  revert index s. induction t as [|x t IH]; intros index s H; inversion H as [|i ? index' ? Hi F]; subst.
  - inversion F; subst. cbn. lia.
  - cbn [sfx dot off]. rewrite (IH _ _ F). reflexivity.
Qed.

Lemma wrap_small z : 0 <= z < 2147483648 -> wrap z = z.
Proof. intros H. unfold wrap. rewrite Z.mod_small; lia. Qed.
Lemma dot_nonneg a b : Forall (fun x => 0 <= x) a -> Forall (fun x => 0 <= x) b -> 0 <= dot a b.
Proof. intros A. revert b. induction A; intros b B; destruct B; cbn; try lia. apply IHA in B. nia. Qed.
Lemma inner_dot a : forall b acc, 0 <= acc -> Forall (fun x => 0 <= x) a -> Forall (fun x => 0 <= x) b ->
  acc + dot a b < 2147483648 -> inner_product acc a b = acc + dot a b.
Proof.
  induction a as [|x a IH]; intros b acc H A B L; [cbn; lia|]. destruct b as [|y b]; [cbn; lia|].
  cbn [inner_product dot] in *. inversion A; subst. inversion B; subst. pose proof (dot_nonneg a b ltac:(auto) ltac:(auto)).
  rewrite wrap_small by nia. rewrite IH; auto; nia.
Qed.
Lemma sfx_nonneg t : positive t -> Forall (fun x => 0 <= x) (sfx t).
Proof. induction 1 as [|x t Hx F IH]; cbn [sfx]; constructor; auto; [cbn; lia|]. pose proof (size_pos t F). cbn [size]. nia. Qed.
Lemma inside_nonneg index shape : inside index shape -> Forall (fun x => 0 <= x) index.
Proof. induction 1; constructor; auto. lia. Qed.

Lemma nd2flat_ok index s t : inside index (s :: t) -> size (s :: t) <= 2147483648 ->
  nd2flat index (sfx t) = Some (position 0 index (s :: t)).
Proof.
  intros H L. unfold nd2flat. rewrite (inside_length _ _ H), sfx_length. cbn [length]. rewrite Nat.leb_refl.
  pose proof (inside_positive _ _ H) as P. inversion P; subst. pose proof (off_bound _ _ H) as B.
  rewrite (position_off _ _ H), <- (dot_off _ _ _ H) in *.
  rewrite inner_dot; [f_equal; lia|lia| | |lia].
  - eapply inside_nonneg; eauto.
  - apply sfx_nonneg. auto.
Qed.

Lemma flat2nd_ok shape : forall index s t, shape = s :: t -> inside index shape -> flat2nd (off index shape) (sfx t) = index.
Proof.
  induction shape as [|s0 shape IH]; intros index s t E H; [discriminate|]. inversion E; subst s0 shape.
  inversion H as [|i ? index' ? Hi F]; subst. cbn [off]. pose proof (off_bound _ _ F) as B.
  destruct t as [|x t].
  - inversion F; subst. cbn [sfx flat2nd size off]. rewrite Z.div_1_r. f_equal. lia.
  - cbn [sfx flat2nd]. change (size (x :: t)) with (size (x :: t)) in *. set (S := size (x :: t)) in *.
    assert (Q : (i * S + off index' (x :: t)) / S = i).
    { rewrite Z.div_add_l by lia. rewrite (Z.div_small (off index' (x :: t)) S) by lia. lia. }
    rewrite Q. f_equal. replace (i * S + off index' (x :: t) - i * S) with (off index' (x :: t)) by lia. eapply IH; eauto.
Qed.
Lemma flat2nd_inside shape : forall k s t, shape = s :: t -> positive shape -> 0 <= k < size shape ->
  inside (flat2nd k (sfx t)) shape /\ off (flat2nd k (sfx t)) shape = k.
Proof.
  induction shape as [|s0 shape IH]; intros k s t E P K; [discriminate|]. inversion E; subst s0 shape.
  inversion P as [|? ? Hs Pt]; subst. pose proof (size_pos _ Pt) as Sp. cbn [size] in K.
  assert (Q : 0 <= k / size t < s).
  { split; [apply Z.div_pos; lia|]. apply Z.div_lt_upper_bound; nia. }
  assert (R : 0 <= k - k / size t * size t < size t).
  { pose proof (Z.div_mod k (size t) ltac:(lia)). pose proof (Z.mod_pos_bound k (size t) Sp). nia. }
  destruct t as [|x t].
  - cbn [sfx flat2nd off size]. cbn [size] in *. split; [constructor; [auto|constructor]|]. lia.
  - cbn [sfx flat2nd off]. destruct (IH _ x t eq_refl Pt R) as (A & B). split; [constructor; auto|]. rewrite B. lia.
Qed.

(** Increment. *)
Fixpoint inc (index shape : list Z) : list Z * bool :=
  match index, shape with
  | i :: index, s :: shape =>
      let (r, b) := inc index shape in
      if b then (i :: r, true) else if i + 1 <? s then (i + 1 :: r, true) else (0 :: r, false)
  | index, _ => (index, false)
  end.
Lemma inc_rev_app a b i s : length a = length b -> inc_rev (a ++ [i]) (b ++ [s]) =
  let (r, bb) := inc_rev a b in
  if bb then (r ++ [i], true) else if i + 1 <? s then (r ++ [i + 1], true) else (r ++ [0], false).
Proof.
  revert b. induction a as [|x a IH]; intros [|y b] L; try discriminate; cbn [app inc_rev].
  - destruct (i + 1 <? s); reflexivity.
  - destruct (x + 1 <? y); [reflexivity|]. rewrite IH by (cbn in L; lia).
    destruct (inc_rev a b) as [r bb]. destruct bb; [reflexivity|]. destruct (i + 1 <? s); reflexivity.
Qed.
Lemma inc_inc_rev index : forall shape, length index = length shape ->
  inc_rev (rev index) (rev shape) = let (r, b) := inc index shape in (rev r, b).
Proof.
  induction index as [|i index IH]; intros [|s shape] L; try discriminate; [reflexivity|].
  cbn [rev inc]. rewrite inc_rev_app by (rewrite !rev_length; cbn in L; lia). rewrite IH by (cbn in L; lia).
  destruct (inc index shape) as [r b]. destruct b; [reflexivity|]. destruct (i + 1 <? s); reflexivity.
Qed.
Lemma increment_inc index shape : length index = length shape -> increment index shape = Some (inc index shape).
Proof.
  intros L. unfold increment. rewrite L, Nat.eqb_refl, inc_inc_rev by auto.
  destruct (inc index shape) as [r b]. rewrite rev_involutive. reflexivity.
Qed.
Definition zeros (shape : list Z) : list Z := map (fun _ => 0) shape.
Lemma inc_ok index shape : inside index shape ->
  (off index shape + 1 < size shape -> exists n, inc index shape = (n, true) /\ inside n shape /\ off n shape = off index shape + 1) /\
  (off index shape + 1 = size shape -> inc index shape = (zeros shape, false)).
Proof.
  induction 1 as [|i s index shape Hi F IH]; cbn [inc off size zeros map].
  - split; [lia|auto].
  - destruct IH as (A & B). pose proof (off_bound _ _ F) as Bd.
    destruct (Z.eq_dec (off index shape + 1) (size shape)) as [E|E].
    + rewrite (B E). destruct (Z.ltb_spec (i + 1) s) as [X|X].
      * split; [|nia]. intros _. exists (i + 1 :: zeros shape). split; auto. 
        assert (Z0 : inside (zeros shape) shape /\ off (zeros shape) shape = 0).
        { clear - F. induction F as [|? ? ? ? H F IH]; cbn; [split; [constructor|auto]|]. destruct IH as (P & Q). split; [constructor; auto; lia|]. unfold zeros in Q. rewrite Q. lia. }
        destruct Z0 as (P & Q). split; [constructor; auto; lia|]. cbn [off]. rewrite Q. lia.
      * split; [|auto]. intros L. nia.
    + destruct (A ltac:(lia)) as (n & En & In' & On). rewrite En. split; [|nia].
      intros _. exists (i :: n). split; auto. split; [constructor; auto|]. cbn [off]. rewrite On. lia.
Qed.
Lemma inc_false_zeros index : forall shape r, length index = length shape -> inc index shape = (r, false) -> r = zeros shape.
Proof.
  induction index as [|i index IH]; intros [|s shape] r L; try discriminate; cbn [inc].
  - intros [= <-]. auto.
  - destruct (inc index shape) as [q b] eqn:E. destruct b; [discriminate|]. destruct (i + 1 <? s); [discriminate|].
    intros [= <-]. cbn. f_equal. eapply IH; eauto.
Qed.
Lemma inc_length index : forall shape, length index = length shape -> length (fst (inc index shape)) = length index.
Proof.
  induction index as [|i index IH]; intros [|s shape] L; try discriminate; [reflexivity|]. cbn [inc].
  specialize (IH shape ltac:(cbn in L; lia)). destruct (inc index shape) as [q b]. cbn [fst] in IH.
  destruct b; [cbn; auto|]. destruct (i + 1 <? s); cbn; auto.
Qed.

(** The enumeration. *)
Inductive V (shape : list Z) : list Z -> list (list Z) -> Prop :=
| V_last index r : inc index shape = (r, false) -> V shape index [index]
| V_next index n l : inc index shape = (n, true) -> V shape n l -> V shape index (index :: l).
Lemma zeros_len t : length (zeros t) = length t. Proof. apply map_length. Qed.
Lemma V_cons s t i idx L : V t idx L -> length idx = length t ->
  (s <= i + 1 -> V (s :: t) (i :: idx) (map (cons i) L)) /\
  (forall M, i + 1 < s -> V (s :: t) (i + 1 :: zeros t) M -> V (s :: t) (i :: idx) (map (cons i) L ++ M)).
Proof.
  induction 1 as [idx r E|idx n l E VN IH]; intros Len.
  - pose proof (inc_false_zeros _ _ _ Len E) as ->. split.
    + intros H. cbn [map]. eapply V_last. cbn [inc]. rewrite E. destruct (Z.ltb_spec (i + 1) s); [lia|reflexivity].
    + intros M H VM. cbn [map app]. eapply V_next; [|exact VM]. cbn [inc]. rewrite E. destruct (Z.ltb_spec (i + 1) s); [reflexivity|lia].
  - assert (Ln : length n = length t). { pose proof (inc_length _ _ Len) as X. rewrite E in X. cbn in X. congruence. }
    destruct (IH Ln) as (A & B). split.
    + intros H. cbn [map]. eapply V_next; [|apply A; auto]. cbn [inc]. rewrite E. reflexivity.
    + intros M H VM. cbn [map app]. eapply V_next; [|apply B; eauto]. cbn [inc]. rewrite E. reflexivity.
Qed.
Lemma V_all shape : positive shape -> V shape (zeros shape) (indices shape).
Proof.
  induction 1 as [|s t Hs P IH]; [eapply V_last; reflexivity|]. cbn [indices].
  enough (G : forall n i, Z.of_nat (S n) = s - i -> V (s :: t) (i :: zeros t) (flat_map (fun i => map (cons i) (indices t)) (range i (S n)))).
  { replace (Z.to_nat s) with (S (Z.to_nat (s - 1))) by lia. change (zeros (s :: t)) with (0 :: zeros t). apply G. lia. }
  induction n as [|n IHn]; intros i E; destruct (V_cons s t i (zeros t) _ IH (zeros_len t)) as (A & B).
  - cbn [range flat_map]. rewrite app_nil_r. apply A. lia.
  - change (flat_map (fun i0 => map (cons i0) (indices t)) (range i (S (S n)))) with
      (map (cons i) (indices t) ++ flat_map (fun i0 => map (cons i0) (indices t)) (range (i + 1) (S n))).
    apply B; [lia|]. apply IHn. lia.
Qed.
Lemma V_visit shape index l : V shape index l -> length index = length shape -> forall fuel, (length l <= fuel)%nat -> visit fuel index shape = Some l.
Proof.
  induction 1 as [idx r E|idx n l E VN IH]; intros Len [|fuel] F; cbn in F; try lia; cbn [visit]; rewrite increment_inc, E by auto; auto.
  rewrite IH; [auto| |lia]. pose proof (inc_length _ _ Len) as X. rewrite E in X. cbn in X. congruence.
Qed.

(** The list of all indices. *)
Lemma range_in from n x : In x (range from n) <-> from <= x < from + Z.of_nat n.
Proof. revert from. induction n as [|n IH]; intros from; cbn [range In]; [lia|]. rewrite IH. lia. Qed.
Lemma range_app from n m : range from (n + m) = range from n ++ range (from + Z.of_nat n) m.
Proof. revert from. induction n as [|n IH]; intros from; cbn [range app Nat.add]; [f_equal; lia|]. rewrite IH. do 3 f_equal. lia. Qed.
Lemma map_add_range c from n : map (Z.add c) (range from n) = range (c + from) n.
Proof. revert from. induction n as [|n IH]; intros from; cbn; auto. rewrite IH. do 2 f_equal. lia. Qed.
Lemma indices_in shape index : In index (indices shape) <-> inside index shape.
Proof.
  revert index. induction shape as [|s t IH]; intros index; cbn [indices].
  - split; [intros [<-|[]]; constructor|]. intros H. inversion H. left. auto.
  - rewrite in_flat_map. split.
    + intros (i & Hi & H). apply in_map_iff in H as (r & <- & H). apply IH in H. apply range_in in Hi. constructor; auto. lia.
    + intros H. inversion H as [|i ? r ? Hi F]; subst. exists i. split; [apply range_in; lia|]. apply in_map. apply IH. auto.
Qed.
Lemma indices_off shape : Forall (fun s => 0 <= s) shape -> map (fun x => off x shape) (indices shape) = range 0 (Z.to_nat (size shape)).
Proof.
  induction 1 as [|s t Hs P IH]; [reflexivity|]. cbn [indices size].
  pose proof (size_nonneg _ P) as Sp.
  enough (G : forall n from, map (fun x => off x (s :: t)) (flat_map (fun i => map (cons i) (indices t)) (range from n)) =
     range (from * size t) (n * Z.to_nat (size t))).
  { rewrite G. f_equal. rewrite Z2Nat.inj_mul by lia. auto. }
  induction n as [|n IHn]; intros from; [reflexivity|]. cbn [range flat_map]. rewrite map_app, IHn, map_map. cbn [off Nat.mul].
  rewrite range_app. f_equal.
  - rewrite <- (map_map (fun x => off x t) (fun z => from * size t + z)), IH.
    rewrite (map_add_range (from * size t)). f_equal. lia.
  - f_equal. lia.
Qed.
