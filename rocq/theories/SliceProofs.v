(** Lemmas about slicing. *)
From Coq Require Import List ZArith Bool Lia.
From Verif Require Import NdModel NdSpec NdProofs SliceModel SliceSpec.
Import ListNotations.
Local Open Scope list_scope.
Local Open Scope Z_scope.

(** ** One axis *)
Definition walk (st k L : Z) : list Z := map (fun i => st + i * k) (upto L).
Lemma upto_nth L m : nth_error (upto L) m = if Z.of_nat m <? L then Some (Z.of_nat m) else None.
Proof.
  unfold upto. destruct (Z.ltb_spec (Z.of_nat m) L).
  - rewrite nth_error_map. rewrite nth_error_nth' with (d := O) by (rewrite seq_length; lia). cbn. rewrite seq_nth by lia. auto.
  - apply nth_error_None. rewrite map_length, seq_length. lia.
Qed.
Lemma walk_nth st k L m : nth_error (walk st k L) m = if Z.of_nat m <? L then Some (st + Z.of_nat m * k) else None.
Proof. unfold walk. rewrite nth_error_map, upto_nth. destruct (_ <? _); auto. Qed.
Lemma upto_length L : length (upto L) = Z.to_nat L.
Proof. unfold upto. rewrite map_length, seq_length. auto. Qed.
Lemma upto_range L : upto L = range 0 (Z.to_nat L).
Proof.
  unfold upto. change 0 with (Z.of_nat 0). generalize O. induction (Z.to_nat L) as [|n IH]; intros a; cbn; auto.
  rewrite IH. f_equal. f_equal. lia.
Qed.
Lemma upto_in L i : In i (upto L) <-> 0 <= i < L.
Proof. rewrite upto_range, range_in. lia. Qed.

Definition inb (n : Z) (ax : Z * Z * Z * Z) : Prop :=
  let '(st, _, k, L) := ax in 0 <= L /\ forall i, 0 <= i < L -> 0 <= st + i * k < n.
Definition no_none (o : option Z) : Prop := o <> Some slice_none.
Definition plain (a : option Z * option Z * option Z) : Prop :=
  let '(s, e, k) := a in no_none s /\ no_none e /\ no_none k.

(** Closed form of the bounds after setup. *)
Definition shift (n v : Z) : Z := if v <? 0 then v + n else v.
Definition ustart (n : Z) (s : option Z) (k : Z) : Z :=
  match s with Some v => shift n v | None => if 0 <? k then 0 else n - 1 end.
Definition ustop (n : Z) (s : option Z) (k : Z) : Z :=
  match s with Some v => shift n v | None => if 0 <? k then n else -1 end.
Definition ulen (n st sp k : Z) : Z :=
  if (k <? 0) && (sp <? st) then Z.quot (st - 1 - sp) (Z.abs k) + 1
  else if (0 <? k) && (st <? sp) then
    if sp <=? n then Z.quot (sp - 1 - st) (Z.abs k) + 1 else Z.quot (n - 1 - st) (Z.abs k) + 1
  else 0.
Lemma setup_fill n s e ok : 0 <= n < slice_none -> plain (s, e, ok) ->
  setup_axis n (fill n (s, e, ok)) =
  let k := match ok with Some k => k | None => 1 end in
  if k =? 0 then None else Some (ustart n s k, ustop n e k, k, ulen n (ustart n s k) (ustop n e k) k).
Proof.
  intros Hn (Hs & He & Hk). unfold no_none in *.
  set (k := match ok with Some k => k | None => 1 end). cbv zeta.
  assert (Nk : k <> slice_none) by (subst k; destruct ok; unfold slice_none in *; congruence).
  assert (Neg : match ok with Some k => k <? 0 | None => false end = (k <? 0)) by (subst k; destruct ok; auto).
  unfold fill. rewrite Neg. fold k. clearbody k. clear Neg Hk ok. unfold setup_axis.
  destruct (Z.eqb_spec k 0); auto. destruct (Z.eqb_spec k slice_none); [lia|].
  set (a := if _ <? 0 then _ + n else match s with Some v => v | None => _ end).
  assert (Ea : (if a =? slice_none then if 0 <? k then 0 else n - 1 else a) = ustart n s k).
  { subst a. unfold ustart, shift, slice_none in *. destruct s as [v|].
    - destruct (Z.ltb_spec v 0).
      + destruct (Z.eqb_spec (v + n) 2147483647); lia.
      + destruct (Z.eqb_spec v 2147483647); [subst; congruence|auto].
    - destruct (Z.ltb_spec k 0), (Z.ltb_spec 0 k); try lia; cbn [Z.ltb Z.compare].
      + destruct (Z.eqb_spec (-1 + n) 2147483647); lia.
      + reflexivity. }
  set (b := if _ <? 0 then _ + n else match e with Some v => v | None => _ end).
  assert (Eb : (if b =? slice_none then if 0 <? k then n else -1 else b) = ustop n e k).
  { subst b. unfold ustop, shift, slice_none in *. destruct e as [v|].
    - destruct (Z.ltb_spec v 0).
      + destruct (Z.eqb_spec (v + n) 2147483647); lia.
      + destruct (Z.eqb_spec v 2147483647); [subst; congruence|auto].
    - destruct (Z.ltb_spec k 0), (Z.ltb_spec 0 k); try lia.
      + destruct (Z.ltb_spec (- n - 1) 0); [|lia]. destruct (Z.eqb_spec (- n - 1 + n) 2147483647); lia.
      + destruct (Z.ltb_spec n 0); [lia|]. destruct (Z.eqb_spec n 2147483647); lia. }
  rewrite Ea, Eb. reflexivity.
Qed.

(** Quotients. *)
Lemma quot_spec a b : 0 <= a -> 0 < b -> Z.quot a b * b <= a < Z.quot a b * b + b.
Proof. intros A B. rewrite Z.quot_div_nonneg by lia. pose proof (Z.div_mod a b). pose proof (Z.mod_pos_bound a b B). nia. Qed.
Lemma quot_neg a b : a < 0 -> 0 < b -> Z.quot a b <= 0.
Proof. intros A B. assert (E : Z.quot a b = - Z.quot (- a) b) by (rewrite Z.quot_opp_l by lia; lia). rewrite E. pose proof (Z.quot_pos (- a) b). lia. Qed.

(** Within the axis means as in Python. *)
Lemma clamp_first n s k : 0 <= n -> k <> 0 -> first n s k =
  if 0 <? k then Z.max 0 (Z.min (ustart n s k) n) else Z.max (-1) (Z.min (ustart n s k) (n - 1)).
Proof.
  intros N K. unfold first, clamp, ustart, shift. destruct s as [v|]; destruct (Z.ltb_spec 0 k); try destruct (Z.ltb_spec v 0); lia.
Qed.
Lemma clamp_last n s k : 0 <= n -> k <> 0 -> last n s k =
  if 0 <? k then Z.max 0 (Z.min (ustop n s k) n) else Z.max (-1) (Z.min (ustop n s k) (n - 1)).
Proof.
  intros N K. unfold last, clamp, ustop, shift. destruct s as [v|]; destruct (Z.ltb_spec 0 k); try destruct (Z.ltb_spec v 0); lia.
Qed.
Lemma inb_python n st sp k : 0 <= n -> k <> 0 -> inb n (st, sp, k, ulen n st sp k) ->
  let i := if 0 <? k then Z.max 0 (Z.min st n) else Z.max (-1) (Z.min st (n - 1)) in
  let j := if 0 <? k then Z.max 0 (Z.min sp n) else Z.max (-1) (Z.min sp (n - 1)) in
  forall m x, nth_error (walk st k (ulen n st sp k)) m = Some x <->
    x = i + Z.of_nat m * k /\ (if 0 <? k then x < j else j < x).
Proof.
  intros N K [L0 B] i j m x. rewrite walk_nth. subst i j. unfold ulen in *.
  destruct (Z.ltb_spec 0 k) as [Kp|Kn].
  - destruct (Z.ltb_spec k 0); [lia|]. cbn [andb] in *. rewrite Z.abs_eq in * by lia.
    destruct (Z.ltb_spec st sp) as [S|S].
    + assert (E : (if sp <=? n then Z.quot (sp - 1 - st) k + 1 else Z.quot (n - 1 - st) k + 1) = Z.quot (Z.min sp n - 1 - st) k + 1)
        by (destruct (Z.leb_spec sp n); [rewrite Z.min_l by lia|rewrite Z.min_r by lia]; auto).
      rewrite E in *. clear E. set (q := Z.quot (Z.min sp n - 1 - st) k) in *.
      destruct (Z.le_gt_cases 0 (Z.min sp n - 1 - st)) as [G|G].
      * pose proof (quot_spec _ k G Kp) as Q. fold q in Q. assert (0 <= q) by (apply Z.quot_pos; lia).
        pose proof (B 0 ltac:(lia)).
        rewrite (Z.max_r 0 (Z.min st n)) by lia. rewrite Z.min_l by lia. rewrite (Z.max_r 0 (Z.min sp n)) by lia.
        destruct (Z.ltb_spec (Z.of_nat m) (q + 1)); split.
        -- intros [= <-]. split; auto. nia.
        -- intros [-> _]. auto.
        -- discriminate.
        -- intros [-> F]. nia.
      * pose proof (quot_neg _ k G Kp) as Q. fold q in Q.
        destruct (Z.eq_dec q 0) as [Q0|Q0]; [pose proof (B 0 ltac:(lia)); lia|].
        destruct (Z.ltb_spec (Z.of_nat m) (q + 1)); [lia|]. split; [discriminate|]. intros [-> F]. nia.
    + destruct (Z.ltb_spec (Z.of_nat m) 0); [lia|]. split; [discriminate|]. intros [-> F]. nia.
  - destruct (Z.ltb_spec k 0); [|lia]. cbn [andb] in *. rewrite Z.abs_neq in * by lia.
    destruct (Z.ltb_spec sp st) as [S|S].
    + set (q := Z.quot (st - 1 - sp) (- k)) in *.
      pose proof (quot_spec (st - 1 - sp) (- k) ltac:(lia) ltac:(lia)) as Q. fold q in Q.
      assert (0 <= q) by (apply Z.quot_pos; lia).
      pose proof (B 0 ltac:(lia)) as B0. pose proof (B q ltac:(lia)) as Bq.
      rewrite (Z.min_l st) by lia. rewrite (Z.max_r (-1) st) by lia. rewrite (Z.min_l sp) by lia.
      destruct (Z.ltb_spec (Z.of_nat m) (q + 1)); split.
      * intros [= <-]. split; auto. nia.
      * intros [-> _]. auto.
      * discriminate.
      * intros [-> F]. nia.
    + destruct (Z.ltb_spec (Z.of_nat m) 0); [lia|]. split; [discriminate|]. intros [-> F]. nia.
Qed.

(** Python stays inside the axis. *)
Lemma python_inside n a l : 0 <= n -> python_slice n a l -> forall x, In x l -> 0 <= x < n.
Proof.
  destruct a as [[s e] ok]. intros N [K P] x I. set (k := match ok with Some k => k | None => 1 end) in *. clearbody k.
  apply In_nth_error in I. destruct I as [m I]. apply P in I. destruct I as [-> F].
  rewrite clamp_first in * by auto. rewrite clamp_last in F by auto. destruct (Z.ltb_spec 0 k); nia.
Qed.
Lemma python_unique n a l l' : python_slice n a l -> python_slice n a l' -> l = l'.
Proof.
  destruct a as [[s e] ok]. intros [_ P] [_ P'].
  assert (E : forall m, nth_error l m = nth_error l' m).
  { intros m. destruct (nth_error l m) eqn:A; [symmetry; apply P', P; auto|].
    destruct (nth_error l' m) eqn:B; auto. apply P' in B. apply P in B. congruence. }
  clear P P'. revert l' E. induction l as [|x l IH]; intros [|y l'] E; auto.
  - specialize (E O). discriminate.
  - specialize (E O). discriminate.
  - pose proof (E O) as E0. injection E0 as <-. f_equal. apply IH. intros m. apply (E (S m)).
Qed.

(** ** All axes *)
Lemma contiguous_sfx s t : contiguous (s :: t) = sfx t.
Proof.
  revert s. induction t as [|s' t IH]; intros s; [reflexivity|].
  change (contiguous (s :: s' :: t)) with
    (match contiguous (s' :: t) with r :: rest => r * hd 1 (s' :: t) :: r :: rest | [] => [1] end).
  rewrite IH. cbn [sfx hd size]. destruct t; cbn [sfx size]; f_equal; lia.
Qed.
Lemma product_size shape : product shape = size shape.
Proof.
  unfold product. assert (H : forall a, fold_left Z.mul shape a = a * size shape); [|rewrite H; lia].
  induction shape as [|s t IH]; intros a; cbn [fold_left size]; [lia|]. rewrite IH. lia.
Qed.

Fixpoint src (axes : list (Z * Z * Z * Z)) (idx : list Z) : list Z :=
  match axes, idx with
  | (st, _, k, _) :: axes, i :: idx => st + i * k :: src axes idx
  | _, _ => []
  end.
Lemma offsets_map axes : forall shape xo yo, length axes = length shape -> axes <> [] ->
  offsets axes (contiguous shape) (contiguous (out_shape axes)) xo yo =
  map (fun idx => (xo + off (src axes idx) shape, yo + off idx (out_shape axes))) (indices (out_shape axes)).
Proof.
  induction axes as [|[[[st sp] k] L] axes IH]; intros shape xo yo Len N; [congruence|].
  destruct shape as [|s t]; [discriminate|]. cbn [length] in Len. injection Len as Len.
  cbn [out_shape map]. fold (out_shape axes). rewrite !contiguous_sfx.
  destruct axes as [|a axes].
  - destruct t; [|discriminate]. cbn [sfx offsets indices out_shape map]. rewrite upto_range.
    induction (range 0 (Z.to_nat L)) as [|i l IHl]; cbn [map flat_map app]; auto. rewrite <- IHl. f_equal.
    cbn [src off size]. f_equal; lia.
  - destruct t as [|s' t]; [discriminate|].
    remember (a :: axes) as rest. cbn [offsets]. rewrite upto_range.
    assert (C : exists a' r', out_shape rest = a' :: r') by (subst rest; cbn; eauto).
    destruct C as (a' & r' & C). rewrite C.
    cbn [sfx]. rewrite Heqrest at 1.
    rewrite <- !(contiguous_sfx s' t). rewrite <- (contiguous_sfx a' r'). rewrite <- C.
    cbn [indices]. rewrite !flat_map_concat_map, concat_map, !map_map. f_equal. apply map_ext. intros i.
    rewrite IH by (cbn [length] in *; congruence || lia). rewrite map_map. apply map_ext. intros idx.
    cbn [src off]. f_equal; [|lia].
    set (z := size (s' :: t)). clearbody z. set (o := off _ (s' :: t)). clearbody o. lia.
Qed.

(** ** Memory *)
Lemma update_ok {A} (l : list A) i f v : nth_error l i = Some v ->
  exists r, update l i f = Some r /\ length r = length l /\ nth_error r i = Some (f v) /\
    forall j, j <> i -> nth_error r j = nth_error l j.
Proof.
  revert i. induction l as [|x l IH]; intros [|i] H; cbn [nth_error update] in *; try discriminate.
  - injection H as ->. eexists. split; [reflexivity|]. repeat split; auto. intros [|j] J; [congruence|auto].
  - destruct (IH _ H) as (r & -> & Len & R & O). eexists. split; [reflexivity|]. cbn [length nth_error].
    split; [lia|]. split; auto. intros [|j] J; auto. apply O. lia.
Qed.
Definition at_ {A} (l : list A) (i : Z) : option A := if i <? 0 then None else nth_error l (Z.to_nat i).
Lemma at_some {A} (l : list A) i : 0 <= i < Z.of_nat (length l) -> exists v, at_ l i = Some v.
Proof.
  intros H. unfold at_. destruct (Z.ltb_spec i 0); [lia|]. destruct (nth_error l (Z.to_nat i)) eqn:E; eauto.
  apply nth_error_None in E. lia.
Qed.
Lemma transfer_ok {A} (f : A -> A -> A) pairs s : forall d, NoDup (map snd pairs) ->
  (forall a b, In (a, b) pairs -> 0 <= a < Z.of_nat (length s) /\ 0 <= b < Z.of_nat (length d)) ->
  exists r, transfer f pairs s d = Some r /\ length r = length d /\
    (forall a b, In (a, b) pairs -> exists v o, at_ s a = Some v /\ at_ d b = Some o /\ at_ r b = Some (f o v)) /\
    (forall b, ~ In b (map snd pairs) -> at_ r b = at_ d b).
Proof.
  induction pairs as [|[a b] pairs IH]; intros d ND B.
  - exists d. cbn. repeat split; auto. intros a b [].
  - cbn [map snd] in ND. inversion ND as [|? ? NI ND']; subst.
    destruct (B a b (or_introl eq_refl)) as [Ba Bb].
    destruct (at_some _ _ Ba) as [v V]. destruct (at_some _ _ Bb) as [o O].
    cbn [transfer]. pose proof V as V'. pose proof O as O'. unfold at_ in V', O'.
    destruct (Z.ltb_spec a 0); [lia|]. destruct (Z.ltb_spec b 0); [lia|]. cbn [orb]. rewrite V'.
    destruct (update_ok d (Z.to_nat b) (fun old => f old v) o O') as (d1 & U & Len & At & Oth). rewrite U.
    assert (Oth' : forall c, c <> b -> at_ d1 c = at_ d c).
    { intros c C. unfold at_. destruct (Z.ltb_spec c 0); auto. apply Oth. lia. }
    assert (At' : at_ d1 b = Some (f o v)) by (unfold at_; destruct (Z.ltb_spec b 0); [lia|auto]).
    destruct (IH d1 ND') as (r & R & Lr & In' & Out').
    { intros a' b' I. rewrite Len. apply B. right; auto. }
    exists r. rewrite R. split; auto. split; [lia|]. split.
    + intros a' b' [E|I].
      * injection E as <- <-. exists v, o. split; auto. split; auto. rewrite Out'; auto.
      * destruct (In' _ _ I) as (v' & o' & V2 & O2 & R2). exists v', o'. split; auto. split; auto.
        rewrite <- Oth'; auto. intros ->. apply NI. apply in_map_iff. exists (a', b). auto.
    + intros c C. cbn [map snd] in C. rewrite Out' by (intros X; apply C; right; auto). apply Oth'. intros ->. apply C. left; auto.
Qed.

(** ** The whole function *)
Definition axes_ok (shape : list Z) (axes : list (Z * Z * Z * Z)) : Prop :=
  Forall2 (fun n ax => inb n ax /\ snd (fst ax) <> 0) shape axes.
Lemma axes_ok_len shape axes : axes_ok shape axes -> length axes = length shape.
Proof. induction 1; cbn; congruence. Qed.
Lemma src_inside shape axes : axes_ok shape axes -> forall idx, inside idx (out_shape axes) -> inside (src axes idx) shape.
Proof.
  induction 1 as [|n [[[st sp] k] L] shape axes [[L0 B] K] F IH]; intros idx I; inversion I; subst; cbn [src]; constructor.
  - apply B. auto.
  - apply IH. auto.
Qed.
Lemma src_inj shape axes : axes_ok shape axes -> forall i j, inside i (out_shape axes) -> inside j (out_shape axes) ->
  src axes i = src axes j -> i = j.
Proof.
  induction 1 as [|n [[[st sp] k] L] shape axes [[L0 B] K] F IH]; intros i j I J E; inversion I; inversion J; subst; auto.
  cbn [src] in E. injection E as E1 E2. f_equal; [|eapply IH; eauto]. cbn in K. nia.
Qed.
Lemma off_inj shape i j : inside i shape -> inside j shape -> off i shape = off j shape -> i = j.
Proof.
  intros I J E. destruct shape as [|s t]; [inversion I; inversion J; auto|].
  rewrite <- (flat2nd_ok (s :: t) i s t eq_refl I), <- (flat2nd_ok (s :: t) j s t eq_refl J). rewrite E. auto.
Qed.
Lemma NoDup_map_in {A B} (g : A -> B) l : NoDup l -> (forall x y, In x l -> In y l -> g x = g y -> x = y) -> NoDup (map g l).
Proof.
  induction 1 as [|x l N ND IH]; intros J; cbn; constructor.
  - intros I. apply in_map_iff in I. destruct I as (y & E & I). apply N. rewrite <- (J y x); auto; [right|left]; auto.
  - apply IH. intros a b Ia Ib. apply J; right; auto.
Qed.
Lemma range_nodup from n : NoDup (range from n).
Proof.
  revert from. induction n as [|n IH]; intros from; cbn; constructor; auto. rewrite range_in. lia.
Qed.
Lemma axes_ok_nonneg shape axes : axes_ok shape axes -> Forall (fun s => 0 <= s) (out_shape axes).
Proof. induction 1 as [|n [[[st sp] k] L] shape axes [[L0 B] K] F IH]; constructor; auto. Qed.
Lemma indices_nodup shape : Forall (fun s => 0 <= s) shape -> NoDup (indices shape).
Proof. intros P. eapply NoDup_map_inv with (f := fun x => off x shape). rewrite indices_off by auto. apply range_nodup. Qed.
Lemma exists_neg l : Forall (fun s => 0 <= s) l -> existsb (fun s => s <? 0) l = false.
Proof. induction 1; cbn; auto. rewrite IHForall. destruct (Z.ltb_spec x 0); [lia|auto]. Qed.
Lemma inside_size_pos idx shape : inside idx shape -> 0 < size shape.
Proof. intros I. apply size_pos. eapply inside_positive. eauto. Qed.

Lemma forward_ok {A} shape axes (x y : list A) : shape <> [] -> axes_ok shape axes ->
  Z.of_nat (length x) = size shape -> Z.of_nat (length y) = size (out_shape axes) ->
  exists r, forward shape axes x y = Some r /\ length r = length y /\
    forall idx, inside idx (out_shape axes) -> exists v,
      at_ x (off (src axes idx) shape) = Some v /\ at_ r (off idx (out_shape axes)) = Some v.
Proof.
  intros N OK Lx Ly. pose proof (axes_ok_len _ _ OK) as Len. pose proof (axes_ok_nonneg _ _ OK) as P.
  unfold forward. rewrite exists_neg by auto. destruct shape as [|s t]; [congruence|]. cbn [length Nat.eqb orb].
  rewrite product_size. destruct (Z.eqb_spec (size (out_shape axes)) 0) as [Z0|Z0].
  - exists y. split; auto. split; auto. intros idx I. apply inside_size_pos in I. lia.
  - rewrite offsets_map by (auto; destruct axes; discriminate || congruence).
    set (prs := map _ (indices (out_shape axes))).
    assert (Hin : forall a b, In (a, b) prs <-> exists idx, inside idx (out_shape axes) /\ a = off (src axes idx) (s :: t) /\ b = off idx (out_shape axes)).
    { intros a b. unfold prs. rewrite in_map_iff. split.
      - intros (idx & E & I). injection E as E1 E2. exists idx. rewrite <- indices_in. split; [exact I|]. split; lia.
      - intros (idx & I & -> & ->). exists idx. rewrite indices_in. split; auto. }
    destruct (transfer_ok (fun _ v => v) prs x y) as (r & R & Lr & In' & _).
    + unfold prs. rewrite map_map. cbn [snd]. rewrite map_ext with (g := fun idx => off idx (out_shape axes)) by (intros; lia).
      rewrite indices_off by auto. apply range_nodup.
    + intros a b I. apply Hin in I. destruct I as (idx & I & -> & ->).
      rewrite Lx, Ly. split; apply off_bound; auto. apply src_inside; auto.
    + exists r. split; auto. split; auto. intros idx I.
      destruct (In' _ _ (proj2 (Hin _ _) (ex_intro _ idx (conj I (conj eq_refl eq_refl))))) as (v & o & V & _ & R'). eauto.
Qed.

Lemma backward_ok {A} (zero : A) (add : A -> A -> A) shape axes (accum : bool) (dy dx : list A) : shape <> [] -> axes_ok shape axes ->
  Z.of_nat (length dx) = size shape -> Z.of_nat (length dy) = size (out_shape axes) ->
  size (out_shape axes) <> 0 ->
  let dx0 := if accum then dx else map (fun _ => zero) dx in
  exists r, backward zero add shape axes accum dy dx = Some r /\ length r = length dx /\
    (forall idx, inside idx (out_shape axes) -> exists g o,
      at_ dy (off idx (out_shape axes)) = Some g /\ at_ dx0 (off (src axes idx) shape) = Some o /\
      at_ r (off (src axes idx) shape) = Some (add o g)) /\
    (forall j, inside j shape -> (forall idx, inside idx (out_shape axes) -> src axes idx <> j) ->
      at_ r (off j shape) = at_ dx0 (off j shape)).
Proof.
  intros N OK Lx Ly Z0 dx0. pose proof (axes_ok_len _ _ OK) as Len. pose proof (axes_ok_nonneg _ _ OK) as P.
  unfold backward. rewrite exists_neg by auto. destruct shape as [|s t]; [congruence|]. cbn [length Nat.eqb orb].
  rewrite product_size. destruct (Z.eqb_spec (size (out_shape axes)) 0) as [|_]; [lia|]. fold dx0.
  assert (L0 : length dx0 = length dx) by (unfold dx0; destruct accum; rewrite ?map_length; auto).
  rewrite offsets_map by (auto; destruct axes; discriminate || congruence). rewrite map_map.
  set (prs := map _ (indices (out_shape axes))).
  assert (Hin : forall a b, In (a, b) prs <-> exists idx, inside idx (out_shape axes) /\ b = off (src axes idx) (s :: t) /\ a = off idx (out_shape axes)).
  { intros a b. unfold prs. rewrite in_map_iff. split.
    - intros (idx & E & I). injection E as E1 E2. exists idx. rewrite <- indices_in. split; [exact I|]. split; lia.
    - intros (idx & I & -> & ->). exists idx. rewrite indices_in. split; auto. }
  destruct (transfer_ok add prs dy dx0) as (r & R & Lr & In' & Out').
  - unfold prs. rewrite map_map. cbn [snd]. apply NoDup_map_in; [apply indices_nodup; auto|].
    intros i j I J E. rewrite indices_in in I, J. eapply src_inj; eauto. eapply off_inj; [eapply src_inside; eauto| |].
    + eapply src_inside; eauto.
    + lia.
  - intros a b I. apply Hin in I. destruct I as (idx & I & -> & ->).
    rewrite L0, Lx, Ly. split; apply off_bound; auto. apply src_inside; auto.
  - exists r. split; auto. split; [lia|]. split.
    + intros idx I.
      destruct (In' _ _ (proj2 (Hin _ _) (ex_intro _ idx (conj I (conj eq_refl eq_refl))))) as (v & o & V & O & R'). eauto.
    + intros j J Hj. apply Out'. intros I. apply in_map_iff in I. destruct I as ([a b] & E & I). cbn [snd] in E. subst b.
      apply Hin in I. destruct I as (idx & I & E & _). apply (Hj idx I). symmetry. eapply off_inj; [exact J| |exact E].
      apply src_inside; auto.
Qed.
