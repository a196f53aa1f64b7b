(** Lemmas about keys: completing them, the slices of their entries, the shape of the result. *)
From Coq Require Import List ZArith Bool Lia QArith Qcanon.
From Verif Require SliceModel SliceProofs SliceProps.
From Verif Require Import NdModel NdSpec NdProofs SliceSpec IdxModel IdxProofs1 IdxProofs2 ScanModel KeyModel KeySpec.
Import ListNotations.
Local Open Scope list_scope.
Local Open Scope Z_scope.

Local Notation old := (fun k => negb (is_new k)).
(** * Completion *)
Lemma replace_app ins a b : ~ In KDots a -> replace_dots ins (a ++ KDots :: b) = a ++ repeat whole ins ++ b.
Proof.
  induction a as [| k a IH]; intros N; cbn [app replace_dots]; [reflexivity |]. cbn [In] in N. rewrite IH by tauto. destruct k; try reflexivity. exfalso. apply N. left. reflexivity.
Qed.
Lemma dots_in l : existsb is_dots l = true <-> In KDots l.
Proof.
  rewrite existsb_exists. split; [intros (k & I & E); destruct k; try discriminate; exact I |]. intros I. exists KDots. split; [exact I | reflexivity].
Qed.
Lemma dots_not l : ~ In KDots l -> existsb is_dots l = false.
Proof. intros N. destruct (existsb is_dots l) eqn:E; [apply dots_in in E; tauto | reflexivity]. Qed.
Lemma old_in l k : In k (filter old l) <-> In k l /\ k <> KNew.
Proof. rewrite filter_In. destruct k; cbn; split; intros [H1 H2]; split; auto; try discriminate; congruence. Qed.
Lemma old_axis l : ~ In KDots l -> filter old l = axis_keys l.
Proof.
  unfold axis_keys. induction l as [| k l IH]; intros N; [reflexivity |]. cbn [In] in N. cbn [filter]. rewrite IH by tauto. destruct k; try reflexivity. exfalso. apply N. left. reflexivity.
Qed.
Lemma old_full m : filter old (repeat whole m) = repeat whole m.
Proof. induction m as [| m IH]; [reflexivity |]. cbn [repeat filter]. rewrite IH. reflexivity. Qed.
Lemma axis_full m : axis_keys (repeat whole m) = repeat whole m.
Proof. unfold axis_keys. induction m as [| m IH]; [reflexivity |]. cbn [repeat filter]. rewrite IH. reflexivity. Qed.
Lemma axis_app a b : axis_keys (a ++ b) = axis_keys a ++ axis_keys b.
Proof. apply filter_app. Qed.
Lemma no_dots_full m : ~ In KDots (repeat whole m).
Proof. intros I. apply repeat_spec in I. discriminate. Qed.
Lemma no_dots_axis l : ~ In KDots (axis_keys l).
Proof. unfold axis_keys. rewrite filter_In. intros [_ H]. discriminate. Qed.
Lemma axis_length_le l : (length (axis_keys l) <= length l)%nat.
Proof. unfold axis_keys. induction l as [| k l IH]; cbn [filter length]; [lia |]. destruct (uses_axis k); cbn [length]; lia. Qed.
Lemma axis_all l : ~ In KDots l -> ~ In KNew l -> axis_keys l = l.
Proof.
  unfold axis_keys. induction l as [| k l IH]; intros D N; [reflexivity |]. cbn [In] in *. cbn [filter]. rewrite IH by tauto. destruct k; try reflexivity; exfalso; [apply D | apply N]; left; reflexivity.
Qed.
(** The keys after prepare. *)
Definition finish (shape : list Z) (keys idx : list key) : option (list key * list sl) :=
  obind (as_slices shape idx) (fun args => match args with [] => None | _ => Some (keys, args) end).
Lemma prepare_dots a b m shape : ~ In KDots a -> ~ In KDots b -> (length (axis_keys (a ++ b)) + m = length shape)%nat ->
  prepare (a ++ KDots :: b) shape = finish shape (a ++ repeat whole m ++ b) (axis_keys (a ++ repeat whole m ++ b)).
Proof.
  intros Na Nb L. unfold prepare. rewrite filter_app. cbn [filter is_new negb]. rewrite !old_axis by assumption.
  assert (E : exists k r, axis_keys a ++ KDots :: axis_keys b = k :: r) by (destruct (axis_keys a) as [| k r]; [exists KDots, (axis_keys b) | exists k, (r ++ KDots :: axis_keys b)]; reflexivity).
  destruct E as (k0 & r0 & E). rewrite E, <- E.
  assert (X : existsb is_dots (axis_keys a ++ KDots :: axis_keys b) = true) by (apply dots_in, in_or_app; right; left; reflexivity). rewrite X. cbv beta iota zeta.
  rewrite !replace_app by (assumption || apply no_dots_axis).
  assert (M : (length shape + 1 - length (axis_keys a ++ KDots :: axis_keys b))%nat = m). { rewrite axis_app, app_length in L. rewrite app_length. cbn [length]. lia. }
  rewrite M. assert (AX : axis_keys a ++ repeat whole m ++ axis_keys b = axis_keys (a ++ repeat whole m ++ b)) by (rewrite !axis_app, axis_full; reflexivity).
  rewrite AX. rewrite dots_not by apply no_dots_axis.
  assert (LL : length (axis_keys (a ++ repeat whole m ++ b)) = length shape) by (rewrite !axis_app, !app_length, axis_full, repeat_length; rewrite axis_app, app_length in L; lia).
  rewrite LL, Nat.ltb_irrefl, Nat.sub_diag. cbn [repeat]. rewrite app_nil_r.
  pose proof (axis_length_le (a ++ repeat whole m ++ b)) as LE. replace (length shape - length (a ++ repeat whole m ++ b))%nat with O by lia. cbn [repeat]. rewrite app_nil_r. reflexivity.
Qed.
Lemma prepare_end a m shape : ~ In KDots a -> (length (axis_keys a) + m = length shape)%nat ->
  prepare a shape = finish shape (if Nat.eqb (length (axis_keys a)) 0 then a ++ repeat whole m else a ++ repeat whole (length shape - length a)) (axis_keys (a ++ repeat whole m)).
Proof.
  intros N L. unfold prepare. rewrite old_axis by exact N. assert (AX : axis_keys (a ++ repeat whole m) = axis_keys a ++ repeat whole m) by (rewrite axis_app, axis_full; reflexivity). rewrite AX.
  destruct (axis_keys a) as [| k r] eqn:EA.
  - cbn [length] in L. cbn [app length Nat.eqb]. rewrite dots_not by apply no_dots_full. cbv beta iota zeta. rewrite dots_not by apply no_dots_full.
    assert (M : m = length shape) by lia. subst m. rewrite repeat_length, Nat.ltb_irrefl, Nat.sub_diag. cbn [repeat]. rewrite app_nil_r.
    rewrite app_length, repeat_length. replace (length shape - (length a + length shape))%nat with O by lia. cbn [repeat]. rewrite app_nil_r. reflexivity.
  - assert (D : existsb is_dots (k :: r) = false) by (rewrite <- EA; apply dots_not, no_dots_axis). rewrite D. cbv beta iota zeta. rewrite D.
    destruct (Nat.ltb_spec (length shape) (length (k :: r))); [lia |]. replace (length shape - length (k :: r))%nat with m by lia. reflexivity.
Qed.
Lemma prepare_good keys full shape : expands (length shape) keys full -> completed (length shape) keys -> prepare keys shape = finish shape full (axis_keys full).
Proof.
  intros X C. destruct X as [a b m Na Nb L | a m Na L]; [apply prepare_dots; assumption |]. rewrite (prepare_end a m) by assumption. change KeySpec.full with whole.
  destruct (Nat.eqb_spec (length (axis_keys a)) 0) as [Z0 | NZ]; [reflexivity |]. f_equal. do 2 f_equal.
  destruct C as [C | [C | [C | C]]]; [contradiction | | rewrite C in NZ; contradiction NZ; reflexivity |].
  - rewrite axis_all in L by assumption. lia.
  - pose proof (axis_length_le a). lia.
Qed.
(** * Slices of the entries *)
Lemma int_slice n v : 0 <= v < n -> n < 2147483647 -> ordinary n (Some v, Some (v + 1), Some 1) /\ python_slice n (Some v, Some (v + 1), Some 1) [v].
Proof.
  intros V N. split.
  - repeat (split; [injection; lia |] || split; [discriminate |]). repeat split; try (intros E; injection E; lia). left. split; [lia |]. split; [lia |]. left. lia.
  - split; [lia |]. intros m x. unfold first, last, clamp. cbn [Z.ltb Z.compare]. destruct (Z.ltb_spec v 0); [lia |]. destruct (Z.ltb_spec (v + 1) 0); [lia |]. rewrite !Z.min_l by lia.
    destruct m as [| m]; cbn [nth_error].
    + split; [intros E; injection E as <-; lia | intros [-> _]; f_equal; lia].
    + split; [destruct m; discriminate | lia].
Qed.
Lemma python_length_unique n a l l' : python_slice n a l -> python_slice n a l' -> l = l'.
Proof. apply SliceProofs.python_unique. Qed.
Definition good_lists (shape : list Z) (args : list sl) (sels : list (list Z)) : Prop :=
  Forall2 (fun na l => python_slice (fst na) (snd na) l) (combine shape args) sels.
Lemma gives_args keys shape O : gives keys shape O -> Forall (fun n => 0 <= n < 2147483647) shape -> Forall2 ordinary_key shape (axis_keys keys) ->
  exists args sels, as_slices shape (axis_keys keys) = Some args /\ length args = length shape /\ Forall2 ordinary shape args /\ good_lists shape args sels /\
    length sels = length shape /\
    result_shape keys (SliceProps.extents sels) = Some O /\ size O = size (SliceProps.extents sels) /\ Forall (fun n => 0 <= n) O /\
    (forall o, inside o O -> exists c s, takes keys shape o s /\ picks sels c s /\ inside s shape /\ inside c (SliceProps.extents sels) /\ off o O = off c (SliceProps.extents sels)) /\
    (forall o s, takes keys shape o s -> exists c, inside o O /\ picks sels c s /\ inside s shape /\ inside c (SliceProps.extents sels) /\ off o O = off c (SliceProps.extents sels)) /\
    (forall c, inside c (SliceProps.extents sels) -> exists o, inside o O /\ off o O = off c (SliceProps.extents sels)).
Proof.
  intros G. induction G as [| v n keys shape O V G IH | a l n keys shape O P G IH | keys shape O G IH]; intros HS HO.
  - exists [], []. split; [reflexivity |]. split; [reflexivity |]. split; [constructor |]. split; [constructor |]. split; [reflexivity |]. split; [reflexivity |]. split; [reflexivity |]. split; [constructor |]. split; [| split].
    + intros o I. inversion I. subst. exists [], []. repeat split; constructor.
    + intros o s T. inversion T. subst. exists []. repeat split; constructor.
    + intros c I. inversion I. exists []. split; [constructor | reflexivity].
  - inversion HS as [| ? ? Hn HS']; subst. cbn [axis_keys filter uses_axis] in HO. inversion HO as [| ? ? ? ? _ HO']; subst. destruct (IH HS' HO') as (args & sels & E1 & E2 & E3 & E4 & E5 & E6 & E7 & E8 & E9 & E10 & E11).
    assert (W : exists w, 0 <= w < n /\ as_slice n (KInt v) = Some (Some w, Some (w + 1), Some 1) /\ (forall o s, takes (KInt v :: keys) (n :: shape) o s <-> exists s', s = w :: s' /\ takes keys shape o s')).
    { destruct (Z.ltb_spec v 0) as [NG | PS].
      - exists (v + n). split; [lia |]. split.
        + cbn [as_slice]. destruct (Z.leb_spec 0 v); [lia |]. destruct (Z.leb_spec (- n) v); [| lia]. destruct (Z.ltb_spec v 0); [| lia]. cbn [andb]. do 2 f_equal; do 2 f_equal; lia.
        + intros o s. split; [intros T; inversion T; subst; [lia | eexists; split; [reflexivity | assumption]] |]. intros (s' & -> & T). apply takes_back; [lia | exact T].
      - exists v. split; [lia |]. split.
        + cbn [as_slice]. destruct (Z.leb_spec 0 v); [| lia]. destruct (Z.ltb_spec v n); [| lia]. reflexivity.
        + intros o s. split; [intros T; inversion T; subst; [eexists; split; [reflexivity | assumption] | lia] |]. intros (s' & -> & T). apply takes_int; [lia | exact T]. }
    destruct W as (w & Hw & EW & TW). destruct (int_slice n w Hw ltac:(lia)) as (OW & PW).
    exists ((Some w, Some (w + 1), Some 1) :: args), ([w] :: sels). cbn [axis_keys filter uses_axis as_slices]. rewrite EW. cbn [obind]. fold (axis_keys keys). rewrite E1. cbn [obind].
    split; [reflexivity |]. split; [cbn [length]; congruence |]. split; [constructor; assumption |]. split; [constructor; assumption |]. split; [cbn [length]; congruence |].
    cbn [SliceProps.extents map result_shape tl length]. fold (SliceProps.extents sels). split; [exact E6 |]. split; [cbn [size]; rewrite E7; change (Z.of_nat 1) with 1; ring |]. split; [exact E8 |]. change (Z.of_nat 1) with 1. split; [| split].
    + intros o I. destruct (E9 o I) as (c & s & T & PK & IS & IC & EO). exists (0 :: c), (w :: s). split; [apply TW; exists s; split; [reflexivity | exact T] |]. split; [constructor; [lia | reflexivity | exact PK] |].
      split; [constructor; assumption |]. split; [constructor; [lia | exact IC] |]. cbn [off]. rewrite EO. ring.
    + intros o s T. apply TW in T. destruct T as (s' & -> & T). destruct (E10 o s' T) as (c & I & PK & IS & IC & EO). exists (0 :: c). split; [exact I |]. split; [constructor; [lia | reflexivity | exact PK] |].
      split; [constructor; assumption |]. split; [constructor; [lia | exact IC] |]. cbn [off]. rewrite EO. ring.
    + intros c IC. inversion IC as [| i ? r ? Hi Hr]; subst. destruct (E11 r Hr) as (o & I & EO). exists o. split; [exact I |]. cbn [off]. rewrite EO. replace i with 0 by lia. ring.
  - inversion HS as [| ? ? Hn HS']; subst. cbn [axis_keys filter uses_axis] in HO. inversion HO as [| ? ? ? ? OA HO']; subst. destruct (IH HS' HO') as (args & sels & E1 & E2 & E3 & E4 & E5 & E6 & E7 & E8 & E9 & E10 & E11).
    exists (a :: args), (l :: sels). cbn [axis_keys filter uses_axis as_slices as_slice obind]. fold (axis_keys keys). rewrite E1. cbn [obind].
    split; [reflexivity |]. split; [cbn [length]; congruence |]. split; [constructor; assumption |]. split; [constructor; assumption |]. split; [cbn [length]; congruence |].
    cbn [SliceProps.extents map result_shape]. fold (SliceProps.extents sels). rewrite E6. cbn [obind]. split; [reflexivity |]. split; [cbn [size]; rewrite E7; reflexivity |]. split; [constructor; [lia | exact E8] |]. split; [| split].
    + intros o I. inversion I as [| i ? r ? Hi Hr]; subst. destruct (E9 r Hr) as (c & s & T & PK & IS & IC & EO). destruct (nth_error l (Z.to_nat i)) as [x |] eqn:X; [| apply nth_error_None in X; lia].
      exists (i :: c), (x :: s). split; [econstructor; [exact P | lia | exact X | exact T] |]. split; [constructor; [lia | exact X | exact PK] |].
      split; [constructor; [eapply (SliceProofs.python_inside n a l); [lia | exact P | eapply nth_error_In; exact X] | exact IS] |]. split; [constructor; assumption |]. cbn [off]. rewrite EO, E7. reflexivity.
    + intros o s T. inversion T as [| | | ? l' i x ? ? ? o' s' P' Hi X T' |]; subst. assert (l' = l) by (eapply SliceProofs.python_unique; eassumption). subst l'. destruct (E10 o' s' T') as (c & I & PK & IS & IC & EO).
      assert (HI : 0 <= i < Z.of_nat (length l)). { assert (B : nth_error l (Z.to_nat i) <> None) by congruence. apply nth_error_Some in B. lia. }
      exists (i :: c). split; [constructor; assumption |]. split; [constructor; assumption |].
      split; [constructor; [eapply (SliceProofs.python_inside n a l); [lia | exact P | eapply nth_error_In; exact X] | exact IS] |]. split; [constructor; assumption |]. cbn [off]. rewrite EO, E7. reflexivity.
    + intros c IC. inversion IC as [| i ? r ? Hi Hr]; subst. destruct (E11 r Hr) as (o & I & EO). exists (i :: o). split; [constructor; assumption |]. cbn [off]. rewrite EO, E7. reflexivity.
  - destruct (IH HS HO) as (args & sels & E1 & E2 & E3 & E4 & E5 & E6 & E7 & E8 & E9 & E10 & E11). exists args, sels. split; [exact E1 |]. split; [exact E2 |]. split; [exact E3 |]. split; [exact E4 |]. split; [exact E5 |].
    cbn [result_shape]. rewrite E6. cbn [obind]. split; [reflexivity |]. split; [cbn [size]; rewrite E7; ring |]. split; [constructor; [lia | exact E8] |]. split; [| split].
    + intros o I. inversion I as [| i ? r ? Hi Hr]; subst. destruct (E9 r Hr) as (c & s & T & PK & IS & IC & EO). exists c, s. split; [replace i with 0 by lia; constructor; exact T |]. split; [exact PK |]. split; [exact IS |]. split; [exact IC |]. cbn [off]. rewrite <- EO. replace i with 0 by lia. ring.
    + intros o s T. inversion T as [| | | | ? ? o' s' T']; subst. destruct (E10 o' s T') as (c & I & PK & IS & IC & EO). exists c. split; [constructor; [lia | exact I] |]. split; [exact PK |]. split; [exact IS |]. split; [exact IC |]. cbn [off]. rewrite <- EO. ring.
    + intros c IC. destruct (E11 c IC) as (o & I & EO). exists (0 :: o). split; [constructor; [lia | exact I] |]. cbn [off]. rewrite <- EO. ring.
Qed.
