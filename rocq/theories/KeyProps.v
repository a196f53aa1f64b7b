(** Indexing with keys: C64 (reading), C65 (writing), C66 (integer and boolean arrays). *)
From Coq Require Import List ZArith Bool Lia QArith Qcanon.
From Verif Require SliceModel SliceProofs SliceProps.
From Verif Require Import NdModel NdSpec NdProofs SliceSpec IdxModel IdxSpec IdxProofs1 IdxProofs2 IdxProofs3 IdxProofs6 JoinProofs ScanModel ScanSpec ScanProofs1 ConvModel ConvSpec ConvProps PoolProps MatModel MatSpec MatProofs2 MatProps MaskSpec MaskProofs1 ScatModel ScatSpec ScatProofs1 ScatProofs2 ScatProps KeyModel KeySpec KeyProofs1 KeyProofs2 KeyProofs3 KeyProofs4.
Import ListNotations.
Local Open Scope list_scope.
Local Open Scope Z_scope.

(** * C64: x[key] *)
(** Every index of the result is that of one element of the array, and different indices are
    those of different elements. *)
Theorem C64_one : forall keys shape O, gives keys shape O -> forall o, inside o O ->
  exists s, takes keys shape o s /\ (forall t, takes keys shape o t -> t = s) /\ (forall p, takes keys shape p s -> p = o).
Proof.
  intros keys shape O G o I. destruct (takes_total keys shape O G o I) as (s & T). exists s. split; [exact T |]. split; [intros t T'; symmetry; eapply takes_fun; eassumption | intros p T'; symmetry; eapply takes_inj; eassumption].
Qed.
(** The full statement has neither [completed] nor [ordinary_key], and arrays without axes: see
    C64_newaxis_refuted, C25 and C64_scalar_refuted. *)
Theorem C64_values_partial : forall junk keys full shape O x, shape <> [] -> Forall (fun n => 0 <= n < 2147483647) shape ->
  expands (length shape) keys full -> completed (length shape) keys -> gives full shape O ->
  Forall2 ordinary_key shape (axis_keys full) -> has_size x (size shape) ->
  exists y, getitem junk keys shape x = Some (O, y) /\ has_size y (size O) /\
    forall o s, takes full shape o s -> inside o O /\ inside s shape /\ qelem y O o = qelem x shape s.
Proof. exact getitem_ok. Qed.
Definition shown (o : option (list Z * list Qc)) : option (list Z * list Q) := option_map (fun '(a, b) => (a, map this b)) o.
Definition x6 : list Qc := map q [1; 2; 3; 4; 5; 6].
Definition rev2 : key := KSlice (None, None, Some (-2)).
Example C64_values_ex : shown (getitem (q 9) [KInt (-1); rev2] [2; 3] x6) = Some ([2], map inject_Z [6; 4]) /\
  shown (getitem (q 9) [KNew; KDots; KInt 0] [2; 3] x6) = Some ([1; 2], map inject_Z [1; 4]) /\
  shown (getitem (q 9) [KNew] [2; 3] x6) = Some ([1; 2; 3], map inject_Z [1; 2; 3; 4; 5; 6]) /\
  gives [KInt (-1); rev2] [2; 3] [2] /\ takes [KInt (-1); rev2] [2; 3] [1] [1; 0] /\ expands 2 [KInt (-1); rev2] [KInt (-1); rev2] /\ completed 2 [KInt (-1); rev2] /\ Forall2 ordinary_key [2; 3] [KInt (-1); rev2].
Proof.
  assert (P : python_slice 3 (None, None, Some (-2)) [2; 0]).
  { split; [lia |]. intros m x. unfold first, last. cbn [Z.ltb Z.compare]. destruct m as [| [| m]]; cbn [nth_error]; [split; [intros E; injection E as <-; lia | intros [-> _]; reflexivity] | split; [intros E; injection E as <-; lia | intros [-> _]; reflexivity] |].
    split; [destruct m; discriminate | lia]. }
  split; [vm_compute; reflexivity |]. split; [vm_compute; reflexivity |]. split; [vm_compute; reflexivity |]. split; [| split; [| split; [| split]]].
  - apply gives_int; [lia |]. apply (gives_slice _ [2; 0]); [exact P | constructor].
  - apply (takes_back (-1) 2); [lia |]. apply (takes_slice _ [2; 0]); [exact P | lia | reflexivity | constructor].
  - apply (expands_end 2 [KInt (-1); rev2] 0); [cbn; intuition discriminate | reflexivity].
  - right. left. cbn. intuition discriminate.
  - constructor; [exact I |]. constructor; [| constructor]. cbn. split; [discriminate |]. split; [discriminate |]. split; [discriminate |]. right. split; [lia |]. split; discriminate.
Qed.
(** An integer out of the range of its axis is refused. *)
Lemma finish_of keys full shape : expands (length shape) keys full -> exists k, prepare keys shape = finish shape k (axis_keys full).
Proof.
  intros X. destruct X as [a b m Na Nb L | a m Na L]; [eexists; apply prepare_dots; assumption | eexists; apply (prepare_end a m); assumption].
Qed.
Lemma as_slices_none shape : forall idx m n k, nth_error shape m = Some n -> nth_error idx m = Some k -> as_slice n k = None -> as_slices shape idx = None.
Proof.
  induction shape as [| n' shape IH]; intros idx m n k S K E; [destruct m; discriminate |]. destruct idx as [| k' idx]; [reflexivity |]. cbn [as_slices]. destruct m as [| m]; cbn [nth_error] in *.
  - injection S as ->. injection K as ->. rewrite E. reflexivity.
  - destruct (as_slice n' k'); [| reflexivity]. cbn [obind]. rewrite (IH idx m n k S K E). reflexivity.
Qed.
Theorem C64_bounds : forall junk keys full shape m n v x, expands (length shape) keys full -> nth_error (axis_keys full) m = Some (KInt v) -> nth_error shape m = Some n -> ~ (- n <= v < n) ->
  getitem junk keys shape x = None /\ forall vshape w, setitem junk keys shape vshape w x = None.
Proof.
  intros junk keys full shape m n v x X K S B. destruct (finish_of keys full shape X) as (k & E). assert (N : as_slice n (KInt v) = None).
  { cbn [as_slice]. destruct (Z.leb_spec 0 v); destruct (Z.ltb_spec v n); cbn [andb]; try (destruct (Z.leb_spec (- n) v); destruct (Z.ltb_spec v 0); cbn [andb]; try reflexivity; lia). }
  unfold getitem, setitem. rewrite E. unfold finish. rewrite (as_slices_none shape _ m n (KInt v) S K N). split; reflexivity.
Qed.
(** So is a step of zero. *)
Lemma as_slices_at shape : forall idx args m k, as_slices shape idx = Some args -> nth_error idx m = Some k -> exists n a, nth_error shape m = Some n /\ nth_error args m = Some a /\ as_slice n k = Some a.
Proof.
  induction shape as [| n shape IH]; intros idx args m k E K; destruct idx as [| k' idx]; try discriminate; [destruct m; discriminate |]. cbn [as_slices] in E. destruct (as_slice n k') as [a |] eqn:EA; [| discriminate]. cbn [obind] in E.
  destruct (as_slices shape idx) as [r |] eqn:ER; [| discriminate]. injection E as <-. destruct m as [| m]; cbn [nth_error] in *; [injection K as <-; exists n, a; auto | eapply IH; eassumption].
Qed.
Lemma as_slices_length shape : forall idx args, as_slices shape idx = Some args -> length args = length shape.
Proof.
  induction shape as [| n shape IH]; intros [| k idx] args E; try discriminate; [injection E as <-; reflexivity |]. cbn [as_slices] in E. destruct (as_slice n k); [| discriminate]. cbn [obind] in E. destruct (as_slices shape idx) as [r |] eqn:ER; [| discriminate]. injection E as <-. cbn [length]. f_equal. eapply IH. exact ER.
Qed.
Lemma setup_zero shape : forall args filled m s e, SliceModel.fill_all shape args = Some filled -> nth_error args m = Some (s, e, Some 0) -> SliceModel.setup_axes shape filled = None.
Proof.
  induction shape as [| n shape IH]; intros args filled m s e F K; destruct args as [| a args]; try (destruct m; discriminate). cbn [SliceModel.fill_all] in F. destruct (SliceModel.fill_all shape args) as [r |] eqn:FR; [| discriminate]. injection F as <-. cbn [SliceModel.setup_axes].
  destruct m as [| m]; cbn [nth_error] in K; [injection K as ->; reflexivity |]. rewrite (IH args r m s e FR K). destruct (SliceModel.setup_axis n (SliceModel.fill n a)); reflexivity.
Qed.
Theorem C64_zero_step : forall junk keys full shape m s e x, expands (length shape) keys full -> nth_error (axis_keys full) m = Some (KSlice (s, e, Some 0)) ->
  getitem junk keys shape x = None /\ forall vshape w, setitem junk keys shape vshape w x = None.
Proof.
  intros junk keys full shape m s e x X K. destruct (finish_of keys full shape X) as (k & E). unfold getitem, setitem. rewrite E. unfold finish. destruct (as_slices shape (axis_keys full)) as [args |] eqn:EA; [| split; reflexivity]. cbn [obind].
  destruct (as_slices_at shape _ args m _ EA K) as (n & a & S & N & EQ). cbn [as_slice] in EQ. injection EQ as <-. pose proof (as_slices_length _ _ _ EA) as LA.
  assert (Z0 : sliced shape args = None). { unfold sliced. destruct (SliceModel.fill_all shape args) as [f |] eqn:F; [| reflexivity]. cbn [obind]. rewrite (SliceProps.setup_full shape args f LA F). exact (setup_zero shape args f m s e F N). }
  destruct args as [| a args]; [split; reflexivity |]. cbn [obind]. rewrite Z0. split; reflexivity.
Qed.
(** More than one Ellipsis is refused, and more entries than axes. *)
Lemma replace_count ins l : length (filter is_dots (replace_dots ins l)) = (length (filter is_dots l) - 1)%nat.
Proof.
  assert (RW : forall m, filter is_dots (repeat whole m) = []) by (induction m as [| m IH]; [reflexivity | exact IH]).
  induction l as [| k l IH]; [reflexivity |]. destruct k; cbn [replace_dots filter is_dots]; try exact IH. rewrite filter_app, RW. cbn [app length]. lia.
Qed.
Lemma old_dots l : filter is_dots (filter (fun k => negb (is_new k)) l) = filter is_dots l.
Proof. induction l as [| k l IH]; [reflexivity |]. destruct k; cbn [filter is_new negb is_dots]; rewrite IH; reflexivity. Qed.
Lemma count_dots l : (0 < length (filter is_dots l))%nat -> existsb is_dots l = true.
Proof. intros H. apply existsb_exists. destruct (filter is_dots l) as [| k r] eqn:E; [cbn in H; lia |]. exists k. apply filter_In. rewrite E. left. reflexivity. Qed.
Theorem C64_two_dots : forall junk keys shape x, (1 < length (filter is_dots keys))%nat -> getitem junk keys shape x = None /\ forall vshape w, setitem junk keys shape vshape w x = None.
Proof.
  intros junk keys shape x H. assert (E : prepare keys shape = None); [| unfold getitem, setitem; rewrite E; split; reflexivity]. rewrite <- old_dots in H. unfold prepare. set (idx := filter (fun k => negb (is_new k)) keys) in *.
  destruct idx as [| k r] eqn:EI; [cbn in H; lia |]. rewrite <- EI in *. rewrite (count_dots idx) by lia. rewrite count_dots by (rewrite replace_count; lia). reflexivity.
Qed.
Lemma axis_replace ins l : axis_keys (replace_dots ins l) = axis_keys l \/ (length (axis_keys (replace_dots ins l)) = ins + length (axis_keys l))%nat.
Proof.
  induction l as [| k l IH]; [left; reflexivity |]. destruct k; cbn [replace_dots]; try (unfold axis_keys in *; cbn [filter uses_axis]; destruct IH as [-> | IH]; [left; reflexivity | right; cbn [length]; lia]).
  right. rewrite axis_app, axis_full, app_length, repeat_length. unfold axis_keys. reflexivity.
Qed.
Theorem C64_too_many : forall junk keys shape x, (length shape < length (axis_keys keys))%nat -> getitem junk keys shape x = None /\ forall vshape w, setitem junk keys shape vshape w x = None.
Proof.
  intros junk keys shape x H. assert (E : prepare keys shape = None); [| unfold getitem, setitem; rewrite E; split; reflexivity]. unfold prepare. set (idx := filter (fun k => negb (is_new k)) keys) in *.
  assert (AX : axis_keys idx = axis_keys keys). { unfold idx, axis_keys. clear. induction keys as [| k l IH]; [reflexivity |]. destruct k; cbn [filter is_new negb uses_axis]; rewrite IH; reflexivity. }
  destruct idx as [| k r] eqn:EI; [cbn in AX; rewrite <- AX in H; cbn in H; lia |]. rewrite <- EI in *. destruct (existsb is_dots idx) eqn:D.
  - destruct (existsb is_dots (replace_dots (length shape + 1 - length idx) idx)); [reflexivity |]. pose proof (axis_length_le (replace_dots (length shape + 1 - length idx) idx)) as LE.
    destruct (axis_replace (length shape + 1 - length idx) idx) as [RE | RE]; rewrite AX in RE; destruct (Nat.ltb_spec (length shape) (length (replace_dots (length shape + 1 - length idx) idx))); try reflexivity; [rewrite RE in LE; lia | lia].
  - rewrite D. pose proof (axis_length_le idx) as LE. destruct (Nat.ltb_spec (length shape) (length idx)); [reflexivity | rewrite AX in LE; lia].
Qed.
Example C64_refused_ex : shown (getitem (q 9) [KInt 2] [2; 3] x6) = None /\ shown (getitem (q 9) [KInt (-3)] [2; 3] x6) = None /\ shown (getitem (q 9) [KDots; KDots] [2; 3] x6) = None /\ shown (getitem (q 9) [KDots; KInt 0; KInt 0; KInt 0] [2; 3] x6) = None /\
  shown (getitem (q 9) [KSlice (None, None, Some 0)] [2; 3] x6) = None /\ shown (getitem (q 9) [KInt 1] [2; 3] x6) = Some ([3], map inject_Z [4; 5; 6]).
Proof. vm_compute. repeat split. Qed.
(** With None, without Ellipsis and with entries for some of the axes but not for all, the
    result, if there is one, never has the shape of NumPy: axes are missing at its end. *)
Lemma result_whole keys m : forall sh O, result_shape (keys ++ repeat whole m) sh = Some O -> exists r t, result_shape keys sh = Some r /\ O = r ++ t /\ length t = m.
Proof.
  induction keys as [| k keys IH]; intros sh O E; cbn [app] in E.
  - exists [], O. split; [reflexivity |]. split; [reflexivity |]. revert sh O E. induction m as [| m IHm]; intros sh O E; cbn [repeat result_shape whole] in E; [injection E as <-; reflexivity |].
    destruct sh as [| n sh]; [discriminate |]. destruct (result_shape (repeat whole m) sh) as [r |] eqn:ER; [| discriminate]. injection E as <-. cbn [length]. f_equal. eapply IHm. exact ER.
  - destruct k; cbn [result_shape] in *.
    + apply IH. exact E.
    + destruct sh as [| n sh]; [discriminate |]. destruct (result_shape (keys ++ repeat whole m) sh) as [r' |] eqn:ER; [| discriminate]. injection E as <-. destruct (IH sh r' ER) as (r & t & -> & -> & L). exists (n :: r), t. auto.
    + destruct sh as [| n sh]; [discriminate |]. destruct (result_shape (keys ++ repeat whole m) sh) as [r' |] eqn:ER; [| discriminate]. injection E as <-. destruct (IH sh r' ER) as (r & t & -> & -> & L). exists (n :: r), t. auto.
    + destruct (result_shape (keys ++ repeat whole m) sh) as [r' |] eqn:ER; [| discriminate]. injection E as <-. destruct (IH sh r' ER) as (r & t & -> & -> & L). exists (1 :: r), t. auto.
Qed.
Lemma old_count l : ~ In KDots l -> In KNew l -> (length (axis_keys l) < length l)%nat.
Proof.
  unfold axis_keys. induction l as [| k l IH]; intros D N; [contradiction |]. cbn [In filter length] in *. pose proof (axis_length_le l) as LE. unfold axis_keys in LE. destruct k; cbn [uses_axis length].
  - destruct N as [N | N]; [discriminate |]. specialize (IH ltac:(tauto) N). lia.
  - destruct N as [N | N]; [discriminate |]. specialize (IH ltac:(tauto) N). lia.
  - tauto.
  - lia.
Qed.
Theorem C64_newaxis : forall junk keys full shape O x r y, Forall (fun n => 0 <= n < 2147483647) shape ->
  ~ In KDots keys -> In KNew keys -> axis_keys keys <> [] -> (length (axis_keys keys) < length shape)%nat ->
  expands (length shape) keys full -> gives full shape O -> Forall2 ordinary_key shape (axis_keys full) -> has_size x (size shape) ->
  getitem junk keys shape x = Some (r, y) -> exists t, t <> [] /\ O = r ++ t /\ size O = size r.
Proof.
  intros junk keys full shape O x r y HS ND HN NA LT X G OR LX E. inversion X as [a b m Na Nb L EQ1 EQ2 | a m Na L EQ1 EQ2]; subst; [exfalso; apply ND, in_or_app; right; left; reflexivity |].
  assert (NE : shape <> []) by (intros ->; cbn in LT; lia). destruct (gives_args _ shape O G HS OR) as (args & sels & E1 & E2 & E3 & E4 & E5 & E6 & E7 & E8 & _). destruct (sliced_ok junk shape args sels x NE HS E2 E3 E4 LX) as (axes & y0 & S1 & S2 & S3 & S4 & _).
  pose proof (old_count keys ND HN) as OC. unfold getitem in E. rewrite (prepare_end keys m) in E by assumption. destruct (Nat.eqb_spec (length (axis_keys keys)) 0) as [Z0 | NZ]; [destruct (axis_keys keys); [contradiction | discriminate] |].
  change KeySpec.full with whole in *. unfold finish in E. rewrite E1 in E. cbn [obind] in E. destruct args as [| a0 args]; [discriminate |]. cbn [obind] in E. rewrite S1 in E. cbn [obind] in E. rewrite S3 in E. cbn [obind] in E. rewrite S2 in E.
  set (d := (m - (length shape - length keys))%nat). assert (SP : keys ++ repeat whole m = (keys ++ repeat whole (length shape - length keys)) ++ repeat whole d) by (rewrite <- app_assoc, <- repeat_app; do 2 f_equal; unfold d; lia).
  rewrite SP in E6. destruct (result_whole _ _ _ _ E6) as (r' & t & R1 & R2 & R3). rewrite R1 in E. cbn [obind] in E. exists t. assert (r' = r /\ size r' = size (SliceProps.extents sels)).
  { destruct (same_shape (SliceProps.extents sels) r') eqn:SS; [apply same_shape_eq in SS; injection E as <- _; split; congruence |]. unfold reshape in E. rewrite !prod_size in E. destruct (Z.eqb_spec (size (SliceProps.extents sels)) (size r')); [| discriminate]. cbn [obind] in E. injection E as <- _. split; congruence. }
  destruct H as (<- & SZ). split; [| split; [exact R2 | congruence]]. intros ->. cbn in R3. unfold d in R3. lia.
Qed.
(** x[None, 0] of a 2 x 3 array fails and is 1 x 3 in NumPy; of a 6 x 1 array the result has
    the shape (1,) and not (1, 1). *)
Theorem C64_newaxis_refuted : shown (getitem (q 9) [KNew; KInt 0] [2; 3] x6) = None /\ gives [KNew; KInt 0; whole] [2; 3] [1; 3] /\ expands 2 [KNew; KInt 0] [KNew; KInt 0; whole] /\
  shown (getitem (q 9) [KNew; KInt 0] [6; 1] x6) = Some ([1], map inject_Z [1]) /\ gives [KNew; KInt 0; whole] [6; 1] [1; 1].
Proof.
  assert (P : forall n l, 0 <= n -> l = map Z.of_nat (seq 0 (Z.to_nat n)) -> python_slice n (None, None, None) l).
  { intros n l N ->. split; [lia |]. intros m x. unfold first, last. cbn [Z.ltb Z.compare]. change (map Z.of_nat (seq 0 (Z.to_nat n))) with (SliceModel.upto n). rewrite SliceProofs.upto_nth. destruct (Z.ltb_spec (Z.of_nat m) n); split; intros E; try discriminate; [injection E as <-; lia | f_equal; lia | lia]. }
  split; [vm_compute; reflexivity |]. split; [| split; [| split; [vm_compute; reflexivity |]]].
  - apply gives_new, gives_int; [lia |]. apply (gives_slice _ [0; 1; 2]); [apply P; [lia | reflexivity] | constructor].
  - apply (expands_end 2 [KNew; KInt 0] 1); [cbn; intuition discriminate | reflexivity].
  - apply gives_new, gives_int; [lia |]. apply (gives_slice _ [0]); [apply P; [lia | reflexivity] | constructor].
Qed.
(** Nothing can be read from an array without axes. *)
Theorem C64_scalar_refuted : shown (getitem (q 9) [KDots] [] [q 1]) = None /\ gives [] [] [] /\ expands 0 [KDots] [].
Proof. split; [vm_compute; reflexivity |]. split; [constructor |]. apply (expands_dots 0 [] [] 0); cbn; auto. Qed.

(** * C65: x[key] = value *)
(** The full statement is without [completed], [ordinary_key] and the limit on the number of
    axes, and lets a value have more axes than the key selects if they have one element. *)
Theorem C65_values_partial : forall junk keys full shape O V v x, shape <> [] -> Forall (fun n => 0 <= n < 2147483647) shape ->
  expands (length shape) keys full -> completed (length shape) keys -> gives full shape O ->
  Forall2 ordinary_key shape (axis_keys full) -> repeatable V O -> (V = O \/ (length O <= 8)%nat) -> has_size v (size V) -> has_size x (size shape) ->
  exists y, setitem junk keys shape V v x = Some y /\ has_size y (size shape) /\
    (forall o s, takes full shape o s -> qelem y shape s = qelem v V (under V (length O) o)) /\
    (forall s, inside s shape -> (forall o, ~ takes full shape o s) -> qelem y shape s = qelem x shape s).
Proof. exact setitem_ok. Qed.
(** Reading what was written. *)
Theorem C65_read_back_partial : forall junk keys full shape O v x, shape <> [] -> Forall (fun n => 0 <= n < 2147483647) shape ->
  expands (length shape) keys full -> completed (length shape) keys -> gives full shape O ->
  Forall2 ordinary_key shape (axis_keys full) -> has_size v (size O) -> has_size x (size shape) ->
  exists y, setitem junk keys shape O v x = Some y /\ getitem junk keys shape y = Some (O, v).
Proof.
  intros junk keys full shape O v x NE HS X C G OR LV LX. assert (PO : Forall (fun n => 0 <= n) O) by (destruct (gives_args full shape O G HS OR) as (a & s & H); tauto).
  assert (RO : repeatable O O). { split; [lia |]. rewrite Nat.sub_diag. cbn [skipn]. clear. induction O; constructor; auto. }
  destruct (setitem_ok junk keys full shape O O v x NE HS X C G OR RO (or_introl eq_refl) LV LX) as (y & E & L & W & _). exists y. split; [exact E |].
  destruct (getitem_ok junk keys full shape O y NE HS X C G OR L) as (z & F & LZ & R). rewrite F. do 2 f_equal. apply (qat_ext z v); [unfold has_size in *; lia |].
  intros p Hp. unfold has_size, within, qlen in *. destruct (off_onto O p PO ltac:(unfold within; lia)) as (o & I & <-). destruct (takes_total full shape O G o I) as (s & T). destruct (R o s T) as (_ & _ & RT). specialize (W o s T).
  rewrite <- !qelem_off by exact I. rewrite RT, W. unfold under. rewrite Nat.sub_diag. cbn [skipn]. rewrite picked_same by exact I. reflexivity.
Qed.
Example C65_ex : show (setitem (q 9) [KDots; rev2] [2; 3] [2] (map q [7; 8]) x6) = qs [8; 2; 7; 8; 5; 7] /\ show (setitem (q 9) [KInt (-1)] [2; 3] [] [q 7] x6) = qs [1; 2; 3; 7; 7; 7] /\
  show (setitem (q 9) [KInt 0; KNew; rev2] [2; 3] [1; 2] (map q [7; 8]) x6) = qs [8; 2; 7; 4; 5; 6] /\ show (setitem (q 9) [KInt 0] [2; 3] [2] (map q [7; 8]) x6) = None.
Proof. vm_compute. repeat split. Qed.
(** A value with an additional axis of one element, which NumPy removes, is refused. *)
Theorem C65_axes_refuted : show (setitem (q 9) [KInt 0] [2; 3] [1; 3] (map q [7; 8; 9]) x6) = None /\ show (setitem (q 9) [KInt 0] [2; 3] [3] (map q [7; 8; 9]) x6) = qs [7; 8; 9; 4; 5; 6].
Proof. vm_compute. split; reflexivity. Qed.

(** * C66: integer and boolean arrays *)
(** The full statement lets the arrays have different shapes, which are broadcast, and None be
    anywhere. *)
Theorem C66_ints_partial : forall junk vs rest A B x p q, A <> [] -> rest <> [] -> sizes A -> sizes B -> sizes rest -> arrays_valid vs rest A ->
  (p + q = 0)%nat \/ length rest = 1%nat -> has_size x (size (A ++ B)) ->
  exists y, agetitem junk (around p q (map (AInt rest) vs)) (A ++ B) x = Some (ones p ++ rest ++ ones q ++ B, y) /\ has_size y (size (ones p ++ rest ++ ones q ++ B)) /\
  forall c b, inside c rest -> inside b B -> qelem y (ones p ++ rest ++ ones q ++ B) (zeroes p ++ c ++ zeroes q ++ b) = qelem x (A ++ B) (chosen vs rest A c ++ b).
Proof.
  intros junk vs rest A B x p q HA HR PA PB PR AV PQ LX. destruct (ints_facts vs rest A AV HA PR) as (NV & II & LI & VAL & PL).
  destruct (gather_ok A B rest (concat vs) (map (AInt rest) vs) HA HR PA PB PR LI VAL (ints_plain rest vs NV) II junk x p q PQ LX) as (y & E & L & V). exists y. split; [exact E |]. split; [exact L |]. intros c b Ic Ib. rewrite <- PL by exact Ic. apply V; assumption.
Qed.
(** Writing: of entries with the same place the last counts. *)
Theorem C66_set_ints_partial : forall junk vs rest A B V v x, A <> [] -> rest <> [] -> sizes A -> sizes B -> sizes rest -> arrays_valid vs rest A ->
  repeatable V (rest ++ B) -> (V = rest ++ B \/ (length (rest ++ B) <= 8)%nat) -> has_size v (size V) -> has_size x (size (A ++ B)) ->
  exists y, asetitem junk (map (AInt rest) vs) (A ++ B) V v x = Some y /\ has_size y (size (A ++ B)) /\
  (forall c b, inside c rest -> inside b B -> (forall d, inside d rest -> chosen vs rest A d = chosen vs rest A c -> position 0 d rest <= position 0 c rest) ->
     qelem y (A ++ B) (chosen vs rest A c ++ b) = qelem v V (under V (length (rest ++ B)) (c ++ b))) /\
  (forall p b, inside p A -> inside b B -> (forall c, inside c rest -> chosen vs rest A c <> p) -> qelem y (A ++ B) (p ++ b) = qelem x (A ++ B) (p ++ b)).
Proof.
  intros junk vs rest A B V v x HA HR PA PB PR AV RV H8 LV LX. destruct (ints_facts vs rest A AV HA PR) as (NV & II & LI & VAL & PL).
  destruct (scatter_ok A B rest (concat vs) (map (AInt rest) vs) HA HR PA PB PR LI VAL (ints_plain rest vs NV) II junk V v x RV H8 LV LX) as (y & E & L & V1 & V2). exists y. split; [exact E |]. split; [exact L |]. split.
  - intros c b Ic Ib M. rewrite <- PL by exact Ic. apply V1; [apply (place_in A B rest _ VAL); exact Ic | exact Ib |]. split; [exact Ic |]. split; [reflexivity |]. intros d Id EQ. apply M; [exact Id |]. rewrite <- !PL by assumption. exact EQ.
  - intros p b Ip Ib N. apply V2; [exact Ip | exact Ib |]. intros c Ic. rewrite PL by exact Ic. apply N. exact Ic.
Qed.
(** New axes in the value are removed. *)
Theorem C66_set_new_partial : forall junk p q keys shape n Bv v x, keys <> [] -> ~ In ANew keys -> (0 < p + q)%nat ->
  asetitem junk (around p q keys) shape (ones p ++ n :: ones q ++ Bv) v x = asetitem junk keys shape (n :: Bv) v x.
Proof.
  intros junk p q keys shape n Bv v x NK NN. apply around_set. split; [exact NK |]. apply Forall_forall. intros k I. destruct k; try reflexivity. contradiction.
Qed.
(** Masks: the elements at which the mask is true, in row-major order. *)
Theorem C66_mask_partial : forall junk b A B x p q, A <> [] -> sizes A -> sizes B -> Z.of_nat (length b) = size A -> has_size x (size (A ++ B)) ->
  let l := marked b A in let O := ones p ++ [Z.of_nat (length l)] ++ ones q ++ B in
  exists y, agetitem junk (around p q [AMask A b]) (A ++ B) x = Some (O, y) /\ has_size y (size O) /\
  forall j r, (j < length l)%nat -> inside r B -> qelem y O (zeroes p ++ [Z.of_nat j] ++ zeroes q ++ r) = qelem x (A ++ B) (nth j l [] ++ r).
Proof.
  intros junk b A B x p q HA PA PB LB LX l O. destruct (mask_facts A b HA PA LB) as (idx & PK & II & LI & VAL & PL). fold l in II, LI, VAL, PL.
  destruct (gather_ok A B [Z.of_nat (length l)] idx [AMask A b] HA ltac:(discriminate) PA PB ltac:(constructor; [lia | constructor]) LI VAL PK II junk x p q (or_intror eq_refl) LX) as (y & E & L & V). exists y. split; [exact E |]. split; [exact L |].
  intros j r J Ir. rewrite <- (PL j J). apply V; [constructor; [lia | constructor] | exact Ir].
Qed.
Theorem C66_set_mask_partial : forall junk b A B V v x, A <> [] -> sizes A -> sizes B -> Z.of_nat (length b) = size A -> has_size x (size (A ++ B)) ->
  let l := marked b A in let O := Z.of_nat (length l) :: B in
  repeatable V O -> (V = O \/ (length O <= 8)%nat) -> has_size v (size V) ->
  exists y, asetitem junk [AMask A b] (A ++ B) V v x = Some y /\ has_size y (size (A ++ B)) /\
  (forall j r, (j < length l)%nat -> inside r B -> qelem y (A ++ B) (nth j l [] ++ r) = qelem v V (under V (length O) (Z.of_nat j :: r))) /\
  (forall p r, inside p A -> inside r B -> ~ In p l -> qelem y (A ++ B) (p ++ r) = qelem x (A ++ B) (p ++ r)).
Proof.
  intros junk b A B V v x HA PA PB LB LX l O RV H8 LV. destruct (mask_facts A b HA PA LB) as (idx & PK & II & LI & VAL & PL). fold l in II, LI, VAL, PL.
  assert (PR : sizes [Z.of_nat (length l)]) by (constructor; [lia | constructor]).
  destruct (scatter_ok A B [Z.of_nat (length l)] idx [AMask A b] HA ltac:(discriminate) PA PB PR LI VAL PK II junk V v x RV H8 LV LX) as (y & E & L & V1 & V2). exists y. split; [exact E |]. split; [exact L |].
  assert (IJ : forall c, inside c [Z.of_nat (length l)] -> exists j, (j < length l)%nat /\ c = [Z.of_nat j]). { intros c I. inversion I as [| i ? r ? Hi Hr]; subst. inversion Hr; subst. exists (Z.to_nat i). split; [lia |]. rewrite Z2Nat.id by lia. reflexivity. }
  split.
  - intros j r J Ir. apply (V1 (nth j l []) [Z.of_nat j] r); [eapply marked_inside; apply nth_In; exact J | exact Ir |]. split; [constructor; [lia | constructor] |]. split; [apply PL; exact J |].
    intros d Id EQ. destruct (IJ d Id) as (i & Hi & ->). rewrite (PL i Hi) in EQ. assert (i = j) by (eapply (proj1 (NoDup_nth l [])); [apply marked_nodup; exact PA | exact Hi | exact J | exact EQ]). subst. lia.
  - intros p r Ip Ir N. apply V2; [exact Ip | exact Ir |]. intros c Ic EQ. destruct (IJ c Ic) as (j & J & ->). rewrite (PL j J) in EQ. apply N. rewrite <- EQ. apply nth_In. exact J.
Qed.
Example C66_ex : shown (agetitem (q 9) [AInt [2] [1; 0]; AInt [2] [2; -1]] [2; 3] x6) = Some ([2], map inject_Z [6; 3]) /\ arrays_valid [[1; 0]; [2; -1]] [2] [2; 3] /\
  shown (agetitem (q 9) [AMask [2] [false; true]] [2; 3] x6) = Some ([1; 3], map inject_Z [4; 5; 6]) /\ marked [false; true] [2] = [[1]] /\
  shown (agetitem (q 9) [ANew; AInt [3] [1; 0; 1]; ANew] [2; 3] x6) = Some ([1; 3; 1; 3], map inject_Z [4; 5; 6; 1; 2; 3; 4; 5; 6]) /\
  show (asetitem (q 9) [AInt [2] [1; 1]; AInt [2] [0; 0]] [2; 3] [2] (map q [7; 8]) x6) = qs [1; 2; 3; 8; 5; 6] /\ show (asetitem (q 9) [AMask [2; 3] [true; false; false; false; true; true]] [2; 3] [3] (map q [7; 8; 9]) x6) = qs [7; 2; 3; 4; 8; 9] /\
  shown (agetitem (q 9) [AInt [1] [2]] [2; 3] x6) = None /\ show (asetitem (q 9) [AInt [1] [-3]] [2; 3] [] [q 7] x6) = None.
Proof.
  split; [vm_compute; reflexivity |]. split; [| vm_compute; repeat split]. split; [reflexivity |]. split; [repeat constructor |]. intros m c M I. inversion I as [| i ? r ? Hi Hr]; subst. inversion Hr; subst.
  assert (i = 0 \/ i = 1) as [-> | ->] by lia; destruct m as [| [| m]]; cbn in M; try lia; vm_compute; split; congruence.
Qed.
(** An index outside its axis is refused. *)
Lemma gnd_pairs_valid A B rest idx ps : sizes rest -> Z.of_nat (length idx) = size (Z.of_nat (length A) :: rest) -> gnd_pairs (A ++ B) (Z.of_nat (length A) :: rest) idx = Some ps -> places_valid idx rest A.
Proof.
  intros PR LI E c m Ic Hm. unfold gnd_pairs in E.
  destruct (gnd_shape _ _); [| discriminate]. cbn [obind] in E. destruct (strides (A ++ B)) as [st |]; [| discriminate]. cbn [obind hd tl] in E. rewrite Nat2Z.id in E. match type of E with obind ?o _ = _ => destruct o as [ls |] eqn:EO end; [| discriminate].
  destruct (omap_each _ _ _ (off c rest) EO) as (b & EB); [apply upto_in; rewrite prod_size; apply off_bound; exact Ic |]. cbv beta in EB. destruct (gnd_index _ _ _ _ _ _) as [r |] eqn:G in EB; [| discriminate].
  destruct (gnd_index_inv _ _ _ _ _ _ _ G m Hm) as (v & GV & RV). rewrite elem_val by (constructor; [lia | exact Ic]). cbn [off]. rewrite prod_size in GV. replace (nth (Z.to_nat (Z.of_nat m * size rest + off c rest)) idx 0) with v; [exact RV |].
  unfold get in GV. destruct (_ <? 0); [discriminate |]. symmetry. apply (nth_error_nth _ _ 0). rewrite Z.add_0_l in GV. exact GV.
Qed.
Theorem C66_range : forall junk vs rest A B x, A <> [] -> rest <> [] -> sizes rest -> length vs = length A -> Forall (fun v => Z.of_nat (length v) = size rest) vs -> ~ arrays_valid vs rest A ->
  agetitem junk (map (AInt rest) vs) (A ++ B) x = None /\ forall V v, asetitem junk (map (AInt rest) vs) (A ++ B) V v x = None.
Proof.
  intros junk vs rest A B x HA HR PR L F NV. assert (NE : vs <> []) by (destruct vs; [destruct A; [contradiction | discriminate] | discriminate]). pose proof (ints_indices rest vs NE) as II. rewrite L in II.
  assert (LI : Z.of_nat (length (concat vs)) = size (Z.of_nat (length A) :: rest)). { rewrite (concat_length (Z.to_nat (size rest))) by (eapply Forall_impl; [| exact F]; cbv beta; lia). cbn [size]. rewrite L. pose proof (size_nonneg rest PR). lia. }
  assert (NP : ~ places_valid (concat vs) rest A). { intros P. apply NV. split; [exact L |]. split; [exact F |]. intros m c M I. specialize (P c m I M). rewrite <- L, ints_elem in P by (assumption || lia). exact P. }
  assert (PN : forall src dst, snd_forward true false (A ++ B) (Z.of_nat (length A) :: rest) (concat vs) src dst = None) by (intros; apply C63_range; assumption).
  assert (GN : gnd_pairs (A ++ B) (Z.of_nat (length A) :: rest) (concat vs) = None). { destruct (gnd_pairs (A ++ B) (Z.of_nat (length A) :: rest) (concat vs)) as [ps |] eqn:E; [| reflexivity]. exfalso. apply NP. exact (gnd_pairs_valid _ _ _ _ _ PR LI E). }
  split.
  - unfold agetitem. rewrite II. cbn [obind]. destruct (gnd_shape (A ++ B) (Z.of_nat (length A) :: rest)); [| reflexivity]. cbn [obind]. rewrite GN. reflexivity.
  - intros V v. unfold asetitem. match goal with |- obind ?o _ = None => destruct o as [V' |]; [| reflexivity] end. cbn [obind]. rewrite II. cbn [obind]. match goal with |- obind ?o _ = None => destruct o; [| reflexivity] end. cbn [obind].
    match goal with |- obind ?o _ = None => destruct o; [| reflexivity] end. cbn [obind]. apply PN.
Qed.
(** ** Refutations of the full statement *)
(** Arrays of different shapes are refused (NumPy broadcasts them). *)
Theorem C66_shapes_refuted : shown (agetitem (q 9) [AInt [2] [0; 1]; AInt [1] [0]] [2; 3] x6) = None /\ shown (agetitem (q 9) [AInt [2] [0; 1]; AInt [2] [0; 0]] [2; 3] x6) = Some ([2], map inject_Z [1; 4]).
Proof. vm_compute. split; reflexivity. Qed.
(** The shape in NumPy (user guide, "Combining advanced and basic indexing"): the axes of the
    arrays replace these if they are adjacent, and come first if they are not. *)
Inductive new_shape (rest B : list Z) : list akey -> list Z -> Prop :=
| new_adjacent p q keys : keys <> [] -> ~ In ANew keys -> new_shape rest B (around p q keys) (ones p ++ rest ++ ones q ++ B)
| new_apart a p b c : In (AInt rest b) a -> new_shape rest B (a ++ repeat ANew (S p) ++ [AInt rest c]) (rest ++ ones (length (filter is_anew (a ++ repeat ANew (S p)))) ++ B).
Theorem C66_apart_refuted : let keys := [ANew; AInt [2] [0; 1]; ANew; AInt [2] [0; 1]] in
  shown (agetitem (q 9) keys [2; 3] x6) = Some ([1; 2; 1], map inject_Z [1; 5]) /\ new_shape [2] [] keys [2; 1; 1].
Proof. cbv zeta. split; [vm_compute; reflexivity |]. apply (new_apart [2] [] [ANew; AInt [2] [0; 1]] 0 [0; 1] [0; 1]). right. left. reflexivity. Qed.
(** With None after an array of two axes, the new axis is put between these. *)
Theorem C66_matrix_refuted : let keys := [AInt [2; 3] [0; 1; 0; 1; 0; 1]; ANew] in
  option_map fst (shown (agetitem (q 9) keys [2] (map q [1; 2]))) = Some [2; 1; 3] /\ new_shape [2; 3] [] keys [2; 3; 1].
Proof. cbv zeta. split; [vm_compute; reflexivity |]. apply (new_adjacent [2; 3] [] 0 1 [AInt [2; 3] [0; 1; 0; 1; 0; 1]]); [discriminate | cbn; intuition discriminate]. Qed.
(** A mask which does not have the size of the axis is accepted (an IndexError in NumPy). *)
Theorem C66_mask_refuted : shown (agetitem (q 9) [AMask [1] [true]] [2; 3] x6) = Some ([1; 3], map inject_Z [1; 2; 3]) /\
  shown (agetitem (q 9) [AMask [3] [false; true; false]] [2; 3] x6) = Some ([1; 3], map inject_Z [4; 5; 6]) /\ show (asetitem (q 9) [AMask [1] [true]] [2; 3] [] [q 7] x6) = qs [7; 7; 7; 4; 5; 6].
Proof. vm_compute. repeat split. Qed.
(** A mask next to an integer array counts as the numbers 0 and 1 (in NumPy as the places at
    which it is true: here 1 and 1, 2). *)
Theorem C66_mixed_refuted : shown (agetitem (q 9) [AMask [2] [false; true]; AInt [2] [1; 2]] [2; 3] x6) = Some ([2], map inject_Z [2; 6]) /\ marked [false; true] [2] = [[1]] /\
  shown (agetitem (q 9) [AInt [2] [1; 1]; AInt [2] [1; 2]] [2; 3] x6) = Some ([2], map inject_Z [5; 6]).
Proof. vm_compute. repeat split. Qed.
(** With None in the key the value has to have the new axis: it is not broadcast. *)
Theorem C66_value_refuted : show (asetitem (q 9) [ANew; AInt [2] [0; 1]] [2] [2] (map q [7; 8]) (map q [1; 2])) = None /\ show (asetitem (q 9) [ANew; AInt [2] [0; 1]] [2] [1; 2] (map q [7; 8]) (map q [1; 2])) = qs [7; 8] /\
  new_shape [2] [] [ANew; AInt [2] [0; 1]] [1; 2] /\ repeatable [2] [1; 2].
Proof.
  split; [vm_compute; reflexivity |]. split; [vm_compute; reflexivity |]. split; [apply (new_adjacent [2] [] 1 0 [AInt [2] [0; 1]]); [discriminate | cbn; intuition discriminate] |]. split; [cbn; lia |]. constructor; [left; reflexivity | constructor].
Qed.
Print Assumptions C64_values_partial.
Print Assumptions C65_values_partial.
Print Assumptions C65_read_back_partial.
Print Assumptions C66_ints_partial.
Print Assumptions C66_set_ints_partial.
Print Assumptions C66_mask_partial.
Print Assumptions C66_set_mask_partial.
Print Assumptions C66_range.
