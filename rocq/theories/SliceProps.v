(** C25: slicing selects the elements Python's slices select. *)
From Coq Require Import List ZArith Bool Lia.
From Verif Require Import NdModel NdSpec NdProofs SliceModel SliceSpec SliceProofs.
Import ListNotations.
Local Open Scope list_scope.
Local Open Scope Z_scope.

Lemma at_element {A} (l : list A) i v : at_ l i = Some v <-> element l i v.
Proof.
  unfold at_, element. destruct (Z.ltb_spec i 0); split; try discriminate; try tauto; try lia.
Qed.

Notation arg := (option Z * option Z * option Z)%type (only parsing).
Definition step_of (a : arg) : Z := match snd a with Some k => k | None => 1 end.
(** None is not passed as its C++ code. *)
Definition codes (a : arg) : Prop :=
  let '(s, e, k) := a in s <> Some 2147483647 /\ e <> Some 2147483647 /\ k <> Some 2147483647.
(** The elements the code visits are inside the axis. *)
Definition visits_inside (n : Z) (axis : Z * Z * Z * Z) : Prop :=
  let '(start, _, step, size) := axis in 0 <= size /\ forall i, 0 <= i < size -> 0 <= start + i * step < n.
(** They are the indices of the list. *)
Definition visits (axis : Z * Z * Z * Z) (l : list Z) : Prop :=
  let '(start, _, step, size) := axis in
  size = Z.of_nat (length l) /\ forall m x, nth_error l m = Some x -> x = start + Z.of_nat m * step.

Lemma axis_some n a ax : 0 <= n < 2147483647 -> codes a -> setup_axis n (fill n a) = Some ax ->
  step_of a <> 0 /\ exists st sp, ax = (st, sp, step_of a, ulen n st sp (step_of a)) /\
    st = ustart n (fst (fst a)) (step_of a) /\ sp = ustop n (snd (fst a)) (step_of a).
Proof.
  destruct a as [[s e] ok]. unfold step_of. cbn [fst snd]. intros N C H. rewrite setup_fill in H by auto. cbv zeta in H.
  destruct (Z.eqb_spec match ok with Some k => k | None => 1 end 0); [discriminate|]. injection H as <-. split; auto.
  eexists _, _. split; [reflexivity|]. auto.
Qed.

(** A slice of one axis whose elements lie inside the axis is Python's. *)
Theorem C25_axis_partial : forall n a axis, 0 <= n < 2147483647 -> codes a ->
  setup_axis n (fill n a) = Some axis -> visits_inside n axis ->
  exists l, python_slice n a l /\ visits axis l.
Proof.
  intros n a ax N C H V. destruct (axis_some _ _ _ N C H) as (K & st & sp & -> & Est & Esp).
  set (k := step_of a) in *. set (L := ulen n st sp k) in *. cbn [visits_inside] in V.
  exists (walk st k L). split.
  - destruct a as [[s e] ok]. cbn [fst snd] in *. unfold python_slice. fold (step_of (s, e, ok)).
    change (match ok with Some k => k | None => 1 end) with k. split; auto.
    rewrite clamp_first, clamp_last by (lia || auto). rewrite <- Est, <- Esp.
    apply (inb_python n st sp k); auto. lia.
  - cbn [visits]. split.
    + unfold walk. rewrite map_length, upto_length. lia.
    + intros m x X. rewrite walk_nth in X. destruct (_ <? _); congruence.
Qed.
(** Conversely a slice that is not Python's leaves the axis (or has a negative extent). *)
Theorem C25_axis_exact : forall n a axis l, 0 <= n -> python_slice n a l -> visits axis l -> visits_inside n axis.
Proof.
  intros n a [[[st sp] k] L] l N P [EL V]. cbn [visits_inside]. split; [lia|]. intros i I.
  destruct (nth_error l (Z.to_nat i)) as [x|] eqn:X; [|apply nth_error_None in X; lia].
  pose proof (V _ _ X) as E. rewrite Z2Nat.id in E by lia. rewrite <- E. eapply python_inside; eauto. eapply nth_error_In; eauto.
Qed.
(** Ordinary bounds stay inside the axis. *)
Theorem C25_axis_ordinary : forall n a, 0 <= n < 2147483647 -> ordinary n a ->
  exists axis, setup_axis n (fill n a) = Some axis /\ visits_inside n axis.
Proof.
  intros n [[s e] ok] N (Cs & Ce & Ck & H). rewrite setup_fill by (auto; exact (conj Cs (conj Ce Ck))). cbv zeta.
  set (k := match ok with Some k => k | None => 1 end) in *.
  destruct (Z.eqb_spec k 0); [lia|]. eexists. split; [reflexivity|]. cbn [visits_inside].
  clearbody k. clear Cs Ce Ck ok. unfold ulen.
  destruct H as [[K H]|(K & H1 & H2)].
  - destruct (Z.ltb_spec k 0); [lia|]. destruct (Z.ltb_spec 0 k); [|lia]. cbn [andb].
    set (st := ustart n s k). set (sp := ustop n e k). rewrite Z.abs_eq by lia.
    assert (Est : st = shift n (match s with Some v => v | None => 0 end)).
    { subst st. unfold ustart, shift. destruct s as [v|]; auto. destruct (Z.ltb_spec 0 k); [auto|lia]. }
    set (v := match s with Some v => v | None => 0 end) in *. clearbody v st. destruct H as [A B].
    assert (S0 : 0 <= st) by (rewrite Est; unfold shift; destruct (Z.ltb_spec v 0); lia).
    destruct (Z.ltb_spec st sp) as [S|S]; [|split; intros; lia].
    assert (E : (if sp <=? n then Z.quot (sp - 1 - st) k + 1 else Z.quot (n - 1 - st) k + 1) = Z.quot (Z.min sp n - 1 - st) k + 1)
      by (destruct (Z.leb_spec sp n); [rewrite Z.min_l by lia|rewrite Z.min_r by lia]; auto).
    rewrite E. clear E.
    destruct (Z.le_gt_cases 0 (Z.min sp n - 1 - st)) as [G|G].
    + pose proof (quot_spec _ k G K) as Q. assert (0 <= Z.quot (Z.min sp n - 1 - st) k) by (apply Z.quot_pos; lia).
      set (q := Z.quot _ k) in *. clearbody q. split; [lia|]. intros i I. nia.
    + assert (G' : st = n /\ k = 1 /\ n < sp).
      { subst st sp. unfold ustop, shift in *. destruct (Z.ltb_spec v 0).
        - destruct e as [w|]; [destruct (Z.ltb_spec w 0)|destruct (Z.ltb_spec 0 k)]; lia.
        - destruct B as [B|[B|B]].
          + destruct e as [w|]; [destruct (Z.ltb_spec w 0)|destruct (Z.ltb_spec 0 k)]; lia.
          + destruct e as [w|]; [specialize (B w eq_refl); destruct (Z.ltb_spec w 0)|destruct (Z.ltb_spec 0 k)]; lia.
          + destruct e as [w|]; [destruct (Z.ltb_spec w 0)|destruct (Z.ltb_spec 0 k)]; lia. }
      destruct G' as (-> & -> & Gs). rewrite Z.min_r by lia. replace (n - 1 - n) with (-1) by lia. cbn [Z.quot Z.quotrem fst]. split; [cbn; lia|]. intros i I. cbn in I. lia.
  - destruct (Z.ltb_spec k 0); [|lia]. destruct (Z.ltb_spec 0 k); [lia|]. cbn [andb].
    set (st := ustart n s k). set (sp := ustop n e k). rewrite Z.abs_neq by lia.
    assert (Sn : st < n).
    { subst st. unfold ustart, shift. destruct s as [v|]; [|destruct (Z.ltb_spec 0 k); lia].
      pose proof (H1 v eq_refl). destruct (Z.ltb_spec v 0); lia. }
    assert (Pn : -1 <= sp).
    { subst sp. unfold ustop, shift. destruct e as [v|]; [|destruct (Z.ltb_spec 0 k); lia].
      pose proof (H2 v eq_refl). destruct (Z.ltb_spec v 0); lia. }
    destruct (Z.ltb_spec sp st) as [S|S]; [|split; intros; lia].
    pose proof (quot_spec (st - 1 - sp) (- k) ltac:(lia) ltac:(lia)) as Q.
    assert (0 <= Z.quot (st - 1 - sp) (- k)) by (apply Z.quot_pos; lia).
    set (q := Z.quot _ (- k)) in *. clearbody q. split; [lia|]. intros i I. nia.
Qed.

(** Steps of zero are an error, as in Python. *)
Theorem C25_zero_step : forall n start stop, setup_axis n (fill n (start, stop, Some 0)) = None.
Proof. reflexivity. Qed.

Definition extents (sels : list (list Z)) : list Z := map (fun l => Z.of_nat (length l)) sels.

Lemma fill_all_length shape : forall args r, fill_all shape args = Some r -> length r = length args.
Proof.
  induction shape as [|n shape IH]; intros [|a args] r H; cbn in H; try discriminate; try (injection H as <-; auto).
  destruct (fill_all shape args) eqn:E; [|discriminate]. injection H as <-. cbn. f_equal. eauto.
Qed.
Lemma setup_full shape args filled : length args = length shape -> fill_all shape args = Some filled ->
  setup shape filled = setup_axes shape filled.
Proof.
  intros L F. apply fill_all_length in F. unfold setup, pad. rewrite F, L, Nat.sub_diag. cbn [firstn map app]. auto.
Qed.
Lemma axes_selected shape : Forall (fun n => 0 <= n < 2147483647) shape -> forall args filled axes,
  length args = length shape -> Forall codes args -> fill_all shape args = Some filled ->
  setup_axes shape filled = Some axes -> Forall2 visits_inside shape axes ->
  axes_ok shape axes /\ exists sels, Forall2 (fun na l => python_slice (fst na) (snd na) l) (combine shape args) sels /\
    out_shape axes = extents sels /\ (forall index, inside index (extents sels) -> picks sels index (src axes index)).
Proof.
  induction 1 as [|n shape N Ns IH]; intros args filled axes L C F S V; destruct args as [|a args]; try discriminate.
  - cbn in F. injection F as <-. cbn in S. injection S as <-. split; [constructor|]. exists [].
    split; [constructor|]. split; auto. intros index I. inversion I. constructor.
  - inversion C as [|? ? Ca Cs]; subst. cbn [fill_all] in F. destruct (fill_all shape args) as [fr|] eqn:Fr; [|discriminate]. injection F as <-.
    cbn [setup_axes] in S. destruct (setup_axis n (fill n a)) as [ax|] eqn:Sa; [|discriminate].
    destruct (setup_axes shape fr) as [axs|] eqn:Sr; [|discriminate]. injection S as <-.
    inversion V as [|? ? ? ? Va Vs]; subst. cbn [length] in L. injection L as L.
    destruct (IH _ _ _ L Cs Fr Sr Vs) as (OK & sels & P & O & K).
    destruct (C25_axis_partial _ _ _ N Ca Sa Va) as (l & Pl & Vl).
    destruct (axis_some _ _ _ N Ca Sa) as (Kn & st & sp & Eax & _).
    split.
    + constructor; auto. subst ax. split; auto.
    + exists (l :: sels). cbn [combine]. split; [constructor; auto|].
      subst ax. destruct Vl as [EL Vl]. split.
      * cbn [out_shape map extents]. f_equal; auto.
      * intros index I. inversion I as [|i s idx t Hi Hr]; subst. cbn [src].
        destruct (nth_error l (Z.to_nat i)) as [x|] eqn:X; [|apply nth_error_None in X; lia].
        pose proof (Vl _ _ X) as Ex. rewrite Z2Nat.id in Ex by lia. rewrite <- Ex. constructor; auto. lia.
Qed.
Lemma picks_fun sels index a b : picks sels index a -> picks sels index b -> a = b.
Proof.
  intros H. revert b. induction H as [|l ls i is x xs I X P IH]; intros b B; inversion B; subst; auto. f_equal; [congruence|auto].
Qed.
Lemma picks_inside sels index a : picks sels index a -> inside index (extents sels).
Proof.
  induction 1 as [|l ls i is x xs I X P IH]; constructor; auto. cbn. split; auto.
  assert (nth_error l (Z.to_nat i) <> None) as B by congruence. apply nth_error_Some in B. lia.
Qed.

(** Forward: every element of the output is the element of the input that Python's slices
    select, when the code stays inside the axes. *)
Theorem C25_forward_partial : forall A shape args filled axes (x y : list A),
  shape <> [] -> Forall (fun n => 0 <= n < 2147483647) shape -> length args = length shape -> Forall codes args ->
  fill_all shape args = Some filled -> setup shape filled = Some axes -> Forall2 visits_inside shape axes ->
  Z.of_nat (length x) = size shape -> Z.of_nat (length y) = size (out_shape axes) ->
  exists sels r, Forall2 (fun na l => python_slice (fst na) (snd na) l) (combine shape args) sels /\
    out_shape axes = extents sels /\ forward shape axes x y = Some r /\ length r = length y /\
    forall index, inside index (extents sels) -> exists source v, picks sels index source /\ inside source shape /\
      element x (position 0 source shape) v /\ element r (position 0 index (extents sels)) v.
Proof.
  intros A shape args filled axes x y N Ns L C F S V Lx Ly. rewrite (setup_full _ _ _ L F) in S.
  destruct (axes_selected _ Ns _ _ _ L C F S V) as (OK & sels & P & O & K).
  destruct (forward_ok shape axes x y N OK Lx Ly) as (r & R & Lr & E).
  exists sels, r. split; auto. split; auto. split; auto. split; auto. intros index I.
  rewrite <- O in *. destruct (E _ I) as (v & Ex & Er). pose proof (src_inside _ _ OK _ I) as Is.
  exists (src axes index), v. split; [apply K; exact I|]. split; auto.
  rewrite !position_off by auto. rewrite !Z.mul_0_l, !Z.add_0_l. split; apply at_element; auto.
Qed.

(** Backward: the gradient of each element of the output is added to the element it came
    from, and nothing else changes. *)
Theorem C25_backward_partial : forall A (zero : A) add shape args filled axes accum (dy dx : list A),
  shape <> [] -> Forall (fun n => 0 <= n < 2147483647) shape -> length args = length shape -> Forall codes args ->
  fill_all shape args = Some filled -> setup shape filled = Some axes -> Forall2 visits_inside shape axes ->
  Z.of_nat (length dx) = size shape -> Z.of_nat (length dy) = size (out_shape axes) -> size (out_shape axes) <> 0 ->
  exists sels r, Forall2 (fun na l => python_slice (fst na) (snd na) l) (combine shape args) sels /\
    backward zero add shape axes accum dy dx = Some r /\ length r = length dx /\
    forall source old, inside source shape -> element dx (position 0 source shape) old ->
      let before := if accum then old else zero in
      (forall index g, picks sels index source -> element dy (position 0 index (extents sels)) g ->
        element r (position 0 source shape) (add before g)) /\
      ((forall index, ~ picks sels index source) -> element r (position 0 source shape) before).
Proof.
  intros A zero add shape args filled axes accum dy dx N Ns L C F S V Lx Ly Z0. rewrite (setup_full _ _ _ L F) in S.
  destruct (axes_selected _ Ns _ _ _ L C F S V) as (OK & sels & P & O & K).
  destruct (backward_ok zero add shape axes accum dy dx N OK Lx Ly Z0) as (r & R & Lr & E1 & E2).
  exists sels, r. split; auto. split; auto. split; auto. intros source old Is El before.
  assert (El' : at_ (if accum then dx else map (fun _ => zero) dx) (off source shape) = Some before).
  { rewrite position_off, Z.mul_0_l, Z.add_0_l in El by auto. apply at_element. destruct El as [B El]. split; auto.
    unfold before. destruct accum; auto. rewrite nth_error_map, El. auto. }
  split.
  - intros index g Pk Eg. pose proof (picks_inside _ _ _ Pk) as Ii.
    pose proof (picks_fun _ _ _ _ Pk (K _ Ii)) as ->. rewrite <- O in *.
    destruct (E1 _ Ii) as (g' & o & Eg' & Eo & Er). rewrite El' in Eo. injection Eo as <-.
    rewrite position_off, Z.mul_0_l, Z.add_0_l in * by auto. apply at_element in Eg. rewrite Eg in Eg'. injection Eg' as <-.
    apply at_element. auto.
  - intros Np. rewrite position_off, Z.mul_0_l, Z.add_0_l by auto. apply at_element. rewrite E2; auto.
    intros idx I Es. apply (Np idx). rewrite <- Es. apply K. rewrite <- O. auto.
Qed.

(** The bounds of [ordinary] are enough. *)
Theorem C25_ordinary : forall shape args, Forall (fun n => 0 <= n < 2147483647) shape -> Forall2 ordinary shape args ->
  exists filled axes, fill_all shape args = Some filled /\ setup shape filled = Some axes /\
    Forall2 visits_inside shape axes /\ Forall codes args.
Proof.
  intros shape args Ns H.
  assert (G : exists filled axes, fill_all shape args = Some filled /\ setup_axes shape filled = Some axes /\
    Forall2 visits_inside shape axes /\ Forall codes args).
  { induction H as [|n a shape args Ha Hs IH]; [exists [], []; repeat split; constructor|].
    inversion Ns as [|? ? N Ns']; subst. destruct (IH Ns') as (f & ax & F & S & V & C).
    destruct (C25_axis_ordinary _ _ N Ha) as (a1 & S1 & V1).
    exists (fill n a :: f), (a1 :: ax). cbn [fill_all setup_axes]. rewrite F, S1, S.
    split; auto. split; auto. split; constructor; auto.
    destruct a as [[s e] k]. destruct Ha as (A & B & D & _). repeat split; auto. }
  destruct G as (f & ax & F & S & V & C). exists f, ax. split; auto. split; auto.
  rewrite (setup_full _ args); auto. clear - H. induction H; cbn; congruence.
Qed.

(** Fewer entries than axes, none of them None, leave the leading axes whole. *)
Theorem C25_leading_axes : forall lead shape args,
  length args = length shape -> Forall (fun a => exists s e k, a = (Some s, Some e, Some k)) args ->
  exists filled full, fill_all (lead ++ shape) args = Some filled /\
    fill_all (lead ++ shape) (map (fun _ => (None, None, None)) lead ++ args) = Some full /\
    setup (lead ++ shape) filled = setup (lead ++ shape) full.
Proof.
  intros lead shape args L G.
  set (given := map (fun a : arg => match a with (Some s, Some e, Some k) => (s, e, k) | _ => (0, 0, 0) end) args).
  assert (F1 : forall sh, (length args <= length sh)%nat -> fill_all sh args = Some given).
  { clear L. subst given. induction G as [|a args Ha Hs IH]; intros [|n sh] B; cbn [length] in B; try lia; auto.
    cbn [fill_all]. rewrite IH by lia. destruct Ha as (s & e & k & ->). reflexivity. }
  assert (F2 : fill_all (lead ++ shape) (map (fun _ => (None, None, None)) lead ++ args) = Some (map (fun n => (0, n, 1)) lead ++ given)).
  { induction lead as [|n lead IH]; cbn [app map fill_all]; [apply F1; lia|]. rewrite IH. reflexivity. }
  exists given, (map (fun n => (0, n, 1)) lead ++ given). split; [apply F1; rewrite app_length; lia|]. split; auto.
  assert (Lg : length given = length shape) by (subst given; rewrite map_length; auto).
  unfold setup, pad. rewrite !app_length, map_length, Lg.
  replace (length lead + length shape - length shape)%nat with (length lead) by lia. rewrite Nat.sub_diag.
  rewrite firstn_app, firstn_all, Nat.sub_diag. cbn [firstn map app]. rewrite app_nil_r. reflexivity.
Qed.

(** ** Refutations of the full statement *)
(** x[-10:] of three elements has ten. *)
Definition sizes (shape : list Z) (args : list arg) : option (list Z) :=
  match fill_all shape args with Some f => option_map out_shape (setup shape f) | None => None end.
Theorem C25_start_refuted : python_slice 3 (Some (-10), None, None) [0; 1; 2] /\ sizes [3] [(Some (-10), None, None)] = Some [10].
Proof.
  split; [|reflexivity]. split; [lia|]. intros m x. change (first 3 (Some (-10)) 1) with 0. change (last 3 None 1) with 3.
  cbn [Z.ltb Z.compare]. destruct m as [|[|[|m]]]; cbn [nth_error]; split; intros H; try (injection H as <-); try lia.
  - destruct H as [-> H]. reflexivity.
  - destruct H as [-> H]. reflexivity.
  - destruct H as [-> H]. reflexivity.
  - destruct m; discriminate.
Qed.
(** x[5:10] of three elements has the extent -2. *)
Theorem C25_beyond_refuted : python_slice 3 (Some 5, Some 10, None) [] /\ sizes [3] [(Some 5, Some 10, None)] = Some [-2].
Proof.
  split; [|reflexivity]. split; [lia|]. intros m x. change (first 3 (Some 5) 1) with 3. change (last 3 (Some 10) 1) with 3.
  cbn [Z.ltb Z.compare]. destruct m; cbn [nth_error]; split; intros H; try discriminate; lia.
Qed.
(** x[3:10:2] of three elements reads the element after the last; so does x[:5:2] of none. *)
Theorem C25_end_refuted :
  python_slice 3 (Some 3, Some 10, Some 2) [] /\
  (exists axes, setup [3] [(3, 10, 2)] = Some axes /\ out_shape axes = [1] /\ offsets axes (contiguous [3]) (contiguous [1]) 0 0 = [(3, 0)]) /\
  python_slice 0 (None, Some 5, Some 2) [] /\ sizes [0] [(None, Some 5, Some 2)] = Some [1].
Proof.
  split; [|split; [|split; [|reflexivity]]].
  - split; [lia|]. intros m x. change (first 3 (Some 3) 2) with 3. change (last 3 (Some 10) 2) with 3.
    cbn [Z.ltb Z.compare]. destruct m; cbn [nth_error]; split; intros H; try discriminate; lia.
  - eexists. split; [reflexivity|]. split; reflexivity.
  - split; [lia|]. intros m x. change (first 0 None 2) with 0. change (last 0 (Some 5) 2) with 0.
    cbn [Z.ltb Z.compare]. destruct m; cbn [nth_error]; split; intros H; try discriminate; lia.
Qed.
(** x[10::-1] of three elements starts at the element 10. *)
Theorem C25_reverse_refuted : python_slice 3 (Some 10, None, Some (-1)) [2; 1; 0] /\ sizes [3] [(Some 10, None, Some (-1))] = Some [11].
Proof.
  split; [|reflexivity]. split; [lia|]. intros m x. change (first 3 (Some 10) (-1)) with 2. change (last 3 None (-1)) with (-1).
  cbn [Z.ltb Z.compare]. destruct m as [|[|[|m]]]; cbn [nth_error]; split; intros H; try (injection H as <-); try lia.
  - destruct H as [-> H]. reflexivity.
  - destruct H as [-> H]. reflexivity.
  - destruct H as [-> H]. reflexivity.
  - destruct m; discriminate.
Qed.
(** A list shorter than the axes is filled with the extents of the first axes but applied to
    the last: F.slice(x, [0], [None], [1]) of a 2x5 array keeps two columns. *)
Theorem C25_short_refuted : sizes [2; 5] [(Some 0, None, Some 1)] = Some [2; 2].
Proof. reflexivity. Qed.
(** Setup changes the stored bounds: after rewiring, a reversed axis becomes empty. *)
Theorem C25_again_refuted : exists axes axes', setup [3] [fill 3 (None, None, Some (-1))] = Some axes /\ out_shape axes = [3] /\
  setup_again [3] axes = Some axes' /\ out_shape axes' = [0].
Proof. eexists _, _. split; [reflexivity|]. split; [reflexivity|]. split; reflexivity. Qed.
(** When the output is empty, backward leaves an old gradient where it should write zero. *)
Theorem C25_empty_refuted : exists axes, setup [2] [(1, 1, 1)] = Some axes /\ out_shape axes = [0] /\
  backward 0 Z.add [2] axes false [] [7; 7] = Some [7; 7].
Proof. eexists. split; [reflexivity|]. split; reflexivity. Qed.

(** ** Examples *)
Definition ex_args : list arg := [(Some (-1), None, Some (-1)); (Some 0, None, Some 2)].
Example C25_example_ordinary : Forall2 ordinary [2; 5] ex_args.
Proof.
  constructor; [|constructor; [|constructor]].
  - unfold ordinary. repeat split; try discriminate. right. split; [lia|]. split; intros v E; [injection E as <-; lia|discriminate].
  - unfold ordinary. repeat split; try discriminate. left. cbn. lia.
Qed.
Example C25_example : exists f axes, fill_all [2; 5] ex_args = Some f /\ setup [2; 5] f = Some axes /\ out_shape axes = [2; 3] /\
  forward [2; 5] axes [0; 1; 2; 3; 4; 5; 6; 7; 8; 9] [0; 0; 0; 0; 0; 0] = Some [5; 7; 9; 0; 2; 4] /\
  backward 0 Z.add [2; 5] axes true [1; 2; 3; 4; 5; 6] [10; 10; 10; 10; 10; 10; 10; 10; 10; 10] = Some [14; 10; 15; 10; 16; 11; 10; 12; 10; 13].
Proof. eexists _, _. split; [reflexivity|]. split; [reflexivity|]. split; [reflexivity|]. split; reflexivity. Qed.
Example C25_example_python : python_slice 5 (Some 4, Some (-6), Some (-2)) [4; 2; 0].
Proof.
  split; [lia|]. intros m x. change (first 5 (Some 4) (-2)) with 4. change (last 5 (Some (-6)) (-2)) with (-1).
  cbn [Z.ltb Z.compare]. destruct m as [|[|[|m]]]; cbn [nth_error]; split; intros H; try (injection H as <-); try lia.
  - destruct H as [-> H]. reflexivity.
  - destruct H as [-> H]. reflexivity.
  - destruct H as [-> H]. reflexivity.
  - destruct m; discriminate.
Qed.

Print Assumptions C25_axis_partial.
Print Assumptions C25_axis_exact.
Print Assumptions C25_axis_ordinary.
Print Assumptions C25_zero_step.
Print Assumptions C25_forward_partial.
Print Assumptions C25_backward_partial.
Print Assumptions C25_ordinary.
Print Assumptions C25_leading_axes.
Print Assumptions C25_start_refuted.
Print Assumptions C25_beyond_refuted.
Print Assumptions C25_end_refuted.
Print Assumptions C25_reverse_refuted.
Print Assumptions C25_short_refuted.
Print Assumptions C25_again_refuted.
Print Assumptions C25_empty_refuted.
