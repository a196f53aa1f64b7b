(** HDF5 files, archives, and loading back in place. *)
From Coq Require Import String Ascii List Bool Arith ZArith Lia Permutation Sorting.Sorted.
From Verif Require Import ParamModel ParamSpec ParamProofs ParamProofs2 ParamProofs3 PfileModel PfileSpec PfileProofs PfileProofs2.
Import ListNotations.
Local Open Scope string_scope.
Local Open Scope list_scope.

Lemma described s : Inv s -> exists es, describes s (get_parameters s false) es.
Proof.
  intros Is. destruct (pb_entries_ok (fun z => z) s Is (get_parameters s false)) as (es & _ & D); eauto.
  intros k v H. eapply listed_bound; eauto.
Qed.

Lemma pairs_transfer l : forall es,
  Forall2 (fun (p : list string) e => h5_path (pname e) = p) l es ->
  ForallOrdPairs apart l ->
  ForallOrdPairs (fun a b => apart (h5_path (pname a)) (h5_path (pname b))) es.
Proof.
  induction l as [|p l IH]; intros es H HP; inversion H as [|? e ? es' HG HT]; subst; [constructor|].
  inversion HP as [|? ? HA HB]; subst. constructor; [|now apply IH].
  clear - HA HT. induction HT; constructor; inversion HA; subst; auto.
Qed.

Lemma h5_all_fst es : forall i, map fst (h5_all i es) = map (fun e => h5_path (pname e)) es.
Proof. induction es as [|e es IH]; intros i; cbn; [reflexivity|now rewrite IH]. Qed.

Lemma paths_apart s d : Inv s -> dict_at (root s) (cur s) = Some d ->
  ForallOrdPairs apart (map fst (paths d)).
Proof.
  intros Is Ed. assert (I1 : wfd (List.length (heap s)) (root s)) by apply Is.
  assert (W := wfd_at _ _ _ _ I1 Ed).
  assert (ND : NoDup (map fst (paths d))) by (rewrite <- paths_e_scope; apply (paths_nodup _ (EScope d) W)).
  assert (R : forall p, In p (map fst (paths d)) -> exists v, registered d p = Some v).
  { intros p Hp. apply in_map_iff in Hp as ([q v] & <- & Hp). exists v. eapply paths_in; eauto. }
  assert (X : forall p q, (exists v, registered d p = Some v) -> (exists v, registered d q = Some v) ->
              p <> q -> prefixb p q = false).
  { intros p q [v Hv] [w Hw] Hne. destruct (prefixb p q) eqn:E; [|reflexivity]. exfalso.
    apply prefixb_spec in E as (r & ->). destruct r as [|n r]; [rewrite app_nil_r in Hne; congruence|].
    assert (registered d (p ++ n :: r) = None); [|congruence].
    eapply registered_below_None; [exact Hv|]. exists n, r. reflexivity. }
  revert ND R. generalize (map fst (paths d)). intros l. induction l as [|p l IH]; intros ND R; [constructor|].
  inversion ND; subst. constructor.
  - rewrite Forall_forall. intros q Hq. assert (p <> q) by (intros ->; contradiction).
    split; apply X; auto; try (apply R; now left); try (apply R; now right).
  - apply IH; [assumption|]. intros q Hq. apply R. now right.
Qed.

Lemma h5_saved s : Inv s -> plain_names s ->
  exists es, describes s (get_parameters s false) es /\
    h5_entries s 0 (get_parameters s false) [] = Ok (h5_all 0 es) /\
    NoDup (map fst (h5_all 0 es)) /\
    (forall e, In e es -> exists p, pname e = joinp p /\ h5_path (pname e) = p).
Proof.
  intros Is Hp. destruct (described s Is) as (es & D). exists es. split; [exact D|].
  destruct (dict_at (root s) (cur s)) as [d|] eqn:Ed; [|now destruct Is as (_ & ? & _)].
  assert (Eg := get_parameters_paths _ _ Is Ed).
  assert (F : Forall2 (fun p e => pname e = joinp p /\ h5_path (pname e) = p /\ p <> []) (map fst (paths d)) es).
  { assert (PG : forall p v, In (p, v) (paths d) -> h5_path (joinp p) = p /\ p <> []).
    { intros p v Hi. destruct (paths_good s d p v Is Ed Hi) as [G _].
      assert (In (joinp p, v) (get_parameters s false)).
      { rewrite Eg. unfold named. apply in_map_iff. exists (p, v). auto. }
      apply Hp in H. split; [|apply G]. apply h5_path_joinp; [exact G|].
      unfold plain_name in H. rewrite split_joinp in H by apply G. exact H. }
    unfold describes in D. rewrite Eg in D. unfold named in D. clear Eg. revert es D PG.
    induction (paths d) as [|[p v] l IH]; intros es D PG; inversion D as [|? e ? es' HG HT]; subst; constructor.
    - destruct HG as [En _]. cbn in *. rewrite En. destruct (PG p v (or_introl eq_refl)). auto.
    - apply IH; [exact HT|]. intros q w Hi. apply (PG q w). now right. }
  assert (HE : forall e, In e es -> exists p, pname e = joinp p /\ h5_path (pname e) = p /\ p <> []).
  { clear -F. induction F; intros e He; [destruct He|]. destruct He as [<-|He]; [exists x; exact H|auto]. }
  split; [|split].
  - apply (h5_entries_ok s es).
    + exact D.
    + intros e He. destruct (HE e He) as (p & _ & E & N). now rewrite E.
    + intros e q _ [].
    + eapply pairs_transfer; [|apply (paths_apart s d Is Ed)].
      clear -F. induction F; constructor; tauto.
  - rewrite h5_all_fst. replace (map (fun e => h5_path (pname e)) es) with (map fst (paths d)).
    + rewrite <- paths_e_scope. apply (paths_nodup (List.length (heap s)) (EScope d)).
      eapply wfd_at; [apply Is|exact Ed].
    + clear -F. induction F; cbn; [reflexivity|]. destruct H as (_ & H & _). now rewrite H, IHF.
  - intros e He. destruct (HE e He) as (p & E1 & E2 & _). eauto.
Qed.

(** ** Loading back in place *)
Lemma Forall2_nth {A B} (R : A -> B -> Prop) l1 l2 : Forall2 R l1 l2 ->
  forall i a, nth_error l1 i = Some a -> exists b, nth_error l2 i = Some b /\ R a b.
Proof.
  induction 1; intros [|i] a E; try discriminate.
  - inversion E; subst. exists y. auto.
  - now apply IHForall2.
Qed.
Lemma Forall2_upd (R : var -> var -> Prop) l1 l2 v a b : Forall2 R l1 l2 ->
  nth_error l1 v = Some a -> R a b -> Forall2 R l1 (heap_upd l2 v b).
Proof.
  intros H. revert v. induction H; intros [|v] E HR; try discriminate; cbn.
  - inversion E; subst. now constructor.
  - constructor; auto.
Qed.
Lemma list_set_nth l : forall i c j, nth_error (list_set l i c) j =
  if Nat.eqb i j then (if Nat.ltb i (List.length l) then Some c else nth_error l j) else nth_error l j.
Proof.
  induction l as [|a l IH]; intros i c j.
  - cbn. destruct i, j; cbn; try reflexivity. now destruct (Nat.eqb i j).
  - destruct i, j; cbn; try reflexivity. rewrite IH. reflexivity.
Qed.

Definition restored (s t : st) (v : nat) : Prop :=
  exists x y c, nth_error (heap s) v = Some x /\ nth_error (heap t) v = Some y /\
    vshape x = vshape y /\ vneed x = vneed y /\
    nth_error (store s) (vstore x) = Some c /\ nth_error (store t) (vstore y) = Some c.

Lemma restore_entry s t d e p v :
  same_objects s t -> dict_at (root s) (cur s) = Some d -> good_path p -> registered d p = Some v ->
  pname e = joinp p -> read_var s v = Some (pshape e, pneed e, pdata e) ->
  exists t', load_entry t e = (t', Ok tt) /\ same_objects s t' /\ nograd t' = nograd t /\ restored s t' v /\
    (forall w, restored s t w -> restored s t' w).
Proof.
  intros (S1 & S2 & S3 & S4) Ed (G1 & G2 & G3) R En Er.
  apply read_var_some in Er as (x & Hx & X1 & X2 & X3).
  destruct (Forall2_nth _ _ _ S4 _ _ Hx) as (y & Hy & Y1 & Y2).
  unfold load_entry, get_parameter_or_create. rewrite En, split_joinp by auto.
  destruct (goc_existing p t d (pshape e) (pneed e) v y) as (ret & -> & ->); try congruence.
  eexists. split; [reflexivity|].
  assert (Hlt : vstore y < List.length (store t)).
  { rewrite S3, <- Y2. apply nth_error_Some. congruence. }
  assert (Hv : v < List.length (heap t)) by (apply nth_error_Some; congruence).
  assert (NH : nth_error (heap_upd (heap t) v (set_need y (pneed e))) v = Some (set_need y (pneed e))).
  { rewrite heap_upd_nth. rewrite Hy. destruct (Nat.eqb_spec v v); [reflexivity|congruence]. }
  split; [|split; [reflexivity|split]].
  - split; [exact S1|]. split; [exact S2|]. split; [cbn; rewrite list_set_length; exact S3|].
    cbn. eapply Forall2_upd; eauto.
  - exists x, (set_need y (pneed e)), (pdata e). cbn [heap store write_store with_heap set_need vshape vneed vstore].
    split; [exact Hx|]. split; [exact NH|]. split; [congruence|]. split; [congruence|].
    split; [exact X3|]. rewrite list_set_nth, Nat.eqb_refl. destruct (Nat.ltb_spec (vstore y) (List.length (store t))); [reflexivity|lia].
  - intros w (a & b & c & A1 & A2 & A3 & A4 & A5 & A6).
    cbn [heap store write_store with_heap].
    assert (St : forall i c', nth_error (store s) i = Some c' -> nth_error (store t) i = Some c' ->
                 nth_error (list_set (store t) (vstore y) (pdata e)) i = Some c').
    { intros i c' Hs Ht. rewrite list_set_nth. destruct (Nat.eqb_spec (vstore y) i) as [Ei|]; [|exact Ht].
      destruct (Nat.ltb_spec (vstore y) (List.length (store t))); [|lia]. congruence. }
    destruct (Forall2_nth _ _ _ S4 _ _ A1) as (b' & B1 & B2 & B3). assert (b' = b) by congruence. subst b'.
    destruct (Nat.eqb_spec v w) as [->|Hne].
    + assert (b = y) by congruence. assert (a = x) by congruence. subst b a.
      exists x, (set_need y (pneed e)), c. cbn [heap store write_store with_heap set_need vshape vneed vstore].
      repeat split; auto; try congruence. apply St; congruence.
    + exists a, b, c. cbn [heap store write_store with_heap]. repeat split; auto.
      * rewrite heap_upd_nth. destruct (Nat.eqb_spec v w); [congruence|]. exact A2.
      * apply St; congruence.
Qed.

Lemma restore_entries s d : Inv s -> dict_at (root s) (cur s) = Some d ->
  forall l es t, (forall p v, In (p, v) l -> good_path p /\ registered d p = Some v) ->
  describes s (named l) es -> same_objects s t ->
  exists t', load_entries t es = (t', Ok tt) /\ same_objects s t' /\ nograd t' = nograd t /\
    (forall p v, In (p, v) l -> restored s t' v) /\
    (forall w, restored s t w -> restored s t' w).
Proof.
  intros Is Ed. induction l as [|[p v] l IH]; intros es t Hl D So; inversion D as [|? e ? es' HG HT]; subst.
  - exists t. cbn. repeat split; auto; try apply So. intros ? ? [].
  - destruct HG as [En Er]. cbn [fst snd] in *. destruct (Hl p v (or_introl eq_refl)) as [G R].
    destruct (restore_entry s t d e p v So Ed G R En Er) as (t1 & E1 & So1 & Ng1 & Rv & Rk).
    destruct (IH es' t1) as (t2 & E2 & So2 & Ng2 & R2 & K2); [intros q w Hi; apply Hl; now right|exact HT|exact So1|].
    exists t2. cbn [load_entries]. rewrite E1. split; [exact E2|]. split; [exact So2|]. split; [congruence|]. split.
    + intros q w [E|Hi]; [inversion E; subst; auto|eauto].
    + auto.
Qed.

Lemma same_objects_listing s t : Inv s -> same_objects s t -> get_parameters t false = get_parameters s false.
Proof.
  intros Is (S1 & S2 & _ & S4). unfold get_parameters. rewrite S1, S2.
  destruct (dict_at (root s) (cur s)) as [d|] eqn:Ed; [|reflexivity].
  assert (W : wfd (List.length (heap s)) d) by (eapply wfd_at; [apply Is|exact Ed]).
  now rewrite !(collect_dict_paths _ _ _ W).
Qed.

Lemma restore_described s t es : Inv s -> same_objects s t ->
  describes s (get_parameters s false) es ->
  exists t', load_entries t es = (t', Ok tt) /\ same_objects s t' /\ nograd t' = nograd t /\
    same_parameters s t' /\ get_parameters t' false = get_parameters s false.
Proof.
  intros Is So D. destruct (dict_at (root s) (cur s)) as [d|] eqn:Ed; [|now destruct Is as (_ & ? & _)].
  assert (Eg := get_parameters_paths _ _ Is Ed). rewrite Eg in D.
  destruct (restore_entries s d Is Ed (paths d) es t) as (t' & E & So' & Ng & R & _); auto.
  { intros p v Hi. now apply (paths_good s d p v). }
  exists t'. split; [exact E|]. split; [exact So'|]. split; [exact Ng|].
  assert (Eg' := same_objects_listing s t' Is So'). split; [|exact Eg'].
  unfold same_parameters. rewrite Eg', Eg. unfold named.
  assert (R' : forall pv, In pv (paths d) -> restored s t' (snd pv)) by (intros [p v] Hi; eapply R; eauto).
  revert R'. generalize (paths d). clear. intros l. induction l as [|pv l IH]; intros R; constructor.
  - split; [reflexivity|]. cbn [snd]. apply R. now left.
  - apply IH. intros x Hx. apply R. now right.
Qed.

(** ** The two formats and the archive, as one statement *)
Definition saved_ok (f32 : Z -> Z) (s : st) (ext : string) : Prop :=
  ext = ".h5" /\ plain_names s \/ ext = ".protobuf" /\ fits f32 s.

Lemma save_load f32 s ext : Inv s -> saved_ok f32 s ext ->
  exists es f, describes s (get_parameters s false) es /\ save_parameters f32 s None ext = Ok f /\
    (forall t needs order, visits f order -> snd (load_entries t es) = Ok tt ->
       load_parameters t None needs order ext f =
         (fst (load_entries t es),
          (if String.eqb ext ".h5" then if needs then es else [] else es), Ok tt)) /\
    (forall t needs order, visits f order -> snd (load_entries t es) = Ok tt ->
       load_member loaders t [] needs order ext f =
         (fst (load_entries t es),
          (if String.eqb ext ".h5" then if needs then es else [] else es), Ok tt)).
Proof.
  intros Is [[-> Hp]|[-> Hf]].
  - destruct (h5_saved s Is Hp) as (es & D & E & ND & HE). exists es, (FH5 (h5_all 0 es)).
    split; [exact D|]. split.
    { unfold save_parameters.
      change (contains ".h5" ".h5") with true. change (String.eqb ".h5" ".h5") with true. cbn iota. now rewrite E. }
    change (String.eqb ".h5" ".h5") with true. cbn iota.
    assert (L : forall t needs order, visits (FH5 (h5_all 0 es)) order -> snd (load_entries t es) = Ok tt ->
      h5_load t [] needs (h5_all 0 es) (sorted_keys (h5_keys (h5_all 0 es) order)) =
      (fst (load_entries t es), if needs then es else [], Ok tt)).
    { intros t needs order V Hok. cbn in V. rewrite (sorted_order _ _ ND V).
      destruct (h5_load_entries (h5_all 0 es) needs ND es 0 t [] HE (fun x H => H)) as (pr & X & Y).
      rewrite X, Hok, (Y Hok). reflexivity. }
    split; intros t needs order V Hok.
    + unfold load_parameters, loaders. cbn [load_file].
      change (contains ".h5" ".h5") with true. cbn iota. cbn [load_plain].
      change (String.eqb ".h5" ".h5") with true. cbn iota. rewrite (L t needs order V Hok).
      change (contains ".h5" ".protobuf") with false. change (contains ".h5" ".nntxt,.prototxt") with false.
      change (contains ".h5" ".nnp") with false. reflexivity.
    + unfold loaders. cbn [load_member].
      change (contains ".h5" ".h5") with true. cbn iota. cbn [load_plain].
      change (String.eqb ".h5" ".h5") with true. cbn iota. rewrite (L t needs order V Hok).
      change (contains ".h5" ".protobuf") with false. change (contains ".h5" ".nntxt,.prototxt") with false.
      change (contains ".h5" ".nnp") with false. reflexivity.
  - destruct (pb_entries_ok f32 s Is (get_parameters s false)) as (es & E & D).
    { intros k v H. eapply listed_bound; eauto. }
    { exact Hf. }
    exists es, (FPb es). split; [exact D|]. split.
    { unfold save_parameters. change (contains ".protobuf" ".h5") with false.
      change (contains ".protobuf" ".protobuf") with true. change (String.eqb ".protobuf" ".protobuf") with true.
      cbn iota. now rewrite E. }
    change (String.eqb ".protobuf" ".h5") with false. cbn iota.
    split; intros t needs order V Hok.
    + unfold load_parameters, loaders. cbn [load_file].
      change (contains ".protobuf" ".h5") with false. change (contains ".protobuf" ".protobuf") with true.
      cbn iota. cbn [load_plain]. change (String.eqb ".protobuf" ".protobuf") with true. cbn iota. cbn [app].
      destruct (load_entries t es) as [t1 r1]. cbn in Hok |- *. subst r1.
      change (contains ".protobuf" ".nntxt,.prototxt") with false. change (contains ".protobuf" ".nnp") with false.
      reflexivity.
    + unfold loaders. cbn [load_member].
      change (contains ".protobuf" ".h5") with false. change (contains ".protobuf" ".protobuf") with true.
      cbn iota. cbn [load_plain]. change (String.eqb ".protobuf" ".protobuf") with true. cbn iota. cbn [app].
      destruct (load_entries t es) as [t1 r1]. cbn in Hok |- *. subst r1.
      change (contains ".protobuf" ".nntxt,.prototxt") with false. change (contains ".protobuf" ".nnp") with false.
      reflexivity.
Qed.

Lemma save_load_nnp f32 s pf : Inv s ->
  saved_ok f32 s (if String.eqb pf ".h5" then ".h5" else ".protobuf") ->
  exists es f, describes s (get_parameters s false) es /\ save_nnp f32 s None pf = Ok f /\
    (forall t needs order, visits f order -> snd (load_entries t es) = Ok tt ->
       exists pr, load_parameters t None needs order ".nnp" f = (fst (load_entries t es), pr, Ok tt)).
Proof.
  intros Is So. destruct (save_load f32 s _ Is So) as (es & f & D & E & _ & L). 
  unfold save_nnp. rewrite E. eexists es, _. split; [exact D|]. split; [reflexivity|].
  intros t needs order V Hok.
  assert (V' : visits f order).
  { cbn in V. inversion V as [|? ? _ V2]; subst. inversion V2 as [|? ? _ V3]; subst.
    inversion V3 as [|? ? V4 _]; subst. cbn in V4.
    destruct So as [[Ex Hp]|[Ex Hf]]; rewrite Ex in E.
    - unfold save_parameters in E. change (contains ".h5" ".h5") with true in E.
      change (String.eqb ".h5" ".h5") with true in E. cbn iota in E.
      destruct (h5_entries s 0 (get_parameters s false) []); inversion E; subst. exact V4.
    - unfold save_parameters in E. change (contains ".protobuf" ".h5") with false in E.
      change (contains ".protobuf" ".protobuf") with true in E.
      change (String.eqb ".protobuf" ".protobuf") with true in E. cbn iota in E.
      destruct (pb_entries f32 s (get_parameters s false)); inversion E; subst. exact I. }
  specialize (L t needs order V' Hok).
  unfold load_parameters, loaders at 1. cbn [load_file].
  change (contains ".nnp" ".h5") with false. change (contains ".nnp" ".protobuf") with false.
  change (contains ".nnp" ".nntxt,.prototxt") with false. change (contains ".nnp" ".nnp") with true.
  cbn iota. change (String.eqb ".nnp" ".nnp") with true. cbn iota. cbn [load_members].
  replace (load_member loaders t [] needs order ".txt" FOther) with (t, @nil pentry, @Ok unit tt) by reflexivity.
  replace (load_member loaders t [] needs order ".nntxt" (FTxt [])) with (t, @nil pentry, @Ok unit tt) by reflexivity.
  cbv beta iota. rewrite L. cbv beta iota. eauto.
Qed.
