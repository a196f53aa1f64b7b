(** Loading what was saved. *)
From Coq Require Import String Ascii List Bool Arith ZArith Lia Permutation Sorting.Sorted.
From Verif Require Import ParamModel ParamSpec ParamProofs ParamProofs2 ParamProofs3 PfileModel PfileSpec PfileProofs.
Import ListNotations.
Local Open Scope string_scope.
Local Open Scope list_scope.

(** ** Loading into an empty scope *)
Fixpoint new_vars (k : nat) (es : list pentry) : list var :=
  match es with
  | [] => []
  | e :: es' => {| vshape := pshape e; vneed := pneed e; vstore := k |} :: new_vars (S k) es'
  end.

Fixpoint number (i : nat) (ps : list (list string)) : list (list string * nat) :=
  match ps with [] => [] | p :: ps' => (p, i) :: number (S i) ps' end.

Lemma number_fst i ps : map fst (number i ps) = ps.
Proof. revert i. induction ps as [|p ps IH]; intros i; cbn; [reflexivity|now rewrite IH]. Qed.

Definition good_path (p : list string) : Prop :=
  p <> [] /\ forallb noslash p = true /\ canon p = p.

Lemma list_set_last l x c : list_set (l ++ [x]) (List.length l) c = l ++ [c].
Proof. induction l as [|a l IH]; cbn; [reflexivity|now rewrite IH]. Qed.

Lemma load_entry_fresh t D p e :
  dict_at (root t) (cur t) = Some D -> fresh D p -> good_path p -> pname e = joinp p ->
  load_entry t e =
  ({| heap := heap t ++ [{| vshape := pshape e; vneed := pneed e; vstore := List.length (store t) |}];
      store := store t ++ [pdata e];
      root := dict_put (root t) (cur t) (ins D p (List.length (heap t)));
      cur := cur t; nograd := nograd t |}, Ok tt).
Proof.
  intros Ed F (Np & Ns & C) En. unfold load_entry, get_parameter_or_create. rewrite En, split_joinp by auto.
  destruct (goc_fresh p t D (pshape e) (pneed e) Ed F C) as (ret & -> & ->).
  f_equal. unfold write_store, grown. cbn [heap store root cur nograd]. now rewrite list_set_last.
Qed.

Lemma load_entries_fresh es : forall t D ps,
  dict_at (root t) (cur t) = Some D ->
  fresh_all D (number (List.length (heap t)) ps) ->
  Forall2 (fun p e => good_path p /\ pname e = joinp p) ps es ->
  load_entries t es =
  ({| heap := heap t ++ new_vars (List.length (store t)) es;
      store := store t ++ map pdata es;
      root := dict_put (root t) (cur t) (ins_all D (number (List.length (heap t)) ps));
      cur := cur t; nograd := nograd t |}, Ok tt).
Proof.
  induction es as [|e es IH]; intros t D ps Ed F H; inversion H as [|x ? l ? HG HT]; subst.
  - cbn. rewrite !app_nil_r, (dict_put_same _ _ _ Ed). now destruct t.
  - cbn [load_entries]. cbn [number fresh_all] in F. destruct F as [F1 F2]. destruct HG as [G En].
    rewrite (load_entry_fresh _ _ _ _ Ed F1 G En).
    rewrite (IH _ (ins D x (List.length (heap t))) l).
    + cbn [heap store root cur nograd]. rewrite !app_length. cbn [List.length].
      rewrite !Nat.add_1_r. cbn [new_vars map number ins_all]. rewrite <- !app_assoc. cbn [app].
      now rewrite (dict_put_put _ _ _ _ _ Ed).
    + cbn. eapply dict_at_put; eauto.
    + cbn. rewrite app_length. cbn. now rewrite Nat.add_1_r.
    + assumption.
Qed.

(** The entries describe the parameters of [s]. *)
Definition describes (s : st) (ps : list (string * nat)) (es : list pentry) : Prop :=
  Forall2 (fun kv e => pname e = fst kv /\ read_var s (snd kv) = Some (pshape e, pneed e, pdata e)) ps es.

Lemma read_var_some s v sh n c : read_var s v = Some (sh, n, c) ->
  exists x, nth_error (heap s) v = Some x /\ vshape x = sh /\ vneed x = n /\
            nth_error (store s) (vstore x) = Some c.
Proof.
  unfold read_var. intros H. destruct (nth_error (heap s) v) as [x|]; [|discriminate].
  destruct (nth_error (store s) (vstore x)) as [c'|] eqn:E; [|discriminate].
  inversion H; subst. exists x. auto.
Qed.

Lemma describes_same s t0 (h0 : list var) (st0 : list Z) : forall l es,
  describes s (named l) es ->
  forall hpre spre, heap t0 = hpre ++ new_vars (List.length spre) es ->
  store t0 = spre ++ map pdata es ->
  Forall2 (same_parameter s t0) (named l) (named (number (List.length hpre) (map fst l))).
Proof.
  induction l as [|[p v] l IH]; intros es H hpre spre Hh Hs; cbn; [constructor|].
  inversion H as [|? y ? l' HG HT]; subst. destruct HG as [En Er]. cbn [fst snd] in *. constructor.
  - split; [reflexivity|]. cbn [snd]. apply read_var_some in Er as (x & Hx & S1 & S2 & S3).
    exists x, {| vshape := pshape y; vneed := pneed y; vstore := List.length spre |}, (pdata y).
    cbn [vshape vneed vstore]. repeat split; auto.
    + rewrite Hh, nth_error_app2 by lia. now rewrite Nat.sub_diag.
    + rewrite Hs, nth_error_app2 by lia. now rewrite Nat.sub_diag.
  - cbn in Hh, Hs.
    specialize (IH l' HT (hpre ++ [{| vshape := pshape y; vneed := pneed y; vstore := List.length spre |}])
                   (spre ++ [pdata y])).
    rewrite !app_length in IH. cbn [List.length] in IH. rewrite !Nat.add_1_r in IH.
    apply IH; rewrite <- app_assoc; [exact Hh|exact Hs].
Qed.

Lemma number_map {A B} (R : A -> B -> Prop) (f : A -> list string) l1 l2 (Q : list string -> B -> Prop) :
  Forall2 R l1 l2 -> (forall a b, In a l1 -> R a b -> Q (f a) b) -> Forall2 Q (map f l1) l2.
Proof.
  intros H HQ. induction H; cbn; constructor.
  - apply HQ; [now left|assumption].
  - apply IHForall2. intros a b Hi. apply HQ. now right.
Qed.

Lemma paths_good s d p v : Inv s -> dict_at (root s) (cur s) = Some d -> In (p, v) (paths d) ->
  good_path p /\ registered d p = Some v.
Proof.
  intros (I1 & _ & _) Ed H. assert (W := wfd_at _ _ _ _ I1 Ed). apply (paths_in _ _ _ _ W) in H.
  destruct (registered_noslash _ _ _ _ W H) as (A & B & C & _). repeat split; auto.
Qed.

Lemma list_set_length l : forall i c, List.length (list_set l i c) = List.length l.
Proof. induction l as [|a l IH]; intros [|i] c; cbn; auto. Qed.

Lemma load_entry_Inv t e t' o : Inv t -> load_entry t e = (t', o) -> Inv t'.
Proof.
  intros It E. unfold load_entry in E.
  destruct (get_parameter_or_create t (pname e) (Some (pshape e)) INone (pneed e) None) as [t2 [ret|x]] eqn:E2;
    apply goc_Inv in E2; auto; inversion E; subst; [|exact E2].
  destruct E2 as (A & B & C). split; [exact A|split; [exact B|]]. cbn. now rewrite list_set_length.
Qed.

Lemma load_entries_Inv es : forall t t' o, Inv t -> load_entries t es = (t', o) -> Inv t'.
Proof.
  induction es as [|e es IH]; intros t t' o It E; cbn in E; [now inversion E; subst|].
  destruct (load_entry t e) as [t1 r1] eqn:E1. apply load_entry_Inv in E1; [|exact It].
  destruct r1; [eapply IH; eauto|inversion E; now subst].
Qed.

Lemma load_described s t es :
  Inv s -> Inv t -> dict_at (root t) (cur t) = Some [] ->
  describes s (get_parameters s false) es ->
  exists t', load_entries t es = (t', Ok tt) /\ same_parameters s t' /\
    cur t' = cur t /\ nograd t' = nograd t /\
    (exists h, heap t' = heap t ++ h) /\ (exists c, store t' = store t ++ c) /\
    (exists D, root t' = dict_put (root t) (cur t) D).
Proof.
  intros Is It Et H. destruct (dict_at (root s) (cur s)) as [d|] eqn:Ed; [|now destruct Is as (_ & ? & _)].
  rewrite (get_parameters_paths _ _ Is Ed) in H.
  assert (Ws : wfd (List.length (heap s)) d) by (eapply wfd_at; [apply Is|exact Ed]).
  destruct (rebuild _ _ Ws (number (List.length (heap t)) (map fst (paths d))) []) as (F & P & _).
  { now apply wfd_iff in Ws. }
  { now rewrite number_fst. }
  { auto. }
  set (ps := map fst (paths d)) in *.
  assert (G : Forall2 (fun p e => good_path p /\ pname e = joinp p) ps es).
  { unfold ps. unfold describes, named in H.
    assert (H' : Forall2 (fun (pv : list string * nat) e => pname e = joinp (fst pv)) (paths d) es).
    { clear -H. revert es H. induction (paths d) as [|[p v] l IH]; intros es H; inversion H as [|? ? ? ? HG HT]; subst; constructor.
      - cbn. apply HG.
      - now apply IH. }
    eapply number_map; [exact H'|]. intros [p v] e Hi E. cbn in *. split; [|exact E].
    now apply (paths_good s d p v). }
  assert (E := load_entries_fresh es t [] ps Et F G). rewrite E. eexists. split; [reflexivity|].
  cbn [heap store root cur nograd].
  set (t' := {| heap := heap t ++ new_vars (List.length (store t)) es;
      store := store t ++ map pdata es;
      root := dict_put (root t) (cur t) (ins_all [] (number (List.length (heap t)) ps));
      cur := cur t; nograd := nograd t |}) in *.
  split.
  - unfold same_parameters. rewrite (get_parameters_paths _ _ Is Ed).
    assert (It' : Inv t' /\ dict_at (root t') (cur t') = Some (ins_all [] (number (List.length (heap t)) ps))).
    { split; [|cbn; eapply dict_at_put; eauto].
      exact (load_entries_Inv _ _ _ _ It E). }
    destruct It' as [It' Ed']. rewrite (get_parameters_paths _ _ It' Ed'), P. cbn [app].
    unfold ps. eapply describes_same; [exact nil|exact nil|exact H|reflexivity|reflexivity].
  - split; [reflexivity|]. split; [reflexivity|]. split; [eauto|]. split; [eauto|]. eauto.
Qed.

(** ** What the two savers write *)
Lemma inv_read s v : Inv s -> v < List.length (heap s) -> exists x c, nth_error (heap s) v = Some x /\
  nth_error (store s) (vstore x) = Some c /\ read_var s v = Some (vshape x, vneed x, c).
Proof.
  intros (_ & _ & I3) Hv. destruct (nth_error (heap s) v) as [x|] eqn:E; [|apply nth_error_None in E; lia].
  rewrite Forall_forall in I3. specialize (I3 x (nth_error_In _ _ E)).
  destruct (nth_error (store s) (vstore x)) as [c|] eqn:Ec; [|apply nth_error_None in Ec; lia].
  exists x, c. unfold read_var. rewrite E, Ec. auto.
Qed.

Lemma listed_bound s k v : Inv s -> In (k, v) (get_parameters s false) -> v < List.length (heap s).
Proof.
  intros Is H. assert (Is' := Is). apply (get_parameters_spec s false Is) in H as (p & P1 & -> & R & _).
  destruct Is' as (I1 & _ & _). now destruct (registered_noslash _ _ _ _ I1 R) as (_ & _ & _ & ?).
Qed.

Lemma pb_entries_ok f32 s : Inv s -> forall ps,
  (forall k v, In (k, v) ps -> v < List.length (heap s)) ->
  (forall k v x c, In (k, v) ps -> nth_error (heap s) v = Some x ->
                   nth_error (store s) (vstore x) = Some c -> f32 c = c) ->
  exists es, pb_entries f32 s ps = Ok es /\ describes s ps es.
Proof.
  intros Is. induction ps as [|[k v] ps IH]; intros Hb Hf.
  - exists []. split; [reflexivity|constructor].
  - destruct IH as (es & E & D); [intros a b Hi; exact (Hb a b (or_intror Hi))|intros a b x c Hi; exact (Hf a b x c (or_intror Hi))|].
    destruct (inv_read s v Is (Hb k v (or_introl eq_refl))) as (x & c & Hx & Hc & Hr).
    cbn [pb_entries]. rewrite Hr, E. eexists. split; [reflexivity|]. constructor; [|exact D].
    cbn. rewrite Hr, (Hf k v x c) by (auto; now left). auto.
Qed.

(** *** HDF5 *)
Definition h5_of (i : nat) (p : list string) (e : pentry) : list string * dset5 :=
  (p, {| dindex := i; dshape := pshape e; dneed := pneed e; ddata := pdata e |}).
Fixpoint h5_all (i : nat) (es : list pentry) : h5file :=
  match es with [] => [] | e :: es' => h5_of i (h5_path (pname e)) e :: h5_all (S i) es' end.

Lemma prefixb_spec p q : prefixb p q = true <-> exists r, q = p ++ r.
Proof.
  revert q. induction p as [|a p IH]; intros q; cbn; [split; eauto|].
  destruct q as [|b q]; [split; [discriminate|intros (r & E); discriminate]|].
  rewrite andb_true_iff, IH. split.
  - intros [E (r & ->)]. apply String.eqb_eq in E. subst. exists r. reflexivity.
  - intros (r & E). inversion E; subst. rewrite String.eqb_refl. split; eauto.
Qed.

Definition apart (p q : list string) : Prop := prefixb p q = false /\ prefixb q p = false.

Lemma h5_entries_ok s : forall es ps i f,
  describes s ps es ->
  (forall e, In e es -> h5_path (pname e) <> []) ->
  (forall e q, In e es -> In q f -> apart (h5_path (pname e)) (fst q)) ->
  ForallOrdPairs (fun a b => apart (h5_path (pname a)) (h5_path (pname b))) es ->
  h5_entries s i ps f = Ok (f ++ h5_all i es).
Proof.
  induction es as [|e es IH]; intros ps i f D Hn Hf Hp; inversion D as [|x ? ps' ? HG HT]; subst.
  - cbn. now rewrite app_nil_r.
  - destruct x as [k v]. destruct HG as [En Er]. cbn [fst snd] in *. subst k. cbn [h5_entries]. rewrite Er.
    inversion Hp as [|? ? HA HB]; subst.
    set (x := {| dindex := i; dshape := pshape e; dneed := pneed e; ddata := pdata e |}).
    assert (E : h5_link f (h5_path (pname e)) x = Ok (f ++ [(h5_path (pname e), x)])).
    { unfold h5_link. assert (Hne := Hn e (or_introl eq_refl)).
      destruct (h5_path (pname e)) as [|a p] eqn:Ep; [congruence|].
      destruct (existsb _ f) eqn:Ex; [|reflexivity]. exfalso.
      apply existsb_exists in Ex as (q & Hq & Ex). destruct (Hf e q (or_introl eq_refl) Hq) as [A B].
      rewrite Ep in A, B. rewrite A, B in Ex. discriminate. }
    rewrite E. rewrite (IH ps').
    + cbn [h5_all]. rewrite <- app_assoc. reflexivity.
    + assumption.
    + intros a Ha. apply Hn. now right.
    + intros a q Ha Hq. apply in_app_iff in Hq as [Hq|[<-|[]]]; [apply Hf; [now right|exact Hq]|].
      cbn [fst]. rewrite Forall_forall in HA. destruct (HA a Ha). split; assumption.
    + assumption.
Qed.

(** *** sorting by index *)
Definition ltk (a b : nat * string) : Prop := fst a < fst b.

Lemma insert_key_perm a l : Permutation (insert_key a l) (a :: l).
Proof.
  induction l as [|b l IH]; cbn; [reflexivity|]. destruct (key_le a b); [reflexivity|].
  rewrite IH. apply perm_swap.
Qed.
Lemma sorted_keys_perm l : Permutation (sorted_keys l) l.
Proof. induction l as [|a l IH]; cbn; [reflexivity|]. rewrite insert_key_perm. now constructor. Qed.

Lemma insert_key_sorted a l : StronglySorted ltk l -> (forall b, In b l -> fst b <> fst a) ->
  StronglySorted ltk (insert_key a l).
Proof.
  induction l as [|b l IH]; cbn; intros S N; [repeat constructor|]. inversion S; subst.
  assert (Nb := N b (or_introl eq_refl)). unfold key_le.
  destruct (Nat.eqb_spec (fst a) (fst b)); [congruence|]. destruct (Nat.ltb_spec (fst a) (fst b)).
  - constructor; [exact S|]. constructor; [exact H|]. eapply Forall_impl; [|exact H2]. unfold ltk. intros; lia.
  - constructor.
    + apply IH; [exact H1|]. intros c Hc. apply N. now right.
    + rewrite (insert_key_perm a l). constructor; [unfold ltk; lia|exact H2].
Qed.

Lemma sorted_keys_sorted l : NoDup (map fst l) -> StronglySorted ltk (sorted_keys l).
Proof.
  induction l as [|a l IH]; cbn; intros ND; [constructor|]. inversion ND; subst.
  apply insert_key_sorted; [auto|]. intros b Hb E. apply H1. rewrite <- E. apply in_map.
  now rewrite (sorted_keys_perm l) in Hb.
Qed.

Lemma sorted_eq l1 : forall l2, StronglySorted ltk l1 -> StronglySorted ltk l2 -> Permutation l1 l2 -> l1 = l2.
Proof.
  induction l1 as [|a l1 IH]; intros l2 S1 S2 P.
  - apply Permutation_nil in P. now subst.
  - destruct l2 as [|b l2]; [apply Permutation_sym, Permutation_nil in P; discriminate|].
    inversion S1; subst. inversion S2; subst. rewrite Forall_forall in *.
    assert (a = b).
    { assert (Ha : In a (b :: l2)) by (rewrite <- P; now left).
      assert (Hb : In b (a :: l1)) by (rewrite P; now left).
      destruct Ha as [|Ha]; [congruence|]. destruct Hb as [|Hb]; [congruence|].
      specialize (H2 _ Hb). specialize (H4 _ Ha). unfold ltk in *. lia. }
    subst b. f_equal. apply IH; auto. now apply Permutation_cons_inv in P.
Qed.

Lemma h5_name_joinp p : h5_name p = joinp p.
Proof. induction p as [|a [|b p] IH]; [reflexivity|reflexivity|]. cbn [h5_name joinp] in *. now rewrite IH. Qed.

Lemma h5_get_in f : NoDup (map fst f) -> forall p x, In (p, x) f -> h5_get f p = Some x.
Proof.
  induction f as [|[q y] f IH]; intros ND p x H; [destruct H|]. inversion ND; subst. cbn [h5_get].
  destruct H as [H|H].
  - inversion H; subst. destruct (list_eq_dec string_dec p p); congruence.
  - destruct (list_eq_dec string_dec q p) as [->|]; [|auto]. exfalso. apply H2. now apply (in_map fst) in H.
Qed.

Definition keys_of (f : h5file) : list (nat * string) :=
  map (fun qx => (dindex (snd qx), h5_name (fst qx))) f.

Lemma h5_keys_get f order : (forall p, In p order -> exists x, h5_get f p = Some x) ->
  h5_keys f order = map (fun p => (match h5_get f p with Some x => dindex x | None => 0 end, h5_name p)) order.
Proof.
  induction order as [|p order IH]; intros H; [reflexivity|]. cbn.
  destruct (H p (or_introl eq_refl)) as [x ->]. rewrite IH; [reflexivity|]. intros q Hq. apply H. now right.
Qed.

Lemma h5_keys_perm f order : NoDup (map fst f) -> Permutation order (map fst f) ->
  Permutation (h5_keys f order) (keys_of f).
Proof.
  intros ND P. rewrite h5_keys_get.
  - rewrite P. unfold keys_of. rewrite map_map. apply Permutation_refl'.
    apply map_ext_in. intros [q x] Hi. cbn. now rewrite (h5_get_in f ND q x Hi).
  - intros p Hp. rewrite P in Hp. apply in_map_iff in Hp as ([q x] & <- & Hi). exists x.
    now apply h5_get_in.
Qed.

Lemma keys_all_sorted es : forall i, StronglySorted ltk (keys_of (h5_all i es)) /\
  Forall (fun k => i <= fst k) (keys_of (h5_all i es)).
Proof.
  induction es as [|e es IH]; intros i; [split; constructor|]. cbn. destruct (IH (S i)) as [A B]. split.
  - constructor; [exact A|]. eapply Forall_impl; [|exact B]. unfold ltk. cbn. intros; lia.
  - constructor; [cbn; lia|]. eapply Forall_impl; [|exact B]. cbn. intros; lia.
Qed.

Lemma sorted_fst_nodup l : StronglySorted ltk l -> NoDup (map fst l).
Proof.
  induction 1; cbn; constructor; auto. intros Hi. apply in_map_iff in Hi as (b & E & Hi).
  rewrite Forall_forall in H0. specialize (H0 _ Hi). unfold ltk in H0. lia.
Qed.

Lemma sorted_order es order : NoDup (map fst (h5_all 0 es)) ->
  Permutation order (map fst (h5_all 0 es)) ->
  sorted_keys (h5_keys (h5_all 0 es) order) = keys_of (h5_all 0 es).
Proof.
  intros ND P. assert (Q := h5_keys_perm _ _ ND P). destruct (keys_all_sorted es 0) as [S _].
  apply sorted_eq; [|exact S|now rewrite sorted_keys_perm].
  apply sorted_keys_sorted. rewrite Q. now apply sorted_fst_nodup.
Qed.

Lemma h5_path_joinp p : good_path p -> (forall c, In c p -> c <> "" /\ c <> ".") -> h5_path (joinp p) = p.
Proof.
  intros (A & B & C) H. unfold h5_path. rewrite split_joinp by auto. clear -H.
  induction p as [|a p IH]; [reflexivity|]. cbn.
  assert (Ha : h5_component a = true).
  { destruct (H a (or_introl eq_refl)) as [H1 H2]. unfold h5_component.
    destruct (String.eqb_spec a ""), (String.eqb_spec a "."); try congruence. reflexivity. }
  rewrite Ha. f_equal. apply IH. intros c Hc. apply H. now right.
Qed.

(** The loop of the HDF5 loader is the loop over the entries. *)
Lemma h5_load_entries f needs : NoDup (map fst f) ->
  forall es i t proto,
  (forall e, In e es -> exists p, pname e = joinp p /\ h5_path (pname e) = p) ->
  (forall x, In x (h5_all i es) -> In x f) ->
  exists proto',
    h5_load t proto needs f (keys_of (h5_all i es)) =
      (fst (load_entries t es), proto', snd (load_entries t es)) /\
    (snd (load_entries t es) = Ok tt -> proto' = if needs then proto ++ es else proto).
Proof.
  intros ND. induction es as [|e es IH]; intros i t proto Hn Hin.
  - exists proto. split; [reflexivity|]. cbn. destruct needs; [now rewrite app_nil_r|reflexivity].
  - change (keys_of (h5_all i (e :: es))) with ((i, h5_name (h5_path (pname e))) :: keys_of (h5_all (S i) es)).
    cbn [h5_load]. rewrite h5_name_joinp.
    destruct (Hn e (or_introl eq_refl)) as (p & E1 & E2). rewrite E2, <- E1, E2.
    rewrite (h5_get_in f ND p {| dindex := i; dshape := pshape e; dneed := pneed e; ddata := pdata e |})
      by (apply Hin; left; unfold h5_of; now rewrite E2).
    cbn [dshape dneed ddata].
    replace {| pname := pname e; pshape := pshape e; pneed := pneed e; pdata := pdata e |} with e by (now destruct e).
    cbn [load_entries]. destruct (load_entry t e) as [t1 [[]|x]].
    + destruct (IH (S i) t1 (if needs then proto ++ [e] else proto)) as (proto' & E & Hp).
      * intros a Ha. apply Hn. now right.
      * intros a Ha. apply Hin. now right.
      * exists proto'. split; [exact E|]. intros H. rewrite (Hp H). destruct needs; [now rewrite <- app_assoc|reflexivity].
    + exists proto. split; [reflexivity|]. cbn. discriminate.
Qed.
