(** Trees of scopes, and what get_parameter_or_create does to them exactly. *)
From Coq Require Import String Ascii List Bool Arith ZArith Lia Permutation.
From Verif Require Import ParamModel ParamSpec ParamProofs ParamProofs2 ParamProofs3 PfileModel PfileSpec.
Import ListNotations.
Local Open Scope string_scope.
Local Open Scope list_scope.

(** ** Listing a tree by paths *)
Fixpoint paths_e (e : entry) : list (list string * nat) :=
  match e with
  | EVar v => [([], v)]
  | EScope d =>
      (fix go (l : list (string * entry)) : list (list string * nat) :=
         match l with
         | [] => []
         | (k, x) :: l' => map (fun pv => (k :: fst pv, snd pv)) (paths_e x) ++ go l'
         end) d
  end.
Definition under (k : string) (l : list (list string * nat)) : list (list string * nat) :=
  map (fun pv => (k :: fst pv, snd pv)) l.
Definition paths (d : dict) : list (list string * nat) :=
  flat_map (fun kx => under (fst kx) (paths_e (snd kx))) d.

Lemma paths_e_scope d : paths_e (EScope d) = paths d.
Proof.
  unfold paths. cbn [paths_e]. induction d as [|[k x] d IH]; [reflexivity|].
  cbn [flat_map fst snd]. now rewrite IH.
Qed.

Lemma paths_cons k x d : paths ((k, x) :: d) = under k (paths_e x) ++ paths d.
Proof. reflexivity. Qed.
Lemma paths_app d1 d2 : paths (d1 ++ d2) = paths d1 ++ paths d2.
Proof. unfold paths. apply flat_map_app. Qed.

(** ** Inserting at a path *)
Definition sub (n : string) (d : dict) : dict :=
  match dlookup n d with Some (EScope c) => c | _ => [] end.
Fixpoint ins (d : dict) (p : list string) (v : nat) : dict :=
  match p with
  | [] => d
  | [k] => dset k (EVar v) d
  | n :: q => dset n (EScope (ins (sub n d) q v)) d
  end.
Fixpoint fresh (d : dict) (p : list string) : Prop :=
  match p with
  | [] => False
  | [k] => dlookup k d = None
  | n :: q => match dlookup n d with
              | None => True
              | Some (EVar _) => False
              | Some (EScope c) => fresh c q
              end
  end.

Lemma ins_cons d n q v : q <> [] -> ins d (n :: q) v = dset n (EScope (ins (sub n d) q v)) d.
Proof. destruct q; [congruence|reflexivity]. Qed.
Lemma fresh_cons d n q : q <> [] ->
  fresh d (n :: q) = match dlookup n d with
                     | None => True | Some (EVar _) => False | Some (EScope c) => fresh c q end.
Proof. destruct q; [congruence|reflexivity]. Qed.

Fixpoint ins_all (d : dict) (l : list (list string * nat)) : dict :=
  match l with [] => d | (p, v) :: l' => ins_all (ins d p v) l' end.
Fixpoint fresh_all (d : dict) (l : list (list string * nat)) : Prop :=
  match l with [] => True | (p, v) :: l' => fresh d p /\ fresh_all (ins d p v) l' end.

Lemma ins_all_app l1 : forall d l2, ins_all d (l1 ++ l2) = ins_all (ins_all d l1) l2.
Proof. induction l1 as [|[p v] l1 IH]; intros d l2; [reflexivity|]. cbn. apply IH. Qed.
Lemma fresh_all_app l1 : forall d l2,
  fresh_all d l1 -> fresh_all (ins_all d l1) l2 -> fresh_all d (l1 ++ l2).
Proof.
  induction l1 as [|[p v] l1 IH]; intros d l2 H1 H2; [exact H2|]. cbn in *.
  destruct H1 as [H1 H1']. split; [exact H1|]. now apply IH.
Qed.

Lemma dset_dset k a b d : dset k a (dset k b d) = dset k a d.
Proof.
  induction d as [|[m x] d IH]; cbn.
  - now rewrite String.eqb_refl.
  - destruct (String.eqb k m) eqn:E; cbn; rewrite E; [reflexivity|now rewrite IH].
Qed.
Lemma dset_same k e d : dlookup k d = Some e -> dset k e d = d.
Proof.
  induction d as [|[m x] d IH]; cbn; [discriminate|].
  destruct (String.eqb_spec k m); intros H; [inversion H; now subst|now rewrite IH].
Qed.
Lemma dset_new k e d : dlookup k d = None -> dset k e d = d ++ [(k, e)].
Proof.
  induction d as [|[m x] d IH]; cbn; [reflexivity|].
  destruct (String.eqb_spec k m); intros H; [discriminate|now rewrite IH].
Qed.
Lemma sub_dset n c d : sub n (dset n (EScope c) d) = c.
Proof. unfold sub. now rewrite dlookup_dset_same. Qed.

Definition nonnil (l : list (list string * nat)) : Prop := forall p v, In (p, v) l -> p <> [].

Lemma ins_under n l : forall d, nonnil l -> l <> [] ->
  ins_all d (under n l) = dset n (EScope (ins_all (sub n d) l)) d.
Proof.
  induction l as [|[p v] l IH]; intros d N Hl; [congruence|]. cbn [under map ins_all fst snd].
  fold (under n l).
  rewrite ins_cons by (apply (N p v); now left).
  destruct l as [|[p2 v2] l].
  - reflexivity.
  - rewrite IH; [|intros q w Hq; apply (N q w); now right|discriminate].
    now rewrite sub_dset, dset_dset.
Qed.

Lemma fresh_under n l : forall d, nonnil l -> (forall v, dlookup n d <> Some (EVar v)) ->
  fresh_all (sub n d) l -> fresh_all d (under n l).
Proof.
  induction l as [|[p v] l IH]; intros d N Hn F; [exact I|]. cbn [under map fresh_all fst snd] in *.
  fold (under n l). destruct F as [F1 F2].
  assert (Np : p <> []) by (apply (N p v); now left). split.
  - rewrite fresh_cons by exact Np. unfold sub in F1. destruct (dlookup n d) as [[w|c]|] eqn:L.
    + now apply (Hn w).
    + exact F1.
    + exact I.
  - rewrite ins_cons by exact Np. apply IH.
    + intros q w Hq. apply (N q w). now right.
    + intros w. rewrite dlookup_dset_same. discriminate.
    + now rewrite sub_dset.
Qed.

Lemma paths_nonnil d : nonnil (paths d).
Proof.
  intros p v H. unfold paths in H. apply in_flat_map in H as ([k x] & _ & H).
  apply in_map_iff in H as ([q w] & E & _). inversion E. discriminate.
Qed.

Lemma under_paths n l l0 : map fst l = map fst (under n l0) ->
  exists l1, l = under n l1 /\ map fst l1 = map fst l0.
Proof.
  revert l. induction l0 as [|[p v] l0 IH]; intros l H; destruct l as [|[q w] l]; try discriminate.
  - exists []. auto.
  - cbn in H. injection H as H1 H2. destruct (IH l H2) as (l1 & -> & E). subst q.
    exists ((p, w) :: l1). split; [reflexivity|]. cbn. now rewrite E.
Qed.

Lemma nonnil_fst l l0 : map fst l = map fst l0 -> nonnil l0 -> nonnil l.
Proof.
  intros E N p v H. apply (in_map fst) in H. rewrite E in H. apply in_map_iff in H as ([q w] & E2 & H). cbn in E2. subst q.
  exact (N _ _ H).
Qed.

Lemma keys_dset k e d m : In m (map fst (dset k e d)) <-> m = k \/ In m (map fst d).
Proof.
  induction d as [|[a x] d IH]; cbn; [intuition|].
  destruct (String.eqb_spec k a); subst; cbn; [intuition|]. rewrite IH. intuition.
Qed.

(** Inserting the parameters of a tree, in the order they are listed, rebuilds
    the listing: nothing is in the way and everything ends up at the end. *)
Definition rebuilds (d : dict) : Prop := forall l D,
  NoDup (map fst d) -> map fst l = map fst (paths d) ->
  (forall k, In k (map fst d) -> ~ In k (map fst D)) ->
  fresh_all D l /\ paths (ins_all D l) = paths D ++ l /\
  (forall k, In k (map fst (ins_all D l)) -> In k (map fst D) \/ In k (map fst d)).

Lemma rebuild_list n d :
  wfd n d -> (forall k x, In (k, x) d -> match x with EScope c => rebuilds c | _ => True end) ->
  rebuilds d.
Proof.
  intros W IH. assert (W' := W). apply wfd_iff in W' as [_ WF].
  clear W. induction d as [|[k x] d IHd]; intros l D ND E Dis.
  - destruct l; [|discriminate]. cbn. rewrite app_nil_r. auto.
  - rewrite paths_cons, map_app in E.
    apply map_eq_app in E as (l1 & l2 & -> & E1 & E2).
    inversion ND as [|? ? Nk ND']; subst.
    assert (Step : fresh_all D l1 /\ paths (ins_all D l1) = paths D ++ l1 /\
                   (forall m, In m (map fst (ins_all D l1)) -> In m (map fst D) \/ m = k)).
    { assert (Lk : dlookup k D = None) by (apply dlookup_None, Dis; now left).
      destruct x as [v|c].
      - cbn in E1. destruct l1 as [|[p w] [|]]; try discriminate. cbn in E1. injection E1 as ->.
        cbn. split; [auto|]. split.
        + rewrite dset_new by exact Lk. rewrite paths_app. reflexivity.
        + intros m Hm. apply keys_dset in Hm as [->|]; auto.
      - rewrite paths_e_scope in E1. apply under_paths in E1 as (l3 & -> & E3).
        destruct (WF k (EScope c) ltac:(now left)) as (_ & _ & Wc).
        assert (Hc : rebuilds c) by (apply (IH k (EScope c)); now left).
        assert (Wc' : wfd n c) by exact Wc. apply wfd_iff in Wc' as [NDc _].
        destruct (Hc l3 [] NDc E3 ltac:(auto)) as (F & P & _).
        assert (N3 : nonnil l3) by (eapply nonnil_fst; [exact E3|apply paths_nonnil]).
        assert (Sk : sub k D = []) by (unfold sub; now rewrite Lk).
        split.
        + apply fresh_under; [exact N3| |now rewrite Sk]. intros w. now rewrite Lk.
        + destruct l3 as [|pv l3].
          * cbn. rewrite app_nil_r. auto.
          * rewrite ins_under by (auto; discriminate). rewrite Sk, dset_new by exact Lk.
            split.
            -- rewrite paths_app. f_equal. cbn [paths flat_map fst snd]. rewrite paths_e_scope, P, app_nil_r. reflexivity.
            -- intros m Hm. rewrite map_app, in_app_iff in Hm. destruct Hm as [|[<-|[]]]; auto. }
    destruct Step as (F1 & P1 & K1).
    destruct (IHd ltac:(intros; eapply IH; right; eauto) ltac:(intros; apply WF; now right)
                  l2 (ins_all D l1) ND' E2) as (F2 & P2 & K2).
    { intros m Hm Hm2. apply K1 in Hm2 as [Hm2| ->]; [|contradiction].
      apply (Dis m); [now right|exact Hm2]. }
    split; [now apply fresh_all_app|]. rewrite ins_all_app. split.
    + rewrite P2, P1. now rewrite app_assoc.
    + intros m Hm. apply K2 in Hm as [Hm|Hm]; [apply K1 in Hm as [Hm| ->]|]; cbn; auto.
Qed.

Lemma rebuild n d : wfd n d -> rebuilds d.
Proof.
  assert (H : forall e, wfe n e -> match e with EScope c => rebuilds c | _ => True end).
  { induction e as [v|c IH] using entry_ind'; intros W; [exact I|].
    apply (rebuild_list n); [exact W|]. intros k x Hi. apply (IH k x Hi).
    apply wfd_iff in W as [_ W]. now destruct (W _ _ Hi) as (_ & _ & ?). }
  intros W. exact (H (EScope d) W).
Qed.

(** ** get_parameters is the listing by paths *)
Lemma collect_paths h n : forall e path k,
  wfe n e -> (is_scope e = true -> k <> "") ->
  collect h false path e k = map (fun pv => (pre path (k :: fst pv), snd pv)) (paths_e e).
Proof.
  induction e as [v|d IH] using entry_ind'; intros path k W Hk.
  - cbn. reflexivity.
  - rewrite collect_scope, paths_e_scope. unfold collect_dict, paths. specialize (Hk eq_refl).
    apply wfd_iff in W as [_ W].
    induction d as [|[m x] d IHd]; [reflexivity|]. cbn [flat_map fst snd].
    rewrite map_app, <- IHd; [|intros a b Hi; exact (IH a b (or_intror Hi))|intros a b Hi; exact (W a b (or_intror Hi))].
    f_equal. destruct (W m x (or_introl eq_refl)) as (A & B & X).
    rewrite (IH m x (or_introl eq_refl) (join_path path k) m X B). unfold under. rewrite map_map. apply map_ext.
    intros [p v]. cbn [fst snd]. f_equal. apply pre_scope; [exact Hk|discriminate].
Qed.

Definition named (l : list (list string * nat)) : list (string * nat) :=
  map (fun pv => (joinp (fst pv), snd pv)) l.

Lemma collect_dict_paths h n d : wfd n d -> collect_dict h false "" d = named (paths d).
Proof.
  intros W. apply wfd_iff in W as [_ W]. unfold collect_dict, named, paths.
  induction d as [|[m x] d IHd]; [reflexivity|]. cbn [flat_map fst snd].
  rewrite map_app, <- IHd by (intros; apply W; now right). f_equal.
  destruct (W m x ltac:(now left)) as (A & B & X).
  rewrite (collect_paths _ _ _ _ _ X B). unfold under. rewrite map_map. apply map_ext.
  intros [p v]. reflexivity.
Qed.

Lemma out_set_new k v o : ~ In k (map fst o) -> out_set k v o = o ++ [(k, v)].
Proof.
  induction o as [|[m x] o IH]; cbn; [reflexivity|]. intros H.
  destruct (String.eqb_spec k m); [subst; exfalso; auto|]. rewrite IH; auto.
Qed.

Lemma fold_out_nodup l : forall o, NoDup (map fst (o ++ l)) ->
  fold_left (fun o kv => out_set (fst kv) (snd kv) o) l o = o ++ l.
Proof.
  induction l as [|[k v] l IH]; intros o ND; cbn [fold_left]; [now rewrite app_nil_r|].
  cbn [fst snd]. rewrite out_set_new.
  - rewrite IH; rewrite <- app_assoc; [reflexivity|exact ND].
  - rewrite map_app in ND. cbn in ND. apply NoDup_remove_2 in ND.
    intros Hi. apply ND. apply in_app_iff. now left.
Qed.

(** Every listed path leads to its parameter. *)
Lemma paths_registered n : forall e p v, wfe n e -> In (p, v) (paths_e e) ->
  match e with EVar w => p = [] /\ v = w | EScope d => registered d p = Some v /\ p <> [] end.
Proof.
  induction e as [w|d IH] using entry_ind'; intros p v W H.
  - cbn in H. destruct H as [H|[]]. inversion H; auto.
  - rewrite paths_e_scope in H. unfold paths in H. apply in_flat_map in H as ([k x] & Hi & H).
    apply in_map_iff in H as ([q u] & E & H). cbn [fst snd] in E, H. inversion E; subst. clear E.
    apply wfd_iff in W as [ND W]. destruct (W _ _ Hi) as (A & B & X).
    assert (Y := IH k x Hi _ _ X H). split; [|discriminate]. rewrite registered_cons.
    rewrite (In_dlookup _ _ _ ND Hi). destruct x as [w|c].
    + destruct Y as [-> ->]. reflexivity.
    + destruct Y as [Y Yq]. destruct q; [congruence|exact Y].
Qed.

Lemma paths_in n d p v : wfd n d -> In (p, v) (paths d) -> registered d p = Some v.
Proof.
  intros W H. rewrite <- paths_e_scope in H. now apply (paths_registered n (EScope d)) in H.
Qed.

Lemma nodup_app_intro {A} (l1 l2 : list A) :
  NoDup l1 -> NoDup l2 -> (forall x, In x l1 -> ~ In x l2) -> NoDup (l1 ++ l2).
Proof.
  induction l1 as [|a l1 IH]; intros H1 H2 H; [exact H2|]. cbn. inversion H1; subst. constructor.
  - rewrite in_app_iff. intros [|Hi]; [contradiction|]. apply (H a); [now left|exact Hi].
  - apply IH; auto. intros x Hx. apply H. now right.
Qed.

Lemma paths_nodup n : forall e, wfe n e -> NoDup (map fst (paths_e e)).
Proof.
  induction e as [w|d IH] using entry_ind'; intros W.
  - cbn. repeat constructor. tauto.
  - rewrite paths_e_scope. apply wfd_iff in W as [ND W].
    induction d as [|[k x] d IHd]; [constructor|]. rewrite paths_cons, map_app.
    inversion ND; subst. apply nodup_app_intro.
    + unfold under. rewrite map_map. cbn [fst].
      assert (H : NoDup (map fst (paths_e x))) by (apply (IH k x); [now left|apply (W k x (or_introl eq_refl))]).
      revert H. generalize (paths_e x). clear. intros l. induction l as [|[p v] l IH]; intros H; [constructor|].
      cbn in *. inversion H; subst. constructor; [|auto]. intros Hi. apply in_map_iff in Hi as ([q w] & E & Hi).
      inversion E; subst. apply H2. now apply (in_map fst) in Hi.
    + apply IHd; [intros a b Hi; exact (IH a b (or_intror Hi))|exact H2|intros a b Hi; exact (W a b (or_intror Hi))].
    + intros p Hp Hq. apply in_map_iff in Hp as ([p1 v1] & <- & Hp). apply in_map_iff in Hp as ([p2 v2] & E & _).
      inversion E; subst. apply in_map_iff in Hq as ([q w] & E2 & Hq). cbn [fst snd] in E2. subst q.
      unfold paths in Hq. apply in_flat_map in Hq as ([m y] & Hm & Hq). apply in_map_iff in Hq as ([r u] & E3 & _).
      cbn in E3. inversion E3; subst. apply H1. now apply (in_map fst) in Hm.
Qed.

Lemma get_parameters_paths s d : Inv s -> dict_at (root s) (cur s) = Some d ->
  get_parameters s false = named (paths d).
Proof.
  intros (I1 & I2 & I3) Ed. unfold get_parameters. rewrite Ed.
  assert (W := wfd_at _ _ _ _ I1 Ed). rewrite (collect_dict_paths _ _ _ W).
  rewrite fold_out_nodup; [reflexivity|]. cbn [app]. unfold named. rewrite map_map. cbn [fst].
  assert (ND : NoDup (map fst (paths d))) by (rewrite <- paths_e_scope; apply (paths_nodup _ (EScope d) W)).
  assert (R : forall p v, In (p, v) (paths d) -> split_slash (joinp p) = p).
  { intros p v Hi. apply (paths_in _ _ _ _ W) in Hi.
    destruct (registered_noslash _ _ _ _ W Hi) as (N & Np & _). now apply split_joinp. }
  revert ND R. generalize (paths d). clear. intros l. induction l as [|[p v] l IH]; intros ND R; [constructor|].
  cbn in *. inversion ND; subst. constructor.
  - intros Hi. apply in_map_iff in Hi as ([q w] & E & Hi). cbn in E. apply H1.
    assert (p = q); [|subst; now apply (in_map fst) in Hi].
    rewrite <- (R p v) by auto. rewrite <- (R q w) by auto. congruence.
  - apply IH; [exact H2|]. intros q w Hi. apply (R q w). auto.
Qed.

(** ** The exact effect of get_parameter_or_create *)
Lemma dict_put_put p : forall r d a b, dict_at r p = Some d ->
  dict_put (dict_put r p a) p b = dict_put r p b.
Proof.
  induction p as [|n p IH]; intros r d a b H; [reflexivity|]. cbn in *.
  destruct (dlookup n r) as [[|c]|] eqn:L; try discriminate.
  rewrite dlookup_dset_same. rewrite (IH _ _ _ _ H). now rewrite dset_dset.
Qed.
Lemma dict_put_same p : forall r d, dict_at r p = Some d -> dict_put r p d = r.
Proof.
  induction p as [|n p IH]; intros r d H; cbn in *; [congruence|].
  destruct (dlookup n r) as [[|c]|] eqn:L; try discriminate.
  rewrite (IH _ _ H). now apply dset_same.
Qed.
Lemma dict_put_snoc p : forall r d c n x, dict_at r p = Some d -> dlookup n d = Some (EScope c) ->
  dict_put r (p ++ [n]) x = dict_put r p (dset n (EScope x) d).
Proof.
  induction p as [|m p IH]; intros r d c n x H L; cbn in *.
  - injection H as ->. now rewrite L.
  - destruct (dlookup m r) as [[|c']|] eqn:Lm; try discriminate. now rewrite (IH _ _ _ _ _ H L).
Qed.

Definition grown (s : st) (d : dict) (p : list string) (sh : list Z) (need : bool) : st :=
  {| heap := heap s ++ [{| vshape := sh; vneed := need; vstore := List.length (store s) |}];
     store := store s ++ [0%Z];
     root := dict_put (root s) (cur s) (ins d p (List.length (heap s)));
     cur := cur s; nograd := nograd s |}.

Lemma enter_one r p n d : n <> "" -> dict_at r p = Some d ->
  (forall v, dlookup n d <> Some (EVar v)) ->
  enter r p [n] = (dict_put r p (dset n (EScope (sub n d)) d), Ok (p ++ [n])).
Proof.
  intros Hn Ed Hv. cbn [enter]. destruct (String.eqb_spec n ""); [congruence|]. rewrite Ed.
  unfold sub. destruct (dlookup n d) as [[v|c]|] eqn:L; [now destruct (Hv v)| |]; reflexivity.
Qed.

Lemma goc_fresh p : forall s d sh need,
  dict_at (root s) (cur s) = Some d -> fresh d p -> canon p = p ->
  exists ret, goc_names s p (Some sh) INone need None = (grown s d p sh need, Ok ret) /\
              rstore ret = List.length (store s).
Proof.
  induction p as [|n p IH]; intros s d sh need Ed F C; [destruct F|].
  destruct p as [|m p].
  - cbn in F. cbn [goc_names get_names]. rewrite Ed, F. cbn [create_by_initializer set_names].
    cbn [root cur heap store nograd]. rewrite Ed. eexists. split; [reflexivity|]. reflexivity.
  - assert (Hn : n <> "" /\ canon (m :: p) = m :: p).
    { change (canon (n :: m :: p)) with (if String.eqb n "" then canon (m :: p) else n :: canon (m :: p)) in C.
      destruct (String.eqb_spec n ""); [|split; [exact n0|congruence]].
      exfalso. assert (H : forall l : list string, (List.length (canon l) <= List.length l)%nat).
      { clear. induction l as [|a [|b l] IH]; [cbn; lia|cbn; lia|].
        change (canon (a :: b :: l)) with (if String.eqb a "" then canon (b :: l) else a :: canon (b :: l)).
        destruct (String.eqb a ""); cbn [List.length] in *; lia. }
      specialize (H (m :: p)). rewrite C in H. cbn in H. lia. }
    destruct Hn as [Hn C']. rewrite fresh_cons in F by discriminate.
    assert (Hv : forall v, dlookup n d <> Some (EVar v)).
    { intros v E. now rewrite E in F. }
    change (goc_names s (n :: m :: p) (Some sh) INone need None)
      with (with_scope s [n] (fun s' => goc_names s' (m :: p) (Some sh) INone need None)).
    unfold with_scope. rewrite (enter_one _ _ _ _ Hn Ed Hv).
    set (r1 := dict_put (root s) (cur s) (dset n (EScope (sub n d)) d)).
    set (s1 := with_cur (with_root s r1) (cur s ++ [n])).
    assert (E1 : dict_at r1 (cur s) = Some (dset n (EScope (sub n d)) d))
      by (unfold r1; eapply dict_at_put; eauto).
    assert (L1 : dlookup n (dset n (EScope (sub n d)) d) = Some (EScope (sub n d)))
      by apply dlookup_dset_same.
    assert (Ed1 : dict_at (root s1) (cur s1) = Some (sub n d)).
    { cbn [s1 root cur with_cur with_root]. rewrite dict_at_app, E1. cbn. now rewrite L1. }
    assert (F1 : fresh (sub n d) (m :: p)).
    { unfold sub. destruct (dlookup n d) as [[v|c]|]; [destruct F|exact F|].
      destruct p; cbn; auto. }
    destruct (IH s1 (sub n d) sh need Ed1 F1 C') as (ret & E & R). rewrite E.
    exists ret. split; [|exact R]. f_equal. unfold grown, with_cur, s1.
    cbn [root cur with_cur with_root heap store nograd]. f_equal.
    rewrite (dict_put_snoc _ _ _ _ _ _ E1 L1). unfold r1.
    rewrite (dict_put_put _ _ _ _ _ Ed). rewrite dset_dset. rewrite (ins_cons d n (m :: p)) by discriminate. reflexivity.
Qed.

(** On a registered name the tree is left as it is. *)
Lemma goc_existing p : forall s d sh need v x,
  dict_at (root s) (cur s) = Some d -> registered d p = Some v -> canon p = p ->
  nth_error (heap s) v = Some x -> vshape x = sh ->
  exists ret, goc_names s p (Some sh) INone need None =
                (with_heap s (heap_upd (heap s) v (set_need x need)), Ok ret) /\
              rstore ret = vstore x.
Proof.
  induction p as [|n p IH]; intros s d sh need v x Ed R C Hx Hs; [discriminate|].
  destruct p as [|m p].
  - cbn in R. destruct (dlookup n d) as [[w|c]|] eqn:L; try discriminate. injection R as ->.
    cbn [goc_names get_names]. rewrite Ed, L, Hx. subst sh.
    destruct (list_eq_dec Z.eq_dec (vshape x) (vshape x)) as [_|]; [|congruence].
    destruct (Bool.eqb need (vneed x)) eqn:Eb.
    + apply Bool.eqb_prop in Eb. subst need.
      rewrite heap_upd_same by (rewrite Hx; destruct x; reflexivity).
      replace (with_heap s (heap s)) with s by (now destruct s). eexists. split; reflexivity.
    + cbn [set_names root cur with_heap heap store nograd]. rewrite Ed. rewrite (dset_same _ _ _ L).
      rewrite (dict_put_same _ _ _ Ed). eexists. split; reflexivity.
  - rewrite registered_cons in R. destruct (dlookup n d) as [[w|c]|] eqn:L; try discriminate.
    assert (Hn : n <> "" /\ canon (m :: p) = m :: p).
    { change (canon (n :: m :: p)) with (if String.eqb n "" then canon (m :: p) else n :: canon (m :: p)) in C.
      destruct (String.eqb_spec n ""); [|split; [exact n0|congruence]].
      exfalso. assert (H : forall l : list string, (List.length (canon l) <= List.length l)%nat).
      { clear. induction l as [|a [|b l] IH]; [cbn; lia|cbn; lia|].
        change (canon (a :: b :: l)) with (if String.eqb a "" then canon (b :: l) else a :: canon (b :: l)).
        destruct (String.eqb a ""); cbn [List.length] in *; lia. }
      specialize (H (m :: p)). rewrite C in H. cbn in H. lia. }
    destruct Hn as [Hn C'].
    change (goc_names s (n :: m :: p) (Some sh) INone need None)
      with (with_scope s [n] (fun s' => goc_names s' (m :: p) (Some sh) INone need None)).
    unfold with_scope. rewrite (enter_one _ _ _ _ Hn Ed) by (intros w; congruence).
    assert (Sn : sub n d = c) by (unfold sub; now rewrite L). rewrite Sn, (dset_same _ _ _ L), (dict_put_same _ _ _ Ed).
    set (s1 := with_cur (with_root s (root s)) (cur s ++ [n])).
    assert (Ed1 : dict_at (root s1) (cur s1) = Some c).
    { cbn [s1 root cur with_cur with_root]. rewrite dict_at_app, Ed. cbn. now rewrite L. }
    destruct (IH s1 c sh need v x Ed1 R C' Hx Hs) as (ret & E & Rr). rewrite E.
    exists ret. split; [|exact Rr]. f_equal.
Qed.
