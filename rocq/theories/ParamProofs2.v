(** Exact effect of each registry operation. *)
From Coq Require Import String Ascii Bool Arith ZArith Lia List.
From Verif Require Import ParamModel ParamSpec ParamProofs.
Import ListNotations.
Local Open Scope string_scope.
Local Open Scope list_scope.

(** ** Walking a component list in one go *)

Lemma enter_app ns : forall r p ms,
  enter r p (ns ++ ms) =
  match enter r p ns with (r', Ok p') => enter r' p' ms | (r', Exn e) => (r', Exn e) end.
Proof.
  induction ns as [|n ns IH]; intros r p ms; [reflexivity|].
  cbn [enter app]. destruct (String.eqb n ""); [apply IH|].
  destruct (dict_at r p) as [d|]; [|reflexivity].
  destruct (dlookup n d) as [[v|c]|]; [reflexivity|apply IH|apply IH].
Qed.

Lemma enter_filter ns : forall r p, enter r p (filter nonempty ns) = enter r p ns.
Proof.
  induction ns as [|n ns IH]; intros r p; [reflexivity|].
  cbn [filter]. unfold nonempty at 1. destruct (String.eqb n "") eqn:E; cbn [negb enter]; rewrite E; [apply IH|].
  destruct (dict_at r p) as [d|]; [|reflexivity].
  destruct (dlookup n d) as [[v|c]|]; [reflexivity|apply IH|apply IH].
Qed.

Lemma with_scope_ext {A} s ns (f g : st -> st * res A) :
  (forall s1, f s1 = g s1) -> with_scope s ns f = with_scope s ns g.
Proof.
  intros H. unfold with_scope. destruct (enter _ _ _) as [r [p|e]]; [|reflexivity].
  now rewrite H.
Qed.

Lemma with_scope_app {A} s ns ms (f : st -> st * res A) :
  with_scope s (ns ++ ms) f = with_scope s ns (fun s1 => with_scope s1 ms f).
Proof.
  unfold with_scope. rewrite enter_app.
  destruct (enter (root s) (cur s) ns) as [r [p|e]]; [|reflexivity].
  cbn [root cur with_cur with_root].
  destruct (enter r p ms) as [r2 [p2|e2]].
  - match goal with |- context [f ?x] => destruct (f x) as [s2 o2] eqn:E2 end.
    match goal with |- context [f ?x] => change x with (with_cur (with_root s r2) p2) end.
    match type of E2 with f ?x = _ => change x with (with_cur (with_root s r2) p2) in E2 end.
    rewrite E2. reflexivity.
  - reflexivity.
Qed.

Lemma with_scope_filter {A} s ns (f : st -> st * res A) :
  with_scope s (filter nonempty ns) f = with_scope s ns f.
Proof. unfold with_scope. now rewrite enter_filter. Qed.

Lemma get_names_walk names : forall s, names <> [] ->
  get_names s names = with_scope s (removelast names) (fun s1 => get_names s1 [last names ""]).
Proof.
  induction names as [|n [|m rest] IH]; intros s Hn; [congruence| |].
  - unfold with_scope; cbn [removelast last enter]. destruct s as [h st0 r c ng].
    cbn [with_cur with_root root cur heap store nograd].
    match goal with |- ?L = _ => assert (E : cur (fst L) = c) end.
    { cbn. destruct (dict_at r c) as [d|]; [|reflexivity]. now destruct (dlookup n d) as [[|]|]. }
    destruct (get_names _ _) as [s2 o2]; cbn in E |- *. destruct s2; cbn in *; now subst.
  - change (get_names s (n :: m :: rest)) with (with_scope s [n] (fun s1 => get_names s1 (m :: rest))).
    change (removelast (n :: m :: rest)) with ([n] ++ removelast (m :: rest)).
    rewrite with_scope_app. apply with_scope_ext. intros s1. now apply IH.
Qed.

Lemma pop_names_walk names : forall s, names <> [] ->
  pop_names s names = with_scope s (removelast names) (fun s1 => pop_names s1 [last names ""]).
Proof.
  induction names as [|n [|m rest] IH]; intros s Hn; [congruence| |].
  - unfold with_scope; cbn [removelast last enter]. destruct s as [h st0 r c ng].
    cbn [with_cur with_root root cur heap store nograd].
    match goal with |- ?L = _ => assert (E : cur (fst L) = c) end.
    { cbn. destruct (dict_at r c) as [d|]; [|reflexivity]. now destruct (dlookup n d) as [|]. }
    destruct (pop_names _ _) as [s2 o2]; cbn in E |- *. destruct s2; cbn in *; now subst.
  - change (pop_names s (n :: m :: rest)) with (with_scope s [n] (fun s1 => pop_names s1 (m :: rest))).
    change (removelast (n :: m :: rest)) with ([n] ++ removelast (m :: rest)).
    rewrite with_scope_app. apply with_scope_ext. intros s1. now apply IH.
Qed.

Lemma set_names_walk names v : forall s, names <> [] ->
  set_names s names v = with_scope s (removelast names) (fun s1 => set_names s1 [last names ""] v).
Proof.
  induction names as [|n [|m rest] IH]; intros s Hn; [congruence| |].
  - unfold with_scope; cbn [removelast last enter]. destruct s as [h st0 r c ng].
    cbn [with_cur with_root root cur heap store nograd].
    match goal with |- ?L = _ => assert (E : cur (fst L) = c) end.
    { cbn. now destruct (dict_at r c) as [d|]. }
    destruct (set_names _ _ _) as [s2 o2]; cbn in E |- *. destruct s2; cbn in *; now subst.
  - change (set_names s (n :: m :: rest) v) with (with_scope s [n] (fun s1 => set_names s1 (m :: rest) v)).
    change (removelast (n :: m :: rest)) with ([n] ++ removelast (m :: rest)).
    rewrite with_scope_app. apply with_scope_ext. intros s1. now apply IH.
Qed.

Lemma goc_leaf_cur s k sh i need an : cur (fst (goc_names s [k] sh i need an)) = cur s.
Proof.
  cbn [goc_names get_names].
  destruct (dict_at (root s) (cur s)) as [d|] eqn:Ed; [|reflexivity].
  destruct (dlookup k d) as [[v|c]|]; [|reflexivity|].
  - destruct (nth_error (heap s) v) as [x|]; [|reflexivity].
    destruct sh as [sh|]; [|reflexivity].
    destruct (list_eq_dec _ _ _); [|reflexivity].
    destruct (Bool.eqb need (vneed x)); [reflexivity|].
    cbn. now rewrite Ed.
  - destruct (create_by_initializer i sh) as [[sh' c]|e]; [|reflexivity].
    cbn. now rewrite Ed.
Qed.

Lemma goc_names_walk names sh i need an : forall s, names <> [] ->
  goc_names s names sh i need an =
  with_scope s (removelast names) (fun s1 => goc_names s1 [last names ""] sh i need an).
Proof.
  induction names as [|n [|m rest] IH]; intros s Hn; [congruence| |].
  - unfold with_scope. cbn [removelast last enter].
    assert (E0 : with_cur (with_root s (root s)) (cur s) = s) by (destruct s; reflexivity).
    rewrite E0. assert (E := goc_leaf_cur s n sh i need an).
    destruct (goc_names _ _ _ _ _ _) as [s2 o2]; cbn in E |- *. rewrite <- E. destruct s2; reflexivity.
  - change (goc_names s (n :: m :: rest) sh i need an)
      with (with_scope s [n] (fun s1 => goc_names s1 (m :: rest) sh i need an)).
    change (removelast (n :: m :: rest)) with ([n] ++ removelast (m :: rest)).
    rewrite with_scope_app. apply with_scope_ext. intros s1. now apply IH.
Qed.

Lemma canon_walk names : names <> [] ->
  canon names = filter nonempty (removelast names) ++ [last names ""].
Proof.
  induction names as [|n [|m rest] IH]; intros Hn; [congruence|reflexivity|].
  change (canon (n :: m :: rest)) with (if String.eqb n "" then canon (m :: rest) else n :: canon (m :: rest)).
  change (removelast (n :: m :: rest)) with (n :: removelast (m :: rest)).
  change (last (n :: m :: rest) "") with (last (m :: rest) "").
  rewrite IH by discriminate. cbn [filter]. destruct (String.eqb n "") eqn:E.
  - assert (H : nonempty n = false) by (unfold nonempty; now rewrite E). now rewrite H.
  - assert (H : nonempty n = true) by (unfold nonempty; now rewrite E). now rewrite H.
Qed.

(** ** When walking fails *)

Lemma keep_blocked r r' path : keep r r' -> blocked r path <-> blocked r' path.
Proof.
  intros [K _]. unfold blocked. split; intros (p & v & H1 & H2); exists p, v; split; auto; congruence.
Qed.

Lemma dict_at_prefix r : forall p q, dict_at r (p ++ q) <> None -> dict_at r p <> None.
Proof. intros p q. rewrite dict_at_app. destruct (dict_at r p); congruence. Qed.

Lemma enter_exn n ns : forall r p r' e k,
  wfd n r -> dict_at r p <> None -> forallb noslash ns = true ->
  enter r p ns = (r', Exn e) ->
  blocked r (p ++ filter nonempty ns ++ [k]).
Proof.
  induction ns as [|m ns IH]; intros r p r' e k W Hat Hns E; cbn [enter] in E; [discriminate|].
  cbn in Hns. apply andb_true_iff in Hns as [Hm Hns].
  destruct (String.eqb_spec m "") as [->|Hne].
  - change (filter nonempty ("" :: ns)) with (filter nonempty ns). eapply IH; eauto.
  - assert (Hf : filter nonempty (m :: ns) = m :: filter nonempty ns).
    { cbn [filter]. unfold nonempty at 1. destruct (String.eqb_spec m ""); [congruence|reflexivity]. }
    rewrite Hf. clear Hf.
    destruct (dict_at r p) as [d|] eqn:Ed; [|congruence].
    assert (G : forall c, enter r p [m] = (dict_put r p (dset m (EScope c) d), Ok (p ++ [m])) ->
              enter (dict_put r p (dset m (EScope c) d)) (p ++ [m]) ns = (r', Exn e) ->
              blocked r (p ++ (m :: filter nonempty ns) ++ [k])).
    { intros c E1 E2.
      assert (S := enter_spec n [m] r p _ _ W ltac:(congruence) ltac:(cbn; now rewrite Hm) E1).
      destruct S as (K & W' & _ & At).
      specialize (IH _ _ _ _ k W' At Hns E2). rewrite <- app_assoc in IH.
      apply (keep_blocked _ _ _ K). exact IH. }
    destruct (dlookup m d) as [[v|c]|] eqn:L.
    + exists (p ++ [m]), v. split.
      * destruct (filter nonempty ns ++ [k]) as [|a b] eqn:Ea; [destruct (filter nonempty ns); discriminate|].
        exists a, b. cbn [app]. rewrite Ea. now rewrite <- app_assoc.
      * erewrite registered_at; eauto; [|discriminate]. cbn. now rewrite L.
    + apply (G c); [|exact E]. cbn. destruct (String.eqb_spec m ""); [congruence|]. now rewrite Ed, L.
    + apply (G []); [|exact E]. cbn. destruct (String.eqb_spec m ""); [congruence|]. now rewrite Ed, L.
Qed.

Lemma blocked_at r p k : dict_at r p <> None -> ~ blocked r (p ++ [k]).
Proof.
  intros At (q & v & (n & t & Hq) & Hv).
  assert (exists u, p = q ++ u) as [u ->].
  { destruct (@exists_last _ (n :: t)) as (t' & k' & Ht); [discriminate|].
    rewrite Ht, app_assoc in Hq. apply app_inj_tail in Hq as [Hq _]. eauto. }
  apply dict_at_prefix in At. destruct (dict_at r q) as [d|] eqn:E; [|congruence].
  rewrite (registered_scope _ _ _ E) in Hv. discriminate.
Qed.

(** The common part of every operation on a key. *)
Lemma walk_spec {A} s key (leaf : st -> string -> st * res A) s' o :
  Inv s ->
  with_scope s (removelast (split_slash key)) (fun s1 => leaf s1 (last (split_slash key) "")) = (s', o) ->
  (exists r e, s' = with_root s r /\ o = Exn e /\ e = AssertionError /\ keep (root s) r /\
     blocked (root s) (full_path s key))
  \/
  (exists r p k s2, full_path s key = p ++ [k] /\ noslash k = true /\ keep (root s) r /\
     dict_at r p <> None /\ wfd (length (heap s)) r /\ Inv (with_cur (with_root s r) p) /\
     ~ blocked (root s) (full_path s key) /\
     leaf (with_cur (with_root s r) p) k = (s2, o) /\ s' = with_cur s2 (cur s)).
Proof.
  intros (I1 & I2 & I3) E.
  set (names := split_slash key) in *.
  assert (Hnn : names <> []) by apply split_nonnil.
  assert (Hns : forallb noslash (removelast names) = true).
  { assert (H := split_noslash key). fold names in H. rewrite (app_removelast_last "" Hnn) in H.
    rewrite forallb_app in H. now apply andb_true_iff in H. }
  assert (Hk : noslash (last names "") = true).
  { assert (H := split_noslash key). fold names in H. rewrite (app_removelast_last "" Hnn) in H.
    rewrite forallb_app in H. apply andb_true_iff in H as [_ H]. cbn in H.
    now apply andb_true_iff in H. }
  assert (Hfp : full_path s key = (cur s ++ filter nonempty (removelast names)) ++ [last names ""]).
  { unfold full_path, key_path. fold names. rewrite canon_walk by exact Hnn. now rewrite app_assoc. }
  unfold with_scope in E.
  destruct (enter (root s) (cur s) (removelast names)) as [r [p|e]] eqn:En;
    destruct (enter_spec _ _ _ _ _ _ I1 I2 Hns En) as (K & W & R).
  - right. destruct R as [Hp R].
    destruct (leaf (with_cur (with_root s r) p) (last names "")) as [s2 o2] eqn:El.
    inversion E; subst o2 s'. exists r, p, (last names ""), s2.
    split; [now rewrite Hfp, Hp|]. split; [exact Hk|]. split; [exact K|]. split; [exact R|].
    split; [exact W|]. split; [split; [exact W|split; [exact R|exact I3]]|].
    split; [|split; [exact El|reflexivity]].
    rewrite Hfp, <- Hp. rewrite (keep_blocked _ _ _ K). now apply blocked_at.
  - left. inversion E; subst. exists r, AssertionError. repeat split; auto; try apply K.
    rewrite Hfp, <- app_assoc. eapply enter_exn; eauto.
Qed.

Lemma registered_leaf r p d k : dict_at r p = Some d ->
  registered r (p ++ [k]) = match dlookup k d with Some (EVar v) => Some v | _ => None end.
Proof. intros E. erewrite registered_at; eauto; [reflexivity|discriminate]. Qed.

Lemma scope_leaf r p d k : dict_at r p = Some d ->
  dict_at r (p ++ [k]) = match dlookup k d with Some (EScope c) => Some c | _ => None end.
Proof. intros E. rewrite dict_at_app, E. reflexivity. Qed.

(** Scopes that exist after walking but did not before hold no parameter. *)
Lemma get_spec s key s' o :
  Inv s -> get_parameter s key = (s', o) ->
  (forall q, registered (root s') q = registered (root s) q) /\
  heap s' = heap s /\ store s' = store s /\ cur s' = cur s /\ nograd s' = nograd s /\
  match o with
  | Ok r => r = registered (root s) (full_path s key) /\ ~ blocked (root s) (full_path s key)
  | Exn e => e = AssertionError /\ registered (root s) (full_path s key) = None /\
             (blocked (root s) (full_path s key) \/ dict_at (root s') (full_path s key) <> None)
  end.
Proof.
  intros I E. unfold get_parameter in E. rewrite get_names_walk in E by apply split_nonnil.
  apply (walk_spec s key (fun s1 k => get_names s1 [k])) in E; [|exact I].
  destruct E as [(r & e & -> & -> & -> & K & B)|(r & p & k & s2 & Hfp & Hk & K & At & W & I2 & NB & El & ->)].
  - repeat split; auto; try apply K. destruct B as (q & v & (n & t & Hq) & Hv).
    rewrite Hq. clear Hq. revert q Hv. generalize (root s). clear.
    intros d q. revert d. induction q as [|a q IH]; intros d Hv; [discriminate|].
    cbn [app]. rewrite registered_cons in *. destruct q as [|b q].
    + cbn [app]. destruct (dlookup a d) as [[|]|]; congruence.
    + cbn [app]. destruct (dlookup a d) as [[|c]|]; try congruence. exact (IH c Hv).
  - cbn [get_names] in El. cbn [root cur with_cur with_root] in El.
    destruct (dict_at r p) as [d|] eqn:Ed; [|congruence].
    assert (HR : registered (root s) (full_path s key) = match dlookup k d with Some (EVar v) => Some v | _ => None end).
    { rewrite <- (proj1 K), Hfp. now apply registered_leaf. }
    destruct (dlookup k d) as [[v|c]|] eqn:L; inversion El; subst; cbn;
      (split; [apply K|]); repeat split; auto.
    right. rewrite Hfp, (scope_leaf _ _ _ _ Ed), L. discriminate.
Qed.

Lemma registered_below_None r p v : registered r p = Some v ->
  forall q, strictly_below p q -> registered r q = None.
Proof.
  intros H q (n & t & ->). revert r H. induction p as [|a p IH]; intros d Hv; [discriminate|].
  cbn [app]. rewrite registered_cons in *. destruct p as [|b p].
  - cbn [app]. destruct (dlookup a d) as [[|]|]; congruence.
  - cbn [app]. destruct (dlookup a d) as [[|c]|]; try congruence. exact (IH c Hv).
Qed.

Lemma path_eq_dec (p q : list string) : {p = q} + {p <> q}.
Proof. apply list_eq_dec, string_dec. Qed.

Lemma put_leaf_registered r p d k d' q :
  dict_at r p = Some d ->
  (forall k', k' <> k -> dlookup k' d' = dlookup k' d) ->
  ~ is_prefix (p ++ [k]) q -> registered (dict_put r p d') q = registered r q.
Proof.
  intros Ed Hd Hq. destruct (below_dec p q) as [[q' [-> Hq']]|Hn].
  - rewrite (registered_put_in _ _ _ _ _ Ed Hq'), (registered_at _ _ _ _ Ed Hq').
    destruct q' as [|a q']; [congruence|]. rewrite !registered_cons, Hd; [reflexivity|].
    intros ->. apply Hq. exists q'. now rewrite <- app_assoc.
  - eapply registered_put_out; eauto.
Qed.

Lemma put_leaf_below r p d d' k q' :
  dict_at r p = Some d ->
  registered (dict_put r p d') ((p ++ [k]) ++ q') =
  match q' with
  | [] => match dlookup k d' with Some (EVar v) => Some v | _ => None end
  | _ => match dlookup k d' with Some (EScope c) => registered c q' | _ => None end
  end.
Proof.
  intros Ed. rewrite <- app_assoc. rewrite (registered_put_in _ _ _ _ _ Ed) by discriminate.
  apply registered_cons.
Qed.

Lemma set_spec s key v s' o :
  Inv s -> set_parameter s key v = (s', o) ->
  heap s' = heap s /\ store s' = store s /\ cur s' = cur s /\ nograd s' = nograd s /\
  match o with
  | Ok _ =>
      ~ blocked (root s) (full_path s key) /\
      registered (root s') (full_path s key) = Some v /\
      (forall q, strictly_below (full_path s key) q -> registered (root s') q = None) /\
      (forall q, ~ is_prefix (full_path s key) q -> registered (root s') q = registered (root s) q)
  | Exn e => e = AssertionError /\ blocked (root s) (full_path s key) /\
             (forall q, registered (root s') q = registered (root s) q)
  end.
Proof.
  intros I E. unfold set_parameter in E. rewrite set_names_walk in E by apply split_nonnil.
  apply (walk_spec s key (fun s1 k => set_names s1 [k] v)) in E; [|exact I].
  destruct E as [(r & e & -> & -> & -> & K & B)|(r & p & k & s2 & Hfp & Hk & K & At & W & I2 & NB & El & ->)].
  - repeat split; auto; apply K.
  - cbn [set_names] in El. cbn [root cur with_cur with_root] in El.
    destruct (dict_at r p) as [d|] eqn:Ed; [|congruence].
    inversion El; subst; cbn. repeat split; auto.
    + rewrite Hfp. rewrite <- (app_nil_r (p ++ [k])), (put_leaf_below _ _ _ _ _ _ Ed).
      now rewrite dlookup_dset_same.
    + intros q (n & t & ->). rewrite Hfp, (put_leaf_below _ _ _ _ _ _ Ed).
      now rewrite dlookup_dset_same.
    + intros q Hq. rewrite <- (proj1 K). rewrite Hfp in Hq. eapply put_leaf_registered; eauto.
      intros k' Hne. apply dlookup_dset_other. congruence.
Qed.

Lemma pop_spec s key s' o :
  Inv s -> pop_parameter s key = (s', o) ->
  heap s' = heap s /\ store s' = store s /\ cur s' = cur s /\ nograd s' = nograd s /\
  match o with
  | Ok r =>
      ~ blocked (root s) (full_path s key) /\
      match r with
      | Some (EVar v) => registered (root s) (full_path s key) = Some v
      | Some (EScope d) => forall q, q <> [] -> registered d q = registered (root s) (full_path s key ++ q)
      | None => forall q, is_prefix (full_path s key) q -> registered (root s) q = None
      end /\
      (forall q, is_prefix (full_path s key) q -> registered (root s') q = None) /\
      (forall q, ~ is_prefix (full_path s key) q -> registered (root s') q = registered (root s) q)
  | Exn e => e = AssertionError /\ blocked (root s) (full_path s key) /\
             (forall q, registered (root s') q = registered (root s) q)
  end.
Proof.
  intros I E. unfold pop_parameter in E. rewrite pop_names_walk in E by apply split_nonnil.
  apply (walk_spec s key (fun s1 k => pop_names s1 [k])) in E; [|exact I].
  destruct E as [(r & e & -> & -> & -> & K & B)|(r & p & k & s2 & Hfp & Hk & K & At & W & I2 & NB & El & ->)].
  - repeat split; auto; apply K.
  - cbn [pop_names] in El. cbn [root cur with_cur with_root] in El.
    destruct (dict_at r p) as [d|] eqn:Ed; [|congruence].
    assert (Wd : wfd (length (heap s)) d) by (eapply wfd_at; eauto).
    apply wfd_iff in Wd as [ND _].
    destruct (dlookup k d) as [e|] eqn:L; inversion El; subst; cbn.
    + repeat split; auto.
      * rewrite Hfp. destruct e as [v|c].
        -- rewrite <- (proj1 K), (registered_leaf _ _ _ _ Ed), L. reflexivity.
        -- intros q Hq. rewrite <- (proj1 K). symmetry. apply registered_at; [|exact Hq].
           now rewrite (scope_leaf _ _ _ _ Ed), L.
      * intros q (t & ->). rewrite Hfp, (put_leaf_below _ _ _ _ _ _ Ed), dlookup_ddel_same by exact ND.
        now destruct t.
      * intros q Hq. rewrite <- (proj1 K). rewrite Hfp in Hq. eapply put_leaf_registered; eauto.
        intros k' Hne. apply dlookup_ddel_other. congruence.
    + assert (Z : forall q, is_prefix (full_path s key) q -> registered (root s) q = None).
      { intros q (t & ->). rewrite <- (proj1 K), Hfp, <- app_assoc.
        rewrite (registered_at _ _ _ _ Ed) by discriminate. cbn [app]. rewrite registered_cons, L.
        now destruct t. }
      repeat split; auto; intros q Hq; rewrite (proj1 K); auto.
Qed.

(** ** Scope names *)

Fixpoint slashes (n : nat) : string := match n with O => "" | S m => String "/" (slashes m) end.

Lemma sapp_nil s : (s ++ "")%string = s.
Proof. induction s as [|c s IH]; cbn; congruence. Qed.
Lemma sapp_assoc a b c : ((a ++ b) ++ c)%string = (a ++ (b ++ c))%string.
Proof. induction a as [|x a IH]; cbn; congruence. Qed.

Lemma srev_app_spec s : forall acc, srev_app s acc = (srev s ++ acc)%string.
Proof.
  unfold srev. induction s as [|c s IH]; intros acc; [reflexivity|].
  cbn [srev_app]. rewrite IH. rewrite (IH (String c "")). rewrite sapp_assoc. reflexivity.
Qed.
Lemma srev_cons c s : srev (String c s) = (srev s ++ String c "")%string.
Proof. unfold srev at 1. cbn [srev_app]. apply srev_app_spec. Qed.
Lemma srev_append a b : srev (a ++ b)%string = (srev b ++ srev a)%string.
Proof.
  induction a as [|c a IH]; [cbn [append]; change (srev "") with ""; now rewrite sapp_nil|].
  cbn [append]. rewrite !srev_cons, IH. apply sapp_assoc.
Qed.
Lemma srev_inv s : srev (srev s) = s.
Proof. induction s as [|c s IH]; [reflexivity|]. rewrite srev_cons, srev_append, IH. reflexivity. Qed.
Lemma slashes_comm n : (slashes n ++ "/")%string = String "/" (slashes n).
Proof. induction n as [|n IH]; [reflexivity|]. cbn. now rewrite IH. Qed.
Lemma srev_slashes n : srev (slashes n) = slashes n.
Proof. induction n as [|n IH]; [reflexivity|]. cbn [slashes]. rewrite srev_cons, IH. apply slashes_comm. Qed.

Lemma lstrip_spec s : exists n, s = (slashes n ++ lstrip_slash s)%string.
Proof.
  induction s as [|c s [n IH]]; [exists 0; reflexivity|]. cbn [lstrip_slash].
  destruct (Ascii.eqb_spec c "/"); [|exists 0; reflexivity].
  exists (S n). cbn. subst c. now rewrite <- IH.
Qed.

Lemma strip_spec s : exists n m, s = (slashes n ++ strip_slash s ++ slashes m)%string.
Proof.
  destruct (lstrip_spec s) as [n Hn]. destruct (lstrip_spec (srev (lstrip_slash s))) as [m Hm].
  exists n, m. unfold strip_slash. rewrite Hn at 1. f_equal.
  rewrite <- (srev_inv (lstrip_slash s)) at 1. rewrite Hm at 1.
  now rewrite srev_append, srev_slashes.
Qed.

Lemma split_slashes_l n s : filter nonempty (split_slash (slashes n ++ s)) = filter nonempty (split_slash s).
Proof. induction n as [|n IH]; [reflexivity|]. cbn [slashes append split_slash]. exact IH. Qed.

Lemma split_slashes m : filter nonempty (split_slash (slashes m)) = [].
Proof. rewrite <- (sapp_nil (slashes m)), split_slashes_l. reflexivity. Qed.

Lemma split_slashes_r m s :
  filter nonempty (split_slash (s ++ slashes m)) = filter nonempty (split_slash s) /\
  hd "" (split_slash (s ++ slashes m)) = hd "" (split_slash s).
Proof.
  induction s as [|c s [IH1 IH2]].
  - change ("" ++ slashes m)%string with (slashes m). rewrite split_slashes. split; [reflexivity|].
    now destruct m.
  - cbn [append split_slash]. destruct (Ascii.eqb c "/"); [split; [exact IH1|reflexivity]|].
    destruct (split_slash s) as [|h t] eqn:E1; [now apply split_nonnil in E1|].
    destruct (split_slash (s ++ slashes m)) as [|h' t'] eqn:E2; [now apply split_nonnil in E2|].
    cbn in IH2. subst h'. cbn [filter] in *. split; [|reflexivity].
    change (nonempty (String c h)) with true. f_equal.
    destruct (nonempty h); congruence.
Qed.

Lemma scope_names_path name : filter nonempty (scope_names name) = scope_path name.
Proof.
  unfold scope_names, scope_path. destruct (strip_spec name) as (n & m & H).
  rewrite H at 2. rewrite split_slashes_l. symmetry. apply split_slashes_r.
Qed.

Lemma nested_scope s name a b body :
  scope_path name = scope_path a ++ scope_path b ->
  exec s (CScope name body) = exec s (CScope a [CScope b body]).
Proof.
  intros H. rewrite !exec_CScope.
  rewrite <- with_scope_filter, scope_names_path, H, with_scope_app, <- (scope_names_path a), with_scope_filter.
  apply with_scope_ext. intros s1. cbn [exec_list]. rewrite exec_CScope.
  rewrite <- scope_names_path, with_scope_filter.
  destruct (with_scope s1 (scope_names b) _) as [s2 [[]|e]]; reflexivity.
Qed.

Lemma scope_exact s name body s' o :
  Inv s -> exec s (CScope name body) = (s', o) ->
  forall q, ~ strictly_below (cur s ++ scope_path name) q -> registered (root s') q = registered (root s) q.
Proof.
  intros (I1 & I2 & I3) E q Hq. rewrite exec_CScope in E. unfold with_scope in E.
  destruct (enter (root s) (cur s) (scope_names name)) as [r [p|e]] eqn:En;
    destruct (enter_spec _ _ _ _ _ _ I1 I2 (scope_names_noslash name) En) as (K & W & R).
  - destruct R as [Hp R]. destruct (exec_list _ body) as [s2 o2] eqn:Eb. inversion E; subst; cbn.
    assert (J : Inv (with_cur (with_root s r) (cur s ++ filter nonempty (scope_names name))))
      by (split; [exact W|split; [exact R|exact I3]]).
    destruct (exec_list_Good body _ _ _ J Eb) as (_ & _ & _ & F & _).
    cbn in F. rewrite scope_names_path in F. destruct (F q Hq) as [-> _]. apply K.
  - inversion E; subst; cbn. apply K.
Qed.

(** ** get_parameters *)

Lemma eqb_app_slash a b : String.eqb (a ++ "/" ++ b)%string "" = false.
Proof. now destruct a. Qed.

Lemma joinp_cons n q : q <> [] -> joinp (n :: q) = (n ++ "/" ++ joinp q)%string.
Proof. destruct q; [congruence|reflexivity]. Qed.

Lemma split_noslash_id k : noslash k = true -> split_slash k = [k].
Proof.
  induction k as [|c k IH]; [reflexivity|]. cbn [noslash split_slash]. intros H.
  apply andb_true_iff in H as [Hc Hk]. apply negb_true_iff in Hc. now rewrite Hc, (IH Hk).
Qed.

Lemma split_app k s : noslash k = true -> split_slash (k ++ "/" ++ s) = k :: split_slash s.
Proof.
  induction k as [|c k IH]; [reflexivity|]. cbn [noslash]. intros H.
  apply andb_true_iff in H as [Hc Hk]. apply negb_true_iff in Hc.
  change ((String c k ++ "/" ++ s)%string) with (String c (k ++ "/" ++ s)).
  cbn [split_slash]. now rewrite Hc, (IH Hk).
Qed.

Lemma split_joinp p : p <> [] -> forallb noslash p = true -> split_slash (joinp p) = p.
Proof.
  induction p as [|n [|m p] IH]; intros Hp Hn; [congruence| |].
  - cbn. apply split_noslash_id. cbn in Hn. now apply andb_true_iff in Hn.
  - rewrite joinp_cons by discriminate. cbn [forallb] in Hn. apply andb_true_iff in Hn as [H1 H2].
    rewrite split_app by exact H1. f_equal. apply IH; [discriminate|exact H2].
Qed.

Lemma registered_noslash n p : forall d v, wfd n d -> registered d p = Some v ->
  forallb noslash p = true /\ p <> [] /\ canon p = p /\ v < n.
Proof.
  induction p as [|a p IH]; intros d v W H; [discriminate|]. rewrite registered_cons in H.
  destruct p as [|b p].
  - destruct (dlookup a d) as [[x|c]|] eqn:L; try discriminate.
    destruct (wfd_lookup _ _ _ _ W L) as (A & _ & X). inversion H; subst. cbn. rewrite A.
    repeat split; auto; discriminate.
  - destruct (dlookup a d) as [[x|c]|] eqn:L; try discriminate.
    destruct (wfd_lookup _ _ _ _ W L) as (A & B & X).
    destruct (IH _ _ X H) as (F & _ & C & V). cbn [forallb]. rewrite A.
    split; [exact F|]. split; [discriminate|]. split; [|exact V].
    change (canon (a :: b :: p)) with (if String.eqb a "" then canon (b :: p) else a :: canon (b :: p)).
    rewrite C. destruct (String.eqb_spec a ""); [|reflexivity]. exfalso. now apply B.
Qed.

Definition sel (h : list var) (g : bool) (v : nat) : bool :=
  orb (negb g) (match nth_error h v with Some x => vneed x | None => false end).

Lemma collect_scope h g path d k :
  collect h g path (EScope d) k = collect_dict h g (join_path path k) d.
Proof.
  unfold collect_dict. cbn [collect]. induction d as [|[m x] d IH]; [reflexivity|].
  cbn [flat_map]. now rewrite IH.
Qed.

Definition pre (path : string) (p : list string) : string :=
  if String.eqb path "" then joinp p else (path ++ "/" ++ joinp p)%string.

Lemma pre_scope path k q : k <> "" -> q <> [] -> pre (join_path path k) q = pre path (k :: q).
Proof.
  intros Hk Hq. unfold pre, join_path. rewrite joinp_cons by exact Hq.
  destruct (String.eqb path "") eqn:E.
  - destruct (String.eqb_spec k ""); [congruence|reflexivity].
  - rewrite eqb_app_slash. now rewrite !sapp_assoc.
Qed.

Lemma collect_In h g n : forall e path k key v,
  wfe n e -> (is_scope e = true -> k <> "") ->
  In (key, v) (collect h g path e k) <->
  exists p, key = pre path (k :: p) /\
            match e with
            | EVar w => p = [] /\ v = w
            | EScope d => p <> [] /\ registered d p = Some v
            end /\ sel h g v = true.
Proof.
  induction e as [w|d IH] using entry_ind'; intros path k key v W Hk.
  - cbn [collect]. fold (sel h g w). destruct (sel h g w) eqn:S; cbn; split.
    + intros [H|[]]. inversion H; subst. exists []. repeat split; auto.
    + intros (p & -> & (-> & ->) & _). left. reflexivity.
    + tauto.
    + intros (p & -> & (-> & ->) & H). congruence.
  - rewrite collect_scope. unfold collect_dict. rewrite in_flat_map.
    assert (W' := W). apply wfd_iff in W' as [ND WF]. specialize (Hk eq_refl). split.
    + intros ([m x] & Hi & Hc). destruct (WF _ _ Hi) as (A & B & X).
      apply (IH _ _ Hi) in Hc; auto. destruct Hc as (p & -> & Hp & S).
      exists (m :: p). split; [apply pre_scope; [exact Hk|discriminate]|]. split; [|exact S].
      split; [discriminate|]. rewrite registered_cons, (In_dlookup _ _ _ ND Hi).
      destruct x as [w|d']; [destruct Hp as [-> ->]; reflexivity|destruct Hp as [Hp Hr]].
      destruct p; [congruence|exact Hr].
    + intros (p & -> & (Hp & Hr) & S). destruct p as [|m p]; [congruence|].
      rewrite registered_cons in Hr.
      assert (exists x, dlookup m d = Some x) as [x L]
        by (destruct p; destruct (dlookup m d); eauto; discriminate).
      assert (Hi := dlookup_In _ _ _ L). destruct (WF _ _ Hi) as (A & B & X).
      exists (m, x). split; [exact Hi|]. apply (IH _ _ Hi); auto. exists p.
      split; [symmetry; apply pre_scope; [exact Hk|discriminate]|]. split; [|exact S].
      rewrite L in Hr. destruct x as [w|d']; destruct p as [|b p].
      * inversion Hr; auto.
      * discriminate.
      * discriminate.
      * split; [discriminate|exact Hr].
Qed.

Lemma collect_dict_In h g n d key v : wfd n d ->
  In (key, v) (collect_dict h g "" d) <->
  exists p, p <> [] /\ key = joinp p /\ registered d p = Some v /\ sel h g v = true.
Proof.
  intros W. unfold collect_dict. rewrite in_flat_map. assert (W' := W). apply wfd_iff in W' as [ND WF].
  split.
  - intros ([m x] & Hi & Hc). destruct (WF _ _ Hi) as (A & B & X).
    apply (collect_In _ _ _ _ _ _ _ _ X B) in Hc as (p & -> & Hp & S).
    exists (m :: p). split; [discriminate|]. split; [reflexivity|]. split; [|exact S].
    rewrite registered_cons, (In_dlookup _ _ _ ND Hi).
    destruct x as [w|d']; [destruct Hp as [-> ->]; reflexivity|destruct Hp as [Hp Hr]].
    destruct p; [congruence|exact Hr].
  - intros (p & Hp & -> & Hr & S). destruct p as [|m p]; [congruence|]. rewrite registered_cons in Hr.
    assert (exists x, dlookup m d = Some x) as [x L]
      by (destruct p; destruct (dlookup m d); eauto; discriminate).
    assert (Hi := dlookup_In _ _ _ L). destruct (WF _ _ Hi) as (A & B & X).
    exists (m, x). split; [exact Hi|]. apply (collect_In _ _ n); auto. exists p.
    split; [reflexivity|]. split; [|exact S].
    rewrite L in Hr. destruct x as [w|d']; destruct p as [|b p]; try discriminate.
    + inversion Hr; auto.
    + split; [discriminate|exact Hr].
Qed.

Lemma out_set_In_key k v o m : In m (map fst (out_set k v o)) <-> m = k \/ In m (map fst o).
Proof.
  induction o as [|[a x] o IH]; cbn; [intuition|].
  destruct (String.eqb_spec k a); subst; cbn; [intuition|]. rewrite IH. intuition.
Qed.
Lemma out_set_NoDup k v o : NoDup (map fst o) -> NoDup (map fst (out_set k v o)).
Proof.
  induction o as [|[a x] o IH]; cbn; intros H; [repeat constructor; tauto|].
  inversion H; subst. destruct (String.eqb_spec k a); subst; cbn; constructor; auto.
  rewrite out_set_In_key. intros [->|]; [congruence|tauto].
Qed.
Lemma out_set_In k v o m x : NoDup (map fst o) ->
  In (m, x) (out_set k v o) <-> (m = k /\ x = v) \/ (m <> k /\ In (m, x) o).
Proof.
  induction o as [|[a y] o IH]; cbn; intros H; [intuition congruence|].
  inversion H; subst. destruct (String.eqb_spec k a); subst; cbn.
  - split.
    + intros [E|Hi]; [inversion E; auto|]. right. split; [|auto]. intros ->. apply H2.
      now apply (in_map fst) in Hi.
    + intros [[-> ->]|[Hne [E|Hi]]]; [auto|inversion E; congruence|auto].
  - rewrite IH by assumption. split.
    + intros [E|[?|?]]; [inversion E; subst; right; split; [congruence|auto]|auto|tauto].
    + intros [[-> ->]|[Hne [E|Hi]]]; auto.
Qed.

Lemma fold_out l : forall o,
  NoDup (map fst o) ->
  (forall k v w, In (k, v) l -> In (k, w) l -> v = w) ->
  (forall k v w, In (k, v) l -> In (k, w) o -> v = w) ->
  let r := fold_left (fun o kv => out_set (fst kv) (snd kv) o) l o in
  NoDup (map fst r) /\ (forall k v, In (k, v) r <-> In (k, v) o \/ In (k, v) l).
Proof.
  induction l as [|[a x] l IH]; cbn; intros o ND F1 F2; [split; [exact ND|tauto]|].
  destruct (IH (out_set a x o)) as [A B].
  - now apply out_set_NoDup.
  - intros k v w H1 H2; eapply F1; eauto.
  - intros k v w H1 H2. apply out_set_In in H2; [|exact ND].
    destruct H2 as [[-> ->]|[Hne H2]]; [eapply F1; eauto|eapply F2; eauto].
  - split; [exact A|]. intros k v. rewrite B, out_set_In by exact ND. split.
    + intros [[[-> ->]|[? ?]]|?]; auto.
    + intros [H|[E|H]]; [|inversion E; auto|auto].
      destruct (string_dec k a) as [->|]; [|auto]. left. left. split; [reflexivity|].
      symmetry. eapply F2; eauto.
Qed.

Lemma get_parameters_spec s g : Inv s ->
  NoDup (map fst (get_parameters s g)) /\
  forall k v, In (k, v) (get_parameters s g) <->
    exists p, p <> [] /\ k = joinp p /\ registered (root s) (cur s ++ p) = Some v /\
              (g = true -> exists x, nth_error (heap s) v = Some x /\ vneed x = true).
Proof.
  intros (I1 & I2 & I3). unfold get_parameters.
  destruct (dict_at (root s) (cur s)) as [d|] eqn:Ed; [|congruence].
  assert (W := wfd_at _ _ _ _ I1 Ed).
  destruct (fold_out (collect_dict (heap s) g "" d) []) as [A B].
  - constructor.
  - intros k v w H1 H2. apply (collect_dict_In _ _ _ _ _ _ W) in H1 as (p & P1 & -> & R1 & _).
    apply (collect_dict_In _ _ _ _ _ _ W) in H2 as (q & Q1 & E & R2 & _).
    destruct (registered_noslash _ _ _ _ W R1) as (N1 & _). destruct (registered_noslash _ _ _ _ W R2) as (N2 & _).
    assert (p = q) by (rewrite <- (split_joinp p P1 N1), <- (split_joinp q Q1 N2); congruence).
    subst q. congruence.
  - intros k v w _ [].
  - split; [exact A|]. intros k v. rewrite B. rewrite (collect_dict_In _ _ _ _ _ _ W). split.
    + intros [[]|(p & P1 & -> & R & S)]. exists p. split; [exact P1|]. split; [reflexivity|].
      split; [rewrite (registered_at _ _ _ _ Ed P1); exact R|]. intros ->. unfold sel in S. cbn in S.
      destruct (nth_error (heap s) v) as [x|]; [eauto|discriminate].
    + intros (p & P1 & -> & R & S). right. exists p. rewrite (registered_at _ _ _ _ Ed P1) in R.
      repeat split; auto. unfold sel. destruct g; [|reflexivity].
      destruct (S eq_refl) as (x & -> & V). exact V.
Qed.

(** A listed key is found again, and everything found by a listed-form key is listed. *)
Lemma listed_found s k v : Inv s ->
  In (k, v) (get_parameters s false) -> snd (get_parameter s k) = Ok (Some v).
Proof.
  intros I H. apply (get_parameters_spec s false I) in H as (p & P1 & -> & R & _).
  destruct (get_parameter s (joinp p)) as [s' o] eqn:E. cbn.
  assert (I0 := I). destruct I as (I1 & I2 & I3).
  destruct (dict_at (root s) (cur s)) as [d|] eqn:Ed; [|congruence].
  assert (W := wfd_at _ _ _ _ I1 Ed). assert (R' := R). rewrite (registered_at _ _ _ _ Ed P1) in R'.
  destruct (registered_noslash _ _ _ _ W R') as (N & _ & C & _).
  assert (F : full_path s (joinp p) = cur s ++ p).
  { unfold full_path, key_path. now rewrite split_joinp, C. }
  destruct (get_spec _ _ _ _ I0 E) as (_ & _ & _ & _ & _ & X). rewrite F in X.
  destruct o as [r|e]; [destruct X as [-> _]; now rewrite R|destruct X as (_ & X & _); congruence].
Qed.

Lemma clear_spec s : Inv s ->
  forall q, registered (root (clear_parameters s)) q =
            if below_dec (cur s) q then None else registered (root s) q.
Proof.
  intros (I1 & I2 & I3) q. unfold clear_parameters.
  destruct (dict_at (root s) (cur s)) as [d|] eqn:Ed; [|congruence]. rewrite fold_ddel_all. cbn.
  destruct (below_dec (cur s) q) as [[q' [-> Hq]]|Hn].
  - rewrite (registered_put_in _ _ _ _ _ Ed Hq). destruct q' as [|a q']; [congruence|].
    rewrite registered_cons. now destruct q'.
  - eapply registered_put_out; eauto.
Qed.
