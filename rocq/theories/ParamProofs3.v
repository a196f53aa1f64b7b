(** get_parameter_or_create. *)
From Coq Require Import String Ascii Bool Arith ZArith Lia List.
From Verif Require Import ParamModel ParamSpec ParamProofs ParamProofs2.
Import ListNotations.
Local Open Scope string_scope.
Local Open Scope list_scope.

Definition set_need (x : var) (b : bool) : var :=
  {| vshape := vshape x; vneed := b; vstore := vstore x |}.

Lemma heap_upd_same h : forall v x, nth_error h v = Some x -> heap_upd h v x = h.
Proof.
  induction h as [|y h IH]; intros [|v] x H; cbn in *; try discriminate; [congruence|].
  now rewrite IH.
Qed.

Lemma goc_spec s name sh i need an s' o :
  Inv s -> get_parameter_or_create s name sh i need an = (s', o) ->
  cur s' = cur s /\ nograd s' = nograd s /\
  match registered (root s) (full_path s name) with
  | Some v =>
      exists x, nth_error (heap s) v = Some x /\ store s' = store s /\
        (forall q, registered (root s') q = registered (root s) q) /\
        match o with
        | Ok ret => sh = Some (vshape x) /\ rshape ret = vshape x /\ rstore ret = vstore x /\
                    rneed ret = andb (requested need an) (negb (nograd s)) /\
                    heap s' = heap_upd (heap s) v (set_need x need)
        | Exn e => sh <> Some (vshape x) /\ heap s' = heap s
        end
  | None =>
      match o with
      | Ok ret => (forall z, sh = Some z -> rshape ret = z) /\
                  (forall z c, i = IArray z c -> rshape ret = z) /\
                  rstore ret = length (store s) /\
                  rneed ret = andb (requested need an) (negb (nograd s)) /\
                  store s' = store s ++ [init_content i] /\
                  heap s' = heap s ++ [{| vshape := rshape ret; vneed := need; vstore := length (store s) |}] /\
                  registered (root s') (full_path s name) = Some (length (heap s)) /\
                  (forall q, q <> full_path s name -> registered (root s') q = registered (root s) q)
      | Exn e => (forall q, registered (root s') q = registered (root s) q) /\
                 heap s' = heap s /\ store s' = store s
      end
  end.
Proof.
  intros I E. unfold get_parameter_or_create in E. rewrite goc_names_walk in E by apply split_nonnil.
  apply (walk_spec s name (fun s1 k => goc_names s1 [k] sh i need an)) in E; [|exact I].
  destruct E as [(r & e & -> & -> & -> & K & B)|(r & p & k & s2 & Hfp & Hk & K & At & W & I2 & NB & El & ->)].
  - assert (N : registered (root s) (full_path s name) = None).
    { destruct B as (q & v & Hq & Hv). eapply registered_below_None; eauto. }
    rewrite N. repeat split; auto; apply K.
  - cbn [goc_names get_names] in El. cbn [root cur with_cur with_root nograd heap store] in El.
    destruct (dict_at r p) as [d|] eqn:Ed; [|congruence].
    assert (HR : registered (root s) (full_path s name) = match dlookup k d with Some (EVar v) => Some v | _ => None end).
    { rewrite <- (proj1 K), Hfp. now apply registered_leaf. }
    assert (An : (if nograd s then false else match an with Some b => b | None => need end) =
                 andb (requested need an) (negb (nograd s))).
    { unfold requested. destruct (nograd s), an; cbn; rewrite ?andb_false_r, ?andb_true_r; reflexivity. }
    destruct (dlookup k d) as [[v|c]|] eqn:L; rewrite HR.
    + assert (Hv : v < length (heap s)).
      { assert (Wd := wfd_at _ _ _ _ W Ed). now destruct (wfd_lookup _ _ _ _ Wd L) as (_ & _ & X). }
      cbn [heap with_cur with_root] in El.
      destruct (nth_error (heap s) v) as [x|] eqn:Ev; [|apply nth_error_None in Ev; lia].
      destruct sh as [sh|].
      * destruct (list_eq_dec Z.eq_dec (vshape x) sh) as [Hs|Hs].
        -- destruct (Bool.eqb need (vneed x)) eqn:En.
           ++ inversion El; subst; cbn. split; [reflexivity|]. split; [reflexivity|].
              exists x. repeat split; auto; try apply K.
              apply eqb_prop in En. symmetry. apply heap_upd_same. rewrite Ev. destruct x; cbn in *; now subst.
           ++ cbn [set_names] in El. cbn [root cur with_cur with_root nograd heap store with_heap] in El.
              rewrite Ed in El. inversion El; subst; cbn. split; [reflexivity|]. split; [reflexivity|].
              exists x. repeat split; auto.
              intros q. rewrite <- (proj1 K). destruct (below_dec (p ++ [k]) q) as [[q' [-> Hq]]|Hn].
              ** rewrite (put_leaf_below _ _ _ _ _ _ Ed), dlookup_dset_same.
                 destruct q' as [|a q']; [congruence|]. symmetry. eapply registered_below_None; [|exists a, q'; reflexivity].
                 rewrite (proj1 K), <- Hfp. exact HR.
              ** destruct (path_eq_dec q (p ++ [k])) as [->|Hne].
                 { rewrite <- (app_nil_r (p ++ [k])) at 1. rewrite (put_leaf_below _ _ _ _ _ _ Ed), dlookup_dset_same.
                   now rewrite (proj1 K), <- Hfp, HR. }
                 apply (put_leaf_registered _ _ d k); auto.
                 { intros k' Hk'. apply dlookup_dset_other. congruence. }
                 intros ([|a t] & ->); [now rewrite app_nil_r in Hne|]. apply Hn. exists a, t. reflexivity.
        -- inversion El; subst; cbn. split; [reflexivity|]. split; [reflexivity|].
           exists x. repeat split; auto; try apply K. congruence.
      * inversion El; subst; cbn. split; [reflexivity|]. split; [reflexivity|].
        exists x. repeat split; auto; try apply K. discriminate.
    + inversion El; subst; cbn. repeat split; auto; apply K.
    + destruct (create_by_initializer i sh) as [[sh' c]|e] eqn:Ec.
      * cbn [set_names] in El. cbn [root cur with_cur with_root nograd heap store with_heap] in El.
        rewrite Ed in El. inversion El; subst; cbn. split; [reflexivity|]. split; [reflexivity|].
        assert (C : c = init_content i /\ (forall z, sh = Some z -> sh' = z) /\ (forall z c', i = IArray z c' -> sh' = z)).
        { destruct i as [|z w|w|]; cbn in Ec; destruct sh as [z'|]; cbn in Ec; try discriminate;
            try destruct (list_eq_dec Z.eq_dec z' z); inversion Ec; subst;
            (split; [reflexivity|split; intros; congruence]). }
        destruct C as (-> & C2 & C3).
        split; [exact C2|]. split; [exact C3|]. repeat split; auto.
        -- rewrite Hfp. rewrite <- (app_nil_r (p ++ [k])), (put_leaf_below _ _ _ _ _ _ Ed).
           now rewrite dlookup_dset_same.
        -- intros q Hq. rewrite <- (proj1 K). rewrite Hfp in Hq.
           destruct (below_dec (p ++ [k]) q) as [[q' [-> Hq']]|Hn].
           ++ rewrite (put_leaf_below _ _ _ _ _ _ Ed), dlookup_dset_same.
              destruct q' as [|a q']; [congruence|]. rewrite <- app_assoc.
              rewrite (registered_at _ _ _ _ Ed) by discriminate. cbn [app]. now rewrite registered_cons, L.
           ++ apply (put_leaf_registered _ _ d k); auto.
              { intros k' Hk'. apply dlookup_dset_other. congruence. }
              intros ([|a t] & ->); [now rewrite app_nil_r in Hq|]. apply Hn. exists a, t. reflexivity.
      * inversion El; subst; cbn. repeat split; auto; apply K.
Qed.

Lemma goc_Inv s name sh i need an s' o :
  Inv s -> get_parameter_or_create s name sh i need an = (s', o) -> Inv s'.
Proof. intros I E. eapply goc_names_Good; eauto. apply split_noslash. Qed.

(** ** Histories of calls *)

Definition holds (s : st) (p : list string) (sid : nat) (sh : list Z) : Prop :=
  exists v x, registered (root s) p = Some v /\ nth_error (heap s) v = Some x /\
              vstore x = sid /\ vshape x = sh.

Definition NoAlias (s : st) : Prop :=
  forall p q sid sh sh', holds s p sid sh -> holds s q sid sh' -> p = q.

Lemma holds_lt s p sid sh : Inv s -> holds s p sid sh -> sid < length (store s).
Proof.
  intros (_ & _ & F) (v & x & _ & Hx & <- & _). rewrite Forall_forall in F. apply F.
  eapply nth_error_In; eauto.
Qed.

Lemma goc_step s c s1 r : Inv s ->
  get_parameter_or_create s (cname c) (cshape c) (cinit c) (cneed c) (cas c) = (s1, r) ->
  (forall p sid sh, holds s p sid sh -> holds s1 p sid sh) /\
  (NoAlias s -> NoAlias s1) /\
  (forall a, r = Ok a -> holds s1 (full_path s (cname c)) (rstore a) (rshape a)) /\
  cur s1 = cur s.
Proof.
  intros I E. assert (G := goc_spec _ _ _ _ _ _ _ _ I E). destruct G as (G1 & G2 & G).
  destruct (registered (root s) (full_path s (cname c))) as [v|] eqn:R.
  - destruct G as (x & Hx & St & Rg & G).
    assert (HH : forall w y, nth_error (heap s) w = Some y ->
       exists y', nth_error (heap s1) w = Some y' /\ vstore y' = vstore y /\ vshape y' = vshape y).
    { intros w y Hy. destruct r as [ret|e]; [destruct G as (_ & _ & _ & _ & G)|destruct G as (_ & G)];
        rewrite G; [|eauto]. rewrite heap_upd_nth. destruct (Nat.eqb_spec v w) as [<-|]; [|eauto].
      rewrite Hx in *. inversion Hy; subst. exists (set_need y (cneed c)). auto. }
    assert (HH' : forall w y, nth_error (heap s1) w = Some y ->
       exists y', nth_error (heap s) w = Some y' /\ vstore y' = vstore y /\ vshape y' = vshape y).
    { intros w y Hy. destruct r as [ret|e]; [destruct G as (_ & _ & _ & _ & G)|destruct G as (_ & G)];
        rewrite G in Hy; [|eauto]. rewrite heap_upd_nth in Hy. destruct (Nat.eqb_spec v w) as [<-|]; [|eauto].
      rewrite Hx in Hy. inversion Hy; subst. exists x. auto. }
    assert (F : forall p sid sh, holds s p sid sh -> holds s1 p sid sh).
    { intros p sid sh (w & y & Hw & Hy & <- & <-). destruct (HH _ _ Hy) as (y' & ? & ? & ?).
      exists w, y'. rewrite Rg. auto. }
    assert (B : forall p sid sh, holds s1 p sid sh -> holds s p sid sh).
    { intros p sid sh (w & y & Hw & Hy & <- & <-). destruct (HH' _ _ Hy) as (y' & ? & ? & ?).
      exists w, y'. rewrite <- Rg. auto. }
    split; [exact F|]. split; [|split; [|exact G1]].
    + intros NA p q sid sh sh' H1 H2. eapply NA; eauto.
    + intros a ->. destruct G as (_ & Gs & Gt & _). apply F. exists v, x. rewrite Gs, Gt. auto.
  - destruct r as [ret|e].
    + destruct G as (_ & _ & Gt & _ & St & Hp & Rn & Ro).
      assert (F : forall p sid sh, holds s p sid sh -> holds s1 p sid sh).
      { intros p sid sh (w & y & Hw & Hy & <- & <-).
        exists w, y. rewrite Ro by congruence. rewrite Hp, nth_error_app1; auto.
        apply nth_error_Some. congruence. }
      split; [exact F|]. split; [|split; [|exact G1]].
      * assert (B : forall p sid sh, holds s1 p sid sh ->
                  (p = full_path s (cname c) /\ sid = length (store s)) \/ holds s p sid sh).
        { intros p sid sh (w & y & Hw & Hy & <- & <-).
          destruct (path_eq_dec p (full_path s (cname c))) as [->|Hne].
          - left. split; [reflexivity|]. rewrite Rn in Hw. inversion Hw; subst w.
            rewrite Hp, nth_error_app2, Nat.sub_diag in Hy by lia. now inversion Hy.
          - right. rewrite (Ro _ Hne) in Hw. exists w, y. repeat split; auto.
            destruct I as (I1 & I2 & _). destruct (registered_noslash _ _ _ _ I1 Hw) as (_ & _ & _ & Lt).
            rewrite Hp, nth_error_app1 in Hy by exact Lt. exact Hy. }
        intros NA p q sid sh sh' H1 H2. destruct (B _ _ _ H1) as [[-> ->]|H1']; destruct (B _ _ _ H2) as [[-> E2]|H2'];
          auto.
        -- apply (holds_lt _ _ _ _ I) in H2'. lia.
        -- apply (holds_lt _ _ _ _ I) in H1'. lia.
        -- eapply NA; eauto.
      * intros a Ha. inversion Ha; subst a. exists (length (heap s)). eexists.
        split; [exact Rn|]. split; [rewrite Hp, nth_error_app2, Nat.sub_diag by lia; reflexivity|]. cbn. auto.
    + destruct G as (Gr & Gh & Gs).
      assert (F : forall p sid sh, holds s p sid sh <-> holds s1 p sid sh).
      { intros p sid sh. unfold holds. rewrite Gh. split; intros (w & y & Hw & Hy & ? & ?); exists w, y; repeat split; auto; congruence. }
      split; [intros; now apply F|]. split; [|split; [discriminate|exact G1]].
      intros NA p q sid sh sh' H1 H2. apply F in H1, H2. eapply NA; eauto.
Qed.

Lemma run_calls_holds cs : forall s sf rs,
  Inv s -> NoAlias s -> run_calls s cs = (sf, rs) ->
  NoAlias sf /\ cur sf = cur s /\
  (forall p sid sh, holds s p sid sh -> holds sf p sid sh) /\
  (exists t, store sf = store s ++ t) /\
  forall i c a, nth_error cs i = Some c -> nth_error rs i = Some (Ok a) ->
                holds sf (full_path s (cname c)) (rstore a) (rshape a).
Proof.
  induction cs as [|c cs IH]; intros s sf rs I NA E; cbn [run_calls] in E.
  - inversion E; subst. split; [exact NA|]. split; [reflexivity|]. split; [auto|].
    split; [exists []; now rewrite app_nil_r|]. intros [|i]; discriminate.
  - destruct (get_parameter_or_create s (cname c) (cshape c) (cinit c) (cneed c) (cas c)) as [s1 r] eqn:E1.
    destruct (run_calls s1 cs) as [s2 rs'] eqn:E2. inversion E; subst.
    destruct (goc_step _ _ _ _ I E1) as (A1 & A2 & A3 & A4).
    assert (I1 := goc_Inv _ _ _ _ _ _ _ _ I E1).
    destruct (IH _ _ _ I1 (A2 NA) E2) as (B1 & B2 & B3 & [t B4] & B5).
    assert (G : Good s s1) by (eapply goc_names_Good; eauto; apply split_noslash).
    destruct G as (_ & _ & _ & _ & (_ & [t' G] & _)).
    split; [exact B1|]. split; [congruence|]. split; [auto|].
    split; [exists (t' ++ t); rewrite B4, G; now rewrite app_assoc|].
    intros [|j] c' a Hc Ha; cbn in Hc, Ha.
    + inversion Hc; inversion Ha; subst. apply B3. auto.
    + specialize (B5 _ _ _ Hc Ha). unfold full_path in *. now rewrite A4 in B5.
Qed.

Lemma run_calls_share cs s sf rs :
  Inv s -> (forall q, registered (root s) q = None) -> run_calls s cs = (sf, rs) ->
  forall i j ci cj a b,
    nth_error cs i = Some ci -> nth_error cs j = Some cj ->
    nth_error rs i = Some (Ok a) -> nth_error rs j = Some (Ok b) ->
    (rstore a = rstore b <-> key_path (cname ci) = key_path (cname cj)) /\
    (key_path (cname ci) = key_path (cname cj) -> rshape a = rshape b).
Proof.
  intros I Z E i j ci cj a b Hi Hj Ha Hb.
  assert (NA : NoAlias s) by (intros p q sid sh sh' (v & x & H & _); rewrite Z in H; discriminate).
  destruct (run_calls_holds _ _ _ _ I NA E) as (A & _ & _ & _ & B).
  assert (H1 := B _ _ _ Hi Ha). assert (H2 := B _ _ _ Hj Hb). unfold full_path in *.
  assert (X : key_path (cname ci) = key_path (cname cj) -> rstore a = rstore b /\ rshape a = rshape b).
  { intros Hk. rewrite Hk in H1. destruct H1 as (v & x & R1 & X1 & <- & <-). destruct H2 as (w & y & R2 & X2 & <- & <-).
    rewrite R1 in R2. inversion R2; subst w. rewrite X1 in X2. inversion X2; auto. }
  split; [split|].
  - intros Hs. rewrite Hs in H1. specialize (A _ _ _ _ _ H1 H2). now apply app_inv_head in A.
  - intros Hk. now apply X.
  - intros Hk. now apply X.
Qed.

Lemma create_ok i sh : 
  (exists z, sh = Some z /\ i <> IInvalid /\ (forall z' c, i = IArray z' c -> z' = z)) \/
  (sh = None /\ exists z c, i = IArray z c) <->
  exists r, create_by_initializer i sh = Ok r.
Proof.
  split.
  - intros [(z & -> & Hi & Ha)|(-> & z & c & ->)]; [|cbn; eauto].
    destruct i as [|z' c|c|]; cbn; eauto; [|congruence].
    rewrite (Ha _ _ eq_refl). destruct (list_eq_dec Z.eq_dec z z); [eauto|congruence].
  - intros [r H]. destruct i as [|z c|c|]; cbn in H; destruct sh as [z'|]; try discriminate.
    + left. exists z'. repeat split; congruence.
    + left. destruct (list_eq_dec Z.eq_dec z' z); [|discriminate]. subst. exists z. repeat split; congruence.
    + right. eauto.
    + left. exists z'. repeat split; congruence.
Qed.

(** Entering scopes only creates prefixes of the entered path. *)
Lemma enter_new n ns : forall r p r' p',
  wfd n r -> dict_at r p <> None -> forallb noslash ns = true ->
  enter r p ns = (r', Ok p') ->
  forall q, dict_at r' q <> None -> dict_at r q <> None \/ is_prefix q p'.
Proof.
  induction ns as [|m ns IH]; intros r p r' p' W Hat Hns E q Hq; cbn [enter] in E.
  - inversion E; subst; auto.
  - cbn in Hns. apply andb_true_iff in Hns as [Hm Hns].
    destruct (String.eqb_spec m "") as [->|Hne]; [eapply IH; eauto|].
    destruct (dict_at r p) as [d|] eqn:Ed; [|congruence].
    assert (G : forall c, (dlookup m d = None /\ c = [] \/ dlookup m d = Some (EScope c)) ->
              enter (dict_put r p (dset m (EScope c) d)) (p ++ [m]) ns = (r', Ok p') ->
              dict_at r q <> None \/ is_prefix q p').
    { intros c Hc E2.
      assert (E1 : enter r p [m] = (dict_put r p (dset m (EScope c) d), Ok (p ++ [m]))).
      { cbn. destruct (String.eqb_spec m ""); [congruence|]. rewrite Ed.
        destruct Hc as [[-> ->]| ->]; reflexivity. }
      destruct (enter_spec n [m] r p _ _ W ltac:(congruence) ltac:(cbn; now rewrite Hm) E1) as (K & W' & _ & At).
      destruct (IH _ _ _ _ W' At Hns E2 q Hq) as [H|H]; [|auto].
      destruct (enter_spec n ns _ _ _ _ W' At Hns E2) as (_ & _ & Hp' & _).
      destruct (below_dec p q) as [[q' [-> Hq']]|Hn].
      - rewrite dict_at_app, Ed. rewrite dict_at_app, (dict_at_put _ _ _ _ Ed) in H.
        destruct q' as [|a q']; [congruence|]. cbn [dict_at] in *.
        destruct (string_dec m a) as [<-|Hma].
        + rewrite dlookup_dset_same in H. destruct Hc as [[Hc ->]|Hc].
          * right. destruct q' as [|b q']; [|exfalso; now apply H].
            exists (filter nonempty ns). rewrite Hp'. reflexivity.
          * left. now rewrite Hc.
        + left. now rewrite dlookup_dset_other in H.
      - left. clear - Ed Hn H. revert r d Ed q Hn H. induction p as [|a p IHp]; intros r d Ed q Hn H.
        + destruct q; [discriminate|]. exfalso; apply Hn. eexists _, _. reflexivity.
        + cbn [dict_at dict_put] in *. destruct (dlookup a r) as [[v|c0]|] eqn:L; try discriminate.
          destruct q as [|b q]; [discriminate|]. cbn [dict_at] in *. destruct (string_dec a b) as [<-|Hab].
          * rewrite dlookup_dset_same in H. rewrite L. eapply IHp; eauto.
            intros (x & y & ->). apply Hn. exists x, y. reflexivity.
          * now rewrite dlookup_dset_other in H. }
    destruct (dlookup m d) as [[v|c]|] eqn:L; [discriminate|apply (G c); auto|apply (G []); auto].
Qed.

Lemma goc_creates s name sh i need an :
  Inv s -> registered (root s) (full_path s name) = None ->
  ~ blocked (root s) (full_path s name) ->
  dict_at (root s) (full_path s name) = None ->
  (exists z, sh = Some z /\ i <> IInvalid /\ (forall z' c, i = IArray z' c -> z' = z)) ->
  exists s' a, get_parameter_or_create s name sh i need an = (s', Ok a).
Proof.
  intros I R NB NS Hi. destruct (get_parameter_or_create s name sh i need an) as [s' o] eqn:E.
  unfold get_parameter_or_create in E. rewrite goc_names_walk in E by apply split_nonnil.
  assert (E0 := E). unfold with_scope in E0.
  apply (walk_spec s name (fun s1 k => goc_names s1 [k] sh i need an)) in E; [|exact I].
  destruct E as [(r & e & -> & -> & -> & K & B)|_]; [contradiction|].
  set (names := split_slash name) in *.
  assert (Hnn : names <> []) by apply split_nonnil.
  assert (Hns : forallb noslash (removelast names) = true).
  { assert (H := split_noslash name). fold names in H. rewrite (app_removelast_last "" Hnn) in H.
    rewrite forallb_app in H. now apply andb_true_iff in H. }
  assert (Hfp : full_path s name = (cur s ++ filter nonempty (removelast names)) ++ [last names ""]).
  { unfold full_path, key_path. fold names. rewrite canon_walk by exact Hnn. now rewrite app_assoc. }
  destruct I as (I1 & I2 & I3).
  destruct (enter (root s) (cur s) (removelast names)) as [r [p|e]] eqn:En.
  2:{ exfalso. apply NB. rewrite Hfp, <- app_assoc. eapply enter_exn; eauto. }
  destruct (enter_spec _ _ _ _ _ _ I1 I2 Hns En) as (K & W & Hp & At).
  assert (New := enter_new _ _ _ _ _ _ I1 I2 Hns En (full_path s name)).
  rewrite <- Hp in Hfp.
  assert (NS' : dict_at r (full_path s name) = None).
  { destruct (dict_at r (full_path s name)) as [x|] eqn:X; [|reflexivity]. exfalso.
    destruct New as [H|(t & H)]; [congruence|congruence|].
    rewrite Hfp in H. assert (length p = length ((p ++ [last names ""]) ++ t)) by congruence.
    rewrite !app_length in *. cbn in *. lia. }
  cbn [goc_names get_names] in E0. cbn [root cur with_cur with_root nograd heap store] in E0.
  destruct (dict_at r p) as [d|] eqn:Ed; [|congruence].
  rewrite Hfp, (scope_leaf _ _ _ _ Ed) in NS'.
  assert (R' : registered r (p ++ [last names ""]) = None) by (rewrite <- Hfp, (proj1 K); exact R).
  rewrite (registered_leaf _ _ _ _ Ed) in R'.
  destruct (dlookup (last names "") d) as [[v|c]|]; [discriminate|discriminate|].
  destruct (proj1 (create_ok i sh) (or_introl Hi)) as [[sh' c] Hc]. rewrite Hc in E0.
  cbn [set_names] in E0. cbn [root cur with_cur with_root nograd heap store] in E0.
  rewrite Ed in E0. inversion E0; subst. eauto.
Qed.

Lemma goc_again s name sh i need an v x :
  Inv s -> registered (root s) (full_path s name) = Some v -> nth_error (heap s) v = Some x ->
  (sh = Some (vshape x) <-> exists s' a, get_parameter_or_create s name sh i need an = (s', Ok a)).
Proof.
  intros I R Hx. destruct (get_parameter_or_create s name sh i need an) as [s' o] eqn:E.
  destruct (goc_spec _ _ _ _ _ _ _ _ I E) as (_ & _ & G). rewrite R in G.
  destruct G as (x' & Hx' & _ & _ & G). rewrite Hx in Hx'. inversion Hx'; subst x'.
  destruct o as [a|e].
  - split; [eauto|]. intros _. apply G.
  - split; [intros ->; now destruct G|]. intros (s'' & a & H). congruence.
Qed.

Lemma reach_list cs : forall s s' o, reach s -> exec_list s cs = (s', o) -> reach s'.
Proof.
  induction cs as [|c cs IH]; cbn; intros s s' o R E; [inversion E; subst; exact R|].
  destruct (exec s c) as [s1 [u|e]] eqn:E1.
  - apply (IH s1 s' o); [|exact E]. eapply reach_cmd; eauto.
  - inversion E; subst. eapply reach_cmd; eauto.
Qed.

Lemma clear_exact s q : Inv s ->
  (strictly_below (cur s) q -> registered (root (clear_parameters s)) q = None) /\
  (~ strictly_below (cur s) q -> registered (root (clear_parameters s)) q = registered (root s) q).
Proof.
  intros I. assert (E := clear_spec s I q). destruct (below_dec (cur s) q) as [[q' [-> Hq]]|Hn].
  - split; [auto|]. intros H. destruct q' as [|a q']; [congruence|]. exfalso. apply H. exists a, q'. reflexivity.
  - split; [contradiction|auto].
Qed.

Lemma scope_entered s name : Inv s ->
  match enter (root s) (cur s) (scope_names name) with
  | (r, Ok p) => p = cur s ++ scope_path name /\ (forall q, registered r q = registered (root s) q)
  | (r, Exn e) => e = AssertionError /\ (forall q, registered r q = registered (root s) q) /\
                  blocked (root s) (cur s ++ scope_path name ++ [""])
  end.
Proof.
  intros (I1 & I2 & _).
  destruct (enter (root s) (cur s) (scope_names name)) as [r [p|e]] eqn:E;
    destruct (enter_spec _ _ _ _ _ _ I1 I2 (scope_names_noslash name) E) as (K & W & X).
  - rewrite <- scope_names_path. split; [apply X|apply K].
  - split; [exact X|]. split; [apply K|]. rewrite <- scope_names_path.
    eapply enter_exn; eauto. apply scope_names_noslash.
Qed.
