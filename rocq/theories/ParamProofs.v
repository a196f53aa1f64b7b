(** Proofs about the parameter registry model. *)
From Coq Require Import String Ascii Bool Arith ZArith Lia List.
From Verif Require Import ParamModel ParamSpec.
Import ListNotations.
Local Open Scope string_scope.
Local Open Scope list_scope.

(** ** Dictionaries *)

Lemma dlookup_dset_same k e d : dlookup k (dset k e d) = Some e.
Proof.
  induction d as [|[m x] d IH]; cbn; [now rewrite String.eqb_refl|].
  destruct (String.eqb k m) eqn:E; cbn; rewrite E; [reflexivity|exact IH].
Qed.

Lemma dlookup_dset_other k k' e d : k <> k' -> dlookup k' (dset k e d) = dlookup k' d.
Proof.
  intros Hk. induction d as [|[m x] d IH]; cbn.
  - destruct (String.eqb_spec k' k); congruence.
  - destruct (String.eqb_spec k m); cbn; destruct (String.eqb_spec k' m); subst; congruence.
Qed.

Lemma dlookup_None k d : dlookup k d = None <-> ~ In k (map fst d).
Proof.
  induction d as [|[m x] d IH]; cbn; [tauto|].
  destruct (String.eqb_spec k m); subst; split; intros H.
  - discriminate.
  - exfalso; apply H; now left.
  - intros [->|H']; [congruence|]. now apply IH in H.
  - apply IH. tauto.
Qed.

Lemma dlookup_In k d e : dlookup k d = Some e -> In (k, e) d.
Proof.
  induction d as [|[m x] d IH]; cbn; [discriminate|].
  destruct (String.eqb_spec k m); subst; intros H; [inversion H; now left|right; auto].
Qed.

Lemma In_dlookup k d e : NoDup (map fst d) -> In (k, e) d -> dlookup k d = Some e.
Proof.
  induction d as [|[m x] d IH]; cbn; intros Hn Hi; [tauto|].
  inversion Hn; subst. destruct Hi as [Hi|Hi].
  - inversion Hi; subst. now rewrite String.eqb_refl.
  - destruct (String.eqb_spec k m); subst.
    + exfalso. apply H1. now apply (in_map fst) in Hi.
    + auto.
Qed.

Lemma dlookup_ddel_other k k' d : k <> k' -> dlookup k' (ddel k d) = dlookup k' d.
Proof.
  intros Hk. induction d as [|[m x] d IH]; cbn; [reflexivity|].
  destruct (String.eqb_spec k m); cbn; destruct (String.eqb_spec k' m); subst; congruence.
Qed.

Lemma dlookup_ddel_same k d : NoDup (map fst d) -> dlookup k (ddel k d) = None.
Proof.
  induction d as [|[m x] d IH]; cbn; intros Hn; [reflexivity|].
  inversion Hn; subst.
  destruct (String.eqb_spec k m); subst.
  - now apply dlookup_None.
  - cbn. destruct (String.eqb_spec k m); [congruence|auto].
Qed.

Lemma In_dset_key k e d m : In m (map fst (dset k e d)) -> m = k \/ In m (map fst d).
Proof.
  induction d as [|[a x] d IH]; cbn; [intuition|].
  destruct (String.eqb_spec k a); subst; cbn; intuition.
Qed.

Lemma NoDup_dset k e d : NoDup (map fst d) -> NoDup (map fst (dset k e d)).
Proof.
  induction d as [|[a x] d IH]; cbn; intros H; [repeat constructor; tauto|].
  inversion H; subst. destruct (String.eqb_spec k a); subst; cbn; constructor; auto.
  intros Hi. apply In_dset_key in Hi as [Hi|Hi]; [congruence|contradiction].
Qed.

Lemma ddel_incl k d x : In x (ddel k d) -> In x d.
Proof.
  induction d as [|[m y] d IH]; cbn; [tauto|].
  destruct (String.eqb k m); cbn; intuition.
Qed.

Lemma NoDup_ddel k d : NoDup (map fst d) -> NoDup (map fst (ddel k d)).
Proof.
  induction d as [|[m x] d IH]; cbn; intros H; [constructor|].
  inversion H; subst. destruct (String.eqb k m); cbn; [assumption|].
  constructor; [|auto]. intros Hi. apply H2.
  apply in_map_iff in Hi as ([a b] & <- & Hi). apply ddel_incl in Hi.
  now apply (in_map fst) in Hi.
Qed.

Lemma In_dset k e d x : In x (dset k e d) -> x = (k, e) \/ In x d.
Proof.
  induction d as [|[m y] d IH]; cbn; [intuition|].
  destruct (String.eqb_spec k m); subst; cbn; intuition.
Qed.

(** ** Well-formedness *)

Fixpoint noslash (s : string) : bool :=
  match s with
  | EmptyString => true
  | String c s' => negb (Ascii.eqb c "/"%char) && noslash s'
  end.

Definition is_scope (e : entry) : bool := match e with EScope _ => true | _ => false end.

Fixpoint wfe (n : nat) (e : entry) : Prop :=
  match e with
  | EVar v => v < n
  | EScope d =>
      NoDup (map fst d) /\
      (fix go (l : list (string * entry)) : Prop :=
         match l with
         | [] => True
         | (k, x) :: l' =>
             (noslash k = true /\ (is_scope x = true -> k <> "") /\ wfe n x) /\ go l'
         end) d
  end.
Definition wfd (n : nat) (d : dict) : Prop := wfe n (EScope d).

Arguments wfd : simpl never.

Lemma wfd_iff n d :
  wfd n d <-> NoDup (map fst d) /\
              (forall k x, In (k, x) d ->
                           noslash k = true /\ (is_scope x = true -> k <> "") /\ wfe n x).
Proof.
  unfold wfd; cbn [wfe]. split; intros [H1 H2]; (split; [exact H1|]); clear H1.
  - induction d as [|[k x] d IH]; intros k' x' Hi; [destruct Hi|].
    destruct H2 as [Ha Hb]. destruct Hi as [Hi|Hi]; [inversion Hi; subst; exact Ha|].
    now apply IH.
  - induction d as [|[k x] d IH]; [exact I|]. split.
    + apply H2. now left.
    + apply IH. intros k' x' Hi. apply H2. now right.
Qed.

Lemma entry_ind' (P : entry -> Prop) :
  (forall v, P (EVar v)) ->
  (forall d, (forall k x, In (k, x) d -> P x) -> P (EScope d)) ->
  forall e, P e.
Proof.
  intros Hv Hs. fix IH 1. intros [v|d]; [apply Hv|]. apply Hs.
  induction d as [|[k x] d IHd]; intros k' x' Hi; [destruct Hi|].
  destruct Hi as [Hi|Hi].
  - assert (Hx : x' = x) by congruence. rewrite Hx. apply IH.
  - exact (IHd k' x' Hi).
Qed.

Lemma wfe_mono n m e : n <= m -> wfe n e -> wfe m e.
Proof.
  intros Hle. induction e as [v|d IH] using entry_ind'; [cbn; lia|].
  intros H. apply wfd_iff in H as [H1 H2]. apply wfd_iff. split; [exact H1|].
  intros k x Hi. destruct (H2 _ _ Hi) as (A & B & C). repeat split; auto. eapply IH; eauto.
Qed.

Lemma wfd_lookup n d k e :
  wfd n d -> dlookup k d = Some e ->
  noslash k = true /\ (is_scope e = true -> k <> "") /\ wfe n e.
Proof. intros H Hl. apply wfd_iff in H as [_ H]. apply H. now apply dlookup_In. Qed.

Lemma wfd_dset n d k e :
  wfd n d -> noslash k = true -> (is_scope e = true -> k <> "") -> wfe n e -> wfd n (dset k e d).
Proof.
  intros H A B C. apply wfd_iff in H as [H1 H2]. apply wfd_iff. split; [now apply NoDup_dset|].
  intros k' x' Hi. apply In_dset in Hi as [Hi|Hi]; [inversion Hi; subst; auto|auto].
Qed.

Lemma wfd_ddel n d k : wfd n d -> wfd n (ddel k d).
Proof.
  intros H. apply wfd_iff in H as [H1 H2]. apply wfd_iff. split; [now apply NoDup_ddel|].
  intros k' x' Hi. apply ddel_incl in Hi. auto.
Qed.

Lemma wfd_nil n : wfd n [].
Proof. apply wfd_iff. split; [constructor|intros ? ? []]. Qed.

Lemma wfd_at n p : forall r d, wfd n r -> dict_at r p = Some d -> wfd n d.
Proof.
  induction p as [|m p IH]; cbn; intros r d H E; [inversion E; subst; exact H|].
  destruct (dlookup m r) as [[v|c]|] eqn:L; try discriminate.
  destruct (wfd_lookup _ _ _ _ H L) as (_ & _ & W). exact (IH _ _ W E).
Qed.

Lemma wfd_put n p : forall r d d',
  wfd n r -> dict_at r p = Some d -> wfd n d' -> wfd n (dict_put r p d').
Proof.
  induction p as [|m p IH]; cbn; intros r d d' H E H'; [exact H'|].
  destruct (dlookup m r) as [[v|c]|] eqn:L; try discriminate.
  destruct (wfd_lookup _ _ _ _ H L) as (A & B & W).
  apply wfd_dset; auto. exact (IH _ _ _ W E H').
Qed.

(** ** Paths *)

Lemma registered_cons n q d :
  registered d (n :: q) =
  match q with
  | [] => match dlookup n d with Some (EVar v) => Some v | _ => None end
  | _ => match dlookup n d with Some (EScope c) => registered c q | _ => None end
  end.
Proof. destruct q; reflexivity. Qed.

Lemma registered_at p : forall r d q,
  dict_at r p = Some d -> q <> [] -> registered r (p ++ q) = registered d q.
Proof.
  induction p as [|m p IH]; intros r d q E Hq; cbn [dict_at] in E.
  - inversion E; subst; reflexivity.
  - destruct (dlookup m r) as [[v|c]|] eqn:L; try discriminate.
    change ((m :: p) ++ q) with (m :: (p ++ q)). rewrite registered_cons, L.
    destruct (p ++ q) as [|a b] eqn:Epq.
    + apply app_eq_nil in Epq as [_ ->]. congruence.
    + rewrite <- Epq. now apply IH.
Qed.

Lemma registered_scope p : forall r d, dict_at r p = Some d -> registered r p = None.
Proof.
  induction p as [|m p IH]; intros r d E; [reflexivity|].
  cbn [dict_at] in E. destruct (dlookup m r) as [[v|c]|] eqn:L; try discriminate.
  rewrite registered_cons, L. destruct p; [reflexivity|]. eauto.
Qed.

Lemma dict_at_app p : forall r q,
  dict_at r (p ++ q) = match dict_at r p with Some d => dict_at d q | None => None end.
Proof.
  induction p as [|m p IH]; cbn; intros r q; [reflexivity|].
  destruct (dlookup m r) as [[v|c]|]; auto.
Qed.

Lemma dict_at_put p : forall r d d' ,
  dict_at r p = Some d -> dict_at (dict_put r p d') p = Some d'.
Proof.
  induction p as [|m p IH]; cbn; intros r d d' E; [reflexivity|].
  destruct (dlookup m r) as [[v|c]|] eqn:L; try discriminate.
  rewrite dlookup_dset_same. eauto.
Qed.

Lemma registered_put_in p r d d' q :
  dict_at r p = Some d -> q <> [] -> registered (dict_put r p d') (p ++ q) = registered d' q.
Proof. intros E Hq. apply registered_at; [eapply dict_at_put; eauto|exact Hq]. Qed.

Lemma registered_put_out p : forall r d d' q,
  dict_at r p = Some d -> ~ strictly_below p q -> registered (dict_put r p d') q = registered r q.
Proof.
  induction p as [|m p IH]; intros r d d' q E Hq.
  - destruct q as [|a q]; [reflexivity|]. exfalso; apply Hq. exists a, q; reflexivity.
  - cbn [dict_at] in E. cbn [dict_put].
    destruct (dlookup m r) as [[v|c]|] eqn:L; try discriminate.
    destruct q as [|a q]; [reflexivity|].
    rewrite !registered_cons.
    destruct (string_dec m a) as [<-|Hne].
    + rewrite dlookup_dset_same, L. destruct q as [|b q]; [reflexivity|].
      apply (IH _ _ _ _ E). intros (x & y & Hxy). apply Hq. exists x, y. now rewrite Hxy.
    + rewrite dlookup_dset_other by exact Hne. reflexivity.
Qed.

Lemma dict_at_put_out p : forall r d d' q,
  dict_at r p = Some d -> ~ strictly_below p q -> dict_at r q <> None ->
  dict_at (dict_put r p d') q <> None.
Proof.
  induction p as [|m p IH]; intros r d d' q E Hq Hat.
  - destruct q as [|a q]; [cbn; discriminate|]. exfalso; apply Hq. exists a, q; reflexivity.
  - cbn [dict_at] in E. cbn [dict_put].
    destruct (dlookup m r) as [[v|c]|] eqn:L; try discriminate.
    destruct q as [|a q]; [discriminate|]. cbn [dict_at] in *.
    destruct (string_dec m a) as [<-|Hne].
    + rewrite dlookup_dset_same. rewrite L in Hat.
      eapply IH; eauto. intros (x & y & Hxy). apply Hq. exists x, y. now rewrite Hxy.
    + rewrite dlookup_dset_other by exact Hne. exact Hat.
Qed.

Definition Iso (c : list string) (r r' : dict) : Prop :=
  forall q, ~ strictly_below c q ->
            registered r' q = registered r q /\ (dict_at r q <> None -> dict_at r' q <> None).

Lemma Iso_refl c r : Iso c r r.
Proof. intros q _. split; [reflexivity|auto]. Qed.

Lemma Iso_trans c r1 r2 r3 : Iso c r1 r2 -> Iso c r2 r3 -> Iso c r1 r3.
Proof.
  intros A B q Hq. destruct (A q Hq) as [A1 A2]. destruct (B q Hq) as [B1 B2].
  split; [congruence|auto].
Qed.

Lemma below_app c x q : strictly_below (c ++ x) q -> strictly_below c q.
Proof.
  intros (n & t & ->). destruct x as [|a x].
  - rewrite app_nil_r. exists n, t. reflexivity.
  - exists a, (x ++ n :: t). now rewrite <- app_assoc.
Qed.

Lemma Iso_weaken c x r r' : Iso (c ++ x) r r' -> Iso c r r'.
Proof. intros A q Hq. apply A. intros H. apply Hq. eapply below_app; eauto. Qed.

Lemma not_below_prefix c x : ~ strictly_below (c ++ x) c.
Proof.
  intros (n & t & H). assert (length c = length ((c ++ x) ++ n :: t)) by congruence.
  rewrite !app_length in *. cbn in *. lia.
Qed.

Lemma Iso_put p r d d' : dict_at r p = Some d -> Iso p r (dict_put r p d').
Proof.
  intros E q Hq. split; [eapply registered_put_out; eauto|intros; eapply dict_at_put_out; eauto].
Qed.

(** ** Entering scopes *)

Definition keep (r r' : dict) : Prop :=
  (forall q, registered r' q = registered r q) /\
  (forall q, dict_at r q <> None -> dict_at r' q <> None).

Lemma keep_refl r : keep r r.  Proof. split; auto. Qed.
Lemma keep_trans a b c : keep a b -> keep b c -> keep a c.
Proof. intros [A B] [C D]. split; [congruence|auto]. Qed.
Lemma keep_Iso c r r' : keep r r' -> Iso c r r'.
Proof. intros [A B] q _. split; auto. Qed.

Lemma below_dec p q : {q' | q = p ++ q' /\ q' <> []} + {~ strictly_below p q}.
Proof.
  revert q. induction p as [|a p IH]; intros q.
  - destruct q as [|b q]; [right; intros (n & t & H); discriminate|].
    left. exists (b :: q). split; [reflexivity|discriminate].
  - destruct q as [|b q]; [right; intros (n & t & H); discriminate|].
    destruct (string_dec a b) as [->|Hne].
    + destruct (IH q) as [[q' [-> Hq]]|Hn].
      * left. exists q'. auto.
      * right. intros (n & t & H). apply Hn. exists n, t. now inversion H.
    + right. intros (n & t & H). inversion H. congruence.
Qed.

Lemma keep_put p r d d' :
  dict_at r p = Some d ->
  (forall q, q <> [] -> registered d' q = registered d q) ->
  (forall q, dict_at d q <> None -> dict_at d' q <> None) ->
  keep r (dict_put r p d').
Proof.
  intros E H1 H2. split; intros q.
  - destruct (below_dec p q) as [[q' [-> Hq]]|Hn].
    + rewrite (registered_put_in _ _ _ _ _ E Hq), (registered_at _ _ _ _ E Hq). auto.
    + eapply registered_put_out; eauto.
  - intros Hat. destruct (below_dec p q) as [[q' [-> Hq]]|Hn].
    + rewrite dict_at_app in *. rewrite E in Hat. rewrite (dict_at_put _ _ _ _ E). auto.
    + eapply dict_at_put_out; eauto.
Qed.

Lemma enter_spec n names : forall r p r' o,
  wfd n r -> dict_at r p <> None -> forallb noslash names = true ->
  enter r p names = (r', o) ->
  keep r r' /\ wfd n r' /\
  match o with
  | Ok p' => p' = p ++ filter nonempty names /\ dict_at r' p' <> None
  | Exn e => e = AssertionError
  end.
Proof.
  induction names as [|m ns IH]; intros r p r' o W Hat Hns E; cbn [enter] in E.
  - inversion E; subst. split; [apply keep_refl|]. split; [exact W|]. split; [cbn; now rewrite app_nil_r|exact Hat].
  - cbn in Hns. apply andb_true_iff in Hns as [Hm Hns].
    destruct (String.eqb_spec m "") as [->|Hne].
    + destruct (IH _ _ _ _ W Hat Hns E) as (A & B & C). split; [exact A|]. split; [exact B|]. exact C.
    + assert (Hf : filter nonempty (m :: ns) = m :: filter nonempty ns).
      { cbn [filter]. unfold nonempty at 1. destruct (String.eqb_spec m ""); [congruence|reflexivity]. }
      rewrite Hf.
      destruct (dict_at r p) as [d|] eqn:Ed; [|congruence].
      assert (Wd := wfd_at _ _ _ _ W Ed).
      assert (step : forall c, (dlookup m d = None /\ c = [] \/ dlookup m d = Some (EScope c)) ->
        enter (dict_put r p (dset m (EScope c) d)) (p ++ [m]) ns = (r', o) ->
        keep r r' /\ wfd n r' /\
        match o with
        | Ok p' => p' = p ++ m :: filter nonempty ns /\ dict_at r' p' <> None
        | Exn e => e = AssertionError
        end).
      { intros c Hc E'.
        assert (Wc : wfd n c).
        { destruct Hc as [[_ ->]|Hc]; [apply wfd_nil|]. now destruct (wfd_lookup _ _ _ _ Wd Hc) as (_ & _ & ?). }
        assert (K : keep r (dict_put r p (dset m (EScope c) d))).
        { apply (keep_put _ _ d); [exact Ed| |].
          - intros q Hq. destruct q as [|a q]; [congruence|]. rewrite !registered_cons.
            destruct (string_dec m a) as [<-|Hma].
            + rewrite dlookup_dset_same. destruct Hc as [[Hc ->]|Hc]; rewrite Hc.
              * destruct q as [|b q]; [reflexivity|]. destruct q; reflexivity.
              * reflexivity.
            + rewrite dlookup_dset_other by exact Hma. reflexivity.
          - intros q Hq. destruct q as [|a q]; [discriminate|]. cbn [dict_at] in *.
            destruct (string_dec m a) as [<-|Hma].
            + rewrite dlookup_dset_same. destruct Hc as [[Hc ->]|Hc]; rewrite Hc in Hq; auto.
            + rewrite dlookup_dset_other by exact Hma. exact Hq. }
        assert (W' : wfd n (dict_put r p (dset m (EScope c) d))).
        { eapply wfd_put; eauto. apply wfd_dset; auto. }
        assert (At : dict_at (dict_put r p (dset m (EScope c) d)) (p ++ [m]) <> None).
        { rewrite dict_at_app, (dict_at_put _ _ _ _ Ed). cbn. rewrite dlookup_dset_same. discriminate. }
        destruct (IH _ _ _ _ W' At Hns E') as (A & B & C).
        split; [eapply keep_trans; eauto|]. split; [exact B|].
        destruct o; [|exact C]. destruct C as [-> C]. rewrite <- app_assoc in *. auto. }
      destruct (dlookup m d) as [[v|c]|] eqn:L.
      * inversion E; subst. split; [apply keep_refl|]. split; [exact W|reflexivity].
      * apply (step c); auto.
      * apply (step []); auto.
Qed.

(** ** Global invariant *)

Definition Inv (s : st) : Prop :=
  wfd (length (heap s)) (root s) /\ dict_at (root s) (cur s) <> None /\
  Forall (fun x => vstore x < length (store s)) (heap s).

Definition Grow (s s' : st) : Prop :=
  length (heap s) <= length (heap s') /\
  (exists t, store s' = store s ++ t) /\
  (forall v x, nth_error (heap s) v = Some x ->
     exists x', nth_error (heap s') v = Some x' /\ vshape x' = vshape x /\ vstore x' = vstore x).

Lemma Grow_refl s : Grow s s.
Proof. split; [lia|]. split; [exists []; now rewrite app_nil_r|]. intros v x H; exists x; auto. Qed.
Lemma Grow_trans a b c : Grow a b -> Grow b c -> Grow a c.
Proof.
  intros (A1 & [t1 A2] & A3) (B1 & [t2 B2] & B3). split; [lia|]. split.
  - exists (t1 ++ t2). rewrite B2, A2. now rewrite app_assoc.
  - intros v x H. destruct (A3 _ _ H) as (x' & H' & ? & ?).
    destruct (B3 _ _ H') as (x'' & ? & ? & ?). exists x''. repeat split; auto; congruence.
Qed.

(** The contract every operation satisfies. *)
Definition Good (s s' : st) : Prop :=
  Inv s' /\ cur s' = cur s /\ nograd s' = nograd s /\ Iso (cur s) (root s) (root s') /\ Grow s s'.

Lemma Good_refl s : Inv s -> Good s s.
Proof. intros H. repeat split; auto; try apply Iso_refl; try apply Grow_refl; try apply H. Qed.
Lemma Good_trans a b c : Good a b -> Good b c -> Good a c.
Proof.
  intros (A1 & A2 & A3 & A4 & A5) (B1 & B2 & B3 & B4 & B5).
  split; [exact B1|]. split; [congruence|]. split; [congruence|].
  split; [|eapply Grow_trans; eauto].
  rewrite A2 in B4. eapply Iso_trans; eauto.
Qed.

Lemma with_scope_Good {A} s names (body : st -> st * res A) s' o :
  Inv s -> forallb noslash names = true ->
  (forall s1 s2 o', Inv s1 -> body s1 = (s2, o') -> Good s1 s2) ->
  with_scope s names body = (s', o) -> Good s s'.
Proof.
  intros (I1 & I2 & I3) Hn Hb E. unfold with_scope in E.
  destruct (enter (root s) (cur s) names) as [r [p|e]] eqn:En;
    destruct (enter_spec _ _ _ _ _ _ I1 I2 Hn En) as (K & W & R).
  - destruct R as [Hp R].
    destruct (body (with_cur (with_root s r) p)) as [s1 o1] eqn:Eb.
    inversion E; subst s' o1; clear E.
    assert (J : Inv (with_cur (with_root s r) p)) by (split; [exact W|split; [exact R|exact I3]]).
    destruct (Hb _ _ _ J Eb) as ((B1 & B2 & B3) & C & D & F & G). cbn in *.
    assert (F' : Iso (cur s) (root s) (root s1)).
    { eapply Iso_trans; [apply keep_Iso; exact K|]. apply (Iso_weaken _ (filter nonempty names)). rewrite <- Hp. exact F. }
    assert (At : dict_at (root s1) (cur s) <> None).
    { destruct (F' (cur s)) as [_ H]; [|apply H; exact I2].
      rewrite <- (app_nil_r (cur s)) at 1. apply not_below_prefix. }
    split; [split; [exact B1|split; [exact At|exact B3]]|].
    split; [reflexivity|]. split; [exact D|]. split; [exact F'|exact G].
  - inversion E; subst; clear E.
    split; [split; [exact W|split; [cbn; now apply K|exact I3]]|].
    split; [reflexivity|]. split; [reflexivity|]. split; [now apply keep_Iso|apply (Grow_refl s)].
Qed.

Lemma get_names_Good names : forall s s' o,
  Inv s -> forallb noslash names = true -> get_names s names = (s', o) -> Good s s'.
Proof.
  induction names as [|k rest IH]; intros s s' o I Hn E.
  - cbn in E; inversion E; subst; now apply Good_refl.
  - destruct rest as [|k2 rest].
    + cbn in E. destruct (dict_at (root s) (cur s)) as [d|]; [|inversion E; subst; now apply Good_refl].
      destruct (dlookup k d) as [[|]|]; inversion E; subst; now apply Good_refl.
    + cbn [forallb] in Hn. apply andb_true_iff in Hn as [Hk Hr].
      change (get_names s (k :: k2 :: rest))
        with (with_scope s [k] (fun s1 => get_names s1 (k2 :: rest))) in E.
      eapply with_scope_Good in E; eauto. cbn. now rewrite Hk.
Qed.

Lemma put_Good s d d' :
  Inv s -> dict_at (root s) (cur s) = Some d -> wfd (length (heap s)) d' ->
  Good s (with_root s (dict_put (root s) (cur s) d')).
Proof.
  intros (I1 & I2 & I3) E W. split.
  - split; [eapply wfd_put; eauto|]. split; [|exact I3]. cbn. erewrite dict_at_put; eauto. discriminate.
  - split; [reflexivity|]. split; [reflexivity|]. split; [eapply Iso_put; eauto|apply (Grow_refl s)].
Qed.

Lemma pop_names_Good names : forall s s' o,
  Inv s -> forallb noslash names = true -> pop_names s names = (s', o) -> Good s s'.
Proof.
  induction names as [|k rest IH]; intros s s' o I Hn E.
  - cbn in E; inversion E; subst; now apply Good_refl.
  - destruct rest as [|k2 rest].
    + cbn in E. destruct (dict_at (root s) (cur s)) as [d|] eqn:Ed; [|inversion E; subst; now apply Good_refl].
      destruct (dlookup k d) as [e|]; inversion E; subst; [|now apply Good_refl].
      eapply put_Good; eauto. apply wfd_ddel. eapply wfd_at; eauto. apply I.
    + cbn [forallb] in Hn. apply andb_true_iff in Hn as [Hk Hr].
      change (pop_names s (k :: k2 :: rest))
        with (with_scope s [k] (fun s1 => pop_names s1 (k2 :: rest))) in E.
      eapply with_scope_Good in E; eauto. cbn. now rewrite Hk.
Qed.

Lemma Grow_heap s s' : Grow s s' -> length (heap s) <= length (heap s').
Proof. intros H; apply H. Qed.

Lemma with_scope_Good' {A} s names (body : st -> st * res A) s' o n :
  Inv s -> forallb noslash names = true -> n <= length (heap s) ->
  (forall s1 s2 o', Inv s1 -> n <= length (heap s1) -> body s1 = (s2, o') -> Good s1 s2) ->
  with_scope s names body = (s', o) -> Good s s'.
Proof.
  intros I Hn Hle Hb E.
  eapply (with_scope_Good s names (fun s1 => if Nat.leb n (length (heap s1)) then body s1 else (s1, o))); eauto.
  - intros s1 s2 o' I1. destruct (Nat.leb_spec n (length (heap s1))).
    + intros; eapply Hb; eauto.
    + intros X; inversion X; subst. now apply Good_refl.
  - unfold with_scope in *. destruct (enter (root s) (cur s) names) as [r [p|e]]; [|exact E].
    cbn. destruct (Nat.leb_spec n (length (heap s))); [|lia]. exact E.
Qed.

Lemma set_names_Good names v : forall s s' o,
  Inv s -> v < length (heap s) -> forallb noslash names = true ->
  set_names s names v = (s', o) -> Good s s'.
Proof.
  induction names as [|k rest IH]; intros s s' o I Hv Hn E.
  - cbn in E; inversion E; subst; now apply Good_refl.
  - destruct rest as [|k2 rest].
    + cbn in E. destruct (dict_at (root s) (cur s)) as [d|] eqn:Ed; [|inversion E; subst; now apply Good_refl].
      inversion E; subst. eapply put_Good; eauto.
      cbn in Hn. apply andb_true_iff in Hn as [Hk _].
      apply wfd_dset; auto; [|discriminate]. eapply wfd_at; eauto. apply I.
    + cbn [forallb] in Hn. apply andb_true_iff in Hn as [Hk Hr].
      change (set_names s (k :: k2 :: rest) v)
        with (with_scope s [k] (fun s1 => set_names s1 (k2 :: rest) v)) in E.
      eapply (with_scope_Good' _ _ _ _ _ (S v)) in E; eauto. cbn. now rewrite Hk.
Qed.

Lemma heap_upd_length h : forall v x, length (heap_upd h v x) = length h.
Proof. induction h as [|y h IH]; intros [|v] x; cbn; auto. Qed.

Lemma heap_upd_nth h : forall v x w,
  nth_error (heap_upd h v x) w =
  if Nat.eqb v w then match nth_error h v with Some _ => Some x | None => None end else nth_error h w.
Proof.
  induction h as [|y h IH]; intros [|v] x [|w]; cbn; auto.
  - destruct (Nat.eqb v w); reflexivity.
Qed.

Lemma heap_upd_Forall h (P : var -> Prop) : forall v x, Forall P h -> P x -> Forall P (heap_upd h v x).
Proof. induction h as [|y h IH]; intros [|v] x Hf Hx; cbn; auto; inversion Hf; subst; constructor; auto. Qed.

Lemma goc_names_Good names sh i need an : forall s s' o,
  Inv s -> forallb noslash names = true ->
  goc_names s names sh i need an = (s', o) -> Good s s'.
Proof.
  induction names as [|k rest IH]; intros s s' o I Hn E.
  - cbn in E; inversion E; subst; now apply Good_refl.
  - destruct rest as [|k2 rest].
    + cbn [goc_names] in E.
      destruct (get_names s [k]) as [s1 r1] eqn:Eg.
      assert (G1 : Good s s1) by (eapply get_names_Good; eauto).
      assert (I1 := proj1 G1).
      destruct r1 as [[v|]|e]; [| |inversion E; subst; exact G1].
      * destruct (nth_error (heap s1) v) as [x|] eqn:Ev; [|inversion E; subst; exact G1].
        destruct sh as [sh|]; [|inversion E; subst; exact G1].
        destruct (list_eq_dec Z.eq_dec (vshape x) sh); [|inversion E; subst; exact G1].
        destruct (Bool.eqb need (vneed x)); [inversion E; subst; exact G1|].
        set (x' := {| vshape := vshape x; vneed := need; vstore := vstore x |}) in *.
        set (s2 := with_heap s1 (heap_upd (heap s1) v x')) in *.
        assert (G2 : Good s1 s2).
        { destruct I1 as (J1 & J2 & J3). split; [|split; [reflexivity|split; [reflexivity|split; [apply Iso_refl|]]]].
          - split; [cbn; now rewrite heap_upd_length|]. split; [exact J2|]. cbn.
            apply heap_upd_Forall; [exact J3|]. cbn. rewrite Forall_forall in J3. apply J3.
            eapply nth_error_In; eauto.
          - split; [cbn; now rewrite heap_upd_length|]. split; [exists []; cbn; now rewrite app_nil_r|].
            intros w y Hy. cbn. rewrite heap_upd_nth. destruct (Nat.eqb_spec v w) as [<-|].
            + rewrite Ev in Hy. inversion Hy; subst y. rewrite Ev. exists x'. auto.
            + exists y; auto. }
        destruct (set_names s2 [k] v) as [s3 r3] eqn:Es.
        assert (G3 : Good s2 s3).
        { eapply set_names_Good; eauto; [apply G2|]. cbn. rewrite heap_upd_length.
          apply nth_error_Some. congruence. }
        destruct r3; inversion E; subst;
          (eapply Good_trans; [exact G1|]; eapply Good_trans; [exact G2|exact G3]).
      * destruct (create_by_initializer i sh) as [[sh' c]|e]; [|inversion E; subst; exact G1].
        match type of E with context [set_names ?S2 _ _] => set (s2 := S2) in * end.
        assert (G2 : Good s1 s2).
        { destruct I1 as (J1 & J2 & J3). split; [|split; [reflexivity|split; [reflexivity|split; [apply Iso_refl|]]]].
          - split; [cbn; rewrite app_length; eapply wfe_mono; [|exact J1]; lia|]. split; [exact J2|]. cbn.
            apply Forall_app. rewrite app_length. cbn. split.
            + eapply Forall_impl; [|exact J3]. cbn. intros; lia.
            + constructor; [cbn; lia|constructor].
          - split; [cbn; rewrite app_length; lia|]. split; [eexists; reflexivity|].
            intros w y Hy. cbn. exists y. rewrite nth_error_app1; [auto|]. apply nth_error_Some. congruence. }
        destruct (set_names s2 [k] (length (heap s1))) as [s3 r3] eqn:Es.
        assert (G3 : Good s2 s3).
        { eapply set_names_Good; eauto; [apply G2|]. cbn. rewrite app_length. cbn. lia. }
        destruct r3; inversion E; subst;
          (eapply Good_trans; [exact G1|]; eapply Good_trans; [exact G2|exact G3]).
    + cbn [forallb] in Hn. apply andb_true_iff in Hn as [Hk Hr].
      change (goc_names s (k :: k2 :: rest) sh i need an)
        with (with_scope s [k] (fun s1 => goc_names s1 (k2 :: rest) sh i need an)) in E.
      eapply with_scope_Good in E; eauto. cbn. now rewrite Hk.
Qed.

(** ** Strings *)

Lemma split_noslash s : forallb noslash (split_slash s) = true.
Proof.
  induction s as [|c s IH]; [reflexivity|]. cbn [split_slash].
  destruct (Ascii.eqb c "/") eqn:Ec; [cbn; exact IH|].
  destruct (split_slash s) as [|h t]; cbn in *; rewrite Ec; cbn; auto.
Qed.

Lemma split_nonnil s : split_slash s <> [].
Proof.
  destruct s as [|c s]; cbn; [discriminate|].
  destruct (Ascii.eqb c "/"); [discriminate|]. destruct (split_slash s); discriminate.
Qed.

Lemma scope_names_noslash n : forallb noslash (scope_names n) = true.
Proof. apply split_noslash. Qed.

(** ** Clearing *)

Lemma fold_ddel_wf n ks : forall d, wfd n d -> wfd n (fold_left (fun d' k => ddel k d') ks d).
Proof. induction ks as [|k ks IH]; cbn; intros d W; [exact W|]. apply IH. now apply wfd_ddel. Qed.

Lemma ddel_head k x d : ddel k ((k, x) :: d) = d.
Proof. cbn. now rewrite String.eqb_refl. Qed.

Lemma fold_ddel_all : forall d, fold_left (fun d' k => ddel k d') (map fst d) d = [].
Proof.
  induction d as [|[k x] d IH]; [reflexivity|].
  cbn [map fst fold_left]. rewrite ddel_head. exact IH.
Qed.

Lemma clear_Good s : Inv s -> Good s (clear_parameters s).
Proof.
  intros I. unfold clear_parameters.
  destruct (dict_at (root s) (cur s)) as [d|] eqn:Ed; [|now apply Good_refl].
  eapply put_Good; eauto. rewrite fold_ddel_all. apply wfd_nil.
Qed.

Lemma new_Good s sh n c : Inv s -> Good s (fst (new_variable s sh n c)).
Proof.
  intros (J1 & J2 & J3). split; [|split; [reflexivity|split; [reflexivity|split; [apply Iso_refl|]]]].
  - split; [cbn; rewrite app_length; eapply wfe_mono; [|exact J1]; lia|]. split; [exact J2|]. cbn.
    apply Forall_app. rewrite app_length. cbn. split.
    + eapply Forall_impl; [|exact J3]. cbn. intros; lia.
    + constructor; [cbn; lia|constructor].
  - split; [cbn; rewrite app_length; lia|]. split; [eexists; reflexivity|].
    intros w y Hy. cbn. exists y. rewrite nth_error_app1; [auto|]. apply nth_error_Some. congruence.
Qed.

(** ** Programs *)

Lemma cmd_ind' (P : cmd -> Prop) :
  (forall s n z, P (CNew s n z)) -> (forall k v, P (CSet k v)) -> (forall k, P (CGet k)) ->
  (forall k, P (CPop k)) -> (forall n s i d a, P (CGoc n s i d a)) -> (forall b, P (CGetAll b)) ->
  P CClear -> P CRaise ->
  (forall n b, Forall P b -> P (CScope n b)) ->
  (forall x b, Forall P b -> P (CNoGrad x b)) ->
  (forall b, Forall P b -> P (CTry b)) ->
  forall c, P c.
Proof.
  intros H1 H2 H3 H4 H5 H6 H7 H8 H9 H10 H11. fix IH 1.
  assert (L : forall b, Forall P b).
  { induction b as [|c b IHb]; constructor; [apply IH|exact IHb]. }
  intros [s n z|k v|k|k|n s i d a|b| | |n b|x b|b];
    [apply H1|apply H2|apply H3|apply H4|apply H5|apply H6|apply H7|apply H8|apply H9|apply H10|apply H11]; apply L.
Qed.

Lemma exec_CScope s n b : exec s (CScope n b) = with_scope s (scope_names n) (fun s' => exec_list s' b).
Proof.
  cbn [exec]. unfold with_scope.
  destruct (enter (root s) (cur s) (scope_names n)) as [r [p|e]]; [|reflexivity].
  match goal with |- context [?F (with_cur _ _) b] => set (f := F) end.
  assert (H : forall cs st0, f st0 cs = exec_list st0 cs).
  { induction cs as [|c cs IH]; intros st0; cbn; [reflexivity|].
    destruct (exec st0 c) as [? [|]]; auto. }
  now rewrite H.
Qed.

Lemma exec_CNoGrad s x b :
  exec s (CNoGrad x b) =
  (let (s', o) := exec_list (with_nograd s x) b in (with_nograd s' (nograd s), o)).
Proof.
  cbn [exec].
  match goal with |- context [?F (with_nograd _ _) b] => set (f := F) end.
  assert (H : forall cs st0, f st0 cs = exec_list st0 cs).
  { induction cs as [|c cs IH]; intros st0; cbn; [reflexivity|].
    destruct (exec st0 c) as [? [|]]; auto. }
  now rewrite H.
Qed.

Lemma exec_CTry s b : exec s (CTry b) = (fst (exec_list s b), Ok tt).
Proof.
  cbn [exec].
  match goal with |- context [?F s b] => set (f := F) end.
  assert (H : forall cs st0, f st0 cs = exec_list st0 cs).
  { induction cs as [|c cs IH]; intros st0; cbn; [reflexivity|].
    destruct (exec st0 c) as [? [|]]; auto. }
  rewrite H. destruct (exec_list s b); reflexivity.
Qed.

Lemma ret_unit_fst {A} (x : st * res A) s o : ret_unit x = (s, o) -> exists o', x = (s, o').
Proof. destruct x as [s1 [a|e]]; cbn; intros H; inversion H; subst; eauto. Qed.

Definition list_good (b : list cmd) : Prop :=
  forall s s' o, Inv s -> exec_list s b = (s', o) -> Good s s'.

Lemma exec_Good c : forall s s' o, Inv s -> exec s c = (s', o) -> Good s s'.
Proof.
  assert (LG : forall b, Forall (fun c => forall s s' o, Inv s -> exec s c = (s', o) -> Good s s') b ->
                         list_good b).
  { clear c. induction 1 as [|c b Hc Hb IH]; intros s s' o I E; cbn in E.
    - inversion E; subst; now apply Good_refl.
    - destruct (exec s c) as [s1 [u|e]] eqn:E1.
      + specialize (Hc _ _ _ I E1). eapply Good_trans; [exact Hc|]. eapply IH; eauto. apply Hc.
      + inversion E; subst. eauto. }
  induction c as [sh n z|k v|k|k|n sh i d a|b| | |n b Hb|x b Hb|b Hb] using cmd_ind';
    intros s s' o I E.
  - cbn [exec] in E. inversion E; subst. now apply new_Good.
  - cbn [exec] in E. destruct (Nat.ltb_spec v (length (heap s))).
    + eapply set_names_Good; eauto. apply split_noslash.
    + inversion E; subst. now apply Good_refl.
  - cbn [exec] in E. apply ret_unit_fst in E as [o' E]. eapply get_names_Good; eauto. apply split_noslash.
  - cbn [exec] in E. apply ret_unit_fst in E as [o' E]. eapply pop_names_Good; eauto. apply split_noslash.
  - cbn [exec] in E. apply ret_unit_fst in E as [o' E]. eapply goc_names_Good; eauto. apply split_noslash.
  - cbn in E. inversion E; subst. now apply Good_refl.
  - cbn in E. inversion E; subst. now apply clear_Good.
  - cbn in E. inversion E; subst. now apply Good_refl.
  - rewrite exec_CScope in E. eapply with_scope_Good in E; eauto; [apply scope_names_noslash|].
    intros. eapply LG; eauto.
  - rewrite exec_CNoGrad in E. destruct (exec_list (with_nograd s x) b) as [s1 o1] eqn:E1.
    inversion E; subst; clear E.
    specialize (LG b Hb (with_nograd s x) s1 o I E1).
    destruct LG as ((A1 & A2 & A3) & B & C & D & F). cbn in *.
    split; [split; [exact A1|split; [exact A2|exact A3]]|].
    split; [exact B|]. split; [reflexivity|]. split; [exact D|exact F].
  - rewrite exec_CTry in E. inversion E; subst. destruct (exec_list s b) as [s1 o1] eqn:E1.
    cbn. eapply LG; eauto.
Qed.

Lemma exec_list_Good b : list_good b.
Proof.
  induction b as [|c b IH]; intros s s' o I E; cbn in E.
  - inversion E; subst; now apply Good_refl.
  - destruct (exec s c) as [s1 [u|e]] eqn:E1.
    + assert (Hc := exec_Good _ _ _ _ I E1). eapply Good_trans; [exact Hc|]. eapply IH; eauto. apply Hc.
    + inversion E; subst. eapply exec_Good; eauto.
Qed.

Lemma reach_Inv s : reach s -> Inv s.
Proof.
  induction 1 as [|s c s' o R I E|s name r p R I E|s b R I].
  - split; [apply wfd_nil|]. split; [discriminate|constructor].
  - eapply exec_Good; eauto.
  - destruct I as (I1 & I2 & I3).
    destruct (enter_spec _ _ _ _ _ _ I1 I2 (scope_names_noslash name) E) as (K & W & P).
    split; [exact W|]. split; [apply P|exact I3].
  - exact I.
Qed.
