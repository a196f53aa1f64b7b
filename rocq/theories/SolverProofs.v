From Coq Require Import String Ascii List Bool Arith ZArith Lia Permutation.
From Verif Require Import Assoc SolverModel SolverSpec.
Import ListNotations.
Local Open Scope string_scope.
Local Open Scope list_scope.

(** ** Frame facts *)
Lemma skind_remove_state s k : skind (remove_state_impl s k) = skind s.
Proof. unfold remove_state_impl. destruct (erases (skind s)); reflexivity. Qed.
Lemma params_remove_state s k : params (remove_state_impl s k) = params s.
Proof. unfold remove_state_impl. destruct (erases (skind s)); reflexivity. Qed.
Lemma rate_remove_state s k : rate (remove_state_impl s k) = rate s.
Proof. unfold remove_state_impl. destruct (erases (skind s)); reflexivity. Qed.

Lemma states_remove_state s k x :
  aget x (states (remove_state_impl s k)) =
  if erases (skind s) && String.eqb x k then None else aget x (states s).
Proof.
  unfold remove_state_impl. destruct (erases (skind s)); cbn; auto.
  rewrite aget_aerase. destruct (String.eqb x k); auto.
Qed.

Lemma fold_remove_state l : forall s,
  skind (fold_left remove_state_impl l s) = skind s /\
  params (fold_left remove_state_impl l s) = params s /\
  rate (fold_left remove_state_impl l s) = rate s /\
  forall x, aget x (states (fold_left remove_state_impl l s)) =
    if erases (skind s) && existsb (String.eqb x) l then None else aget x (states s).
Proof.
  induction l as [|a l IH]; intros s; cbn.
  - repeat split; auto. intros x. now rewrite andb_false_r.
  - destruct (IH (remove_state_impl s a)) as (H1 & H2 & H3 & H4).
    rewrite H1, H2, H3, skind_remove_state, params_remove_state, rate_remove_state.
    repeat split; auto. intros x. rewrite H4, skind_remove_state, states_remove_state.
    destruct (erases (skind s)); cbn; auto.
    destruct (String.eqb x a); cbn; auto.
    destruct (existsb (String.eqb x) l); auto.
Qed.

Lemma existsb_eqb x l : existsb (String.eqb x) l = true <-> In x l.
Proof.
  rewrite existsb_exists. split.
  - intros (y & H & E). apply String.eqb_eq in E. now subst.
  - intros H. exists x. split; auto. apply String.eqb_refl.
Qed.

(** ** Invariant of reachable solvers *)
Record inv (k : kind) (s : solver) : Prop := {
  inv_kind : skind s = k;
  inv_np : NoDup (akeys (params s));
  inv_ns : NoDup (akeys (states s));
  inv_sub : forall x, In x (akeys (params s)) -> In x (akeys (states s));
  inv_eq : erases k = true -> forall x, In x (akeys (states s)) -> In x (akeys (params s));
  inv_names : forall key st, aget key (states s) = Some st ->
     NoDup (akeys (pstate st)) /\
     forall n, In n (akeys (pstate st)) <-> In n (state_names k);
  inv_rate : fused k = false -> rate s = default_rate k
}.

Lemma nodup_remove_state s k :
  NoDup (akeys (states s)) -> NoDup (akeys (states (remove_state_impl s k))).
Proof.
  unfold remove_state_impl. destruct (erases (skind s)); auto. apply nodup_aerase.
Qed.
Lemma nodup_fold_remove l : forall s,
  NoDup (akeys (states s)) -> NoDup (akeys (states (fold_left remove_state_impl l s))).
Proof.
  induction l; cbn; auto. intros. apply IHl. now apply nodup_remove_state.
Qed.

Lemma akeys_fresh k v : akeys (pstate (fresh_state k v)) = state_names k.
Proof. unfold fresh_state; cbn. unfold akeys. rewrite map_map. cbn. apply map_id. Qed.

Lemma aget_map_const (f : string -> arr) l n :
  aget n (map (fun n => (n, f n)) l) = if existsb (String.eqb n) l then Some (f n) else None.
Proof.
  induction l as [|a l IH]; cbn; auto.
  destruct (String.eqb_spec n a); cbn; subst; auto.
Qed.

Lemma fresh_initial k v : initial_state k v (fresh_state k v).
Proof.
  unfold initial_state, fresh_state; cbn. split; [auto|split]; intros n H;
    rewrite (aget_map_const (fun _ => mkArr (vshape v) (repeat 0%Z (size_of (vshape v))))).
  - apply existsb_eqb in H. now rewrite H.
  - destruct (existsb (String.eqb n) (state_names k)) eqn:E; auto.
    apply existsb_eqb in E. tauto.
Qed.

Lemma inv_clear k s : inv k s -> inv k (clear_parameters s).
Proof.
  intros [H1 H2 H3 H4 H5 H6 H7]. unfold clear_parameters.
  destruct (fold_remove_state (akeys (params s)) s) as (A1 & A2 & A3 & A4).
  constructor; cbn; try (intros; tauto); try congruence.
  - constructor.
  - now apply nodup_fold_remove.
  - intros He x Hx. apply aget_some in Hx as [v Hv]. rewrite A4, H1, He in Hv. cbn in Hv.
    destruct (existsb (String.eqb x) (akeys (params s))) eqn:E; [discriminate|].
    exfalso. assert (In x (akeys (params s))) as Hin by (apply H5; auto; apply aget_some; eauto).
    apply existsb_eqb in Hin. congruence.
  - intros key st Hst. rewrite A4 in Hst. destruct (erases (skind s) && _); [discriminate|].
    eauto.
  - intros. rewrite A3. auto.
Qed.

Lemma inv_remove1 k s key :
  inv k s -> inv k (remove_state_impl (with_params s (aerase key (params s))) key).
Proof.
  intros [H1 H2 H3 H4 H5 H6 H7].
  constructor.
  - now rewrite skind_remove_state.
  - rewrite params_remove_state. cbn. now apply nodup_aerase.
  - now apply nodup_remove_state.
  - intros x. rewrite params_remove_state. cbn. rewrite akeys_aerase_in. intros [Hn Hx].
    apply H4 in Hx. apply aget_some in Hx as [v Hv]. apply aget_some. exists v.
    rewrite states_remove_state. cbn. apply String.eqb_neq in Hn. now rewrite Hn, andb_false_r.
  - intros He x Hx. apply aget_some in Hx as [v Hv]. rewrite states_remove_state in Hv.
    cbn in Hv. rewrite H1, He in Hv. cbn in Hv. destruct (String.eqb_spec x key); [discriminate|].
    rewrite params_remove_state. cbn. apply akeys_aerase_in. split; auto.
    apply H5; auto. apply aget_some; eauto.
  - intros x st Hst. rewrite states_remove_state in Hst. destruct (erases _ && _); [discriminate|].
    eauto.
  - rewrite rate_remove_state. auto.
Qed.

Lemma inv_remove k keys : forall s, inv k s -> inv k (remove_parameters s keys).
Proof.
  unfold remove_parameters. induction keys; cbn; auto. intros s H. apply IHkeys. now apply inv_remove1.
Qed.

Definition add (s : solver) (key : string) (v : var) : solver :=
  set_state_impl (with_params s (ainsert key v (params s))) key v.

Lemma inv_add k s key v : NoDup (state_names k) ->
  inv k s -> inv k (add s key v).
Proof.
  intros Hnd [H1 H2 H3 H4 H5 H6 H7]. unfold add. constructor; cbn; auto.
  - now apply nodup_ainsert.
  - now apply nodup_ainsert.
  - intros x. rewrite !akeys_ainsert_in. intuition.
  - intros He x. rewrite !akeys_ainsert_in. intuition.
  - intros x st. rewrite aget_ainsert. destruct (aget x (states s)) eqn:E.
    + intros [= <-]. eauto.
    + destruct (String.eqb x key); [|discriminate]. intros [= <-].
      rewrite akeys_fresh, H1. split; [auto|reflexivity].
Qed.

(** Removing the state of a key that is then set again. *)
Lemma inv_readd k s key v : NoDup (state_names k) ->
  inv k s -> In key (akeys (params s)) -> inv k (add (remove_state_impl s key) key v).
Proof.
  intros Hnd [H1 H2 H3 H4 H5 H6 H7] Hin. unfold add. constructor; cbn.
  - now rewrite skind_remove_state.
  - rewrite params_remove_state. now apply nodup_ainsert.
  - apply nodup_ainsert. now apply nodup_remove_state.
  - intros x. rewrite params_remove_state, !akeys_ainsert_in. intros [Hx|Hx]; auto.
    destruct (String.eqb_spec x key); auto. right.
    apply H4 in Hx. apply aget_some in Hx as [w Hw]. apply aget_some. exists w.
    rewrite states_remove_state. apply String.eqb_neq in n. now rewrite n, andb_false_r.
  - intros He x. rewrite params_remove_state, !akeys_ainsert_in. intros [Hx|Hx]; auto.
    apply aget_some in Hx as [w Hw]. rewrite states_remove_state in Hw.
    destruct (erases _ && _); [discriminate|]. right. apply H5; auto. apply aget_some; eauto.
  - intros x st. rewrite aget_ainsert, states_remove_state, skind_remove_state.
    destruct (if erases (skind s) && String.eqb x key then None else aget x (states s)) eqn:E.
    + intros [= <-]. destruct (erases _ && _); [discriminate|]. eauto.
    + destruct (String.eqb x key); [|discriminate]. intros [= <-].
      rewrite akeys_fresh, H1. split; [auto|reflexivity].
  - rewrite rate_remove_state. auto.
Qed.

Lemma inv_set_loop k reset retain : NoDup (state_names k) -> forall ps s,
  inv k s -> inv k (fst (set_params_loop reset retain s ps)).
Proof.
  intros Hnd. induction ps as [|[key v] ps IH]; cbn; auto. intros s Hi.
  destruct reset.
  - apply IH. now apply inv_add.
  - destruct (aget key (params s)) as [old|] eqn:E.
    + destruct retain.
      * destruct (shape_eqb (vshape v) (vshape old)); auto.
      * apply IH. apply inv_readd; auto. apply aget_some. eauto.
    + apply IH. now apply inv_add.
Qed.

(** bump_key *)
Lemma akeys_bump k m : akeys (bump_key k m) = akeys m.
Proof.
  induction m as [|[k' st] m IH]; cbn; auto. destruct (String.eqb k k'); cbn; auto.
  unfold akeys in IH. now rewrite IH.
Qed.
Lemma aget_bump k m x :
  aget x (bump_key k m) =
  match aget x m with
  | Some st => Some (if String.eqb x k then mkState (pstate st) (bump (iter st)) else st)
  | None => None
  end.
Proof.
  induction m as [|[k' st] m IH]; cbn; auto.
  destruct (String.eqb_spec k k'); cbn.
  - subst. destruct (String.eqb_spec x k'); cbn; auto. destruct (aget x m); auto.
  - rewrite IH. destruct (String.eqb_spec x k'), (String.eqb_spec x k); auto; congruence.
Qed.
Lemma akeys_bumps l : forall m, akeys (fold_left (fun m k => bump_key k m) l m) = akeys m.
Proof. induction l; cbn; auto. intros. now rewrite IHl, akeys_bump. Qed.
Lemma aget_bumps_pstate l : forall m x st,
  aget x (fold_left (fun m k => bump_key k m) l m) = Some st ->
  exists st', aget x m = Some st' /\ pstate st = pstate st'.
Proof.
  induction l; cbn; eauto. intros m x st H. apply IHl in H as (st' & H & E).
  rewrite aget_bump in H. destruct (aget x m); [|discriminate]. injection H as <-.
  eexists; split; eauto. rewrite E. destruct (String.eqb x a); auto.
Qed.

Lemma inv_op k s o z h : inv k s -> inv k (fst (fst (run_op s o z h))).
Proof.
  intros Hi. assert (Hi' := Hi). destruct Hi as [H1 H2 H3 H4 H5 H6 H7].
  unfold run_op. destruct o; cbn [fst]; auto.
  - constructor; cbn; auto.
    + now rewrite akeys_bumps.
    + intros x. rewrite akeys_bumps. auto.
    + intros He x. rewrite akeys_bumps. auto.
    + intros key st Hst. apply aget_bumps_pstate in Hst as (st' & Hst & E). rewrite E. eauto.
    + intros _. now rewrite H1.
  - destruct (fused (skind s)) eqn:E; cbn.
    + constructor; cbn; auto. intros Hf. congruence.
    + destruct (Z.eqb r 0); auto.
  - destruct (Z.eqb norm 0); auto.
Qed.

(** set_states *)
Lemma akeys_convert sts : forall acc, akeys (convert_states acc sts) = akeys sts.
Proof. induction sts as [|[k st] sts IH]; cbn; auto. intros. f_equal. apply IH. Qed.

Lemma akeys_fold_put {B} (l : amap B) : forall acc x,
  In x (akeys (fold_left (fun a kv => aput (fst kv) (snd kv) a) l acc)) <->
  In x (akeys acc) \/ In x (akeys l).
Proof.
  induction l as [|[k v] l IH]; cbn; intros; [tauto|].
  rewrite IH, akeys_aput_in. intuition.
Qed.
Lemma nodup_fold_put {B} (l : amap B) : forall acc,
  NoDup (akeys acc) ->
  NoDup (akeys (fold_left (fun a kv => aput (fst kv) (snd kv) a) l acc)).
Proof. induction l as [|[k v] l IH]; cbn; auto. intros. apply IH. now apply nodup_aput. Qed.
Lemma aget_fold_put {B} (l : amap B) : NoDup (akeys l) -> forall acc x,
  aget x (fold_left (fun a kv => aput (fst kv) (snd kv) a) l acc) =
  match aget x l with Some v => Some v | None => aget x acc end.
Proof.
  induction l as [|[k v] l IH]; cbn; auto. intros Hn acc x. inversion Hn; subst.
  rewrite IH, aget_aput; auto. destruct (String.eqb_spec x k); auto. subst.
  apply aget_none in H1. now rewrite H1.
Qed.

(** With the same array names everywhere, conversion changes nothing. *)
Definition names_of (names : list string) (st : sstate) : Prop :=
  NoDup (akeys (pstate st)) /\ forall n, In n (akeys (pstate st)) <-> In n names.

Lemma convert_same names sts : forall acc,
  (forall n, In n (akeys acc) -> In n names) -> NoDup (akeys acc) ->
  Forall (fun kv => names_of names (snd kv)) sts ->
  Forall2 (fun a b => fst a = fst b /\ same_state (snd a) (snd b) /\ names_of names (snd b))
          sts (convert_states acc sts).
Proof.
  induction sts as [|[k st] sts IH]; cbn; intros acc Ha Hna Hf; constructor.
  - inversion Hf; subst. destruct H1 as [Hn1 Hn2]. cbn in *. split; auto. split; [split|split].
    + reflexivity.
    + intros n. cbn. rewrite aget_fold_put; auto.
      destruct (aget n (pstate st)) eqn:E; auto.
      destruct (aget n acc) eqn:E2; auto.
      exfalso. apply aget_none in E. apply E. apply Hn2, Ha. apply aget_some; eauto.
    + cbn. now apply nodup_fold_put.
    + intros n. cbn. rewrite akeys_fold_put, Hn2. intuition.
  - inversion Hf; subst. destruct H1 as [Hn1 Hn2]. cbn in *. apply IH; auto.
    + intros n. rewrite akeys_fold_put, Hn2. intuition.
    + now apply nodup_fold_put.
Qed.

Lemma set_states_cpp_frame sts : forall s,
  let s' := fst (set_states_cpp s sts) in
  skind s' = skind s /\ params s' = params s /\ rate s' = rate s /\
  (forall x, In x (akeys (states s')) <-> In x (akeys (states s))) /\
  (NoDup (akeys (states s)) -> NoDup (akeys (states s'))).
Proof.
  induction sts as [|[k st] sts IH]; cbn; intros s.
  - repeat split; auto.
  - destruct (ahas k (states s)) eqn:E; cbn.
    + destruct (IH (with_states s (aput k st (states s)))) as (A & B & C & D & F). cbn in *.
      repeat split; auto.
      * intros H. apply D in H. rewrite akeys_aput_in in H. destruct H; auto.
        subst. now apply ahas_true in E.
      * intros H. apply D. rewrite akeys_aput_in. auto.
      * intros H. apply F. now apply nodup_aput.
    + repeat split; auto.
Qed.

Lemma set_states_cpp_get sts : NoDup (akeys sts) -> forall s x,
  snd (set_states_cpp s sts) = None ->
  aget x (states (fst (set_states_cpp s sts))) =
  match aget x sts with Some st => Some st | None => aget x (states s) end.
Proof.
  induction sts as [|[k st] sts IH]; cbn; auto. intros Hn s x. inversion Hn; subst.
  destruct (ahas k (states s)) eqn:E; cbn; [|discriminate]. intros H.
  rewrite IH; auto. cbn. rewrite aget_aput. destruct (String.eqb_spec x k); auto.
  subst. apply aget_none in H1. now rewrite H1.
Qed.

Lemma set_states_cpp_ok sts : forall s,
  (forall x, In x (akeys sts) -> In x (akeys (states s))) ->
  snd (set_states_cpp s sts) = None.
Proof.
  induction sts as [|[k st] sts IH]; cbn; auto. intros s H.
  destruct (ahas k (states s)) eqn:E.
  - apply IH. intros x Hx. cbn. rewrite akeys_aput_in. auto.
  - assert (In k (akeys (states s))) by auto. apply ahas_true in H0. congruence.
Qed.

Lemma set_states_cpp_in sts : forall s x st,
  aget x (states (fst (set_states_cpp s sts))) = Some st ->
  aget x (states s) = Some st \/ In (x, st) sts.
Proof.
  induction sts as [|[k st0] sts IH]; cbn; auto. intros s x st.
  destruct (ahas k (states s)) eqn:E; cbn; auto. intros H.
  apply IH in H as [H|H]; auto. cbn in H. rewrite aget_aput in H.
  destruct (String.eqb_spec x k); auto. injection H as <-. subst. auto.
Qed.

Lemma inv_states k s s' : inv k s -> inv k s' -> inv k (fst (set_states s (states s'))).
Proof.
  intros [H1 H2 H3 H4 H5 H6 H7] [G1 G2 G3 G4 G5 G6 G7].
  unfold set_states.
  destruct (set_states_cpp_frame (convert_states [] (states s')) s) as (A & B & C & D & F).
  constructor.
  - congruence.
  - now rewrite B.
  - auto.
  - intros x. rewrite B, D. auto.
  - intros He x. rewrite B, D. auto.
  - intros key st Hst. apply set_states_cpp_in in Hst as [Hst|Hst]; eauto.
    assert (Hf : Forall (fun kv => names_of (state_names k) (snd kv)) (states s')).
    { apply Forall_forall. intros [x y] Hin. cbn. apply (G6 x). now apply in_aget. }
    assert (Hc := convert_same (state_names k) (states s') [] ltac:(cbn; tauto) ltac:(constructor) Hf).
    clear -Hc Hst. induction Hc; cbn in Hst; [tauto|]. destruct Hst as [Hst|Hst]; auto.
    subst. destruct H as (_ & _ & H). exact H.
  - now rewrite C.
Qed.

Theorem reachable_inv k s : NoDup (state_names k) -> reachable k s -> inv k s.
Proof.
  intros Hnd. induction 1.
  - constructor; cbn; auto; try tauto; try constructor; discriminate.
  - unfold set_parameters. apply inv_set_loop; auto. destruct reset; auto. now apply inv_clear.
  - now apply inv_remove.
  - now apply inv_clear.
  - now apply inv_op.
  - now apply inv_states.
Qed.

(** ** set_parameters *)
Lemma reset_loop ps retain : NoDup (akeys ps) -> forall s,
  snd (set_params_loop true retain s ps) = None /\
  (forall x, aget x (params (fst (set_params_loop true retain s ps))) =
     match aget x (params s) with Some v => Some v | None => aget x ps end) /\
  (forall x, aget x (states (fst (set_params_loop true retain s ps))) =
     match aget x (states s) with
     | Some st => Some st
     | None => match aget x ps with Some v => Some (fresh_state (skind s) v) | None => None end
     end).
Proof.
  induction ps as [|[k v] ps IH]; cbn [set_params_loop akeys map fst aget]; intros Hn s.
  - repeat split; intros; cbn; destruct (aget x _); auto.
  - inversion Hn; subst. destruct (IH H2 (add s k v)) as (A & B & C).
    fold (add s k v). split; [exact A|split]; intros x.
    + rewrite B. cbn. rewrite aget_ainsert. destruct (aget x (params s)); auto.
      destruct (String.eqb x k); auto.
    + rewrite C. cbn. rewrite aget_ainsert. destruct (aget x (states s)); auto.
      destruct (String.eqb x k); auto.
Qed.

Lemma set_reset k s ps retain :
  inv k s -> NoDup (akeys ps) ->
  snd (set_parameters s ps true retain) = None /\
  forall x, aget x (params (fst (set_parameters s ps true retain))) = aget x ps /\
    (erases k = true ->
     aget x (states (fst (set_parameters s ps true retain))) =
     match aget x ps with Some v => Some (fresh_state k v) | None => None end).
Proof.
  intros Hi Hn. unfold set_parameters.
  destruct (reset_loop ps retain Hn (clear_parameters s)) as (A & B & C).
  split; auto. intros x. rewrite B. split.
  - reflexivity.
  - intros He. rewrite C.
    assert (Hc := inv_clear k s Hi). destruct Hc as [K1 _ _ _ K5 _ _].
    destruct (aget x (states (clear_parameters s))) eqn:E.
    + exfalso. assert (In x (akeys (params (clear_parameters s)))) as Hin.
      { apply K5; auto. apply aget_some; eauto. }
      cbn in Hin. exact Hin.
    + now rewrite K1.
Qed.

Lemma add_loop_fresh ps : NoDup (akeys ps) -> forall s,
  let r := set_params_loop false false s ps in
  snd r = None /\
  (forall x, aget x (params (fst r)) =
     match aget x (params s) with Some v => Some v | None => aget x ps end) /\
  (forall x, ~ In x (akeys ps) -> aget x (states (fst r)) = aget x (states s)) /\
  (erases (skind s) = true ->
   (forall x, In x (akeys (states s)) -> In x (akeys (params s))) ->
   forall x v, aget x ps = Some v -> aget x (states (fst r)) = Some (fresh_state (skind s) v)).
Proof.
  induction ps as [|[k v] ps IH]; cbn [set_params_loop akeys map fst aget]; intros Hn s.
  - cbn. repeat split; auto; try discriminate. intros x. destruct (aget x (params s)); auto.
  - inversion Hn; subst.
    destruct (aget k (params s)) as [old|] eqn:E.
    + destruct (IH H2 (add (remove_state_impl s k) k v)) as (A & B & C & D).
      cbn [set_params_loop] in *. fold (add (remove_state_impl s k) k v).
      split; [exact A|]. split; [|split].
      * intros x. rewrite B. cbn. rewrite params_remove_state, aget_ainsert.
        destruct (aget x (params s)) eqn:E2; auto. destruct (String.eqb_spec x k); auto.
      * intros x Hx. rewrite C by (intros ?; apply Hx; right; auto). cbn.
        rewrite aget_ainsert, states_remove_state.
        destruct (String.eqb_spec x k); [subst; exfalso; apply Hx; left; auto|].
        rewrite andb_false_r. destruct (aget x (states s)); auto.
      * intros He Hsub x w. destruct (String.eqb_spec x k).
        -- intros [= <-]. subst. rewrite C by auto. cbn.
           rewrite aget_ainsert, states_remove_state, He, String.eqb_refl. cbn.
           now rewrite skind_remove_state.
        -- intros Hw. rewrite (D) with (v := w); auto.
           ++ cbn. now rewrite skind_remove_state.
           ++ cbn. now rewrite skind_remove_state.
           ++ cbn. intros y. rewrite !akeys_ainsert_in, params_remove_state.
              intros [Hy|Hy]; auto. right. apply aget_some in Hy as [st Hst].
              rewrite states_remove_state in Hst. destruct (erases _ && _); [discriminate|].
              apply Hsub. apply aget_some; eauto.
    + destruct (IH H2 (add s k v)) as (A & B & C & D).
      cbn [set_params_loop] in *. fold (add s k v).
      split; [exact A|]. split; [|split].
      * intros x. rewrite B. cbn. rewrite aget_ainsert.
        destruct (aget x (params s)) eqn:E2; auto. destruct (String.eqb_spec x k); auto.
      * intros x Hx. rewrite C by (intros ?; apply Hx; right; auto). cbn.
        rewrite aget_ainsert.
        destruct (String.eqb_spec x k); [subst; exfalso; apply Hx; left; auto|].
        destruct (aget x (states s)); auto.
      * intros He Hsub x w. destruct (String.eqb_spec x k).
        -- intros [= <-]. subst. rewrite C by auto. cbn.
           rewrite aget_ainsert, String.eqb_refl.
           destruct (aget k (states s)) eqn:E3; auto.
           exfalso. apply aget_none in E. apply E, Hsub, aget_some; eauto.
        -- intros Hw. rewrite (D) with (v := w); auto.
           cbn. intros y. rewrite !akeys_ainsert_in. intuition.
Qed.

Lemma shape_eqb_true a b : shape_eqb a b = true <-> a = b.
Proof. unfold shape_eqb. destruct (list_eq_dec _ a b); split; congruence. Qed.

(** Shapes agree for every name given again. *)
Definition shapes_agree (s : solver) (ps : amap var) : Prop :=
  forall x v old, aget x ps = Some v -> aget x (params s) = Some old -> vshape v = vshape old.

Lemma retain_loop ps : NoDup (akeys ps) -> forall s,
  let r := set_params_loop false true s ps in
  (snd r = None <-> shapes_agree s ps) /\
  (forall x st, aget x (states s) = Some st -> aget x (states (fst r)) = Some st) /\
  (forall x v, aget x (params s) = Some v -> aget x (params (fst r)) = Some v) /\
  (snd r = None ->
   (forall x, aget x (params (fst r)) =
     match aget x (params s) with Some v => Some v | None => aget x ps end) /\
   ((forall x, In x (akeys (states s)) -> In x (akeys (params s))) ->
    forall x v, aget x (params s) = None -> aget x ps = Some v ->
      aget x (states (fst r)) = Some (fresh_state (skind s) v))).
Proof.
  induction ps as [|[k v] ps IH]; cbn [set_params_loop akeys map fst aget]; intros Hn s.
  - cbn. split; [|split; [|split]]; auto.
    + split; auto. intros _ x v old H. discriminate.
    + intros _. split; [|intros; discriminate]. intros x. destruct (aget x (params s)); auto.
  - inversion Hn; subst.
    destruct (aget k (params s)) as [old|] eqn:E.
    + destruct (shape_eqb (vshape v) (vshape old)) eqn:Es.
      * destruct (IH H2 s) as (A & B & C & D). split; [|split; [|split]]; auto.
        -- rewrite A. split.
           ++ intros Hs x w o. cbn. destruct (String.eqb_spec x k); [|apply Hs].
              intros [= <-] Ho. subst. rewrite E in Ho. injection Ho as <-.
              now apply shape_eqb_true.
           ++ intros Hs x w o Hw Ho. apply (Hs x); auto. cbn.
              destruct (String.eqb_spec x k); auto. subst.
              exfalso. assert (Hk : In k (akeys ps)) by (apply aget_some; eauto). exact (H1 Hk).
        -- intros Hr. destruct (D Hr) as [D1 D2]. split.
           ++ intros x. rewrite D1. destruct (aget x (params s)) eqn:E2; auto.
              destruct (String.eqb_spec x k); auto. congruence.
           ++ intros Hsub x w Hx Hw. destruct (String.eqb_spec x k); [congruence|]. auto.
      * cbn. split; [|split; [|split]]; auto; try discriminate.
        split; [discriminate|]. intros Hs.
        assert (vshape v = vshape old) as Hv.
        { apply (Hs k); auto. cbn. now rewrite String.eqb_refl. }
        apply shape_eqb_true in Hv. congruence.
    + destruct (IH H2 (add s k v)) as (A & B & C & D).
      cbn [set_params_loop] in *. fold (add s k v). split; [|split; [|split]].
      * rewrite A. split.
        -- intros Hs x w o. cbn. destruct (String.eqb_spec x k).
           ++ intros _ Ho. subst. congruence.
           ++ intros Hw Ho. apply (Hs x); auto. cbn. rewrite aget_ainsert, Ho. auto.
        -- intros Hs x w o Hw Ho. cbn in Ho. rewrite aget_ainsert in Ho.
           destruct (String.eqb_spec x k).
           ++ subst. exfalso. assert (Hk : In k (akeys ps)) by (apply aget_some; eauto). exact (H1 Hk).
           ++ apply (Hs x); cbn.
              ** apply String.eqb_neq in n. now rewrite n.
              ** destruct (aget x (params s)); [auto|discriminate].
      * intros x st Hst. apply B. cbn. now rewrite aget_ainsert, Hst.
      * intros x w Hw. apply C. cbn. now rewrite aget_ainsert, Hw.
      * intros Hr. destruct (D Hr) as [D1 D2]. split.
        -- intros x. rewrite D1. cbn. rewrite aget_ainsert.
           destruct (aget x (params s)); auto. destruct (String.eqb x k); auto.
        -- intros Hsub x w Hx Hw. destruct (String.eqb_spec x k).
           ++ injection Hw as <-. subst. apply B. cbn. rewrite aget_ainsert, String.eqb_refl.
              destruct (aget k (states s)) eqn:E3; auto.
              exfalso. apply aget_none in E. apply E, Hsub, aget_some; eauto.
           ++ rewrite (D2) with (v := w); auto.
              ** cbn. intros y. rewrite !akeys_ainsert_in. intuition.
              ** cbn. rewrite aget_ainsert, Hx. apply String.eqb_neq in n. now rewrite n.
Qed.
