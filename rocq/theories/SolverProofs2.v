From Coq Require Import String Ascii List Bool Arith ZArith Lia Permutation.
From Verif Require Import Assoc SolverModel SolverSpec SolverProofs.
Import ListNotations.
Local Open Scope string_scope.
Local Open Scope list_scope.

(** ** Hooks *)

(** The keys an operation reaches: those with a computed gradient; a check stops
    after the first hit. *)
Fixpoint reached (stop : string -> bool) (ks : list string) : list string :=
  match ks with
  | [] => []
  | k :: ks' => k :: (if stop k then [] else reached stop ks')
  end.
Definition computed (zeroing : string -> bool) (ks : list string) : list string :=
  filter (fun k => negb (zeroing k)) ks.
Definition stops (o : op) (hit : string -> bool) (k : string) : bool := is_check o && hit k.

Lemma loop_trace o r z h ks :
  fst (loop o r z h ks) =
  concat (map (fun k => [GlobalPre; Pre; Post; GlobalPost; Impl o k r])
              (reached (stops o h) (computed z ks))).
Proof.
  induction ks as [|k ks IH]; cbn [loop computed filter]; auto.
  destruct (z k) eqn:Ez; cbn [negb]; [exact IH|].
  cbn [reached map concat]. unfold stops at 1.
  destruct (loop o r z h ks) as [t b]. cbn [fst] in *. unfold computed in IH.
  destruct o; cbn; try (now rewrite <- IH); destruct (h k); cbn; auto; now rewrite <- IH.
Qed.

Lemma loop_flag o r z h ks :
  snd (loop o r z h ks) = is_check o && existsb h (computed z ks).
Proof.
  induction ks as [|k ks IH]; cbn [loop computed filter].
  - now rewrite andb_false_r.
  - destruct (z k) eqn:Ez; cbn [negb]; [exact IH|].
    destruct (loop o r z h ks) as [t b]. cbn [snd] in *. cbn [existsb]. unfold computed in IH.
    destruct o; cbn in *; auto; destruct (h k); cbn; auto.
Qed.

Lemma applied_app a b : applied (a ++ b) = applied a ++ applied b.
Proof. apply flat_map_app. Qed.

Lemma applied_blocks o r ks :
  applied (concat (map (fun k => [GlobalPre; Pre; Post; GlobalPost; Impl o k r]) ks)) = ks.
Proof. induction ks; cbn; auto. now rewrite <- IHks at 2. Qed.

Lemma reached_all stop ks : (forall k, In k ks -> stop k = false) -> reached stop ks = ks.
Proof.
  induction ks; cbn; auto. intros H. rewrite (H a) by auto. f_equal. auto.
Qed.

Lemma blocks_last o r ks : forall k,
  exists t k', concat (map (fun k => [GlobalPre; Pre; Post; GlobalPost; Impl o k r]) (k :: ks))
            = t ++ [Impl o k' r].
Proof.
  induction ks as [|a ks IH]; intros k.
  - exists [GlobalPre; Pre; Post; GlobalPost], k. reflexivity.
  - destruct (IH a) as (t & k' & Ht).
    exists ([GlobalPre; Pre; Post; GlobalPost; Impl o k r] ++ t), k'.
    rewrite <- app_assoc, <- Ht. reflexivity.
Qed.

Lemma bracketed_last xs t e :
  concat (map block xs) = t ++ [e] -> e = GlobalPost.
Proof.
  revert t. induction xs as [|[[o k] r] xs IH] using rev_ind; intros t H.
  - destruct t; discriminate.
  - rewrite map_app, concat_app in H. cbn in H.
    change [GlobalPre; Pre; Impl o k r; Post; GlobalPost]
      with ([GlobalPre; Pre; Impl o k r; Post] ++ [GlobalPost]) in H.
    rewrite app_assoc in H. apply app_inj_tail in H. now destruct H.
Qed.

Lemma never_bracketed s o z h :
  let t := snd (fst (run_op s o z h)) in t <> [] -> ~ bracketed t.
Proof.
  assert (G : forall r, let t := fst (loop o r z h (akeys (params s))) in
              t <> [] -> ~ bracketed t).
  { intros r t. unfold t. rewrite loop_trace.
    destruct (reached (stops o h) (computed z (akeys (params s)))) as [|k ks]; [cbn; tauto|].
    intros _ [xs Hxs]. destruct (blocks_last o r ks k) as (t' & k' & Ht). rewrite Ht in Hxs.
    symmetry in Hxs. apply bracketed_last in Hxs. discriminate. }
  unfold run_op. destruct o; cbn [fst snd]; auto.
  - destruct (fused (skind s)); cbn [fst snd]; [tauto|].
    destruct (Z.eqb r 0); cbn [fst snd]; auto.
  - destruct (Z.eqb norm 0); cbn [fst snd]; auto.
Qed.

(** ** Fused weight decay *)
Lemma rate_run_op s o z h :
  skind (fst (fst (run_op s o z h))) = skind s /\
  rate (fst (fst (run_op s o z h))) =
  match o with
  | Update => default_rate (skind s)
  | WeightDecay r => if fused (skind s) then r else rate s
  | _ => rate s
  end.
Proof.
  unfold run_op. destruct o; cbn; auto.
  - destruct (fused (skind s)); cbn; auto. destruct (Z.eqb r 0); auto.
  - destruct (Z.eqb norm 0); auto.
Qed.

Lemma run_ops_rate cs : forall s past,
  fused (skind s) = true ->
  rate s = pending (default_rate (skind s)) past ->
  rate (fst (run_ops s cs)) =
  pending (default_rate (skind s)) (rev (map cop cs) ++ past).
Proof.
  induction cs as [|c cs IH]; intros s past Hf Hr; cbn [run_ops map rev app]; auto.
  destruct (rate_run_op s (cop c) (czero c) (chit c)) as [Hk Hr'].
  destruct (run_op s (cop c) (czero c) (chit c)) as [[s1 t] b]. cbn [fst] in *.
  specialize (IH s1 (cop c :: past)). rewrite Hk in IH.
  destruct (run_ops s1 cs) as [s2 t']. cbn [fst] in *.
  rewrite <- app_assoc. cbn [app]. apply IH; auto.
  rewrite Hr', Hf. destruct (cop c); cbn; auto.
Qed.

Lemma run_ops_app cs : forall s c,
  run_ops s (cs ++ [c]) =
  (let '(s1, t1) := run_ops s cs in
   let '(s2, t2, _) := run_op s1 (cop c) (czero c) (chit c) in (s2, t1 ++ t2)).
Proof.
  induction cs as [|a cs IH]; intros s c; cbn [run_ops app].
  - destruct (run_op s (cop c) (czero c) (chit c)) as [[? ?] ?]. now rewrite app_nil_r.
  - destruct (run_op s (cop a) (czero a) (chit a)) as [[s1 t] b]. rewrite IH.
    destruct (run_ops s1 cs) as [s2 t2].
    destruct (run_op s2 (cop c) (czero c) (chit c)) as [[? ?] ?]. now rewrite app_assoc.
Qed.

Lemma loop_rates o r z h ks o' k r' :
  In (Impl o' k r') (fst (loop o r z h ks)) -> r' = r.
Proof.
  rewrite loop_trace. generalize (reached (stops o h) (computed z ks)). intros l.
  induction l as [|x l IH]; cbn; [tauto|].
  intros [H|[H|[H|[H|[H|H]]]]]; try discriminate; auto; now injection H.
Qed.

(** ** HDF5 paths *)
Lemma split_last_none s : has_slash s = false -> split_last s = None.
Proof.
  induction s as [|c s IH]; cbn; auto. intros H. apply orb_false_elim in H as [H1 H2].
  rewrite IH, H1; auto.
Qed.
Lemma split_last_path p n : has_slash n = false -> split_last (path_in p n) = Some (p, n).
Proof.
  intros H. induction p as [|c p IH]; cbn.
  - now rewrite (split_last_none n H).
  - unfold path_in in IH. cbn in IH. now rewrite IH.
Qed.
Lemma parent_path p n : has_slash n = false -> parent (path_in p n) = p.
Proof. intros H. unfold parent. now rewrite split_last_path. Qed.
Lemma base_path p n : has_slash n = false -> base (path_in p n) = n.
Proof. intros H. unfold base. now rewrite split_last_path. Qed.

Lemma prefix_app p q : String.prefix p (p ++ q)%string = true.
Proof.
  induction p as [|c p IH]; cbn; [destruct q; auto|].
  destruct (ascii_dec c c); congruence.
Qed.
Lemma prefix_nil s : String.prefix "" s = true.
Proof. destruct s; auto. Qed.
Lemma prefix_inv p : forall s, String.prefix p s = true -> exists q, s = (p ++ q)%string.
Proof.
  induction p as [|c p IH]; cbn; intros s H; eauto.
  destruct s as [|d s]; [discriminate|]. cbn in H. destruct (ascii_dec c d); [|discriminate].
  subst. destruct (IH s H) as [q ->]. eauto.
Qed.
Lemma prefix_split p : forall q x,
  String.prefix p (q ++ x)%string = true -> String.prefix p q = true \/ String.prefix q p = true.
Proof.
  induction p as [|c p IH]; intros q x H.
  - left. apply prefix_nil.
  - destruct q as [|d q]; [right; apply prefix_nil|]. cbn in *.
    destruct (ascii_dec c d); [|discriminate]. subst.
    destruct (ascii_dec d d); [|congruence]. eapply IH; eauto.
Qed.
Lemma prefix_trans_app p q s :
  String.prefix (p ++ q) s = true -> String.prefix p s = true.
Proof.
  intros H. apply prefix_inv in H as [x ->].
  assert (E : forall a b c, ((a ++ b) ++ c)%string = (a ++ (b ++ c))%string).
  { induction a; cbn; intros; auto. now rewrite IHa. }
  rewrite E. apply prefix_app.
Qed.
Lemma string_app_assoc (a b c : string) : ((a ++ b) ++ c)%string = (a ++ (b ++ c))%string.
Proof. induction a; cbn; intros; auto. now rewrite IHa. Qed.
Lemma string_app_inj (p a b : string) : (p ++ a)%string = (p ++ b)%string -> a = b.
Proof. induction p; cbn; auto. intros H. injection H. auto. Qed.
Lemma prefix_app_cancel p a b :
  String.prefix (p ++ a)%string (p ++ b)%string = String.prefix a b.
Proof.
  induction p as [|c p IH]; cbn; auto. destruct (ascii_dec c c); congruence.
Qed.
Lemma has_slash_app a b : has_slash (a ++ b)%string = has_slash a || has_slash b.
Proof. induction a; cbn; auto. now rewrite IHa, orb_assoc. Qed.
Lemma prefix_slash n m : String.prefix (n ++ "/")%string m = true -> has_slash m = true.
Proof.
  intros H. apply prefix_inv in H as [q ->]. rewrite string_app_assoc, has_slash_app.
  cbn. now rewrite orb_true_r.
Qed.

Section Files.
Variable k : kind.
Hypothesis Hgood : good_names k.
Let Hnd : NoDup (state_names k) := proj1 Hgood.
Let Hns : forall n, In n (state_names k) -> has_slash n = false /\ n <> "t" := proj2 Hgood.

Definition group_entries (i : nat) (p : string) (st : sstate) : list entry :=
  mkEntry (path_in p "t") i (DT (iter st)) ::
  map (fun na => mkEntry (path_in p (fst na)) i (DArr (snd na))) (pstate st).
Fixpoint all_entries (i : nat) (sts : amap sstate) : list entry :=
  match sts with
  | [] => []
  | (p, st) :: sts' => group_entries i p st ++ all_entries (S i) sts'
  end.

Lemma save_arrays_eq l : forall f p i f',
  save_arrays f p i l = Some f' ->
  f' = f ++ map (fun na => mkEntry (path_in p (fst na)) i (DArr (snd na))) l.
Proof.
  induction l as [|[n a] l IH]; cbn; intros f p i f'.
  - intros [= <-]. now rewrite app_nil_r.
  - unfold create_dataset. destruct (_ || _); [discriminate|]. intros H.
    apply IH in H. rewrite H, <- app_assoc. reflexivity.
Qed.
Lemma save_from_eq sts : forall i f f',
  save_h5_from i f sts = Some f' -> f' = f ++ all_entries i sts.
Proof.
  induction sts as [|[p st] sts IH]; cbn [save_h5_from all_entries]; intros i f f'.
  - intros [= <-]. now rewrite app_nil_r.
  - destruct (_ || _); [discriminate|]. unfold create_dataset at 1.
    destruct (_ || _); [discriminate|].
    destruct (save_arrays _ p i (pstate st)) as [f2|] eqn:E; [|discriminate].
    intros H. apply IH in H. apply save_arrays_eq in E. subst.
    unfold group_entries. rewrite <- !app_assoc. reflexivity.
Qed.

(** All paths of a file come from the saved names. *)
Definition from_names (names : list string) (f : list entry) : Prop :=
  forall e, In e f -> exists q n, In q names /\ epath e = path_in q n.

Lemma no_exists_other names f p :
  from_names names f ->
  (forall q, In q names -> String.prefix p q = false /\ String.prefix q p = false) ->
  exists_obj f p || under_dataset f p = false.
Proof.
  intros Hf Hq. apply orb_false_intro.
  - unfold exists_obj. apply not_true_is_false. rewrite existsb_exists.
    intros (e & Hin & He). destruct (Hf e Hin) as (q & n & Hin' & E). rewrite E in He.
    destruct (Hq q Hin') as [H1 H2]. apply orb_prop in He as [He|He].
    + apply String.eqb_eq in He. subst. unfold path_in in H2. rewrite prefix_app in H2. discriminate.
    + apply prefix_trans_app in He. unfold path_in in He. apply prefix_split in He as [He|He]; congruence.
  - unfold under_dataset. apply not_true_is_false. rewrite existsb_exists.
    intros (e & Hin & He). destruct (Hf e Hin) as (q & n & Hin' & E). rewrite E in He.
    destruct (Hq q Hin') as [H1 H2]. unfold path_in in He.
    apply prefix_trans_app in He. apply prefix_trans_app in He. congruence.
Qed.

Lemma no_exists_below names f p n used :
  (forall q, In q names -> String.prefix p q = false /\ String.prefix q p = false) ->
  (forall e, In e f -> (exists q m, In q names /\ epath e = path_in q m) \/
                       (exists m, In m used /\ epath e = path_in p m)) ->
  ~ In n used -> has_slash n = false -> (forall m, In m used -> has_slash m = false) ->
  exists_obj f (path_in p n) || under_dataset f (path_in p n) = false.
Proof.
  intros Hq Hf Hn Hs Hu. apply orb_false_intro.
  - unfold exists_obj. apply not_true_is_false. rewrite existsb_exists.
    intros (e & Hin & He). destruct (Hf e Hin) as [(q & m & Hin' & E)|(m & Hm & E)]; rewrite E in He.
    + destruct (Hq q Hin') as [H1 H2]. apply orb_prop in He as [He|He].
      * apply String.eqb_eq in He. unfold path_in in He.
        assert (String.prefix p (q ++ "/" ++ m)%string = true) as Hp
          by (rewrite He; apply prefix_app).
        apply prefix_split in Hp as [Hp|Hp]; congruence.
      * unfold path_in in He. apply prefix_trans_app in He. apply prefix_trans_app in He.
        apply prefix_split in He as [He|He]; congruence.
    + apply orb_prop in He as [He|He].
      * apply String.eqb_eq in He. unfold path_in in He. apply string_app_inj in He.
        injection He as ->. auto.
      * unfold path_in in He. rewrite !string_app_assoc, prefix_app_cancel in He.
        cbn in He. apply prefix_slash in He. rewrite (Hu m Hm) in He. discriminate.
  - unfold under_dataset. apply not_true_is_false. rewrite existsb_exists.
    intros (e & Hin & He). destruct (Hf e Hin) as [(q & m & Hin' & E)|(m & Hm & E)]; rewrite E in He.
    + destruct (Hq q Hin') as [H1 H2]. unfold path_in in He.
      apply prefix_trans_app in He. apply prefix_trans_app in He.
      apply prefix_split in He as [He|He]; congruence.
    + unfold path_in in He. rewrite !string_app_assoc, prefix_app_cancel in He.
      cbn in He. apply prefix_slash in He. congruence.
Qed.

Lemma save_arrays_ok names p i l : forall f used,
  (forall q, In q names -> String.prefix p q = false /\ String.prefix q p = false) ->
  (forall e, In e f -> (exists q m, In q names /\ epath e = path_in q m) \/
                       (exists m, In m used /\ epath e = path_in p m)) ->
  NoDup (akeys l) -> (forall n, In n (akeys l) -> has_slash n = false /\ ~ In n used) ->
  (forall m, In m used -> has_slash m = false) ->
  exists f', save_arrays f p i l = Some f'.
Proof.
  induction l as [|[n a] l IH]; cbn; intros f used Hq Hf Hn Hl Hu; eauto.
  inversion Hn; subst. unfold create_dataset.
  rewrite (no_exists_below names f p n used); auto; try (apply Hl; auto).
  apply (IH _ (n :: used)); auto.
  - intros e He. apply in_app_or in He as [He|[<-|[]]].
    + destruct (Hf e He) as [H|(m & Hm & E)]; auto. right. exists m. cbn; auto.
    + right. exists n. cbn; auto.
  - intros m Hm. destruct (Hl m) as [A B]; auto. split; auto. intros [->|E]; auto.
  - intros m [<-|Hm]; auto. apply Hl; auto.
Qed.

Lemma save_from_ok sts : forall i f names,
  from_names names f ->
  prefix_free (names ++ akeys sts) -> NoDup (names ++ akeys sts) ->
  Forall (fun kv => names_of (state_names k) (snd kv)) sts ->
  exists f', save_h5_from i f sts = Some f'.
Proof.
  induction sts as [|[p st] sts IH]; cbn [save_h5_from]; intros i f names Hf Hp Hn Hs; eauto.
  inversion Hs; subst. destruct H1 as [Hk1 Hk2]. cbn in Hk1, Hk2.
  assert (Hq : forall q, In q names -> String.prefix p q = false /\ String.prefix q p = false).
  { intros q Hin. assert (p <> q).
    { intros ->. apply NoDup_remove_2 in Hn. apply Hn, in_or_app. auto. }
    split; apply Hp; auto; apply in_or_app; cbn; auto. }
  rewrite (no_exists_other names f p); auto. unfold create_dataset.
  rewrite (no_exists_below names f p "t" []); cbn; auto; try tauto.
  destruct (save_arrays_ok names p i (pstate st)
              (f ++ [mkEntry (path_in p "t") i (DT (iter st))]) ["t"]) as [f2 Hf2]; auto.
  { intros e He. apply in_app_or in He as [He|[<-|[]]]; auto.
    right. exists "t". cbn; auto. }
  { intros n Hin. apply Hk2, Hns in Hin as [A B]. split; auto. intros [E|[]]; auto. }
  { intros m [<-|[]]. reflexivity. }
  rewrite Hf2. apply (IH (S i) f2 (names ++ [p])).
  - apply save_arrays_eq in Hf2. subst. intros e He.
    apply in_app_or in He as [He|He]; [apply in_app_or in He as [He|[<-|[]]]|].
    + destruct (Hf e He) as (q & n & A & B). exists q, n. split; auto. apply in_or_app; auto.
    + exists p, "t". split; auto. apply in_or_app; cbn; auto.
    + apply in_map_iff in He as (na & <- & _). exists p, (fst na). split; auto.
      apply in_or_app; cbn; auto.
  - rewrite <- app_assoc. exact Hp.
  - rewrite <- app_assoc. exact Hn.
  - auto.
Qed.

(** Facts about the entries of a file. *)
Lemma all_entries_in sts : forall i e,
  In e (all_entries i sts) ->
  exists p st j, In (p, st) sts /\ i <= j /\ nth_error sts (j - i) = Some (p, st) /\
    eindex e = j /\ In e (group_entries j p st).
Proof.
  induction sts as [|[p st] sts IH]; cbn; intros i e H; [tauto|].
  change (In e (group_entries i p st ++ all_entries (S i) sts)) in H.
  apply in_app_or in H as [H|H].
  - exists p, st, i. rewrite Nat.sub_diag. repeat split; auto.
    unfold group_entries in H. destruct H as [<-|H]; auto.
    apply in_map_iff in H as (? & <- & _). auto.
  - apply IH in H as (q & st' & j & H1 & H2 & H3 & H4 & H5).
    exists q, st', j. repeat split; auto; try lia.
    replace (j - i) with (S (j - S i)) by lia. exact H3.
Qed.

Lemma group_path i p st e :
  names_of (state_names k) st -> In e (group_entries i p st) ->
  exists n, epath e = path_in p n /\ has_slash n = false /\
    ((n = "t" /\ edata e = DT (iter st)) \/
     (n <> "t" /\ exists a, edata e = DArr a /\ aget n (pstate st) = Some a)).
Proof.
  intros [H1 H2] [<-|H].
  - exists "t". cbn. auto.
  - apply in_map_iff in H as ([n a] & <- & Hin). exists n. cbn.
    assert (Hn : In n (state_names k)) by (apply H2, in_map_iff; exists (n, a); auto).
    apply Hns in Hn as [A B]. repeat split; auto. right. split; auto. exists a.
    split; auto. now apply in_aget.
Qed.

(** What collect reads for one name: only the group's own entries count. *)
Definition step (st : sstate) (e : entry) : sstate :=
  match String.eqb (base (epath e)) "t", edata e with
  | true, DT n => mkState (pstate st) n
  | false, DArr a => mkState (aput (base (epath e)) a (pstate st)) (iter st)
  | _, _ => st
  end.
Lemma collect_filter visit p :
  collect visit p =
  fold_left step (filter (fun e => String.prefix p (epath e)) visit) (mkState [] 0).
Proof.
  unfold collect. generalize (mkState [] 0). induction visit as [|e visit IH]; cbn; auto.
  intros s. destruct (String.prefix p (epath e)); cbn; apply IH.
Qed.

Lemma filter_other (sts : amap sstate) i p :
  Forall (fun kv => names_of (state_names k) (snd kv)) sts ->
  (forall q, In q (akeys sts) -> String.prefix p q = false /\ String.prefix q p = false) ->
  filter (fun e => String.prefix p (epath e)) (all_entries i sts) = [].
Proof.
  intros Hs Hq. destruct (filter _ _) as [|e l] eqn:E; auto. exfalso.
  assert (Hin : In e (filter (fun e => String.prefix p (epath e)) (all_entries i sts)))
    by (rewrite E; cbn; auto).
  apply filter_In in Hin as [Hin Hp].
  apply all_entries_in in Hin as (q & st & j & H1 & _ & _ & _ & H5).
  rewrite Forall_forall in Hs. specialize (Hs _ H1). cbn in Hs.
  apply (group_path j q st e Hs) in H5 as (n & E1 & _). rewrite E1 in Hp. unfold path_in in Hp.
  destruct (Hq q) as [A B]; [apply in_map_iff; exists (q, st); auto|].
  apply prefix_split in Hp as [Hp|Hp]; congruence.
Qed.

Lemma filter_group i p st :
  filter (fun e => String.prefix p (epath e)) (group_entries i p st) = group_entries i p st.
Proof.
  assert (G : forall l, (forall e, In e l -> String.prefix p (epath e) = true) ->
              filter (fun e => String.prefix p (epath e)) l = l).
  { induction l; cbn; auto. intros H. rewrite (H a) by auto. f_equal. auto. }
  apply G. intros e [<-|H].
  - apply prefix_app.
  - apply in_map_iff in H as (? & <- & _). apply prefix_app.
Qed.

Lemma filter_file (sts : amap sstate) : forall i p st,
  Forall (fun kv => names_of (state_names k) (snd kv)) sts ->
  prefix_free (akeys sts) -> NoDup (akeys sts) -> aget p sts = Some st ->
  exists j, filter (fun e => String.prefix p (epath e)) (all_entries i sts) = group_entries j p st.
Proof.
  induction sts as [|[q st'] sts IH]; intros i p st Hs Hp Hn Hg; [discriminate|].
  cbn [all_entries]. rewrite filter_app. cbn in Hg, Hn. inversion Hs; subst. inversion Hn; subst.
  destruct (String.eqb_spec p q).
  - subst. injection Hg as <-. exists i. rewrite filter_group, filter_other; auto.
    + apply app_nil_r.
    + intros x Hx. assert (x <> q) by (intros ->; auto).
      split; apply Hp; cbn; auto.
  - assert (Hin : In p (akeys sts)) by (apply aget_some; eauto).
    destruct (IH (S i) p st) as [j Hj]; auto.
    { intros a b Ha Hb. apply Hp; cbn; auto. }
    exists j. rewrite Hj.
    assert (Hz : filter (fun e => String.prefix p (epath e)) (group_entries i q st') = []).
    { generalize (filter_other [(q, st')] i p). cbn [all_entries]. rewrite app_nil_r.
      intros G. apply G; auto. intros x [<-|[]]. split; apply Hp; cbn; auto. }
    now rewrite Hz.
Qed.

Lemma step_group l : forall st0 p st,
  names_of (state_names k) st ->
  (forall e, In e l -> exists i, In e (group_entries i p st)) ->
  NoDup (map epath l) -> NoDup (akeys (pstate st0)) ->
  let r := fold_left step l st0 in
  NoDup (akeys (pstate r)) /\
  (iter r = if existsb (fun e => String.eqb (epath e) (path_in p "t")) l then iter st else iter st0) /\
  (forall n, aget n (pstate r) =
     if existsb (fun e => String.eqb (epath e) (path_in p n)) l && negb (String.eqb n "t")
     then aget n (pstate st) else aget n (pstate st0)).
Proof.
  induction l as [|e l IH]; cbn [fold_left existsb map]; intros st0 p st Hst Hl Hn H0.
  - cbn. auto.
  - apply NoDup_cons_iff in Hn as [Hni Hn].
    destruct (Hl e) as [i Hi]; [cbn; auto|].
    destruct (group_path i p st e Hst Hi) as (n & E1 & E2 & E3).
    assert (Hb : base (epath e) = n) by (rewrite E1; now apply base_path).
    assert (Heq : forall m, String.eqb (path_in p n) (path_in p m) = String.eqb n m).
    { intros m. destruct (String.eqb_spec n m); [subst; apply String.eqb_refl|].
      apply String.eqb_neq. unfold path_in. intros H. apply string_app_inj in H.
      injection H. auto. }
    assert (Hnone : existsb (fun e => String.eqb (epath e) (path_in p n)) l = false).
    { apply not_true_is_false. rewrite existsb_exists. intros (x & Hx & Hx').
      apply String.eqb_eq in Hx'. apply Hni. rewrite E1, <- Hx'. now apply in_map. }
    destruct E3 as [(-> & Ed)|(Hnt & a & Ed & Ha)].
    + assert (Hstep : step st0 e = mkState (pstate st0) (iter st)).
      { unfold step. rewrite Hb, Ed. reflexivity. }
      rewrite Hstep.
      destruct (IH (mkState (pstate st0) (iter st)) p st) as (A & B & C); auto.
      { intros; apply Hl; cbn; auto. }
      split; auto. split.
      * rewrite B. cbn. rewrite E1, Heq. cbn. now destruct (existsb _ l).
      * intros m. rewrite C. cbn. rewrite E1, Heq.
        destruct (String.eqb_spec "t" m); cbn; auto. subst m. cbn.
        now rewrite andb_false_r.
    + assert (Hstep : step st0 e = mkState (aput n a (pstate st0)) (iter st0)).
      { unfold step. rewrite Hb, Ed. apply String.eqb_neq in Hnt. now rewrite Hnt. }
      rewrite Hstep.
      destruct (IH (mkState (aput n a (pstate st0)) (iter st0)) p st) as (A & B & C); auto.
      { intros; apply Hl; cbn; auto. }
      { cbn. now apply nodup_aput. }
      split; auto. split.
      * rewrite B. cbn. rewrite E1, Heq. apply String.eqb_neq in Hnt. now rewrite Hnt.
      * intros m. rewrite C. cbn. rewrite aget_aput, E1, Heq.
        destruct (String.eqb_spec n m).
        -- subst m. rewrite Hnone. cbn. rewrite String.eqb_refl.
           apply String.eqb_neq in Hnt. rewrite Hnt. cbn. now rewrite Ha.
        -- cbn. destruct (String.eqb_spec m n); [congruence|]. reflexivity.
Qed.

Lemma nodup_group i p st : names_of (state_names k) st -> NoDup (map epath (group_entries i p st)).
Proof.
  intros [H1 H2]. cbn. rewrite map_map. cbn. constructor.
  - intros H. apply in_map_iff in H as ([n a] & E & Hin). cbn in E.
    unfold path_in in E. apply string_app_inj in E. injection E as ->.
    assert (Hn : In "t" (state_names k)) by (apply H2, in_map_iff; exists ("t", a); auto).
    apply Hns in Hn. tauto.
  - clear H2. unfold akeys in H1. induction (pstate st) as [|[n a] l IH]; cbn in *; [constructor|].
    inversion H1; subst. constructor; auto. intros H. apply in_map_iff in H as ([m b] & E & Hin).
    cbn in E. unfold path_in in E. apply string_app_inj in E. injection E as ->.
    apply H2. apply in_map_iff. exists (n, b). auto.
Qed.

Lemma perm_filter {B} (f : B -> bool) l l' :
  Permutation l l' -> Permutation (filter f l) (filter f l').
Proof.
  induction 1; cbn; auto.
  - destruct (f x); auto.
  - destruct (f x), (f y); auto. apply perm_swap.
  - etransitivity; eauto.
Qed.

Lemma collect_ok (sts : amap sstate) visit p st :
  Forall (fun kv => names_of (state_names k) (snd kv)) sts ->
  prefix_free (akeys sts) -> NoDup (akeys sts) -> aget p sts = Some st ->
  Permutation visit (all_entries 0 sts) ->
  same_state (collect visit p) st /\ names_of (state_names k) (collect visit p).
Proof.
  intros Hs Hp Hn Hg Hv. rewrite collect_filter.
  destruct (filter_file sts 0 p st Hs Hp Hn Hg) as [j Hj].
  assert (Hperm : Permutation (filter (fun e => String.prefix p (epath e)) visit)
                              (group_entries j p st)).
  { rewrite <- Hj. now apply perm_filter. }
  assert (Hst : names_of (state_names k) st).
  { rewrite Forall_forall in Hs. apply (Hs (p, st)). now apply aget_in. }
  set (l := filter _ visit) in *.
  destruct (step_group l (mkState [] 0) p st) as (A & B & C); auto.
  { intros e He. exists j. eapply Permutation_in; eauto. }
  { eapply Permutation_NoDup; [|apply (nodup_group j p st Hst)].
    apply Permutation_map. now symmetry. }
  { constructor. }
  assert (Hin : forall n, existsb (fun e => String.eqb (epath e) (path_in p n)) l = true <->
                          n = "t" \/ In n (akeys (pstate st))).
  { intros n. rewrite existsb_exists. split.
    - intros (e & He & E). apply String.eqb_eq in E.
      apply (Permutation_in _ Hperm) in He. destruct He as [<-|He].
      + cbn in E. unfold path_in in E. apply string_app_inj in E. injection E. auto.
      + apply in_map_iff in He as ([m a] & <- & Hin). cbn in E.
        unfold path_in in E. apply string_app_inj in E. injection E as ->.
        right. apply in_map_iff. exists (n, a). auto.
    - intros [->|H].
      + exists (mkEntry (path_in p "t") j (DT (iter st))). split; [|apply String.eqb_refl].
        eapply Permutation_in; [symmetry; exact Hperm|]. cbn; auto.
      + apply aget_some in H as [a Ha]. apply aget_in in Ha.
        exists (mkEntry (path_in p n) j (DArr a)). split; [|apply String.eqb_refl].
        eapply Permutation_in; [symmetry; exact Hperm|]. right.
        apply in_map_iff. exists (n, a). auto. }
  assert (Hget : forall n, aget n (pstate (fold_left step l (mkState [] 0))) = aget n (pstate st)).
  { intros n. rewrite C.
    destruct (existsb (fun e => String.eqb (epath e) (path_in p n)) l) eqn:E; cbn.
    - destruct (String.eqb_spec n "t"); cbn; auto.
      subst. symmetry. apply aget_none. intros H. apply Hst, Hns in H. tauto.
    - symmetry. apply aget_none. intros H.
      assert (n = "t" \/ In n (akeys (pstate st))) as H' by auto.
      apply Hin in H'. congruence. }
  split; [split|split].
  - rewrite B. replace (existsb (fun e => String.eqb (epath e) (path_in p "t")) l) with true; auto.
    symmetry. apply Hin. auto.
  - exact Hget.
  - exact A.
  - intros n. rewrite <- (proj2 Hst n), !aget_some, Hget. reflexivity.
Qed.

Lemma insert_key_perm x l : Permutation (insert_key x l) (x :: l).
Proof.
  induction l as [|y l IH]; cbn; auto. destruct (Nat.leb _ _); auto.
  rewrite IH. apply perm_swap.
Qed.
Lemma sort_keys_perm l : Permutation (sort_keys l) l.
Proof. induction l as [|x l IH]; cbn; auto. rewrite insert_key_perm. auto. Qed.

Lemma pkeys_in (sts : amap sstate) visit x :
  Forall (fun kv => names_of (state_names k) (snd kv)) sts ->
  Permutation visit (all_entries 0 sts) ->
  In x (map snd (sort_keys (pkeys visit))) <-> In x (akeys sts).
Proof.
  intros Hs Hv. split.
  - intros H. apply in_map_iff in H as ([i p] & <- & H). cbn.
    apply (Permutation_in _ (sort_keys_perm _)) in H. unfold pkeys in H.
    apply nodup_In in H. apply in_map_iff in H as (e & E & He). injection E as <- <-.
    apply (Permutation_in _ Hv) in He.
    apply all_entries_in in He as (q & st & j & H1 & _ & _ & _ & H5).
    rewrite Forall_forall in Hs. specialize (Hs _ H1).
    apply (group_path j q st e Hs) in H5 as (n & E1 & E2 & _). rewrite E1, parent_path; auto.
    apply in_map_iff. exists (q, st). auto.
  - intros H. apply in_map_iff in H as ([p st] & <- & H). cbn.
    assert (Hex : exists i, In (mkEntry (path_in p "t") i (DT (iter st))) (all_entries 0 sts)).
    { clear -H. generalize 0. induction sts as [|[q st'] sts IH]; cbn in H; [tauto|].
      intros i. destruct H as [[= -> ->]|H].
      - exists i. cbn. auto.
      - destruct (IH H (S i)) as [j Hj]. exists j. cbn [all_entries]. apply in_or_app; auto. }
    destruct Hex as [i Hi]. apply in_map_iff. exists (i, p). split; auto.
    apply (Permutation_in _ (Permutation_sym (sort_keys_perm _))). unfold pkeys.
    apply nodup_In. apply in_map_iff. eexists. split; [|eapply Permutation_in; [symmetry; exact Hv|exact Hi]].
    cbn. f_equal. now apply parent_path.
Qed.

Lemma fold_collect visit ks : forall m,
  NoDup (akeys m) ->
  NoDup (akeys (fold_left (fun m (x : nat * string) => aput (snd x) (collect visit (snd x)) m) ks m)) /\
  forall x, aget x (fold_left (fun m (x : nat * string) => aput (snd x) (collect visit (snd x)) m) ks m)
   = if existsb (String.eqb x) (map snd ks) then Some (collect visit x) else aget x m.
Proof.
  induction ks as [|[i p] ks IH]; cbn [fold_left map existsb snd]; intros m Hm; auto.
  destruct (IH (aput p (collect visit p) m)) as [A B]; [now apply nodup_aput|].
  split; auto. intros x. rewrite B, aget_aput.
  destruct (String.eqb_spec x p); cbn; auto. subst. now destruct (existsb _ _).
Qed.

Lemma set_states_ok s (sts : amap sstate) :
  NoDup (akeys sts) ->
  Forall (fun kv => names_of (state_names k) (snd kv)) sts ->
  (forall x, In x (akeys sts) <-> In x (akeys (states s))) ->
  snd (set_states s sts) = None /\ same_states (states (fst (set_states s sts))) sts.
Proof.
  intros Hn Hs Hk. unfold set_states.
  assert (Hok : snd (set_states_cpp s (convert_states [] sts)) = None).
  { apply set_states_cpp_ok. intros x. rewrite akeys_convert. apply Hk. }
  split; auto. intros x. rewrite set_states_cpp_get; auto; [|now rewrite akeys_convert].
  assert (Hc := convert_same (state_names k) sts [] ltac:(cbn; tauto) ltac:(constructor) Hs).
  assert (Hrel : match aget x (convert_states [] sts), aget x sts with
                 | Some a, Some b => same_state a b
                 | None, None => True
                 | _, _ => False end).
  { clear -Hc. revert Hc. generalize (convert_states [] sts). intros l Hc.
    induction Hc as [|[a sa] [b sb] l1 l2 H Hc IH]; cbn; auto.
    cbn in H. destruct H as (-> & [E1 E2] & _).
    destruct (String.eqb x b); auto. split; auto. }
  destruct (aget x (convert_states [] sts)), (aget x sts) eqn:E; auto; try tauto.
  destruct (aget x (states s)) eqn:E2; auto.
  apply aget_none in E. apply E, Hk, aget_some; eauto.
Qed.

Lemma same_states_trans a b c : same_states a b -> same_states b c -> same_states a c.
Proof.
  intros H1 H2 x. specialize (H1 x). specialize (H2 x).
  destruct (aget x a), (aget x b), (aget x c); auto; try tauto.
  destruct H1 as [A B], H2 as [C D]. split; [congruence|]. intros n. now rewrite B.
Qed.

Lemma inv_forall s : inv k s -> Forall (fun kv => names_of (state_names k) (snd kv)) (states s).
Proof.
  intros [_ _ H3 _ _ H6 _]. apply Forall_forall. intros [x st] H. cbn. apply (H6 x).
  now apply in_aget.
Qed.

Theorem h5_roundtrip s s' :
  inv k s -> prefix_free (akeys (states s)) ->
  (forall x, In x (akeys (states s')) <-> In x (akeys (states s))) ->
  exists f, save_h5 s = Some f /\
    forall visit, Permutation visit f ->
      snd (load_h5 s' visit) = None /\
      same_states (states (fst (load_h5 s' visit))) (states s).
Proof.
  intros Hi Hp Hk. assert (Hf := inv_forall s Hi).
  destruct (save_from_ok (states s) 0 [] []) as [f Hsave]; auto.
  { intros e []. }
  { apply Hi. }
  exists f. split; [exact Hsave|]. apply save_from_eq in Hsave. cbn in Hsave. subst f.
  intros visit Hv. unfold load_h5.
  set (m := fold_left _ _ _).
  destruct (fold_collect visit (sort_keys (pkeys visit)) []) as [A B]; [constructor|].
  fold m in A, B.
  assert (Hget : forall x, aget x m = match aget x (states s) with
                                      | Some _ => Some (collect visit x) | None => None end).
  { intros x. rewrite B.
    destruct (existsb (String.eqb x) (map snd (sort_keys (pkeys visit)))) eqn:E.
    - apply existsb_eqb in E. apply (pkeys_in (states s)) in E; auto.
      apply aget_some in E as [st ->]. reflexivity.
    - destruct (aget x (states s)) eqn:E2; auto. exfalso.
      assert (In x (akeys (states s))) as Hin by (apply aget_some; eauto).
      apply (pkeys_in (states s) visit) in Hin; auto.
      apply existsb_eqb in Hin. congruence. }
  assert (Hsame : same_states m (states s)).
  { intros x. rewrite Hget. destruct (aget x (states s)) eqn:E; auto.
    eapply (collect_ok (states s)); eauto. apply Hi. }
  assert (Hkeys : forall x, In x (akeys m) <-> In x (akeys (states s'))).
  { intros x. rewrite Hk, !aget_some. rewrite Hget. destruct (aget x (states s)); split; eauto. }
  assert (Hfm : Forall (fun kv => names_of (state_names k) (snd kv)) m).
  { apply Forall_forall. intros [x st] Hin. cbn. apply in_aget in Hin; auto.
    rewrite Hget in Hin. destruct (aget x (states s)) as [st'|] eqn:E; [|discriminate].
    injection Hin as <-. eapply (collect_ok (states s)); eauto. apply Hi. }
  destruct (set_states_ok s' m A Hfm Hkeys) as [C D].
  split; auto. eapply same_states_trans; eauto.
Qed.

Lemma save_pb_ok (sts : amap sstate) : forall m,
  NoDup (akeys m) -> Forall (fun kv => names_of (state_names k) (snd kv)) sts ->
  Forall (fun kv => names_of (state_names k) (snd kv)) m ->
  NoDup (akeys sts) ->
  let r := fold_left (fun m kv =>
    aput (fst kv)
         (mkState (fold_left (fun a nv => aput (fst nv) (snd nv) a) (pstate (snd kv)) [])
                  (iter (snd kv))) m) sts m in
  NoDup (akeys r) /\ Forall (fun kv => names_of (state_names k) (snd kv)) r /\
  forall x, match aget x r with
            | Some a => match aget x sts with
                        | Some b => same_state a b
                        | None => aget x m = Some a
                        end
            | None => aget x sts = None /\ aget x m = None
            end.
Proof.
  induction sts as [|[p st] sts IH]; cbn [fold_left fst snd]; intros m Hm Hs Hfm Hn.
  - cbn. repeat split; auto. intros x. destruct (aget x m); auto.
  - inversion Hs; subst. inversion Hn; subst. cbn in H1. destruct H1 as [K1 K2].
    set (c := mkState _ _).
    assert (Hc : names_of (state_names k) c).
    { split; cbn.
      - apply nodup_fold_put. constructor.
      - intros n. rewrite akeys_fold_put, K2. cbn. tauto. }
    destruct (IH (aput p c m)) as (A & B & C); auto.
    + now apply nodup_aput.
    + apply Forall_forall. intros [x y] Hin. apply in_aget in Hin; [|now apply nodup_aput].
      rewrite aget_aput in Hin. destruct (String.eqb x p).
      * injection Hin as <-. exact Hc.
      * apply aget_in in Hin. rewrite Forall_forall in Hfm. now apply (Hfm (x, y)).
    + split; [exact A|]. split; [exact B|]. intros x. specialize (C x).
      destruct (aget x _) eqn:E.
      * destruct (aget x sts) eqn:E2.
        -- cbn. destruct (String.eqb_spec x p); [|rewrite E2; auto].
           subst. exfalso. apply H3. assert (In p (akeys sts)) by (apply aget_some; eauto). auto.
        -- rewrite aget_aput in C. cbn. destruct (String.eqb x p).
           ++ injection C as <-. split; auto. intros n. cbn. rewrite aget_fold_put; auto.
              destruct (aget n (pstate st)); auto.
           ++ now rewrite E2.
      * destruct C as [C1 C2]. rewrite aget_aput in C2. cbn. destruct (String.eqb x p); [discriminate|].
        auto.
Qed.

Theorem pb_roundtrip s s' msg :
  inv k s -> Permutation msg (save_pb s) ->
  (forall x, In x (akeys (states s')) <-> In x (akeys (states s))) ->
  snd (load_pb s' msg) = None /\ same_states (states (fst (load_pb s' msg))) (states s).
Proof.
  intros Hi Hp Hk. assert (Hf := inv_forall s Hi).
  destruct (save_pb_ok (states s) []) as (A & B & C); [constructor|exact Hf|constructor|apply Hi|].
  fold (save_pb s) in A, B, C.
  assert (Hn : NoDup (akeys msg)).
  { unfold akeys. eapply Permutation_NoDup; [|exact A]. apply Permutation_map. now symmetry. }
  assert (Hsame : same_states msg (states s)).
  { intros x. rewrite (aget_perm x msg (save_pb s)); auto. specialize (C x).
    destruct (aget x (save_pb s)).
    - destruct (aget x (states s)); auto. discriminate.
    - destruct C as [-> _]. auto. }
  destruct (set_states_ok s' msg) as [D E]; auto.
  - rewrite Forall_forall in *. intros kv Hin. apply B. eapply Permutation_in; eauto.
  - intros x. rewrite Hk, !aget_some. specialize (Hsame x).
    destruct (aget x msg), (aget x (states s)); split; intros G; eauto; try tauto; destruct G; discriminate.
  - split; auto. eapply same_states_trans; eauto.
Qed.
End Files.
