(** C28: generated names in a graph definition. *)
From Coq Require Import String Ascii List Arith Bool DecimalString DecimalNat Lia.
From Verif Require Import Assoc NameModel NameProofs.
Import ListNotations.
Local Open Scope string_scope.
Local Open Scope list_scope.

(** The names generated for a list of requests are pairwise distinct exactly when no request
    is the name generated for a repetition of another one. *)
Theorem C28_unique_partial : forall ps,
  NoDup (unique_names [] ps) <->
  (forall p q k, In p ps -> In q ps -> 1 <= k < count_occ string_dec ps p -> q <> (p ++ "_" ++ decimal k)%string).
Proof. exact nodup_safe. Qed.
Print Assumptions C28_unique_partial.

(** In particular when no request ends in an underscore and a number. *)
Theorem C28_unique_types : forall ps,
  (forall p a k, In p ps -> p <> (a ++ "_" ++ decimal k)%string) -> NoDup (unique_names [] ps).
Proof. intros ps H. apply nodup_safe. intros p q k _ Hq _. apply H. exact Hq. Qed.
Print Assumptions C28_unique_types.

Theorem C28_unique_refuted : unique_names [] ["a"; "a"; "a_1"] = ["a"; "a_1"; "a_1"].
Proof. reflexivity. Qed.
Print Assumptions C28_unique_refuted.

Example C28_unique_example : unique_names [] ["conv"; "relu"; "conv"; "conv"] = ["conv"; "relu"; "conv_1"; "conv_2"].
Proof. reflexivity. Qed.

(** * The recorded network *)
Definition renames_of (cs : list call) : list string :=
  flat_map (fun c => flat_map (fun r => match r with Some u => [u] | None => [] end) (c_renames c)) cs.
(** All names requested for variables while recording. *)
Definition possible (cs : list call) : list string :=
  flat_map (fun c => [c_prefix c ++ "_in"; c_prefix c ++ "_out"]%string) cs ++ renames_of cs.
(** Every input is a variable of the user or an output of an earlier call. *)
Fixpoint calls_ok (next : nat) (cs : list call) : Prop :=
  match cs with
  | [] => True
  | c :: cs => Forall (fun o => o < next) (c_inputs c) /\ calls_ok (next + length (c_renames c)) cs
  end.

Lemma suffix_numbered a w p k : (forall u v, w <> (u ++ String "_" v)%string) -> (forall u, NilEmpty.string_of_uint u <> w) ->
  (a ++ String "_" w)%string <> numbered p k.
Proof.
  intros Hw Hd E. unfold numbered in E. apply app_us_inj in E; auto.
  - destruct E as [_ E]. exact (Hd _ (eq_sym E)).
  - intros u v H. eapply decimal_us; exact H.
Qed.
Lemma uint_not u w : NilEmpty.uint_of_string w = None -> NilEmpty.string_of_uint u <> w.
Proof. intros H E. rewrite <- E, NilEmpty.usu in H. discriminate. Qed.
Lemma in_numbered a p k : (a ++ "_in")%string <> numbered p k.
Proof.
  apply suffix_numbered; [|intros u; apply uint_not; reflexivity].
  intros [|? [|? [|? u]]] v; discriminate.
Qed.
Lemma out_numbered a p k : (a ++ "_out")%string <> numbered p k.
Proof.
  apply suffix_numbered; [|intros u; apply uint_not; reflexivity].
  intros [|? [|? [|? [|? u]]]] v; discriminate.
Qed.

Section Network.
Variables (P : list string) (given : list (nat * string)).
Hypothesis Psafe : forall p q k, In p P -> In q P -> 1 <= k -> q <> numbered p k.
Hypothesis Gdistinct : forall o o' n, In (o, n) given -> In (o', n) given -> o = o'.
Hypothesis Gpossible : forall o n, In (o, n) given -> ~ In n P.
Hypothesis Gnumbered : forall o n p k, In (o, n) given -> In p P -> 1 <= k -> n <> numbered p k.

Definition gen (p : string) (k : nat) : string := match k with O => p | _ => numbered p k end.

Record inv (s : net) (R : list string) : Prop := {
  i_counters : counters (n_var_names s) R;
  i_possible : incl R P;
  i_nodup : NoDup (akeys (n_variables s));
  i_keys : forall n o, aget n (n_variables s) = Some o ->
             (exists p k, In p R /\ k < count_occ string_dec R p /\ n = gen p k) \/ In (o, n) given;
  i_names : forall o n, name_of o (n_names s) = Some n -> In (o, n) given \/ aget n (n_variables s) = Some o;
  i_next : forall n o, aget n (n_variables s) = Some o -> o < n_next s;
  i_log : forall r n o, In r (n_log s) -> In (n, o) (r_in r ++ r_out r) -> aget n (n_variables s) = Some o }.

Lemma expected_fresh s R p : inv s R -> In p P -> aget (expected R p) (n_variables s) = None.
Proof.
  intros I Hp. destruct (aget (expected R p) (n_variables s)) as [o|] eqn:E; auto. exfalso.
  apply (i_keys s R I) in E as [(q & j & Hq & Hj & E)|E].
  - unfold expected, gen in E. destruct (count_occ string_dec R p) as [|a] eqn:Ca, j as [|j].
    + subst q. lia.
    + apply (Psafe q p (S j)); auto; [apply (i_possible s R I); auto|lia].
    + symmetry in E. apply (Psafe p q (S a)) in E; auto; [apply (i_possible s R I); auto|lia].
    + apply numbered_inj in E as [-> E]. lia.
  - unfold expected in E. destruct (count_occ string_dec R p) as [|a].
    + eapply Gpossible; eauto.
    + eapply (Gnumbered o _ p (S a)); eauto. lia.
Qed.
Lemma gen_snoc R p n : (exists q k, In q R /\ k < count_occ string_dec R q /\ n = gen q k) ->
  exists q k, In q (R ++ [p]) /\ k < count_occ string_dec (R ++ [p]) q /\ n = gen q k.
Proof.
  intros (q & k & H & Hk & E). exists q, k. split; [apply in_app_iff; auto|]. split; auto. rewrite count_occ_app. lia.
Qed.
Lemma gen_new R p : exists q k, In q (R ++ [p]) /\ k < count_occ string_dec (R ++ [p]) q /\ expected R p = gen q k.
Proof.
  exists p, (count_occ string_dec R p). split; [apply in_app_iff; cbn; auto|]. split.
  - rewrite count_occ_app. cbn. destruct (string_dec p p); [lia|congruence].
  - unfold expected, gen. destruct (count_occ string_dec R p); auto.
Qed.
Lemma aget_fresh_keep {A} k (v : A) m n o : aget k m = None -> aget n m = Some o -> aget n (aput k v m) = Some o.
Proof. intros F H. rewrite aget_aput. destruct (String.eqb_spec n k); [congruence|auto]. Qed.
Lemma key_of_some o m k : NoDup (akeys m) -> key_of o m = Some k -> aget k m = Some o.
Proof.
  unfold key_of. intros N H. destruct (find _ m) as [[k' o']|] eqn:E; [|discriminate]. cbn in H. injection H as ->.
  apply find_some in E as [E1 E2]. cbn in E2. apply Nat.eqb_eq in E2. subst o'. apply in_aget; auto.
Qed.
Lemma key_of_none o m k : key_of o m = None -> aget k m <> Some o.
Proof.
  unfold key_of. intros H E. destruct (find _ m) as [[k' o']|] eqn:F; [discriminate|].
  apply aget_in in E. apply (find_none _ _ F) in E. cbn in E. rewrite Nat.eqb_refl in E. discriminate.
Qed.

(** Inputs and outputs keep the invariant, and their names look up the objects from then
    on. *)
Definition extends (s s' : net) : Prop :=
  (forall n o, aget n (n_variables s) = Some o -> aget n (n_variables s') = Some o)
  /\ n_log s' = n_log s /\ n_func_names s' = n_func_names s /\ n_next s <= n_next s'.
Lemma extends_refl s : extends s s. Proof. split; auto. Qed.
Lemma extends_trans a b c : extends a b -> extends b c -> extends a c.
Proof. intros (A1 & A2 & A3 & A4) (B1 & B2 & B3 & B4). split; auto. split; [congruence|]. split; [congruence|lia]. Qed.

Lemma add_input_inv prefix o s R n s' : inv s R -> In (prefix ++ "_in")%string P -> o < n_next s ->
  add_input prefix o s = (n, s') ->
  (exists R', inv s' R') /\ aget n (n_variables s') = Some o /\ extends s s' /\ n_next s' = n_next s.
Proof.
  intros I Hp Ho H. unfold add_input in H. destruct (key_of o (n_variables s)) as [k|] eqn:K.
  - injection H as <- <-. split; [eauto|]. split; [apply key_of_some; auto; apply (i_nodup s R I)|]. split; [apply extends_refl|auto].
  - destruct (name_of o (n_names s)) as [u|] eqn:Nm.
    + injection H as <- <-. cbn.
      assert (Gu : In (o, u) given).
      { destruct (i_names s R I _ _ Nm) as [G|G]; auto. exfalso. eapply key_of_none; eauto. }
      assert (F : aget u (n_variables s) = None).
      { destruct (aget u (n_variables s)) as [o'|] eqn:E; auto. exfalso.
        pose proof E as E'. apply (i_keys s R I) in E as [(q & j & Hq & Hj & E)|E].
        - destruct j as [|j]; cbn in E; subst.
          + eapply Gpossible; eauto. apply (i_possible s R I); auto.
          + eapply (Gnumbered o _ q (S j)); eauto; [apply (i_possible s R I); auto|lia].
        - assert (o' = o) by (eapply Gdistinct; eauto). subst. eapply key_of_none; eauto. }
      split; [|split; [rewrite aget_aput, String.eqb_refl; auto|split; [|auto]]].
      * exists R. constructor; cbn.
        -- apply (i_counters s R I).
        -- apply (i_possible s R I).
        -- apply nodup_aput. apply (i_nodup s R I).
        -- intros n o'. rewrite aget_aput. destruct (String.eqb_spec n u) as [->|]; [|apply (i_keys s R I)].
           intros [= <-]. auto.
        -- intros o' n H. destruct (i_names s R I _ _ H) as [|H']; auto. right. apply aget_fresh_keep; auto.
        -- intros n o'. rewrite aget_aput. destruct (String.eqb_spec n u); [|apply (i_next s R I)]. intros [= <-]. auto.
        -- intros r n o' Hr Hn. apply aget_fresh_keep; auto. eapply (i_log s R I); eauto.
      * split; cbn; auto. intros n o' Hn. apply aget_fresh_keep; auto.
    + destruct (unique_name_spec _ _ (prefix ++ "_in")%string (i_counters s R I)) as (vn & E & C). rewrite E in H.
      injection H as <- <-. cbn.
      pose proof (expected_fresh s R _ I Hp) as F.
      split; [|split; [rewrite aget_aput, String.eqb_refl; auto|split; [|auto]]].
      * exists (R ++ [(prefix ++ "_in")%string]). constructor; cbn.
        -- exact C.
        -- apply incl_app; [apply (i_possible s R I)|]. intros x [<-|[]]. auto.
        -- apply nodup_aput. apply (i_nodup s R I).
        -- intros n o'. rewrite aget_aput. destruct (String.eqb_spec n (expected R (prefix ++ "_in"))) as [->|].
           ++ intros _. left. apply gen_new.
           ++ intros H. apply (i_keys s R I) in H as [H|H]; auto. left. apply gen_snoc; auto.
        -- intros o' n H. unfold name_of in H. cbn in H. destruct (Nat.eqb_spec o o') as [->|].
           ++ injection H as <-. right. rewrite aget_aput, String.eqb_refl. auto.
           ++ destruct (i_names s R I o' n) as [|H']; auto. right. apply aget_fresh_keep; auto.
        -- intros n o'. rewrite aget_aput. destruct (String.eqb_spec n (expected R (prefix ++ "_in"))); [|apply (i_next s R I)]. intros [= <-]. auto.
        -- intros r n o' Hr Hn. apply aget_fresh_keep; auto. eapply (i_log s R I); eauto.
      * split; cbn; auto. intros n o' Hn. apply aget_fresh_keep; auto.
Qed.
Lemma add_inputs_inv prefix : In (prefix ++ "_in")%string P -> forall os s R l s',
  inv s R -> Forall (fun o => o < n_next s) os -> add_inputs prefix os s = (l, s') ->
  (exists R', inv s' R') /\ (forall n o, In (n, o) l -> aget n (n_variables s') = Some o) /\ extends s s' /\ n_next s' = n_next s /\ map snd l = os.
Proof.
  intros Hp os. induction os as [|o os IH]; intros s R l s' I F H; cbn in H.
  - injection H as <- <-. split; [eauto|]. split; [intros n o []|]. split; [apply extends_refl|auto].
  - destruct (add_input prefix o s) as [n s1] eqn:E1. destruct (add_inputs prefix os s1) as [l1 s2] eqn:E2. injection H as <- <-.
    inversion F as [|? ? Fo Fs]; subst.
    destruct (add_input_inv _ _ _ _ _ _ I Hp Fo E1) as ((R1 & I1) & G1 & X1 & N1).
    destruct (IH s1 R1 l1 s2 I1) as ((R2 & I2) & G2 & X2 & N2 & M2); auto.
    { rewrite N1. exact Fs. }
    split; [eauto|]. split; [|split; [eapply extends_trans; eauto|split; [congruence|cbn; congruence]]].
    intros n' o' [E|E]; [|eauto]. injection E as <- <-. apply X2. exact G1.
Qed.
Lemma add_output_inv prefix rename s R n o s' : inv s R ->
  In (prefix ++ "_out")%string P -> (forall u, rename = Some u -> In u P) ->
  add_output prefix rename s = Some (n, o, s') ->
  (exists R', inv s' R') /\ aget n (n_variables s') = Some o /\ extends s s' /\ o = n_next s /\ n_next s' = S (n_next s).
Proof.
  intros I Hp Hu H. unfold add_output in H.
  set (p := match rename with Some u => u | None => (prefix ++ "_out")%string end) in *.
  assert (Hpp : In p P) by (unfold p; destruct rename; auto).
  destruct (unique_name_spec _ _ p (i_counters s R I)) as (vn & E & C). rewrite E in H.
  match type of H with (if ?b then _ else _) = _ => destruct b; [discriminate|] end. injection H as <- <- <-. cbn.
  pose proof (expected_fresh s R _ I Hpp) as F.
  split; [|split; [rewrite aget_aput, String.eqb_refl; auto|split; [|auto]]].
  - exists (R ++ [p]). constructor; cbn.
    + exact C.
    + apply incl_app; [apply (i_possible s R I)|]. intros x [<-|[]]. auto.
    + apply nodup_aput. apply (i_nodup s R I).
    + intros n o'. rewrite aget_aput. destruct (String.eqb_spec n (expected R p)) as [->|].
      * intros _. left. apply gen_new.
      * intros H. apply (i_keys s R I) in H as [H|H]; auto. left. apply gen_snoc; auto.
    + intros o' n H. unfold name_of in H. cbn in H. destruct (n_next s =? o')%nat eqn:En.
      * apply Nat.eqb_eq in En. subst o'. injection H as <-. right. rewrite aget_aput, String.eqb_refl. auto.
      * destruct (i_names s R I o' n) as [|H']; auto. right. apply aget_fresh_keep; auto.
    + intros n o'. rewrite aget_aput. destruct (String.eqb_spec n (expected R p)); [intros [= <-]; lia|]. intros H. apply (i_next s R I) in H. lia.
    + intros r n o' Hr Hn. apply aget_fresh_keep; auto. eapply (i_log s R I); eauto.
  - split; cbn; auto. intros n o' Hn. apply aget_fresh_keep; auto.
Qed.
Lemma add_outputs_inv prefix : In (prefix ++ "_out")%string P -> forall rs s R l s',
  inv s R -> (forall u, In (Some u) rs -> In u P) -> add_outputs prefix rs s = Some (l, s') ->
  (exists R', inv s' R') /\ (forall n o, In (n, o) l -> aget n (n_variables s') = Some o) /\ extends s s'
  /\ n_next s' = n_next s + length rs /\ map snd l = seq (n_next s) (length rs).
Proof.
  intros Hp rs. induction rs as [|r rs IH]; intros s R l s' I F H; cbn in H.
  - injection H as <- <-. split; [eauto|]. split; [intros n o []|]. split; [apply extends_refl|cbn; auto].
  - destruct (add_output prefix r s) as [[[n o] s1]|] eqn:E1; [|discriminate].
    destruct (add_outputs prefix rs s1) as [[l1 s2]|] eqn:E2; [|discriminate]. injection H as <- <-.
    assert (Fr : forall u, r = Some u -> In u P) by (intros u Eu; apply F; left; auto).
    destruct (add_output_inv _ _ _ _ _ _ _ I Hp Fr E1) as ((R1 & I1) & G1 & X1 & O1 & N1).
    destruct (IH s1 R1 l1 s2 I1) as ((R2 & I2) & G2 & X2 & N2 & M2); auto.
    { intros u Hu. apply F. right. auto. }
    split; [eauto|]. split; [|split; [eapply extends_trans; eauto|split; [cbn; lia|]]].
    + intros n' o' [E|E]; [|eauto]. injection E as <- <-. apply X2. exact G1.
    + cbn. rewrite M2, N1, O1. reflexivity.
Qed.

Lemma record_inv : forall cs s R s', inv s R -> calls_ok (n_next s) cs ->
  (forall c, In c cs -> In (c_prefix c ++ "_in")%string P /\ In (c_prefix c ++ "_out")%string P /\ forall u, In (Some u) (c_renames c) -> In u P) ->
  record_net cs s = Some s' ->
  (forall r n o, In r (n_log s') -> In (n, o) (r_in r ++ r_out r) -> aget n (n_variables s') = Some o)
  /\ exists log, n_log s' = n_log s ++ log
     /\ map (fun r => map snd (r_in r)) log = map c_inputs cs
     /\ flat_map (fun r => map snd (r_out r)) log = seq (n_next s) (length (flat_map c_renames cs))
     /\ map r_name log = unique_names (n_func_names s) (map c_prefix cs).
Proof.
  induction cs as [|c cs IH]; intros s R s' I W HP H; cbn in H.
  - injection H as <-. split; [exact (i_log s R I)|]. exists []. rewrite app_nil_r. repeat split; auto.
  - destruct (proto_call c s) as [s1|] eqn:E; [|discriminate]. unfold proto_call in E.
    destruct W as [W1 W2]. destruct (HP c (or_introl eq_refl)) as (P1 & P2 & P3).
    cbn [map unique_names]. destruct (unique_name (n_func_names s) (c_prefix c)) as [fname fn] eqn:Ef.
    match type of E with context[add_inputs _ _ ?s0] => set (s0' := s0) in E end.
    assert (I0 : inv s0' R) by (destruct I; constructor; assumption).
    destruct (add_inputs (c_prefix c) (c_inputs c) s0') as [li s2] eqn:Ei.
    destruct (add_inputs_inv _ P1 _ _ _ _ _ I0 W1 Ei) as ((R2 & I2) & G2 & X2 & N2 & M2).
    destruct (add_outputs (c_prefix c) (c_renames c) s2) as [[lo s3]|] eqn:Eo; [|discriminate].
    destruct (add_outputs_inv _ P2 _ _ _ _ _ I2 P3 Eo) as ((R3 & I3) & G3 & X3 & N3 & M3).
    injection E as <-.
    match type of H with record_net cs ?s4 = _ => set (s4' := s4) in H end.
    assert (I4 : inv s4' R3).
    { constructor; try apply I3; cbn.
      intros r n o Hr Hn. apply in_app_iff in Hr as [Hr|[<-|[]]]; [eapply (i_log s3 R3 I3); eauto|]. cbn in Hn.
      apply in_app_iff in Hn as [Hn|Hn]; [apply X3; auto|auto]. }
    assert (Nn : n_next s4' = n_next s + length (c_renames c)) by (cbn; rewrite N3, N2; reflexivity).
    destruct (IH s4' R3 s' I4) as (L & log & Hl & Hi & Ho & Hf); auto.
    { rewrite Nn. exact W2. }
    { intros c' Hc'. apply HP. right. auto. }
    split; [exact L|].
    exists ({| r_name := fname; r_in := li; r_out := lo |} :: log).
    destruct X2 as (_ & L2 & F2 & _), X3 as (_ & L3 & F3 & _).
    split; [rewrite Hl; cbn; rewrite L3, L2, <- app_assoc; reflexivity|].
    split; [cbn; congruence|]. split.
    + cbn. rewrite Ho, M3, Nn, N2, app_length, seq_app. reflexivity.
    + cbn. rewrite Hf. cbn. rewrite F3, F2. reflexivity.
Qed.
End Network.

(** Recording any sequence of calls that succeeds, where no name given by the user (to an
    input or to an output) is one that could be generated: every name recorded for an input
    or output of a function stands for that input or output in the finished network, and
    the names of the outputs are pairwise distinct.  The function names are pairwise
    distinct if no prefix ends in an underscore and a number. *)
Theorem C28_network_partial :
  forall cs given next s,
  record_net cs (start given next) = Some s -> calls_ok next cs ->
  NoDup (map snd given) ->
  (forall u p k, In u (renames_of cs) -> In p (possible cs) -> 1 <= k -> u <> (p ++ "_" ++ decimal k)%string) ->
  (forall u p k, In u (map snd given) -> In p (possible cs) -> 1 <= k -> u <> p /\ u <> (p ++ "_" ++ decimal k)%string) ->
  map (fun r => map snd (r_in r)) (n_log s) = map c_inputs cs
  /\ flat_map (fun r => map snd (r_out r)) (n_log s) = seq next (length (flat_map c_renames cs))
  /\ (forall r n o, In r (n_log s) -> In (n, o) (r_in r ++ r_out r) -> aget n (n_variables s) = Some o)
  /\ NoDup (flat_map (fun r => map fst (r_out r)) (n_log s))
  /\ ((forall c a k, In c cs -> c_prefix c <> (a ++ "_" ++ decimal k)%string) -> NoDup (map r_name (n_log s))).
Proof.
  intros cs given next s H W Gn Hr Hg.
  assert (Hs : forall p q k, In p (possible cs) -> In q (possible cs) -> 1 <= k -> q <> numbered p k).
  { intros p q k Hp Hq Hk. unfold possible in Hq. apply in_app_iff in Hq as [Hq|Hq]; [|apply Hr; auto].
    apply in_flat_map in Hq as (c & _ & [<-|[<-|[]]]); [apply in_numbered|apply out_numbered]. }
  assert (Gd : forall o o' n, In (o, n) given -> In (o', n) given -> o = o').
  { clear - Gn. induction given as [|[o1 n1] g IH]; intros o o' n; [intros []|]. cbn in Gn. inversion Gn as [|? ? G1 G2]; subst.
    intros [E|E] [E'|E'].
    - congruence.
    - injection E as <- <-. exfalso. apply G1. apply in_map_iff. exists (o', n1). auto.
    - injection E' as <- <-. exfalso. apply G1. apply in_map_iff. exists (o, n1). auto.
    - eapply IH; eauto. }
  assert (Gp : forall o n, In (o, n) given -> ~ In n (possible cs)).
  { intros o n G Hin. destruct (Hg n n 1) as [E _]; auto. apply in_map_iff. exists (o, n). auto. }
  assert (Gm : forall o n p k, In (o, n) given -> In p (possible cs) -> 1 <= k -> n <> numbered p k).
  { intros o n p k G Hp Hk. destruct (Hg n p k) as [_ E]; auto. apply in_map_iff. exists (o, n). auto. }
  assert (I : inv (possible cs) given (start given next) []).
  { constructor; cbn; try discriminate; auto.
    - apply counters_nil.
    - intros x [].
    - constructor.
    - intros o n E. left. unfold name_of in E. destruct (find _ given) as [[o' n']|] eqn:F; [|discriminate].
      apply find_some in F as [F1 F2]. cbn in F2, E. apply Nat.eqb_eq in F2. congruence.
    - intros r n o []. }
  destruct (record_inv (possible cs) given Hs Gd Gp Gm cs (start given next) [] s I) as (L & log & El & Hi & Ho & Hf); auto.
  { intros c Hc. unfold possible. split; [|split].
    - apply in_app_iff. left. apply in_flat_map. exists c. split; auto. left. auto.
    - apply in_app_iff. left. apply in_flat_map. exists c. split; auto. right. left. auto.
    - intros u Hu. apply in_app_iff. right. unfold renames_of. apply in_flat_map. exists c. split; auto.
      apply in_flat_map. exists (Some u). split; auto. left. auto. }
  cbn in El, Ho, Hf. rewrite El in *. split; [exact Hi|]. split; [exact Ho|]. split; [exact L|]. split.
  - assert (Lo : forall n o, In (n, o) (flat_map r_out log) -> aget n (n_variables s) = Some o).
    { intros n o Hin. apply in_flat_map in Hin as (r & Hr1 & Hr2). eapply L; eauto. apply in_app_iff. auto. }
    assert (D : NoDup (map snd (flat_map r_out log))).
    { replace (map snd (flat_map r_out log)) with (flat_map (fun r => map snd (r_out r)) log).
      - rewrite Ho. apply seq_NoDup.
      - clear. induction log; cbn; auto. rewrite map_app. congruence. }
    replace (flat_map (fun r => map fst (r_out r)) log) with (map fst (flat_map r_out log)).
    2:{ clear. induction log; cbn; auto. rewrite map_app. congruence. }
    revert Lo D. generalize (flat_map r_out log). intros l Lo D. induction l as [|[n o] l IH]; cbn in *; constructor.
    + intros Hin. apply in_map_iff in Hin as ([n' o'] & En & Hin). cbn in En. subst n'.
      pose proof (Lo n o (or_introl eq_refl)). pose proof (Lo n o' (or_intror Hin)). assert (o = o') by congruence. subst o'.
      inversion D as [|? ? D1 D2]; subst. apply D1. apply in_map_iff. exists (n, o). auto.
    + apply IH; [intros n' o' Hin; apply Lo; auto|]. inversion D; auto.
  - intros Hc. rewrite Hf. apply C28_unique_types. intros p a k Hp. apply in_map_iff in Hp as (c & <- & Hcin). apply Hc. exact Hcin.
Qed.
Print Assumptions C28_network_partial.

Example C28_network_example :
  exists s, record_net [ {| c_prefix := "Affine"; c_inputs := [0]; c_renames := [None] |};
                         {| c_prefix := "ReLU"; c_inputs := [2]; c_renames := [None] |};
                         {| c_prefix := "Add2"; c_inputs := [3; 1]; c_renames := [Some "y"] |};
                         {| c_prefix := "ReLU"; c_inputs := [4]; c_renames := [None] |} ] (start [(0, "x")] 2) = Some s
    /\ map r_name (n_log s) = ["Affine"; "ReLU"; "Add2"; "ReLU_1"]
    /\ n_variables s = [("x", 0); ("Affine_out", 2); ("ReLU_out", 3); ("Add2_in", 1); ("y", 4); ("ReLU_out_1", 5)].
Proof. eexists. split; [vm_compute; reflexivity|split; reflexivity]. Qed.

(** The condition on names given by the user is needed.  An input named like an output is
    lost: the name of the input of the function stands for its output. *)
Theorem C28_input_refuted :
  exists s, record_net [ {| c_prefix := "ReLU"; c_inputs := [0]; c_renames := [None] |} ] (start [(0, "ReLU_out")] 1) = Some s
    /\ n_log s = [ {| r_name := "ReLU"; r_in := [("ReLU_out", 0)]; r_out := [("ReLU_out", 1)] |} ]
    /\ n_variables s = [("ReLU_out", 1)].
Proof. eexists. split; [vm_compute; reflexivity|split; reflexivity]. Qed.
Print Assumptions C28_input_refuted.
(** An output named by the user like a later generated name is lost without the error for
    names that are not unique. *)
Theorem C28_output_refuted :
  exists s, record_net [ {| c_prefix := "ReLU"; c_inputs := [0]; c_renames := [None] |};
                         {| c_prefix := "ReLU"; c_inputs := [1]; c_renames := [Some "ReLU_out_1"] |};
                         {| c_prefix := "ReLU"; c_inputs := [2]; c_renames := [None] |} ] (start [(0, "x")] 1) = Some s
    /\ flat_map r_out (n_log s) = [("ReLU_out", 1); ("ReLU_out_1", 2); ("ReLU_out_1", 3)]
    /\ aget "ReLU_out_1" (n_variables s) = Some 3.
Proof. eexists. split; [vm_compute; reflexivity|split; reflexivity]. Qed.
Print Assumptions C28_output_refuted.
(** Two inputs given the same name by the user: the first is lost. *)
Theorem C28_given_refuted :
  exists s, record_net [ {| c_prefix := "Add2"; c_inputs := [0; 1]; c_renames := [None] |} ] (start [(0, "x"); (1, "x")] 2) = Some s
    /\ flat_map r_in (n_log s) = [("x", 0); ("x", 1)] /\ aget "x" (n_variables s) = Some 1.
Proof. eexists. split; [vm_compute; reflexivity|split; reflexivity]. Qed.
Print Assumptions C28_given_refuted.
