(** Proofs about backward propagation, part 2: one function. *)
From Coq Require Import List Arith Bool Lia Permutation.
From Verif Require Import CgModel CgSpec BwModel BwSpec BwProofs.
Import ListNotations.
Local Open Scope list_scope.

Lemma geqb_eq x y : garray_eqb x y = true <-> x = y.
Proof.
  destruct x, y; cbn; rewrite ?Nat.eqb_eq; split; intros H; try discriminate; try congruence.
Qed.
Lemma geqb_refl x : garray_eqb x x = true. Proof. apply geqb_eq. reflexivity. Qed.
Lemma geqb_neq x y : garray_eqb x y = false <-> x <> y.
Proof. rewrite <- geqb_eq. destruct (garray_eqb x y); split; congruence. Qed.
Lemma geqb_sym x y : garray_eqb x y = garray_eqb y x.
Proof.
  destruct (garray_eqb x y) eqn:E.
  - apply geqb_eq in E. subst. symmetry. apply geqb_refl.
  - symmetry. apply geqb_neq. apply geqb_neq in E. auto.
Qed.
Lemma mem_nat_in x l : mem_nat x l = true <-> In x l.
Proof.
  unfold mem_nat. rewrite existsb_exists. split.
  - intros (z & H & E). apply Nat.eqb_eq in E. subst. auto.
  - intros H. exists x. split; auto. apply Nat.eqb_refl.
Qed.
Lemma mem_nat_not x l : mem_nat x l = false <-> ~ In x l.
Proof. rewrite <- mem_nat_in. destruct (mem_nat x l); split; congruence. Qed.

(** The list of visited variables. *)
Lemma seen_app l v b u : seen_flag l v = None ->
  (seen_flag (l ++ [(v, b)]) u <> None <-> seen_flag l u <> None \/ u = v).
Proof.
  intros Hv. unfold seen_flag in *.
  destruct (find (fun e => Nat.eqb (fst e) u) l) as [[a c]|] eqn:E.
  - assert (X : find (fun e => Nat.eqb (fst e) u) (l ++ [(v, b)]) = Some (a, c)).
    { clear Hv. induction l as [|h l IH]; cbn in *; [discriminate|]. destruct (Nat.eqb (fst h) u); auto. }
    rewrite X. split; intros; [left|]; congruence.
  - assert (X : find (fun e => Nat.eqb (fst e) u) (l ++ [(v, b)]) = if Nat.eqb v u then Some (v, b) else None).
    { clear Hv. induction l as [|h l IH]; cbn in *; [reflexivity|]. destruct (Nat.eqb (fst h) u); [discriminate|auto]. }
    rewrite X. destruct (Nat.eqb_spec v u); split; intros; try congruence; auto.
    destruct H; congruence.
Qed.
Lemma seen_and l v b u : seen_flag (and_flag l v b) u <> None <-> seen_flag l u <> None.
Proof.
  unfold seen_flag. induction l as [|[a c] l IH]; cbn [and_flag find fst]; [tauto|].
  destruct (Nat.eqb_spec a v) as [->|Hn]; cbn [find fst].
  - destruct (Nat.eqb v u); [split; congruence|reflexivity].
  - destruct (Nat.eqb a u); [split; congruence|]. exact IH.
Qed.

Lemma query_inputs_ok {V} (fd : fn V) : forall ins l bs l', query_inputs fd ins l = (bs, l') ->
  length bs = length ins /\
  (forall i v, nth_error ins i = Some v ->
     nth_error bs i = Some (match seen_flag l v with None => negb (mem_nat v (firstn i ins)) | Some _ => false end)) /\
  (forall u, seen_flag l' u <> None <-> seen_flag l u <> None \/ In u ins).
Proof.
  induction ins as [|v ins IH]; intros l bs l' H; cbn [query_inputs] in H.
  - inversion H; subst. split; [reflexivity|split]; [intros [|i] v; discriminate|cbn; tauto].
  - set (l1 := if match seen_flag l v with None => true | Some _ => false end
               then l ++ [(v, negb (f_prohibit_clear fd))]
               else and_flag l v (negb (f_prohibit_clear fd))) in *.
    assert (S1 : forall u, seen_flag l1 u <> None <-> seen_flag l u <> None \/ u = v).
    { intros u. unfold l1. destruct (seen_flag l v) eqn:E.
      - rewrite seen_and. split; [auto|]. intros [| ->]; auto. congruence.
      - apply seen_app. exact E. }
    destruct (query_inputs fd ins l1) as [bs1 l2] eqn:E2. inversion H; subst bs l2; clear H.
    destruct (IH _ _ _ E2) as (I1 & I2 & I3). split; [cbn; auto|split].
    + intros [|i] u Hu; cbn [nth_error firstn] in *.
      * inversion Hu; subst u. cbn [mem_nat existsb negb]. destruct (seen_flag l v); reflexivity.
      * rewrite (I2 _ _ Hu). specialize (S1 u). cbn [mem_nat existsb]. fold (mem_nat u (firstn i ins)).
        destruct (seen_flag l1 u) eqn:E1, (seen_flag l u) eqn:E0; try reflexivity.
        -- assert (X : None <> None \/ u = v) by (apply S1; congruence). destruct X as [X| ->]; [congruence|].
           rewrite Nat.eqb_refl. reflexivity.
        -- exfalso. assert (X : @None bool <> None) by (apply S1; left; congruence). congruence.
        -- destruct (Nat.eqb_spec u v) as [->|]; [|reflexivity].
           exfalso. assert (X : @None bool <> None) by (apply S1; auto). congruence.
    + intros u. rewrite I3, S1. cbn [In]. assert (u = v <-> v = u) by (split; congruence). tauto.
Qed.

Section Outputs.
Context {V : Type}.
Variable g : graph V.
Variable cb ci given : bool.
Lemma query_outputs_ok : forall outs l fs l', NoDup outs ->
  query_outputs g cb ci given outs l = (fs, l') ->
  length fs = length outs /\
  (forall i v, nth_error outs i = Some v -> exists c,
     nth_error fs i = Some (match seen_flag l v with None => true | Some _ => false end, c) /\
     (c = true -> cb = true /\ v_persistent (var_at g v) = false)) /\
  (forall u, seen_flag l' u <> None <-> seen_flag l u <> None \/ In u outs).
Proof.
  induction outs as [|v outs IH]; intros l fs l' Hnd H; cbn [query_outputs] in H.
  - inversion H; subst. split; [reflexivity|split]; [intros [|i] v; discriminate|cbn; tauto].
  - inversion Hnd; subst.
    set (l1 := if match seen_flag l v with None => true | Some _ => false end
               then l ++ [(v, clear_first ci given)] else l) in *.
    assert (S1 : forall u, seen_flag l1 u <> None <-> seen_flag l u <> None \/ u = v).
    { intros u. unfold l1. destruct (seen_flag l v) eqn:E.
      - split; [auto|]. intros [| ->]; auto. congruence.
      - apply seen_app. exact E. }
    destruct (query_outputs g cb ci given outs l1) as [fs1 l2] eqn:E2. inversion H; subst fs l2; clear H.
    destruct (IH _ _ _ H3 E2) as (I1 & I2 & I3). split; [cbn; auto|split].
    + intros [|i] u Hu; cbn [nth_error] in *.
      * inversion Hu; subst u. eexists. split; [reflexivity|].
        destruct cb; [|discriminate]. destruct (v_persistent (var_at g v)); [discriminate|auto].
      * destruct (I2 _ _ Hu) as (c & C1 & C2). exists c. split; auto. rewrite C1. f_equal. f_equal.
        specialize (S1 u). assert (u <> v) by (intros ->; apply H2; eapply nth_error_In; eauto).
        destruct (seen_flag l1 u) eqn:E1, (seen_flag l u) eqn:E0; try reflexivity.
        -- assert (X : None <> None \/ u = v) by (apply S1; congruence). destruct X; congruence.
        -- exfalso. assert (X : @None bool <> None) by (apply S1; left; congruence). congruence.
    + intros u. rewrite I3, S1. cbn [In]. assert (u = v <-> v = u) by (split; congruence). tauto.
Qed.

End Outputs.

Section One.
Context {V G : Type}.
Variable add : G -> G -> G.
Variable zero : G.
Hypothesis M : comm_monoid add zero.
Variable g : graph V.
Variable s : st V.
Variable d : nat -> nat -> nat -> G -> G.
Variable garr : nat -> nat.
Variable cb ci : bool.
Variable y p : nat.
Variable given : bool.
Notation ng := (need_grad_state g s).
Notation gra := (gra g garr y p given).
Notation root_outs := (root_outs g p).
Notation gsum := (gsum add zero).

Lemma zero_unseen_ok : forall outs flags (b : bst G),
  (forall A, gmem (zero_unseen zero g garr y p given b outs flags) A =
     if existsb (fun e => fst (snd e) && negb (mem_nat (fst e) root_outs) && garray_eqb (gra (fst e)) A)
                (combine outs flags) then Some zero else gmem b A) /\
  (forall A, gzero (zero_unseen zero g garr y p given b outs flags) A =
     if existsb (fun e => fst (snd e) && negb (mem_nat (fst e) root_outs) && garray_eqb (gra (fst e)) A)
                (combine outs flags) then true else gzero b A) /\
  seen (zero_unseen zero g garr y p given b outs flags) = seen b /\
  blog (zero_unseen zero g garr y p given b outs flags) = blog b.
Proof.
  induction outs as [|o outs IH]; intros [|[f c] flags] b; cbn [zero_unseen combine existsb]; auto.
  destruct (IH flags (if f && negb (mem_nat o root_outs) then set_zero zero b (gra o) else b)) as (I1 & I2 & I3 & I4).
  cbn [fst snd].
  split; [|split; [|split]].
  - intros A. rewrite I1. destruct (existsb _ (combine outs flags)); [rewrite orb_true_r; reflexivity|].
    rewrite orb_false_r. destruct (f && negb _); cbn [andb]; [|reflexivity].
    cbn [set_zero gmem]. unfold gupd. rewrite geqb_sym. reflexivity.
  - intros A. rewrite I2. destruct (existsb _ (combine outs flags)); [rewrite orb_true_r; reflexivity|].
    rewrite orb_false_r. destruct (f && negb _); cbn [andb]; [|reflexivity].
    cbn [set_zero gzero]. unfold gupd. rewrite geqb_sym. reflexivity.
  - rewrite I3. destruct (f && negb _); reflexivity.
  - rewrite I4. destruct (f && negb _); reflexivity.
Qed.

Lemma zero_inputs_ok : forall ins acc (b : bst G),
  (forall A, gmem (zero_inputs zero g s garr y p given b ins acc) A =
     if existsb (fun e => ng (fst e) && negb (snd e) && garray_eqb (gra (fst e)) A)
                (combine ins acc) then Some zero else gmem b A) /\
  (forall A, gzero (zero_inputs zero g s garr y p given b ins acc) A =
     if existsb (fun e => ng (fst e) && negb (snd e) && garray_eqb (gra (fst e)) A)
                (combine ins acc) then true else gzero b A) /\
  seen (zero_inputs zero g s garr y p given b ins acc) = seen b /\
  blog (zero_inputs zero g s garr y p given b ins acc) = blog b.
Proof.
  induction ins as [|o ins IH]; intros [|a acc] b; cbn [zero_inputs combine existsb]; auto.
  destruct (IH acc (if ng o && negb a then set_zero zero b (gra o) else b)) as (I1 & I2 & I3 & I4).
  cbn [fst snd].
  split; [|split; [|split]].
  - intros A. rewrite I1. destruct (existsb _ (combine ins acc)); [rewrite orb_true_r; reflexivity|].
    rewrite orb_false_r. destruct (ng o && negb _); cbn [andb]; [|reflexivity].
    cbn [set_zero gmem]. unfold gupd. rewrite geqb_sym. reflexivity.
  - intros A. rewrite I2. destruct (existsb _ (combine ins acc)); [rewrite orb_true_r; reflexivity|].
    rewrite orb_false_r. destruct (ng o && negb _); cbn [andb]; [|reflexivity].
    cbn [set_zero gzero]. unfold gupd. rewrite geqb_sym. reflexivity.
  - rewrite I3. destruct (ng o && negb _); reflexivity.
  - rewrite I4. destruct (ng o && negb _); reflexivity.
Qed.

Lemma clear_outputs_ok : forall outs flags (b : bst G),
  (forall A, gmem (clear_outputs g garr y p given b outs flags) A =
     if existsb (fun e => snd (snd e) && garray_eqb (gra (fst e)) A)
                (combine outs flags) then None else gmem b A) /\
  (forall A, gzero (clear_outputs g garr y p given b outs flags) A =
     if existsb (fun e => snd (snd e) && garray_eqb (gra (fst e)) A)
                (combine outs flags) then false else gzero b A) /\
  seen (clear_outputs g garr y p given b outs flags) = seen b /\
  blog (clear_outputs g garr y p given b outs flags) = blog b.
Proof.
  induction outs as [|o outs IH]; intros [|[f c] flags] b; cbn [clear_outputs combine existsb]; auto.
  destruct (IH flags (if c then set_grad b (gra o) None else b)) as (I1 & I2 & I3 & I4).
  cbn [fst snd].
  split; [|split; [|split]].
  - intros A. rewrite I1. destruct (existsb _ (combine outs flags)); [rewrite orb_true_r; reflexivity|].
    rewrite orb_false_r. destruct c; cbn [andb]; [|reflexivity].
    cbn [set_grad gmem]. unfold gupd. rewrite geqb_sym. reflexivity.
  - intros A. rewrite I2. destruct (existsb _ (combine outs flags)); [rewrite orb_true_r; reflexivity|].
    rewrite orb_false_r. destruct c; cbn [andb]; [|reflexivity].
    cbn [set_grad gzero]. unfold gupd. rewrite geqb_sym. reflexivity.
  - rewrite I3. destruct c; reflexivity.
  - rewrite I4. destruct c; reflexivity.
Qed.

Lemma accum_flags_ok (b : bst G) all : forall ins k firsts, length firsts = length ins ->
  length (accum_flags g s garr y p given b all k ins firsts) = length ins /\
  forall i v f, nth_error ins i = Some v -> nth_error firsts i = Some f ->
    nth_error (accum_flags g s garr y p given b all k ins firsts) i =
    Some (accum_flag g s garr y p given b all (k + i) v f).
Proof.
  induction ins as [|v ins IH]; intros k [|f firsts] Hl; cbn [accum_flags length] in *; try discriminate.
  - split; [reflexivity|]. intros [|i] v f Hv; discriminate.
  - destruct (IH (S k) firsts) as (I1 & I2); [lia|]. split; [cbn; lia|].
    intros [|i] u f' Hu Hf; cbn [nth_error] in *.
    + inversion Hu; inversion Hf; subst. rewrite Nat.add_0_r. reflexivity.
    + rewrite (I2 _ _ _ Hu Hf). f_equal. f_equal. lia.
Qed.

Lemma shared_iff ins i a : shared g garr y p given ins i a = true <->
  exists j u, j <> i /\ nth_error ins j = Some u /\ gra u = a.
Proof.
  unfold shared. rewrite existsb_exists. split.
  - intros ((j & u) & H1 & H2). cbn [fst snd] in H2. apply andb_true_iff in H2 as (H2 & H3).
    apply negb_true_iff in H2. apply Nat.eqb_neq in H2. apply geqb_eq in H3. apply in_pos in H1. exists j, u. auto.
  - intros (j & u & H1 & H2 & H3). exists (j, u). split; [apply in_pos; auto|]. cbn [fst snd].
    apply andb_true_iff. split; [apply negb_true_iff, Nat.eqb_neq; auto|apply geqb_eq; auto].
Qed.

Lemma read_grads_ok (m : garray -> option G) (h : nat -> G) : forall outs,
  (forall o, In o outs -> m (gra o) = Some (h o)) ->
  read_grads g garr y p given m outs = Some (map h outs).
Proof.
  induction outs as [|o outs IH]; intros H; cbn [read_grads map]; auto.
  rewrite (H o) by (left; auto). rewrite IH by (intros; apply H; right; auto). reflexivity.
Qed.

Definition wsum (f : nat) (fd : fn V) (gs : list G) (k : nat) (ins : list nat) (A : garray) : G :=
  gsum (map (fun iv => if f_active fd (fst iv) && ng (snd iv) && garray_eqb (gra (snd iv)) A
                       then local_grad add zero d f (fst iv) gs else zero)
            (combine (seq k (length ins)) ins)).

Lemma write_ok f fd gs : forall ins acc k (b : bst G), length acc = length ins ->
  (forall j v, nth_error ins j = Some v -> nth_error acc j = Some false ->
     f_active fd (k + j) = true -> ng v = true ->
     gmem b (gra v) = Some zero /\
     forall j' v', j' < j -> nth_error ins j' = Some v' -> gra v' <> gra v) ->
  (forall j v, nth_error ins j = Some v -> f_active fd (k + j) = true -> ng v = true ->
     gmem b (gra v) <> None) ->
  exists b', write_grads add zero g s d garr y p given b f fd gs k ins acc = Ok b' /\
    (forall A, gmem b' A = match gmem b A with
                           | Some x => Some (add x (wsum f fd gs k ins A)) | None => None end) /\
    (forall A, gzero b' A = true -> gzero b A = true /\ gmem b' A = gmem b A) /\
    seen b' = seen b /\ blog b' = blog b.
Proof.
  induction ins as [|v ins IH]; intros [|a acc] k b Hl H1 H2; try discriminate.
  - exists b. split; [reflexivity|]. split; [|auto]. intros A. unfold wsum. cbn.
    destruct (gmem b A); auto. f_equal. symmetry. apply (add_0_r add zero M).
  - cbn [length] in Hl. assert (Hl' : length acc = length ins) by lia.
    assert (W : forall A, wsum f fd gs k (v :: ins) A =
       add (if f_active fd k && ng v && garray_eqb (gra v) A then local_grad add zero d f k gs else zero)
           (wsum f fd gs (S k) ins A)) by reflexivity.
    assert (Sh : forall j, k + S j = S k + j) by (intros; lia).
    cbn [write_grads]. destruct (f_active fd k && ng v) eqn:E.
    + apply andb_true_iff in E as (E1 & E2).
      set (c := local_grad add zero d f k gs) in *.
      assert (Hv : exists x, gmem b (gra v) = Some x /\ (a = false -> x = zero)).
      { destruct (gmem b (gra v)) as [x|] eqn:Ex.
        - exists x. split; auto. intros ->. destruct (H1 0 v) as (H1' & _); auto.
          + rewrite Nat.add_0_r. auto.
          + congruence.
        - exfalso. apply (H2 0 v); auto. rewrite Nat.add_0_r. auto. }
      destruct Hv as (x & Hx & Hx0).
      set (b1 := set_grad b (gra v) (Some (add x c))).
      assert (Go : exists b', write_grads add zero g s d garr y p given b1 f fd gs (S k) ins acc = Ok b' /\
        (forall A, gmem b' A = match gmem b1 A with
                           | Some x => Some (add x (wsum f fd gs (S k) ins A)) | None => None end) /\
        (forall A, gzero b' A = true -> gzero b1 A = true /\ gmem b' A = gmem b1 A) /\
        seen b' = seen b1 /\ blog b' = blog b1).
      { apply IH; auto.
        - intros j u Hu Ha Hac Hn. rewrite <- Sh in Hac. destruct (H1 (S j) u Hu Ha Hac Hn) as (Z1 & Z2).
          split.
          + unfold b1. cbn [set_grad gmem]. unfold gupd.
            destruct (garray_eqb (gra u) (gra v)) eqn:Eg; [|exact Z1].
            apply geqb_eq in Eg. exfalso. apply (Z2 0 v); auto. lia.
          + intros j' v' Hj Hv'. apply (Z2 (S j') v'); auto. lia.
        - intros j u Hu Hac Hn. unfold b1. cbn [set_grad gmem]. unfold gupd.
          destruct (garray_eqb (gra u) (gra v)); [discriminate|]. apply (H2 (S j) u Hu); auto. rewrite Sh. auto. }
      assert (Eq : (if a then match gmem b (gra v) with None => Err EGarbage
              | Some x => write_grads add zero g s d garr y p given (set_grad b (gra v) (Some (add x c))) f fd gs (S k) ins acc end
              else write_grads add zero g s d garr y p given (set_grad b (gra v) (Some c)) f fd gs (S k) ins acc)
              = write_grads add zero g s d garr y p given b1 f fd gs (S k) ins acc).
      { destruct a; [rewrite Hx; reflexivity|]. unfold b1. rewrite (Hx0 eq_refl).
        rewrite (add_0_l add zero M). reflexivity. }
      rewrite Eq. destruct Go as (b' & G1 & G2 & G3 & G4 & G5). exists b'. split; [exact G1|].
      split; [|split; [|split; auto]].
      * intros A. rewrite G2, W. cbn [andb]. unfold b1. cbn [set_grad gmem]. unfold gupd.
        rewrite (geqb_sym A). destruct (garray_eqb (gra v) A) eqn:Eg.
        -- apply geqb_eq in Eg. subst A. rewrite Hx. f_equal. symmetry. apply (add_assoc add zero M).
        -- destruct (gmem b A); auto. f_equal. f_equal. symmetry. apply (add_0_l add zero M).
      * intros A Hz. destruct (G3 A Hz) as (Z1 & Z2). unfold b1 in Z1, Z2. cbn [set_grad gzero gmem] in Z1, Z2.
        unfold gupd in Z1, Z2. destruct (garray_eqb A (gra v)); [discriminate|]. auto.
    + destruct (IH acc (S k) b) as (b' & G1 & G2 & G3 & G4 & G5); auto.
      { intros j u Hu Ha Hac Hn. rewrite <- Sh in Hac. destruct (H1 (S j) u Hu Ha Hac Hn) as (Z1 & Z2).
        split; auto. intros j' v' Hj Hv'. apply (Z2 (S j') v'); auto. lia. }
      { intros j u Hu Hac Hn. apply (H2 (S j) u Hu); auto. rewrite Sh. auto. }
      exists b'. split; [exact G1|]. split; [|auto]. intros A. rewrite G2, W. cbn [andb].
      destruct (gmem b A); auto. f_equal. f_equal. symmetry. apply (add_0_l add zero M).
Qed.
End One.
