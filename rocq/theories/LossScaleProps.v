(** Property C21: dynamic loss scaling. *)
From Coq Require Import List Bool Arith QArith Qpower Qfield Lia.
From Verif Require Import LossScaleModel.
Import ListNotations.
Local Open Scope list_scope.

(** ** Specification *)
Section Spec.
Variable c : config.
Variable back : nat -> Q -> list fp.
Variable dim : nat.

(** [true_grad n]: the unscaled gradient of the n-th pass.  A pass at scale s
    either overflows somewhere or yields exactly s times that gradient. *)
Definition faithful (true_grad : nat -> list Q) : Prop :=
  forall n s, length (back n s) = dim /\ length (true_grad n) = dim /\
    (forallb is_fin (back n s) = true -> back n s = map (fun x => Fin (s * x)) (true_grad n)).

Fixpoint vadd (a b : list Q) : list Q :=
  match a, b with x :: a', y :: b' => (x + y)%Q :: vadd a' b' | _, _ => [] end.
(** The gradient of [n] accumulated passes from position [pos]. *)
Fixpoint total (true_grad : nat -> list Q) (n pos : nat) : list Q :=
  match n with
  | O => repeat 0%Q dim
  | S n' => vadd (true_grad pos) (total true_grad n' (S pos))
  end.

(** The scale after [i] divisions. *)
Definition divided (s : Q) (i : nat) : Q := Nat.iter i (fun x => x / factor c) s.
(** Attempt [i] of a call starting at position [pos] with scale [s] meets inf or
    nan in one of its passes. *)
Definition overflows (pos : nat) (s : Q) (i : nat) : Prop :=
  exists k, (k < accum c)%nat /\
    forallb is_fin (back (pos + i * accum c + k) (divided s i)) = false.

(** The gradients [gs] a solver saw are finite and equal to [qs]. *)
Definition exactly (gs : list fp) (qs : list Q) : Prop :=
  Forall2 (fun g q => exists x, g = Fin x /\ x == q) gs qs.
End Spec.

(** ** Proofs *)
Lemma add_grads_length a : forall b, length a = length b -> length (add_grads a b) = length a.
Proof. induction a; destruct b; cbn; intros; try lia. now rewrite IHa by lia. Qed.

Lemma add_grads_fin a : forall b, length a = length b ->
  forallb is_fin (add_grads a b) = forallb is_fin a && forallb is_fin b.
Proof.
  induction a as [|x a IH]; destruct b as [|y b]; cbn; intros H; try discriminate; auto.
  rewrite IH by lia. destruct x, y; cbn; auto. now rewrite andb_false_r.
Qed.

Lemma Forall2_vadd a b c d s :
  Forall2 (fun x q => exists y, x = Fin y /\ y == s * q) a b ->
  Forall2 (fun x q => exists y, x = Fin y /\ y == s * q) c d ->
  Forall2 (fun x q => exists y, x = Fin y /\ y == s * q) (add_grads a c) (vadd b d).
Proof.
  intros H. revert c d. induction H; intros c d H2; destruct H2; cbn; constructor.
  - destruct H as (u & -> & E), H1 as (v & -> & E'). exists (u + v). split; auto.
    rewrite E, E'. ring.
  - apply IHForall2; auto.
Qed.

Lemma F2_length {A B} (P : A -> B -> Prop) a b : Forall2 P a b -> length a = length b.
Proof. induction 1; cbn; auto. Qed.

Section Proofs.
Variable c : config.
Variable back : nat -> Q -> list fp.
Variable dim : nat.
Variable tg : nat -> list Q.
Hypothesis Hback : faithful back dim tg.

Lemma accumulate_length n : forall pos s g,
  length g = dim -> length (accumulate back n pos s g) = dim.
Proof.
  induction n; cbn; auto. intros. apply IHn. rewrite add_grads_length; auto.
  destruct (Hback pos s) as (? & ? & ?). congruence.
Qed.

Lemma accumulate_fin n : forall pos s g,
  length g = dim ->
  forallb is_fin (accumulate back n pos s g) = true <->
  forallb is_fin g = true /\
  forall k, (k < n)%nat -> forallb is_fin (back (pos + k) s) = true.
Proof.
  induction n; cbn; intros pos s g Hg.
  - split; [|tauto]. intros H. split; auto. intros k Hk. lia.
  - destruct (Hback pos s) as (L1 & L2 & _).
    rewrite IHn by (rewrite add_grads_length; congruence).
    rewrite add_grads_fin by congruence. rewrite andb_true_iff. split.
    + intros [[A B] C]. split; auto. intros k Hk. destruct k.
      * now rewrite Nat.add_0_r.
      * rewrite Nat.add_succ_r. apply (C k). lia.
    + intros [A B]. split; [split|]; auto.
      * specialize (B 0%nat). rewrite Nat.add_0_r in B. apply B. lia.
      * intros k Hk. specialize (B (S k)). rewrite Nat.add_succ_r in B. apply B. lia.
Qed.

Lemma vadd_length a : forall b, length a = length b -> length (vadd a b) = length a.
Proof. induction a; destruct b; cbn; intros; try lia. now rewrite IHa by lia. Qed.
Lemma total_length n : forall pos, length (total dim tg n pos) = dim.
Proof.
  induction n; cbn; intros.
  - apply repeat_length.
  - destruct (Hback pos 1) as (_ & L & _). rewrite vadd_length; rewrite ?IHn; auto.
Qed.

Lemma vadd_equiv_r a : forall b b', Forall2 Qeq b b' -> Forall2 Qeq (vadd a b) (vadd a b').
Proof.
  induction a; intros b b' H; destruct H; cbn; constructor; auto. now rewrite H.
Qed.
Lemma vadd_zero a : forall n, length a = n -> Forall2 Qeq (vadd (repeat 0 n) a) a.
Proof. induction a; intros n H; subst; cbn; constructor; auto. ring. Qed.
Lemma vadd_assoc a : forall b d, Forall2 Qeq (vadd (vadd a b) d) (vadd a (vadd b d)).
Proof.
  induction a; intros b d; destruct b, d; cbn; constructor; auto. ring.
Qed.
Lemma Forall2_Qeq_trans a b d : Forall2 Qeq a b -> Forall2 Qeq b d -> Forall2 Qeq a d.
Proof.
  intros H. revert d. induction H; intros d Hd; inversion Hd; subst; constructor; eauto.
  etransitivity; eauto.
Qed.
Lemma scaled_equiv s a b b' :
  Forall2 (fun x q => exists y, x = Fin y /\ y == s * q) a b -> Forall2 Qeq b b' ->
  Forall2 (fun x q => exists y, x = Fin y /\ y == s * q) a b'.
Proof.
  intros H. revert b'. induction H; intros b' Hb; inversion Hb; subst; constructor; auto.
  destruct H as (u & -> & E). exists u. split; auto. now rewrite E, H3.
Qed.

Lemma accumulate_value n : forall pos s g q,
  Forall2 (fun x q => exists y, x = Fin y /\ y == s * q) g q -> length g = dim ->
  (forall k, (k < n)%nat -> forallb is_fin (back (pos + k) s) = true) ->
  Forall2 (fun x q => exists y, x = Fin y /\ y == s * q)
          (accumulate back n pos s g) (vadd q (total dim tg n pos)).
Proof.
  induction n; cbn [accumulate total]; intros pos s g q Hg Hl Hf.
  - apply (scaled_equiv s g q); auto.
    assert (Hq : length q = dim) by (rewrite <- Hl; symmetry; eapply F2_length; eauto).
    clear -Hq. revert Hq. generalize dim. induction q; intros d E; subst; cbn; constructor; auto.
    ring.
  - destruct (Hback pos s) as (L1 & L2 & L3).
    eapply scaled_equiv; [apply IHn|].
    + apply Forall2_vadd; [exact Hg|].
      rewrite L3 by (specialize (Hf 0%nat); rewrite Nat.add_0_r in Hf; apply Hf; lia).
      instantiate (1 := tg pos). clear. induction (tg pos); cbn; constructor; auto.
      exists (s * a). split; reflexivity.
    + rewrite add_grads_length; congruence.
    + intros k Hk. specialize (Hf (S k)). rewrite Nat.add_succ_r in Hf. apply Hf. lia.
    + apply vadd_assoc.
Qed.

Lemma zeros_scaled s d :
  Forall2 (fun x q => exists y, x = Fin y /\ y == s * q) (repeat (Fin 0) d) (repeat 0 d).
Proof. induction d; cbn; constructor; auto. exists 0. split; auto. ring. Qed.

Lemma pass_value pos s :
  forallb is_fin (pass_grads c back dim pos s) = true ->
  Forall2 (fun x q => exists y, x = Fin y /\ y == s * q)
          (pass_grads c back dim pos s) (total dim tg (accum c) pos).
Proof.
  unfold pass_grads. intros H. apply accumulate_fin in H as [_ H]; [|apply repeat_length].
  eapply scaled_equiv.
  - apply accumulate_value; [apply zeros_scaled|apply repeat_length|exact H].
  - apply vadd_zero. apply total_length.
Qed.

Lemma pass_overflow pos s :
  forallb is_fin (pass_grads c back dim pos s) = false <->
  exists k, (k < accum c)%nat /\ forallb is_fin (back (pos + k) s) = false.
Proof.
  unfold pass_grads. split.
  - intros H.
    assert (Hn : ~ forall k, (k < accum c)%nat -> forallb is_fin (back (pos + k) s) = true).
    { intros A. assert (forallb is_fin (accumulate back (accum c) pos s (repeat (Fin 0) dim)) = true).
      { apply accumulate_fin; [apply repeat_length|]. split; auto.
        clear. induction dim; cbn; auto. }
      congruence. }
    clear H. induction (accum c) as [|n IH].
    + exfalso. apply Hn. intros k Hk. lia.
    + destruct (forallb is_fin (back (pos + n) s)) eqn:E.
      * destruct IH as (k & A & B); [|exists k; split; auto; lia].
        intros A. apply Hn. intros k Hk. destruct (Nat.eq_dec k n); [now subst|apply A; lia].
      * exists n. split; auto.
  - intros (k & Hk & Hb). apply not_true_is_false. intros H.
    apply accumulate_fin in H as [_ H]; [|apply repeat_length]. rewrite H in Hb; auto. discriminate.
Qed.

(** What one successful attempt hands to the solver. *)
Lemma rescaled pos s :
  0 < s -> forallb is_fin (pass_grads c back dim pos s) = true ->
  exactly (map (fscale (1 / s)) (pass_grads c back dim pos s)) (total dim tg (accum c) pos).
Proof.
  intros Hs H. apply pass_value in H. unfold exactly.
  induction H; cbn; constructor; auto.
  destruct H as (u & -> & E). exists (1 / s * u). split; auto. rewrite E. field.
  intros E0. rewrite E0 in Hs. discriminate.
Qed.

Hypothesis Hfac : 0 < factor c.

(** The state at attempt i. *)
Notation sc := (divided c).
Lemma sc_pos s i : 0 < s -> 0 < sc s i.
Proof.
  intros H. unfold divided. induction i; cbn; auto. apply Qlt_shift_div_l; auto. now rewrite Qmult_0_l.
Qed.
Lemma sc_shift s i : sc (s / factor c) i = sc s (S i).
Proof.
  induction i; auto.
  change (sc (s / factor c) i / factor c = sc s (S i) / factor c). now rewrite IHi.
Qed.

Definition over (pos : nat) (s : Q) (i : nat) : Prop :=
  forallb is_fin (pass_grads c back dim (pos + i * accum c) (sc s i)) = false.

Lemma update_char fuel : forall u,
  (rcount u + fuel = S (max_rec c))%nat -> (0 < fuel)%nat ->
  0 < scale u -> (0 < rcount u -> counter u = 0)%nat ->
  exists u' j,
    update c back dim fuel u = Some u' /\ rcount u' = 0%nat /\
    (forall i, (i < j)%nat -> over (passes u) (scale u) i) /\
    ((j = fuel /\ log u' = log u /\ scale u' = sc (scale u) j /\ counter u' = 0%nat /\
      passes u' = (passes u + j * accum c)%nat) \/
     ((j < fuel)%nat /\ ~ over (passes u) (scale u) j /\
      passes u' = (passes u + S j * accum c)%nat /\
      (exists gs, log u' = log u ++ [(gs, wd c)] /\
         exactly gs (total dim tg (accum c) (passes u + j * accum c))) /\
      (if (j =? 0)%nat && (interval c <? counter u)%nat
       then scale u' = scale u * factor c /\ counter u' = 1%nat
       else scale u' = sc (scale u) j /\
            counter u' = if (j =? 0)%nat then S (counter u) else 1%nat))).
Proof.
  induction fuel as [|fuel IH]; intros u Hr Hp Hs Hc; [lia|].
  cbn [update]. destruct (forallb is_fin (pass_grads c back dim (passes u) (scale u))) eqn:E; cbn [negb].
  - assert (Hno : ~ over (passes u) (scale u) 0).
    { unfold over. cbn. rewrite Nat.add_0_r, E. discriminate. }
    assert (Hex := rescaled (passes u) (scale u) Hs E).
    destruct (Nat.ltb (interval c) (counter u)) eqn:El.
    + eexists. exists 0%nat. split; [reflexivity|]. cbn. split; auto. split; [intros; lia|].
      right. repeat split; auto; try lia. eexists. split; [reflexivity|]. now rewrite Nat.add_0_r.
    + eexists. exists 0%nat. split; [reflexivity|]. cbn. split; auto. split; [intros; lia|].
      right. repeat split; auto; try lia. eexists. split; [reflexivity|]. now rewrite Nat.add_0_r.
  - assert (Ho : over (passes u) (scale u) 0).
    { unfold over. cbn. now rewrite Nat.add_0_r. }
    destruct (Nat.ltb_spec (max_rec c) (S (rcount u))).
    + assert (fuel = 0)%nat by lia. subst.
      eexists. exists 1%nat. split; [reflexivity|]. cbn. split; auto. split.
      * intros i Hi. assert (i = 0)%nat by lia. now subst.
      * left. repeat split; auto; lia.
    + set (u1 := mkUpd _ _ _ _ _).
      destruct (IH u1) as (u' & j & A & B & C & D); cbn; auto; try lia.
      { apply Qlt_shift_div_l; auto. now rewrite Qmult_0_l. }
      exists u', (S j). split; [exact A|]. split; [exact B|]. split.
      * intros i Hi. destruct i; [exact Ho|].
        assert (Hi' : (i < j)%nat) by lia. specialize (C i Hi').
        unfold over in *. cbn in C. rewrite sc_shift in C.
        replace (passes u + S i * accum c)%nat with (passes u + accum c + i * accum c)%nat
          by (cbn; lia). exact C.
      * cbn in D. rewrite sc_shift in D. destruct D as [D|D].
        -- left. destruct D as (-> & D2 & D3 & D4 & D5). repeat split; auto. rewrite D5. cbn. lia.
        -- right. destruct D as (D1 & D2 & D3 & (gs & D4 & D5) & D6).
           split; [lia|]. split; [|split; [|split]].
           ++ unfold over in *. cbn in D2. rewrite sc_shift in D2.
              replace (passes u + S j * accum c)%nat with (passes u + accum c + j * accum c)%nat
                by (cbn; lia). exact D2.
           ++ rewrite D3. cbn. lia.
           ++ exists gs. split; auto.
              replace (passes u + S j * accum c)%nat with (passes u + accum c + j * accum c)%nat
                by (cbn; lia). exact D5.
           ++ replace (_ && _) with false in D6
                by (destruct (j =? 0)%nat; cbn; auto; symmetry; now apply Nat.ltb_ge).
              cbn. destruct D6 as [D6 D7]. split; auto. rewrite D7.
              destruct (j =? 0)%nat; auto.
Qed.
End Proofs.


Lemma divided_power c s i : 0 < factor c -> divided c s i == s / factor c ^ Z.of_nat i.
Proof.
  intros Hf. assert (~ factor c == 0) by (intros E; rewrite E in Hf; discriminate).
  induction i.
  - cbn. field.
  - change (divided c s (S i)) with (divided c s i / factor c). rewrite IHi.
    rewrite Nat2Z.inj_succ. unfold Z.succ. rewrite Qpower_plus by auto.
    change (factor c ^ 1) with (factor c). field. split; auto.
    apply Qpower_not_0; auto.
Qed.

(** ** Theorems *)

(** One call of update(), from any state between calls (the recursion counter is 0
    then, see the conclusion): it always returns; it retries while the passes
    overflow, dividing the scale each time; if an attempt within the first
    max_rec + 1 is clean, the solver updates once, with finite gradients equal to
    the true gradient of exactly the accumulated passes of that attempt, and the
    given weight decay; otherwise there is no update in this call. *)
Theorem C21_call : forall c back dim true_grad u,
  faithful back dim true_grad -> 0 < factor c -> 0 < scale u -> rcount u = 0%nat ->
  exists u' j,
    call c back dim u = Some u' /\ rcount u' = 0%nat /\ 0 < scale u' /\
    (forall i, (i < j)%nat -> overflows c back (passes u) (scale u) i) /\
    ((j = S (max_rec c) /\ log u' = log u /\ scale u' == scale u / factor c ^ Z.of_nat j) \/
     ((j <= max_rec c)%nat /\ ~ overflows c back (passes u) (scale u) j /\
      (exists gs, log u' = log u ++ [(gs, wd c)] /\
         exactly gs (total dim true_grad (accum c) (passes u + j * accum c))) /\
      (scale u' == scale u / factor c ^ Z.of_nat j \/ scale u' == scale u * factor c))).
Proof.
  intros c back dim tg u Hb Hf Hs Hr.
  assert (Hiff : forall i, over c back dim (passes u) (scale u) i <->
                           overflows c back (passes u) (scale u) i).
  { intros i. unfold over, overflows. now rewrite (pass_overflow c back dim tg Hb). }
  destruct (update_char c back dim tg Hb Hf (S (max_rec c)) u) as (u' & j & A & B & C & D);
    try lia; auto.
  exists u', j. split; [exact A|]. split; [exact B|].
  assert (Hpos : forall i, 0 < divided c (scale u) i).
  { intros i. now apply sc_pos. }
  destruct D as [(D1 & D2 & D3 & _)|(D1 & D2 & D3 & D4 & D5)].
  - split; [rewrite D3; auto|]. split; [intros i Hi; now apply Hiff, C|]. left.
    repeat split; auto. rewrite D3. now apply divided_power.
  - split; [|split; [intros i Hi; now apply Hiff, C|right; split; [lia|]]].
    + destruct (_ && _); destruct D5 as [-> _]; auto.
      setoid_replace 0 with (0 * factor c) by ring. apply Qmult_lt_compat_r; auto.
    + split; [rewrite <- Hiff; exact D2|]. split; [exact D4|].
      destruct (_ && _); destruct D5 as [-> _].
      * right. reflexivity.
      * left. now apply divided_power.
Qed.
Print Assumptions C21_call.

(** Every update over a whole training run saw finite gradients only: the log never
    contains a non-finite value. *)
Theorem C21_never_overflowed : forall c back dim true_grad n s0 u,
  faithful back dim true_grad -> 0 < factor c -> 0 < s0 ->
  calls c back dim n (init_upd s0) = Some u ->
  Forall (fun e => forallb is_fin (fst e) = true /\ snd e = wd c) (log u).
Proof.
  intros c back dim tg n s0 u Hb Hf Hs.
  assert (G : forall n u0, 0 < scale u0 -> rcount u0 = 0%nat ->
     Forall (fun e => forallb is_fin (fst e) = true /\ snd e = wd c) (log u0) ->
     calls c back dim n u0 = Some u ->
     Forall (fun e => forallb is_fin (fst e) = true /\ snd e = wd c) (log u)).
  { clear n s0 Hs. induction n as [|n IH]; cbn [calls]; intros u0 Hs Hr Hl.
    - intros [= <-]. auto.
    - destruct (C21_call c back dim tg u0 Hb Hf Hs Hr) as (u' & j & A & B & B2 & _ & D).
      rewrite A. apply IH; auto. destruct D as [(_ & -> & _)|(_ & _ & (gs & -> & E) & _)]; auto.
      apply Forall_app. split; auto. constructor; auto. cbn. split; auto.
      clear -E. induction E; cbn; auto. destruct H as (q & -> & _). cbn. auto. }
  apply G; cbn; auto.
Qed.
Print Assumptions C21_never_overflowed.

(** And it always terminates. *)
Theorem C21_terminates : forall c back dim true_grad n s0,
  faithful back dim true_grad -> 0 < factor c -> 0 < s0 ->
  exists u, calls c back dim n (init_upd s0) = Some u.
Proof.
  intros c back dim tg n s0 Hb Hf Hs.
  assert (G : forall n u0, 0 < scale u0 -> rcount u0 = 0%nat ->
            exists u, calls c back dim n u0 = Some u).
  { clear n s0 Hs. induction n as [|n IH]; cbn [calls]; intros u0 Hs Hr; eauto.
    destruct (C21_call c back dim tg u0 Hb Hf Hs Hr) as (u' & j & A & B & B2 & _).
    rewrite A. auto. }
  apply G; cbn; auto.
Qed.
Print Assumptions C21_terminates.

(** Growth: n calls in a row without any overflow, from counter 0, multiply the
    scale (n - 1) / (N + 1) times: for the first time in call N + 2, then every
    N + 1 calls. *)
Lemma calls_snoc c back dim n : forall u,
  calls c back dim (S n) u =
  match calls c back dim n u with Some u' => call c back dim u' | None => None end.
Proof.
  induction n; intros u.
  - cbn [calls]. destruct (call c back dim u); auto.
  - change (calls c back dim (S (S n)) u) with
      (match call c back dim u with Some u' => calls c back dim (S n) u' | None => None end).
    cbn [calls]. destruct (call c back dim u); auto. apply IHn.
Qed.

Lemma growth_inv c back dim tg s0 :
  faithful back dim tg -> 0 < factor c -> 0 < s0 ->
  (forall n s, forallb is_fin (back n s) = true) ->
  forall n, exists u, calls c back dim n (init_upd s0) = Some u /\ rcount u = 0%nat /\ 0 < scale u /\
    scale u == s0 * factor c ^ Z.of_nat ((n - 1) / S (interval c)) /\
    counter u = (if n =? 0 then 0 else S ((n - 1) mod S (interval c)))%nat /\
    List.length (log u) = n.
Proof.
  intros Hb Hf Hs Hno. induction n as [|n IH].
  - exists (init_upd s0). repeat split; auto. cbn. ring.
  - destruct IH as (u & A & B & C & D & E & L). rewrite calls_snoc, A.
    destruct (update_char c back dim tg Hb Hf (S (max_rec c)) u) as (u' & j & A' & B' & C' & D');
      try lia; auto.
    assert (Hj : forall i, ~ over c back dim (passes u) (scale u) i).
    { intros i Ho. apply (pass_overflow c back dim tg Hb) in Ho as (k & _ & Ho).
      rewrite Hno in Ho. discriminate. }
    assert (j = 0)%nat.
    { destruct j; auto. exfalso. apply (Hj 0%nat), C'. lia. }
    subst j. exists u'. split; [exact A'|]. split; [exact B'|].
    destruct D' as [(D1 & _)|(_ & _ & _ & (gs & D1 & _) & D5)]; [lia|].
    cbn [Nat.eqb andb] in D5. rewrite D1, app_length, L. cbn [List.length].
    assert (HL : (n + 1 = S n)%nat) by lia.
    replace (S n - 1)%nat with n by lia. cbn [Nat.eqb].
    set (m := S (interval c)) in *.
    assert (Hm : (m <> 0)%nat) by (unfold m; lia).
    destruct (Nat.ltb_spec (interval c) (counter u)) as [Hlt|Hlt]; destruct D5 as [D5 D6].
    + destruct n as [|n]; [cbn in E; lia|]. cbn [Nat.eqb] in E.
      replace (S n - 1)%nat with n in * by lia.
      assert (Hmod : (n mod m = m - 1)%nat).
      { assert (H := Nat.mod_upper_bound n m Hm). unfold m in *. lia. }
      assert (Hdm := Nat.div_mod n m Hm).
      assert (Hn1 : (S n = m * S (n / m) + 0)%nat) by lia.
      assert (Hq : (S n / m = S (n / m))%nat).
      { symmetry. eapply Nat.div_unique; [|exact Hn1]. lia. }
      assert (Hr : (S n mod m = 0)%nat).
      { symmetry. eapply Nat.mod_unique; [|exact Hn1]. lia. }
      split; [rewrite D5; setoid_replace 0 with (0 * factor c) by ring; apply Qmult_lt_compat_r; auto|].
      split; [|split; [lia|lia]].
      rewrite D5, D, Hq, Nat2Z.inj_succ. unfold Z.succ. rewrite Qpower_plus.
      * change (factor c ^ 1) with (factor c). ring.
      * intros E0. rewrite E0 in Hf. discriminate.
    + destruct n as [|n].
      * split; [rewrite D5; auto|]. split; [|split; [|lia]].
        -- rewrite D5. exact D.
        -- rewrite D6, E. cbn [Nat.eqb]. f_equal. symmetry. apply Nat.mod_0_l. exact Hm.
      * cbn [Nat.eqb] in E. replace (S n - 1)%nat with n in * by lia.
        assert (Hb1 := Nat.mod_upper_bound n m Hm).
        assert (Hdm := Nat.div_mod n m Hm).
        assert (Hlt' : (n mod m + 1 < m)%nat) by (unfold m in *; lia).
        assert (Hn1 : (S n = m * (n / m) + (n mod m + 1))%nat) by lia.
        assert (Hq : (S n / m = n / m)%nat).
        { symmetry. eapply Nat.div_unique; [|exact Hn1]. lia. }
        assert (Hr : (S n mod m = n mod m + 1)%nat).
        { symmetry. eapply Nat.mod_unique; [|exact Hn1]. lia. }
        split; [rewrite D5; auto|]. split; [|split; [lia|lia]].
        rewrite D5, Hq. exact D.
Qed.

Theorem C21_growth_partial : forall c back dim true_grad s0 n,
  faithful back dim true_grad -> 0 < factor c -> 0 < s0 ->
  (forall m s, forallb is_fin (back m s) = true) ->
  exists u, calls c back dim n (init_upd s0) = Some u /\ List.length (log u) = n /\
    scale u == s0 * factor c ^ Z.of_nat ((n - 1) / (interval c + 1)).
Proof.
  intros c back dim tg s0 n Hb Hf Hs Hno.
  destruct (growth_inv c back dim tg s0 Hb Hf Hs Hno n) as (u & A & _ & _ & D & _ & L).
  exists u. split; auto. split; auto. rewrite D. replace (S (interval c)) with (interval c + 1)%nat by lia.
  reflexivity.
Qed.
Print Assumptions C21_growth_partial.

(** So N consecutive successful updates do not suffice: with N = 2, after two, and
    even after three updates the scale is still the initial one. *)
Definition ex_config : config := mkConfig 2 2 1 None 100.
Definition ex_back (n : nat) (s : Q) : list fp := [Fin (s * 3)].
Theorem C21_interval_refuted :
  faithful ex_back 1 (fun _ => [3]) /\ interval ex_config = 2%nat /\
  exists u2 u3 u4,
    calls ex_config ex_back 1 2 (init_upd 8) = Some u2 /\ scale u2 == 8 /\
    calls ex_config ex_back 1 3 (init_upd 8) = Some u3 /\ scale u3 == 8 /\
    calls ex_config ex_back 1 4 (init_upd 8) = Some u4 /\ scale u4 == 16.
Proof.
  split.
  - intros n s. repeat split.
  - split; [reflexivity|]. do 3 eexists.
    split; [vm_compute; reflexivity|]. split; [reflexivity|].
    split; [vm_compute; reflexivity|]. split; [reflexivity|].
    split; [vm_compute; reflexivity|]. reflexivity.
Qed.
Print Assumptions C21_interval_refuted.

(** Non-vacuity: passes overflow when the scale exceeds 4; from scale 16 the first
    call retries twice and then updates with the true gradient 3. *)
Definition ex_back2 (n : nat) (s : Q) : list fp :=
  if Qle_bool s 4 then [Fin (s * 3)] else [NonFin].
Example C21_example :
  faithful ex_back2 1 (fun _ => [3]) /\
  exists u, call ex_config ex_back2 1 (init_upd 16) = Some u /\
    scale u == 4 /\ passes u = 3%nat /\ exists q, log u = [([Fin q], None)] /\ q == 3.
Proof.
  split.
  - intros n s. unfold ex_back2. destruct (Qle_bool s 4); repeat split. discriminate.
  - eexists. split; [vm_compute; reflexivity|]. cbn. split; [reflexivity|]. split; auto.
    eexists. split; reflexivity.
Qed.
