(** Lemmas about forward propagation. *)
From Coq Require Import List Arith Bool Lia.
From Verif Require Import CgModel CgSpec.
Import ListNotations.
Local Open Scope list_scope.

Lemma mem_nat_true x l : mem_nat x l = true <-> In x l.
Proof.
  unfold mem_nat. rewrite existsb_exists. split.
  - intros (y & Hy & E). apply Nat.eqb_eq in E. now subst.
  - intros H. exists x. split; auto. apply Nat.eqb_refl.
Qed.
Lemma mem_nat_false x l : mem_nat x l = false <-> ~ In x l.
Proof. rewrite <- mem_nat_true. destruct (mem_nat x l); split; congruence. Qed.
Lemma upd_same {A} (m : nat -> A) k x : upd m k x k = x.
Proof. unfold upd. now rewrite Nat.eqb_refl. Qed.
Lemma upd_other {A} (m : nat -> A) k x n : n <> k -> upd m k x n = m n.
Proof. intros H. unfold upd. now apply Nat.eqb_neq in H as ->. Qed.

Lemma combine_seq_nth {A} (l : list A) k n :
  nth_error (combine (seq k (length l)) l) n =
  match nth_error l n with Some x => Some (k + n, x) | None => None end.
Proof.
  revert k n. induction l as [|x l IH]; intros k [|n]; cbn; auto.
  - now rewrite Nat.add_0_r.
  - rewrite IH. now rewrite Nat.add_succ_r.
Qed.

Section Proofs.
Context {V : Type}.
Variable g : graph V.
Local Notation arr := (arr g).
Local Notation parent := (parent g).
Local Notation fun_at := (fun_at g).

Definition occ (f v : nat) : nat :=
  match fun_at f with Some fd => count_occ Nat.eq_dec (f_ins fd) v | None => 0 end.
Definition visits (l : list nat) (v : nat) : nat := list_sum (map (fun f => occ f v) l).

Lemma visits_app l1 l2 v : visits (l1 ++ l2) v = visits l1 v + visits l2 v.
Proof. unfold visits. now rewrite map_app, list_sum_app. Qed.
Lemma visits_cons f l v : visits (f :: l) v = occ f v + visits l v.
Proof. reflexivity. Qed.

Lemma uses_visits v : uses g v = visits (seq 0 (length (g_fns g))) v.
Proof.
  unfold uses, visits, occ, CgModel.fun_at. f_equal.
  assert (E : forall (l pre : list (fn V)),
    map (fun fd => count_occ Nat.eq_dec (f_ins fd) v) l =
    map (fun f => match nth_error (pre ++ l) f with
                  | Some fd => count_occ Nat.eq_dec (f_ins fd) v | None => 0 end)
        (seq (length pre) (length l))).
  { induction l as [|x l IH]; intros pre; cbn; auto.
    f_equal.
    - rewrite nth_error_app2, Nat.sub_diag by lia. reflexivity.
    - specialize (IH (pre ++ [x])). rewrite <- app_assoc in IH. cbn in IH.
      rewrite app_length in IH. cbn in IH. rewrite Nat.add_1_r in IH. exact IH. }
  exact (E (g_fns g) []).
Qed.

Lemma visits_incl l l' v : NoDup l -> incl l l' -> visits l v <= visits l' v.
Proof.
  revert l'. induction l as [|f l IH]; intros l' Hn Hi;
    [change (visits [] v) with 0; lia|rewrite visits_cons].
  apply NoDup_cons_iff in Hn as [Hf Hn].
  destruct (in_split f l') as (a & b & ->); [apply Hi; now left|].
  assert (incl l (a ++ b)).
  { intros x Hx. assert (Hx' : In x (a ++ f :: b)) by (apply Hi; now right).
    apply in_app_iff in Hx' as [|[|]]; apply in_app_iff; auto. subst; contradiction. }
  specialize (IH _ Hn H). rewrite visits_app in *. rewrite visits_cons. lia.
Qed.

Lemma occ_fun f v : 0 < occ f v -> f < length (g_fns g).
Proof.
  unfold occ, CgModel.fun_at. intros H. apply nth_error_Some.
  destruct (nth_error (g_fns g) f); [discriminate|lia].
Qed.

Lemma fun_at_lt f fd : fun_at f = Some fd -> f < length (g_fns g).
Proof. intros H. apply nth_error_Some. unfold CgModel.fun_at in H. rewrite H. discriminate. Qed.

(** All consumers have been visited once the count reaches the number of uses. *)
Lemma all_visited C f fd v pre h :
  NoDup (C ++ [f]) -> (forall k, In k (C ++ [f]) -> k < length (g_fns g)) ->
  fun_at f = Some fd ->
  count_occ Nat.eq_dec pre v <= count_occ Nat.eq_dec (f_ins fd) v ->
  uses g v <= visits C v + count_occ Nat.eq_dec pre v ->
  0 < occ h v -> In h (C ++ [f]).
Proof.
  intros Hn Hv Hf Hp Hu Hh. destruct (in_dec Nat.eq_dec h (C ++ [f])) as [|Hno]; auto. exfalso.
  rewrite uses_visits in Hu.
  assert (H := visits_incl (h :: C ++ [f]) (seq 0 (length (g_fns g))) v).
  rewrite visits_cons, visits_app, visits_cons in H. unfold occ at 2 in H. rewrite Hf in H.
  change (visits [] v) with 0 in H.
  assert (occ h v + (visits C v + (count_occ Nat.eq_dec (f_ins fd) v + 0)) <=
          visits (seq 0 (length (g_fns g))) v).
  { apply H; [now constructor|]. intros k [<-|Hk]; apply in_seq.
    - apply occ_fun in Hh. lia.
    - apply Hv in Hk. lia. }
  lia.
Qed.
Lemma none_left C f fd v pre post :
  NoDup (C ++ [f]) -> (forall k, In k (C ++ [f]) -> k < length (g_fns g)) ->
  fun_at f = Some fd -> f_ins fd = pre ++ post ->
  uses g v <= visits C v + count_occ Nat.eq_dec pre v -> ~ In v post.
Proof.
  intros Hn Hv Hf Hp Hu Hin. rewrite uses_visits in Hu.
  assert (H := visits_incl (C ++ [f]) (seq 0 (length (g_fns g))) v).
  rewrite visits_app, visits_cons in H. unfold occ in H. rewrite Hf, Hp, count_occ_app in H.
  change (visits [] v) with 0 in H.
  assert (0 < count_occ Nat.eq_dec post v) by now apply count_occ_In.
  assert (visits C v + (count_occ Nat.eq_dec pre v + count_occ Nat.eq_dec post v + 0) <=
          visits (seq 0 (length (g_fns g))) v).
  { apply H; auto. intros k Hk; apply in_seq. apply Hv in Hk. lia. }
  lia.
Qed.

(** * Parts of the callback. *)

Lemma read_inputs_ok (m : nat -> option V) vals fd i ins :
  (forall j u, nth_error ins j = Some u -> f_active fd (i + j) = true ->
     m (arr u) = Some (vals u)) ->
  read_inputs g m fd i ins =
  Some (map (fun p => if f_active fd (fst p) then Some (vals (snd p)) else None)
            (combine (seq i (length ins)) ins)).
Proof.
  revert i. induction ins as [|v ins IH]; intros i H; cbn [read_inputs]; auto.
  rewrite IH.
  - cbn. destruct (f_active fd i) eqn:A; auto.
    rewrite (H 0 v); auto. now rewrite Nat.add_0_r.
  - intros j u Hj Ha. apply (H (S j)); auto. now rewrite Nat.add_succ_r.
Qed.

Lemma write_outputs_other (m : nat -> option V) outs ys a :
  ~ In a (map arr outs) -> write_outputs g m outs ys a = m a.
Proof.
  revert m ys. induction outs as [|o outs IH]; intros m [|y ys] H; cbn in *; auto.
  rewrite IH by tauto. apply upd_other. intros ->. apply H. now left.
Qed.
Lemma write_outputs_in (m : nat -> option V) outs vals o :
  NoDup (map arr outs) -> In o outs ->
  write_outputs g m outs (map vals outs) (arr o) = Some (vals o).
Proof.
  revert m. induction outs as [|x outs IH]; intros m Hn Ho; cbn in *; [contradiction|].
  apply NoDup_cons_iff in Hn as [Hx Hn]. destruct Ho as [->|Ho]; [|now apply IH].
  rewrite write_outputs_other by auto. apply upd_same.
Qed.

Lemma clear_inputs_cases (m : nat -> option V) ins bs a :
  clear_inputs g m ins bs a = m a \/
  exists j u, nth_error ins j = Some u /\ nth_error bs j = Some true /\ arr u = a.
Proof.
  revert m bs. induction ins as [|v ins IH]; intros m [|b bs]; cbn; auto.
  destruct (IH (if b then upd m (arr v) None else m) bs) as [E|(j & u & H1 & H2 & H3)].
  - destruct b; [|now left]. destruct (Nat.eq_dec a (arr v)) as [->|Hne].
    + right. exists 0, v. auto.
    + left. rewrite E. now apply upd_other.
  - right. exists (S j), u. auto.
Qed.

(** Everything but the four members of the callback is unchanged. *)
Definition same_core (s s' : st V) : Prop :=
  mem s' = mem s /\ vrank s' = vrank s /\ vng s' = vng s /\ frank s' = frank s /\
  fng s' = fng s /\ vallow s' = vallow s /\ closed s' = closed s /\ log s' = log s.
Lemma same_core_refl s : same_core s s.
Proof. unfold same_core. tauto. Qed.
Lemma same_core_trans s1 s2 s3 : same_core s1 s2 -> same_core s2 s3 -> same_core s1 s3.
Proof. unfold same_core. intuition congruence. Qed.

Lemma mark_outputs_ok f fd outs : forall o s,
  same_core s (mark_outputs s f fd o outs) /\
  vseen (mark_outputs s f fd o outs) = vseen s /\
  ipset (mark_outputs s f fd o outs) = ipset s /\
  incl (ngset s) (ngset (mark_outputs s f fd o outs)) /\
  (forall j v, nth_error outs j = Some v -> fng s f = true ->
     dep_data (f_dep_out fd) fd (o + j) = true -> In v (ngset (mark_outputs s f fd o outs))).
Proof.
  induction outs as [|x outs IH]; intros o s; cbn [mark_outputs].
  - split; [apply same_core_refl|]. do 3 (split; auto using incl_refl).
    intros [|j] v H; discriminate.
  - set (s1 := if fng s f && dep_data (f_dep_out fd) fd o then add_ng s x else s).
    destruct (IH (S o) s1) as (H1 & H2 & H3 & H4 & H5).
    assert (E : same_core s s1 /\ vseen s1 = vseen s /\ ipset s1 = ipset s /\
                incl (ngset s) (ngset s1)).
    { unfold s1. destruct (fng s f && dep_data (f_dep_out fd) fd o);
        (split; [unfold same_core; tauto|]); cbn; do 2 (split; auto using incl_refl, incl_tl). }
    destruct E as (E1 & E2 & E3 & E4).
    split; [now apply (same_core_trans _ s1)|]. split; [congruence|]. split; [congruence|].
    split; [eapply incl_tran; eauto|].
    intros [|j] v Hj Hf Hd; cbn in Hj.
    + injection Hj as ->. apply H4. unfold s1. rewrite Nat.add_0_r in Hd. rewrite Hf, Hd. now left.
    + apply (H5 j); auto.
      * destruct E1 as (_ & _ & _ & _ & E & _). now rewrite E.
      * now rewrite Nat.add_succ_comm.
Qed.

Lemma mark_input_ok s f fd i v :
  same_core s (mark_input s f fd i v) /\
  vseen (mark_input s f fd i v) = vseen s /\
  incl (ngset s) (ngset (mark_input s f fd i v)) /\
  incl (ipset s) (ipset (mark_input s f fd i v)) /\
  (fng s f = true -> dep_data (f_dep_in fd) fd i = true ->
     In v (ngset (mark_input s f fd i v))) /\
  (is_inplace (f_inplace fd i) = true ->
     In v (ipset (mark_input s f fd i v)) /\
     In (nth (f_inplace_with fd i) (f_outs fd) 0) (ipset (mark_input s f fd i v))).
Proof.
  unfold mark_input.
  destruct (fng s f) eqn:Ef, (dep_data (f_dep_in fd) fd i), (f_overwrite fd i),
           (is_inplace (f_inplace fd i));
    cbn [add_ng add_ow add_ip fng andb]; rewrite ?Ef; cbn [andb];
    (split; [unfold same_core; cbn; tauto|]); cbn;
    repeat split; auto using incl_refl, incl_tl; intros; discriminate.
Qed.

Definition expect (n r : nat) : option nat :=
  if Nat.eqb n 0 then None else if Nat.eqb n r then None else Some n.

Lemma check_last_visit_ok s v n :
  2 <= v_refs (var_at g v) -> vseen s v = expect n (v_refs (var_at g v)) ->
  n < v_refs (var_at g v) ->
  let (s', b) := check_last_visit g s v in
  vseen s' v = expect (S n) (v_refs (var_at g v)) /\
  (forall u, u <> v -> vseen s' u = vseen s u) /\
  (b = true <-> S n = v_refs (var_at g v)) /\
  same_core s s' /\ ngset s' = ngset s /\ ipset s' = ipset s.
Proof.
  intros H2 E Hn. unfold check_last_visit. rewrite E.
  destruct (Nat.ltb_spec (v_refs (var_at g v)) 2); [lia|].
  unfold expect. destruct (Nat.eqb_spec n 0) as [->|Hn0].
  - replace (Nat.eqb 1 (v_refs (var_at g v))) with false by (symmetry; apply Nat.eqb_neq; lia).
    change (Nat.eqb 0 0) with true. change (Nat.eqb 1 0) with false. cbv iota.
    cbn [set_vseen vseen]. rewrite upd_same. split; auto. split; [intros; now apply upd_other|].
    split; [split; [discriminate|lia]|]. split; [unfold same_core; cbn; tauto|auto].
  - destruct (Nat.eqb_spec n (v_refs (var_at g v))); [lia|].
    destruct (Nat.eqb_spec (S n) (v_refs (var_at g v))) as [Es|Es].
    + cbn [set_vseen vseen]. rewrite upd_same. change (Nat.eqb (S n) 0) with false. cbv iota.
      split; auto. split; [intros; now apply upd_other|]. split; [tauto|].
      split; [unfold same_core; cbn; tauto|auto].
    + cbn [set_vseen vseen]. rewrite upd_same. change (Nat.eqb (S n) 0) with false. cbv iota.
      split; auto. split; [intros; now apply upd_other|]. split; [split; [discriminate|lia]|].
      split; [unfold same_core; cbn; tauto|auto].
Qed.
Lemma check_last_visit_few s v :
  v_refs (var_at g v) < 2 -> check_last_visit g s v = (s, true).
Proof. intros H. unfold check_last_visit. apply Nat.ltb_lt in H. now rewrite H. Qed.

(** What holds of an input whose clear flag is set. *)
Definition flagged (cb cng : bool) (C : list nat) (fd : fn V) (s : st V) (ng : list nat) (i v : nat) : Prop :=
  uses g v <= visits C v + count_occ Nat.eq_dec (firstn (S i) (f_ins fd)) v /\
  f_prohibit_clear fd = false /\ vrank s v <> 0 /\ v_persistent (var_at g v) = false /\
  is_inplace (f_inplace fd i) = false /\ v_prohibit (var_at g v) = false /\
  (cb = true \/ v_recompute (var_at g v) = true \/ (cng = true /\ ~ In v ng)).

Lemma firstn_S_app {A} (pre : list A) v post :
  firstn (S (length pre)) (pre ++ v :: post) = pre ++ [v].
Proof.
  rewrite firstn_app. rewrite firstn_all2 by lia.
  replace (S (length pre) - length pre) with 1 by lia. reflexivity.
Qed.

(** The loop over the inputs.  [pre] are the inputs already handled. *)
Lemma clear_flags_ok cb cng C f fd : fun_at f = Some fd ->
  NoDup (C ++ [f]) -> (forall k, In k (C ++ [f]) -> k < length (g_fns g)) ->
  (forall v, uses g v <= v_refs (var_at g v)) ->
  forall post pre s,
  f_ins fd = pre ++ post ->
  (forall v, 2 <= v_refs (var_at g v) ->
     vseen s v = expect (visits C v + count_occ Nat.eq_dec pre v) (v_refs (var_at g v))) ->
  let (s', bs) := clear_flags g cb cng false s f fd (length pre) post in
  same_core s s' /\ incl (ngset s) (ngset s') /\ incl (ipset s) (ipset s') /\
  (forall v, 2 <= v_refs (var_at g v) ->
     vseen s' v = expect (visits C v + count_occ Nat.eq_dec (f_ins fd) v) (v_refs (var_at g v))) /\
  (forall j v, nth_error post j = Some v -> fng s f = true ->
     dep_data (f_dep_in fd) fd (length pre + j) = true -> In v (ngset s')) /\
  (forall j v, nth_error post j = Some v -> is_inplace (f_inplace fd (length pre + j)) = true ->
     In v (ipset s') /\ In (nth (f_inplace_with fd (length pre + j)) (f_outs fd) 0) (ipset s')) /\
  (forall j v, nth_error post j = Some v -> nth_error bs j = Some true ->
     exists ng ip,
       flagged cb cng C fd s ng (length pre + j) v /\ ~ In v ip /\
       incl (ngset s) ng /\ incl (ipset s) ip /\
       (forall k u, k <= j -> nth_error post k = Some u -> fng s f = true ->
          dep_data (f_dep_in fd) fd (length pre + k) = true -> In u ng) /\
       (forall k u, k <= j -> nth_error post k = Some u ->
          is_inplace (f_inplace fd (length pre + k)) = true -> In u ip)).
Proof.
  intros Hf Hn Hv Hr post. induction post as [|v post IH]; intros pre s Hp Hs;
    cbn [clear_flags].
  - split; [apply same_core_refl|]. do 2 (split; auto using incl_refl).
    split; [now rewrite Hp, app_nil_r|].
    split; [|split]; intros [|j] u K; discriminate K.
  - unfold clear_flag.
    destruct (mark_input_ok s f fd (length pre) v) as (M1 & M2 & M3 & M4 & M5 & M6).
    set (s1 := mark_input s f fd (length pre) v) in *.
    assert (L : let (s2, b) := check_last_visit g s1 v in
       same_core s1 s2 /\ ngset s2 = ngset s1 /\ ipset s2 = ipset s1 /\
       (b = true -> uses g v <= visits C v + count_occ Nat.eq_dec (pre ++ [v]) v) /\
       (forall u, 2 <= v_refs (var_at g u) -> vseen s2 u =
          expect (visits C u + count_occ Nat.eq_dec (pre ++ [v]) u) (v_refs (var_at g u)))).
    { assert (Hlt : visits C v + count_occ Nat.eq_dec pre v < uses g v).
      { destruct (le_lt_dec (uses g v) (visits C v + count_occ Nat.eq_dec pre v)) as [H|]; auto.
        exfalso. apply (none_left C f fd v pre (v :: post) Hn Hv Hf Hp H). now left. }
      assert (Hc : forall u, count_occ Nat.eq_dec (pre ++ [v]) u =
                    count_occ Nat.eq_dec pre u + (if Nat.eq_dec v u then 1 else 0)).
      { intros u. rewrite count_occ_app. cbn. destruct (Nat.eq_dec v u); lia. }
      destruct (le_lt_dec 2 (v_refs (var_at g v))) as [H2|H2].
      - assert (K := check_last_visit_ok s1 v (visits C v + count_occ Nat.eq_dec pre v) H2).
        destruct (check_last_visit g s1 v) as [s2 b].
        destruct K as (K1 & K2 & K3 & K4 & K5 & K6).
        { rewrite M2. now apply Hs. }
        { specialize (Hr v). lia. }
        split; auto. split; auto. split; auto. split.
        + intros Hb. apply K3 in Hb. rewrite Hc. destruct (Nat.eq_dec v v); [|congruence].
          specialize (Hr v). lia.
        + intros u Hu. destruct (Nat.eq_dec u v) as [->|Hne].
          * rewrite K1, Hc. destruct (Nat.eq_dec v v); [|congruence]. f_equal. lia.
          * rewrite K2, M2, Hs, Hc by auto. destruct (Nat.eq_dec v u); [congruence|].
            now rewrite Nat.add_0_r.
      - rewrite check_last_visit_few by auto. split; [apply same_core_refl|].
        split; auto. split; auto. split.
        + intros _. rewrite Hc. destruct (Nat.eq_dec v v); [|congruence].
          specialize (Hr v). lia.
        + intros u Hu. rewrite M2, Hs, Hc by auto. destruct (Nat.eq_dec v u) as [->|]; [lia|].
          now rewrite Nat.add_0_r. }
    destruct (check_last_visit g s1 v) as [s2 last].
    destruct L as (L1 & L2 & L3 & L4 & L5).
    set (b := if negb last then false else _).
    specialize (IH (pre ++ [v]) s2).
    rewrite app_length in IH. cbn [length] in IH. rewrite Nat.add_1_r in IH.
    destruct (clear_flags g cb cng false s2 f fd (S (length pre)) post) as [s3 bs].
    destruct IH as (I1 & I2 & I3 & I4 & I5 & I6 & I7).
    { now rewrite <- app_assoc. } { exact L5. }
    assert (C12 : same_core s s2) by now apply (same_core_trans _ s1).
    assert (Fn : fng s2 f = fng s f) by (destruct C12 as (_ & _ & _ & _ & E & _); now rewrite E).
    assert (N2 : incl (ngset s) (ngset s2)) by (rewrite L2; auto).
    assert (P2 : incl (ipset s) (ipset s2)) by (rewrite L3; auto).
    split; [now apply (same_core_trans _ s2)|].
    split; [eapply incl_tran; eauto|]. split; [eapply incl_tran; eauto|].
    split; [exact I4|].
    split; [|split].
    + intros [|j] u Hj Hfn Hd; cbn in Hj.
      * injection Hj as <-. apply I2. rewrite L2. apply M5; auto. now rewrite Nat.add_0_r in Hd.
      * apply (I5 j); auto; [congruence|]. now rewrite Nat.add_succ_comm.
    + intros [|j] u Hj Hd; cbn in Hj.
      * injection Hj as <-. rewrite Nat.add_0_r in *. destruct (M6 Hd) as [A B].
        split; apply I3; rewrite L3; auto.
      * rewrite <- Nat.add_succ_comm in *. apply (I6 j); auto.
    + intros [|j] u Hj Hb; cbn in Hj, Hb.
      * injection Hj as <-. injection Hb as Hb. unfold b in Hb. rewrite Nat.add_0_r.
        exists (ngset s2), (ipset s2).
        destruct last; cbn [negb] in Hb; [|discriminate].
        destruct (f_prohibit_clear fd) eqn:B1; [discriminate|].
        destruct (Nat.eqb_spec (vrank s2 v) 0) as [|B2]; [discriminate|].
        destruct (v_persistent (var_at g v)) eqn:B3; [discriminate|].
        destruct (is_inplace (f_inplace fd (length pre))) eqn:B4; [discriminate|].
        destruct (v_prohibit (var_at g v)) eqn:B5; [discriminate|].
        cbn [orb] in Hb. destruct (mem_nat v (ipset s2)) eqn:B6; [discriminate|].
        apply mem_nat_false in B6.
        split.
        { unfold flagged. rewrite Hp, firstn_S_app. split; [now apply L4|].
          split; auto. split; [destruct C12 as (_ & E & _); now rewrite <- E|].
          do 3 (split; auto).
          destruct cb; auto. destruct (v_recompute (var_at g v)); cbn [negb andb] in Hb; auto.
          destruct cng; [|discriminate]. right. right. split; auto.
          destruct (mem_nat v (ngset s2)) eqn:B7; [discriminate|]. now apply mem_nat_false. }
        split; auto. split; auto. split; auto. split.
        { intros [|k] u Hk Hu Hfn Hd; [|lia]. cbn in Hu. injection Hu as <-.
          rewrite Nat.add_0_r in Hd. rewrite L2. now apply M5. }
        { intros [|k] u Hk Hu Hd; [|lia]. cbn in Hu. injection Hu as <-.
          rewrite Nat.add_0_r in Hd. congruence. }
      * destruct (I7 j u Hj Hb) as (ng & ip & F & Hni & G1 & G2 & G3 & G4).
        exists ng, ip. rewrite <- Nat.add_succ_comm. split.
        { unfold flagged in *. destruct C12 as (_ & E & _). now rewrite <- E. }
        split; auto. split; [eapply incl_tran; eauto|]. split; [eapply incl_tran; eauto|].
        split.
        { intros [|k] w Hk Hw Hfn Hd.
          - cbn in Hw. injection Hw as <-. apply G1. rewrite L2. apply M5; auto.
            now rewrite Nat.add_0_r in Hd.
          - apply (G3 k); auto; [lia|congruence|]. now rewrite Nat.add_succ_comm. }
        { intros [|k] w Hk Hw Hd.
          - cbn in Hw. injection Hw as <-. apply G2. rewrite L3. rewrite Nat.add_0_r in Hd.
            now apply M6.
          - apply (G4 k); auto; [lia|]. now rewrite Nat.add_succ_comm. }
Qed.

(** verify changes allow_modify_data only. *)
Definition same_but_allow (s s' : st V) : Prop :=
  mem s' = mem s /\ vrank s' = vrank s /\ vng s' = vng s /\ frank s' = frank s /\
  fng s' = fng s /\ closed s' = closed s /\ log s' = log s /\ vseen s' = vseen s /\
  ngset s' = ngset s /\ ipset s' = ipset s /\ owset s' = owset s.
Lemma sba_refl s : same_but_allow s s.
Proof. unfold same_but_allow. tauto. Qed.
Lemma sba_trans a b c : same_but_allow a b -> same_but_allow b c -> same_but_allow a c.
Proof. unfold same_but_allow. intuition congruence. Qed.
Lemma forbid_outputs_sba fd i outs : forall o s, same_but_allow s (forbid_outputs s fd i o outs).
Proof.
  induction outs as [|x outs IH]; intros o s; cbn; [apply sba_refl|].
  eapply sba_trans; [|apply IH]. destruct (f_dep_out fd i o); [unfold same_but_allow; cbn; tauto|apply sba_refl].
Qed.
Lemma verify_inputs_sba fd ins : forall i s,
  match verify_inputs g s fd i ins with
  | Ok s' => same_but_allow s s'
  | Err e => e = EVerify /\ exists j, i <= j < i + length ins /\ f_inplace fd j = INPLACE_MODIFY
  end.
Proof.
  induction ins as [|v ins IH]; intros i s; cbn [verify_inputs]; [apply sba_refl|].
  unfold check_data_inplace.
  set (s1 := if need_grad_state g s v then _ else s).
  assert (H1 : same_but_allow s s1).
  { unfold s1. destruct (need_grad_state g s v); [apply forbid_outputs_sba|apply sba_refl]. }
  assert (K : forall s2, same_but_allow s s2 ->
    match verify_inputs g s2 fd (S i) ins with
    | Ok s' => same_but_allow s s'
    | Err e => e = EVerify /\ exists j, i <= j < i + length (v :: ins) /\
                 f_inplace fd j = INPLACE_MODIFY
    end).
  { intros s2 H2. specialize (IH (S i) s2).
    destruct (verify_inputs g s2 fd (S i) ins); [eapply sba_trans; eauto|].
    destruct IH as (He & j & Hj & Hm). split; auto. exists j. split; auto. cbn. lia. }
  destruct (f_inplace fd i) eqn:Ei.
  - now apply K.
  - destruct (_ || _); apply K; auto.
  - assert (W : exists j, i <= j < i + length (v :: ins) /\ f_inplace fd j = INPLACE_MODIFY).
    { exists i. split; auto. cbn. lia. }
    destruct (negb (vallow s1 v)); [auto|]. destruct (Nat.ltb _ 2); [now apply K|auto].
Qed.
Lemma verify_sba fd s :
  match verify g s fd with
  | Ok s' => same_but_allow s s'
  | Err e => e = EVerify /\ exists j, j < length (f_ins fd) /\ f_inplace fd j = INPLACE_MODIFY
  end.
Proof.
  unfold verify. set (s1 := fold_left _ _ _).
  assert (H1 : same_but_allow s s1).
  { unfold s1. clear s1. generalize (f_outs fd). intros l. revert s.
    induction l as [|x l IH]; intros s; cbn; [apply sba_refl|].
    eapply sba_trans; [|apply IH]. unfold same_but_allow; cbn; tauto. }
  assert (H := verify_inputs_sba fd (f_ins fd) 0 s1).
  destruct (verify_inputs g s1 fd 0 (f_ins fd)); [eapply sba_trans; eauto|].
  destruct H as (He & j & Hj & Hm). split; auto. exists j. split; auto. lia.
Qed.
End Proofs.
