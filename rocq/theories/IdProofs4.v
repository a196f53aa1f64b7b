(** Identity removal: the whole walk. *)
From Coq Require Import String List Bool Arith Lia.
From Verif Require Import Assoc IdModel IdSpec IdProofs1 IdProofs2 IdProofs3.
Import ListNotations.
Local Open Scope string_scope.
Local Open Scope list_scope.

Scheme value_mut := Induction for value Sort Prop
  with values_mut := Induction for values Sort Prop.
Combined Scheme value_both from value_mut, values_mut.

Section Walk.
Variable sel : string -> bool.
Variable rank : string -> nat.

Definition resolved (s : walk_state) (v : string) : Prop := In v (w_eval s) \/ forall f, ~ produces (w_net s) f v.
Definition done (s : walk_state) (f : string) : Prop := forall v, produces (w_net s) f v -> In v (w_eval s).

Record inv (s : walk_state) : Prop := {
  i_wf : wf sel (w_net s) rank;
  i_eval : forall v f, In v (w_eval s) -> produces (w_net s) f v ->
     ~ is_rem sel (w_net s) f /\ done s f /\ forall u, uses (w_net s) f u > 0 -> resolved s u;
  i_ren : forall v, aget v (w_renamed s) <> None -> lookup (w_net s) v = None }.

(** s' is s after some removals; t renames the variables. *)
Record ext (k : nat) (s s' : walk_state) (t : string -> string) : Prop := {
  e_funs : forall g gi', aget g (n_funs (w_net s')) = Some gi' -> exists gi, aget g (n_funs (w_net s)) = Some gi
     /\ f_id gi' = f_id gi /\ f_in gi' = map t (f_in gi) /\ f_out gi' = map t (f_out gi);
  e_keep : forall g, k <= rank g \/ ~ is_rem sel (w_net s) g -> aget g (n_funs (w_net s)) <> None -> aget g (n_funs (w_net s')) <> None;
  e_res : forall v, lookup (w_net s) v <> None -> resolved s v -> resolved s' (t v);
  e_gone : forall g v, produces (w_net s) g v -> aget g (n_funs (w_net s')) = None -> resolved s' (t v);
  e_val : forall A (sem : string -> nat -> list A -> A) env, (forall f c, is_rem sel (w_net s) f -> sem f 0 [c] = c) ->
     forall v c, value A sem env (w_net s) v c -> value A sem env (w_net s') (t v) c;
  e_look : forall v, lookup (w_net s) v <> None -> lookup (w_net s') (t v) <> None;
  e_in : n_in (w_net s') = n_in (w_net s);
  e_out : n_out (w_net s') = n_out (w_net s) /\ forall o, In o (n_out (w_net s)) -> t o = o;
  e_lead : forall v w, leads (w_renamed s) v w -> lookup (w_net s) w <> None -> leads (w_renamed s') v (t w) }.

Lemma ext_refl k s stack e : ext k s {| w_net := w_net s; w_renamed := w_renamed s; w_stack := stack; w_eval := e ++ w_eval s |} (fun v => v).
Proof.
  constructor; cbn; auto.
  - intros g gi E. exists gi. rewrite !map_id. auto.
  - intros v _ [H|H]; [left; cbn; apply in_app_iff; auto|right; auto].
  - intros g v (gi & E & _). congruence.
Qed.

Lemma ext_trans k s1 s2 s3 t u : inv s1 -> inv s2 -> ext k s1 s2 t -> ext k s2 s3 u -> ext k s1 s3 (fun v => u (t v)).
Proof.
  intros I1 I2 A B. constructor.
  - intros g gi E. destruct (e_funs _ _ _ _ B g gi E) as (g2 & E2 & X2 & Y2 & Z2).
    destruct (e_funs _ _ _ _ A g g2 E2) as (g1 & E1 & X1 & Y1 & Z1). exists g1. split; [auto|]. split; [congruence|].
    rewrite Y2, Z2, Y1, Z1, !map_map. auto.
  - intros g H E. pose proof (e_keep _ _ _ _ A g H E) as E2. apply (e_keep _ _ _ _ B g); auto. destruct H as [H|H]; auto.
    right. intros (g2 & G2 & X & Y). apply H. destruct (e_funs _ _ _ _ A g g2 G2) as (g1 & G1 & X1 & _). exists g1. split; auto. split; congruence.
  - intros v L H. apply (e_res _ _ _ _ B); [apply (e_look _ _ _ _ A)|apply (e_res _ _ _ _ A)]; auto.
  - intros g v P E. destruct (aget g (n_funs (w_net s2))) as [g2|] eqn:E2.
    + apply (e_gone _ _ _ _ B g); auto. destruct (e_funs _ _ _ _ A g g2 E2) as (g1 & E1 & _ & _ & Z1).
      destruct P as (g1' & E1' & P). exists g2. split; auto. rewrite Z1. apply in_map. congruence.
    + apply (e_res _ _ _ _ B); [|apply (e_gone _ _ _ _ A g); auto]. apply (e_look _ _ _ _ A).
      apply (w_out _ _ _ (i_wf _ I1)) in P as (p & E' & _). unfold lookup. rewrite E'. discriminate.
  - intros T sem env H v c V. apply (e_val _ _ _ _ B); [|apply (e_val _ _ _ _ A); auto].
    intros f d (f2 & F2 & X & Y). apply H. destruct (e_funs _ _ _ _ A f f2 F2) as (f1 & F1 & X1 & _). exists f1. split; auto. split; congruence.
  - intros v L. apply (e_look _ _ _ _ B), (e_look _ _ _ _ A), L.
  - rewrite (e_in _ _ _ _ B). apply (e_in _ _ _ _ A).
  - destruct (e_out _ _ _ _ A) as (A1 & A2), (e_out _ _ _ _ B) as (B1 & B2). split; [congruence|].
    intros o H. rewrite A2 by auto. apply B2. rewrite A1. auto.
  - intros v w L H. apply (e_lead _ _ _ _ B); [apply (e_lead _ _ _ _ A); auto|apply (e_look _ _ _ _ A); auto].
Qed.
Lemma ext_weaken k k' s s' t : k <= k' -> ext k s s' t -> ext k' s s' t.
Proof. intros H []. constructor; auto. intros g Hg. apply e_keep0. destruct Hg; auto. left. lia. Qed.
Lemma ext_ext k s s' t u : (forall v, t v = u v) -> ext k s s' t -> ext k s s' u.
Proof.
  intros H []. constructor; auto.
  - intros g gi E. destruct (e_funs0 g gi E) as (g1 & E1 & X & Y & Z). exists g1. rewrite <- !(map_ext _ _ H). auto.
  - intros v. rewrite <- H. auto.
  - intros g v. rewrite <- H. eauto.
  - intros A sem env Hs v c. rewrite <- H. eauto.
  - intros v. rewrite <- H. auto.
  - destruct e_out0 as (E1 & E2). split; auto. intros o. rewrite <- H. auto.
  - intros v w. rewrite <- H. auto.
Qed.

Definition steps (n : nat) (s s' : walk_state) : Prop := forall fuel, walk (n + fuel) sel s = walk fuel sel s'.
Lemma steps_0 s : steps 0 s s. Proof. intros fuel. reflexivity. Qed.
Lemma steps_trans n m a b c : steps n a b -> steps m b c -> steps (n + m) a c.
Proof. intros H1 H2 fuel. rewrite <- Nat.add_assoc, H1, H2. reflexivity. Qed.
Lemma steps_1 s s' : one_turn sel s = Next s' -> steps 1 s s'.
Proof. intros H fuel. cbn. rewrite H. reflexivity. Qed.

Lemma in_list_true x l : in_list x l = true <-> In x l.
Proof.
  unfold in_list. rewrite existsb_exists. split.
  - intros (y & H & E). apply String.eqb_eq in E. subst. auto.
  - intros H. exists x. split; auto. apply String.eqb_refl.
Qed.
Lemma in_list_false x l : in_list x l = false <-> ~ In x l.
Proof. rewrite <- in_list_true. destruct (in_list x l); split; congruence. Qed.

Lemma lookups_ok N ks : (forall k, In k ks -> lookup N k <> None) ->
  exists l, lookups N ks = Some l /\ map fst l = ks /\ forall k p, In (k, p) l -> lookup N k = Some p.
Proof.
  induction ks as [|k ks IH]; intros H.
  - exists []. split; [reflexivity|]. split; [reflexivity|]. intros k p [].
  - destruct IH as (l & E & M & P). { intros j Hj. apply H. cbn. auto. }
    destruct (lookup N k) as [q|] eqn:L; [|destruct (H k); cbn; auto].
    exists ((k, q) :: l). cbn. rewrite L, E, M. split; [auto|]. split; [auto|]. intros j p [X|X]; [injection X as <- <-; auto|auto].
Qed.
Lemma uses_in N f fi v : aget f (n_funs N) = Some fi -> (uses N f v > 0 <-> In v (f_in fi)).
Proof. intros E. unfold uses. rewrite E, count_in. lia. Qed.

(** One turn, in terms of what is resolved. *)
Lemma turn s f rest fi : inv s -> w_stack s = f :: rest -> aget f (n_funs (w_net s)) = Some fi ->
  ((forall u, uses (w_net s) f u > 0 -> resolved s u) ->
     (done s f -> one_turn sel s = Next {| w_net := w_net s; w_renamed := w_renamed s; w_stack := rest; w_eval := w_eval s |}) /\
     (~ done s f -> one_turn sel s = match visit sel f fi (w_net s) (w_renamed s) with
                       | Ok (N', ren) => Next {| w_net := N'; w_renamed := ren; w_stack := rest; w_eval := f_out fi ++ w_eval s |}
                       | Err e => Failed e end))
  /\ (~ (forall u, uses (w_net s) f u > 0 -> resolved s u) -> exists gs,
        one_turn sel s = Next {| w_net := w_net s; w_renamed := w_renamed s; w_stack := gs ++ f :: rest; w_eval := w_eval s |}
        /\ (forall g, In g gs -> rank g < rank f)
        /\ (forall u, uses (w_net s) f u > 0 -> ~ resolved s u -> exists g, In g gs /\ produces (w_net s) g u)).
Proof.
  intros I Es Ef. pose proof (i_wf _ I) as W.
  destruct (lookups_ok (w_net s) (f_in fi)) as (ins & Li & Mi & Pi).
  { intros k Hk. apply (w_in _ _ _ W f). apply (uses_in _ f fi); auto. }
  destruct (lookups_ok (w_net s) (f_out fi)) as (outs & Lo & Mo & Po).
  { intros k Hk. destruct (w_out _ _ _ W f k) as (p & E & _); [exists fi; auto|]. unfold lookup. rewrite E. discriminate. }
  pose (unres := filter (fun kv => match v_parent (snd kv) with Some _ => negb (in_list (fst kv) (w_eval s)) | None => false end) ins).
  assert (U1 : forall k p, In (k, p) unres <-> In (k, p) ins /\ ~ In k (w_eval s) /\ exists g, v_parent p = Some g).
  { intros k p. unfold unres. rewrite filter_In. cbn [fst snd]. destruct (v_parent p) as [g|].
    - rewrite negb_true_iff, in_list_false. split; [intros (H & H'); split; [auto|split; eauto]|intros (H & H' & _); auto].
    - split; [intros (_ & H); discriminate|intros (_ & _ & g & H); discriminate]. }
  assert (U2 : forall u, uses (w_net s) f u > 0 -> ~ resolved s u -> exists p g, In (u, p) unres /\ v_parent p = Some g /\ produces (w_net s) g u).
  { intros u Hu Hr. apply (uses_in _ f fi) in Hu; auto. rewrite <- Mi in Hu. apply in_map_iff in Hu as ((k & p) & <- & Hk). cbn [fst] in *.
    pose proof (Pi k p Hk) as Lk. destruct (v_parent p) as [g|] eqn:Pp.
    - exists p, g. split; [|split; auto]; [|apply (w_par _ _ _ W k p g); auto]. apply U1. split; [auto|]. split; [|eauto]. intros H. apply Hr. left. auto.
    - destruct Hr. right. intros g Pg. apply (w_out _ _ _ W) in Pg as (q & Eq & Pq). unfold lookup in Lk. rewrite Eq in Lk. congruence. }
  assert (U3 : unres = [] <-> forall u, uses (w_net s) f u > 0 -> resolved s u).
  { split.
    - intros E u Hu. destruct (in_dec string_dec u (w_eval s)) as [H|H]; [left; auto|].
      destruct (producer_dec sel _ _ W u) as [(g & Pg)|Pg]; [|right; auto].
      destruct (U2 u Hu) as (p & g' & H' & _). { intros [R|R]; [auto|apply (R g Pg)]. } rewrite E in H'. contradiction.
    - intros H. destruct unres as [|(k & p) l] eqn:E; auto. exfalso.
      destruct (proj1 (U1 k p) (or_introl eq_refl)) as (Hk & Hn & g & Pg).
      assert (Uk : uses (w_net s) f k > 0). { apply (uses_in _ f fi); auto. rewrite <- Mi. apply in_map_iff. exists (k, p). auto. }
      destruct (H k Uk) as [R|R]; [auto|]. apply (R g). apply (w_par _ _ _ W k p g); auto. }
  unfold one_turn. rewrite Es, Ef, Li, Lo. fold unres. split.
  - intros H. apply U3 in H as H'. rewrite H'. split.
    + intros Dn. assert (F : forallb (fun k => in_list k (w_eval s)) (f_out fi) = true).
      { apply forallb_forall. intros v Hv. apply in_list_true, Dn. exists fi. auto. }
      rewrite F. reflexivity.
    + intros Nd. assert (None_in : forall v, In v (f_out fi) -> ~ In v (w_eval s)).
      { intros v Hv E. apply Nd. apply (i_eval _ I v f E). exists fi. auto. }
      assert (F : forallb (fun k => in_list k (w_eval s)) (f_out fi) = false).
      { apply not_true_is_false. intros F. rewrite forallb_forall in F. apply Nd. intros v (g & Eg & Hv). rewrite Ef in Eg. injection Eg as <-.
        apply in_list_true, F, Hv. }
      assert (G : forallb (fun k => negb (in_list k (w_eval s))) (f_out fi) = true).
      { apply forallb_forall. intros v Hv. apply negb_true_iff, in_list_false, None_in, Hv. }
      rewrite F, G. reflexivity.
  - intros H. destruct unres as [|kv l] eqn:E; [destruct H; apply U3; auto|]. rewrite <- E.
    exists (rev (parents unres)). split; [rewrite E; reflexivity|]. rewrite E. rewrite <- E. split.
    + intros g Hg. apply in_rev in Hg. unfold parents in Hg. apply in_flat_map in Hg as ((k & p) & Hk & Hg). cbn [snd] in Hg.
      rewrite E in Hk. apply U1 in Hk as (Hk & _ & _). destruct (v_parent p) as [g'|] eqn:Pp; [|destruct Hg]. destruct Hg as [->|[]].
      apply (w_rank _ _ _ W f g k).
      * apply (uses_in _ f fi); auto. rewrite <- Mi. apply in_map_iff. exists (k, p). auto.
      * apply (w_par _ _ _ W k p g); auto.
    + intros u Hu Hr. destruct (U2 u Hu Hr) as (p & g & H1 & H2 & H3). exists g. split; auto. apply -> in_rev.
      unfold parents. apply in_flat_map. exists (u, p). rewrite E. split; auto. cbn [snd]. rewrite H2. cbn. auto.
Qed.

Lemma done_dec s f : done s f \/ ~ done s f.
Proof.
  unfold done, produces. destruct (aget f (n_funs (w_net s))) as [fi|] eqn:E.
  - destruct (forallb (fun v => in_list v (w_eval s)) (f_out fi)) eqn:F.
    + left. intros v (g & [= <-] & Hv). rewrite forallb_forall in F. apply in_list_true, F, Hv.
    + right. intros H. apply not_true_iff_false in F. apply F. apply forallb_forall. intros v Hv. apply in_list_true, H. eauto.
  - left. intros v (g & X & _). discriminate.
Qed.
Lemma resolved_dec s f : inv s -> (forall u, uses (w_net s) f u > 0 -> resolved s u) \/ ~ (forall u, uses (w_net s) f u > 0 -> resolved s u).
Proof.
  intros I. destruct (aget f (n_funs (w_net s))) as [fi|] eqn:E; [|left; intros u; unfold uses; rewrite E; lia].
  assert (D : forall l, (forall u, In u l -> resolved s u) \/ ~ (forall u, In u l -> resolved s u)).
  { induction l as [|u l [IH|IH]]; [left; intros u []| |right; intros H; apply IH; intros v Hv; apply H; cbn; auto].
    assert (Du : resolved s u \/ ~ resolved s u).
    { destruct (in_dec string_dec u (w_eval s)) as [H|H]; [left; left; auto|].
      destruct (producer_dec sel _ _ (i_wf _ I) u) as [(g & P)|P]; [right; intros [R|R]; [auto|apply (R g P)]|left; right; auto]. }
    destruct Du as [Du|Du]; [left|right]; [intros v [<-|Hv]; auto|]. intros H. apply Du, H. cbn. auto. }
  destruct (D (f_in fi)) as [H|H]; [left|right].
  - intros u Hu. apply H. apply (uses_in (w_net s) f fi u E). auto.
  - intros K. apply H. intros u Hu. apply K. apply (uses_in (w_net s) f fi u E). auto.
Qed.

(** A removal, as a change of state. *)
Lemma removal s f rest fi : inv s -> aget f (n_funs (w_net s)) = Some fi -> is_rem sel (w_net s) f ->
  (forall u, uses (w_net s) f u > 0 -> resolved s u) ->
  exists N' ren t, remove_function f (w_net s) (w_renamed s) = Ok (N', ren) /\
    let s' := {| w_net := N'; w_renamed := ren; w_stack := rest; w_eval := f_out fi ++ w_eval s |} in
    inv s' /\ ext (S (rank f)) s s' t /\ done s' f.
Proof.
  intros I Ef Hrem Hres. pose proof (i_wf _ I) as W.
  destruct (w_id _ _ _ W f fi Hrem Ef) as (x & y & Hin & Hout).
  assert (Ux : uses (w_net s) f x > 0) by (rewrite (pf_in _ _ _ _ Ef Hin); lia).
  assert (Hx : forall g, produces (w_net s) g x -> ~ is_rem sel (w_net s) g).
  { intros g P. destruct (Hres x Ux) as [R|R]; [apply (i_eval _ I x g R P)|destruct (R g P)]. }
  destruct (step_ok sel _ rank f x y fi (w_renamed s) W Ef Hrem Hin Hout Hx)
    as (N' & a & b & px & py & pv & E & Ex & Ey & C & R & Vp & Vr & Vr0 & Ve).
  pose proof (removed_wf sel _ rank W f x y fi Ef Hrem Hin Hout Hx a b py Ey C N' px pv Ex R Vp Vr Vr0 Ve) as W'.
  pose proof (ab sel _ rank W f x y fi Ef Hin Hout a b py C) as Dab.
  pose proof (x_y sel _ rank W f x y fi Ef Hin Hout) as Dxy.
  pose proof (pf_out _ f y fi Ef Hout) as Py.
  pose proof (out_a sel _ rank W f x y fi Ef Hrem Hin Hout Hx a b py Ey C) as Oa.
  pose proof (written_a sel _ rank W f x y fi Ef Hrem Hin Hout Hx a b py Ey C) as (ga & Wa).
  assert (PN : forall g v, produces N' g v <-> g <> f /\ ((v <> a /\ v <> b /\ produces (w_net s) g v) \/ (v = b /\ produces (w_net s) g x)))
    by (intros g v; eapply produces_new; eauto).
  assert (LN : forall v, lookup N' v = if String.eqb v a then None else if String.eqb v b then Some pv else lookup (w_net s) v)
    by (intros v; eapply lookup_new; eauto).
  assert (RN : forall g v, uses N' g v > 0 -> g <> f /\ v <> a /\ ((v = b /\ (uses (w_net s) g a > 0 \/ uses (w_net s) g b > 0)) \/ (v <> b /\ uses (w_net s) g v > 0)))
    by (intros g v; eapply reads_new; eauto).
  assert (Sx : subst1 a b x = b).
  { destruct C as [(-> & -> & _)|(-> & -> & _)]; [apply subst1_ne; auto|apply subst1_a]. }
  assert (Sy : subst1 a b y = b).
  { destruct C as [(-> & -> & _)|(-> & -> & _)]; [apply subst1_a|apply subst1_ne; auto]. }
  pose (s' := {| w_net := N'; w_renamed := aput a b (w_renamed s); w_stack := rest; w_eval := f_out fi ++ w_eval s |}).
  exists N', (aput a b (w_renamed s)), (subst1 a b). split; [exact E|]. cbn zeta. fold s'.
  assert (Ev : forall v, In v (w_eval s') <-> v = y \/ In v (w_eval s)).
  { intros v. unfold s'. cbn [w_eval]. rewrite Hout. cbn. split; intros [H|H]; auto. }
  (** what is resolved stays resolved *)
  assert (Hr : forall v, resolved s v -> resolved s' (subst1 a b v)).
  { intros v H. destruct (String.eqb_spec v a) as [->|va].
    - rewrite subst1_a. destruct C as [(-> & -> & _)|(-> & -> & _)]; [|left; apply Ev; auto].
      destruct (Hres x Ux) as [Rx|Rx]; [left; apply Ev; auto|]. right. cbn [s' w_net]. intros g P. apply PN in P as (_ & [(_ & n & _)|(_ & P)]); [congruence|apply (Rx g P)].
    - rewrite subst1_ne by auto. destruct H as [H|H]; [left; apply Ev; auto|]. right. cbn [s' w_net]. intros g P.
      apply PN in P as (_ & [(_ & _ & P)|(-> & P)]); [apply (H g P)|].
      destruct C as [(-> & -> & _)|(-> & -> & _)]; [apply (H g P)|apply (H f Py)]. }
  assert (Dn : forall g, g <> f -> done s g -> done s' g).
  { intros g n D v P. cbn [s' w_net] in P. pose proof P as P0. apply (produces_image _ _ _ _ _ _ R) in P as (_ & w & P & <-). 
    assert (Rw : resolved s' (subst1 a b w)) by (apply Hr; left; apply D; auto).
    destruct Rw as [Rw|Rw]; auto. destruct (Rw g P0). }
  assert (Rd : forall g, g <> f -> (forall u, uses (w_net s) g u > 0 -> resolved s u) -> forall u, uses N' g u > 0 -> resolved s' u).
  { intros g n H u U. apply RN in U as (_ & ua & [(-> & [U|U])|(ub & U)]).
    - rewrite <- (subst1_a a b). apply Hr, H, U.
    - rewrite <- (subst1_ne a b b) by auto. apply Hr, H, U.
    - rewrite <- (subst1_ne a b u) by auto. apply Hr, H, U. }
  split; [|split].
  - constructor; cbn [s' w_net w_renamed].
    + exact W'.
    + intros v g Hv P. apply Ev in Hv. apply PN in P as (n & P).
      (** g wrote an evaluated variable before *)
      assert (K : exists w, In w (w_eval s) /\ produces (w_net s) g w).
      { destruct P as [(va & vb & P)|(-> & P)].
        - exists v. split; auto. destruct Hv as [->|Hv]; auto. destruct n. apply (producer_unique sel _ _ W g f y P Py).
        - exists x. split; auto. destruct (Hres x Ux) as [Rx|Rx]; auto. destruct (Rx g P). }
      destruct K as (w & Hw & Pw). destruct (i_eval _ I w g Hw Pw) as (K1 & K2 & K3). split; [|split].
      * intros Q. apply (is_rem_image _ _ _ _ _ _ _ R) in Q as (_ & Q). auto.
      * apply Dn; auto.
      * apply Rd; auto.
    + intros v H. rewrite aget_aput in H. rewrite LN. destruct (String.eqb_spec v a) as [Eva|va]; [reflexivity|].
      pose proof (i_ren _ I v H) as L. destruct (String.eqb_spec v b) as [->|vb]; [|auto].
      destruct C as [(-> & -> & _)|(-> & -> & _)]; [congruence|]. unfold lookup in L. rewrite Ey in L. discriminate.
  - constructor; cbn [s' w_net w_renamed].
    + intros g gi Eg. rewrite (r_funs _ _ _ _ _ _ R) in Eg. destruct (String.eqb_spec g f); [discriminate|].
      destruct (aget g (n_funs (w_net s))) as [g0|]; [|discriminate]. injection Eg as <-. exists g0. auto.
    + intros g H Eg. rewrite (r_funs _ _ _ _ _ _ R). destruct (String.eqb_spec g f) as [->|n].
      * destruct H as [H|H]; [lia|contradiction].
      * destruct (aget g (n_funs (w_net s))); [discriminate|contradiction].
    + intros v _ H. apply Hr. auto.
    + intros g v P Eg. rewrite (r_funs _ _ _ _ _ _ R) in Eg. destruct (String.eqb_spec g f) as [->|n].
      * rewrite (pf_writes _ _ _ _ Ef Hout v P), Sy, <- Sx. apply Hr. auto.
      * destruct P as (g0 & E0 & _). rewrite E0 in Eg. discriminate.
    + intros A sem env Hs.
      enough (K : (forall v c, value A sem env (w_net s) v c -> value A sem env N' (subst1 a b v) c) /\
                  (forall vs l, values A sem env (w_net s) vs l -> values A sem env N' (map (subst1 a b) vs) l)) by apply K.
      apply (value_both A sem env (w_net s)
        (fun v c _ => value A sem env N' (subst1 a b v) c) (fun vs l _ => values A sem env N' (map (subst1 a b) vs) l)).
      * intros v H. assert (va : v <> a) by (intros ->; apply (H ga Wa)). rewrite subst1_ne by auto. apply value_leaf.
        intros g P. apply PN in P as (_ & [(_ & _ & P)|(-> & P)]); [apply (H g P)|].
        destruct C as [(-> & -> & _)|(-> & -> & _)]; [apply (H g P)|apply (H f Py)].
      * intros g gi i v args Eg Hn Ha IH. destruct (String.eqb_spec g f) as [->|n].
        -- rewrite Ef in Eg. injection Eg as <-. rewrite Hout in Hn. rewrite Hin in IH.
           destruct i as [|i]; [|destruct i; discriminate]. cbn in Hn. injection Hn as <-.
           cbn [map] in IH. inversion IH as [|? ? c ? V1 V2]; subst. inversion V2; subst. rewrite Hs by auto. rewrite Sy, <- Sx. auto.
        -- apply value_fun with (fi := {| f_id := f_id gi; f_in := map (subst1 a b) (f_in gi); f_out := map (subst1 a b) (f_out gi) |}).
           ++ rewrite (r_funs _ _ _ _ _ _ R). apply String.eqb_neq in n. rewrite n, Eg. reflexivity.
           ++ cbn [f_out]. apply map_nth_error. auto.
           ++ exact IH.
      * apply values_nil.
      * intros v vs c l _ H _ Hs'. cbn [map]. apply values_cons; auto.
    + intros v L. rewrite LN. destruct (String.eqb_spec v a) as [->|va].
      * rewrite subst1_a. destruct (String.eqb_spec b a); [congruence|]. rewrite String.eqb_refl. discriminate.
      * rewrite subst1_ne by auto. destruct (String.eqb_spec v a); [congruence|]. destruct (String.eqb v b); [discriminate|auto].
    + apply (r_in _ _ _ _ _ _ R).
    + split; [apply (r_out _ _ _ _ _ _ R)|]. intros o H. apply subst1_ne. congruence.
    + intros v w L. assert (An : aget a (w_renamed s) = None).
      { destruct (aget a (w_renamed s)) eqn:Ea; auto. pose proof (i_ren _ I a ltac:(congruence)) as La.
        apply (w_out _ _ _ W) in Wa as (q & Eq & _). unfold lookup in La. rewrite Eq in La. discriminate. }
      assert (Bn : aget b (w_renamed s) = None).
      { destruct (aget b (w_renamed s)) eqn:Eb; auto. pose proof (i_ren _ I b ltac:(congruence)) as Lb.
        destruct C as [(-> & -> & _)|(-> & -> & _)]; [congruence|]. unfold lookup in Lb. rewrite Ey in Lb. discriminate. }
      intros Lw. induction L as [v Hv|v u w Hv L IH].
      * destruct (String.eqb_spec v a) as [->|va].
        -- rewrite subst1_a. apply leads_step with (u := b). { rewrite aget_aput, String.eqb_refl. reflexivity. }
           apply leads_end. rewrite aget_aput. destruct (String.eqb_spec b a); [congruence|auto].
        -- rewrite subst1_ne by auto. apply leads_end. rewrite aget_aput. destruct (String.eqb_spec v a); [congruence|auto].
      * apply leads_step with (u := u); auto. rewrite aget_aput. destruct (String.eqb_spec v a); [congruence|auto].
  - intros v (g & Eg & _). cbn [s' w_net] in Eg. rewrite (r_funs _ _ _ _ _ _ R), String.eqb_refl in Eg. discriminate.
Qed.

Lemma walk_ready s f rest : inv s -> w_stack s = f :: rest -> (forall u, uses (w_net s) f u > 0 -> resolved s u) ->
  exists s' t, steps 1 s s' /\ inv s' /\ ext (S (rank f)) s s' t /\ w_stack s' = rest /\ done s' f.
Proof.
  intros I Es Hres. destruct (aget f (n_funs (w_net s))) as [fi|] eqn:Ef.
  - destruct (turn s f rest fi I Es Ef) as (T & _). destruct (T Hres) as (T1 & T2). destruct (done_dec s f) as [D|D].
    + exists {| w_net := w_net s; w_renamed := w_renamed s; w_stack := rest; w_eval := w_eval s |}, (fun v => v).
      split; [apply steps_1; auto|]. split; [destruct I; constructor; auto|]. split; [apply (ext_refl _ s rest [])|]. split; auto.
    + specialize (T2 D). unfold visit in T2. destruct (removable sel f fi) eqn:Rm.
      * destruct (removal s f rest fi I Ef) as (N' & ren & t & E & I' & X & Dn).
        { unfold removable in Rm. apply andb_true_iff in Rm. exists fi. auto. } { auto. }
        rewrite E in T2. eexists. exists t. split; [apply steps_1; exact T2|]. split; [exact I'|]. split; [exact X|]. split; [reflexivity|exact Dn].
      * exists {| w_net := w_net s; w_renamed := w_renamed s; w_stack := rest; w_eval := f_out fi ++ w_eval s |}, (fun v => v).
        split; [apply steps_1; auto|]. split.
        -- destruct I as [I1 I2 I3]. constructor; cbn [w_net w_renamed w_eval]; auto.
           intros v g Hv P. apply in_app_iff in Hv as [Hv|Hv].
           ++ assert (g = f) as ->. { apply (producer_unique sel _ _ I1 g f v P). exists fi. auto. }
              split; [|split].
              ** intros (fi' & E' & Q). rewrite Ef in E'. injection E' as <-. unfold removable in Rm. destruct Q as (Q1 & Q2). rewrite Q1, Q2 in Rm. discriminate.
              ** intros u (fi' & E' & Hu). cbn [w_net] in E'. rewrite Ef in E'. injection E' as <-. cbn. apply in_app_iff. auto.
              ** intros u Hu. destruct (Hres u Hu) as [H|H]; [left; cbn; apply in_app_iff; auto|right; auto].
           ++ destruct (I2 v g Hv P) as (K1 & K2 & K3). split; [auto|split].
              ** intros u Hu. cbn. apply in_app_iff. right. apply K2. auto.
              ** intros u Hu. destruct (K3 u Hu) as [H|H]; [left; cbn; apply in_app_iff; auto|right; auto].
        -- split; [apply ext_refl|]. split; [reflexivity|]. intros u (fi' & E' & Hu). cbn [w_net] in E'. rewrite Ef in E'. injection E' as <-. cbn. apply in_app_iff. auto.
  - exists {| w_net := w_net s; w_renamed := w_renamed s; w_stack := rest; w_eval := w_eval s |}, (fun v => v).
    split; [apply steps_1; unfold one_turn; rewrite Es, Ef; reflexivity|]. split; [destruct I; constructor; auto|].
    split; [apply (ext_refl _ s rest [])|]. split; [reflexivity|]. intros v (g & Eg & _). cbn in Eg. congruence.
Qed.

Lemma done_ext k s s' t g : inv s -> ext k s s' t -> done s g -> done s' g.
Proof.
  intros I X D v (gi & E & Hv). destruct (e_funs _ _ _ _ X g gi E) as (g0 & E0 & _ & _ & Z). rewrite Z in Hv.
  apply in_map_iff in Hv as (w & <- & Hw). assert (P : produces (w_net s) g w) by (exists g0; auto).
  assert (L : lookup (w_net s) w <> None).
  { apply (w_out _ _ _ (i_wf _ I)) in P as (q & Eq & _). unfold lookup. rewrite Eq. discriminate. }
  destruct (e_res _ _ _ _ X w L (or_introl (D w P))) as [H|H]; auto. destruct (H g). exists gi. rewrite Z. split; auto. apply in_map. auto.
Qed.

Lemma walk_list k :
  (forall f rest s, rank f < k -> inv s -> w_stack s = f :: rest ->
     exists n s' t, steps n s s' /\ inv s' /\ ext (S (rank f)) s s' t /\ w_stack s' = rest /\ done s' f) ->
  forall gs rest s, inv s -> (forall g, In g gs -> rank g < k) -> w_stack s = gs ++ rest ->
    exists n s' t, steps n s s' /\ inv s' /\ ext k s s' t /\ w_stack s' = rest /\ (forall g, In g gs -> done s' g).
Proof.
  intros H. induction gs as [|g gs IH]; intros rest s I G Es.
  - exists 0, s, (fun v => v). split; [apply steps_0|]. split; [exact I|]. split; [|split; [exact Es|intros g []]].
    pose proof (ext_refl k s rest []) as X. cbn in Es. rewrite <- Es in X. destruct s. exact X.
  - destruct (H g (gs ++ rest) s (G g (or_introl eq_refl)) I Es) as (n1 & s1 & t1 & S1 & I1 & X1 & E1 & D1).
    destruct (IH rest s1 I1) as (n2 & s2 & t2 & S2 & I2 & X2 & E2 & D2). { intros x Hx. apply G. right. auto. } { auto. }
    exists (n1 + n2), s2, (fun v => t2 (t1 v)). split; [eapply steps_trans; eauto|]. split; [auto|]. split; [|split; [auto|]].
    + apply (ext_trans k s s1 s2); auto. apply ext_weaken with (k := S (rank g)); [|exact X1]. apply G. cbn. auto.
    + intros x [<-|Hx]; auto. apply (done_ext k s1 s2 t2 g I1 X2 D1).
Qed.

Lemma walk_one : forall k f rest s, rank f < k -> inv s -> w_stack s = f :: rest ->
  exists n s' t, steps n s s' /\ inv s' /\ ext (S (rank f)) s s' t /\ w_stack s' = rest /\ done s' f.
Proof.
  induction k as [|k IH]; intros f rest s Hk I Es; [lia|].
  destruct (resolved_dec s f I) as [Hr|Hr].
  { destruct (walk_ready s f rest I Es Hr) as (s' & t & X). exists 1, s', t. exact X. }
  destruct (aget f (n_funs (w_net s))) as [fi|] eqn:Ef.
  2:{ destruct Hr. intros u. unfold uses. rewrite Ef. lia. }
  destruct (turn s f rest fi I Es Ef) as (_ & T). destruct (T Hr) as (gs & T1 & T2 & T3).
  set (s1 := {| w_net := w_net s; w_renamed := w_renamed s; w_stack := gs ++ f :: rest; w_eval := w_eval s |}) in *.
  assert (I1 : inv s1) by (destruct I; constructor; auto).
  assert (X1 : ext (rank f) s s1 (fun v => v)) by (apply (ext_refl _ s (gs ++ f :: rest) [])).
  destruct (walk_list (rank f)) with (gs := gs) (rest := f :: rest) (s := s1) as (n & s2 & t & S2 & I2 & X2 & E2 & D2); auto.
  { intros g r u Hg. apply IH. lia. }
  assert (Hr2 : forall u, uses (w_net s2) f u > 0 -> resolved s2 u).
  { intros u Hu. destruct (aget f (n_funs (w_net s2))) as [f2|] eqn:Ef2; [|unfold uses in Hu; rewrite Ef2 in Hu; lia].
    apply (uses_in _ f f2) in Hu; auto. destruct (e_funs _ _ _ _ X2 f f2 Ef2) as (f1 & Ef1 & _ & Y & _). cbn [s1 w_net] in Ef1. rewrite Ef in Ef1. injection Ef1 as <-.
    rewrite Y in Hu. apply in_map_iff in Hu as (w & <- & Hw). assert (Uw : uses (w_net s) f w > 0) by (apply (uses_in _ f fi); auto).
    destruct (in_dec string_dec w (w_eval s)) as [Ew|Ew].
    { apply (e_res _ _ _ _ X2); [apply (w_in _ _ _ (i_wf _ I) f w Uw)|left; exact Ew]. }
    destruct (producer_dec sel _ _ (i_wf _ I) w) as [(h & Ph)|Ph].
    2:{ apply (e_res _ _ _ _ X2); [apply (w_in _ _ _ (i_wf _ I) f w Uw)|right; exact Ph]. }
    destruct (T3 w Uw) as (g & Hg & Pg). { intros [R|R]; [auto|apply (R h Ph)]. }
    destruct (aget g (n_funs (w_net s2))) as [g2|] eqn:Eg2; [|apply (e_gone _ _ _ _ X2 g); auto].
    left. apply (D2 g Hg). exists g2. split; auto. destruct (e_funs _ _ _ _ X2 g g2 Eg2) as (g1 & Eg1 & _ & _ & Z).
    destruct Pg as (g1' & Eg1' & Hg1). cbn [s1 w_net] in Eg1. rewrite Z. apply in_map. congruence. }
  destruct (walk_ready s2 f rest I2 E2 Hr2) as (s3 & t3 & S3 & I3 & X3 & E3 & D3).
  exists (1 + (n + 1)), s3, (fun v => t3 (t v)). split; [|split; [auto|split; [|split; auto]]].
  - eapply steps_trans; [apply steps_1; exact T1|]. eapply steps_trans; eauto.
  - apply (ext_trans _ s s2 s3); auto. apply (ext_trans _ s s1 s2); auto; [apply ext_weaken with (k := rank f)|apply ext_weaken with (k := rank f)]; auto.
Qed.

(** Functions that an output depends on. *)
Inductive needed (N : pnet) : string -> Prop :=
| needed_out o f : In o (n_out N) -> produces N f o -> needed N f
| needed_in f v g : needed N f -> uses N f v > 0 -> produces N g v -> needed N g.

Lemma walk_all N : wf sel N rank -> exists fuel0 s' t,
  (forall fuel, fuel0 <= fuel -> remove_identities fuel sel N = Some (Ok (w_net s', w_renamed s')))
  /\ inv s' /\ (exists k, ext k {| w_net := N; w_renamed := []; w_stack := []; w_eval := n_in N |} s' t)
  /\ (forall f, needed (w_net s') f -> ~ is_rem sel (w_net s') f).
Proof.
  intros W. destruct (lookups_ok N (n_out N)) as (outs & Lo & Mo & Po).
  { intros o H. pose proof (w_nout _ _ _ W o H). unfold lookup. destruct (aget o (n_vars N)); [discriminate|contradiction]. }
  assert (Fo : forallb (fun k => ahas k (n_vars N)) (n_out N) = true).
  { apply forallb_forall. intros o H. pose proof (w_nout _ _ _ W o H). unfold ahas. destruct (aget o (n_vars N)); [auto|contradiction]. }
  set (s0 := {| w_net := N; w_renamed := []; w_stack := rev (parents outs); w_eval := n_in N |}).
  assert (I0 : inv s0).
  { constructor; cbn [s0 w_net w_renamed w_eval]; auto.
    - intros v f Hv P. destruct (w_nin _ _ _ W v Hv) as (_ & H). destruct (H f P).
    - intros v H. destruct H. reflexivity. }
  assert (M : exists k, forall g, In g (rev (parents outs)) -> rank g < k).
  { generalize (rev (parents outs)). intros l. induction l as [|g l (k & IH)]; [exists 0; intros g []|].
    exists (S (rank g) + k). intros h [<-|H]; [lia|]. specialize (IH h H). lia. }
  destruct M as (k & M).
  destruct (walk_list k (walk_one k) (rev (parents outs)) [] s0 I0 M) as (n & s' & t & S & I & X & E & D).
  { cbn [s0 w_stack]. rewrite app_nil_r. reflexivity. }
  exists (Datatypes.S n), s', t. split; [|split; [auto|split]].
  - intros fuel Hf. unfold remove_identities. rewrite Fo, Lo. fold s0. replace fuel with (n + Datatypes.S (fuel - n - 1)) by lia.
    rewrite S. cbn [walk]. unfold one_turn. rewrite E. reflexivity.
  - exists k. destruct X. constructor; auto.
  - (** what is needed is evaluated *)
    intros f Hn. enough (K : exists v, In v (w_eval s') /\ produces (w_net s') f v) by (destruct K as (v & H1 & H2); apply (i_eval _ I v f H1 H2)).
    induction Hn as [o f Ho Pf|f v g Hn (w & Hw & Pw) Uv Pg].
    + exists o. split; auto. destruct (e_out _ _ _ _ X) as (X1 & X2). rewrite X1 in Ho. cbn [s0 w_net] in Ho.
      enough (Ro : resolved s' o) by (destruct Ro as [R|R]; [auto|destruct (R f Pf)]).
      rewrite <- (X2 o Ho). destruct (producer_dec sel _ _ W o) as [(g & Pg)|Pg].
      * assert (Hg : In g (rev (parents outs))).
        { apply -> in_rev. unfold parents. pose proof Ho as Ho'. rewrite <- Mo in Ho'. apply in_map_iff in Ho' as ((o' & p) & E' & Hp). cbn in E'. subst o'.
          apply in_flat_map. exists (o, p). split; auto. cbn [snd]. pose proof (Po o p Hp) as Lp.
          apply (w_out _ _ _ W) in Pg as (q & Eq & Pq). unfold lookup in Lp. rewrite Eq in Lp. injection Lp as <-. rewrite Pq. cbn. auto. }
        destruct (aget g (n_funs (w_net s'))) as [g2|] eqn:Eg2; [|apply (e_gone _ _ _ _ X g); auto].
        left. apply (D g Hg). exists g2. split; auto. destruct (e_funs _ _ _ _ X g g2 Eg2) as (g1 & Eg1 & _ & _ & Z).
        destruct Pg as (g1' & Eg1' & Hg1). cbn [s0 w_net] in Eg1. rewrite Z. apply in_map. congruence.
      * apply (e_res _ _ _ _ X); [|right; exact Pg]. cbn [s0 w_net]. pose proof (w_nout _ _ _ W o Ho). unfold lookup. destruct (aget o (n_vars N)); [discriminate|contradiction].
    + exists v. split; auto. destruct (i_eval _ I w f Hw Pw) as (_ & _ & K). destruct (K v Uv) as [R|R]; [auto|destruct (R g Pg)].
Qed.
End Walk.
