(** Identity removal: one removal keeps the network well-formed. *)
From Coq Require Import String List Bool Arith Lia.
From Verif Require Import Assoc IdModel IdSpec IdProofs1.
Import ListNotations.
Local Open Scope string_scope.
Local Open Scope list_scope.

(** N' is N without the function pf and with [a] renamed to [b] everywhere. *)
Record renames (N N' : pnet) (pf a b : string) (pv : pvar) : Prop := {
  r_funs : forall g, aget g (n_funs N') = if String.eqb g pf then None else
    option_map (fun gi => {| f_id := f_id gi; f_in := map (subst1 a b) (f_in gi); f_out := map (subst1 a b) (f_out gi) |}) (aget g (n_funs N));
  r_vars : forall v, aget v (n_vars N') = if String.eqb v a then None else if String.eqb v b then Some pv else aget v (n_vars N);
  r_params : n_params N' = n_params N;
  r_in : n_in N' = n_in N;
  r_out : n_out N' = n_out N }.

Lemma subst1_a a b : subst1 a b a = b.
Proof. unfold subst1. rewrite String.eqb_refl. reflexivity. Qed.
Lemma subst1_ne a b v : v <> a -> subst1 a b v = v.
Proof. unfold subst1. destruct (String.eqb_spec v a); congruence. Qed.

Lemma count_subst a b v l : a <> b -> count v (map (subst1 a b) l) = if String.eqb v a then 0 else if String.eqb v b then count a l + count b l else count v l.
Proof.
  intros D. induction l as [|c l IH].
  - cbn. destruct (String.eqb v a), (String.eqb v b); reflexivity.
  - cbn [map]. rewrite !count_cons, IH. unfold subst1.
    destruct (String.eqb_spec c a) as [->|].
    + destruct (String.eqb_spec v a) as [->|]; [destruct (String.eqb_spec a b); [congruence|reflexivity]|].
      destruct (String.eqb_spec v b) as [->|]; [|lia]. rewrite String.eqb_refl.
      destruct (String.eqb_spec b a); [congruence|]. lia.
    + destruct (String.eqb_spec v a) as [->|]; [destruct (String.eqb_spec a c); [congruence|reflexivity]|].
      destruct (String.eqb_spec v b) as [->|]; [|lia]. destruct (String.eqb_spec a c); [congruence|]. lia.
Qed.

Section Image.
Variable sel : string -> bool.
Variables (N N' : pnet) (pf a b : string) (pv : pvar).
Hypothesis R : renames N N' pf a b pv.
Hypothesis D : a <> b.

Lemma produces_image g v : produces N' g v <-> g <> pf /\ exists w, produces N g w /\ subst1 a b w = v.
Proof using R.
  unfold produces. split.
  - intros (fi & E & H). rewrite (r_funs _ _ _ _ _ _ R) in E. destruct (String.eqb_spec g pf); [discriminate|]. split; auto.
    destruct (aget g (n_funs N)) as [gi|]; [|discriminate]. cbn in E. injection E as <-. cbn [f_out] in H.
    apply in_map_iff in H as (w & <- & Hw). exists w. split; eauto.
  - intros (n & w & (gi & E & H) & <-). rewrite (r_funs _ _ _ _ _ _ R). apply String.eqb_neq in n. rewrite n, E. cbn.
    eexists. split; [reflexivity|]. cbn [f_out]. apply in_map. auto.
Qed.
Lemma is_rem_image g : is_rem sel N' g <-> g <> pf /\ is_rem sel N g.
Proof using R.
  unfold is_rem. rewrite (r_funs _ _ _ _ _ _ R). destruct (String.eqb_spec g pf).
  - split; [intros (fi & E & _); discriminate|]. intros (H & _). contradiction.
  - split.
    + intros (fi & E & H). split; auto. destruct (aget g (n_funs N)) as [gi|]; [|discriminate]. injection E as <-. exists gi. auto.
    + intros (_ & gi & E & H). rewrite E. cbn. eexists. split; [reflexivity|]. auto.
Qed.
Lemma uses_image g v : uses N' g v = if String.eqb g pf then 0 else if String.eqb v a then 0 else if String.eqb v b then uses N g a + uses N g b else uses N g v.
Proof using R D.
  unfold uses. rewrite (r_funs _ _ _ _ _ _ R). destruct (String.eqb g pf); [reflexivity|].
  destruct (aget g (n_funs N)) as [gi|]; cbn [option_map f_in].
  - apply count_subst. auto.
  - destruct (String.eqb v a), (String.eqb v b); reflexivity.
Qed.
End Image.

Section Step.
Variable sel : string -> bool.
Variables (N : pnet) (rank : string -> nat).
Hypothesis W : wf sel N rank.
Variables (pf x y : string) (fi : pfun).
Hypothesis Hf : aget pf (n_funs N) = Some fi.
Hypothesis Hrem : is_rem sel N pf.
Hypothesis Hin : f_in fi = [x].
Hypothesis Hout : f_out fi = [y].
(** the identity before this one is already gone *)
Hypothesis Hx : forall f, produces N f x -> ~ is_rem sel N f.

Lemma pf_out : produces N pf y. Proof using Hf Hout. exists fi. rewrite Hout. cbn. auto. Qed.
Lemma pf_in : uses N pf x = 1.
Proof using Hf Hin. unfold uses. rewrite Hf, Hin. rewrite count_cons, String.eqb_refl. reflexivity. Qed.
Lemma x_y : x <> y.
Proof using W Hf Hin Hout.
  intros E. pose proof pf_out as P. pose proof pf_in as U. rewrite <- E in P.
  pose proof (w_rank _ _ _ W pf pf x ltac:(lia) P). lia.
Qed.
Lemma producer_unique f g v : produces N f v -> produces N g v -> f = g.
Proof using W.
  intros H1 H2. apply (w_out _ _ _ W) in H1 as (p1 & E1 & F1). apply (w_out _ _ _ W) in H2 as (p2 & E2 & F2). congruence.
Qed.
Lemma pf_reads v : uses N pf v > 0 -> v = x.
Proof using Hf Hin.
  unfold uses. rewrite Hf, Hin, count_cons. destruct (String.eqb_spec v x); auto. cbn. lia.
Qed.
Lemma pf_writes v : produces N pf v -> v = y.
Proof using Hf Hout. intros (g & E & H). rewrite Hf in E. injection E as <-. rewrite Hout in H. destruct H as [H|[]]; auto. Qed.

Lemma root_x : root sel N x x. Proof using Hx. apply root_here. exact Hx. Qed.
Lemma root_y : root sel N y x.
Proof using Hf Hin Hout Hrem Hx. eapply root_step; [exact Hrem| |exact pf_out|exact root_x]. rewrite pf_in. lia. Qed.

(** Every variable has exactly one root. *)
Lemma root_unique v r1 r2 : root sel N v r1 -> root sel N v r2 -> r1 = r2.
Proof using W.
  intros H. revert r2. induction H as [v H|f u v r Hr Hu Hp H IH]; intros r2 H2.
  - destruct H2 as [v _|g u v r2 Gr Gu Gp G]; auto. destruct (H g Gp Gr).
  - destruct H2 as [v H2|g w v r2 Gr Gu Gp G]; [destruct (H2 f Hp Hr)|].
    pose proof (producer_unique f g v Hp Gp) as <-. destruct (Hr) as (f0 & Ef & _).
    destruct (w_id _ _ _ W f f0 Hr Ef) as (x0 & y0 & Ex & Ey).
    assert (X : forall t, uses N f t > 0 -> t = x0).
    { intros t. unfold uses. rewrite Ef, Ex, count_cons. destruct (String.eqb_spec t x0); auto. cbn. lia. }
    rewrite (X u Hu) in *. rewrite (X w Gu) in *. apply IH. auto.
Qed.
Lemma is_rem_dec f : is_rem sel N f \/ ~ is_rem sel N f.
Proof using.
  unfold is_rem. destruct (aget f (n_funs N)) as [g|]; [|right; intros (g & E & _); discriminate].
  destruct (f_id g && sel f) eqn:E.
  - left. exists g. apply andb_true_iff in E as (E1 & E2). auto.
  - right. intros (h & [= <-] & E1 & E2). rewrite E1, E2 in E. discriminate.
Qed.
Lemma producer_dec v : (exists f, produces N f v) \/ (forall f, ~ produces N f v).
Proof using W.
  destruct (aget v (n_vars N)) as [p|] eqn:E.
  - destruct (v_parent p) as [f|] eqn:F.
    + left. exists f. apply (w_par _ _ _ W v p f); auto. unfold lookup. rewrite E. reflexivity.
    + right. intros f H. apply (w_out _ _ _ W) in H as (q & E' & F'). congruence.
  - right. intros f H. apply (w_out _ _ _ W) in H as (q & E' & F'). congruence.
Qed.
Lemma root_exists : forall v, exists r, root sel N v r.
Proof using W.
  assert (K : forall k v, (forall f, produces N f v -> rank f < k) -> exists r, root sel N v r).
  { induction k as [|k IH]; intros v H.
    - exists v. apply root_here. intros f P. specialize (H f P). lia.
    - destruct (producer_dec v) as [(f & P)|P]; [|exists v; apply root_here; intros f Q; destruct (P f Q)].
      destruct (is_rem_dec f) as [F|F]; [|exists v; apply root_here; intros g Q; rewrite (producer_unique g f v Q P); auto].
      destruct F as (f0 & Ef & F1). destruct (w_id _ _ _ W f f0) as (x0 & y0 & Ex & Ey); [exists f0; auto|auto|].
      assert (U : uses N f x0 > 0) by (unfold uses; rewrite Ef, Ex, count_cons, String.eqb_refl; lia).
      destruct (IH x0) as (r & Hr).
      { intros g Q. pose proof (w_rank _ _ _ W f g x0 U Q). specialize (H f P). lia. }
      exists r. apply root_step with (f := f) (x := x0); [exists f0; auto|exact U|exact P|exact Hr]. }
  intros v. destruct (producer_dec v) as [(f & P)|P].
  - apply (K (S (rank f))). intros g Q. rewrite (producer_unique g f v Q P). lia.
  - apply (K 0). intros g Q. destruct (P g Q).
Qed.

(** The two ways a removal goes. *)
Definition kept_input (a b : string) (py : pvar) : Prop := a = y /\ b = x /\ v_req py <> [].
Definition kept_output (a b : string) (py : pvar) : Prop := a = x /\ b = y /\ v_req py = [].

Section Case.
Variables (a b : string) (py : pvar).
Hypothesis Ey : aget y (n_vars N) = Some py.
Hypothesis C : kept_input a b py \/ kept_output a b py.
Lemma ab : a <> b.
Proof. pose proof x_y. destruct C as [(-> & -> & _)|(-> & -> & _)]; congruence. Qed.
Lemma y_lookup : lookup N y = Some py. Proof. unfold lookup. rewrite Ey. reflexivity. Qed.
Lemma y_exact g : occurrences g (v_req py) = uses N g y.
Proof. apply (w_req _ _ _ W y py y_lookup). right. exists pf. split; [exact Hrem|exact pf_out]. Qed.
Lemma out_a : ~ In a (n_out N).
Proof.
  destruct C as [(-> & -> & H)|(-> & -> & H)].
  - intros I. apply H. apply (w_ports _ _ _ W pf y py); auto. apply pf_out.
  - intros I. apply x_y. apply (w_roots _ _ _ W x y x); auto; [|apply root_x|apply root_y].
    apply (w_ports _ _ _ W pf y py); auto. apply pf_out.
Qed.
(** In the second case something writes x. *)
Lemma written_a : exists g, produces N g a.
Proof.
  destruct C as [(-> & -> & H)|(-> & -> & H)].
  - exists pf. apply pf_out.
  - apply (w_written _ _ _ W y x pf); auto; [|apply pf_out|apply root_y]. apply (w_ports _ _ _ W pf y py); auto. apply pf_out.
Qed.

Variables (N' : pnet) (px pv : pvar).
Hypothesis Ex : lookup N x = Some px.
Hypothesis R : renames N N' pf a b pv.
Hypothesis Vp : v_parent pv = v_parent px.
Hypothesis Vr : forall g, g <> pf -> occurrences g (v_req pv) <= uses N g a + uses N g b.
Hypothesis Vr0 : occurrences pf (v_req pv) = 0.
Hypothesis Ve : ~ In b (n_out N) -> forall g, g <> pf -> occurrences g (v_req pv) = uses N g a + uses N g b.

Lemma produces_new g v : produces N' g v <->
  g <> pf /\ ((v <> a /\ v <> b /\ produces N g v) \/ (v = b /\ produces N g x)).
Proof.
  rewrite (produces_image _ _ _ _ _ _ R). pose proof ab as D. split.
  - intros (n & w & P & <-). split; auto. destruct (String.eqb_spec w a) as [->|wa].
    + rewrite subst1_a. right. split; auto. destruct C as [(-> & -> & H)|(-> & -> & H)]; auto.
      destruct n. apply (producer_unique g pf y P pf_out).
    + rewrite subst1_ne by auto. destruct (String.eqb_spec w b) as [->|wb]; auto.
      right. split; auto. destruct C as [(-> & -> & H)|(-> & -> & H)]; auto.
      destruct n. apply (producer_unique g pf y P pf_out).
  - intros (n & [(va & vb & P)|(-> & P)]); split; auto.
    + exists v. rewrite subst1_ne by auto. auto.
    + exists x. split; auto. destruct C as [(-> & -> & H)|(-> & -> & H)]; [apply subst1_ne; apply x_y|apply subst1_a].
Qed.
Lemma lookup_new v : lookup N' v = if String.eqb v a then None else if String.eqb v b then Some pv else lookup N v.
Proof.
  unfold lookup. rewrite (r_vars _ _ _ _ _ _ R), (r_params _ _ _ _ _ _ R).
  destruct (String.eqb_spec v a) as [->|]; [|destruct (String.eqb v b); reflexivity].
  destruct written_a as (g & P). destruct (aget a (n_params N)) eqn:E; auto.
  destruct (w_param _ _ _ W a g); congruence.
Qed.
Lemma reads_new g v : uses N' g v > 0 -> g <> pf /\ v <> a /\ ((v = b /\ (uses N g a > 0 \/ uses N g b > 0)) \/ (v <> b /\ uses N g v > 0)).
Proof.
  rewrite (uses_image _ _ _ _ _ _ R ab). destruct (String.eqb_spec g pf); [lia|]. destruct (String.eqb_spec v a); [lia|].
  destruct (String.eqb_spec v b); intros H; split; auto; split; auto. left. split; auto. lia.
Qed.
(** Readers of the input or, through the identity, of its output. *)
Lemma reads_x g : g <> pf -> uses N g a > 0 \/ uses N g b > 0 -> rank pf < rank g \/ uses N g x > 0.
Proof.
  intros n H. assert (K : uses N g y > 0 \/ uses N g x > 0) by (destruct C as [(-> & -> & _)|(-> & -> & _)]; tauto).
  destruct K as [K|K]; auto. left. apply (w_rank _ _ _ W g pf y K pf_out).
Qed.

Lemma root_new v r : v <> a -> root sel N v r -> root sel N' v (subst1 a b r).
Proof.
  pose proof ab as D. pose proof x_y as Dxy.
  (** first along the new names *)
  assert (G : forall v r, root sel N v r -> root sel N' (subst1 a b v) (subst1 a b r)).
  { clear v r. intros v r H. induction H as [v H|f u v r Hr Hu Hp H IH].
    - apply root_here. intros f P Q. apply produces_new in P as (n & P). apply (is_rem_image _ _ _ _ _ _ _ R) in Q as (_ & Q).
      destruct P as [(va & vb & P)|(E & P)]; [|destruct (Hx f P Q)].
      destruct (String.eqb_spec v a) as [->|n']; [rewrite subst1_a in vb; congruence|]. rewrite subst1_ne in P by auto. apply (H f P Q).
    - destruct (String.eqb_spec f pf) as [->|n].
      + pose proof (pf_writes v Hp) as ->. pose proof (pf_reads u Hu) as ->.
        assert (E : subst1 a b y = subst1 a b x).
        { destruct C as [(-> & -> & _)|(-> & -> & _)]; rewrite subst1_a, subst1_ne; auto. }
        rewrite E. exact IH.
      + apply root_step with (f := f) (x := subst1 a b u).
        * apply (is_rem_image _ _ _ _ _ _ _ R). auto.
        * rewrite (uses_image _ _ _ _ _ _ R D). destruct (String.eqb_spec f pf); [congruence|].
          destruct (String.eqb_spec u a) as [->|ua].
          -- rewrite subst1_a. destruct (String.eqb_spec b a); [congruence|]. rewrite String.eqb_refl. lia.
          -- rewrite subst1_ne by auto. destruct (String.eqb_spec u a); [congruence|]. destruct (String.eqb_spec u b) as [->|]; lia.
        * apply (produces_image _ _ _ _ _ _ R). eauto.
        * exact IH. }
  intros Hv H. rewrite <- (subst1_ne a b v Hv). apply G. exact H.
Qed.
(** Roots of outputs, back in N. *)
Lemma root_back v r : v <> a -> root sel N' v r -> exists r0, root sel N v r0 /\ r = subst1 a b r0.
Proof.
  intros Hv H. destruct (root_exists v) as (r0 & H0). exists r0. split; auto.
  pose proof (root_new v r0 Hv H0) as H1.
  (** N' has unique roots too *)
  revert H1. generalize (subst1 a b r0). clear H0 r0 Hv.
  assert (U : forall f g v, produces N' f v -> produces N' g v -> f = g).
  { intros f g w P Q. apply produces_new in P as (n & P). apply produces_new in Q as (m & Q).
    destruct P as [(va & vb & P)|(E & P)], Q as [(va' & vb' & Q)|(E' & Q)]; try congruence; eapply producer_unique; eauto. }
  assert (S : forall f u1 u2, is_rem sel N' f -> uses N' f u1 > 0 -> uses N' f u2 > 0 -> u1 = u2).
  { intros f u1 u2 Q. apply (is_rem_image _ _ _ _ _ _ _ R) in Q as (n & Q). destruct Q as (f0 & Ef & Q).
    destruct (w_id _ _ _ W f f0) as (x0 & y0 & Ex0 & Ey0); [exists f0; auto|auto|].
    unfold uses. rewrite (r_funs _ _ _ _ _ _ R). apply String.eqb_neq in n. rewrite n, Ef. cbn [option_map f_in]. rewrite Ex0. cbn [map].
    rewrite !count_cons. destruct (String.eqb_spec u1 (subst1 a b x0)), (String.eqb_spec u2 (subst1 a b x0)); cbn; try congruence; lia. }
  induction H as [v H|f u v r Hr Hu Hp H IH]; intros r2 H2.
  - destruct H2 as [v _|g w v r2 Gr Gu Gp G]; auto. destruct (H g Gp Gr).
  - destruct H2 as [v H2|g w v r2 Gr Gu Gp G]; [destruct (H2 f Hp Hr)|].
    pose proof (U f g v Hp Gp) as <-. rewrite <- (S f u w Hr Hu Gu) in G. apply IH. auto.
Qed.

Lemma removed_wf : wf sel N' rank.
Proof.
  pose proof ab as D. pose proof x_y as Dxy. pose proof out_a as Oa.
  constructor.
  - intros f v H. apply reads_new in H as (n & va & [(-> & H)|(vb & H)]); rewrite lookup_new.
    + destruct (String.eqb_spec b a); [congruence|]. rewrite String.eqb_refl. discriminate.
    + apply String.eqb_neq in va. apply String.eqb_neq in vb. rewrite va, vb. eapply (w_in _ _ _ W); eauto.
  - intros f v P. apply produces_new in P as (n & [(va & vb & P)|(-> & P)]); rewrite (r_vars _ _ _ _ _ _ R).
    + apply String.eqb_neq in va. apply String.eqb_neq in vb. rewrite va, vb. apply (w_out _ _ _ W); auto.
    + destruct (String.eqb_spec b a); [congruence|]. rewrite String.eqb_refl. exists pv. split; auto.
      rewrite Vp. apply (w_out _ _ _ W) in P as (q & Eq & Pq). unfold lookup in Ex. rewrite Eq in Ex. congruence.
  - intros v p f L P. rewrite lookup_new in L. destruct (String.eqb_spec v a) as [|va]; [discriminate|].
    destruct (String.eqb_spec v b) as [->|vb].
    + injection L as <-. rewrite Vp in P. pose proof (w_par _ _ _ W x px f Ex P) as Q. apply produces_new. split; auto.
      intros ->. pose proof (pf_writes x Q). congruence.
    + pose proof (w_par _ _ _ W v p f L P) as Q. apply produces_new. split; auto. intros ->. pose proof (pf_writes v Q) as ->.
      destruct C as [(-> & -> & _)|(-> & -> & _)]; congruence.
  - intros v f H P. rewrite (r_params _ _ _ _ _ _ R) in H. apply produces_new in P as (n & [(va & vb & P)|(-> & P)]).
    + apply (w_param _ _ _ W v f H P).
    + destruct C as [(-> & -> & _)|(-> & -> & _)]; [apply (w_param _ _ _ W x f H P)|apply (w_param _ _ _ W y pf H pf_out)].
  - intros f gi E. rewrite (r_funs _ _ _ _ _ _ R) in E. destruct (String.eqb_spec f pf); [discriminate|].
    destruct (aget f (n_funs N)) as [g0|] eqn:E0; [|discriminate]. injection E as <-. cbn [f_out].
    pose proof (w_nodup _ _ _ W f g0 E0) as ND.
    assert (Ny : ~ In y (f_out g0)).
    { intros H. apply n. apply (producer_unique f pf y); [exists g0; auto|apply pf_out]. }
    (** in either case the renaming is injective on these names *)
    assert (Inj : forall u w, In u (f_out g0) -> In w (f_out g0) -> subst1 a b u = subst1 a b w -> u = w).
    { intros u w Hu Hw. unfold subst1. assert (u <> y) by congruence. assert (w <> y) by congruence.
      destruct C as [(-> & -> & _)|(-> & -> & _)]; [destruct (String.eqb_spec u y), (String.eqb_spec w y)|destruct (String.eqb_spec u x), (String.eqb_spec w x)]; congruence. }
    clear - ND Inj. induction ND as [|u l Hu ND IH]; cbn; constructor.
    + intros H. apply in_map_iff in H as (w & E & Hw). apply Hu. rewrite <- (Inj w u); cbn; auto.
    + apply IH. intros u' w Hu' Hw. apply Inj; cbn; auto.
  - intros v p g L. rewrite lookup_new in L. rewrite (uses_image _ _ _ _ _ _ R D).
    destruct (String.eqb_spec v a); [discriminate|]. destruct (String.eqb_spec v b) as [->|vb].
    + injection L as <-. destruct (String.eqb_spec g pf) as [->|n']; [rewrite Vr0; auto|]. auto.
    + pose proof (w_req_le _ _ _ W v p g L) as H. destruct (String.eqb_spec g pf) as [->|n']; auto.
      destruct (Nat.eq_dec (uses N pf v) 0) as [Z|Z]; [lia|]. assert (v = x) as -> by (apply pf_reads; lia).
      destruct C as [(-> & -> & _)|(-> & -> & _)]; congruence.
  - intros v p L Hv g. rewrite lookup_new in L. rewrite (uses_image _ _ _ _ _ _ R D). rewrite (r_out _ _ _ _ _ _ R) in Hv.
    destruct (String.eqb_spec v a); [discriminate|]. destruct (String.eqb_spec v b) as [->|vb].
    + injection L as <-. destruct (String.eqb_spec g pf) as [->|n']; [apply Vr0|]. apply Ve; auto.
      destruct Hv as [Hv|(f & Q & P)]; auto. exfalso. apply (is_rem_image _ _ _ _ _ _ _ R) in Q as (_ & Q).
      apply produces_new in P as (_ & [(_ & H & _)|(_ & P)]); [congruence|]. apply (Hx f P Q).
    + assert (Hv' : ~ In v (n_out N) \/ exists f, is_rem sel N f /\ produces N f v).
      { destruct Hv as [Hv|(f & Q & P)]; auto. right. exists f. apply (is_rem_image _ _ _ _ _ _ _ R) in Q as (_ & Q). split; auto.
        apply produces_new in P as (_ & [(_ & _ & P)|(E & _)]); [auto|congruence]. }
      pose proof (w_req _ _ _ W v p L Hv' g) as H. destruct (String.eqb_spec g pf) as [->|n']; auto.
      destruct (Nat.eq_dec (uses N pf v) 0) as [Z|Z]; [lia|]. assert (v = x) as -> by (apply pf_reads; lia).
      destruct C as [(-> & -> & _)|(-> & -> & _)]; congruence.
  - intros f g v U P. apply produces_new in P as (m & P). apply reads_new in U as (n & va & U).
    destruct P as [(_ & vb & P)|(-> & P)].
    + destruct U as [(E & _)|(_ & U)]; [congruence|]. eapply (w_rank _ _ _ W); eauto.
    + destruct U as [(_ & U)|(E & _)]; [|congruence]. apply reads_x in U as [U|U]; auto.
      * pose proof (w_rank _ _ _ W pf g x ltac:(rewrite pf_in; lia) P). lia.
      * eapply (w_rank _ _ _ W); eauto.
  - intros f g0 Q E. apply (is_rem_image _ _ _ _ _ _ _ R) in Q as (n & Q).
    rewrite (r_funs _ _ _ _ _ _ R) in E. destruct (String.eqb_spec f pf); [congruence|].
    destruct (aget f (n_funs N)) as [g1|] eqn:E1; [|discriminate]. injection E as <-. cbn [f_in f_out].
    destruct (w_id _ _ _ W f g1 Q E1) as (x0 & y0 & -> & ->). exists (subst1 a b x0), (subst1 a b y0). auto.
  - intros v H. rewrite (r_in _ _ _ _ _ _ R) in H. destruct (w_nin _ _ _ W v H) as (H1 & H2).
    assert (va : v <> a) by (intros ->; destruct written_a as (g & P); apply (H2 g P)).
    split.
    + rewrite (r_vars _ _ _ _ _ _ R). destruct (String.eqb_spec v a); [congruence|]. destruct (String.eqb v b); [discriminate|auto].
    + intros f P. apply produces_new in P as (n & [(_ & vb & P)|(-> & P)]); [apply (H2 f P)|].
      destruct C as [(-> & -> & _)|(-> & -> & _)]; [apply (H2 f P)|apply (H2 pf pf_out)].
  - intros v H. rewrite (r_out _ _ _ _ _ _ R) in H. rewrite (r_vars _ _ _ _ _ _ R).
    destruct (String.eqb_spec v a); [congruence|]. destruct (String.eqb v b); [discriminate|]. apply (w_nout _ _ _ W). auto.
  - intros f v q Q P L. rewrite (r_out _ _ _ _ _ _ R). apply (is_rem_image _ _ _ _ _ _ _ R) in Q as (n & Q).
    apply produces_new in P as (_ & [(va & vb & P)|(-> & P)]); [|destruct (Hx f P Q)].
    rewrite (r_vars _ _ _ _ _ _ R) in L. apply String.eqb_neq in va. apply String.eqb_neq in vb. rewrite va, vb in L.
    apply (w_ports _ _ _ W f v q); auto.
  - intros o1 o2 r H1 H2 R1 R2. rewrite (r_out _ _ _ _ _ _ R) in *.
    assert (A1 : o1 <> a) by congruence. assert (A2 : o2 <> a) by congruence.
    apply root_back in R1 as (r1 & R1 & ->); auto. apply root_back in R2 as (r2 & R2 & E); auto.
    assert (Ry : forall v, root sel N v y -> False).
    { intros v H. remember y as z eqn:Ez. revert Ez. induction H as [v H|? ? ? ? ? ? ? ? IH]; intros ->; [|auto]. apply (H pf pf_out Hrem). }
    assert (r1 <> y) by (intros ->; eapply Ry; eauto). assert (r2 <> y) by (intros ->; eapply Ry; eauto).
    assert (r1 = r2) as ->.
    { revert E. unfold subst1. destruct C as [(-> & -> & _)|(-> & -> & _)]; [destruct (String.eqb_spec r1 y), (String.eqb_spec r2 y)|destruct (String.eqb_spec r1 x), (String.eqb_spec r2 x)]; congruence. }
    eapply (w_roots _ _ _ W); eauto.
  - intros o r f H Q P Ro. rewrite (r_out _ _ _ _ _ _ R) in H. assert (Ao : o <> a) by congruence.
    apply root_back in Ro as (r0 & Ro & ->); auto. apply (is_rem_image _ _ _ _ _ _ _ R) in Q as (n & Q).
    apply produces_new in P as (_ & [(_ & vb & P)|(-> & P)]); [|destruct (Hx f P Q)].
    destruct (w_written _ _ _ W o r0 f H Q P Ro) as (g & G). exists g. apply (produces_image _ _ _ _ _ _ R). split; eauto.
    intros ->. pose proof (pf_writes r0 G) as ->.
    assert (Ry : forall v, root sel N v y -> False).
    { clear - Hrem Hf Hout. intros v H. remember y as z eqn:Ez. revert Ez. induction H as [v H|? ? ? ? ? ? ? ? IH]; intros ->; [|auto]. apply (H pf pf_out Hrem). }
    apply (Ry o Ro).
Qed.
End Case.
End Step.
