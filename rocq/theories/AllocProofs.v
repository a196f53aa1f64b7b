(** The linked blocks of one chunk. *)
From Coq Require Import List ZArith Bool Lia.
From Verif Require Import AllocModel AllocSpec.
Import ListNotations.
Local Open Scope list_scope.
Local Open Scope Z_scope.

Definition eqm (m m' : mem) : Prop :=
  m_dev m = m_dev m' /\ m_ptr m = m_ptr m' /\ m_bytes m = m_bytes m' /\ m_next m = m_next m' /\ m_prev m = m_prev m'.
Lemma eqm_refl m : eqm m m. Proof. repeat split. Qed.

Definition hd' (l : list nat) (nx : option nat) : option nat := match l with [] => nx | j :: _ => Some j end.
Fixpoint last' (l : list nat) (pv : option nat) : option nat :=
  match l with [] => pv | i :: l => last' l (Some i) end.
Fixpoint tot (h : nat -> mem) (l : list nat) : Z :=
  match l with [] => 0 | i :: l => m_bytes (h i) + tot h l end.

Section Chain.
Variable c d : nat.
Variable sm : bool.
Fixpoint chain (h : nat -> mem) (off : Z) (pv : option nat) (ids : list nat) (nx : option nat) : Prop :=
  match ids with
  | [] => True
  | i :: tl =>
      m_dev (h i) = d /\ m_ptr (h i) = Some (c, off) /\ 0 < m_bytes (h i) /\
      (m_bytes (h i) <=? small_alloc) = sm /\ m_prev (h i) = pv /\ m_next (h i) = hd' tl nx /\
      chain h (off + m_bytes (h i)) (Some i) tl nx
  end.

Lemma tot_app h a b : tot h (a ++ b) = tot h a + tot h b.
Proof using. induction a as [|i a IH]; cbn [tot app]; [lia|]. rewrite IH. lia. Qed.
Lemma tot_ext h h' l : (forall i, In i l -> m_bytes (h' i) = m_bytes (h i)) -> tot h' l = tot h l.
Proof using.
  induction l as [|i l IH]; cbn [tot]; intros H; auto. rewrite H by (left; auto). rewrite IH; auto.
  intros x Hx. apply H. right. auto.
Qed.
Lemma chain_ext h h' : forall ids off pv nx, (forall i, In i ids -> eqm (h' i) (h i)) ->
  chain h off pv ids nx -> chain h' off pv ids nx.
Proof using.
  induction ids as [|i ids IH]; intros off pv nx E; cbn [chain]; auto.
  intros (A1 & A2 & A3 & A4 & A5 & A6 & A7). destruct (E i (or_introl eq_refl)) as (E1 & E2 & E3 & E4 & E5).
  rewrite E1, E2, E3, E4, E5. repeat (split; auto). apply IH; auto. intros x Hx. apply E. right. auto.
Qed.
Lemma hd_app a b nx : hd' (a ++ b) nx = hd' a (hd' b nx).
Proof using. destruct a; reflexivity. Qed.
Lemma chain_app h : forall a b off pv nx, chain h off pv (a ++ b) nx <->
  chain h off pv a (hd' b nx) /\ chain h (off + tot h a) (last' a pv) b nx.
Proof using.
  induction a as [|i a IH]; intros b off pv nx; cbn [app chain tot last'].
  - replace (off + 0) with off by lia. tauto.
  - rewrite IH, hd_app. replace (off + (m_bytes (h i) + tot h a)) with (off + m_bytes (h i) + tot h a) by lia. tauto.
Qed.
Lemma last_app a b pv : last' (a ++ b) pv = last' b (last' a pv).
Proof using. revert pv. induction a as [|i a IH]; intros pv; cbn [app last']; auto. Qed.
Lemma tot_nonneg h : forall ids off pv nx, chain h off pv ids nx -> 0 <= tot h ids.
Proof using.
  induction ids as [|i ids IH]; intros off pv nx; cbn [chain tot]; [lia|].
  intros (A1 & A2 & A3 & A4 & A5 & A6 & A7). apply IH in A7. lia.
Qed.
Lemma chain_in h ids off pv nx i : chain h off pv ids nx -> In i ids -> exists a b, ids = a ++ i :: b /\
  m_dev (h i) = d /\ m_ptr (h i) = Some (c, off + tot h a) /\ 0 < m_bytes (h i) /\
  (m_bytes (h i) <=? small_alloc) = sm /\ m_prev (h i) = last' a pv /\ m_next (h i) = hd' b nx /\
  chain h off pv a (Some i) /\ chain h (off + tot h a + m_bytes (h i)) (Some i) b nx.
Proof using.
  intros H I. apply in_split in I as (a & b & ->). exists a, b. split; auto.
  apply chain_app in H as (H1 & H2). cbn [chain hd'] in *. tauto.
Qed.
(** Replacing the links at the ends. *)
Lemma chain_set_pv h h' ids off pv pv' nx : chain h off pv ids nx ->
  (forall i, In i (tl ids) -> eqm (h' i) (h i)) ->
  (forall n l, ids = n :: l -> eqm (h' n) (set_prev pv' (h n))) -> chain h' off pv' ids nx.
Proof using.
  destruct ids as [|n l]; cbn [chain tl]; auto. intros (A1 & A2 & A3 & A4 & A5 & A6 & A7) E En.
  destruct (En n l eq_refl) as (E1 & E2 & E3 & E4 & E5). cbn in *. rewrite E1, E2, E3, E4, E5.
  repeat (split; auto). eapply chain_ext; eauto.
Qed.
Lemma chain_set_nx h h' a l off pv nx nx' : chain h off pv (a ++ [l]) nx ->
  (forall i, In i a -> eqm (h' i) (h i)) -> eqm (h' l) (set_next nx' (h l)) -> chain h' off pv (a ++ [l]) nx'.
Proof using.
  intros H Ea El. apply chain_app in H as (H1 & H2). apply chain_app. cbn [hd'] in *. split.
  - eapply chain_ext; eauto.
  - rewrite (tot_ext h h') by (intros; apply Ea; auto). cbn [chain hd'] in *.
    destruct El as (E1 & E2 & E3 & E4 & E5). cbn in *. rewrite E1, E2, E3, E4, E5. tauto.
Qed.
End Chain.

Lemma associate_at l r h x : associate l r h x =
  let m := if is x l then set_next r (h x) else h x in if is x r then set_prev l m else m.
Proof.
  unfold associate, change, upd, is. destruct l as [a|], r as [b|].
  - destruct (Nat.eqb x b) eqn:E1; [|destruct (Nat.eqb x a) eqn:E2; auto; apply Nat.eqb_eq in E2; subst; auto].
    apply Nat.eqb_eq in E1. subst. destruct (Nat.eqb b a) eqn:E2; auto. apply Nat.eqb_eq in E2. subst. auto.
  - destruct (Nat.eqb x a) eqn:E2; auto. apply Nat.eqb_eq in E2. subst. auto.
  - destruct (Nat.eqb x b) eqn:E1; auto. apply Nat.eqb_eq in E1. subst. auto.
  - auto.
Qed.
Lemma change_at i f h x : change i f h x = if Nat.eqb x i then f (h i) else h x.
Proof. reflexivity. Qed.
Lemma is_eq x o : is x o = true <-> o = Some x.
Proof. destruct o as [j|]; cbn; [|split; discriminate]. rewrite Nat.eqb_eq. split; congruence. Qed.
Lemma is_neq x o : o <> Some x -> is x o = false.
Proof. intros H. destruct (is x o) eqn:E; auto. apply is_eq in E. contradiction. Qed.

Lemma nodup_mid {A} (a b : list A) i : NoDup (a ++ i :: b) -> ~ In i a /\ ~ In i b /\ NoDup a /\ NoDup b /\
  (forall x, In x a -> ~ In x b).
Proof.
  intros N. pose proof (NoDup_remove_1 _ _ _ N) as N1. pose proof (NoDup_remove_2 _ _ _ N) as N2.
  rewrite in_app_iff in N2. split; [tauto|]. split; [tauto|]. clear - N1.
  induction a as [|x a IH]; cbn [app] in N1.
  - split; [constructor|]. split; auto.
  - inversion N1; subst. destruct (IH H2) as (A1 & A2 & A3). split; [|split]; auto.
    + constructor; auto. intros X. apply H1. apply in_app_iff. auto.
    + intros z [<-|Hz]; auto. intros X. apply H1. apply in_app_iff. auto.
Qed.
Lemma last_in a pv : last' a pv = pv \/ exists a' l, a = a' ++ [l] /\ last' a pv = Some l.
Proof.
  induction a as [|x a _] using rev_ind; auto. right. exists a, x. rewrite last_app. auto.
Qed.

(** Taking the next block in. *)
Lemma merge_next c d sm h a i n b off pv :
  chain c d sm h off pv (a ++ i :: n :: b) None -> NoDup (a ++ i :: n :: b) -> pv = None ->
  (tot h (a ++ i :: n :: b) <=? small_alloc) = sm -> m_locked (h n) = false ->
  let h' := try_merge i (Some n) h in
  chain c d sm h' off pv (a ++ i :: b) None /\ m_ptr (h' n) = None /\ m_bytes (h' n) = m_bytes (h n) /\
  m_bytes (h' i) = m_bytes (h i) + m_bytes (h n) /\ m_prev (h' i) = m_prev (h i) /\ m_dev (h' i) = m_dev (h i) /\
  (forall x, m_locked (h' x) = m_locked (h x)) /\
  (forall x, ~ In x (a ++ i :: n :: b) -> h' x = h x) /\
  (forall x, In x (a ++ b) -> m_bytes (h' x) = m_bytes (h x) /\ m_ptr (h' x) = m_ptr (h x) /\ m_dev (h' x) = m_dev (h x)).
Proof.
  intros C N Epv T L h'. subst pv.
  destruct (nodup_mid _ _ _ N) as (N1 & N2 & N3 & N4 & N5). pose proof (proj1 (NoDup_cons_iff _ _) N4) as (N6 & N7).
  assert (Nin : n <> i) by (intros ->; apply N2; left; auto).
  assert (Nib : ~ In i b) by (intros X; apply N2; right; auto).
  assert (Nna : ~ In n a) by (intros X; apply (N5 n X); left; auto).
  pose proof C as C0. apply chain_app in C as (C1 & C2). cbn [chain hd'] in C2.
  destruct C2 as (A1 & A2 & A3 & A4 & A5 & A6 & B1 & B2 & B3 & B4 & B5 & B6 & C3).
  assert (H : forall x, h' x = if Nat.eqb x n then set_ptr None (h n)
     else if Nat.eqb x i then set_bytes (m_bytes (h i) + m_bytes (h n)) (set_next (hd' b None) (h i))
     else if is x (hd' b None) then set_prev (Some i) (h x) else h x).
  { intros x. unfold h', try_merge. rewrite L, A6.
    replace (is n (Some n)) with true by (symmetry; apply is_eq; auto).
    rewrite B6. rewrite !change_at. rewrite !associate_at. cbn [is].
    rewrite Nat.eqb_refl. rewrite (proj2 (Nat.eqb_neq n i) Nin).
    assert (E1 : is n (hd' b None) = false). { apply is_neq. intros E. destruct b as [|m b]; [discriminate|]. cbn in E. inversion E; subst. apply N6. left. auto. }
    assert (E2 : is i (hd' b None) = false). { apply is_neq. intros E. destruct b as [|m b]; [discriminate|]. cbn in E. inversion E; subst. apply Nib. left. auto. }
    rewrite E1, E2. cbv zeta. destruct (Nat.eqb x n) eqn:En.
    - destruct (Nat.eqb n i) eqn:X; [apply Nat.eqb_eq in X; congruence|]. reflexivity.
    - destruct (Nat.eqb x i) eqn:Ei; auto. }
  assert (Hn : h' n = set_ptr None (h n)) by (rewrite H, Nat.eqb_refl; auto).
  assert (Hi : h' i = set_bytes (m_bytes (h i) + m_bytes (h n)) (set_next (hd' b None) (h i))).
  { rewrite H, Nat.eqb_refl. rewrite (proj2 (Nat.eqb_neq i n)); auto. }
  assert (Ho : forall x, x <> n -> x <> i -> h' x = if is x (hd' b None) then set_prev (Some i) (h x) else h x).
  { intros x X1 X2. rewrite H, (proj2 (Nat.eqb_neq x n)), (proj2 (Nat.eqb_neq x i)); auto. }
  clearbody h'. clear H.
  assert (Ha : forall x, In x a -> h' x = h x).
  { intros x Hx. rewrite Ho; [|congruence|congruence]. rewrite is_neq; auto. intros E. destruct b as [|m b]; [discriminate|].
    cbn in E. inversion E; subst. apply (N5 x Hx). right. left. auto. }
  split; [|repeat split].
  - apply chain_app. cbn [hd']. split.
    + eapply chain_ext; [|exact C1]. intros x Hx. rewrite Ha; auto. apply eqm_refl.
    + rewrite (tot_ext h h') by (intros x Hx; rewrite Ha; auto). cbn [chain]. rewrite Hi.
      cbn [m_dev m_ptr m_bytes m_prev m_next set_bytes set_next].
      split; [auto|]. split; [auto|]. split; [lia|]. split; [|split; [auto|split; [auto|]]].
      * (* the class *)
        assert (Tn : 0 <= tot h a /\ 0 <= tot h b).
        { split; eapply tot_nonneg; eauto. }
        destruct sm; [|apply Z.leb_gt in A4; apply Z.leb_gt; lia].
        apply Z.leb_le in T. apply Z.leb_le. rewrite tot_app in T. cbn [tot] in T. lia.
      * replace (off + tot h a + (m_bytes (h i) + m_bytes (h n))) with (off + tot h a + m_bytes (h i) + m_bytes (h n)) by lia.
        eapply chain_set_pv; [exact C3| |].
        -- intros x Hx. destruct b as [|m b]; [destruct Hx|]. cbn [tl] in Hx.
           rewrite Ho. 2: intros ->; apply N6; right; auto. 2: intros ->; apply Nib; right; auto.
           inversion N7; subst. rewrite is_neq; [apply eqm_refl|]. cbn. intros E. inversion E; subst. auto.
        -- intros m l E. subst b. rewrite Ho. 2: intros ->; apply N6; left; auto. 2: intros ->; apply Nib; left; auto.
           cbn. rewrite Nat.eqb_refl. apply eqm_refl.
  - rewrite Hn. reflexivity.
  - rewrite Hn. reflexivity.
  - rewrite Hi. reflexivity.
  - rewrite Hi. reflexivity.
  - rewrite Hi. reflexivity.
  - intros x. destruct (Nat.eq_dec x n) as [->|X1]; [rewrite Hn; auto|].
    destruct (Nat.eq_dec x i) as [->|X2]; [rewrite Hi; auto|]. rewrite Ho by auto. destruct (is x (hd' b None)); auto.
  - intros x Hx. rewrite in_app_iff in Hx. cbn in Hx. rewrite Ho by intuition congruence.
    rewrite is_neq; auto. intros E. destruct b as [|m b]; [discriminate|]. cbn in *. inversion E; subst. tauto.
  - assert (x <> n /\ x <> i). { apply in_app_iff in H as [H|H]; split; intros ->; auto. }
    rewrite Ho by tauto. destruct (is x (hd' b None)); auto.
  - assert (x <> n /\ x <> i). { apply in_app_iff in H as [H|H]; split; intros ->; auto. }
    rewrite Ho by tauto. destruct (is x (hd' b None)); auto.
  - assert (x <> n /\ x <> i). { apply in_app_iff in H as [H|H]; split; intros ->; auto. }
    rewrite Ho by tauto. destruct (is x (hd' b None)); auto.
Qed.

(** Taking the previous block in. *)
Lemma merge_prev c d sm h a p i b off :
  chain c d sm h off None (a ++ p :: i :: b) None -> NoDup (a ++ p :: i :: b) ->
  (tot h (a ++ p :: i :: b) <=? small_alloc) = sm -> m_locked (h p) = false ->
  let h' := try_merge i (Some p) h in
  chain c d sm h' off None (a ++ i :: b) None /\ m_ptr (h' p) = None /\ m_bytes (h' p) = m_bytes (h p) /\
  m_bytes (h' i) = m_bytes (h i) + m_bytes (h p) /\ m_dev (h' i) = m_dev (h i) /\
  (forall x, m_locked (h' x) = m_locked (h x)) /\
  (forall x, ~ In x (a ++ p :: i :: b) -> h' x = h x) /\
  (forall x, In x (a ++ b) -> m_bytes (h' x) = m_bytes (h x) /\ m_ptr (h' x) = m_ptr (h x) /\ m_dev (h' x) = m_dev (h x)).
Proof.
  intros C N T L h'.
  destruct (nodup_mid _ _ _ N) as (N1 & N2 & N3 & N4 & N5). pose proof (proj1 (NoDup_cons_iff _ _) N4) as (N6 & N7).
  assert (Npi : p <> i) by (intros ->; apply N2; left; auto).
  assert (Npb : ~ In p b) by (intros X; apply N2; right; auto).
  assert (Nia : ~ In i a) by (intros X; apply (N5 i X); left; auto).
  pose proof C as C0. apply chain_app in C as (C1 & C2). cbn [chain hd'] in C2.
  destruct C2 as (A1 & A2 & A3 & A4 & A5 & A6 & B1 & B2 & B3 & B4 & B5 & B6 & C3).
  assert (Hla : forall x, last' a None = Some x -> In x a).
  { intros x E. destruct (last_in a None) as [X|(a' & l & -> & X)]; [congruence|]. rewrite X in E. inversion E; subst. apply in_app_iff. right. left. auto. }
  assert (Hhb : forall x, hd' b None = Some x -> In x b) by (intros x E; destruct b; [discriminate|]; cbn in E; inversion E; left; auto).
  assert (H : forall x, h' x = if Nat.eqb x p then set_ptr None (h p)
     else if Nat.eqb x i then set_bytes (m_bytes (h i) + m_bytes (h p)) (set_prev (last' a None) (set_ptr (m_ptr (h p)) (h i)))
     else if is x (last' a None) then set_next (Some i) (h x) else h x).
  { intros x. unfold h', try_merge. rewrite L, B6, B5.
    assert (E0 : is p (hd' b None) = false) by (apply is_neq; intros E; apply Hhb in E; auto).
    rewrite E0. replace (is p (Some p)) with true by (symmetry; apply is_eq; auto).
    rewrite A5. rewrite !change_at. rewrite !associate_at. rewrite !change_at. cbn [is].
    assert (E1 : is p (last' a None) = false) by (apply is_neq; intros E; apply Hla in E; auto).
    assert (E2 : is i (last' a None) = false) by (apply is_neq; intros E; apply Hla in E; auto).
    rewrite Nat.eqb_refl, E1, E2. rewrite (proj2 (Nat.eqb_neq p i) Npi). cbv zeta.
    destruct (Nat.eqb x p) eqn:En; auto. destruct (Nat.eqb x i) eqn:Ei; auto. }
  assert (Hp : h' p = set_ptr None (h p)) by (rewrite H, Nat.eqb_refl; auto).
  assert (Hi : h' i = set_bytes (m_bytes (h i) + m_bytes (h p)) (set_prev (last' a None) (set_ptr (m_ptr (h p)) (h i)))).
  { rewrite H, Nat.eqb_refl. rewrite (proj2 (Nat.eqb_neq i p)); auto. }
  assert (Ho : forall x, x <> p -> x <> i -> h' x = if is x (last' a None) then set_next (Some i) (h x) else h x).
  { intros x X1 X2. rewrite H, (proj2 (Nat.eqb_neq x p)), (proj2 (Nat.eqb_neq x i)); auto. }
  clearbody h'. clear H.
  assert (Hb : forall x, In x b -> h' x = h x).
  { intros x Hx. rewrite Ho; [|congruence|congruence]. rewrite is_neq; auto. intros E. apply Hla in E.
    apply (N5 x E). right. auto. }
  assert (Hba : forall x, In x a -> m_bytes (h' x) = m_bytes (h x)).
  { intros x Hx. rewrite Ho; [|intros ->; auto|intros ->; auto]. destruct (is x (last' a None)); auto. }
  split; [|repeat split].
  - apply chain_app. cbn [hd']. split.
    + destruct (last_in a None) as [X|(a' & l & -> & X)].
      * destruct a as [|z a]; [exact I|]. exfalso. clear - X. cbn in X.
        revert z X. induction a as [|y a IH]; intros z X; cbn in X; [discriminate|]. eapply IH; eauto.
      * eapply chain_set_nx; [exact C1| |].
        -- intros x Hx. rewrite Ho. 2: intros ->; apply N1; apply in_app_iff; auto. 2: intros ->; apply Nia; apply in_app_iff; auto.
           rewrite is_neq; [apply eqm_refl|]. rewrite X. intros E. inversion E; subst.
           destruct (nodup_mid _ _ _ N3) as (Y & _). auto.
        -- rewrite Ho. 2: intros ->; apply N1; apply in_app_iff; right; left; auto. 2: intros ->; apply Nia; apply in_app_iff; right; left; auto.
           rewrite X. cbn. rewrite Nat.eqb_refl. apply eqm_refl.
    + rewrite (tot_ext h h') by auto. cbn [chain]. rewrite Hi.
      cbn [m_dev m_ptr m_bytes m_prev m_next set_bytes set_prev set_ptr].
      split; [auto|]. split; [auto|]. split; [lia|]. split; [|split; [auto|split; [auto|]]].
      * assert (Tn : 0 <= tot h a /\ 0 <= tot h b) by (split; eapply tot_nonneg; eauto).
        destruct sm; [|apply Z.leb_gt in A4; apply Z.leb_gt; lia].
        apply Z.leb_le in T. apply Z.leb_le. rewrite tot_app in T. cbn [tot] in T. lia.
      * replace (off + tot h a + (m_bytes (h i) + m_bytes (h p))) with (off + tot h a + m_bytes (h p) + m_bytes (h i)) by lia.
        eapply chain_ext; [|exact C3]. intros x Hx. rewrite Hb; auto. apply eqm_refl.
  - rewrite Hp. reflexivity.
  - rewrite Hp. reflexivity.
  - rewrite Hi. reflexivity.
  - rewrite Hi. reflexivity.
  - intros x. destruct (Nat.eq_dec x p) as [->|X1]; [rewrite Hp; auto|].
    destruct (Nat.eq_dec x i) as [->|X2]; [rewrite Hi; auto|]. rewrite Ho by auto. destruct (is x (last' a None)); auto.
  - intros x Hx. rewrite in_app_iff in Hx. cbn in Hx. rewrite Ho by intuition congruence.
    rewrite is_neq; [reflexivity|]. intros E. apply Hla in E. tauto.
  - assert (x <> p /\ x <> i). { apply in_app_iff in H as [H|H]; split; intros ->; auto. }
    rewrite Ho by tauto. destruct (is x (last' a None)); auto.
  - assert (x <> p /\ x <> i). { apply in_app_iff in H as [H|H]; split; intros ->; auto. }
    rewrite Ho by tauto. destruct (is x (last' a None)); auto.
  - assert (x <> p /\ x <> i). { apply in_app_iff in H as [H|H]; split; intros ->; auto. }
    rewrite Ho by tauto. destruct (is x (last' a None)); auto.
Qed.

(** Splitting. *)
Lemma divide_ok c d sm s a i b off at_ :
  chain c d sm (mems s) off None (a ++ i :: b) None -> NoDup (a ++ i :: b) -> ~ In (nmem s) (a ++ i :: b) ->
  0 < at_ -> at_ < m_bytes (mems s i) ->
  (at_ <=? small_alloc) = sm -> (m_bytes (mems s i) - at_ <=? small_alloc) = sm ->
  exists s', divide i at_ s = Some (s', nmem s) /\ s' = mkAst (mems s') (S (nmem s)) (nchunk s) (held s) (caches s) (used s) (known s) (count s) /\
    chain c d sm (mems s') off None (a ++ i :: nmem s :: b) None /\
    m_bytes (mems s' i) = at_ /\ m_bytes (mems s' (nmem s)) = m_bytes (mems s i) - at_ /\
    m_ptr (mems s' i) = m_ptr (mems s i) /\ m_dev (mems s' i) = m_dev (mems s i) /\
    m_locked (mems s' (nmem s)) = false /\
    (forall x, x <> nmem s -> m_locked (mems s' x) = m_locked (mems s x)) /\
    (forall x, ~ In x (nmem s :: a ++ i :: b) -> mems s' x = mems s x) /\
    (forall x, In x (a ++ b) -> m_bytes (mems s' x) = m_bytes (mems s x) /\ m_ptr (mems s' x) = m_ptr (mems s x) /\
       m_dev (mems s' x) = m_dev (mems s x)).
Proof.
  intros C N Nj P1 P2 K1 K2. set (j := nmem s) in *. set (h := mems s) in *.
  destruct (nodup_mid _ _ _ N) as (N1 & N2 & N3 & N4 & N5).
  assert (Nji : j <> i) by (intros ->; apply Nj; apply in_app_iff; right; left; auto).
  assert (Njb : ~ In j b) by (intros X; apply Nj; apply in_app_iff; right; right; auto).
  assert (Nja : ~ In j a) by (intros X; apply Nj; apply in_app_iff; auto).
  apply chain_app in C as (C1 & C2). cbn [chain hd'] in C2.
  destruct C2 as (A1 & A2 & A3 & A4 & A5 & A6 & C3).
  assert (Hhb : forall x, hd' b None = Some x -> In x b) by (intros x E; destruct b; [discriminate|]; cbn in E; inversion E; left; auto).
  unfold divide. fold j h. rewrite (proj2 (Z.ltb_lt 0 at_) P1), (proj2 (Z.ltb_lt at_ _) P2). cbn [andb].
  rewrite A2, A6, A1.
  set (nj := mkMem d (Some (c, off + tot h a + at_)) (m_bytes (h i) - at_) false None None).
  set (h' := associate (Some i) (Some j) (associate (Some j) (hd' b None) (change i (set_bytes at_) (upd h j nj)))).
  assert (H : forall x, h' x = if Nat.eqb x j then set_prev (Some i) (set_next (hd' b None) nj)
     else if Nat.eqb x i then set_next (Some j) (set_bytes at_ (h i))
     else if is x (hd' b None) then set_prev (Some j) (h x) else h x).
  { intros x. unfold h'. rewrite !associate_at, !change_at. unfold upd. cbn [is].
    assert (E1 : is j (hd' b None) = false) by (apply is_neq; intros E; apply Hhb in E; auto).
    assert (E2 : is i (hd' b None) = false) by (apply is_neq; intros E; apply Hhb in E; auto).
    cbv zeta. destruct (Nat.eqb x j) eqn:Ej.
    - apply Nat.eqb_eq in Ej. subst x. rewrite (proj2 (Nat.eqb_neq j i) Nji), E1. reflexivity.
    - destruct (Nat.eqb x i) eqn:Ei; auto. apply Nat.eqb_eq in Ei. subst x. rewrite E2.
      rewrite (proj2 (Nat.eqb_neq i j)) by auto. reflexivity. }
  assert (Hj : h' j = set_prev (Some i) (set_next (hd' b None) nj)) by (rewrite H, Nat.eqb_refl; auto).
  assert (Hi : h' i = set_next (Some j) (set_bytes at_ (h i))).
  { rewrite H, Nat.eqb_refl. rewrite (proj2 (Nat.eqb_neq i j)); auto. }
  assert (Ho : forall x, x <> j -> x <> i -> h' x = if is x (hd' b None) then set_prev (Some j) (h x) else h x).
  { intros x X1 X2. rewrite H, (proj2 (Nat.eqb_neq x j)), (proj2 (Nat.eqb_neq x i)); auto. }
  clearbody h'. clear H.
  assert (Ha : forall x, In x a -> h' x = h x).
  { intros x Hx. rewrite Ho; [|congruence|congruence]. rewrite is_neq; auto. intros E. apply Hhb in E. apply (N5 x); auto. }
  eexists. split; [reflexivity|]. cbn [mems].
  split; [reflexivity|]. split; [|repeat split].
  - apply chain_app. cbn [hd']. split.
    + eapply chain_ext; [|exact C1]. intros x Hx. rewrite Ha; auto. apply eqm_refl.
    + rewrite (tot_ext h h') by (intros x Hx; rewrite Ha; auto). cbn [chain]. rewrite Hi, Hj.
      cbn [m_dev m_ptr m_bytes m_prev m_next set_bytes set_next set_prev nj hd'].
      repeat (split; [solve [auto | lia]|]).
      eapply chain_set_pv.
      * replace (off + tot h a + at_ + (m_bytes (h i) - at_)) with (off + tot h a + m_bytes (h i)) by lia. exact C3.
      * intros x Hx. destruct b as [|m b]; [destruct Hx|]. cbn [tl] in Hx.
        rewrite Ho. 2: intros ->; apply Njb; right; auto. 2: intros ->; apply N2; right; auto.
        inversion N4; subst. rewrite is_neq; [apply eqm_refl|]. cbn. intros E. inversion E; subst. auto.
      * intros m l E. subst b. rewrite Ho. 2: intros ->; apply Njb; left; auto. 2: intros ->; apply N2; left; auto.
        cbn. rewrite Nat.eqb_refl. apply eqm_refl.
  - rewrite Hi. cbn. auto.
  - rewrite Hj. reflexivity.
  - rewrite Hi. cbn. auto.
  - rewrite Hi. cbn. auto.
  - rewrite Hj. reflexivity.
  - intros x X1. destruct (Nat.eq_dec x i) as [->|X2]; [rewrite Hi; auto|]. rewrite Ho by auto. destruct (is x (hd' b None)); auto.
  - intros x Hx. cbn in Hx. rewrite in_app_iff in Hx. cbn in Hx. rewrite Ho by intuition congruence.
    rewrite is_neq; [reflexivity|]. intros E. apply Hhb in E. tauto.
  - assert (x <> j /\ x <> i). { apply in_app_iff in H as [H|H]; split; intros ->; auto. }
    rewrite Ho by tauto. destruct (is x (hd' b None)); auto.
  - assert (x <> j /\ x <> i). { apply in_app_iff in H as [H|H]; split; intros ->; auto. }
    rewrite Ho by tauto. destruct (is x (hd' b None)); auto.
  - assert (x <> j /\ x <> i). { apply in_app_iff in H as [H|H]; split; intros ->; auto. }
    rewrite Ho by tauto. destruct (is x (hd' b None)); auto.
Qed.
