(** Finite maps with string keys as association lists: the representation used
    by the models for C++ [unordered_map<string, _>] and Python dicts.  The list
    order stands for the (unspecified, or insertion) iteration order. *)
From Coq Require Import String List Bool Permutation.
Import ListNotations.
Local Open Scope list_scope.

Section Assoc.
Context {A : Type}.
Definition amap := list (string * A).

Fixpoint aget (k : string) (m : amap) : option A :=
  match m with
  | [] => None
  | (k', v) :: m' => if String.eqb k k' then Some v else aget k m'
  end.
Definition ahas (k : string) (m : amap) : bool :=
  match aget k m with Some _ => true | None => false end.
(** [m[k] = v]: replaces in place, else adds at the end. *)
Fixpoint aput (k : string) (v : A) (m : amap) : amap :=
  match m with
  | [] => [(k, v)]
  | (k', v') :: m' => if String.eqb k k' then (k', v) :: m' else (k', v') :: aput k v m'
  end.
(** [m.insert({k, v})]: does nothing if the key is already present. *)
Definition ainsert (k : string) (v : A) (m : amap) : amap :=
  if ahas k m then m else m ++ [(k, v)].
Definition aerase (k : string) (m : amap) : amap :=
  filter (fun kv => negb (String.eqb k (fst kv))) m.
Definition akeys (m : amap) : list string := map fst m.

Lemma aget_app k m m' :
  aget k (m ++ m') = match aget k m with Some v => Some v | None => aget k m' end.
Proof.
  induction m as [|[k' v] m IH]; cbn; auto. destruct (String.eqb k k'); auto.
Qed.

Lemma aget_in k m v : aget k m = Some v -> In (k, v) m.
Proof.
  induction m as [|[k' v'] m IH]; cbn; [discriminate|].
  destruct (String.eqb_spec k k').
  - intros [= ->]. subst. auto.
  - auto.
Qed.

Lemma aget_none k m : aget k m = None <-> ~ In k (akeys m).
Proof.
  induction m as [|[k' v'] m IH]; cbn; [tauto|].
  destruct (String.eqb_spec k k').
  - subst. split; [discriminate|]. intros H. exfalso. auto.
  - rewrite IH. intuition congruence.
Qed.

Lemma aget_some k m : In k (akeys m) <-> exists v, aget k m = Some v.
Proof.
  destruct (aget k m) as [v|] eqn:E.
  - split; eauto. intros _. apply aget_in in E. apply in_map_iff. exists (k, v). auto.
  - apply aget_none in E. split; [tauto|]. intros [v H]. discriminate.
Qed.

Lemma in_aget k v m : NoDup (akeys m) -> In (k, v) m -> aget k m = Some v.
Proof.
  induction m as [|[k' v'] m IH]; cbn; [tauto|].
  intros H [E|E]; inversion H; subst.
  - inversion E; subst. now rewrite String.eqb_refl.
  - destruct (String.eqb_spec k k').
    + subst. exfalso. apply H2. apply in_map_iff. exists (k', v). auto.
    + auto.
Qed.

Lemma ahas_true k m : ahas k m = true <-> In k (akeys m).
Proof.
  unfold ahas. rewrite aget_some. destruct (aget k m); split; eauto; try congruence.
  intros [v H]; discriminate.
Qed.

Lemma ahas_false k m : ahas k m = false <-> aget k m = None.
Proof. unfold ahas. destruct (aget k m); split; congruence. Qed.

Lemma aget_aput k v m k' :
  aget k' (aput k v m) = if String.eqb k' k then Some v else aget k' m.
Proof.
  induction m as [|[k0 v0] m IH]; cbn.
  - reflexivity.
  - destruct (String.eqb_spec k k0); cbn.
    + subst. destruct (String.eqb k' k0); auto.
    + rewrite IH. destruct (String.eqb_spec k' k0), (String.eqb_spec k' k); auto; congruence.
Qed.

Lemma aget_ainsert k v m k' :
  aget k' (ainsert k v m) =
  match aget k' m with Some w => Some w | None => if String.eqb k' k then Some v else None end.
Proof.
  unfold ainsert, ahas. destruct (aget k m) eqn:E.
  - destruct (aget k' m) eqn:E'; auto.
    destruct (String.eqb_spec k' k); auto; congruence.
  - rewrite aget_app. cbn. auto.
Qed.

Lemma aget_aerase k m k' :
  aget k' (aerase k m) = if String.eqb k' k then None else aget k' m.
Proof.
  unfold aerase. induction m as [|[k0 v0] m IH]; cbn.
  - destruct (String.eqb k' k); auto.
  - destruct (String.eqb_spec k k0); cbn.
    + subst. rewrite IH. destruct (String.eqb_spec k' k0); auto.
    + rewrite IH. destruct (String.eqb_spec k' k0), (String.eqb_spec k' k); auto; congruence.
Qed.

Lemma akeys_app m m' : akeys (m ++ m') = akeys m ++ akeys m'.
Proof. apply map_app. Qed.

Lemma akeys_aput_in k v m x : In x (akeys (aput k v m)) <-> x = k \/ In x (akeys m).
Proof.
  rewrite !aget_some. setoid_rewrite aget_aput.
  destruct (String.eqb_spec x k); split; eauto.
  intros [H|H]; auto; congruence.
Qed.

Lemma akeys_aerase_in k m x : In x (akeys (aerase k m)) <-> x <> k /\ In x (akeys m).
Proof.
  rewrite !aget_some. setoid_rewrite aget_aerase.
  destruct (String.eqb_spec x k); split; intros H.
  - destruct H; discriminate.
  - tauto.
  - auto.
  - tauto.
Qed.

Lemma akeys_ainsert_in k v m x : In x (akeys (ainsert k v m)) <-> x = k \/ In x (akeys m).
Proof.
  rewrite !aget_some. setoid_rewrite aget_ainsert. destruct (aget x m).
  - split; eauto.
  - destruct (String.eqb_spec x k); split; eauto.
    intros [H|[? H]]; [congruence|discriminate].
Qed.

Lemma nodup_aput k v m : NoDup (akeys m) -> NoDup (akeys (aput k v m)).
Proof.
  induction m as [|[k0 v0] m IH]; cbn; intros H.
  - constructor; auto.
  - inversion H; subst. destruct (String.eqb_spec k k0); cbn.
    + subst. auto.
    + constructor; auto. rewrite akeys_aput_in. intros [E|E]; auto.
Qed.

Lemma nodup_ainsert k v m : NoDup (akeys m) -> NoDup (akeys (ainsert k v m)).
Proof.
  unfold ainsert. destruct (ahas k m) eqn:E; auto. intros H.
  rewrite akeys_app. cbn.
  apply Permutation_NoDup with (l := k :: akeys m).
  - apply Permutation_cons_append.
  - constructor; auto. intros Hin. apply ahas_true in Hin. congruence.
Qed.

Lemma nodup_filter_keys (f : string * A -> bool) m :
  NoDup (akeys m) -> NoDup (akeys (filter f m)).
Proof.
  induction m as [|[k v] m IH]; cbn; auto. intros H. inversion H; subst.
  destruct (f (k, v)); cbn; auto. constructor; auto.
  intros Hin. apply H2. apply in_map_iff in Hin as ([a b] & E & Hin). cbn in E; subst.
  apply filter_In in Hin as [Hin _]. apply in_map_iff. exists (k, b); auto.
Qed.

Lemma nodup_aerase k m : NoDup (akeys m) -> NoDup (akeys (aerase k m)).
Proof. apply nodup_filter_keys. Qed.

Lemma aget_perm k m m' :
  NoDup (akeys m) -> Permutation m m' -> aget k m = aget k m'.
Proof.
  intros Hn Hp.
  destruct (aget k m) as [v|] eqn:E.
  - symmetry. apply in_aget.
    + unfold akeys. eapply Permutation_NoDup; [|exact Hn]. now apply Permutation_map.
    + eapply Permutation_in; [exact Hp|]. now apply aget_in.
  - symmetry. apply aget_none. apply aget_none in E. intros H. apply E.
    unfold akeys in *. eapply Permutation_in; [|exact H].
    apply Permutation_map. now symmetry.
Qed.
End Assoc.
Arguments amap : clear implicits.
Global Arguments aerase : simpl never.
Global Arguments ainsert : simpl never.
Global Arguments ahas : simpl never.
Global Arguments akeys {A} !m /.
