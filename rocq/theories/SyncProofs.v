(* Structural lemmas about the tree of synchronised arrays. *)
From Coq Require Import List Arith Bool Lia.
From Verif Require Import SyncModel SyncSpec.
Import ListNotations.

Lemma pair_eqb_eq a b : pair_eqb a b = true <-> a = b.
Proof.
  destruct a as [a1 a2], b as [b1 b2]. unfold pair_eqb. cbn [fst snd].
  rewrite andb_true_iff, !Nat.eqb_eq. split; [intros [-> ->]; reflexivity | intros [= -> ->]; auto].
Qed.

Lemma offs_eqb_eq a : forall b, offs_eqb a b = true <-> a = b.
Proof.
  induction a as [|x a IH]; intros [|y b]; cbn; split; intro H; try discriminate; try reflexivity.
  - apply andb_true_iff in H as [H1 H2]. apply pair_eqb_eq in H1. apply IH in H2. now subst.
  - injection H as -> ->. rewrite andb_true_iff, pair_eqb_eq, IH. auto.
Qed.

Lemma key_eqb_eq a b : key_eqb a b = true <-> a = b.
Proof.
  destruct a as [a1 a2], b as [b1 b2]. unfold key_eqb. cbn [fst snd].
  rewrite andb_true_iff, Nat.eqb_eq, offs_eqb_eq. split; [intros [-> ->]; reflexivity | intros [= -> ->]; auto].
Qed.

Lemma key_eqb_refl a : key_eqb a a = true.
Proof. now apply key_eqb_eq. Qed.

Lemma key_eqb_neq a b : key_eqb a b = false <-> a <> b.
Proof.
  split.
  - intros H E. apply key_eqb_eq in E. congruence.
  - intro H. destruct (key_eqb a b) eqn:E; auto. apply key_eqb_eq in E. contradiction.
Qed.

Lemma kget_kput k x l : kget k (kput k x l) = Some x.
Proof.
  induction l as [|[k' y] l IH]; cbn.
  - now rewrite key_eqb_refl.
  - destruct (key_eqb k' k) eqn:E; cbn; [now rewrite key_eqb_refl | now rewrite E].
Qed.

Lemma kget_kput_other k k2 x l : k2 <> k -> kget k2 (kput k x l) = kget k2 l.
Proof.
  intro H. induction l as [|[k' y] l IH]; cbn.
  - assert (E : key_eqb k k2 = false) by (apply key_eqb_neq; congruence). now rewrite E.
  - destruct (key_eqb k' k) eqn:E; cbn.
    + apply key_eqb_eq in E. subst k'.
      assert (E : key_eqb k k2 = false) by (apply key_eqb_neq; congruence). now rewrite E.
    + now rewrite IH.
Qed.

Lemma kput_not_nil k x l : kput k x l <> [].
Proof. destruct l as [|[k' y] l]; cbn; [discriminate | destruct (key_eqb k' k); discriminate]. Qed.

Lemma two_keys k1 k2 x1 x2 l :
  k1 <> k2 -> kget k1 l = Some x1 -> kget k2 l = Some x2 -> 1 < length l.
Proof.
  intros H H1 H2. destruct l as [|[a x] [|[b y] l]]; cbn in *; try discriminate; [|lia].
  destruct (key_eqb a k1) eqn:E1; [|discriminate].
  destruct (key_eqb a k2) eqn:E2; [|discriminate].
  apply key_eqb_eq in E1, E2. congruence.
Qed.

Definition ext (kk : key) (o n : nat) : key := (fst kk, snd kk ++ [(o, n)]).

Definition disj (o1 n1 o2 n2 : nat) : Prop := o1 + n1 <= o2 \/ o2 + n2 <= o1.

Section Trees.
  Variable F : Type.
  Notation nd := (nd F).
  Notation tree := (tree F).

  Lemma tree_ind2 (P : tree -> Prop)
    (H : forall n d cs, (forall c, In c cs -> P c) -> P (Node F n d cs)) : forall t, P t.
  Proof.
    fix IH 1. intros [n d cs]. apply H.
    induction cs as [|c cs IHcs]; intros c' Hin; [destruct Hin|].
    destruct Hin as [<-|Hin]; [apply IH | now apply IHcs].
  Qed.

  Definition koff (t : tree) : nat := offset F (tdata F t).
  Definition ksize (t : tree) : nat := size F (tdata F t).

  (* The part of the tree the calls do not change. *)
  Inductive sk := Sk (n z o : nat) (l : list sk).
  Fixpoint skel (t : tree) : sk :=
    match t with Node _ n d cs => Sk n (size F d) (offset F d) (map skel cs) end.

  Definition skname s := match s with Sk n _ _ _ => n end.
  Definition sksize s := match s with Sk _ z _ _ => z end.
  Definition skoff s := match s with Sk _ _ o _ => o end.
  Definition skkids s := match s with Sk _ _ _ l => l end.

  Lemma skel_size t t' : skel t = skel t' -> ksize t = ksize t'.
  Proof. destruct t, t'. cbn. now intros [=]. Qed.
  Lemma skel_off t t' : skel t = skel t' -> koff t = koff t'.
  Proof. destruct t, t'. cbn. now intros [=]. Qed.
  Lemma skel_name t t' : skel t = skel t' -> tname F t = tname F t'.
  Proof. destruct t, t'. cbn. now intros [=]. Qed.

  (* Well-formedness at absolute offset o. *)
  Inductive wfk : nat -> sk -> Prop :=
  | wfk_i o n z f l :
      NoDup (map skname l) ->
      (l = [] \/ f = o) ->
      (forall c, In c l -> skoff c + sksize c <= z) ->
      ForallOrdPairs (fun a b => disj (skoff a) (sksize a) (skoff b) (sksize b)) l ->
      (forall c, In c l -> wfk (o + skoff c) c) ->
      wfk o (Sk n z f l).

  Definition wf (o : nat) (t : tree) : Prop := wfk o (skel t).

  Lemma fop_map {A B} (f : A -> B) (R : B -> B -> Prop) l :
    ForallOrdPairs R (map f l) <-> ForallOrdPairs (fun a b => R (f a) (f b)) l.
  Proof.
    induction l as [|a l IH]; cbn; split; intro H; constructor; inversion H; subst.
    - rewrite Forall_forall in *. intros x Hx. match goal with H : forall _, In _ (map f l) -> _ |- _ => apply H end.
      now apply in_map.
    - now apply IH.
    - rewrite Forall_forall in *. intros y Hy. apply in_map_iff in Hy as (x & <- & Hx). auto.
    - now apply IH.
  Qed.

  Lemma wf_inv o n d cs :
    wf o (Node F n d cs) ->
    NoDup (map (tname F) cs) /\
    (cs = [] \/ offset F d = o) /\
    (forall c, In c cs -> koff c + ksize c <= size F d) /\
    ForallOrdPairs (fun a b => disj (koff a) (ksize a) (koff b) (ksize b)) cs /\
    (forall c, In c cs -> wf (o + koff c) c).
  Proof.
    unfold wf. cbn. intro H. inversion H as [o' n' z f l H1 H2 H3 H4 H5]; subst.
    rewrite map_map in H1.
    split; [|split; [|split; [|split]]].
    - erewrite map_ext; [exact H1|]. now intros [].
    - destruct H2 as [H2|H2]; auto. left. now destruct cs.
    - intros c Hc. specialize (H3 (skel c) (in_map _ _ _ Hc)). now destruct c.
    - apply fop_map in H4. clear -H4.
      induction H4 as [|a l Ha Hl IH]; constructor; auto.
      rewrite Forall_forall in *. intros x Hx. specialize (Ha x Hx). now destruct a, x.
    - intros c Hc. specialize (H5 (skel c) (in_map _ _ _ Hc)). now destruct c.
  Qed.

  Lemma wf_intro o n d cs :
    NoDup (map (tname F) cs) ->
    (cs = [] \/ offset F d = o) ->
    (forall c, In c cs -> koff c + ksize c <= size F d) ->
    ForallOrdPairs (fun a b => disj (koff a) (ksize a) (koff b) (ksize b)) cs ->
    (forall c, In c cs -> wf (o + koff c) c) ->
    wf o (Node F n d cs).
  Proof.
    intros H1 H2 H3 H4 H5. unfold wf. cbn. constructor.
    - rewrite map_map. erewrite map_ext; [exact H1|]. now intros [].
    - destruct H2 as [->|H2]; auto.
    - intros s Hs. apply in_map_iff in Hs as (c & <- & Hc). specialize (H3 c Hc). now destruct c.
    - apply fop_map. clear -H4.
      induction H4 as [|a l Ha Hl IH]; constructor; auto.
      rewrite Forall_forall in *. intros x Hx. specialize (Ha x Hx). now destruct a, x.
    - intros s Hs. apply in_map_iff in Hs as (c & <- & Hc). specialize (H5 c Hc). now destruct c.
  Qed.

  Lemma wf_skel o t t' : skel t = skel t' -> wf o t -> wf o t'.
  Proof. unfold wf. now intros ->. Qed.

  Lemma fop_in {A} (R : A -> A -> Prop) (Rs : forall a b, R a b -> R b a) l a b :
    ForallOrdPairs R l -> In a l -> In b l -> a = b \/ R a b.
  Proof. intros H Ha Hb. destruct (ForallOrdPairs_In H a b Ha Hb) as [E|[E|E]]; auto. Qed.

  Lemma disj_sym o1 n1 o2 n2 : disj o1 n1 o2 n2 -> disj o2 n2 o1 n1.
  Proof. unfold disj. lia. Qed.

  Lemma kids_disj o n d cs a b :
    wf o (Node F n d cs) -> In a cs -> In b cs -> a = b \/ disj (koff a) (ksize a) (koff b) (ksize b).
  Proof.
    intros H Ha Hb. apply wf_inv in H as (_ & _ & _ & H & _).
    apply (fop_in (fun a b => disj (koff a) (ksize a) (koff b) (ksize b))) with (l := cs); auto.
    intros x y. apply disj_sym.
  Qed.

  Lemma nodup_map_eq {A B} (f : A -> B) l a b :
    NoDup (map f l) -> In a l -> In b l -> f a = f b -> a = b.
  Proof.
    induction l as [|x l IH]; cbn; intros H Ha Hb E; [destruct Ha|].
    inversion H as [|? ? Hn Hl]; subst.
    destruct Ha as [->|Ha], Hb as [->|Hb]; auto.
    - exfalso. apply Hn. rewrite E. now apply in_map.
    - exfalso. apply Hn. rewrite <- E. now apply in_map.
  Qed.

  Lemma find_named n cs c : find (named F n) cs = Some c -> In c cs /\ tname F c = n.
  Proof. intro H. apply find_some in H as [H1 H2]. split; auto. now apply Nat.eqb_eq in H2. Qed.

  Lemma find_uniq n cs c c' :
    NoDup (map (tname F) cs) -> find (named F n) cs = Some c -> In c' cs ->
    named F n c' = true -> c' = c.
  Proof.
    intros Hd Hf Hi Hn. apply find_named in Hf as [Hc E].
    apply (nodup_map_eq (tname F) cs); auto. apply Nat.eqb_eq in Hn. congruence.
  Qed.

  (* The subtree at a path, with its absolute offset. *)
  Fixpoint loc (p : list nat) (o : nat) (t : tree) : option (nat * tree) :=
    match p with
    | [] => Some (o, t)
    | n :: p =>
        match find (named F n) (tkids F t) with
        | Some c => loc p (o + koff c) c
        | None => None
        end
    end.

  Lemma loc_sub p : forall o t, sub F p t = option_map snd (loc p o t).
  Proof.
    induction p as [|n p IH]; intros o t; cbn; auto.
    destruct (find (named F n) (tkids F t)); auto.
  Qed.

  Lemma sub_loc p o t t' : sub F p t = Some t' -> exists o', loc p o t = Some (o', t').
  Proof.
    rewrite (loc_sub p o). destruct (loc p o t) as [[o' t'']|]; cbn; [|discriminate].
    intros [= ->]. eauto.
  Qed.

  Lemma loc_some_sub p o t o' t' : loc p o t = Some (o', t') -> sub F p t = Some t'.
  Proof. intro H. now rewrite (loc_sub p o), H. Qed.

  Lemma loc_wf p : forall o t o' t', wf o t -> loc p o t = Some (o', t') -> wf o' t'.
  Proof.
    induction p as [|n p IH]; intros o [m d cs] o' t' W H; cbn in H.
    - now injection H as <- <-.
    - destruct (find (named F n) cs) as [c|] eqn:E; [|discriminate].
      apply find_named in E as [Hc _]. apply wf_inv in W as (_ & _ & _ & _ & W). eauto.
  Qed.

  Lemma loc_range p : forall o t o' t',
    wf o t -> loc p o t = Some (o', t') -> o <= o' /\ o' + ksize t' <= o + ksize t.
  Proof.
    induction p as [|n p IH]; intros o [m d cs] o' t' W H; cbn in H.
    - injection H as <- <-. cbn. lia.
    - destruct (find (named F n) cs) as [c|] eqn:E; [|discriminate].
      apply find_named in E as [Hc _]. apply wf_inv in W as (_ & _ & Wr & _ & W).
      specialize (IH _ _ _ _ (W c Hc) H). specialize (Wr c Hc). cbn [ksize tdata] in *.
      unfold ksize in *. cbn [tdata] in *. lia.
  Qed.

  Lemma find_map_skel n cs cs' :
    map skel cs = map skel cs' ->
    match find (named F n) cs, find (named F n) cs' with
    | Some a, Some b => skel a = skel b
    | None, None => True
    | _, _ => False
    end.
  Proof.
    revert cs'. induction cs as [|c cs IH]; intros [|c' cs'] H; try discriminate; cbn; auto.
    injection H as H1 H2. assert (E : named F n c = named F n c') by (unfold named; now rewrite (skel_name _ _ H1)).
    rewrite E. destruct (named F n c'); [exact H1 | exact (IH _ H2)].
  Qed.

  Lemma loc_skel p : forall o t t',
    skel t = skel t' ->
    match loc p o t, loc p o t' with
    | Some (a, x), Some (b, y) => a = b /\ skel x = skel y
    | None, None => True
    | _, _ => False
    end.
  Proof.
    induction p as [|n p IH]; intros o t t' H; cbn; auto.
    assert (K : map skel (tkids F t) = map skel (tkids F t')).
    { destruct t, t'. cbn in *. now injection H. }
    pose proof (find_map_skel n _ _ K) as Hf.
    destruct (find (named F n) (tkids F t)), (find (named F n) (tkids F t')); try contradiction; auto.
    rewrite (skel_off _ _ Hf). now apply IH.
  Qed.

  Lemma loc_skel_some p o t t' o1 x :
    skel t = skel t' -> loc p o t = Some (o1, x) ->
    exists y, loc p o t' = Some (o1, y) /\ skel x = skel y.
  Proof.
    intros H E. pose proof (loc_skel p o _ _ H) as L. rewrite E in L.
    destruct (loc p o t') as [[b y]|]; [|contradiction]. destruct L as [<- L]. eauto.
  Qed.

  (* Updates along a path. *)
  Lemma find_upd_named n (g : tree -> tree) cs :
    (forall c, tname F (g c) = tname F c) ->
    find (named F n) (map (fun c => if named F n c then g c else c) cs)
    = option_map g (find (named F n) cs).
  Proof.
    intro Hg. induction cs as [|c cs IH]; cbn; auto.
    destruct (named F n c) eqn:E; cbn.
    - unfold named at 1. rewrite Hg. unfold named in E. now rewrite E.
    - now rewrite E.
  Qed.

  Lemma upd_name p f t : (forall t, tname F (f t) = tname F t) -> tname F (upd F p f t) = tname F t.
  Proof. intro H. destruct p, t; cbn; auto. apply (H (Node F name d kids)). Qed.

  Lemma upd_skel p f : forall t,
    (forall t, skel (f t) = skel t) -> skel (upd F p f t) = skel t.
  Proof.
    induction p as [|n p IH]; intros [m d cs] H; cbn; [apply (H (Node F m d cs))|].
    f_equal. rewrite map_map. apply map_ext. intro c. destruct (named F n c); auto.
  Qed.

  Lemma loc_upd p f : forall o t o' t',
    (forall t, skel (f t) = skel t) ->
    loc p o t = Some (o', t') -> loc p o (upd F p f t) = Some (o', f t').
  Proof.
    induction p as [|n p IH]; intros o t o' t' Hf H; cbn in *.
    - now injection H as <- <-.
    - destruct t as [m d cs]. cbn in *.
      rewrite (find_upd_named n (upd F p f)) by (intro c; apply skel_name, upd_skel; auto).
      destruct (find (named F n) cs) as [c|]; [|discriminate]. cbn.
      rewrite (skel_off (upd F p f c) c) by (apply upd_skel; auto). auto.
  Qed.

  Definition keeps (f : nd -> nd) : Prop := forall d, size F (f d) = size F d /\ offset F (f d) = offset F d.

  Lemma upd_node_skel p f t : keeps f -> skel (upd_node F p f t) = skel t.
  Proof.
    intro K. apply upd_skel. intros [n d cs]. cbn. destruct (K d) as [-> ->]. reflexivity.
  Qed.

  Lemma loc_upd_node p f o t o' n d cs :
    keeps f -> loc p o t = Some (o', Node F n d cs) ->
    loc p o (upd_node F p f t) = Some (o', Node F n (f d) cs).
  Proof.
    intros K H. unfold upd_node.
    refine (loc_upd p (fun t => match t with Node _ n d cs => Node F n (f d) cs end) o t o' (Node F n d cs) _ H).
    intros [n0 d0 cs0]. cbn. destruct (K d0) as [-> ->]. reflexivity.
  Qed.

  Lemma all_nodes_skel f : keeps f -> forall t, skel (all_nodes F f t) = skel t.
  Proof.
    intro K. apply tree_ind2. intros n d cs IH. cbn. destruct (K d) as [-> ->]. f_equal.
    rewrite map_map. apply map_ext_in. auto.
  Qed.

  Lemma line_skel f : keeps f -> forall p t, skel (line F p f t) = skel t.
  Proof.
    intros K. induction p as [|n p IH]; intros [m d cs]; cbn; destruct (K d) as [-> ->]; f_equal.
    rewrite map_map. apply map_ext. intro c. destruct (named F n c); auto.
  Qed.

  Lemma line_name f p t : tname F (line F p f t) = tname F t.
  Proof. destruct p, t; reflexivity. Qed.

  Lemma keep_head_keeps : keeps (keep_head F).
  Proof. intro d. unfold keep_head. destruct (head F d), (head_arr F d); cbn; auto. Qed.

  Lemma from_parent_keeps pd : keeps (from_parent F pd).
  Proof. intro d. unfold from_parent. destruct (head F pd), (head_arr F pd) as [[]|]; cbn; auto. Qed.

  Lemma clear_tree_eq keep n d cs :
    clear_tree F keep (Node F n d cs)
    = Node F n (if keep then keep_head F d else clear_all F d) (clear_list F keep cs).
  Proof.
    cbn [clear_tree]. f_equal. induction cs as [|c cs IH]; [reflexivity|].
    cbn [clear_list]. now rewrite <- IH.
  Qed.

  Lemma clear_tree_skel keep : forall t, skel (clear_tree F keep t) = skel t.
  Proof.
    apply tree_ind2. intros n d cs IH. rewrite clear_tree_eq. cbn.
    assert (E : size F (if keep then keep_head F d else clear_all F d) = size F d /\
                offset F (if keep then keep_head F d else clear_all F d) = offset F d).
    { destruct keep; [apply keep_head_keeps | split; reflexivity]. }
    destruct E as [-> ->]. f_equal.
    induction cs as [|c cs IHc]; cbn; auto.
    destruct (has_head F (tdata F c)); cbn; auto.
    rewrite IH by now left. f_equal. apply IHc. intros x Hx. apply IH. now right.
  Qed.

  Lemma clear_list_skel keep cs : map skel (clear_list F keep cs) = map skel cs.
  Proof.
    induction cs as [|c cs IHc]; cbn; auto.
    destruct (has_head F (tdata F c)); cbn; auto. rewrite clear_tree_skel. now f_equal.
  Qed.

  Lemma clear_desc_skel keep t : skel (clear_desc F keep t) = skel t.
  Proof. destruct t. cbn. now rewrite clear_list_skel. Qed.

  Lemma create_kid_skel : forall t pd, skel (create_kid F pd t) = skel t.
  Proof.
    apply (tree_ind2 (fun t => forall pd, skel (create_kid F pd t) = skel t)).
    intros n d cs IH pd. cbn. destruct (has_head F d); auto.
    cbn. destruct (from_parent_keeps pd d) as [-> ->]. f_equal.
    rewrite map_map. apply map_ext_in. intros c Hc. now apply IH.
  Qed.

  Lemma create_desc_skel t : skel (create_desc F t) = skel t.
  Proof.
    destruct t. cbn. f_equal. rewrite map_map. apply map_ext. intro. apply create_kid_skel.
  Qed.

  (* A property of every node, with its absolute offset and its key. *)
  Inductive alln (P : nat -> key -> nd -> Prop) : nat -> key -> tree -> Prop :=
  | alln_i o kk n d cs :
      P o kk d ->
      (forall c, In c cs -> alln P (o + koff c) (ext kk (koff c) (ksize c)) c) ->
      alln P o kk (Node F n d cs).

  Lemma alln_inv P o kk n d cs :
    alln P o kk (Node F n d cs) ->
    P o kk d /\ forall c, In c cs -> alln P (o + koff c) (ext kk (koff c) (ksize c)) c.
  Proof. intro H. inversion H; subst. auto. Qed.

  Lemma alln_impl (P Q : nat -> key -> nd -> Prop) :
    (forall o kk d, P o kk d -> Q o kk d) -> forall t o kk, alln P o kk t -> alln Q o kk t.
  Proof.
    intro H. apply (tree_ind2 (fun t => forall o kk, alln P o kk t -> alln Q o kk t)).
    intros n d cs IH o kk A. apply alln_inv in A as [A B]. constructor; auto.
  Qed.

  Lemma alln_and (P Q : nat -> key -> nd -> Prop) :
    forall t o kk, alln P o kk t -> alln Q o kk t -> alln (fun o kk d => P o kk d /\ Q o kk d) o kk t.
  Proof.
    apply (tree_ind2 (fun t => forall o kk, alln P o kk t -> alln Q o kk t -> alln (fun o kk d => P o kk d /\ Q o kk d) o kk t)).
    intros n d cs IH o kk A B. apply alln_inv in A as [A1 A2]. apply alln_inv in B as [B1 B2].
    constructor; auto.
  Qed.

  (* The key of the root is extended below, but keeps its type. *)
  Lemma alln_fst (P : nat -> key -> nd -> Prop) :
    forall t o kk, alln P o kk t -> alln (fun o kk' d => P o kk' d /\ fst kk' = fst kk) o kk t.
  Proof.
    apply (tree_ind2 (fun t => forall o kk, alln P o kk t -> alln (fun o kk' d => P o kk' d /\ fst kk' = fst kk) o kk t)).
    intros n d cs IH o kk A. apply alln_inv in A as [A1 A2]. constructor; auto.
    intros c Hc. specialize (IH c Hc _ _ (A2 c Hc)). exact IH.
  Qed.

  Lemma alln_all_nodes (P Q : nat -> key -> nd -> Prop) f :
    keeps f -> (forall o kk d, P o kk d -> Q o kk (f d)) ->
    forall t o kk, alln P o kk t -> alln Q o kk (all_nodes F f t).
  Proof.
    intros K H. apply (tree_ind2 (fun t => forall o kk, alln P o kk t -> alln Q o kk (all_nodes F f t))).
    intros n d cs IH o kk A. apply alln_inv in A as [A B]. cbn. constructor; auto.
    intros c Hc. apply in_map_iff in Hc as (x & <- & Hx).
    rewrite (skel_off (all_nodes F f x) x), (skel_size (all_nodes F f x) x) by now apply all_nodes_skel.
    auto.
  Qed.

  Lemma alln_line (P : nat -> key -> nd -> Prop) f :
    keeps f -> (forall o kk d, P o kk d -> P o kk (f d)) ->
    forall p t o kk, alln P o kk t -> alln P o kk (line F p f t).
  Proof.
    intros K H. induction p as [|m p IH]; intros [n d cs] o kk A; apply alln_inv in A as [A B];
      cbn; constructor; auto.
    intros c Hc. apply in_map_iff in Hc as (x & <- & Hx).
    destruct (named F m x); auto.
    rewrite (skel_off (line F p f x) x), (skel_size (line F p f x) x) by now apply line_skel.
    auto.
  Qed.

  (* Looking at, and replacing, the node at a path. *)
  Lemma alln_loc P p : forall o kk t o' t',
    wf o t -> alln P o kk t -> loc p o t = Some (o', t') ->
    exists kk', alln P o' kk' t' /\ fst kk' = fst kk /\ (p = [] -> kk' = kk) /\
      (p <> [] -> exists po pk pt,
          loc (removelast p) o t = Some (po, pt) /\ alln P po pk pt /\
          kk' = ext pk (koff t') (ksize t')) /\
      (forall f, (forall t, skel (f t) = skel t) -> alln P o' kk' (f t') -> alln P o kk (upd F p f t)).
  Proof.
    induction p as [|n p IH]; intros o kk t o' t' W A H; cbn in H.
    - injection H as <- <-. exists kk. do 3 (split; auto). split; [congruence|]. auto.
    - destruct t as [m d cs]. cbn in H. destruct (find (named F n) cs) as [c|] eqn:E; [|discriminate].
      pose proof (find_named _ _ _ E) as [Hc Hn].
      apply alln_inv in A as [A B].
      destruct (wf_inv _ _ _ _ W) as (Wn & _ & _ & _ & Wk).
      destruct (IH _ _ _ _ _ (Wk c Hc) (B c Hc) H) as (kk' & A' & Hf & Hnil & Hpar & Hupd).
      exists kk'. split; [exact A'|]. split; [exact Hf|]. split; [congruence|]. split.
      + intros _. destruct p as [|n' p].
        * exists o, kk, (Node F m d cs). cbn in H. injection H as <- <-. split; [reflexivity|].
          split; [now constructor|]. now rewrite Hnil.
        * destruct (Hpar ltac:(discriminate)) as (po & pk & pt & L & Ap & Ek).
          exists po, pk, pt. split; [|auto].
          change (removelast (n :: n' :: p)) with (n :: removelast (n' :: p)). cbn [loc tkids].
          now rewrite E.
      + intros f Hs Af. cbn. constructor; auto.
        intros x Hx. apply in_map_iff in Hx as (y & <- & Hy).
        destruct (named F n y) eqn:En; [|auto].
        assert (y = c) by (eapply find_uniq; eauto). subst y.
        rewrite (skel_off (upd F p f c) c), (skel_size (upd F p f c) c) by (apply upd_skel; auto).
        now apply Hupd.
  Qed.

  (* Replacing a node preserves a property that every node has. *)
  Lemma alln_upd_node (P : nat -> key -> nd -> Prop) f :
    keeps f -> (forall o kk d, P o kk d -> P o kk (f d)) ->
    forall p t o kk, alln P o kk t -> alln P o kk (upd_node F p f t).
  Proof.
    intros K H. induction p as [|m p IH]; intros [n d cs] o kk A; apply alln_inv in A as [A B];
      cbn; constructor; auto.
    intros c Hc. apply in_map_iff in Hc as (x & <- & Hx).
    destruct (named F m x); auto.
    pose proof (upd_node_skel p f x K) as S. unfold upd_node in S.
    rewrite (skel_off _ x S), (skel_size _ x S). exact (IH x _ _ (B x Hx)).
  Qed.

  Lemma alln_upd (P : nat -> key -> nd -> Prop) (f : tree -> tree) :
    (forall t, skel (f t) = skel t) ->
    (forall t o kk, alln P o kk t -> alln P o kk (f t)) ->
    forall p t o kk, alln P o kk t -> alln P o kk (upd F p f t).
  Proof.
    intros K H. induction p as [|m p IH]; intros [n d cs] o kk A; [now apply H|].
    apply alln_inv in A as [A B]. cbn; constructor; auto.
    intros c Hc. apply in_map_iff in Hc as (x & <- & Hx).
    destruct (named F m x); auto.
    pose proof (upd_skel p f x K) as S.
    rewrite (skel_off _ x S), (skel_size _ x S). exact (IH x _ _ (B x Hx)).
  Qed.

  (* The lazy request that element i still waits for. *)
  Fixpoint first_some {A} (l : list (option A)) : option A :=
    match l with [] => None | Some x :: _ => Some x | None :: l => first_some l end.

  Definition inr (o n i : nat) : bool := Nat.leb o i && Nat.ltb i (o + n).

  Lemma inr_spec o n i : inr o n i = true <-> o <= i < o + n.
  Proof. unfold inr. rewrite andb_true_iff, Nat.leb_le, Nat.ltb_lt. lia. Qed.

  Lemma inr_false o n i : inr o n i = false <-> ~ (o <= i < o + n).
  Proof. rewrite <- inr_spec. destruct (inr o n i); split; congruence. Qed.

  Fixpoint pendat (o : nat) (t : tree) (i : nat) : option (lit F) :=
    match t with
    | Node _ n d cs =>
        if inr o (size F d) i then
          match first_some (map (fun c => pendat (o + offset F (tdata F c)) c i) cs) with
          | Some l => Some l
          | None => pend F d
          end
        else None
    end.

  Lemma pendat_out o t i : ~ (o <= i < o + ksize t) -> pendat o t i = None.
  Proof. destruct t as [n d cs]. unfold ksize. cbn. intro H. apply inr_false in H. now rewrite H. Qed.

  Lemma first_some_none {A} (l : list (option A)) :
    first_some l = None <-> forall x, In x l -> x = None.
  Proof.
    induction l as [|[a|] l IH]; cbn.
    - split; [intros _ x [] | reflexivity].
    - split; [discriminate|]. intro H. exact (H (Some a) (or_introl eq_refl)).
    - rewrite IH. split; intro H; [intros x [<-|Hx]; auto | auto].
  Qed.

  (* At most one kid contains i. *)
  Lemma first_some_kid (cs : list tree) (g : tree -> option (lit F)) c :
    NoDup (map (tname F) cs) -> In c cs -> (forall c', In c' cs -> c' <> c -> g c' = None) ->
    first_some (map g cs) = g c.
  Proof.
    induction cs as [|x cs IH]; cbn; intros Hn Hc Ho; [destruct Hc|].
    inversion Hn as [|? ? Hx Hn']; subst.
    destruct Hc as [->|Hc].
    - destruct (g c) as [l|] eqn:E; auto. apply first_some_none. intros y Hy.
      apply in_map_iff in Hy as (z & <- & Hz). apply Ho; auto. intros ->.
      apply Hx. now apply in_map.
    - rewrite (Ho x); [|now left|]; [apply IH; auto|].
      intros ->. apply Hx. now apply in_map.
  Qed.

  Lemma pendat_kid o n d cs c i :
    wf o (Node F n d cs) -> In c cs -> o + koff c <= i < o + koff c + ksize c ->
    pendat o (Node F n d cs) i
    = match pendat (o + koff c) c i with Some l => Some l | None => pend F d end.
  Proof.
    intros W Hc Hi. pose proof (wf_inv _ _ _ _ W) as (Wn & _ & Wr & _ & _).
    specialize (Wr c Hc).
    cbn. assert (E : inr o (size F d) i = true) by (apply inr_spec; lia). rewrite E.
    rewrite (first_some_kid cs (fun c => pendat (o + offset F (tdata F c)) c i) c Wn Hc); [reflexivity|].
    intros c' Hc' Hne. apply pendat_out. destruct (kids_disj _ _ _ _ c' c W Hc' Hc) as [->|D]; [contradiction|].
    unfold disj, koff in *. lia.
  Qed.

  Lemma pendat_nokid o n d cs i :
    (forall c, In c cs -> ~ (o + koff c <= i < o + koff c + ksize c)) ->
    pendat o (Node F n d cs) i = if inr o (size F d) i then pend F d else None.
  Proof.
    intro H. cbn. destruct (inr o (size F d) i); auto.
    assert (E : first_some (map (fun c => pendat (o + offset F (tdata F c)) c i) cs) = None).
    { apply first_some_none. intros x Hx. apply in_map_iff in Hx as (c & <- & Hc).
      apply pendat_out. now apply H. }
    now rewrite E.
  Qed.

  Lemma kid_or_not o (cs : list tree) i :
    (exists c, In c cs /\ o + koff c <= i < o + koff c + ksize c) \/
    (forall c, In c cs -> ~ (o + koff c <= i < o + koff c + ksize c)).
  Proof.
    induction cs as [|c cs [IH|IH]].
    - right. intros c [].
    - left. destruct IH as (x & Hx & H). exists x. split; auto. now right.
    - destruct (inr (o + koff c) (ksize c) i) eqn:E.
      + left. exists c. split; [now left|]. now apply inr_spec in E.
      + right. intros x [<-|Hx]; auto. now apply inr_false in E.
  Qed.

  (* pendat depends only on flags and skeleton *)
  Inductive samef : tree -> tree -> Prop :=
  | samef_i n d cs n' d' cs' :
      n = n' -> size F d = size F d' -> offset F d = offset F d' -> pend F d = pend F d' ->
      Forall2 samef cs cs' -> samef (Node F n d cs) (Node F n' d' cs').

  Lemma samef_pendat : forall t t' o i, samef t t' -> pendat o t i = pendat o t' i.
  Proof.
    apply (tree_ind2 (fun t => forall t' o i, samef t t' -> pendat o t i = pendat o t' i)).
    intros n d cs IH t' o i S. inversion S as [? ? ? ? d' cs' -> Hz Ho Hp Hk]; subst. cbn.
    rewrite Hz, Hp.
    assert (E : map (fun c => pendat (o + offset F (tdata F c)) c i) cs
              = map (fun c => pendat (o + offset F (tdata F c)) c i) cs').
    { clear S. induction Hk as [|a b l l' Hab Hl IHl]; cbn; auto. f_equal.
      - inversion Hab as [? da ? ? db ? ? ? Eo]; subst. cbn [tdata]. rewrite Eo.
        apply (IH _ (or_introl eq_refl)). exact Hab.
      - apply IHl. intros c Hc. apply IH. now right. }
    now rewrite E.
  Qed.

  Lemma samef_refl : forall t, samef t t.
  Proof.
    apply tree_ind2. intros n d cs IH. constructor; auto.
    induction cs as [|c cs IHc]; constructor.
    - apply IH. now left.
    - apply IHc. intros x Hx. apply IH. now right.
  Qed.

  Lemma samef_map (g : tree -> tree) cs :
    (forall c, In c cs -> samef c (g c)) -> Forall2 samef cs (map g cs).
  Proof.
    induction cs as [|c cs IH]; cbn; intro H; constructor.
    - apply H. now left.
    - apply IH. intros x Hx. apply H. now right.
  Qed.

  Definition keepsf (f : nd -> nd) : Prop := forall d, pend F (f d) = pend F d.

  Lemma samef_upd p f : (forall t, samef t (f t)) -> forall t, samef t (upd F p f t).
  Proof.
    intro H. induction p as [|n p IH]; intro t; cbn; auto.
    destruct t as [m d cs]. constructor; auto. apply samef_map. intros c Hc.
    destruct (named F n c); auto. apply samef_refl.
  Qed.

  Lemma samef_upd_node p f t : keeps f -> keepsf f -> samef t (upd_node F p f t).
  Proof.
    intros K1 K2. apply samef_upd. intros [n d cs]. destruct (K1 d) as [E1 E2].
    constructor; auto. induction cs; constructor; auto. apply samef_refl.
  Qed.

  Lemma samef_all_nodes f : keeps f -> keepsf f -> forall t, samef t (all_nodes F f t).
  Proof.
    intros K1 K2. apply tree_ind2. intros n d cs IH. cbn. destruct (K1 d) as [E1 E2].
    constructor; auto. now apply samef_map.
  Qed.

  Lemma samef_line f : keeps f -> keepsf f -> forall p t, samef t (line F p f t).
  Proof.
    intros K1 K2. induction p as [|n p IH]; intros [m d cs]; cbn; destruct (K1 d) as [E1 E2]; constructor; auto.
    - induction cs; constructor; auto. apply samef_refl.
    - apply samef_map. intros c Hc. destruct (named F n c); auto. apply samef_refl.
  Qed.

  (* No flag anywhere. *)
  Inductive noflag : tree -> Prop :=
  | noflag_i n d cs : pend F d = None -> (forall c, In c cs -> noflag c) -> noflag (Node F n d cs).

  Lemma noflag_inv n d cs : noflag (Node F n d cs) -> pend F d = None /\ forall c, In c cs -> noflag c.
  Proof. intro H. inversion H; subst. auto. Qed.

  Lemma noflag_pendat : forall t o i, noflag t -> pendat o t i = None.
  Proof.
    apply (tree_ind2 (fun t => forall o i, noflag t -> pendat o t i = None)).
    intros n d cs IH o i H. apply noflag_inv in H as [H1 H2]. cbn. destruct (inr _ _ _); auto.
    assert (E : first_some (map (fun c => pendat (o + offset F (tdata F c)) c i) cs) = None).
    { apply first_some_none. intros x Hx. apply in_map_iff in Hx as (c & <- & Hc). auto. }
    now rewrite E.
  Qed.

  Lemma any_flag_noflag : forall t, any_flag F t = false -> noflag t.
  Proof.
    apply (tree_ind2 (fun t => any_flag F t = false -> noflag t)).
    intros n d cs IH H. cbn in H. apply orb_false_iff in H as [H1 H2]. constructor.
    - unfold flagged in H1. destruct (pend F d); [discriminate|reflexivity].
    - intros c Hc. apply IH; auto. destruct (any_flag F c) eqn:E; auto.
      assert (X : existsb (any_flag F) cs = true) by (apply existsb_exists; eauto). congruence.
  Qed.

  Lemma clear_flags_noflag : forall t, noflag (all_nodes F (clear_flags F) t).
  Proof.
    apply tree_ind2. intros n d cs IH. cbn. constructor; auto.
    intros c Hc. apply in_map_iff in Hc as (x & <- & Hx). auto.
  Qed.

  Lemma samef_noflag : forall t t', samef t t' -> noflag t -> noflag t'.
  Proof.
    apply (tree_ind2 (fun t => forall t', samef t t' -> noflag t -> noflag t')).
    intros n d cs IH t' S H. inversion S as [? ? ? ? d' cs' -> Hz Ho Hp Hk]; subst.
    apply noflag_inv in H as [H1 H2]. constructor; [congruence|]. clear S Hz Ho Hp H1.
    induction Hk as [|a b l l' Hab Hl IHl]; intros c Hc; [destruct Hc|].
    destruct Hc as [<-|Hc].
    - apply (IH a (or_introl eq_refl)); auto. apply H2. now left.
    - apply IHl; auto. intros y Hy. apply IH. now right. intros y Hy. apply H2. now right.
  Qed.
End Trees.
