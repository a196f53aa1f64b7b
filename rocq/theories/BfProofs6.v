(** Partial derivatives are unique; gradients exist. *)
From Coq Require Import Reals Ratan ZArith Bool List Lra Lia Psatz.
From Verif Require Import ActModel ActSpec ActProofs1 ActProofs2 BfModel BfSpec BfProofs1 BfProofs2.
Import ListNotations.
Local Open Scope R_scope.

Lemma partials_unique F ks : forall env l l', partials F ks env l -> partials F ks env l' -> l = l'.
Proof.
  induction ks as [| k ks IH]; intros env l l'; cbn [partials]; [congruence |].
  intros (g & N & D) (g' & N' & D'). apply (uniqueness_limite g (env k)); [exact D |]. apply (lim_near g g'); [| exact D']. apply nearby_near.
  eapply nearby_imp2; [| exact N | exact N']. intros u A B. exact (IH _ _ _ A B).
Qed.

(** What gradients pass on: graphs of supported functions that are not inputs. *)
Definition sound (e : expr) : Prop := supported e = true /\ is_input e = false.
Ltac sup := unfold sound, eps_graph, huber_graph in *; ev; cbn [supported is_input] in *; rewrite ?andb_true_iff in *; intuition (auto; try discriminate; try congruence).
Lemma bk_sound f d a : supported (Un f a) = true -> sound d -> exists g, bk f d (given (dep_x f) a) (given (dep_y f) (Un f a)) = Got g /\ sound g.
Proof.
  intros H Hd. destruct f; try discriminate; try (eexists; split; [reflexivity |]; sup).
  cbn [bk dep_x dep_y]. destruct (Rle_dec 0 a0); (eexists; split; [reflexivity |]; sup).
Qed.
Definition fine (r : res) : Prop := match r with Raise => False | Nothing => True | Got g => sound g end.
Lemma fine_join r s : fine r -> fine s -> fine (join r s).
Proof. destruct r, s; cbn [fine join]; try tauto. intros (A & _) (B & _). split; [cbn [supported]; rewrite A, B; reflexivity | reflexivity]. Qed.
Lemma bk0_sound f d a b : supported (Bi f a b) = true -> sound d -> fine (bk0 f d (arg0 f a) (arg1 f b)).
Proof. intros H Hd. destruct f; try discriminate; cbn [bk0 arg0 arg1 dep_x2 given orb negb reading2 fine]; sup. Qed.
Lemma bk1_sound f d a b : supported (Bi f a b) = true -> sound d -> fine (bk1 f d (arg0 f a) (arg1 f b)).
Proof. intros H Hd. destruct f; try discriminate; cbn [bk1 arg0 arg1 dep_x2 given orb negb reading2 fine]; sup. Qed.
Lemma fine_pass r h : fine r -> (forall g, sound g -> fine (h g)) -> fine (pass r h).
Proof. destruct r; cbn [fine pass]; auto. Qed.
Lemma back_sound e k : supported e = true -> forall d, sound d -> fine (back e d k).
Proof.
  induction e as [j | c | f a IHa | f a IHa b IHb | a IHa b IHb | c a IHa b IHb | a IHa | c IHc a IHa b IHb]; intros H d Hd; cbn [back]; match goal with |- fine (if ?t then _ else _) => destruct t; [| exact I] end; try exact I; try exact Hd.
  - destruct (bk_sound f d a H Hd) as (g & -> & Hg). cbn [pass]. apply IHa; [| exact Hg]. cbn [supported] in H. destruct f; (discriminate || exact H).
  - assert (Hs : supported a = true /\ supported b = true) by (cbn [supported] in H; destruct f; try discriminate; apply andb_true_iff, H). destruct Hs as (Ha & Hb). apply fine_join; apply fine_pass; auto; [apply bk0_sound | apply bk1_sound]; assumption.
  - cbn [supported] in H. apply andb_true_iff in H. destruct H as (Ha & Hb). apply fine_join; auto.
  - cbn [supported] in H. rewrite !andb_true_iff in H. destruct H as ((Hc & Ha) & Hb). apply fine_join; [apply IHa | apply IHb]; try assumption; sup.
Qed.
Lemma grad_sound e k : sound e -> exists g, grad e k = Some g /\ sound g.
Proof.
  intros (H & N). pose proof (back_sound e k H (Con 1) (conj eq_refl eq_refl)) as F.
  assert (G : grad e k = match back e (Con 1) k with Raise => None | Nothing => Some (Con 0) | Got g => Some g end) by (destruct e; (discriminate || reflexivity)).
  rewrite G. destruct (back e (Con 1) k) as [| | g]; cbn [fine] in F; [contradiction | exists (Con 0); split; [reflexivity | split; reflexivity] | exists g; auto].
Qed.
Lemma grads_sound e ks : sound e -> exists g, grads e ks = Some g /\ sound g.
Proof.
  intros H. induction ks as [| k ks IH]; cbn [grads]; [exists e; auto |]. destruct IH as (g & -> & G). apply grad_sound, G.
Qed.
