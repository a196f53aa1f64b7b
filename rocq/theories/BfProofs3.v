(** The gradient of a graph is its derivative. *)
From Coq Require Import Reals Ratan ZArith Bool List Lra Lia Psatz.
From Verif Require Import ActModel ActSpec ActProofs1 ActProofs2 ActProofs3 BfModel BfSpec BfProofs1 BfProofs2.
Import ListNotations.
Local Open Scope R_scope.

Lemma eval_ext e env env' : (forall j, env j = env' j) -> eval e env = eval e env'.
Proof. intros H. induction e; cbn [eval]; rewrite ?IHe, ?IHe1, ?IHe2, ?IHe3; auto. Qed.
Lemma upd_same env k j : upd env k (env k) j = env j.
Proof. unfold upd. destruct (Nat.eqb_spec j k) as [-> | _]; reflexivity. Qed.
Lemma eval_upd e env k : eval e (upd env k (env k)) = eval e env.
Proof. apply eval_ext. intros j. apply upd_same. Qed.

Lemma smooth_meets f x : smooth 1 f x -> meets f x.
Proof.
  intros (D & K & _). destruct f; cbn [domain kink meets] in *; try exact I; try lra.
Qed.
Lemma smooth_meets2 f x0 x1 : smooth2 1 f x0 x1 -> meets2 f x0 x1.
Proof. intros (D & K). destruct f; cbn [domain2 meets2] in *; try exact I; try tauto; try lra. Qed.
Lemma smooth_good f x : smooth 1 f x -> exists g, derivable_pt_lim (fwd f) x g /\ forall dy, bwd f dy x (fwd f x) = dy * g.
Proof. intros (D & K & _). apply good_all; assumption. Qed.

Lemma value_join r s env v : value (join r s) env = Some v -> exists v1 v2, value r env = Some v1 /\ value s env = Some v2 /\ v = v1 + v2.
Proof.
  destruct r as [| | a], s as [| | b]; cbn [join value eval]; intros H; try discriminate; injection H as <-; eexists; eexists; repeat split; ring.
Qed.
Lemma closed_depends e k : closed e = true -> depends e k = false.
Proof.
  induction e; cbn [closed depends]; intros H; try discriminate; try reflexivity; auto;
    rewrite ?andb_true_iff in H; rewrite ?IHe1, ?IHe2, ?IHe3 by tauto; reflexivity.
Qed.
Lemma mish_or f : f = Mish \/ f <> Mish.
Proof. destruct f; (left; reflexivity) || (right; discriminate). Qed.
Lemma bc_or f : f = BcAdd2 \/ f <> BcAdd2.
Proof. destruct f; (left; reflexivity) || (right; discriminate). Qed.
Lemma bk1_label f d o o' : labelled f = true -> bk1 f d o o' = Nothing.
Proof. destruct f; cbn; congruence. Qed.

(** The derivative along input [k], and what the gradient has to do with it. *)
Definition along (e : expr) (env : nat -> R) (k : nat) (u : R) : R := eval e (upd env k u).
Definition derives (e : expr) (env : nat -> R) (k : nat) (l : R) : Prop :=
  derivable_pt_lim (along e env k) (env k) l /\ (depends e k = false -> l = 0) /\
  (flat e = true -> nearby (fun u => along e env k u = eval e env) (env k)) /\
  (off e env -> nearby (fun u => off e (upd env k u)) (env k)) /\
  forall d r, value (back e d k) env = Some r -> r = eval d env * l.
Lemma along_at e env k : along e env k (env k) = eval e env.
Proof. apply eval_upd. Qed.
Lemma settled_steady c a b env k l m :
  derivable_pt_lim (along a env k) (env k) l -> derivable_pt_lim (along b env k) (env k) m ->
  eval a env <> eval b env -> nearby (fun u => compare c (along a env k u) (along b env k u) = compare c (eval a env) (eval b env)) (env k).
Proof.
  intros A B N. rewrite <- (along_at a env k), <- (along_at b env k) in N |- *. destruct (Rdichotomy _ _ N) as [Q | Q].
  - eapply nearby_imp; [| exact (D_lt _ _ _ _ _ A B Q)]. intros u Hu. cbv beta in Hu. destruct c; cbn [compare]; unfold num; cases; reflexivity.
  - eapply nearby_imp; [| exact (D_lt _ _ _ _ _ B A Q)]. intros u Hu. cbv beta in Hu. destruct c; cbn [compare]; unfold num; cases; reflexivity.
Qed.
Lemma off_zero a env : off a env -> eval a env = 0.
Proof.
  destruct a; cbn [off]; try tauto. destruct f; cbn [off]; try tauto; cbn [eval fwd].
  - intros (-> & H). cases. ring.
  - intros H. apply Rmax_left. lra.
Qed.
Lemma deriv e env k : regular 1 e env -> exists l, derives e env k l.
Proof.
  induction e as [j | c | f a IHa | f a IHa b IHb | a IHa b IHb | c a IHa b IHb | a IHa | c IHc a IHa b IHb]; intros H; cbn [regular] in H.
  - (* In *) exists (if Nat.eqb j k then 1 else 0). split; [| split; [| split; [discriminate | split; [contradiction |]]]].
    + unfold along. cbn [eval]. unfold upd. destruct (Nat.eqb j k); [apply D_id | apply D_const].
    + cbn [depends]. intros ->. reflexivity.
    + cbn [back depends]. intros d r. destruct (Nat.eqb j k); cbn [value]; intros [= <-]; ring.
  - (* Con *) exists 0. split; [exact (D_const c (env k)) |]. split; [reflexivity |]. split; [intros _; apply nearby_all; reflexivity |]. split; [contradiction |]. cbn. intros d r [= <-]. ring.
  - (* Un *) destruct H as (Ha & S1). destruct (IHa Ha) as (la & Da & Na & Fa & Oa & Va). destruct (smooth_good _ _ S1) as (g & G & Bw).
    exists (g * la). split; [| split; [| split; [| split]]].
    + apply (D_comp (along a env k) (fwd f)); [exact Da | rewrite along_at; exact G].
    + cbn [depends]. intros E. rewrite (Na E). ring.
    + cbn [flat]. intros E. eapply nearby_imp; [| exact (Fa E)]. intros u Hu. unfold along in *. cbn [eval]. rewrite Hu. reflexivity.
    + assert (Pos : eval a env < 0 -> nearby (fun u => eval a (upd env k u) < 0) (env k)).
      { intros P. apply (D_lt (along a env k) (fun _ => 0) (env k) la 0 Da (D_const 0 _)). rewrite along_at. exact P. }
      destruct f; cbn [off]; try contradiction; [intros (Z & P); eapply nearby_imp; [| exact (Pos P)]; auto | exact Pos].
    + intros d r. cbn [back]. destruct (depends (Un f a) k) eqn:Dk; [| cbn [value]; intros [= <-]; cbn [depends] in Dk; rewrite (Na Dk); ring].
      destruct (mish_or f) as [-> | NM]; [discriminate |]. destruct (agree f d a env NM) as (e' & E & M). rewrite E. cbn [pass]. intros V.
      rewrite (Va _ _ V), (M (smooth_meets _ _ S1)), Bw. ring.
  - (* Bi *) destruct H as (Ha & Hb & S1 & L). destruct (IHa Ha) as (la & Da & Na & Fa & Oa & Va). destruct (IHb Hb) as (lb & Db & Nb & Fb & Ob & Vb).
    assert (L' : labelled f = true -> lb = 0) by (intros E; destruct L as [L | [L | L]]; [discriminate | congruence | apply Nb, closed_depends, L]).
    destruct (chain2 f (along a env k) (along b env k) (env k) la lb) as (l & D & C); [rewrite !along_at; exact S1 | exact Da | exact Db | exact L' |].
    rewrite !along_at in C. exists l. split; [exact D | split; [| split; [| split; [contradiction |]]]].
    + cbn [depends]. intros E. apply orb_false_iff in E. destruct E as (E1 & E2). specialize (C 1). rewrite (Na E1), (Nb E2) in C. lra.
    + cbn [flat]. intros E. apply andb_true_iff in E. destruct E as (E1 & E2). eapply nearby_imp2; [| exact (Fa E1) | exact (Fb E2)]. intros u Hu Hv. cbv beta in *. unfold along in *. cbn [eval]. rewrite Hu, Hv. reflexivity.
    + intros d r. cbn [back]. destruct (depends (Bi f a b) k) eqn:Dk.
      2:{ cbn [value]. intros [= <-]. cbn [depends] in Dk. apply orb_false_iff in Dk. destruct Dk as (E1 & E2). specialize (C 1). rewrite (Na E1), (Nb E2) in C. replace l with 0 by lra. ring. }
      intros V. apply value_join in V. destruct V as (v1 & v2 & V1 & V2 & ->). destruct (bc_or f) as [-> | NB]; [discriminate |].
      destruct (agree0 f d a b env NB) as (e0 & E0 & M0). rewrite E0 in V1. cbn [pass] in V1. rewrite (Va _ _ V1), (M0 (smooth_meets2 _ _ _ S1)), <- C. f_equal.
      destruct (labelled f) eqn:Lf; [rewrite (bk1_label f _ _ _ Lf) in V2; cbn [pass value] in V2; injection V2 as <-; rewrite (L' eq_refl); ring |].
      destruct (agree1 f d a b env NB) as (r1 & E1 & M1); [intros m ->; discriminate |]. rewrite <- (M1 (smooth_meets2 _ _ _ S1)).
      destruct (bk1 f d (arg0 f a) (arg1 f b)) as [| | e1]; cbn [value pass] in *; [discriminate | injection E1 as <-; injection V2 as <-; ring | injection E1 as <-; apply Vb; exact V2].
  - (* Add *) destruct H as (Ha & Hb). destruct (IHa Ha) as (la & Da & Na & Fa & Oa & Va). destruct (IHb Hb) as (lb & Db & Nb & Fb & Ob & Vb).
    exists (la + lb). split; [apply (D_plus (along a env k) (along b env k)); assumption | split; [| split; [| split; [contradiction |]]]].
    + cbn [depends]. intros E. apply orb_false_iff in E. destruct E as (E1 & E2). rewrite (Na E1), (Nb E2). ring.
    + cbn [flat]. intros E. apply andb_true_iff in E. destruct E as (E1 & E2). eapply nearby_imp2; [| exact (Fa E1) | exact (Fb E2)]. intros u Hu Hv. cbv beta in *. unfold along in *. cbn [eval]. rewrite Hu, Hv. reflexivity.
    + intros d r. cbn [back]. destruct (depends (Add a b) k) eqn:Dk.
      2:{ cbn [value]. intros [= <-]. cbn [depends] in Dk. apply orb_false_iff in Dk. destruct Dk as (E1 & E2). rewrite (Na E1), (Nb E2). ring. }
      intros V. apply value_join in V. destruct V as (v1 & v2 & V1 & V2 & ->). rewrite (Va _ _ V1), (Vb _ _ V2). ring.
  - (* Cmp *) destruct H as (Ha & Hb & St). destruct (IHa Ha) as (la & Da & Na & Fa & Oa & Va). destruct (IHb Hb) as (lb & Db & Nb & Fb & Ob & Vb).
    assert (N : nearby (fun u => along (Cmp c a b) env k u = eval (Cmp c a b) env) (env k)).
    { destruct St as [St | [St | (St & ->)]]; [discriminate | |].
      - exact (settled_steady c a b env k la lb Da Db St).
      - destruct a as [| | f a | | | | |]; cbn [off] in St; try contradiction.
        pose proof (Oa St) as Hx.
        eapply nearby_imp; [| exact Hx]. intros u Hu. unfold along. cbn [eval]. change (fwd f (eval a (upd env k u))) with (eval (Un f a) (upd env k u)). change (fwd f (eval a env)) with (eval (Un f a) env). rewrite (off_zero _ _ Hu), (off_zero (Un f a) env St). reflexivity. }
    exists 0. split; [exact (D_steady _ _ _ N) |]. split; [reflexivity |]. split; [intros _; exact N |]. split; [contradiction |]. intros d r. cbn [back]. destruct (depends (Cmp c a b) k); cbn [value]; intros [= <-]; ring.
  - (* Stop *) destruct H as (Ha & St). destruct (IHa Ha) as (la & Da & Na & Fa & Oa & Va). destruct St as [St | St]; [discriminate |]. specialize (Fa St).
    exists 0. split; [exact (D_steady _ _ _ Fa) |]. split; [reflexivity |]. split; [intros _; exact Fa |]. split; [contradiction |]. intros d r. cbn. intros [= <-]. ring.
  - (* Where *) destruct H as (Hc & St & Ha & Hb). destruct (IHc Hc) as (lc & Dc & Nc & Fc & Oc & Vc). destruct (IHa Ha) as (la & Da & Na & Fa & Oa & Va). destruct (IHb Hb) as (lb & Db & Nb & Fb & Ob & Vb). destruct St as [St | St]; [discriminate |]. specialize (Fc St).
    exists (if Req_EM_T (eval c env) 0 then lb else la). split; [| split; [| split; [| split; [contradiction |]]]].
    + destruct (Req_EM_T (eval c env) 0) as [E | E].
      * apply (lim_near _ (along b env k)); [| exact Db]. apply nearby_near. eapply nearby_imp; [| exact Fc]. intros u Hu. unfold along in *. cbn [eval]. rewrite Hu. cases. reflexivity.
      * apply (lim_near _ (along a env k)); [| exact Da]. apply nearby_near. eapply nearby_imp; [| exact Fc]. intros u Hu. unfold along in *. cbn [eval]. rewrite Hu. cases. reflexivity.
    + cbn [depends]. intros E. apply orb_false_iff in E. destruct E as (E1 & E2). apply orb_false_iff in E1. destruct E1 as (E0 & E1). rewrite (Na E1), (Nb E2). cases; reflexivity.
    + cbn [flat]. intros E. rewrite !andb_true_iff in E. destruct E as ((_ & E1) & E2). eapply nearby_imp2; [| exact Fc | exact (nearby_and _ _ _ (Fa E1) (Fb E2))]. intros u Hu (Hv & Hw). unfold along in *. cbn [eval]. rewrite Hu, Hv, Hw. reflexivity.
    + intros d r. cbn [back]. destruct (depends (Where c a b) k) eqn:Dk.
      2:{ cbn [value]. intros [= <-]. cbn [depends] in Dk. apply orb_false_iff in Dk. destruct Dk as (E1 & E2). apply orb_false_iff in E1. destruct E1 as (E0 & E1). rewrite (Na E1), (Nb E2). cases; ring. }
      intros V. apply value_join in V. destruct V as (v1 & v2 & V1 & V2 & ->). rewrite (Va _ _ V1), (Vb _ _ V2). ev. destruct (Req_EM_T (eval c env) 0); ring.
Qed.
