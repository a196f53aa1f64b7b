(** Graphs keep their gradients at numbers nearby; gradients of gradients. *)
From Coq Require Import Reals Ratan ZArith Bool List Lra Lia Psatz.
From Verif Require Import ActModel ActSpec ActProofs1 ActProofs2 ActProofs4 BfModel BfSpec BfProofs1 BfProofs2 BfProofs3 BfProofs4.
Import ListNotations.
Local Open Scope R_scope.

(** * Conditions that hold nearby *)
Lemma nearby_at_only c (P : Prop) x : (x = c -> P) -> nearby (fun u => u = c -> P) x.
Proof.
  intros H. destruct (Req_EM_T x c) as [E | N]; [apply nearby_all; intros u _; apply H, E |].
  eapply nearby_imp; [| apply (D_ne (fun u => u) (fun _ => c) x 1 0 (D_id x) (D_const c x) N)]. intros u Hu E. contradiction.
Qed.
Lemma nearby_ne c x : x <> c -> nearby (fun u => u <> c) x.
Proof. intros H. eapply nearby_imp; [| apply (nearby_at_only c False x H)]. auto. Qed.
Lemma nearby_gt c x : c < x -> nearby (fun u => c < u) x.
Proof. intros H. eapply nearby_imp; [| apply (nearby_lt c (x + 1)); lra]. intros u Hu. lra. Qed.
Lemma domain_open f x : domain f x -> nearby (domain f) x.
Proof.
  destruct f; cbn [domain]; intros H; try (apply nearby_all; intros; exact H); try (apply nearby_lt; exact H); try (apply nearby_gt; exact H); try (apply nearby_ne; exact H); try contradiction.
  - destruct H as [P | (n & E & [N | N])].
    + eapply nearby_imp; [| exact (nearby_gt 0 x P)]. intros u Hu. left. exact Hu.
    + eapply nearby_imp; [| exact (nearby_ne 0 x N)]. intros u Hu. right. exists n. auto.
    + apply nearby_all. intros u. right. exists n. auto.
  - apply (D_ne cos (fun _ => 0) x (- sin x) 0); [apply derivable_pt_lim_cos | apply D_const | exact H].
Qed.
Lemma kink_open f x : ~ kink f x -> nearby (fun u => ~ kink f u) x.
Proof.
  destruct f; cbn [kink]; intros H; try (apply nearby_all; intros; exact H); try (apply nearby_ne; exact H).
  all: try (eapply nearby_imp; [| apply (nearby_at_only 0 (a = 1) x); intros Z; destruct (Req_EM_T a 1); [assumption | exfalso; apply H; auto]]; cbv beta; intros u Hu (Z & N); apply N, Hu, Z).
  all: try (match goal with H : ~ (_ = ?c \/ _ = ?c') |- _ => eapply nearby_imp2; [| apply (nearby_ne c x); intros Z; apply H; auto | apply (nearby_ne c' x); intros Z; apply H; auto] end; cbv beta; intros u A B [Z | Z]; contradiction).
  eapply nearby_imp; [| apply (nearby_at_only 0 (scale = alpha * scale) x); intros Z; destruct (Req_EM_T scale (alpha * scale)); [assumption | exfalso; apply H; auto]]. cbv beta. intros u Hu (Z & N). apply N, Hu, Z.
Qed.
Lemma reach_open m f x : reach m f x -> nearby (reach m f) x.
Proof. destruct f; cbn [reach]; intros H; try (apply nearby_all; intros; exact H); apply nearby_at_only; exact H. Qed.
Lemma smooth_open m f x : smooth (S m) f x -> nearby (smooth (S m) f) x.
Proof. intros (D & K & Q). cbn [smooth]. apply nearby_and; [apply domain_open, D |]. apply nearby_and; [apply kink_open, K | apply reach_open, Q]. Qed.
(** A condition that can only fail where two curves meet. *)
Lemma curves_meet f g x l m (P : Prop) : derivable_pt_lim f x l -> derivable_pt_lim g x m -> (f x = g x -> P) -> nearby (fun u => f u = g u -> P) x.
Proof.
  intros F G H. destruct (Req_EM_T (f x) (g x)) as [E | N]; [apply nearby_all; intros u _; apply H, E |].
  eapply nearby_imp; [| exact (D_ne f g x l m F G N)]. intros u Hu E. contradiction.
Qed.
Lemma abs_meet f x l c (P : Prop) : derivable_pt_lim f x l -> (Rabs (f x) = c -> P) -> nearby (fun u => Rabs (f u) = c -> P) x.
Proof.
  intros F H. destruct (Req_EM_T (Rabs (f x)) c) as [E | N]; [apply nearby_all; intros u _; apply H, E |].
  destruct (Rlt_dec c 0) as [C | C]; [apply nearby_all; intros u E; pose proof (Rabs_pos (f u)); lra |].
  assert (N1 : f x <> c) by (intros E; apply N; rewrite E; apply Rabs_pos_eq; lra). assert (N2 : f x <> - c) by (intros E; apply N; rewrite E, Rabs_Ropp; apply Rabs_pos_eq; lra).
  eapply nearby_imp2; [| exact (D_nearby f x l _ F (nearby_ne c _ N1)) | exact (D_nearby f x l _ F (nearby_ne (- c) _ N2))].
  intros u A B E. exfalso. cbv beta in A, B. revert E. unfold Rabs. destruct (Rcase_abs (f u)); lra.
Qed.
Lemma smooth2_open m f (a b : R -> R) x l l' : derivable_pt_lim a x l -> derivable_pt_lim b x l' -> smooth2 (S m) f (a x) (b x) -> nearby (fun u => smooth2 (S m) f (a u) (b u)) x.
Proof.
  intros A B (D & K). pose proof (D_minus a b x l l' A B) as AB. cbn [smooth2]. apply nearby_and.
  - destruct f; cbn [domain2] in *; try (apply nearby_all; intros; exact D).
    + destruct (Req_EM_T (a x) 0) as [E | N].
      * eapply nearby_imp; [| apply (D_lt (fun _ => 0) b x 0 l' (D_const 0 x) B); destruct (Rlt_dec 0 (b x)); [assumption | exfalso; apply D; split; lra]]. intros u Hu (_ & Z). cbv beta in Hu. lra.
      * eapply nearby_imp; [| apply (D_ne a (fun _ => 0) x l 0 A (D_const 0 x) N)]. intros u Hu (Z & _). contradiction.
    + destruct D as (P & D). assert (Y : nearby (fun u => least < a u - a u * a u) x).
      { eapply (D_lt (fun _ => least) (fun u => a u - a u * a u) x); [apply D_const | apply (D_minus a (fun u => a u * a u)); [exact A | apply (D_mult a a); exact A] | exact K]. }
      eapply nearby_imp; [| exact Y]. intros u Hu. cbv beta in Hu. lra.
    + apply (D_nearby b x l' (fun v => v <> 0) B), nearby_ne, D.
    + apply (D_lt (fun _ => 0) a x 0 l (D_const 0 x) A D).
  - destruct f; try (apply nearby_all; intros; exact I).
    + apply (D_ne a b x l l' A B K).
    + eapply nearby_imp2; [| apply (curves_meet a (fun _ => 0) x l 0 (S m <= 3)%nat A (D_const 0 x)); auto | apply (curves_meet b (fun _ => 0) x l' 0 (S m <= 3)%nat B (D_const 0 x)); auto]. intros u P Q [Z | Z]; auto.
    + eapply (D_lt (fun _ => least) (fun u => a u - a u * a u) x); [apply D_const | apply (D_minus a (fun u => a u * a u)); [exact A | apply (D_mult a a); exact A] | exact K].
    + destruct K as (K1 & K2). apply nearby_and; [exact (abs_meet (fun u => a u - b u) x _ a0 False AB K1) | exact (curves_meet a b x l l' _ A B K2)].
    + destruct K as (K1 & K2). apply nearby_and; [apply nearby_all; intros; exact K1 |].
      eapply nearby_imp2; [| apply (curves_meet a b x l l' (S m <= 1)%nat A B); auto | apply (abs_meet (fun u => a u - b u) x _ a0 (S m <= 1)%nat AB); auto]. intros u P Q [Z | Z]; auto.
    + apply (D_ne a b x l l' A B K).
    + apply (D_ne a b x l l' A B K).
Qed.

(** * Graphs nearby *)
Lemma regular_ext m e env env' : (forall j, env j = env' j) -> regular m e env -> regular m e env'.
Proof.
  intros H. assert (Ev : forall e, eval e env' = eval e env) by (intros e'; apply eval_ext; intros; symmetry; apply H).
  induction e as [j | c | f a IHa | f a IHa b IHb | a IHa b IHb | c a IHa b IHb | a IHa | c IHc a IHa b IHb]; cbn [regular]; rewrite ?Ev; try tauto.
  - intros (A & B & C). split; [auto |]. split; [auto |]. destruct C as [C | [C | (C & D)]]; auto. right. right. split; [| exact D].
    destruct a; cbn [off] in *; try contradiction. destruct f; cbn [off] in *; try contradiction; rewrite Ev; exact C.
  - intros (A & B & C). split; [auto |]. split; [auto |]. destruct m; [destruct (Req_EM_T (eval c env) 0); auto | tauto].
Qed.
Lemma regular_open m e env k : regular (S m) e env -> nearby (fun u => regular (S m) e (upd env k u)) (env k).
Proof.
  assert (Dv : forall e, regular (S m) e env -> exists l, derives e env k l) by (intros e' H'; apply deriv; apply (regular_to_one m); exact H').
  induction e as [j | c | f a IHa | f a IHa b IHb | a IHa b IHb | c a IHa b IHb | a IHa | c IHc a IHa b IHb]; intros H; pose proof H as H0; cbn [regular] in H |- *; try (apply nearby_all; intros; exact I).
  - destruct H as (Ha & Sm). destruct (Dv a Ha) as (l & Da & _). apply nearby_and; [exact (IHa Ha) |]. apply (D_nearby (along a env k) (env k) l (smooth (S m) f) Da). rewrite along_at. apply smooth_open, Sm.
  - destruct H as (Ha & Hb & Sm & Lb). destruct (Dv a Ha) as (l & Da & _). destruct (Dv b Hb) as (l' & Db & _). apply nearby_and; [exact (IHa Ha) |]. apply nearby_and; [exact (IHb Hb) |].
    apply nearby_and; [| apply nearby_all; intros; exact Lb]. apply (smooth2_open m f (along a env k) (along b env k) (env k) l l' Da Db). rewrite !along_at. exact Sm.
  - destruct H as (Ha & Hb). apply nearby_and; [exact (IHa Ha) | exact (IHb Hb)].
  - destruct H as (Ha & Hb & St). destruct (Dv a Ha) as (l & Da & _ & _ & Oa & _). destruct (Dv b Hb) as (l' & Db & _). apply nearby_and; [exact (IHa Ha) |]. apply nearby_and; [exact (IHb Hb) |].
    destruct St as [St | [St | (St & ->)]]; [discriminate | |].
    + eapply nearby_imp; [| apply (D_ne (along a env k) (along b env k) (env k) l l' Da Db); rewrite !along_at; exact St]. intros u Hu. right. left. exact Hu.
    + eapply nearby_imp; [| exact (Oa St)]. intros u Hu. right. right. auto.
  - destruct H as (Ha & St). apply nearby_and; [exact (IHa Ha) | apply nearby_all; intros; exact St].
  - destruct H as (Hc & St & Ha & Hb). apply nearby_and; [exact (IHc Hc) |]. apply nearby_and; [apply nearby_all; intros; exact St |]. apply nearby_and; [exact (IHa Ha) | exact (IHb Hb)].
Qed.

(** * Gradients of gradients *)
Lemma grad_derivative e k env g : regular 1 e env -> grad e k = Some g -> derivable_pt_lim (fun u => eval e (upd env k u)) (env k) (eval g env).
Proof.
  intros H E. destruct (deriv e env k H) as (l & D & _ & _ & _ & V).
  assert (Eg : eval g env = l).
  { unfold grad in E. destruct e; try discriminate; (destruct (back _ (Con 1) k) as [| | x] eqn:Bk; [discriminate | injection E as <-; specialize (V (Con 1) 0); rewrite Bk in V; cbn [eval] in *; rewrite (V eq_refl); ring | injection E as <-; specialize (V (Con 1) (eval x env)); rewrite Bk in V; rewrite (V eq_refl); cbn [eval]; ring]). }
  rewrite Eg. exact D.
Qed.
Lemma grads_regular m e ks env g : regular (length ks + m) e env -> grads e ks = Some g -> regular m g env.
Proof.
  revert m g. induction ks as [| k ks IH]; intros m g H E; cbn [length grads] in *; [injection E as <-; exact H |].
  destruct (grads e ks) as [h |]; [| discriminate]. apply (grad_regular m h k env); [| exact E]. apply IH; [| reflexivity]. replace (length ks + S m)%nat with (S (length ks) + m)%nat by lia. exact H.
Qed.
Lemma grads_partials e ks : forall env g, regular (length ks) e env -> grads e ks = Some g -> partials (eval e) ks env (eval g env).
Proof.
  induction ks as [| k ks IH]; intros env g H E; cbn [grads] in E; [injection E as <-; reflexivity |].
  destruct (grads e ks) as [h |] eqn:Eh; [| discriminate]. cbn [partials]. exists (fun u => eval h (upd env k u)). split.
  - cbn [length] in H. destruct (regular_open _ _ _ k H) as (delta & P & N). exists delta. split; [exact P |]. intros u Hu. apply (IH (upd env k u) h); [| reflexivity]. apply regular_less, N, Hu.
  - apply grad_derivative; [| exact E]. apply (grads_regular 1 e ks env h); [| exact Eh]. replace (length ks + 1)%nat with (S (length ks)) by lia. exact H.
Qed.
