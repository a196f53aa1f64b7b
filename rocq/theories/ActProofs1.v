(** Derivatives of expressions and slopes of functions made of pieces. *)
From Coq Require Import Reals Ratan ZArith Bool Lra Psatz.
From Verif Require Import ActSpec ActModel.
Local Open Scope R_scope.

Lemma D_eq f x l l' : derivable_pt_lim f x l -> l = l' -> derivable_pt_lim f x l'.
Proof. intros H <-. exact H. Qed.
Lemma D_id x : derivable_pt_lim (fun y => y) x 1.
Proof. exact (derivable_pt_lim_id x). Qed.
Lemma D_const c x : derivable_pt_lim (fun _ => c) x 0.
Proof. exact (derivable_pt_lim_const c x). Qed.
Lemma D_plus f g x a b : derivable_pt_lim f x a -> derivable_pt_lim g x b -> derivable_pt_lim (fun y => f y + g y) x (a + b).
Proof. exact (derivable_pt_lim_plus f g x a b). Qed.
Lemma D_minus f g x a b : derivable_pt_lim f x a -> derivable_pt_lim g x b -> derivable_pt_lim (fun y => f y - g y) x (a - b).
Proof. exact (derivable_pt_lim_minus f g x a b). Qed.
Lemma D_opp f x a : derivable_pt_lim f x a -> derivable_pt_lim (fun y => - f y) x (- a).
Proof. exact (derivable_pt_lim_opp f x a). Qed.
Lemma D_mult f g x a b : derivable_pt_lim f x a -> derivable_pt_lim g x b -> derivable_pt_lim (fun y => f y * g y) x (a * g x + f x * b).
Proof. exact (derivable_pt_lim_mult f g x a b). Qed.
Lemma D_div f g x a b : derivable_pt_lim f x a -> derivable_pt_lim g x b -> g x <> 0 -> derivable_pt_lim (fun y => f y / g y) x ((a * g x - b * f x) / Rsqr (g x)).
Proof. intros F G N. exact (derivable_pt_lim_div f g x a b F G N). Qed.
Lemma D_comp f g x a b : derivable_pt_lim f x a -> derivable_pt_lim g (f x) b -> derivable_pt_lim (fun y => g (f y)) x (b * a).
Proof. intros F G. exact (derivable_pt_lim_comp f g x a b F G). Qed.
Lemma D_exp f x a : derivable_pt_lim f x a -> derivable_pt_lim (fun y => exp (f y)) x (exp (f x) * a).
Proof. intros F. exact (D_comp f exp x a _ F (derivable_pt_lim_exp (f x))). Qed.
Lemma D_ln f x a : derivable_pt_lim f x a -> 0 < f x -> derivable_pt_lim (fun y => ln (f y)) x (/ f x * a).
Proof. intros F P. exact (D_comp f ln x a _ F (derivable_pt_lim_ln (f x) P)). Qed.
Lemma D_sin f x a : derivable_pt_lim f x a -> derivable_pt_lim (fun y => sin (f y)) x (cos (f x) * a).
Proof. intros F. exact (D_comp f sin x a _ F (derivable_pt_lim_sin (f x))). Qed.
Lemma D_cos f x a : derivable_pt_lim f x a -> derivable_pt_lim (fun y => cos (f y)) x (- sin (f x) * a).
Proof. intros F. exact (D_comp f cos x a _ F (derivable_pt_lim_cos (f x))). Qed.
Lemma D_sinh f x a : derivable_pt_lim f x a -> derivable_pt_lim (fun y => sinh (f y)) x (cosh (f x) * a).
Proof. intros F. exact (D_comp f sinh x a _ F (derivable_pt_lim_sinh (f x))). Qed.
Lemma D_cosh f x a : derivable_pt_lim f x a -> derivable_pt_lim (fun y => cosh (f y)) x (sinh (f x) * a).
Proof. intros F. exact (D_comp f cosh x a _ F (derivable_pt_lim_cosh (f x))). Qed.
Lemma D_sqrt f x a : derivable_pt_lim f x a -> 0 < f x -> derivable_pt_lim (fun y => sqrt (f y)) x (/ (2 * sqrt (f x)) * a).
Proof. intros F P. exact (D_comp f sqrt x a _ F (derivable_pt_lim_sqrt (f x) P)). Qed.
Lemma D_atan f x a : derivable_pt_lim f x a -> derivable_pt_lim (fun y => atan (f y)) x (/ (1 + f x ^ 2) * a).
Proof. intros F. exact (D_comp f atan x a _ F (derivable_pt_lim_atan (f x))). Qed.
Lemma D_pow f x a n : derivable_pt_lim f x a -> derivable_pt_lim (fun y => f y ^ n) x (INR n * f x ^ pred n * a).
Proof. intros F. exact (D_comp f (fun y => y ^ n) x a _ F (derivable_pt_lim_pow (f x) n)). Qed.

Lemma cosh_pos x : 0 < cosh x.
Proof. unfold cosh. pose proof (exp_pos x). pose proof (exp_pos (- x)). lra. Qed.
Lemma cosh_sinh x : cosh x * cosh x - sinh x * sinh x = 1.
Proof. unfold cosh, sinh. replace (_ - _) with (exp x * exp (- x)) by field. rewrite <- exp_plus. replace (x + - x) with 0 by ring. apply exp_0. Qed.
Lemma D_tanh f x a : derivable_pt_lim f x a -> derivable_pt_lim (fun y => tanh (f y)) x ((1 - tanh (f x) * tanh (f x)) * a).
Proof.
  intros F. apply (D_comp f tanh x a _ F). unfold tanh at 1. pose proof (cosh_pos (f x)).
  eapply D_eq; [apply (D_div sinh cosh); [apply derivable_pt_lim_sinh | apply derivable_pt_lim_cosh | lra] |].
  unfold tanh, Rsqr. field. lra.
Qed.
Lemma D_tan f x a : derivable_pt_lim f x a -> cos (f x) <> 0 -> derivable_pt_lim (fun y => tan (f y)) x (1 / (cos (f x) * cos (f x)) * a).
Proof.
  intros F N. apply (D_comp f tan x a _ F). unfold tan at 1.
  eapply D_eq; [apply (D_div sin cos); [apply derivable_pt_lim_sin | apply derivable_pt_lim_cos | exact N] |].
  unfold Rsqr. replace (cos (f x) * cos (f x) - - sin (f x) * sin (f x)) with 1; [reflexivity |]. pose proof (sin2_cos2 (f x)) as K. unfold Rsqr in K. lra.
Qed.

(** Derivatives of expressions; what is left are conditions and the comparison of results. *)
Ltac dlim :=
  match goal with
  | |- derivable_pt_lim (fun _ => ?c) _ _ => apply D_const
  | |- derivable_pt_lim (fun y => y) _ _ => apply D_id
  | |- derivable_pt_lim (fun y => @?f y + @?g y) _ _ => eapply (D_plus f g); dlim
  | |- derivable_pt_lim (fun y => @?f y - @?g y) _ _ => eapply (D_minus f g); dlim
  | |- derivable_pt_lim (fun y => - @?f y) _ _ => eapply (D_opp f); dlim
  | |- derivable_pt_lim (fun y => @?f y * @?g y) _ _ => eapply (D_mult f g); dlim
  | |- derivable_pt_lim (fun y => @?f y / @?g y) _ _ => eapply (D_div f g); [dlim | dlim | cbv beta]
  | |- derivable_pt_lim (fun y => exp (@?f y)) _ _ => eapply (D_exp f); dlim
  | |- derivable_pt_lim (fun y => ln (@?f y)) _ _ => eapply (D_ln f); [dlim | cbv beta]
  | |- derivable_pt_lim (fun y => sin (@?f y)) _ _ => eapply (D_sin f); dlim
  | |- derivable_pt_lim (fun y => cos (@?f y)) _ _ => eapply (D_cos f); dlim
  | |- derivable_pt_lim (fun y => sinh (@?f y)) _ _ => eapply (D_sinh f); dlim
  | |- derivable_pt_lim (fun y => cosh (@?f y)) _ _ => eapply (D_cosh f); dlim
  | |- derivable_pt_lim (fun y => tanh (@?f y)) _ _ => eapply (D_tanh f); dlim
  | |- derivable_pt_lim (fun y => tan (@?f y)) _ _ => eapply (D_tan f); [dlim | cbv beta]
  | |- derivable_pt_lim (fun y => atan (@?f y)) _ _ => eapply (D_atan f); dlim
  | |- derivable_pt_lim (fun y => sqrt (@?f y)) _ _ => eapply (D_sqrt f); [dlim | cbv beta]
  | |- derivable_pt_lim (fun y => @?f y ^ ?n) _ _ => eapply (D_pow f); dlim
  end.
Ltac derive := eapply D_eq; [dlim |]; cbv beta.

(** * Pieces *)
Lemma lim_right f x l : derivable_pt_lim f x l -> right_slope f x l.
Proof.
  intros D eps P. destruct (D eps P) as ((d & Hd) & H). exists d. split; [exact Hd |]. intros h Hh. apply H; [lra |]. cbn. rewrite Rabs_pos_eq; lra.
Qed.
Lemma lim_left f x l : derivable_pt_lim f x l -> left_slope f x l.
Proof.
  intros D eps P. destruct (D eps P) as ((d & Hd) & H). exists d. split; [exact Hd |]. intros h Hh. specialize (H (- h)). replace ((f x - f (x - h)) / h) with ((f (x + - h) - f x) / - h) by (unfold Rminus; field; lra).
  apply H; [lra |]. cbn. rewrite Rabs_Ropp, Rabs_pos_eq; lra.
Qed.
(** [f] is [g] on the right of [x], and [k] on the left. *)
Definition right_of (f g : R -> R) (x : R) : Prop := exists d, 0 < d /\ forall y, x <= y < x + d -> f y = g y.
Definition left_of (f g : R -> R) (x : R) : Prop := exists d, 0 < d /\ forall y, x - d < y <= x -> f y = g y.
Lemma right_ext f g x r : right_of f g x -> right_slope g x r -> right_slope f x r.
Proof.
  intros (d & Hd & E) G eps P. destruct (G eps P) as (d' & Hd' & H). exists (Rmin d d'). split; [apply Rmin_pos; assumption |].
  intros h Hh. pose proof (Rmin_l d d'). pose proof (Rmin_r d d'). rewrite !E by lra. apply H. lra.
Qed.
Lemma left_ext f g x r : left_of f g x -> left_slope g x r -> left_slope f x r.
Proof.
  intros (d & Hd & E) G eps P. destruct (G eps P) as (d' & Hd' & H). exists (Rmin d d'). split; [apply Rmin_pos; assumption |].
  intros h Hh. pose proof (Rmin_l d d'). pose proof (Rmin_r d d'). rewrite !E by lra. apply H. lra.
Qed.
Lemma both_slopes f x l : left_slope f x l -> right_slope f x l -> derivable_pt_lim f x l.
Proof.
  intros L Rr eps P. destruct (L eps P) as (d & Hd & HL). destruct (Rr eps P) as (d' & Hd' & HR).
  assert (M : 0 < Rmin d d') by (apply Rmin_pos; assumption). exists (mkposreal _ M). intros h N Hh. cbn in Hh. pose proof (Rmin_l d d'). pose proof (Rmin_r d d').
  destruct (Rtotal_order h 0) as [Q | [Q | Q]]; [| lra |].
  - rewrite Rabs_left in Hh by exact Q. specialize (HL (- h)). replace ((f x - f (x - - h)) / - h) with ((f (x + h) - f x) / h) in HL by (replace (x - - h) with (x + h) by ring; field; lra). apply HL. lra.
  - rewrite Rabs_pos_eq in Hh by lra. apply HR. lra.
Qed.
Lemma pieces f g k x l r : left_of f k x -> right_of f g x -> derivable_pt_lim k x l -> derivable_pt_lim g x r -> left_slope f x l /\ right_slope f x r.
Proof. intros A B K G. split; [eapply left_ext; [exact A | apply lim_left; exact K] | eapply right_ext; [exact B | apply lim_right; exact G]]. Qed.
Lemma slope_lim f x g : derivable_pt_lim f x g -> slope f x g.
Proof. intros D. exists g, g. split; [apply lim_left; exact D |]. split; [apply lim_right; exact D |]. rewrite Rmin_left, Rmax_left; lra. Qed.
(** The slope is one of those of the two pieces, or between. *)
Lemma slope_pieces f k g x l r m : left_of f k x -> right_of f g x -> derivable_pt_lim k x l -> derivable_pt_lim g x r -> (l <= m <= r \/ r <= m <= l) -> slope f x m.
Proof.
  intros A B K G M. destruct (pieces f g k x l r A B K G) as (SL & SR). exists l, r. split; [exact SL |]. split; [exact SR |].
  pose proof (Rmin_l l r). pose proof (Rmin_r l r). pose proof (Rmax_l l r). pose proof (Rmax_r l r). lra.
Qed.
Lemma lim_pieces f k g x l : left_of f k x -> right_of f g x -> derivable_pt_lim k x l -> derivable_pt_lim g x l -> derivable_pt_lim f x l.
Proof. intros A B K G. destruct (pieces f g k x l l A B K G). apply both_slopes; assumption. Qed.
(** [f] is [g] near [x]. *)
Definition near (f g : R -> R) (x : R) : Prop := exists d, 0 < d /\ forall y, x - d < y < x + d -> f y = g y.
Lemma near_sides f g x : near f g x -> left_of f g x /\ right_of f g x.
Proof. intros (d & Hd & E). split; exists d; (split; [exact Hd |]); intros y Hy; apply E; lra. Qed.
Lemma lim_near f g x l : near f g x -> derivable_pt_lim g x l -> derivable_pt_lim f x l.
Proof. intros N D. destruct (near_sides f g x N). eapply lim_pieces; eassumption. Qed.
Lemma near_above f g a x : a < x -> (forall y, a < y -> f y = g y) -> near f g x.
Proof. intros H E. exists (x - a). split; [lra |]. intros y Hy. apply E. lra. Qed.
Lemma near_below f g b x : x < b -> (forall y, y < b -> f y = g y) -> near f g x.
Proof. intros H E. exists (b - x). split; [lra |]. intros y Hy. apply E. lra. Qed.
Lemma near_between f g a b x : a < x < b -> (forall y, a < y < b -> f y = g y) -> near f g x.
Proof.
  intros H E. exists (Rmin (x - a) (b - x)). split; [apply Rmin_pos; lra |]. intros y Hy. apply E. pose proof (Rmin_l (x - a) (b - x)). pose proof (Rmin_r (x - a) (b - x)). lra.
Qed.
Lemma left_always f g x : (forall y, y <= x -> f y = g y) -> left_of f g x.
Proof. intros E. exists 1. split; [lra |]. intros y Hy. apply E. lra. Qed.
Lemma right_always f g x : (forall y, x <= y -> f y = g y) -> right_of f g x.
Proof. intros E. exists 1. split; [lra |]. intros y Hy. apply E. lra. Qed.
