(** The derivatives of the functions of one number. *)
From Coq Require Import Reals Ratan ZArith Bool Lra Lia Psatz.
From Verif Require Import ActSpec ActModel ActProofs1.
Local Open Scope R_scope.

(** Decide every comparison of the goal. *)
Ltac plain t := match t with context [if _ then _ else _] => fail 1 | _ => idtac end.
Ltac cases :=
  repeat match goal with
  | |- context [Rlt_dec ?a ?b] => plain a; plain b; destruct (Rlt_dec a b); try (exfalso; lra)
  | |- context [Rle_dec ?a ?b] => plain a; plain b; destruct (Rle_dec a b); try (exfalso; lra)
  | |- context [Req_EM_T ?a ?b] => plain a; plain b; destruct (Req_EM_T a b); try (exfalso; lra)
  end.
(** What the gradient should be, at a point with a derivative. *)
Definition good (f : act) (x : R) : Prop := exists g, derivable_pt_lim (fwd f) x g /\ forall dy, bwd f dy x (fwd f x) = dy * g.
Lemma good_at f x g : derivable_pt_lim (fwd f) x g -> (forall dy, bwd f dy x (fwd f x) = dy * g) -> good f x.
Proof. intros D B. exists g. auto. Qed.

(** ** Powers *)
Lemma Int_part_IZR n : Int_part (IZR n) = n.
Proof.
  symmetry. destruct (base_Int_part (IZR n)) as (A & B). apply le_IZR in A. assert (IZR n < IZR (Int_part (IZR n) + 1)) by (rewrite plus_IZR; lra). apply lt_IZR in H. lia.
Qed.
Lemma Rpower_Z x n : 0 < x -> Rpower x (IZR n) = powerRZ x n.
Proof. intros P. symmetry. apply powerRZ_Rpower. exact P. Qed.
Lemma cpow_int x n : cpow x (IZR n) = powerRZ x n.
Proof.
  unfold cpow. destruct (Rlt_dec 0 x) as [P | N]; [apply Rpower_Z; exact P |]. rewrite Int_part_IZR. destruct (Req_EM_T (IZR n) (IZR n)); [reflexivity | contradiction].
Qed.
Lemma powerRZ_nat x n : powerRZ x (Z.of_nat n) = x ^ n.
Proof. symmetry. apply pow_powerRZ. Qed.
Lemma powerRZ_neg_nat x n : powerRZ x (- Z.of_nat n) = / x ^ n.
Proof. destruct n as [| n]; [cbn; symmetry; apply Rinv_1 |]. change (- Z.of_nat (S n))%Z with (Z.neg (Pos.of_succ_nat n)). cbn [powerRZ]. rewrite SuccNat2Pos.id_succ. reflexivity. Qed.
Lemma D_powerRZ x n : x <> 0 \/ (1 <= n)%Z -> derivable_pt_lim (fun y => powerRZ y n) x (IZR n * powerRZ x (n - 1)).
Proof.
  intros H. destruct (Z_le_gt_dec 0 n) as [P | N].
  - rewrite <- (Z2Nat.id n P). destruct (Z.to_nat n) as [| k] eqn:E.
    + cbn [Z.of_nat powerRZ]. rewrite Rmult_0_l. apply D_const.
    + apply (D_eq _ _ (INR (S k) * x ^ pred (S k))); [| rewrite <- INR_IZR_INZ; replace (Z.of_nat (S k) - 1)%Z with (Z.of_nat k) by lia; rewrite powerRZ_nat; reflexivity].
      intros eps Heps. destruct (derivable_pt_lim_pow x (S k) eps Heps) as (d & Hd). exists d. intros h Nh Hh. rewrite !powerRZ_nat. apply Hd; assumption.
  - assert (X : x <> 0) by (destruct H; [assumption | lia]). assert (Q : n = (- Z.of_nat (S (Z.to_nat (- n) - 1)))%Z) by lia. remember (Z.to_nat (- n) - 1)%nat as k. rewrite Q.
    assert (X1 : x ^ S k <> 0) by (apply pow_nonzero; exact X).
    apply (D_eq _ _ ((0 * x ^ S k - INR (S k) * x ^ pred (S k) * 1 * 1) / Rsqr (x ^ S k))).
    + assert (F : derivable_pt_lim (fun y => 1 / y ^ S k) x ((0 * x ^ S k - INR (S k) * x ^ pred (S k) * 1 * 1) / Rsqr (x ^ S k))).
      { apply (D_div (fun _ => 1) (fun y => y ^ S k)); [apply D_const | | exact X1]. apply (D_pow (fun y => y) x 1 (S k)). apply D_id. }
      intros eps Heps. destruct (F eps Heps) as (d & Hd). exists d. intros h Nh Hh. rewrite !powerRZ_neg_nat. specialize (Hd h Nh Hh). unfold Rdiv in Hd at 2 3. rewrite !Rmult_1_l in Hd. exact Hd.
    + replace (- Z.of_nat (S k) - 1)%Z with (- Z.of_nat (S (S k)))%Z by lia. rewrite powerRZ_neg_nat, opp_IZR, <- INR_IZR_INZ. unfold Rsqr. cbn [pred pow]. field. split; [apply pow_nonzero; exact X | exact X].
Qed.
Lemma near_ext f g x l : (forall y, f y = g y) -> derivable_pt_lim g x l -> derivable_pt_lim f x l.
Proof. intros E D. apply (lim_near f g); [| exact D]. exists 1. split; [lra |]. intros y _. apply E. Qed.
Lemma cpow_pos x a : 0 < x -> cpow x a = Rpower x a.
Proof. intros P. unfold cpow. destruct (Rlt_dec 0 x); [reflexivity | contradiction]. Qed.
Lemma D_cpow_pos x a : 0 < x -> derivable_pt_lim (fun y => cpow y a) x (a * cpow x (a - 1)).
Proof.
  intros P. apply (lim_near _ (fun y => Rpower y a)); [| rewrite cpow_pos by exact P; apply derivable_pt_lim_power; exact P].
  apply (near_above _ _ 0); [exact P |]. intros y Hy. apply cpow_pos. exact Hy.
Qed.
Lemma D_cpow_int x n : x <> 0 \/ (1 <= n)%Z -> derivable_pt_lim (fun y => cpow y (IZR n)) x (IZR n * cpow x (IZR n - 1)).
Proof. intros H. apply (near_ext _ (fun y => powerRZ y n)); [intros y; apply cpow_int |]. rewrite <- minus_IZR, cpow_int. apply D_powerRZ. exact H. Qed.

(** ** sin x / x *)
Lemma sin_low x : 0 <= x -> x <= PI -> x - x ^ 3 / 6 <= sin x.
Proof.
  intros A B. destruct (sin_bound x 0 A B) as (H & _). cbn in H. unfold sin_approx in H. cbn [sum_f_R0 sin_term] in H. unfold sin_term in H. cbn in H. lra.
Qed.
Lemma sin_cubic h : 0 < h -> h <= PI -> Rabs (sin h - h) <= h ^ 3 / 6.
Proof. intros P Q. pose proof (sin_low h ltac:(lra) Q). pose proof (sin_lt_x h P). rewrite Rabs_left by lra. lra. Qed.
Lemma sinc_zero : derivable_pt_lim (fwd Sinc) 0 0.
Proof.
  intros eps P. assert (PP : 3 < PI) by (pose proof PI2_3_2; lra).
  assert (M : 0 < Rmin 1 eps) by (apply Rmin_pos; lra). exists (mkposreal _ M). intros h N Hh. cbn in Hh. pose proof (Rmin_l 1 eps). pose proof (Rmin_r 1 eps).
  cbn [fwd]. rewrite Rplus_0_l. destruct (Req_EM_T h 0); [contradiction |]. destruct (Req_EM_T 0 0); [| contradiction].
  replace ((sin h / h - 1) / h - 0) with ((sin h - h) / (h * h)) by (field; exact N).
  assert (B : Rabs (sin h - h) <= Rabs h ^ 3 / 6).
  { destruct (Rtotal_order h 0) as [Q | [Q | Q]]; [| lra |].
    - rewrite (Rabs_left h) in * by exact Q. replace (sin h - h) with (- (sin (- h) - - h)) by (rewrite sin_neg; ring). rewrite Rabs_Ropp. apply sin_cubic; lra.
    - rewrite (Rabs_pos_eq h) in * by lra. apply sin_cubic; lra. }
  assert (HP : 0 < Rabs h) by (apply Rabs_pos_lt; exact N). unfold Rdiv. rewrite Rabs_mult, Rabs_inv, Rabs_mult.
  apply (Rle_lt_trans _ (Rabs h ^ 3 / 6 * / (Rabs h * Rabs h))); [apply Rmult_le_compat_r; [left; apply Rinv_0_lt_compat; apply Rmult_lt_0_compat; exact HP | exact B] |].
  replace (Rabs h ^ 3 / 6 * / (Rabs h * Rabs h)) with (Rabs h / 6) by (field; lra). lra.
Qed.
