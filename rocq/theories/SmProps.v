(** Softmax (C73), losses of labels (C74), rectifiers with parameters (C75). *)
From Coq Require Import List ZArith Lia Bool Reals Lra.
From Verif Require Import NdSpec IdxModel IdxSpec JoinSpec ScanModel ActSpec SmSpec SmModel.
From Verif Require NdProofs ActProofs1 ActProofs2 ActProofs4 SmProofs1 SmProofs2 SmProofs3 SmProofs4 SmProofs5.
Import ListNotations.
Local Open Scope list_scope.
Local Open Scope Z_scope.

Definition pos (s : list Z) : Prop := Forall (fun n => 0 < n) s.
(** The sum of the exponentials of the elements along the axis. *)
Definition expsum (x : list R) (A : list Z) (n : Z) (B p r : list Z) : R := rsum n (fun k => exp (relem x (A ++ n :: B) (p ++ k :: r))).

(** * C73 *)
(** Softmax: exponentials divided by their sum along the axis. *)
Theorem C73_softmax_partial : forall A B n axis x y0, pos A -> 0 < n -> pos B -> denotes axis (length A) (length (A ++ n :: B)) ->
  Z.of_nat (length x) = size (A ++ n :: B) -> Z.of_nat (length y0) = size (A ++ n :: B) ->
  exists y, softmax_forward axis (A ++ n :: B) x y0 = Some y /\ length y = length y0 /\
  forall p k r, inside p A -> 0 <= k < n -> inside r B ->
    relem y (A ++ n :: B) (p ++ k :: r) = (exp (relem x (A ++ n :: B) (p ++ k :: r)) / expsum x A n B p r)%R.
Proof. intros. apply SmProofs5.softmax_values; auto. Qed.
(** LogSoftmax: its logarithm. *)
Theorem C73_log_softmax_partial : forall A B n axis x y0, pos A -> 0 < n -> pos B -> denotes axis (length A) (length (A ++ n :: B)) ->
  Z.of_nat (length x) = size (A ++ n :: B) -> Z.of_nat (length y0) = size (A ++ n :: B) ->
  exists y, log_softmax_forward axis (A ++ n :: B) x y0 = Some y /\ length y = length y0 /\
  forall p k r, inside p A -> 0 <= k < n -> inside r B ->
    relem y (A ++ n :: B) (p ++ k :: r) = ln (exp (relem x (A ++ n :: B) (p ++ k :: r)) / expsum x A n B p r).
Proof.
  intros A B n axis x y0 PA Pn PB D Lx Ly. destruct (SmProofs5.log_softmax_values A B n PA Pn PB axis D x y0 Lx Ly) as (y & E & L & V). exists y. split; [exact E |]. split; [exact L |].
  intros p k r Hp Hk Hr. rewrite V by assumption. unfold Rdiv. assert (0 < expsum x A n B p r)%R by (apply SmProofs1.rsum_pos; [exact Pn |]; intros; apply exp_pos).
  rewrite ln_mult, ln_Rinv, ln_exp; [reflexivity | assumption | apply exp_pos | apply Rinv_0_lt_compat; assumption].
Qed.
(** The outputs are positive and sum to 1 along the axis. *)
Theorem C73_distribution : forall A B n axis x y0 y, pos A -> 0 < n -> pos B -> denotes axis (length A) (length (A ++ n :: B)) ->
  Z.of_nat (length x) = size (A ++ n :: B) -> Z.of_nat (length y0) = size (A ++ n :: B) ->
  softmax_forward axis (A ++ n :: B) x y0 = Some y -> forall p r, inside p A -> inside r B ->
  (forall k, 0 <= k < n -> (0 < relem y (A ++ n :: B) (p ++ k :: r))%R) /\ rsum n (fun k => relem y (A ++ n :: B) (p ++ k :: r)) = 1%R.
Proof.
  intros A B n axis x y0 y PA Pn PB D Lx Ly F p r Hp Hr. destruct (C73_softmax_partial A B n axis x y0 PA Pn PB D Lx Ly) as (y' & E & L & V). rewrite F in E. injection E as <-.
  assert (P : (0 < expsum x A n B p r)%R) by (apply SmProofs1.rsum_pos; [exact Pn |]; intros; apply exp_pos). split.
  - intros k Hk. rewrite V by assumption. apply Rdiv_lt_0_compat; [apply exp_pos | exact P].
  - rewrite (SmProofs1.rsum_ext n _ (fun k => exp (relem x (A ++ n :: B) (p ++ k :: r)) * / expsum x A n B p r)%R) by (intros; apply V; assumption).
    rewrite SmProofs1.rsum_scale_r. fold (expsum x A n B p r). apply Rinv_r. lra.
Qed.
(** Adding a number to all elements along the axis changes nothing. *)
Theorem C73_shift : forall A B n axis x x' c y0 y, pos A -> 0 < n -> pos B -> denotes axis (length A) (length (A ++ n :: B)) ->
  Z.of_nat (length x) = size (A ++ n :: B) -> Z.of_nat (length x') = size (A ++ n :: B) -> Z.of_nat (length y0) = size (A ++ n :: B) ->
  (forall p k r, inside p A -> 0 <= k < n -> inside r B -> relem x' (A ++ n :: B) (p ++ k :: r) = (relem x (A ++ n :: B) (p ++ k :: r) + c p r)%R) ->
  softmax_forward axis (A ++ n :: B) x y0 = Some y ->
  exists y', softmax_forward axis (A ++ n :: B) x' y0 = Some y' /\
  forall p k r, inside p A -> 0 <= k < n -> inside r B -> relem y' (A ++ n :: B) (p ++ k :: r) = relem y (A ++ n :: B) (p ++ k :: r).
Proof.
  intros A B n axis x x' c y0 y PA Pn PB D Lx Lx' Ly C F. destruct (C73_softmax_partial A B n axis x y0 PA Pn PB D Lx Ly) as (y1 & E & _ & V). rewrite F in E. injection E as <-.
  destruct (C73_softmax_partial A B n axis x' y0 PA Pn PB D Lx' Ly) as (y' & E' & _ & V'). exists y'. split; [exact E' |]. intros p k r Hp Hk Hr. rewrite V, V', C by assumption.
  assert (P : (0 < expsum x A n B p r)%R) by (apply SmProofs1.rsum_pos; [exact Pn |]; intros; apply exp_pos).
  assert (ES : expsum x' A n B p r = (expsum x A n B p r * exp (c p r))%R). { unfold expsum. rewrite <- SmProofs1.rsum_scale_r. apply SmProofs1.rsum_ext. intros j Hj. rewrite C by assumption. apply exp_plus. }
  rewrite ES, exp_plus. pose proof (exp_pos (c p r)). field. split; lra.
Qed.
(** What is subtracted before exponentials are taken is the largest element along the axis: none
    of the exponents is positive. *)
Theorem C73_maximum : forall A B n x p r, 0 < n -> Z.of_nat (length x) = size (A ++ n :: B) -> inside p A -> inside r B ->
  exists m, line_max n (size B) x (position 0 (p ++ 0 :: r) (A ++ n :: B)) = Some m /\
  (forall k, 0 <= k < n -> (relem x (A ++ n :: B) (p ++ k :: r) <= m)%R) /\ exists k, 0 <= k < n /\ relem x (A ++ n :: B) (p ++ k :: r) = m.
Proof. intros. apply SmProofs5.max_values; auto. Qed.
(** The backward passes compute the derivatives from the outputs. *)
Theorem C73_softmax_gradient_partial : forall A B n axis x y0, pos A -> 0 < n -> pos B -> denotes axis (length A) (length (A ++ n :: B)) ->
  Z.of_nat (length x) = size (A ++ n :: B) -> Z.of_nat (length y0) = size (A ++ n :: B) ->
  rgradient (size (A ++ n :: B)) (size (A ++ n :: B)) (softmax_forward axis (A ++ n :: B))
    (fun accum dy dx => obind (softmax_forward axis (A ++ n :: B) x y0) (fun y => softmax_backward axis (A ++ n :: B) accum y dy dx)) x.
Proof. intros. apply SmProofs5.softmax_grad; auto. Qed.
Theorem C73_log_softmax_gradient_partial : forall A B n axis x y0, pos A -> 0 < n -> pos B -> denotes axis (length A) (length (A ++ n :: B)) ->
  Z.of_nat (length x) = size (A ++ n :: B) -> Z.of_nat (length y0) = size (A ++ n :: B) ->
  rgradient (size (A ++ n :: B)) (size (A ++ n :: B)) (log_softmax_forward axis (A ++ n :: B))
    (fun accum dy dx => obind (log_softmax_forward axis (A ++ n :: B) x y0) (fun y => log_softmax_backward axis (A ++ n :: B) accum y dy dx)) x.
Proof. intros. apply SmProofs5.log_softmax_grad; auto. Qed.
Example C73_softmax_ex : exists y, softmax_forward (-1) [1; 2] [0; ln 3]%R [7; 7]%R = Some y /\ nth 0 y 0%R = (1 / 4)%R /\ nth 1 y 0%R = (3 / 4)%R.
Proof.
  destruct (C73_softmax_partial [1] [] 2 (-1) [0; ln 3]%R [7; 7]%R) as (y & E & L & V); [repeat constructor | lia | constructor | right; reflexivity | reflexivity | reflexivity |].
  exists y. split; [exact E |].
  assert (I : inside [0] [1]) by (constructor; [lia | constructor]).
  assert (R0 : relem [0; ln 3]%R ([1] ++ 2 :: []) ([0] ++ 0 :: []) = 0%R) by reflexivity. assert (R1 : relem [0; ln 3]%R ([1] ++ 2 :: []) ([0] ++ 1 :: []) = ln 3) by reflexivity.
  assert (S : expsum [0; ln 3]%R [1] 2 [] [0] [] = 4%R).
  { unfold expsum. rewrite (SmProofs1.rsum_S 1), (SmProofs1.rsum_S 0), SmProofs1.rsum_0 by lia. rewrite R0. change (0 + 1) with 1. rewrite R1, exp_0, exp_ln; lra. }
  pose proof (V [0] 0 [] I ltac:(lia) ltac:(constructor)) as V0. pose proof (V [0] 1 [] I ltac:(lia) ltac:(constructor)) as V1. rewrite S, R0, exp_0 in V0. rewrite S, R1, exp_ln in V1 by lra. split; assumption.
Qed.
(** An array without elements makes the setup divide by zero. *)
Theorem C73_empty_refuted : exists axis shape, - Z.of_nat (length shape) <= axis < Z.of_nat (length shape) /\ Forall (fun n => 0 <= n) shape /\
  softmax_forward axis shape [] [] = None /\ log_softmax_forward axis shape [] [] = None.
Proof. exists 1, [0; 3]. split; [cbn; lia |]. split; [repeat constructor; lia |]. split; reflexivity. Qed.

(** * C74 *)
(** SoftmaxCrossEntropy: minus the logarithm of the softmax at the label; nothing where the label
    is negative. *)
Theorem C74_softmax_cross_entropy_partial : forall A B n axis l x buf y0, pos A -> 0 < n -> pos B -> denotes axis (length A) (length (A ++ n :: B)) ->
  Z.of_nat (length l) = size (A ++ 1 :: B) -> Forall (fun t => t < n) l ->
  Z.of_nat (length x) = size (A ++ n :: B) -> Z.of_nat (length buf) = size (A ++ n :: B) -> Z.of_nat (length y0) = size (A ++ 1 :: B) ->
  exists y lp, sce_forward axis (A ++ n :: B) (A ++ 1 :: B) x l buf y0 = Some (y, lp) /\ length y = length y0 /\
  forall p r, inside p A -> inside r B -> let t := elem l (A ++ 1 :: B) (p ++ 0 :: r) in
    relem y (A ++ 1 :: B) (p ++ 0 :: r) = if t <? 0 then 0%R else (- ln (exp (relem x (A ++ n :: B) (p ++ t :: r)) / expsum x A n B p r))%R.
Proof.
  intros A B n axis l x buf y0 PA Pn PB D Ll RG Lx Lb Ly. destruct (SmProofs5.sce_values A B n PA Pn PB axis D l Ll RG x buf y0 Lx Lb Ly) as (y & lp & E & L & V). exists y, lp. split; [exact E |]. split; [exact L |].
  intros p r Hp Hr. cbv zeta. rewrite V by assumption. destruct (_ <? 0); [reflexivity |]. unfold Rdiv. assert (0 < expsum x A n B p r)%R by (apply SmProofs1.rsum_pos; [exact Pn |]; intros; apply exp_pos).
  rewrite ln_mult, ln_Rinv, ln_exp; [unfold expsum; ring | assumption | apply exp_pos | apply Rinv_0_lt_compat; assumption].
Qed.
Theorem C74_softmax_cross_entropy_gradient_partial : forall A B n axis l x buf y0, pos A -> 0 < n -> pos B -> denotes axis (length A) (length (A ++ n :: B)) ->
  Z.of_nat (length l) = size (A ++ 1 :: B) -> Forall (fun t => t < n) l ->
  Z.of_nat (length x) = size (A ++ n :: B) -> Z.of_nat (length buf) = size (A ++ n :: B) -> Z.of_nat (length y0) = size (A ++ 1 :: B) ->
  rgradient (size (A ++ n :: B)) (size (A ++ 1 :: B)) (fun x y => option_map fst (sce_forward axis (A ++ n :: B) (A ++ 1 :: B) x l buf y))
    (fun accum dy dx => obind (sce_forward axis (A ++ n :: B) (A ++ 1 :: B) x l buf y0) (fun '(_, log_p) => sce_backward axis (A ++ n :: B) (A ++ 1 :: B) accum log_p l dy dx)) x.
Proof. intros. apply SmProofs5.sce_grad; auto. Qed.
(** CategoricalCrossEntropy: the same with probabilities, which are cut off at [least]. *)
Theorem C74_categorical_cross_entropy_partial : forall A B n axis l least x y0, pos A -> 0 < n -> pos B -> denotes axis (length A) (length (A ++ n :: B)) ->
  Z.of_nat (length l) = size (A ++ 1 :: B) -> Forall (fun t => t < n) l ->
  Z.of_nat (length x) = size (A ++ n :: B) -> Z.of_nat (length y0) = size (A ++ 1 :: B) ->
  exists y, cce_forward least axis (A ++ n :: B) (A ++ 1 :: B) x l y0 = Some y /\ length y = length y0 /\
  forall p r, inside p A -> inside r B -> let t := elem l (A ++ 1 :: B) (p ++ 0 :: r) in
    relem y (A ++ 1 :: B) (p ++ 0 :: r) = if t <? 0 then 0%R else (- ln (Rmax (relem x (A ++ n :: B) (p ++ t :: r)) least))%R.
Proof. intros. apply SmProofs5.cce_values; auto. Qed.
(** The gradient is right where no probability of a label is cut off. *)
Theorem C74_categorical_cross_entropy_gradient_partial : forall A B n axis l least x, pos A -> 0 < n -> pos B -> denotes axis (length A) (length (A ++ n :: B)) ->
  Z.of_nat (length l) = size (A ++ 1 :: B) -> Forall (fun t => t < n) l -> (0 < least)%R -> Z.of_nat (length x) = size (A ++ n :: B) ->
  (forall p r, inside p A -> inside r B -> let t := elem l (A ++ 1 :: B) (p ++ 0 :: r) in 0 <= t -> (least <= relem x (A ++ n :: B) (p ++ t :: r))%R) ->
  rgradient (size (A ++ n :: B)) (size (A ++ 1 :: B)) (fun x y => cce_forward least axis (A ++ n :: B) (A ++ 1 :: B) x l y)
    (fun accum dy dx => cce_backward least axis (A ++ n :: B) (A ++ 1 :: B) accum x l dy dx) x.
Proof. intros. apply SmProofs5.cce_grad; auto. Qed.
Example C74_label_ex : (exists y, cce_forward (1 / 1000) 1 [2; 2] [2; 1] [1; 1 / 2; 1 / 4; 3 / 4]%R [1; -1] [7; 7]%R = Some y /\ nth 0 y 0%R = (- ln (1 / 2))%R /\ nth 1 y 0%R = 0%R) /\
  exists dx, cce_backward (1 / 1000) 1 [2; 2] [2; 1] false [1; 1 / 2; 1 / 4; 3 / 4]%R [1; -1] [3; 5]%R [7; 7; 7; 7]%R = Some dx /\ nth 0 dx 0%R = 0%R /\ nth 1 dx 0%R = (-6)%R /\ nth 2 dx 0%R = 0%R /\ nth 3 dx 0%R = 0%R.
Proof.
  split; eexists; (split; [reflexivity |]); cbn [nth].
  - rewrite Rmax_left by lra. split; reflexivity.
  - rewrite Rmax_left by lra. split; [reflexivity |]. split; [field |]. split; reflexivity.
Qed.
(** Labels whose shape does not fit are refused. *)
Theorem C74_shape : forall A B n axis l, pos A -> 0 < n -> pos B -> denotes axis (length A) (length (A ++ n :: B)) ->
  (label_setup axis (A ++ n :: B) l <> None <-> l = A ++ 1 :: B).
Proof.
  intros A B n axis l PA Pn PB D. split.
  - intros H. destruct (list_eq_dec Z.eq_dec l (A ++ 1 :: B)) as [E | NE]; [exact E |]. exfalso. apply H. apply SmProofs5.label_setup_no; auto.
  - intros ->. rewrite SmProofs5.label_setup_ok by auto. discriminate.
Qed.
Example C74_shape_ex : label_setup (-1) [2; 3] [2; 1] = Some (2, 3, 1) /\ label_setup 1 [2; 3] [2] = None /\ label_setup 1 [2; 3] [2; 3] = None.
Proof. repeat split. Qed.
(** Labels that are no classes are not refused: a label 1 with one class takes the probability
    from the next row, and the last row reads past the end. *)
Theorem C74_classes_refuted :
  (forall least p0 p1, cce_forward least 1 [2; 1] [2; 1] [p0; p1] [1; 0] [0; 0]%R = Some [- ln (Rmax p1 least); - ln (Rmax p1 least)]%R) /\
  (forall least p0 p1, cce_forward least 1 [2; 1] [2; 1] [p0; p1] [0; 1] [0; 0]%R = None) /\
  exists x, sce_forward 1 [1; 1] [1; 1] x [1] [0]%R [0]%R = None.
Proof.
  split; [reflexivity |]. split; [reflexivity |]. exists [0%R]. unfold sce_forward. replace (label_setup 1 [1; 1] [1; 1]) with (Some (1, 1, 1)) by reflexivity. cbn [obind].
  destruct (SmProofs5.log_softmax_values [1] [] 1 ltac:(repeat constructor) ltac:(lia) ltac:(constructor) 1 ltac:(left; reflexivity) [0%R] [0%R] eq_refl eq_refl) as (y & E & L & _). cbn [app] in E. rewrite E. cbn [obind].
  destruct y as [| a [|]]; try discriminate. reflexivity.
Qed.
(** Where a probability is cut off the loss is constant, but the gradient is not 0. *)
Theorem C74_cut_off_refuted : exists least p, (0 < p < least)%R /\
  ~ rgradient 1 1 (fun x y => cce_forward least 1 [1; 1] [1; 1] x [0] y) (fun accum dy dx => cce_backward least 1 [1; 1] [1; 1] accum [p] [0] dy dx) [p].
Proof.
  exists 1%R, (1 / 2)%R. split; [lra |]. intros G. destruct (G false [1%R] [0%R] eq_refl eq_refl) as (dx & d & E & L & Ld & S & V). vm_compute in L, Ld.
  specialize (V 0%nat ltac:(cbn; lia)). assert (Edx : nth 0 dx 0%R = (0 + - 1 / Rmax (1 / 2) 1)%R) by (revert E; cbn; intros E; injection E as <-; reflexivity). rewrite Rmax_right in Edx by lra.
  destruct (S [0%R] eq_refl 0%nat ltac:(cbn; lia)) as (_ & SL). assert (nth 0 d 0%R = 0%R); [| lra].
  apply (ActProofs4.slope_derivative _ _ _ _ SL). apply (ActProofs1.lim_near _ (fun _ => (1 * - ln 1 + 0)%R)); [| apply derivable_pt_lim_const].
  apply (ActProofs1.near_below _ _ 1); [cbn; lra |]. intros u Hu.
  assert (EQ : cce_forward 1 1 [1; 1] [1; 1] (with_at [(1 / 2)%R] 0 u) [0] [0%R] = Some [(- ln (Rmax u 1))%R]) by reflexivity. rewrite EQ. cbn [rinner]. rewrite Rmax_right by lra. reflexivity.
Qed.

(** ** KLMultinomial *)
(** The row of position [i] of the arrays, whose rows have [k] elements. *)
Definition row (x : list R) (k i j : Z) : R := nth (Z.to_nat (i * k + j)) x 0%R.
(** For every row (everything from the base axis on): the sum of x0 (ln (x0 + e) - ln (x1 + e)). *)
Theorem C74_kl_partial : forall A B n base_axis e x0 x1 y0, A <> [] -> pos A -> 0 < n -> pos B -> denotes base_axis (length A) (length (A ++ n :: B)) ->
  Z.of_nat (length x0) = size (A ++ n :: B) -> Z.of_nat (length x1) = size (A ++ n :: B) -> Z.of_nat (length y0) = size A ->
  kl_setup base_axis (A ++ n :: B) (A ++ n :: B) = Some (A ++ [1]) /\
  exists y, kl_forward e base_axis (A ++ n :: B) x0 x1 y0 = Some y /\ length y = length y0 /\
  forall i, 0 <= i < size A -> let k := size (n :: B) in
    nth (Z.to_nat i) y 0%R = rsum k (fun j => row x0 k i j * (ln (row x0 k i j + e) - ln (row x1 k i j + e)))%R.
Proof.
  intros A B n base_axis e x0 x1 y0 NE PA Pn PB D L0 L1 Ly. rewrite SmProofs5.size_in in L0, L1. pose proof (SmProofs5.sizeA A PA). pose proof (SmProofs5.sizeB B PB). split; [apply SmProofs5.kl_setup_ok; exact D |].
  apply (SmProofs3.kl_ok (size A) (size (n :: B)) ltac:(lia) ltac:(cbn [size]; nia) e base_axis (A ++ n :: B) (SmProofs5.kl_sizes_ok A B n PA Pn PB base_axis D NE) x0 x1 y0 L0 L1 Ly).
Qed.
(** The gradients are those without [e]: they differ from the slopes of what the forward pass
    computes by the terms given here. *)
Theorem C74_kl_gradient_partial : forall A B n base_axis e x0 x1, A <> [] -> pos A -> 0 < n -> pos B -> denotes base_axis (length A) (length (A ++ n :: B)) ->
  Z.of_nat (length x0) = size (A ++ n :: B) -> Z.of_nat (length x1) = size (A ++ n :: B) -> (0 <= e)%R -> Forall (fun v => (0 < v)%R) x0 -> Forall (fun v => (0 < v)%R) x1 ->
  forall (accum : bool) dy dx, Z.of_nat (length dy) = size A -> Z.of_nat (length dx) = size (A ++ n :: B) ->
  (exists dx' d, kl_backward0 e base_axis (A ++ n :: B) accum x0 x1 dy dx = Some dx' /\ length dx' = length dx /\ length d = length dx /\
     rslopes (size A) (fun x0 y => kl_forward e base_axis (A ++ n :: B) x0 x1 y) x0 dy d /\
     forall i j, 0 <= i < size A -> 0 <= j < size (n :: B) -> let at_ l := row l (size (n :: B)) i j in
       at_ dx' = ((if accum then at_ dx else 0) + at_ d + nth (Z.to_nat i) dy 0 * (e / (at_ x0 + e)))%R) /\
  (exists dx' d, kl_backward1 base_axis (A ++ n :: B) accum x0 x1 dy dx = Some dx' /\ length dx' = length dx /\ length d = length dx /\
     rslopes (size A) (fun x1 y => kl_forward e base_axis (A ++ n :: B) x0 x1 y) x1 dy d /\
     forall i j, 0 <= i < size A -> 0 <= j < size (n :: B) -> let at_ l := row l (size (n :: B)) i j in
       at_ dx' = ((if accum then at_ dx else 0) + at_ d * ((at_ x1 + e) / at_ x1))%R).
Proof.
  intros A B n base_axis e x0 x1 NE PA Pn PB D L0 L1 E0 F0 F1 accum dy dx Ldy Ldx. rewrite SmProofs5.size_in in *. pose proof (SmProofs5.sizeA A PA) as SA. pose proof (SmProofs5.sizeB B PB) as SB.
  assert (K0 : 0 <= size (n :: B)) by (cbn [size]; nia). set (k := size (n :: B)) in *.
  assert (X0 : forall q, 0 <= q < size A * k -> (0 < SmProofs1.el x0 q)%R) by (intros q Hq; apply (SmProofs5.Forall_nth_of (fun v => (0 < v)%R)); [exact F0 | lia]).
  assert (X1 : forall q, 0 <= q < size A * k -> (0 < SmProofs1.el x1 q)%R) by (intros q Hq; apply (SmProofs5.Forall_nth_of (fun v => (0 < v)%R)); [exact F1 | lia]).
  pose proof (SmProofs5.kl_sizes_ok A B n PA Pn PB base_axis D NE) as SET. split.
  - destruct (SmProofs3.kl_back0 (size A) k ltac:(lia) K0 e base_axis (A ++ n :: B) SET accum x0 x1 dy dx L0 L1 Ldy Ldx) as (dx' & E & L & V).
    destruct (SmProofs1.list_of (size A * k) (fun q => SmProofs3.kl_sent0 k e (SmProofs1.el x0) (SmProofs1.el x1) (SmProofs1.el dy) q - SmProofs1.el dy (q / k)%Z * (e / (SmProofs1.el x0 q + e)))%R ltac:(nia)) as (d & Ld & Vd).
    exists dx', d. split; [exact E |]. split; [exact L |]. split; [unfold SmProofs1.rlen in *; lia |]. split.
    + apply (SmProofs3.kl_slopes0 (size A) k ltac:(lia) K0 e base_axis (A ++ n :: B) SET x0 x1 dy d L0 L1 Ldy Ld); [| exact Vd]. intros q Hq. specialize (X0 q Hq). lra.
    + intros i j Hi Hj. cbv zeta. pose proof (SmProofs3.jrange (size A) k i j Hi Hj) as J. unfold row. rewrite !SmProofs1.el_eq by lia. rewrite V, Vd by exact J. destruct (SmProofs3.jparts k i j Hj) as (-> & _). ring.
  - destruct (SmProofs3.kl_back1 (size A) k ltac:(lia) K0 base_axis (A ++ n :: B) SET accum x0 x1 dy dx L0 L1 Ldy Ldx) as (dx' & E & L & V).
    destruct (SmProofs1.list_of (size A * k) (fun q => - SmProofs1.el dy (q / k)%Z * SmProofs1.el x0 q / (SmProofs1.el x1 q + e))%R ltac:(nia)) as (d & Ld & Vd).
    exists dx', d. split; [exact E |]. split; [exact L |]. split; [unfold SmProofs1.rlen in *; lia |]. split.
    + apply (SmProofs3.kl_slopes1 (size A) k ltac:(lia) K0 e base_axis (A ++ n :: B) SET x0 x1 dy d L0 L1 Ldy Ld); [| exact Vd]. intros q Hq. specialize (X1 q Hq). lra.
    + intros i j Hi Hj. cbv zeta. pose proof (SmProofs3.jrange (size A) k i j Hi Hj) as J. unfold row. rewrite !SmProofs1.el_eq by lia. rewrite V, Vd by exact J. destruct (SmProofs3.jparts k i j Hj) as (E1 & _). rewrite E1. unfold SmProofs3.kl_sent1. rewrite E1. specialize (X1 _ J). field. split; lra.
Qed.
Example C74_kl_ex : exists y, kl_forward 0 1 [1; 2] [1; 1]%R [exp 1; 1]%R [7]%R = Some y /\ nth 0 y 0%R = (-1)%R.
Proof.
  eexists. split; [reflexivity |]. cbn [nth]. replace (exp 1 + 0)%R with (exp 1) by ring. rewrite ln_exp. replace (1 + 0)%R with 1%R by ring. rewrite ln_1. ring.
Qed.
(** So they are not the slopes of the forward pass, for the e of the program. *)
Theorem C74_kl_refuted : let e := (/ 100000000)%R in
  ~ rgradient 1 1 (fun x y => kl_forward e 1 [1; 1] x [1%R] y) (fun accum dy dx => kl_backward0 e 1 [1; 1] accum [1%R] [1%R] dy dx) [1%R].
Proof.
  cbv zeta. set (e := (/ 100000000)%R). assert (PE : (0 < e)%R) by (unfold e; lra). clearbody e. intros G. destruct (G false [1%R] [0%R] eq_refl eq_refl) as (dx & d & E & L & Ld & S & V).
  assert (P : pos [1]) by (constructor; [lia | constructor]).
  destruct (C74_kl_gradient_partial [1] [] 1 1 e [1%R] [1%R] ltac:(discriminate) P ltac:(lia) ltac:(constructor) ltac:(left; reflexivity) eq_refl eq_refl ltac:(lra) ltac:(repeat constructor; lra) ltac:(repeat constructor; lra) false [1%R] [0%R] eq_refl eq_refl) as ((dx' & d' & E' & _ & _ & S' & V') & _).
  cbn [app] in E'. rewrite E in E'. injection E' as <-. specialize (V 0%nat ltac:(cbn; lia)). specialize (V' 0 0 ltac:(cbn; lia) ltac:(cbn; lia)). unfold row in V'. cbn in V'.
  assert (DD : nth 0 d 0%R = nth 0 d' 0%R).
  { destruct (S [0%R] eq_refl 0%nat ltac:(cbn; lia)) as (_ & SL). destruct (S' [0%R] eq_refl 0%nat ltac:(cbn; lia)) as (_ & SL'). cbn [app] in SL'.
    assert (DV : derivable_pt_lim (fun t => match kl_forward e 1 [1; 1] (with_at [1%R] 0 t) [1%R] [0%R] with Some y => rinner [1%R] y | None => 0%R end) (nth 0 [1%R] 0%R) (ln (1 + e) - ln (1 + e) + 1 / (1 + e))%R).
    { assert (EQ : forall t, kl_forward e 1 [1; 1] (with_at [1%R] 0 t) [1%R] [0%R] = Some [(0 + t * (ln (t + e) - ln (1 + e)))%R]) by reflexivity.
      apply (ActProofs2.near_ext _ (fun t => t * (ln (t + e) - ln (1 + e)))%R); [intros t; rewrite EQ; cbn [rinner]; ring |]. cbn [nth]. ActProofs1.derive; [lra |]. field. lra. }
    rewrite (ActProofs4.slope_derivative _ _ _ _ SL DV). symmetry. apply (ActProofs4.slope_derivative _ _ _ _ SL' DV). }
  rewrite DD in V. assert (0 < e / (1 + e))%R by (apply Rdiv_lt_0_compat; lra). lra.
Qed.
(** A base axis 0 reads before the start of the strides. *)
Theorem C74_kl_axis_refuted : forall e x y, kl_setup 0 [2] [2] = Some [1] /\ kl_forward e 0 [2] x x y = None.
Proof. intros. split; reflexivity. Qed.

(** Different shapes are refused. *)
Theorem C74_kl_refused : forall base_axis shape0 shape1, shape0 <> shape1 -> kl_setup base_axis shape0 shape1 = None.
Proof. intros base_axis shape0 shape1 NE. unfold kl_setup. destruct (list_eq_dec Z.eq_dec shape0 shape1) as [E |]; [destruct (NE E) | reflexivity]. Qed.

(** * C75 *)
(** PReLU: max(0, x) + a min(0, x), with one a for all elements or one for every index of the base
    axis. *)
Theorem C75_prelu_partial : forall A B n axis w x a y0, pos A -> 0 < n -> pos B -> denotes axis (length A) (length (A ++ n :: B)) -> w = [n] \/ size w = 1 ->
  Z.of_nat (length x) = size (A ++ n :: B) -> Z.of_nat (length a) = size w -> Z.of_nat (length y0) = size (A ++ n :: B) ->
  exists y, prelu_forward axis (A ++ n :: B) w x a y0 = Some y /\ length y = length y0 /\
  forall p k r, inside p A -> 0 <= k < n -> inside r B ->
    let v := relem x (A ++ n :: B) (p ++ k :: r) in
    relem y (A ++ n :: B) (p ++ k :: r) = (Rmax 0 v + nth (Z.to_nat (if size w =? 1 then 0 else k)) a 0 * Rmin 0 v)%R.
Proof. intros. apply SmProofs5.prelu_values; auto. Qed.
Theorem C75_prelu_refused : forall A B n axis w, denotes axis (length A) (length (A ++ n :: B)) -> w <> [n] -> size w <> 1 -> prelu_setup axis (A ++ n :: B) w = None.
Proof. intros. apply SmProofs5.prelu_setup_no; auto. Qed.
Theorem C75_prelu_gradient_partial : forall A B n axis w x a, pos A -> 0 < n -> pos B -> denotes axis (length A) (length (A ++ n :: B)) -> w = [n] \/ size w = 1 ->
  Z.of_nat (length x) = size (A ++ n :: B) -> Z.of_nat (length a) = size w ->
  rgradient (size (A ++ n :: B)) (size (A ++ n :: B)) (fun x y => prelu_forward axis (A ++ n :: B) w x a y) (fun accum dy dx => prelu_backward0 axis (A ++ n :: B) w accum x a dy dx) x /\
  rgradient (size w) (size (A ++ n :: B)) (fun a y => prelu_forward axis (A ++ n :: B) w x a y) (fun accum dy da => prelu_backward1 axis (A ++ n :: B) w accum x dy da) a.
Proof. intros. split; [apply SmProofs5.prelu_grad0 | apply SmProofs5.prelu_grad1]; auto. Qed.
Example C75_prelu_ex : exists y, prelu_forward 1 [1; 2; 2] [2] [-1; 2; 3; -4]%R [5; 6]%R [0; 0; 0; 0]%R = Some y /\ nth 0 y 0%R = (-5)%R /\ nth 1 y 0%R = 2%R /\ nth 2 y 0%R = 3%R /\ nth 3 y 0%R = (-24)%R.
Proof.
  eexists. split; [reflexivity |]. cbn [nth]. repeat match goal with |- context [Rle_dec 0 ?v] => destruct (Rle_dec 0 v); try lra end.
Qed.
(** CReLU: max(0, x) in the first half of the axis of the output, max(0, -x) in the second. *)
Theorem C75_crelu_partial : forall A B n axis x y0, pos A -> 0 < n -> pos B -> denotes axis (length A) (length (A ++ n :: B)) ->
  Z.of_nat (length x) = size (A ++ n :: B) -> Z.of_nat (length y0) = size (A ++ n * 2 :: B) ->
  option_map (fun s => fst (fst s)) (crelu_setup axis (A ++ n :: B)) = Some (A ++ n * 2 :: B) /\
  exists y, crelu_forward axis (A ++ n :: B) x y0 = Some y /\ length y = length y0 /\
  forall p k r, inside p A -> 0 <= k < n -> inside r B -> let v := relem x (A ++ n :: B) (p ++ k :: r) in
    relem y (A ++ n * 2 :: B) (p ++ k :: r) = Rmax 0 v /\ relem y (A ++ n * 2 :: B) (p ++ (n + k) :: r) = Rmax 0 (- v).
Proof.
  intros A B n axis x y0 PA Pn PB D Lx Ly. split; [rewrite SmProofs5.crelu_setup_ok by auto; reflexivity |].
  destruct (SmProofs5.halves_values A B n PA Pn PB axis D (fun v => Rmax 0 v) (fun v => Rmax 0 (-1 * v)) x y0 Lx Ly) as (y & E & L & V). exists y. split; [exact E |]. split; [exact L |].
  intros p k r Hp Hk Hr. cbv zeta. destruct (V p k r Hp Hk Hr) as (-> & ->). split; [reflexivity |]. f_equal. ring.
Qed.
Theorem C75_crelu_gradient_partial : forall A B n axis x, pos A -> 0 < n -> pos B -> denotes axis (length A) (length (A ++ n :: B)) -> Z.of_nat (length x) = size (A ++ n :: B) ->
  rgradient (size (A ++ n :: B)) (size (A ++ n * 2 :: B)) (crelu_forward axis (A ++ n :: B)) (fun accum dy dx => crelu_backward axis (A ++ n :: B) accum x dy dx) x.
Proof. intros. apply SmProofs5.crelu_grad; auto. Qed.
(** CELU: elu(x) and elu(-x), where elu(v) is max(0, v) + alpha (e^min(0, v) - 1). *)
Theorem C75_celu_partial : forall A B n axis alpha x y0, pos A -> 0 < n -> pos B -> denotes axis (length A) (length (A ++ n :: B)) ->
  Z.of_nat (length x) = size (A ++ n :: B) -> Z.of_nat (length y0) = size (A ++ n * 2 :: B) ->
  exists y, celu_forward alpha axis (A ++ n :: B) x y0 = Some y /\ length y = length y0 /\
  forall p k r, inside p A -> 0 <= k < n -> inside r B -> let v := relem x (A ++ n :: B) (p ++ k :: r) in let elu v := (Rmax 0 v + alpha * (exp (Rmin 0 v) - 1))%R in
    relem y (A ++ n * 2 :: B) (p ++ k :: r) = elu v /\ relem y (A ++ n * 2 :: B) (p ++ (n + k) :: r) = elu (- v)%R.
Proof.
  intros A B n axis alpha x y0 PA Pn PB D Lx Ly.
  destruct (SmProofs5.halves_values A B n PA Pn PB axis D (SmProofs4.elu alpha) (SmProofs4.nelu alpha) x y0 Lx Ly) as (y & E & L & V). exists y. split; [exact E |]. split; [exact L |].
  intros p k r Hp Hk Hr. cbv zeta. destruct (V p k r Hp Hk Hr) as (-> & ->). set (v := relem x _ _). unfold SmProofs4.elu, SmProofs4.nelu. split.
  - destruct (Rle_dec 0 v); [rewrite Rmax_right, Rmin_left, exp_0 by lra; ring | rewrite Rmax_left, Rmin_right by lra; ring].
  - destruct (Rle_dec v 0); [rewrite Rmax_right, Rmin_left, exp_0 by lra; ring | rewrite Rmax_left, Rmin_right by lra; ring].
Qed.
(** The gradient is right if alpha is 1 or no element is 0. *)
Theorem C75_celu_gradient_partial : forall A B n axis alpha x, pos A -> 0 < n -> pos B -> denotes axis (length A) (length (A ++ n :: B)) -> Z.of_nat (length x) = size (A ++ n :: B) ->
  alpha = 1%R \/ Forall (fun v => v <> 0%R) x ->
  rgradient (size (A ++ n :: B)) (size (A ++ n * 2 :: B)) (celu_forward alpha axis (A ++ n :: B)) (fun accum dy dx => celu_backward alpha axis (A ++ n :: B) accum x dy dx) x.
Proof. intros. apply SmProofs5.celu_grad; auto. Qed.
Example C75_crelu_ex : exists y, crelu_forward 1 [1; 2] [-3; 4]%R [7; 7; 7; 7]%R = Some y /\ nth 0 y 0%R = 0%R /\ nth 1 y 0%R = 4%R /\ nth 2 y 0%R = 3%R /\ nth 3 y 0%R = 0%R.
Proof.
  eexists. split; [reflexivity |]. cbn [nth]. split; [apply Rmax_left; lra |]. split; [apply Rmax_right; lra |]. split; [rewrite Rmax_right by lra; ring | apply Rmax_left; lra].
Qed.
(** At 0 both halves add their own one-sided slope from different sides; with alpha 1/2 the
    gradient is outside of the slopes. *)
Theorem C75_celu_zero_refuted : exists alpha,
  ~ rgradient 1 2 (celu_forward alpha 1 [1; 1]) (fun accum dy dx => celu_backward alpha 1 [1; 1] accum [0%R] dy dx) [0%R].
Proof.
  exists (1 / 2)%R. intros G. destruct (G false [1; -1]%R [0%R] eq_refl eq_refl) as (dx & d & E & L & Ld & S & V). specialize (V 0%nat ltac:(cbn; lia)).
  assert (Edx : nth 0 dx 0%R = 2%R).
  { revert E. cbn. intros E. injection E as <-. cbn [nth]. destruct (Rle_dec 0 0); [| lra]. ring. }
  destruct (S [0; 0]%R eq_refl 0%nat ltac:(cbn; lia)) as (_ & SL). assert (nth 0 d 0%R = (3 / 2)%R); [| lra].
  apply (ActProofs4.slope_derivative _ _ _ _ SL). cbn [nth].
  apply (ActProofs2.near_ext _ (fun t => 1 * SmProofs4.elu (1 / 2) t + -1 * SmProofs4.nelu (1 / 2) t)%R); [intros t |].
  { assert (EQ : celu_forward (1 / 2) 1 [1; 1] (with_at [0%R] 0 t) [0; 0]%R = Some [SmProofs4.elu (1 / 2) t; SmProofs4.nelu (1 / 2) t]) by reflexivity. rewrite EQ. cbn [rinner]. ring. }
  apply (ActProofs1.lim_pieces _ (fun t => 1 * (1 / 2 * (exp t - 1)) + -1 * - t)%R (fun t => 1 * t + -1 * (1 / 2 * (exp (- t) - 1)))%R).
  - apply ActProofs1.left_always. intros t Ht. unfold SmProofs4.elu, SmProofs4.nelu. destruct (Rle_dec t 0); [| lra]. destruct (Rle_dec 0 t); [| reflexivity]. replace t with 0%R by lra. rewrite exp_0. ring.
  - apply ActProofs1.right_always. intros t Ht. unfold SmProofs4.elu, SmProofs4.nelu. destruct (Rle_dec 0 t); [| lra]. destruct (Rle_dec t 0); [| reflexivity]. replace t with 0%R by lra. rewrite Ropp_0, exp_0. ring.
  - ActProofs1.derive. rewrite exp_0. field.
  - ActProofs1.derive. rewrite Ropp_0, exp_0. field.
Qed.

Print Assumptions C73_softmax_gradient_partial.
Print Assumptions C74_kl_refuted.
Print Assumptions C75_celu_gradient_partial.
