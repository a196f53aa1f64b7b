(** Batch normalization: training mode (C76), its gradients (C77), testing mode (C78). *)
From Coq Require Import List ZArith Lia Bool Reals Lra.
From Verif Require Import NdSpec IdxModel JoinSpec ScanModel ActSpec SmSpec BnSpec BnModel.
From Verif Require NdProofs SmProofs1 BnProofs1 BnProofs2 BnProofs3 BnProofs4 BnProofs5 BnProofs6.
Import ListNotations.
Local Open Scope list_scope.
Local Open Scope Z_scope.

Definition pos (s : list Z) : Prop := Forall (fun n => 0 < n) s.
Definition len {T : Type} (a : list T) : Z := Z.of_nat (length a).
(** [at_pos] for running variances, which may be no numbers. *)
Definition maybe_at (a : list (option R)) (c : Z) : option R := nth (Z.to_nat c) a None.
(** A value normalized with a mean and a variance, scaled and shifted. *)
Definition normalized (eps : R) (beta gamma : option (list R)) (mean var value : R) (c : Z) : R :=
  ((value - mean) / sqrt (var + eps) * given_or gamma 1 c + given_or beta 0 c)%R.
Definition first5 (r : option bn_state) : option (list R) := match r with Some (y, _, _, _, _) => Some y | None => None end.

(** * C76 *)
(** Positions belong to the channel that is their coordinate on the axis. *)
Theorem C76_channel : forall A B n p k r, pos A -> pos B -> inside p A -> 0 <= k < n -> inside r B ->
  channel_of (A ++ n :: B) (length A) (position 0 (p ++ k :: r) (A ++ n :: B)) = k.
Proof. intros A B n p k r PA PB Hp Hk Hr. apply BnProofs6.channel_index; auto. lia. Qed.
(** Which input is which. *)
Theorem C76_roles : forall (T : Type) (x b g m v : T),
  bn_roles false false [x; b; g; m; v] = Some (x, Some b, Some g, m, v) /\ bn_roles true false [x; b; m; v] = Some (x, Some b, None, m, v) /\
  bn_roles false true [x; g; m; v] = Some (x, None, Some g, m, v) /\ bn_roles true true [x; m; v] = Some (x, None, None, m, v).
Proof. intros. auto. Qed.
(** Inputs are accepted exactly if their number is right and all but the first have the extent of
    the axis and 1 elsewhere; there are one or, in training mode, three outputs. *)
Theorem C76_setup : forall A B n axis batch_stat no_scale no_bias rest nout, pos A -> 0 < n -> pos B -> denotes axis (length A) (length (A ++ n :: B)) ->
  let good := len rest = 2 + (if no_scale : bool then 0 else 1) + (if no_bias : bool then 0 else 1) /\
    Forall (fun s => s = repeat 1 (length A) ++ n :: repeat 1 (length B)) rest /\ (nout = 1 \/ nout = 3 /\ batch_stat = true) in
  (good -> bn_setup [axis] batch_stat no_scale no_bias ((A ++ n :: B) :: rest) nout = Some (size A, n, size B)) /\
  (~ good -> bn_setup [axis] batch_stat no_scale no_bias ((A ++ n :: B) :: rest) nout = None).
Proof. intros. apply BnProofs6.setup_cond; auto. Qed.
Example C76_setup_ex : bn_setup [1] true false false [[4; 3; 2]; [1; 3; 1]; [1; 3; 1]; [1; 3; 1]; [1; 3; 1]] 1 = Some (4, 3, 2) /\
  bn_setup [-2] true false false [[4; 3; 2]; [1; 3; 1]; [1; 3; 1]; [1; 3; 1]; [1; 3; 1]] 3 = Some (4, 3, 2) /\
  bn_setup [1] true false false [[4; 3; 2]; [1; 3; 1]; [1; 3; 1]; [1; 3]; [1; 3; 1]] 1 = None /\ channel_of [4; 3; 2] 1 11 = 2.
Proof. repeat split. Qed.
(** What forward computes, with the sizes from setup. *)
Theorem C76_forward_partial : forall A B n eps decay update x beta gamma y0 m0 v0 rm0 rv0, pos A -> 0 < n -> pos B -> fits beta n -> fits gamma n ->
  let sh := A ++ n :: B in let a := length A in
  len x = size sh -> len y0 = size sh -> len m0 = n -> len v0 = n -> len rm0 = n -> len rv0 = n ->
  exists y m v rm rv, bn_forward_batch (size A) n (size B) eps decay update x beta gamma (y0, m0, v0, rm0, rv0) = Some (y, m, v, rm, rv) /\
  len y = size sh /\ len m = n /\ len v = n /\ len rm = n /\ len rv = n /\
  (forall e, 0 <= e < size sh -> at_pos y e = normalized eps beta gamma (mean_of sh a x (channel_of sh a e)) (var_of sh a x (channel_of sh a e)) (at_pos x e) (channel_of sh a e)) /\
  (forall c, 0 <= c < n -> at_pos m c = mean_of sh a x c /\ at_pos v c = var_of sh a x c) /\
  (forall c, 0 <= c < n -> at_pos rm c = (if update : bool then decay * at_pos rm0 c + (1 - decay) * mean_of sh a x c else at_pos rm0 c)%R) /\
  (forall c r, 0 <= c < n -> (count_of sh a c <> 1)%R -> maybe_at rv0 c = Some r ->
     maybe_at rv c = Some (if update : bool then decay * r + (1 - decay) * unbiased_of sh a x c else r)%R) /\
  (update = false -> forall c, 0 <= c < n -> maybe_at rv c = maybe_at rv0 c).
Proof.
  intros A B n eps decay update x beta gamma y0 m0 v0 rm0 rv0 PA Pn PB Fb Fg sh a Lx Ly Lm Lv Lr Lw. unfold len in *. unfold sh in Lx, Ly. rewrite BnProofs6.size_is in Lx, Ly.
  destruct (BnProofs2.forward_batch_ok (size A) n (size B) (BnProofs6.Q0 A PA) Pn (BnProofs6.Q2 B PB) eps decay beta gamma Fb Fg update x y0 m0 v0 rm0 rv0 Lx Ly Lm Lv Lr Lw) as (y & m & v & rm & rv & E & L1 & L2 & L3 & L4 & L5 & V1 & V2 & V3 & V4).
  exists y, m, v, rm, rv. split; [exact E |]. split; [unfold sh; rewrite BnProofs6.size_is; exact L1 |]. split; [exact L2 |]. split; [exact L3 |]. split; [exact L4 |]. split; [exact L5 |]. split; [| split; [| split; [| split]]].
  - intros e He. destruct (BnProofs6.at_onto A B n PA Pn PB e He) as (c & k & C & Hk & Ee & Ec). unfold sh, a. rewrite Ec, Ee. rewrite BnProofs6.mean_is, BnProofs6.var_is by assumption. change (at_pos y (BnProofs1.pos n (size B) c k)) with (SmProofs1.el y (BnProofs1.pos n (size B) c k)). rewrite V1 by assumption. unfold BnProofs2.scaled, normalized. change (at_pos x) with (SmProofs1.el x). unfold Rdiv. ring.
  - intros c C. unfold sh, a. rewrite BnProofs6.mean_is, BnProofs6.var_is by assumption. apply V2. exact C.
  - intros c C. unfold sh, a. rewrite BnProofs6.mean_is by assumption. apply V3. exact C.
  - intros c r C H0 Hr. change (maybe_at rv c) with (BnProofs2.oel rv c). rewrite V4 by exact C. change (maybe_at rv0 c) with (BnProofs2.oel rv0 c) in Hr. rewrite Hr. destruct update; [| reflexivity]. apply BnProofs6.running_is; assumption.
  - intros -> c C. apply V4. exact C.
Qed.
(** Recomputation gives the same outputs as forward did and leaves the running statistics. *)
Theorem C76_recompute : forall A B n eps decay x beta gamma y0 m0 v0 rm0 rv0 y m v rm rv y1 m1 v1, pos A -> 0 < n -> pos B -> fits beta n -> fits gamma n ->
  let sh := A ++ n :: B in
  len x = size sh -> len y0 = size sh -> len m0 = n -> len v0 = n -> len rm0 = n -> len rv0 = n -> len y1 = size sh -> len m1 = n -> len v1 = n ->
  bn_forward_batch (size A) n (size B) eps decay true x beta gamma (y0, m0, v0, rm0, rv0) = Some (y, m, v, rm, rv) ->
  bn_forward_batch (size A) n (size B) eps decay false x beta gamma (y1, m1, v1, rm, rv) = Some (y, m, v, rm, rv).
Proof.
  intros A B n eps decay x beta gamma y0 m0 v0 rm0 rv0 y m v rm rv y1 m1 v1 PA Pn PB Fb Fg sh Lx Ly Lm Lv Lr Lw Ly1 Lm1 Lv1 F. unfold len in *. unfold sh in Lx, Ly, Ly1. rewrite BnProofs6.size_is in Lx, Ly, Ly1.
  pose proof (BnProofs6.Q0 A PA) as Q0. pose proof (BnProofs6.Q2 B PB) as Q2.
  destruct (BnProofs2.forward_batch_ok (size A) n (size B) Q0 Pn Q2 eps decay beta gamma Fb Fg true x y0 m0 v0 rm0 rv0 Lx Ly Lm Lv Lr Lw) as (y' & m' & v' & rm' & rv' & E & K1 & K2 & K3 & K4 & K5 & V1 & V2 & V3 & V4). rewrite F in E. injection E as <- <- <- <- <-.
  destruct (BnProofs2.forward_batch_ok (size A) n (size B) Q0 Pn Q2 eps decay beta gamma Fb Fg false x y1 m1 v1 rm rv Lx Ly1 Lm1 Lv1 K4 K5) as (y' & m' & v' & rm' & rv' & E & L1 & L2 & L3 & L4 & L5 & W1 & W2 & W3 & W4). rewrite E.
  assert (RE : forall a b : list R, length a = length b -> (forall i, 0 <= i < Z.of_nat (length a) -> SmProofs1.el a i = SmProofs1.el b i) -> a = b).
  { intros a b L H. apply (nth_ext _ _ 0%R 0%R L). intros i Hi. specialize (H (Z.of_nat i) ltac:(lia)). unfold SmProofs1.el in H. rewrite Nat2Z.id in H. exact H. }
  unfold SmProofs1.rlen in *. replace y' with y; [replace m' with m; [replace v' with v; [replace rm' with rm; [replace rv' with rv; [reflexivity |] |] |] |] |].
  - apply (nth_ext _ _ None None); [lia |]. intros i Hi. specialize (W4 (Z.of_nat i) ltac:(lia)). unfold BnProofs2.oel in W4. rewrite Nat2Z.id in W4. symmetry. exact W4.
  - apply RE; [lia |]. intros i Hi. symmetry. apply W3. lia.
  - apply RE; [lia |]. intros i Hi. destruct (V2 i ltac:(lia)) as (_ & ->). destruct (W2 i ltac:(lia)) as (_ & ->). reflexivity.
  - apply RE; [lia |]. intros i Hi. destruct (V2 i ltac:(lia)) as (-> & _). destruct (W2 i ltac:(lia)) as (-> & _). reflexivity.
  - apply RE; [lia |]. intros i Hi. destruct (BnProofs1.pos_onto (size A) n (size B) Q0 Pn Q2 i ltac:(lia)) as (c & k & C & Hk & ->). rewrite V1, W1 by assumption. reflexivity.
Qed.
(** Every channel of the output has mean beta and variance gamma^2 * var / (var + eps). *)
Theorem C76_standardized : forall A B n eps decay update x beta gamma y0 m0 v0 rm0 rv0 y m v rm rv, pos A -> 0 < n -> pos B -> fits beta n -> fits gamma n -> (0 < eps)%R ->
  let sh := A ++ n :: B in let a := length A in
  len x = size sh -> len y0 = size sh -> len m0 = n -> len v0 = n -> len rm0 = n -> len rv0 = n ->
  bn_forward_batch (size A) n (size B) eps decay update x beta gamma (y0, m0, v0, rm0, rv0) = Some (y, m, v, rm, rv) ->
  forall c, 0 <= c < n -> mean_of sh a y c = given_or beta 0 c /\
  var_of sh a y c = (given_or gamma 1 c * given_or gamma 1 c * (var_of sh a x c / (var_of sh a x c + eps)))%R /\ (0 <= var_of sh a x c)%R.
Proof.
  intros A B n eps decay update x beta gamma y0 m0 v0 rm0 rv0 y m v rm rv PA Pn PB Fb Fg Pe sh a Lx Ly Lm Lv Lr Lw F c C. unfold len in *. unfold sh in Lx, Ly. rewrite BnProofs6.size_is in Lx, Ly.
  pose proof (BnProofs6.Q0 A PA) as Q0. pose proof (BnProofs6.Q2 B PB) as Q2.
  destruct (BnProofs2.forward_batch_ok (size A) n (size B) Q0 Pn Q2 eps decay beta gamma Fb Fg update x y0 m0 v0 rm0 rv0 Lx Ly Lm Lv Lr Lw) as (y' & m' & v' & rm' & rv' & E & K1 & K2 & K3 & K4 & K5 & V1 & V2 & V3 & V4). rewrite F in E. injection E as <- <- <- <- <-.
  pose proof (BnProofs2.K_real (size A) (size B) Q0 Q2) as KR. set (mu := BnProofs2.cmean (size A) n (size B) (SmProofs1.el x) c) in *. set (w := BnProofs2.cvar (size A) n (size B) (SmProofs1.el x) c) in *. set (g := given_or gamma 1 c). set (b := given_or beta 0 c).
  assert (W : (0 <= w)%R) by (apply BnProofs2.cvar_nonneg; assumption). assert (SP : (0 < sqrt (w + eps))%R) by (apply sqrt_lt_R0; lra). pose proof (sqrt_sqrt (w + eps) ltac:(lra)) as SS. set (sg := sqrt (w + eps)) in *.
  assert (M : BnProofs2.cmean (size A) n (size B) (SmProofs1.el y) c = b).
  { unfold BnProofs2.cmean. rewrite (SmProofs1.rsum_ext _ _ (fun k => (SmProofs1.el x (BnProofs1.pos n (size B) c k) - mu) * (g / sg) + b)%R).
    - rewrite SmProofs1.rsum_plus, SmProofs1.rsum_scale_r, (BnProofs3.dev_zero (size A) n (size B) Q0 Q2), BnProofs1.rsum_const by nia. field. lra.
    - intros k Hk. rewrite V1 by assumption. unfold BnProofs2.scaled. fold mu w g b sg. unfold Rdiv. ring. }
  unfold sh, a. rewrite BnProofs6.mean_is, !BnProofs6.var_is by assumption. fold w. split; [exact M |]. split; [| exact W].
  rewrite (BnProofs2.cvar_dev (size A) n (size B) Q0 Q2). rewrite M. rewrite (SmProofs1.rsum_ext _ _ (fun k => ((SmProofs1.el x (BnProofs1.pos n (size B) c k) - mu) * (SmProofs1.el x (BnProofs1.pos n (size B) c k) - mu)) * (g * g / (w + eps)))%R).
  - rewrite SmProofs1.rsum_scale_r. unfold w at 2. rewrite (BnProofs2.cvar_dev (size A) n (size B) Q0 Q2). fold mu. unfold Rdiv. ring.
  - intros k Hk. rewrite V1 by assumption. unfold BnProofs2.scaled. fold mu w g b sg. rewrite <- SS. field. lra.
Qed.
(** The running variance is no number after one batch with one element per channel. *)
Theorem C76_running_refuted : ~ forall A B n eps decay x y0 m0 v0 rm0 rv0, pos A -> 0 < n -> pos B -> (0 < eps)%R ->
  len x = size (A ++ n :: B) -> len y0 = size (A ++ n :: B) -> len m0 = n -> len v0 = n -> len rm0 = n -> len rv0 = n -> (forall c, 0 <= c < n -> maybe_at rv0 c <> None) ->
  exists y m v rm rv, bn_forward_batch (size A) n (size B) eps decay true x None None (y0, m0, v0, rm0, rv0) = Some (y, m, v, rm, rv) /\ forall c, 0 <= c < n -> maybe_at rv c <> None.
Proof.
  intros H. assert (X : exists y m v rm rv, bn_forward_batch (size [1]) 1 (size []) 1 1 true [5]%R None None ([0]%R, [0]%R, [0]%R, [0]%R, [Some 1%R]) = Some (y, m, v, rm, rv) /\ forall c, 0 <= c < 1 -> maybe_at rv c <> None).
  { apply H; first [reflexivity | lia | lra | exact (Forall_nil _) | (apply Forall_cons; [lia | apply Forall_nil]) | idtac]. intros c C. replace c with 0 by lia. discriminate. }
  destruct X as (y & m & v & rm & rv & E & V).
  assert (EQ : exists y m v rm, bn_forward_batch (size [1]) 1 (size []) 1 1 true [5]%R None None ([0]%R, [0]%R, [0]%R, [0]%R, [Some 1%R]) = Some (y, m, v, rm, [None])) by (do 4 eexists; reflexivity).
  destruct EQ as (y' & m' & v' & rm' & EQ). rewrite EQ in E. injection E as <- <- <- <- <-. apply (V 0); [lia | reflexivity].
Qed.
Example C76_forward_ex : exists y m v rm rv, bn_forward_batch 2 1 1 1 (1 / 2) true [1; 5]%R None None ([7; 7]%R, [7]%R, [7]%R, [0]%R, [Some 0%R]) = Some (y, m, v, rm, rv) /\
  at_pos m 0 = 3%R /\ at_pos v 0 = 4%R /\ at_pos rm 0 = (3 / 2)%R /\ maybe_at rv 0 = Some 4%R /\ at_pos y 1 = (2 / sqrt 5)%R.
Proof.
  do 5 eexists. split; [reflexivity |]. cbv -[Rplus Rmult Rminus Rdiv Rinv IZR sqrt Ropp]. split; [lra |]. split; [lra |]. split; [lra |]. split.
  - f_equal. lra.
  - match goal with |- context [sqrt ?e] => replace e with 5%R by lra end. unfold Rdiv. ring_simplify. lra.
Qed.

(** * C77 *)
(** With m and v from forward, backward computes the derivatives: with respect to x, *)
Theorem C77_x_partial : forall A B n eps decay update x beta gamma y0 m0 v0 rm0 rv0 y m v rm rv, pos A -> 0 < n -> pos B -> fits beta n -> fits gamma n -> (0 < eps)%R ->
  let sh := A ++ n :: B in
  len x = size sh -> len y0 = size sh -> len m0 = n -> len v0 = n -> len rm0 = n -> len rv0 = n ->
  bn_forward_batch (size A) n (size B) eps decay update x beta gamma (y0, m0, v0, rm0, rv0) = Some (y, m, v, rm, rv) ->
  rgradient (size sh) (size sh) (fun u y0 => first5 (bn_forward_batch (size A) n (size B) eps decay update u beta gamma (y0, m0, v0, rm0, rv0)))
    (fun accum dy dx => bn_grad_x (size A) n (size B) eps accum x gamma m v dy None dx) x.
Proof.
  intros A B n eps decay update x beta gamma y0 m0 v0 rm0 rv0 y m v rm rv PA Pn PB Fb Fg Pe sh Lx Ly Lm Lv Lr Lw F. unfold len in *. unfold sh in Lx, Ly |- *. rewrite BnProofs6.size_is in Lx, Ly |- *.
  pose proof (BnProofs6.Q0 A PA) as Q0. pose proof (BnProofs6.Q2 B PB) as Q2.
  destruct (BnProofs2.forward_batch_ok (size A) n (size B) Q0 Pn Q2 eps decay beta gamma Fb Fg update x y0 m0 v0 rm0 rv0 Lx Ly Lm Lv Lr Lw) as (y' & m' & v' & rm' & rv' & E & K1 & K2 & K3 & _ & _ & _ & V2 & _). rewrite F in E. injection E as <- <- <- <- <-.
  apply (BnProofs4.train_x (size A) n (size B) Q0 Pn Q2 eps decay Pe beta gamma Fb Fg update m0 v0 rm0 rv0 Lm Lv Lr Lw x m v Lx K2 K3); intros c C; apply V2; exact C.
Qed.
(** with respect to x, where the outputs are y, the mean and the variance of the batch (here in
    one array, one after the other), *)
Theorem C77_three_partial : forall A B n eps decay update x beta gamma y0 m0 v0 rm0 rv0 y m v rm rv, pos A -> 0 < n -> pos B -> fits beta n -> fits gamma n -> (0 < eps)%R ->
  let sh := A ++ n :: B in
  len x = size sh -> len y0 = size sh -> len m0 = n -> len v0 = n -> len rm0 = n -> len rv0 = n ->
  bn_forward_batch (size A) n (size B) eps decay update x beta gamma (y0, m0, v0, rm0, rv0) = Some (y, m, v, rm, rv) ->
  let t := Z.to_nat (size sh) in let c := Z.to_nat n in
  rgradient (size sh) (size sh + n + n)
    (fun u o => match bn_forward_batch (size A) n (size B) eps decay update u beta gamma (firstn t o, firstn c (skipn t o), skipn (t + c) o, rm0, rv0) with
                | Some (y, m, v, _, _) => Some (y ++ m ++ v) | None => None end)
    (fun accum dy dx => bn_grad_x (size A) n (size B) eps accum x gamma m v (firstn t dy) (Some (firstn c (skipn t dy), skipn (t + c) dy)) dx) x.
Proof.
  intros A B n eps decay update x beta gamma y0 m0 v0 rm0 rv0 y m v rm rv PA Pn PB Fb Fg Pe sh Lx Ly Lm Lv Lr Lw F t c. unfold len in *. unfold t, c, sh in *. rewrite BnProofs6.size_is in *.
  pose proof (BnProofs6.Q0 A PA) as Q0. pose proof (BnProofs6.Q2 B PB) as Q2.
  destruct (BnProofs2.forward_batch_ok (size A) n (size B) Q0 Pn Q2 eps decay beta gamma Fb Fg update x y0 m0 v0 rm0 rv0 Lx Ly Lm Lv Lr Lw) as (y' & m' & v' & rm' & rv' & E & K1 & K2 & K3 & _ & _ & _ & V2 & _). rewrite F in E. injection E as <- <- <- <- <-.
  assert (TC : (Z.to_nat (size A * n * size B) + Z.to_nat n)%nat = Z.to_nat (size A * n * size B + n)) by nia. rewrite TC.
  apply (BnProofs4.train_three (size A) n (size B) Q0 Pn Q2 eps decay Pe beta gamma Fb Fg update rm0 rv0 Lr Lw x m v Lx K2 K3); intros i C; apply V2; exact C.
Qed.
(** with respect to beta, *)
Theorem C77_beta_partial : forall A B n eps decay update x b gamma y0 m0 v0 rm0 rv0 y m v rm rv dg, pos A -> 0 < n -> pos B -> len b = n -> fits gamma n ->
  let sh := A ++ n :: B in
  len x = size sh -> len y0 = size sh -> len m0 = n -> len v0 = n -> len rm0 = n -> len rv0 = n ->
  bn_forward_batch (size A) n (size B) eps decay update x (Some b) gamma (y0, m0, v0, rm0, rv0) = Some (y, m, v, rm, rv) ->
  match dg with Some (_, g) => len g = n | None => True end ->
  rgradient n (size sh) (fun u y0 => first5 (bn_forward_batch (size A) n (size B) eps decay update x (Some u) gamma (y0, m0, v0, rm0, rv0)))
    (fun accum dy d => match bn_grad_params (size A) n (size B) eps x m v dy (Some (accum : bool, d), dg) with Some (Some (_, d), _) => Some d | _ => None end) b.
Proof.
  intros A B n eps decay update x b gamma y0 m0 v0 rm0 rv0 y m v rm rv dg PA Pn PB Lb Fg sh Lx Ly Lm Lv Lr Lw F Fd. unfold len in *. unfold sh in *. rewrite BnProofs6.size_is in *.
  pose proof (BnProofs6.Q0 A PA) as Q0. pose proof (BnProofs6.Q2 B PB) as Q2.
  destruct (BnProofs2.forward_batch_ok (size A) n (size B) Q0 Pn Q2 eps decay (Some b) gamma Lb Fg update x y0 m0 v0 rm0 rv0 Lx Ly Lm Lv Lr Lw) as (y' & m' & v' & rm' & rv' & E & K1 & K2 & K3 & _ & _ & _ & V2 & _). rewrite F in E. injection E as <- <- <- <- <-.
  apply (BnProofs5.train_beta (size A) n (size B) Q0 Pn Q2 eps decay update m0 v0 rm0 rv0 Lm Lv Lr Lw x m v Lx K2 K3 b gamma dg Fg Fd Lb).
Qed.
(** and with respect to gamma. *)
Theorem C77_gamma_partial : forall A B n eps decay update x beta g y0 m0 v0 rm0 rv0 y m v rm rv db, pos A -> 0 < n -> pos B -> fits beta n -> len g = n ->
  let sh := A ++ n :: B in
  len x = size sh -> len y0 = size sh -> len m0 = n -> len v0 = n -> len rm0 = n -> len rv0 = n ->
  bn_forward_batch (size A) n (size B) eps decay update x beta (Some g) (y0, m0, v0, rm0, rv0) = Some (y, m, v, rm, rv) ->
  match db with Some (_, b) => len b = n | None => True end ->
  rgradient n (size sh) (fun u y0 => first5 (bn_forward_batch (size A) n (size B) eps decay update x beta (Some u) (y0, m0, v0, rm0, rv0)))
    (fun accum dy d => match bn_grad_params (size A) n (size B) eps x m v dy (db, Some (accum : bool, d)) with Some (_, Some (_, d)) => Some d | _ => None end) g.
Proof.
  intros A B n eps decay update x beta g y0 m0 v0 rm0 rv0 y m v rm rv db PA Pn PB Fb Lg sh Lx Ly Lm Lv Lr Lw F Fd. unfold len in *. unfold sh in *. rewrite BnProofs6.size_is in *.
  pose proof (BnProofs6.Q0 A PA) as Q0. pose proof (BnProofs6.Q2 B PB) as Q2.
  destruct (BnProofs2.forward_batch_ok (size A) n (size B) Q0 Pn Q2 eps decay beta (Some g) Fb Lg update x y0 m0 v0 rm0 rv0 Lx Ly Lm Lv Lr Lw) as (y' & m' & v' & rm' & rv' & E & K1 & K2 & K3 & _ & _ & _ & V2 & _). rewrite F in E. injection E as <- <- <- <- <-.
  apply (BnProofs5.train_gamma (size A) n (size B) Q0 Pn Q2 eps decay update m0 v0 rm0 rv0 Lm Lv Lr Lw x m v Lx K2 K3) with (beta := beta) (db := db); auto; intros c C; apply V2; exact C.
Qed.
Example C77_x_ex : exists dx, bn_grad_x 2 1 1 1 true [0; 0]%R None [0]%R [0]%R [1; 3]%R None [10; 20]%R = Some dx /\ at_pos dx 0 = 9%R /\ at_pos dx 1 = 21%R.
Proof.
  eexists. split; [reflexivity |]. cbv -[Rplus Rmult Rminus Rdiv Rinv IZR sqrt Ropp ActModel.cpow]. replace (0 + 1)%R with 1%R by ring. rewrite ?BnProofs3.cpow_32 by lra. rewrite sqrt_1. split; field.
Qed.
Example C77_params_ex : exists d g, bn_grad_params 2 1 1 1 [0; 3]%R [0]%R [0]%R [1; 4]%R (Some (true, [10]%R), Some (false, [7]%R)) = Some (Some (true, [d]), Some (false, [g])) /\ d = 15%R /\ g = 12%R.
Proof.
  do 2 eexists. split; [reflexivity |]. replace (0 + 1)%R with 1%R by ring. rewrite sqrt_1. split; field.
Qed.

(** * C78 *)
(** Testing mode uses the running statistics. *)
Theorem C78_forward_partial : forall A B n eps x beta gamma rm rv y0, pos A -> 0 < n -> pos B -> fits beta n -> fits gamma n ->
  let sh := A ++ n :: B in let a := length A in
  len x = size sh -> len rm = n -> len rv = n -> len y0 = size sh ->
  exists y, bn_forward_global (size A) n (size B) eps x beta gamma rm rv y0 = Some y /\ length y = length y0 /\
  forall e, 0 <= e < size sh -> at_pos y e = normalized eps beta gamma (at_pos rm (channel_of sh a e)) (at_pos rv (channel_of sh a e)) (at_pos x e) (channel_of sh a e).
Proof.
  intros A B n eps x beta gamma rm rv y0 PA Pn PB Fb Fg sh a Lx Lr Lw Ly. unfold len in *. unfold sh in Lx, Ly. rewrite BnProofs6.size_is in Lx, Ly.
  destruct (BnProofs2.forward_global_ok (size A) n (size B) (BnProofs6.Q0 A PA) Pn (BnProofs6.Q2 B PB) eps beta gamma Fb Fg x rm rv y0 Lx Lr Lw Ly) as (y & E & L & V).
  exists y. split; [exact E |]. split; [exact L |]. intros e He. destruct (BnProofs6.at_onto A B n PA Pn PB e He) as (c & k & C & Hk & Ee & Ec). unfold sh, a. rewrite Ec, Ee. change (at_pos y) with (SmProofs1.el y). rewrite V by assumption. unfold BnProofs2.scaled, normalized. change (at_pos x) with (SmProofs1.el x). change (at_pos rm) with (SmProofs1.el rm). change (at_pos rv) with (SmProofs1.el rv). unfold Rdiv. ring.
Qed.
(** With the running statistics equal to those of the batch, both modes give the same output. *)
Theorem C78_modes_agree : forall A B n eps decay update x beta gamma y0 m0 v0 rm0 rv0 y m v rm rv y1, pos A -> 0 < n -> pos B -> fits beta n -> fits gamma n ->
  let sh := A ++ n :: B in
  len x = size sh -> len y0 = size sh -> len m0 = n -> len v0 = n -> len rm0 = n -> len rv0 = n -> len y1 = size sh ->
  bn_forward_batch (size A) n (size B) eps decay update x beta gamma (y0, m0, v0, rm0, rv0) = Some (y, m, v, rm, rv) ->
  bn_forward_global (size A) n (size B) eps x beta gamma m v y1 = Some y.
Proof.
  intros A B n eps decay update x beta gamma y0 m0 v0 rm0 rv0 y m v rm rv y1 PA Pn PB Fb Fg sh Lx Ly Lm Lv Lr Lw Ly1 F.
  destruct (C76_forward_partial A B n eps decay update x beta gamma y0 m0 v0 rm0 rv0 PA Pn PB Fb Fg Lx Ly Lm Lv Lr Lw) as (y' & m' & v' & rm' & rv' & E & K1 & K2 & K3 & _ & _ & V1 & V2 & _). rewrite F in E. injection E as <- <- <- <- <-.
  destruct (C78_forward_partial A B n eps x beta gamma m v y1 PA Pn PB Fb Fg Lx K2 K3 Ly1) as (y' & E & L & W). rewrite E. f_equal. unfold len in *. apply (nth_ext _ _ 0%R 0%R); [unfold sh in *; lia |]. intros i Hi.
  specialize (V1 (Z.of_nat i) ltac:(unfold sh in *; lia)). specialize (W (Z.of_nat i) ltac:(unfold sh in *; lia)). unfold at_pos at 1 in V1. unfold at_pos at 1 in W. rewrite Nat2Z.id in V1, W. rewrite V1, W.
  destruct (V2 (channel_of (A ++ n :: B) (length A) (Z.of_nat i))) as (-> & ->); [apply BnProofs6.channel_range; exact Pn | reflexivity].
Qed.
(** Backward computes the derivatives. *)
Theorem C78_x_partial : forall A B n eps x beta gamma rm rv, pos A -> 0 < n -> pos B -> fits beta n -> fits gamma n -> let sh := A ++ n :: B in
  len x = size sh -> len rm = n -> len rv = n -> (forall c, 0 <= c < n -> (0 < at_pos rv c + eps)%R) ->
  rgradient (size sh) (size sh) (fun u => bn_forward_global (size A) n (size B) eps u beta gamma rm rv) (fun accum dy dx => bn_global_x (size A) n (size B) eps accum gamma rv dy dx) x.
Proof.
  intros A B n eps x beta gamma rm rv PA Pn PB Fb Fg sh Lx Lr Lw Pv. unfold len in *. unfold sh in *. rewrite BnProofs6.size_is in *.
  apply (BnProofs5.test_x (size A) n (size B) (BnProofs6.Q0 A PA) Pn (BnProofs6.Q2 B PB) eps rm rv Lr Lw Pv beta gamma x Fb Fg Lx).
Qed.
Theorem C78_beta_partial : forall A B n eps x b gamma rm rv, pos A -> 0 < n -> pos B -> len b = n -> fits gamma n -> let sh := A ++ n :: B in
  len x = size sh -> len rm = n -> len rv = n ->
  rgradient n (size sh) (fun u => bn_forward_global (size A) n (size B) eps x (Some u) gamma rm rv) (fun accum dy d => bn_global_beta (size A) n (size B) accum dy d) b.
Proof.
  intros A B n eps x b gamma rm rv PA Pn PB Lb Fg sh Lx Lr Lw. unfold len in *. unfold sh in *. rewrite BnProofs6.size_is in *.
  apply (BnProofs5.test_beta (size A) n (size B) (BnProofs6.Q0 A PA) Pn (BnProofs6.Q2 B PB) eps rm rv Lr Lw b gamma x Fg Lx Lb).
Qed.
Theorem C78_gamma_partial : forall A B n eps x beta g rm rv, pos A -> 0 < n -> pos B -> fits beta n -> len g = n -> let sh := A ++ n :: B in
  len x = size sh -> len rm = n -> len rv = n -> (forall c, 0 <= c < n -> (0 < at_pos rv c + eps)%R) ->
  rgradient n (size sh) (fun u => bn_forward_global (size A) n (size B) eps x beta (Some u) rm rv) (fun accum dy d => bn_global_gamma (size A) n (size B) eps accum x rm rv dy d) g.
Proof.
  intros A B n eps x beta g rm rv PA Pn PB Fb Lg sh Lx Lr Lw Pv. unfold len in *. unfold sh in *. rewrite BnProofs6.size_is in *.
  apply (BnProofs5.test_gamma (size A) n (size B) (BnProofs6.Q0 A PA) Pn (BnProofs6.Q2 B PB) eps rm rv Lr Lw Pv g beta x Fb Lx Lg).
Qed.
Example C78_forward_ex : exists y, bn_forward_global 1 2 1 1 [5; 7]%R (Some [1; 2]%R) (Some [3; 4]%R) [4; 5]%R [0; 0]%R [9; 9]%R = Some y /\ at_pos y 0 = 4%R /\ at_pos y 1 = 10%R.
Proof.
  eexists. split; [reflexivity |]. cbv -[Rplus Rmult Rminus Rdiv Rinv IZR sqrt Ropp ActModel.cpow]. replace (0 + 1)%R with 1%R by ring. rewrite ?BnProofs3.cpow_32 by lra. rewrite sqrt_1. split; field.
Qed.

Print Assumptions C76_channel.
Print Assumptions C76_roles.
Print Assumptions C76_setup.
Print Assumptions C76_forward_partial.
Print Assumptions C76_recompute.
Print Assumptions C76_standardized.
Print Assumptions C76_running_refuted.
Print Assumptions C77_x_partial.
Print Assumptions C77_three_partial.
Print Assumptions C77_beta_partial.
Print Assumptions C77_gamma_partial.
Print Assumptions C78_forward_partial.
Print Assumptions C78_modes_agree.
Print Assumptions C78_x_partial.
Print Assumptions C78_beta_partial.
Print Assumptions C78_gamma_partial.
