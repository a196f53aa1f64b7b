(** Histories of updates, element by element. *)
From Coq Require Import List ZArith Lia Bool Reals Lra.
From Verif Require Import NdModel IdxModel ScanModel ScanProofs1 ConvProofs3 SmSpec SmProofs1 UpdSpec UpdModel UpdProofs1.
Import ListNotations.
Local Open Scope list_scope.
Local Open Scope Z_scope.

Section Runs.
Context (n : Z) (Hn : 0 <= n) (g : Z -> list R) (Lg : forall T, 0 <= T < counted -> rlen (g T) = n).
(** What an update with one state does to arrays of length n. *)
Definition does1 (U : Z * list R * list R -> option (Z * list R * list R)) (body : Z -> R -> R -> R -> R * R) (g : list R) : Prop :=
  forall t a x, rlen a = n -> rlen x = n -> exists a' x', U (t, a, x) = Some (next_t t, a', x') /\ rlen a' = n /\ rlen x' = n /\
  forall e, 0 <= e < n -> (el a' e, el x' e) = body (next_t t) (el g e) (el a e) (el x e).
Definition does2 (U : Z * list R * list R * list R -> option (Z * list R * list R * list R)) (body : Z -> R -> R -> R -> R -> R * R * R) (g : list R) : Prop :=
  forall t a b x, rlen a = n -> rlen b = n -> rlen x = n -> exists a' b' x', U (t, a, b, x) = Some (next_t t, a', b', x') /\ rlen a' = n /\ rlen b' = n /\ rlen x' = n /\
  forall e, 0 <= e < n -> (el a' e, el b' e, el x' e) = body (next_t t) (el g e) (el a e) (el b e) (el x e).
Definition does3 (U : Z * list R * list R * list R * list R -> option (Z * list R * list R * list R * list R)) (body : Z -> R -> R -> R -> R -> R -> R * R * R * R) (g : list R) : Prop :=
  forall t a b c x, rlen a = n -> rlen b = n -> rlen c = n -> rlen x = n -> exists a' b' c' x', U (t, a, b, c, x) = Some (next_t t, a', b', c', x') /\ rlen a' = n /\ rlen b' = n /\ rlen c' = n /\ rlen x' = n /\
  forall e, 0 <= e < n -> (el a' e, el b' e, el c' e, el x' e) = body (next_t t) (el g e) (el a e) (el b e) (el c e) (el x e).

Lemma history (Q : Z -> Prop) : Q 0 -> (forall T, 0 <= T < counted -> Q T -> Q (T + 1)) -> forall T, 0 <= T <= counted -> Q T.
Proof.
  intros Q0 QS T (HT & HC). revert HC. apply (rsum_ind (fun T => T <= counted -> Q T)); [intros; exact Q0 | | exact HT]. intros k Hk IH HC. apply QS; [lia |]. apply IH. lia.
Qed.
Lemma run0 (U : Z -> Z * list R -> option (Z * list R)) (body : Z -> R -> R -> R) (t : Z -> Z) (x : Z -> list R) :
  (forall T t x, 0 <= T < counted -> rlen x = n -> exists x', U T (t, x) = Some (next_t t, x') /\ rlen x' = n /\ forall e, 0 <= e < n -> el x' e = body T (el (g T) e) (el x e)) ->
  updates U (fun T => (t T, x T)) -> t 0 = 0 -> rlen (x 0) = n ->
  (forall T, 0 <= T <= counted -> t T = T /\ rlen (x T) = n) /\
  (forall T e, 0 <= T < counted -> 0 <= e < n -> el (x (T + 1)) e = body T (el (g T) e) (el (x T) e)).
Proof using.
  intros D U0 T0 L0. assert (A : forall T, 0 <= T <= counted -> t T = T /\ rlen (x T) = n).
  { apply history; [split; assumption |]. intros T HT (ET & L). specialize (U0 T HT). cbn beta in U0. destruct (D T (t T) (x T) HT L) as (x' & E & L' & _). rewrite U0 in E. injection E as E1 E2. rewrite E1, E2, ET. split; [apply next_counted; exact HT | exact L']. }
  split; [exact A |]. intros T e HT He. destruct (A T ltac:(lia)) as (ET & L). specialize (U0 T HT). cbn beta in U0. destruct (D T (t T) (x T) HT L) as (x' & E & L' & V). rewrite U0 in E. injection E as E1 E2. rewrite E2. apply V. exact He.
Qed.
Lemma run1 U body (t : Z -> Z) (a x : Z -> list R) :
  (forall T, 0 <= T < counted -> does1 (U T) (body T) (g T)) ->
  updates U (fun T => (t T, a T, x T)) -> t 0 = 0 -> rlen (a 0) = n -> rlen (x 0) = n ->
  (forall T, 0 <= T <= counted -> t T = T /\ rlen (a T) = n /\ rlen (x T) = n) /\
  (forall T e, 0 <= T < counted -> 0 <= e < n -> (el (a (T + 1)) e, el (x (T + 1)) e) = body T (T + 1) (el (g T) e) (el (a T) e) (el (x T) e)).
Proof using.
  intros D U0 T0 La Lx. assert (A : forall T, 0 <= T <= counted -> t T = T /\ rlen (a T) = n /\ rlen (x T) = n).
  { apply history; [auto |]. intros T HT (ET & L1 & L2). specialize (U0 T HT). cbn beta in U0. destruct (D T HT (t T) (a T) (x T) L1 L2) as (a' & x' & E & L1' & L2' & _). rewrite U0 in E. injection E as E1 E2 E3. rewrite E1, E2, E3, ET. split; [apply next_counted; exact HT | split; assumption]. }
  split; [exact A |]. intros T e HT He. destruct (A T ltac:(lia)) as (ET & L1 & L2). specialize (U0 T HT). cbn beta in U0. destruct (D T HT (t T) (a T) (x T) L1 L2) as (a' & x' & E & _ & _ & V). rewrite U0 in E. injection E as E1 E2 E3. rewrite E2, E3, V by exact He. rewrite ET, next_counted by exact HT. reflexivity.
Qed.
Lemma run2 U body (t : Z -> Z) (a b x : Z -> list R) :
  (forall T, 0 <= T < counted -> does2 (U T) (body T) (g T)) ->
  updates U (fun T => (t T, a T, b T, x T)) -> t 0 = 0 -> rlen (a 0) = n -> rlen (b 0) = n -> rlen (x 0) = n ->
  (forall T, 0 <= T <= counted -> t T = T /\ rlen (a T) = n /\ rlen (b T) = n /\ rlen (x T) = n) /\
  (forall T e, 0 <= T < counted -> 0 <= e < n -> (el (a (T + 1)) e, el (b (T + 1)) e, el (x (T + 1)) e) = body T (T + 1) (el (g T) e) (el (a T) e) (el (b T) e) (el (x T) e)).
Proof using.
  intros D U0 T0 La Lb Lx. assert (A : forall T, 0 <= T <= counted -> t T = T /\ rlen (a T) = n /\ rlen (b T) = n /\ rlen (x T) = n).
  { apply history; [auto |]. intros T HT (ET & L1 & L2 & L3). specialize (U0 T HT). cbn beta in U0. destruct (D T HT (t T) (a T) (b T) (x T) L1 L2 L3) as (a' & b' & x' & E & L1' & L2' & L3' & _). rewrite U0 in E. injection E as E1 E2 E3 E4. rewrite E1, E2, E3, E4, ET. split; [apply next_counted; exact HT | auto]. }
  split; [exact A |]. intros T e HT He. destruct (A T ltac:(lia)) as (ET & L1 & L2 & L3). specialize (U0 T HT). cbn beta in U0. destruct (D T HT (t T) (a T) (b T) (x T) L1 L2 L3) as (a' & b' & x' & E & _ & _ & _ & V). rewrite U0 in E. injection E as E1 E2 E3 E4. rewrite E2, E3, E4, V by exact He. rewrite ET, next_counted by exact HT. reflexivity.
Qed.
Lemma run3 U body (t : Z -> Z) (a b c x : Z -> list R) :
  (forall T, 0 <= T < counted -> does3 (U T) (body T) (g T)) ->
  updates U (fun T => (t T, a T, b T, c T, x T)) -> t 0 = 0 -> rlen (a 0) = n -> rlen (b 0) = n -> rlen (c 0) = n -> rlen (x 0) = n ->
  (forall T, 0 <= T <= counted -> t T = T /\ rlen (a T) = n /\ rlen (b T) = n /\ rlen (c T) = n /\ rlen (x T) = n) /\
  (forall T e, 0 <= T < counted -> 0 <= e < n -> (el (a (T + 1)) e, el (b (T + 1)) e, el (c (T + 1)) e, el (x (T + 1)) e) = body T (T + 1) (el (g T) e) (el (a T) e) (el (b T) e) (el (c T) e) (el (x T) e)).
Proof using.
  intros D U0 T0 La Lb Lc Lx. assert (A : forall T, 0 <= T <= counted -> t T = T /\ rlen (a T) = n /\ rlen (b T) = n /\ rlen (c T) = n /\ rlen (x T) = n).
  { apply history; [auto |]. intros T HT (ET & L1 & L2 & L3 & L4). specialize (U0 T HT). cbn beta in U0. destruct (D T HT (t T) (a T) (b T) (c T) (x T) L1 L2 L3 L4) as (a' & b' & c' & x' & E & L1' & L2' & L3' & L4' & _). rewrite U0 in E. injection E as E1 E2 E3 E4 E5. rewrite E1, E2, E3, E4, E5, ET. split; [apply next_counted; exact HT | auto]. }
  split; [exact A |]. intros T e HT He. destruct (A T ltac:(lia)) as (ET & L1 & L2 & L3 & L4). specialize (U0 T HT). cbn beta in U0. destruct (D T HT (t T) (a T) (b T) (c T) (x T) L1 L2 L3 L4) as (a' & b' & c' & x' & E & _ & _ & _ & _ & V). rewrite U0 in E. injection E as E1 E2 E3 E4 E5. rewrite E2, E3, E4, E5, V by exact He. rewrite ET, next_counted by exact HT. reflexivity.
Qed.

(** ** The updates *)
Section One.
Context (grad : list R) (L : rlen grad = n).
Lemma sgd_does lr t x : rlen x = n -> exists x', sgd_update lr grad (t, x) = Some (next_t t, x') /\ rlen x' = n /\ forall e, 0 <= e < n -> el x' e = (el x e - lr * el grad e)%R.
Proof using Hn L. intros Lx. unfold sgd_update. change (sizeof x) with (rlen x). rewrite Lx. destruct (transform_ok (fun g x => x - lr * g)%R n grad x Hn L Lx) as (r & E & Lr & V). rewrite E. exists r. auto. Qed.
Lemma two_transforms f h t v x : rlen v = n -> rlen x = n ->
  exists v' x', obind (transform f (sizeof x) grad v) (fun v => obind (transform h (sizeof x) v x) (fun x => Some (next_t t, v, x))) = Some (next_t t, v', x') /\ rlen v' = n /\ rlen x' = n /\
  forall e, 0 <= e < n -> (el v' e, el x' e) = (f (el grad e) (el v e), h (f (el grad e) (el v e)) (el x e)).
Proof using Hn L.
  intros Lv Lx. change (sizeof x) with (rlen x). rewrite Lx. destruct (transform_ok f n grad v Hn L Lv) as (r & E & Lr & V). rewrite E. cbn [obind].
  destruct (transform_ok h n r x Hn Lr Lx) as (r' & E' & Lr' & V'). rewrite E'. exists r, r'. split; [reflexivity |]. split; [exact Lr |]. split; [exact Lr' |]. intros e He. rewrite V', V by exact He. reflexivity.
Qed.
Lemma momentum_does lr mu : does1 (momentum_update lr mu grad) (fun _ g v x => (mu * v + lr * g, x - (mu * v + lr * g))%R) grad.
Proof using Hn L. intros t v x Lv Lx. exact (two_transforms (fun g v => mu * v + lr * g)%R (fun v x => x - v)%R t v x Lv Lx). Qed.
Lemma sgdw_does lr0 lr mu rate : does1 (sgdw_update lr0 lr mu rate grad) (fun _ g v x => (mu * v + lr * g, x - (mu * v + lr * g) - lr / lr0 * rate * x)%R) grad.
Proof using Hn L. intros t v x Lv Lx. exact (two_transforms (fun g v => mu * v + lr * g)%R (fun v x => x - v - lr / lr0 * rate * x)%R t v x Lv Lx). Qed.
Lemma nesterov_does lr mu : does1 (nesterov_update lr mu grad) (fun _ g v x => (mu * v - lr * g, x + (- mu * v + (1 + mu) * (mu * v - lr * g)))%R) grad.
Proof using Hn L. 
  intros t a x La Lx. unfold nesterov_update. change (sizeof x) with (rlen x). rewrite Lx;
  match goal with |- context [elements1 n ?B grad _] => destruct (elements1_ok B n grad a x Hn L La Lx) as (a' & x' & E & L1 & L2 & V) end. rewrite E. exists a', x'. auto.
Qed.
Lemma lion_does lr b1 b2 rate : does1 (lion_update lr b1 b2 rate grad) (fun _ g m x => (lerp g m b2, x - lr * (sign (lerp g m b1) + rate * x))%R) grad.
Proof using Hn L. 
  intros t a x La Lx. unfold lion_update. change (sizeof x) with (rlen x). rewrite Lx;
  match goal with |- context [elements1 n ?B grad _] => destruct (elements1_ok B n grad a x Hn L La Lx) as (a' & x' & E & L1 & L2 & V) end. rewrite E. exists a', x'. auto.
Qed.
Lemma adagrad_does lr eps : does1 (adagrad_update lr eps grad) (fun _ g v x => (v + g * g, x - lr * g / (sqrt (v + g * g) + eps))%R) grad.
Proof using Hn L. 
  intros t a x La Lx. unfold adagrad_update. change (sizeof x) with (rlen x). rewrite Lx;
  match goal with |- context [elements1 n ?B grad _] => destruct (elements1_ok B n grad a x Hn L La Lx) as (a' & x' & E & L1 & L2 & V) end. rewrite E. exists a', x'. auto.
Qed.
Lemma rmsprop_does lr decay eps : does1 (rmsprop_update lr decay eps grad) (fun _ g v x => (v * decay + g * g * (1 - decay), x - lr / (sqrt (v * decay + g * g * (1 - decay)) + eps) * g)%R) grad.
Proof using Hn L. 
  intros t a x La Lx. unfold rmsprop_update. change (sizeof x) with (rlen x). rewrite Lx;
  match goal with |- context [elements1 n ?B grad _] => destruct (elements1_ok B n grad a x Hn L La Lx) as (a' & x' & E & L1 & L2 & V) end. rewrite E. exists a', x'. auto.
Qed.
Lemma adadelta_does lr decay eps : does2 (adadelta_update lr decay eps grad) (fun _ g e d x =>
    let e := (e * decay + g * g * (1 - decay))%R in let delta := (sqrt ((d + eps) / (e + eps)) * g)%R in (e, d * decay + delta * delta * (1 - decay), x - lr * delta)%R) grad.
Proof using Hn L. 
  intros t a b x La Lb Lx. unfold adadelta_update. change (sizeof x) with (rlen x). rewrite Lx. cbv zeta;
  match goal with |- context [elements2 n ?B grad _] => destruct (elements2_ok B n grad a b x Hn L La Lb Lx) as (a' & b' & x' & E & L1 & L2 & L3 & V) end. rewrite E. exists a', b', x'. auto.
Qed.
Lemma graves_does lr decay mu eps : does3 (graves_update lr decay mu eps grad) (fun _ g n a d x =>
    let n := (decay * n + (1 - decay) * g * g)%R in let a := (decay * a + (1 - decay) * g)%R in let d := (mu * d - lr * g / sqrt (n - a * a + eps))%R in (n, a, d, x + d)%R) grad.
Proof using Hn L. 
  intros t a b c x La Lb Lc Lx. unfold graves_update. change (sizeof x) with (rlen x). rewrite Lx. cbv zeta;
  match goal with |- context [elements3 n ?B grad _] => destruct (elements3_ok B n grad a b c x Hn L La Lb Lc Lx) as (a' & b' & c' & x' & E & L1 & L2 & L3 & L4 & V) end. rewrite E. exists a', b', c', x'. auto 10.
Qed.
Lemma adam_does alpha b1 b2 eps : does2 (adam_update alpha b1 b2 eps grad) (fun t g m v x =>
    let m := (b1 * m + (1 - b1) * g)%R in let v := (b2 * v + (1 - b2) * g * g)%R in (m, v, x - alpha * bias_correction b1 b2 t * m / (sqrt v + eps))%R) grad.
Proof using Hn L. 
  intros t a b x La Lb Lx. unfold adam_update. change (sizeof x) with (rlen x). rewrite Lx. cbv zeta;
  match goal with |- context [elements2 n ?B grad _] => destruct (elements2_ok B n grad a b x Hn L La Lb Lx) as (a' & b' & x' & E & L1 & L2 & L3 & V) end. rewrite E. exists a', b', x'. auto.
Qed.
Lemma adamw_does alpha0 alpha b1 b2 eps rate : does2 (adamw_update alpha0 alpha b1 b2 eps rate grad) (fun t g m v x =>
    let m := (b1 * m + (1 - b1) * g)%R in let v := (b2 * v + (1 - b2) * g * g)%R in (m, v, x - alpha * bias_correction b1 b2 t * m / (sqrt v + eps) - alpha / alpha0 * rate * x)%R) grad.
Proof using Hn L. 
  intros t a b x La Lb Lx. unfold adamw_update. change (sizeof x) with (rlen x). rewrite Lx. cbv zeta;
  match goal with |- context [elements2 n ?B grad _] => destruct (elements2_ok B n grad a b x Hn L La Lb Lx) as (a' & b' & x' & E & L1 & L2 & L3 & V) end. rewrite E. exists a', b', x'. auto.
Qed.
Lemma adamax_does alpha b1 b2 eps : does2 (adamax_update alpha b1 b2 eps grad) (fun t g m u x =>
    let m := (b1 * m + (1 - b1) * g)%R in let u := Rmax (b2 * u) (Rabs g) in (m, u, x - alpha * (1 / (1 - pow_t b1 t)) * m / (u + eps))%R) grad.
Proof using Hn L. 
  intros t a b x La Lb Lx. unfold adamax_update. change (sizeof x) with (rlen x). rewrite Lx. cbv zeta;
  match goal with |- context [elements2 n ?B grad _] => destruct (elements2_ok B n grad a b x Hn L La Lb Lx) as (a' & b' & x' & E & L1 & L2 & L3 & V) end. rewrite E. exists a', b', x'. auto.
Qed.
Lemma amsgrad_does alpha b1 b2 eps correct : does3 (amsgrad_update alpha b1 b2 eps correct grad) (fun t g m v h x =>
    let m := (b1 * m + (1 - b1) * g)%R in let v := (b2 * v + (1 - b2) * g * g)%R in let h := Rmax h v in
    (m, v, h, x - alpha * (if correct : bool then bias_correction b1 b2 t else 1) * m / (sqrt h + eps))%R) grad.
Proof using Hn L. 
  intros t a b c x La Lb Lc Lx. unfold amsgrad_update. change (sizeof x) with (rlen x). rewrite Lx. cbv zeta;
  match goal with |- context [elements3 n ?B grad _] => destruct (elements3_ok B n grad a b c x Hn L La Lb Lc Lx) as (a' & b' & c' & x' & E & L1 & L2 & L3 & L4 & V) end. rewrite E. exists a', b', c', x'. auto 10.
Qed.
Lemma adabound_does alpha0 alpha b1 b2 eps final gamma : does2 (adabound_update alpha0 alpha b1 b2 eps final gamma grad) (fun t g m v x =>
    let m := (b1 * m + (1 - b1) * g)%R in let v := (b2 * v + (1 - b2) * g * g)%R in let f := (final * (alpha / alpha0))%R in
    (m, v, x - Rmin (f * (1 + 1 / (gamma * IZR t))) (Rmax (alpha * bias_correction b1 b2 t / (sqrt v + eps)) (f * (1 - 1 / (gamma * IZR t + 1)))) * m)%R) grad.
Proof using Hn L. 
  intros t a b x La Lb Lx. unfold adabound_update. change (sizeof x) with (rlen x). rewrite Lx. cbv zeta;
  match goal with |- context [elements2 n ?B grad _] => destruct (elements2_ok B n grad a b x Hn L La Lb Lx) as (a' & b' & x' & E & L1 & L2 & L3 & V) end. rewrite E. exists a', b', x'. auto.
Qed.
Lemma amsbound_does alpha0 alpha b1 b2 eps final gamma correct : does3 (amsbound_update alpha0 alpha b1 b2 eps final gamma correct grad) (fun t g m v h x =>
    let m := (b1 * m + (1 - b1) * g)%R in let v := (b2 * v + (1 - b2) * g * g)%R in let h := Rmax h v in let f := (final * (alpha / alpha0))%R in
    (m, v, h, x - Rmin (f * (1 + 1 / gamma * IZR t)) (Rmax (alpha * (if correct : bool then bias_correction b1 b2 t else 1) / (sqrt h + eps)) (f * (1 - 1 / (gamma * IZR t + 1)))) * m)%R) grad.
Proof using Hn L. 
  intros t a b c x La Lb Lc Lx. unfold amsbound_update. change (sizeof x) with (rlen x). rewrite Lx. cbv zeta;
  match goal with |- context [elements3 n ?B grad _] => destruct (elements3_ok B n grad a b c x Hn L La Lb Lc Lx) as (a' & b' & c' & x' & E & L1 & L2 & L3 & L4 & V) end. rewrite E. exists a', b', c', x'. auto 10.
Qed.
Lemma adabelief_does alpha b1 b2 eps rate amsgrad fused fixed rectify : does3 (adabelief_update alpha b1 b2 eps rate amsgrad fused fixed rectify grad) (fun t g m s h x =>
    let m := (b1 * m + (1 - b1) * g)%R in let s := (b2 * s + (1 - b2) * pow (g - m) 2)%R in
    let x := if fused : bool then (x - x * (if fixed : bool then rate else rate * alpha))%R else x in
    let s' := if amsgrad : bool then s else (s + eps)%R in let h' := if amsgrad then (Rmax h s + eps)%R else h in
    (m, s', h', if sgd_step rectify b2 t then (x - belief_alpha rectify alpha b1 b2 t * m)%R
      else (x - belief_alpha rectify alpha b1 b2 t * m / (sqrt (if amsgrad then h' else s') / sqrt (1 - pow_t b2 t) + eps))%R)) grad.
Proof using Hn L.
  intros t a b c x La Lb Lc Lx. unfold adabelief_update. change (sizeof x) with (rlen x). rewrite Lx. cbv zeta.
  match goal with |- context [elements3 n ?B grad _] => destruct (elements3_ok B n grad a b c x Hn L La Lb Lc Lx) as (a' & b' & c' & x' & E & L1 & L2 & L3 & L4 & V) end. rewrite E. exists a', b', c', x'. split; [reflexivity |]. do 4 (split; [assumption |]).
  intros e He. rewrite V by exact He. destruct amsgrad; reflexivity.
Qed.
End One.
End Runs.
