(** Batch normalization in training mode: the gradients. *)
From Coq Require Import List ZArith Lia Bool Reals Lra.
From Verif Require Import NdModel NdSpec NdProofs IdxModel IdxSpec IdxProofs1 IdxProofs2 IdxProofs3 IdxProofs6 JoinModel JoinSpec JoinProofs JoinProofs2 ScanModel ScanProofs1 ScanProofs4 ReduceProofs1 ConvProofs3 SortProofs3 BinModel ActModel ActSpec ActProofs1 ActProofs2 ActProofs4 SmSpec SmModel SmProofs1 SmProofs2 SmProofs3 BnSpec BnModel BnProofs1 BnProofs2.
Import ListNotations.
Local Open Scope list_scope.
Local Open Scope Z_scope.

Lemma D_scaled (f m v : R -> R) x f' m' v' g b eps : derivable_pt_lim f x f' -> derivable_pt_lim m x m' -> derivable_pt_lim v x v' -> (0 < v x + eps)%R ->
  derivable_pt_lim (fun t => (f t - m t) * g / sqrt (v t + eps) + b)%R x ((f' - m') * g / sqrt (v x + eps) - (f x - m x) * g * v' / (2 * sqrt (v x + eps) * (v x + eps)))%R.
Proof.
  intros F M V P. assert (S : (0 < sqrt (v x + eps))%R) by (apply sqrt_lt_R0; exact P).
  eapply D_eq; [apply (D_plus (fun t => (f t - m t) * g / sqrt (v t + eps))%R (fun _ => b)); [apply (D_div (fun t => (f t - m t) * g)%R (fun t => sqrt (v t + eps))); [apply (D_mult (fun t => f t - m t)%R (fun _ => g)); [apply (D_minus f m); eassumption | apply D_const] | apply (D_sqrt (fun t => v t + eps)%R); [apply (D_plus v (fun _ => eps)); [eassumption | apply D_const] | exact P] | lra] | apply D_const] |].
  cbv beta. unfold Rsqr. pose proof (sqrt_sqrt (v x + eps) ltac:(lra)) as SS. replace (2 * sqrt (v x + eps) * (v x + eps))%R with (2 * sqrt (v x + eps) * (sqrt (v x + eps) * sqrt (v x + eps)))%R by (rewrite SS; reflexivity). field. lra.
Qed.
Lemma cpow_32 a : (0 < a)%R -> cpow a (- (3 / 2)) = (/ (sqrt a * a))%R.
Proof.
  intros P. unfold cpow. destruct (Rlt_dec 0 a); [| contradiction]. rewrite Rpower_Ropp. f_equal. replace (3 / 2)%R with (/ 2 + 1)%R by field. rewrite Rpower_plus, Rpower_sqrt, Rpower_1 by exact P. reflexivity.
Qed.
Lemma cpow_12 a : (0 < a)%R -> cpow a (- (1 / 2)) = (/ sqrt a)%R.
Proof.
  intros P. unfold cpow. destruct (Rlt_dec 0 a); [| contradiction]. rewrite Rpower_Ropp. f_equal. replace (1 / 2)%R with (/ 2)%R by field. apply Rpower_sqrt; exact P.
Qed.

Section backward.
Variables s0 s1 s2 : Z.
Hypothesis P0 : 0 < s0.
Hypothesis P1 : 0 < s1.
Hypothesis P2 : 0 < s2.
Local Notation T := (s0 * s1 * s2).
Local Notation K := (s0 * s2).
Local Notation pos := (pos s1 s2).
Local Notation cmean := (cmean s0 s1 s2).
Local Notation cvar := (cvar s0 s1 s2).
Variables (eps decay : R).
Hypothesis Peps : (0 < eps)%R.
Variables (beta gamma : option (list R)).
Hypothesis Fb : fits beta s1.
Hypothesis Fg : fits gamma s1.
Local Notation scaled := (scaled eps beta gamma).

(** What backward computes. *)
Definition given_at (given : option (list R * list R)) (second : bool) (c : Z) : R := match given with Some (dm, dv) => el (if second then dv else dm) c | None => 0%R end.
Definition given_fits (given : option (list R * list R)) : Prop := match given with Some (dm, dv) => rlen dm = s1 /\ rlen dv = s1 | None => True end.
Definition dvar_of (x m v dy : Z -> R) given (c : Z) : R :=
  (rsum K (fun k => dy (pos c k) * given_or gamma 1 c * (x (pos c k) - m c)) * (- (1 / 2)) * cpow (v c + eps) (- (3 / 2)) + given_at given true c)%R.
Definition dmean_of (x m v dy : Z -> R) given (c : Z) : R :=
  (rsum K (fun k => dy (pos c k) * given_or gamma 1 c) * (-1 / sqrt (v c + eps)) + dvar_of x m v dy given c * (-2) * rsum K (fun k => x (pos c k) - m c) / IZR K + given_at given false c)%R.
Definition dx_of (x m v dy : Z -> R) given (c k : Z) : R :=
  (dy (pos c k) * given_or gamma 1 c / sqrt (v c + eps) + dvar_of x m v dy given c * 2 * (x (pos c k) - m c) / IZR K + dmean_of x m v dy given c / IZR K)%R.
Lemma grad_sums_ok x m dy c : rlen x = T -> rlen m = s1 -> rlen dy = T -> 0 <= c < s1 ->
  bn_grad_sums s0 s1 s2 c x gamma m dy = Some (rsum K (fun k => el dy (pos c k) * given_or gamma 1 c * (el x (pos c k) - el m c))%R, rsum K (fun k => el dy (pos c k) * given_or gamma 1 c)%R, rsum K (fun k => el x (pos c k) - el m c)%R).
Proof using P0 P1 P2 Fg.
  intros Lx Lm Ld C. unfold bn_grad_sums. edestruct (channel_inv s0 s1 s2 P0 P2 (fun n s => s = (rsum n (fun k => el dy (pos c k) * given_or gamma 1 c * (el x (pos c k) - el m c))%R, rsum n (fun k => el dy (pos c k) * given_or gamma 1 c)%R, rsum n (fun k => el x (pos c k) - el m c)%R)) c) as (s & E & ->); [| | exact E].
  - intros k s Hk ->. rewrite (param_ok _ _ s1) by assumption. cbn [obind]. rewrite !rget by (first [rewrite Lx; apply pos_range; assumption | rewrite Ld; apply pos_range; assumption | lia]). cbn [obind]. eexists. split; [reflexivity |]. rewrite !rsum_S by lia. reflexivity.
  - rewrite !rsum_0. reflexivity.
Qed.
Lemma grad_x_ok accum x m v dy given dx0 : rlen x = T -> rlen m = s1 -> rlen v = s1 -> rlen dy = T -> given_fits given -> rlen dx0 = T ->
  exists dx, bn_grad_x s0 s1 s2 eps accum x gamma m v dy given dx0 = Some dx /\ length dx = length dx0 /\
  forall c k, 0 <= c < s1 -> 0 <= k < K -> el dx (pos c k) = ((if accum : bool then el dx0 (pos c k) else 0) + dx_of (el x) (el m) (el v) (el dy) given c k)%R.
Proof using P0 P1 P2 Fg.
  intros Lx Lm Lv Ld Lg L0. unfold bn_grad_x.
  match goal with |- context [loop ?f (upto s1) dx0] => destruct (loop_inv (fun n dx => length dx = length dx0 /\ forall c k, 0 <= c < s1 -> 0 <= k < K -> el dx (pos c k) = (if c <? n then (if accum : bool then el dx0 (pos c k) else 0) + dx_of (el x) (el m) (el v) (el dy) given c k else el dx0 (pos c k))%R) f s1 ltac:(lia)) with (s := dx0) as (dx & E & L & V) end.
  - intros c dx C (L & V). rewrite grad_sums_ok by assumption. cbn [obind]. rewrite rget by lia. cbn [obind].
    assert (GT : bn_given given true c = Some (given_at given true c)) by (destruct given as [[dm dv] |]; [destruct Lg; apply rget; lia | reflexivity]).
    assert (GF : bn_given given false c = Some (given_at given false c)) by (destruct given as [[dm dv] |]; [destruct Lg; apply rget; lia | reflexivity]). rewrite GT, GF. cbn [obind].
    edestruct (channel_write s0 s1 s2 P0 P1 P2 c) with (W := fun k (old : R) => ((if accum then old else 0) + dx_of (el x) (el m) (el v) (el dy) given c k)%R) as (dx' & E' & L' & V' & O'); [exact C | | | exists dx'; split; [exact E' |]].
    + intros k y Hk Ly. rewrite (param_ok _ _ s1) by assumption. cbn [obind]. rewrite !rget by (first [rewrite Lx; apply pos_range; assumption | rewrite Ld; apply pos_range; assumption | rewrite Ly; apply pos_range; assumption | lia]). cbn [obind]. f_equal. unfold dx_of, dmean_of, dvar_of. destruct accum; ring.
    + unfold rlen in *. rewrite L. exact L0.
    + split; [congruence |]. intros c' k C' Hk. destruct (Z.eq_dec c' c) as [-> | N].
      * rewrite V', V by assumption. destruct (Z.ltb_spec c c); [lia |]. destruct (Z.ltb_spec c (c + 1)); [| lia]. reflexivity.
      * rewrite O', V by assumption. destruct (Z.ltb_spec c' c), (Z.ltb_spec c' (c + 1)); try lia; reflexivity.
  - split; [reflexivity |]. intros c k C Hk. destruct (Z.ltb_spec c 0); [lia | reflexivity].
  - exists dx. split; [exact E |]. split; [exact L |]. intros c k C Hk. rewrite V by assumption. destruct (Z.ltb_spec c s1); [reflexivity | lia].
Qed.

(** The slopes. *)
Section slopes.
Variable x : Z -> R.
Variables (c kq : Z).
Hypothesis C : 0 <= c < s1.
Hypothesis Hq : 0 <= kq < K.
Local Notation q := (pos c kq).
Definition moved (t : R) : Z -> R := fun i => if i =? q then t else x i.
Lemma moved_in t k : 0 <= k < K -> moved t (pos c k) = (if k =? kq then t else x (pos c k)).
Proof using P0 P1 P2 C Hq.
  intros Hk. unfold moved. destruct (Z.eqb_spec (pos c k) q) as [E | N]; [apply pos_inj with (s0 := s0) in E; [| assumption ..]; destruct E as (_ & ->); rewrite Z.eqb_refl; reflexivity |].
  destruct (Z.eqb_spec k kq) as [-> |]; [contradiction | reflexivity].
Qed.
Lemma moved_out t c' k : 0 <= c' < s1 -> 0 <= k < K -> c' <> c -> moved t (pos c' k) = x (pos c' k).
Proof using P0 P1 P2 C Hq.
  intros C' Hk N. unfold moved. destruct (Z.eqb_spec (pos c' k) q) as [E |]; [| reflexivity]. apply pos_inj with (s0 := s0) in E; [lia | assumption ..].
Qed.
Lemma moved_sum t (f : R -> R) : rsum K (fun k => f (moved t (pos c k))) = (f t + (rsum K (fun k => f (x (pos c k))) - f (x q)))%R.
Proof using P0 P1 P2 C Hq.
  rewrite (rsum_ext K _ (fun k => f (x (pos c k)) + (if k =? kq then f t - f (x q) else 0))%R); [rewrite rsum_plus, rsum_one by exact Hq; ring |].
  intros k Hk. rewrite moved_in by exact Hk. destruct (Z.eqb_spec k kq) as [-> |]; ring.
Qed.
Lemma D_cmean : derivable_pt_lim (fun t => cmean (moved t) c) (x q) (1 / IZR K)%R.
Proof using P0 P1 P2 C Hq.
  pose proof (K_real s0 s2 P0 P2). apply (near_ext (fun t => cmean (moved t) c) (fun t => (t + (rsum K (fun k => x (pos c k)) - x q)) / IZR K)%R).
  - intros t. unfold cmean. rewrite (moved_sum t (fun r => r)). reflexivity.
  - derive; [lra |]. unfold Rsqr. field. lra.
Qed.
Lemma moved_here i : moved (x q) i = x i.
Proof using. unfold moved. destruct (Z.eqb_spec i q) as [-> |]; reflexivity. Qed.
Lemma cmean_here c' : cmean (moved (x q)) c' = cmean x c'.
Proof using. unfold BnProofs2.cmean. f_equal. apply rsum_ext. intros. apply moved_here. Qed.
Lemma cvar_here c' : cvar (moved (x q)) c' = cvar x c'.
Proof using. unfold BnProofs2.cvar. rewrite cmean_here. do 2 f_equal. apply rsum_ext. intros. rewrite moved_here. reflexivity. Qed.
Lemma D_cvar : derivable_pt_lim (fun t => cvar (moved t) c) (x q) (2 * (x q - cmean x c) / IZR K)%R.
Proof using P0 P1 P2 C Hq.
  pose proof (K_real s0 s2 P0 P2). apply (near_ext (fun t => cvar (moved t) c) (fun t => (t * t + (rsum K (fun k => x (pos c k) * x (pos c k)) - x q * x q)) / IZR K - cmean (moved t) c * cmean (moved t) c)%R).
  - intros t. unfold cvar. rewrite (moved_sum t (fun r => r * r)%R). reflexivity.
  - eapply D_eq; [apply (D_minus (fun t => (t * t + (rsum K (fun k => x (pos c k) * x (pos c k)) - x q * x q)) / IZR K)%R (fun t => cmean (moved t) c * cmean (moved t) c)%R); [derive; [lra | reflexivity] | apply (D_mult (fun t => cmean (moved t) c) (fun t => cmean (moved t) c)); apply D_cmean] |].
    cbv beta. rewrite cmean_here. unfold Rsqr. field. lra.
Qed.
Lemma D_out k : 0 <= k < K -> derivable_pt_lim (fun t => moved t (pos c k)) (x q) (if k =? kq then 1 else 0)%R.
Proof using P0 P1 P2 C Hq.
  intros Hk. apply (near_ext _ (fun t => if k =? kq then t else x (pos c k))); [intros t; apply moved_in; exact Hk |]. destruct (k =? kq); [apply D_id | apply D_const].
Qed.
(** The slope of element k of the channel. *)
Definition slope_y (k : Z) : R :=
  (((if k =? kq then 1 else 0) - 1 / IZR K) * given_or gamma 1 c / sqrt (cvar x c + eps) - (x (pos c k) - cmean x c) * given_or gamma 1 c * (2 * (x q - cmean x c) / IZR K) / (2 * sqrt (cvar x c + eps) * (cvar x c + eps)))%R.
Lemma var_pos : (0 < cvar x c + eps)%R.
Proof using P0 P2 Peps. pose proof (cvar_nonneg s0 s1 s2 P0 P2 x c). lra. Qed.
Lemma D_y k : 0 <= k < K -> derivable_pt_lim (fun t => scaled (cmean (moved t) c) (cvar (moved t) c) (moved t (pos c k)) c) (x q) (slope_y k).
Proof using P0 P1 P2 C Hq Peps.
  intros Hk. unfold scaled. eapply D_eq; [apply (D_scaled (fun t => moved t (pos c k)) (fun t => cmean (moved t) c) (fun t => cvar (moved t) c)); [apply D_out; exact Hk | apply D_cmean | apply D_cvar | rewrite cvar_here; exact var_pos] |].
  cbv beta. rewrite cmean_here, cvar_here, moved_here. reflexivity.
Qed.
Lemma D_other c' k : 0 <= c' < s1 -> 0 <= k < K -> c' <> c -> derivable_pt_lim (fun t => scaled (cmean (moved t) c') (cvar (moved t) c') (moved t (pos c' k)) c') (x q) 0%R.
Proof using P0 P1 P2 C Hq.
  intros C' Hk N. apply (near_ext _ (fun _ => scaled (cmean x c') (cvar x c') (x (pos c' k)) c')); [| apply D_const]. intros t.
  assert (M : cmean (moved t) c' = cmean x c') by (unfold BnProofs2.cmean; f_equal; apply rsum_ext; intros j Hj; apply moved_out; assumption).
  assert (V : cvar (moved t) c' = cvar x c') by (unfold BnProofs2.cvar; rewrite M; do 2 f_equal; apply rsum_ext; intros j Hj; rewrite moved_out by assumption; reflexivity). rewrite M, V, moved_out by assumption. reflexivity.
Qed.
Lemma D_cmean_other c' : 0 <= c' < s1 -> c' <> c -> derivable_pt_lim (fun t => cmean (moved t) c') (x q) 0%R.
Proof using P0 P1 P2 C Hq.
  intros C' N. apply (near_ext _ (fun _ => cmean x c')); [| apply D_const]. intros t. unfold BnProofs2.cmean; f_equal; apply rsum_ext; intros j Hj; apply moved_out; assumption.
Qed.
Lemma D_cvar_other c' : 0 <= c' < s1 -> c' <> c -> derivable_pt_lim (fun t => cvar (moved t) c') (x q) 0%R.
Proof using P0 P1 P2 C Hq.
  intros C' N. apply (near_ext _ (fun _ => cvar x c')); [| apply D_const]. intros t.
  assert (M : cmean (moved t) c' = cmean x c') by (unfold BnProofs2.cmean; f_equal; apply rsum_ext; intros j Hj; apply moved_out; assumption).
  unfold BnProofs2.cvar; rewrite M; do 2 f_equal; apply rsum_ext; intros j Hj; rewrite moved_out by assumption; reflexivity.
Qed.
Lemma dev_zero : rsum K (fun k => x (pos c k) - cmean x c)%R = 0%R.
Proof using P0 P2.
  pose proof (K_real s0 s2 P0 P2). rewrite (rsum_ext K _ (fun k => x (pos c k) + - cmean x c)%R) by (intros; ring). rewrite rsum_plus, rsum_const by (pose proof (K_pos s0 s2 P0 P2); lia). unfold cmean. field. lra.
Qed.
(** The gradient that is computed is made of these slopes. *)
Lemma dx_is_slope (dy : Z -> R) given : dx_of x (cmean x) (cvar x) dy given c kq =
  (rsum K (fun k => dy (pos c k) * slope_y k) + given_at given false c * (1 / IZR K) + given_at given true c * (2 * (x q - cmean x c) / IZR K))%R.
Proof using P0 P1 P2 C Hq Peps.
  pose proof (K_real s0 s2 P0 P2) as KR. pose proof var_pos as VP. assert (SP : (0 < sqrt (cvar x c + eps))%R) by (apply sqrt_lt_R0; exact VP).
  unfold dx_of, dmean_of. rewrite dev_zero. unfold dvar_of. rewrite cpow_32 by exact VP. set (g := given_or gamma 1 c). set (sg := sqrt (cvar x c + eps)) in *. set (w := (cvar x c + eps)%R) in *. set (mu := cmean x c). set (D := (2 * (x q - mu) / IZR K)%R).
  assert (E : rsum K (fun k => dy (pos c k) * slope_y k)%R = (dy q * g / sg + (rsum K (fun k => dy (pos c k) * g) * (- (1 / (IZR K * sg))) + rsum K (fun k => dy (pos c k) * g * (x (pos c k) - mu)) * (- (D / (2 * sg * w)))))%R).
  { rewrite (rsum_ext K _ (fun k => (if k =? kq then dy q * g / sg else 0) + ((dy (pos c k) * g) * (- (1 / (IZR K * sg))) + (dy (pos c k) * g * (x (pos c k) - mu)) * (- (D / (2 * sg * w)))))%R).
    - rewrite !rsum_plus, rsum_one, !rsum_scale_r by exact Hq. reflexivity.
    - intros k Hk. unfold slope_y. fold g mu w sg D. destruct (Z.eqb_spec k kq) as [-> |]; field; lra. }
  rewrite E. unfold D. fold q. field. lra.
Qed.
End slopes.
End backward.
