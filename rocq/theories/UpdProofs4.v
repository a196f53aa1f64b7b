(** Corrected averages, bounds of rates, rectification. *)
From Coq Require Import List ZArith Lia Bool Reals Lra.
From Verif Require Import NdModel IdxModel ScanModel ScanProofs1 ConvProofs3 SmSpec SmProofs1 UpdSpec UpdModel UpdProofs1 UpdProofs2 UpdProofs3.
Import ListNotations.
Local Open Scope Z_scope.

Lemma power_is b k : pow_t b k = power b k.
Proof. reflexivity. Qed.
Lemma one_minus b k : (0 <= b < 1)%R -> 0 < k -> (0 < 1 - power b k)%R.
Proof. intros B H. pose proof (power_range b k B H). lra. Qed.
(** The two ways of correcting the averages. *)
Lemma corrected alpha b1 b2 eps k m v : (0 <= b1 < 1)%R -> (0 <= b2 < 1)%R -> (0 < eps)%R -> 0 < k ->
  (alpha * bias_correction b1 b2 k * m / (sqrt v + eps) = alpha * (m / (1 - power b1 k)) / (sqrt (v / (1 - power b2 k)) + eps / sqrt (1 - power b2 k)))%R.
Proof.
  intros B1 B2 E K. pose proof (one_minus b1 k B1 K) as P1. pose proof (one_minus b2 k B2 K) as P2. unfold bias_correction. change pow_t with power.
  rewrite sqrt_div_alt by exact P2. pose proof (sqrt_lt_R0 _ P2) as Q. pose proof (sqrt_pos v) as W. set (s := sqrt (1 - power b2 k)) in *. set (w := sqrt v) in *. set (p := (1 - power b1 k)%R) in *. field. repeat split; lra.
Qed.
Lemma corrected_root alpha b1 b2 eps k m h : (0 <= b1 < 1)%R -> (0 <= b2 < 1)%R -> (0 < eps)%R -> 0 < k ->
  (alpha * bias_correction b1 b2 k * m / (sqrt h + eps) = alpha * (m / (1 - power b1 k)) / ((sqrt h + eps) / sqrt (1 - power b2 k)))%R.
Proof.
  intros B1 B2 E K. pose proof (one_minus b1 k B1 K) as P1. pose proof (one_minus b2 k B2 K) as P2. unfold bias_correction. change pow_t with power.
  pose proof (sqrt_lt_R0 _ P2). pose proof (sqrt_pos h). field. repeat split; lra.
Qed.
Lemma power_pos b k : (0 < b)%R -> (0 < power b k)%R.
Proof. intros. unfold power. apply pow_lt. assumption. Qed.
(** The largest of discounted values. *)
Lemma largest_discounted b (f : Z -> R) T v : 0 <= T -> (0 <= b)%R -> (T = 0 -> v = 0%R) -> (forall i, 0 <= i <= T -> (0 <= f i)%R) ->
  (0 < T -> largest (fun i => power b (T - 1 - i) * f i)%R T v) -> largest (fun i => power b (T - i) * f i)%R (T + 1) (Rmax (b * v) (f T)).
Proof.
  intros HT B Z0 F L. apply (largest_S _ T (b * v)%R); [exact HT | | |].
  - intros ->. rewrite (Z0 eq_refl). replace (0 - 0) with 0 by lia. rewrite power_0. pose proof (F 0 ltac:(lia)). lra.
  - intros H. destruct (L H) as (A & k & Hk & E). split.
    + intros i Hi. replace (T - i) with (T - 1 - i + 1) by lia. rewrite power_S by lia. rewrite Rmult_assoc. apply Rmult_le_compat_l; [exact B | apply A; exact Hi].
    + exists k. split; [exact Hk |]. rewrite E. replace (T - k) with (T - 1 - k + 1) by lia. rewrite power_S by lia. ring.
  - replace (T - T) with 0 by lia. rewrite power_0, Rmult_1_l. reflexivity.
Qed.
(** Clamping between bounds that close on c. *)
Lemma clamp_range low high v : (low <= high)%R -> (low <= clamp low high v <= high)%R.
Proof. intros H. unfold clamp. split; [apply Rmin_glb; [exact H | apply Rmax_r] | apply Rmin_l]. Qed.
Lemma bounds_close c gamma k v : (0 <= c)%R -> (0 < gamma)%R -> (0 < k)%R ->
  (Rabs (clamp (c * (1 - 1 / (gamma * k + 1))) (c * (1 + 1 / (gamma * k))) v - c) <= c / (gamma * k))%R.
Proof.
  intros C G K. pose proof (Rmult_lt_0_compat _ _ G K) as P. set (s := (gamma * k)%R) in *.
  assert (I1 : (0 < 1 / (s + 1))%R) by (apply Rdiv_lt_0_compat; lra). assert (I2 : (1 / (s + 1) <= 1 / s)%R) by (unfold Rdiv; rewrite !Rmult_1_l; apply Rinv_le_contravar; lra).
  pose proof (Rmult_le_compat_l c _ _ C I2) as I3. pose proof (Rmult_le_pos c _ C (Rlt_le _ _ I1)) as I4.
  destruct (clamp_range (c * (1 - 1 / (s + 1))) (c * (1 + 1 / s)) v) as (L & H); [lra |]. replace (c / s)%R with (c * (1 / s))%R by (unfold Rdiv; ring). apply Rabs_le. lra.
Qed.
(** ** Rectification *)
Lemma r_bound b2 k : (0 < b2 < 1)%R -> 0 < k -> (4 < rho_at b2 k)%R -> (0 < r_at b2 k <= 1)%R.
Proof.
  intros B K H. pose proof (one_minus b2 k ltac:(lra) K) as P. unfold r_at. set (r := rho_at b2 k) in *. set (q := rho_inf b2).
  assert (Q : (r < q)%R).
  { unfold r, rho_at. fold q. change pow_t with power. assert (0 < 2 * IZR k * power b2 k / (1 - power b2 k))%R; [| lra]. apply Rdiv_lt_0_compat; [| exact P]. apply Rmult_lt_0_compat; [| apply power_pos; lra]. apply (IZR_lt 0) in K. lra. }
  assert (N : (0 < (r - 4) * (r - 2) * q)%R) by (repeat apply Rmult_lt_0_compat; lra). assert (D : (0 < (q - 4) * (q - 2) * r)%R) by (repeat apply Rmult_lt_0_compat; lra).
  split; [apply sqrt_lt_R0; apply Rdiv_lt_0_compat; assumption |]. rewrite <- sqrt_1. apply sqrt_le_1_alt. apply Rmult_le_reg_r with ((q - 4) * (q - 2) * r)%R; [exact D |].
  replace ((r - 4) * (r - 2) * q / ((q - 4) * (q - 2) * r) * ((q - 4) * (q - 2) * r))%R with ((r - 4) * (r - 2) * q)%R by (field; lra).
  assert (0 <= (q - r) * (q * r - 8))%R; [apply Rmult_le_pos; [lra |]; nra | lra].
Qed.
(** ** Arrays of one layer *)
Section Layer.
Context (n : Z) (Hn : 0 <= n).
Lemma distance_scaled a b r c : rlen a = n -> rlen r = n -> (forall e, 0 <= e < n -> (el a e - el b e = c * el r e)%R) -> distance a b = (Rabs c * norm r)%R.
Proof.
  intros La Lr H. unfold distance. change (len a) with (rlen a). rewrite La, (norm_is n r Lr), <- norm_scaled. f_equal. apply rsum_ext. intros e He. change at_pos with el. rewrite H by exact He. reflexivity.
Qed.
Lemma norm_sum a b r c : rlen a = n -> rlen b = n -> rlen r = n -> (forall e, 0 <= e < n -> (el r e = el a e + c * el b e)%R) -> (norm r <= norm a + Rabs c * norm b)%R.
Proof.
  intros La Lb Lr H. rewrite (norm_is n r Lr), (norm_is n a La), (norm_is n b Lb), <- norm_scaled.
  rewrite (rsum_ext _ _ (fun e => (el a e + c * el b e) * (el a e + c * el b e))%R) by (intros e He; rewrite H by exact He; reflexivity). apply triangle.
Qed.
Lemma norm_pos a : (0 <= norm a)%R.
Proof. apply sqrt_pos. Qed.
Lemma lars_ok lr mu coef eps rate t v g x : rlen v = n -> rlen g = n -> rlen x = n -> (0 <= rate)%R ->
  let q := (norm g + rate * norm x)%R in let q := if Rlt_dec q eps then (q + eps)%R else q in
  let rate' := if Rlt_dec (norm x) eps then lr else (lr * coef * norm x / q)%R in
  exists v' g' x', lars_update lr mu coef eps rate (t, v, g, x) = Some (next_t t, v', g', x') /\ rlen v' = n /\ rlen g' = n /\ rlen x' = n /\
  forall e, 0 <= e < n -> el g' e = (el g e + rate * el x e)%R /\ el v' e = (mu * el v e + rate' * el g' e)%R /\ el x' e = (el x e - el v' e)%R.
Proof.
  intros Lv Lg Lx R q0 q rate'. unfold lars_update, weight_decay_cpu. change (sizeof x) with (rlen x). rewrite Lx, (norm2_ok n g Hn Lg), (norm2_ok n x Hn Lx). cbn [obind].
  fold q0. destruct (Rlt_dec q0 0) as [N | _]; [exfalso; unfold q0 in N; pose proof (norm_pos g); pose proof (Rmult_le_pos _ _ R (norm_pos x)); lra |]. fold q. cbv zeta. fold rate'.
  destruct (transform_ok (fun x g => g + rate * x)%R n x g Hn Lx Lg) as (g' & E1 & L1 & V1). rewrite E1. cbn [obind].
  destruct (transform_ok (fun g v => mu * v + rate' * g)%R n g' v Hn L1 Lv) as (v' & E2 & L2 & V2). rewrite E2. cbn [obind].
  destruct (transform_ok (fun v x => x - v)%R n v' x Hn L2 Lx) as (x' & E3 & L3 & V3). rewrite E3. cbn [obind]. exists v', g', x'. split; [reflexivity |]. do 3 (split; [assumption |]).
  intros e He. rewrite V3, V2, V1 by exact He. auto.
Qed.
Lemma lamb_ok eta b1 b2 gl gu eps (correct : bool) rate g t m v w : rlen g = n -> rlen m = n -> rlen v = n -> rlen w = n ->
  let c b := (if correct then 1 - pow_t b (next_t t) else 1)%R in
  exists m' v' r w', lamb_update eta b1 b2 gl gu eps correct rate g (t, m, v, w) = Some (next_t t, m', v', w') /\ rlen m' = n /\ rlen v' = n /\ rlen r = n /\ rlen w' = n /\
  let phi := (let v := if Rlt_dec (norm w) gl then gl else norm w in if Rlt_dec gu v then gu else v) in
  forall e, 0 <= e < n -> el m' e = (b1 * el m e + (1 - b1) * el g e)%R /\ el v' e = (b2 * el v e + (1 - b2) * (el g e * el g e))%R /\
    el r e = (el m' e / c b1 / (sqrt (el v' e / c b2) + eps) + rate * el w e)%R /\
    el w' e = (el w e - eta * (if Rlt_dec eps (norm r) then phi / norm r else 1) * el r e)%R.
Proof.
  intros Lg Lm Lv Lw c. unfold lamb_update. change (sizeof w) with (rlen w). rewrite Lw. fold (c b1) (c b2). cbv zeta.
  assert (Lz : rlen (repeat 0%R (length w)) = n) by (unfold rlen; rewrite repeat_length; exact Lw).
  match goal with |- context [elements3 n ?B g _] => destruct (elements3_ok B n g m v (repeat 0%R (length w)) w Hn Lg Lm Lv Lz Lw) as (m' & v' & r & w' & E & L1 & L2 & L3 & L4 & V) end. rewrite E. cbn [obind].
  assert (W : forall e, 0 <= e < n -> el w' e = el w e) by (intros e He; injection (V e He) as _ _ _ X; exact X).
  assert (N : norm w' = norm w) by (rewrite (norm_is n w' L4), (norm_is n w Lw); f_equal; apply rsum_ext; intros e He; rewrite W by exact He; reflexivity).
  change (sizeof w') with (rlen w'). rewrite L4, (norm2_ok n r Hn L3), (norm2_ok n w' Hn L4), N. cbn [obind].
  match goal with |- context [transform ?F n r w'] => destruct (transform_ok F n r w' Hn L3 L4) as (w2 & E2 & L5 & V2) end. rewrite E2. cbn [obind].
  exists m', v', r, w2. split; [reflexivity |]. do 4 (split; [assumption |]). intros e He. rewrite V2, W by exact He. injection (V e He) as X1 X2 X3 _. rewrite X3, X1, X2. repeat split; ring_simplify; reflexivity.
Qed.
Lemma scaled_loop (c d : R) g : rlen g = n -> exists r, loop (fun i g => obind (get g i) (fun u => put g i (c * u / d)%R)) (upto n) g = Some r /\ rlen r = n /\ forall e, 0 <= e < n -> el r e = (c * el g e / d)%R.
Proof.
  intros L0. destruct (loop_inv (fun k r => rlen r = n /\ part k (fun e => c * el g e / d)%R (el g) r)
    (fun i g => obind (get g i) (fun u => put g i (c * u / d)%R)) n Hn) with (s := g) as (r & E & L & P).
  - intros i s Hi (L & P). rewrite rget by lia. cbn [obind]. destruct (put_upd s i (c * el s i / d)%R ltac:(lia)) as (r & E & U). exists r. split; [exact E |].
    split; [destruct U; lia |]. apply (part_S i _ _ s); [lia | exact P |]. rewrite (part_at i _ _ s ltac:(lia) P) in U. exact U.
  - split; [exact L0 |]. apply part_0. reflexivity.
  - exists r. split; [exact E |]. split; [exact L |]. intros e He. apply (part_all n _ _ r e P He).
Qed.
Lemma clip_ok c g : rlen g = n -> exists r, clip_grad_by_norm c g = Some r /\ rlen r = n /\
  ((c = 0 \/ norm g <= Rabs c)%R -> r = g) /\ (c <> 0%R -> (Rabs c < norm g)%R -> forall e, 0 <= e < n -> el r e = (c * el g e / norm g)%R).
Proof.
  intros L. unfold clip_grad_by_norm. destruct (Req_EM_T c 0) as [-> | N].
  - exists g. split; [reflexivity |]. split; [exact L |]. split; [reflexivity |]. intros X. lra.
  - unfold clip_cpu. change (sizeof g) with (rlen g). rewrite L, (squares_ok n g Hn L). cbn [obind]. fold (el g). pose proof (rsum_squares n (el g)) as P. rewrite <- (norm_is n g L). set (s := rsum n (fun e => (el g e * el g e)%R)) in *.
    assert (NS : (norm g * norm g = s)%R) by (rewrite (norm_is n g L); apply sqrt_sqrt; exact P). pose proof (norm_pos g) as NP. pose proof (Rabs_pos c) as CP. assert (CC : (c * c = Rabs c * Rabs c)%R) by (rewrite <- Rabs_mult; symmetry; apply Rabs_pos_eq; apply Rle_0_sqr).
    destruct (Rlt_dec 0 s) as [S | S].
    + destruct (Rlt_dec (c * c) s) as [C | C].
      * destruct (scaled_loop c (norm g) g L) as (r & E & Lr & V). exists r. split; [exact E |]. split; [exact Lr |]. split; [| intros _ _; exact V]. intros [X | X]; [contradiction |]. exfalso. nra.
      * exists g. split; [reflexivity |]. split; [exact L |]. split; [reflexivity |]. intros _ X. exfalso. nra.
    + exists g. split; [reflexivity |]. split; [exact L |]. split; [reflexivity |]. intros _ X. exfalso. nra.
Qed.
End Layer.
(** ** Histories exist *)
Section Exists.
Context {S : Type} (P : S -> Prop) (U : Z -> S -> option S) (s0 : S).
Fixpoint states (k : nat) : S := match k with O => s0 | Datatypes.S k => match U (Z.of_nat k) (states k) with Some s => s | None => states k end end.
Lemma history_exists : P s0 -> (forall T s, 0 <= T < counted -> P s -> exists s', U T s = Some s' /\ P s') -> exists s, s 0 = s0 /\ updates U s.
Proof.
  intros P0 D. exists (fun T => states (Z.to_nat T)). split; [reflexivity |].
  assert (A : forall T, 0 <= T <= counted -> P (states (Z.to_nat T)) /\ (T < counted -> U T (states (Z.to_nat T)) = Some (states (Z.to_nat (T + 1))))).
  { assert (B : forall T, 0 <= T < counted -> P (states (Z.to_nat T)) -> U T (states (Z.to_nat T)) = Some (states (Z.to_nat (T + 1))) /\ P (states (Z.to_nat (T + 1)))).
    { intros T HT PT. destruct (D T _ HT PT) as (s' & E & P'). replace (Z.to_nat (T + 1)) with (Datatypes.S (Z.to_nat T)) by lia. cbn [states]. rewrite Z2Nat.id by lia. rewrite E. split; [reflexivity | exact P']. }
    intros T HT. assert (C : P (states (Z.to_nat T))) by (revert T HT; apply (history (fun T => P (states (Z.to_nat T)))); [exact P0 | intros T HT PT; apply B; assumption]).
    split; [exact C |]. intros H. apply B; [lia | exact C]. }
  intros T HT. apply A; lia.
Qed.
End Exists.
Section Exist.
Context (n : Z) (Hn : 0 <= n) (g : Z -> list R) (x0 : list R) (Lx : rlen x0 = n).
Lemma occurs1 U body : (forall T, 0 <= T < counted -> does1 n (U T) (body T) (g T)) -> exists t a x, t 0 = 0 /\ a 0 = zeros n /\ x 0 = x0 /\ updates U (fun T => (t T, a T, x T)).
Proof using Hn Lx.
  intros D. destruct (history_exists (fun '((_, a, x) : Z * list R * list R) => rlen a = n /\ rlen x = n) U (0, zeros n, x0)) as (s & E & H).
  - split; [apply len_zeros; exact Hn | exact Lx].
  - intros T ((t & a) & x) HT (La & Lx'). destruct (D T HT t a x La Lx') as (a' & x' & E & L1 & L2 & _). exists (next_t t, a', x'). auto.
  - exists (fun T => fst (fst (s T))), (fun T => snd (fst (s T))), (fun T => snd (s T)). rewrite E. repeat split. intros T HT. specialize (H T HT). destruct (s T) as ((t1 & a1) & x1), (s (T + 1)) as ((t2 & a2) & x2). exact H.
Qed.
Lemma occurs2 U body : (forall T, 0 <= T < counted -> does2 n (U T) (body T) (g T)) -> exists t a b x, t 0 = 0 /\ a 0 = zeros n /\ b 0 = zeros n /\ x 0 = x0 /\ updates U (fun T => (t T, a T, b T, x T)).
Proof using Hn Lx.
  intros D. pose proof (len_zeros n Hn) as L0. destruct (history_exists (fun '((_, a, b, x) : Z * list R * list R * list R) => rlen a = n /\ rlen b = n /\ rlen x = n) U (0, zeros n, zeros n, x0)) as (s & E & H).
  - auto.
  - intros T (((t & a) & b) & x) HT (La & Lb & Lx'). destruct (D T HT t a b x La Lb Lx') as (a' & b' & x' & E & L1 & L2 & L3 & _). exists (next_t t, a', b', x'). auto.
  - exists (fun T => fst (fst (fst (s T)))), (fun T => snd (fst (fst (s T)))), (fun T => snd (fst (s T))), (fun T => snd (s T)). rewrite E. repeat split. intros T HT. specialize (H T HT). destruct (s T) as (((t1 & a1) & b1) & x1), (s (T + 1)) as (((t2 & a2) & b2) & x2). exact H.
Qed.
Lemma occurs3 U body : (forall T, 0 <= T < counted -> does3 n (U T) (body T) (g T)) -> exists t a b c x, t 0 = 0 /\ a 0 = zeros n /\ b 0 = zeros n /\ c 0 = zeros n /\ x 0 = x0 /\ updates U (fun T => (t T, a T, b T, c T, x T)).
Proof using Hn Lx.
  intros D. pose proof (len_zeros n Hn) as L0. destruct (history_exists (fun '((_, a, b, c, x) : Z * list R * list R * list R * list R) => rlen a = n /\ rlen b = n /\ rlen c = n /\ rlen x = n) U (0, zeros n, zeros n, zeros n, x0)) as (s & E & H).
  - auto.
  - intros T ((((t & a) & b) & c) & x) HT (La & Lb & Lc & Lx'). destruct (D T HT t a b c x La Lb Lc Lx') as (a' & b' & c' & x' & E & L1 & L2 & L3 & L4 & _). exists (next_t t, a', b', c', x'). auto.
  - exists (fun T => fst (fst (fst (fst (s T))))), (fun T => snd (fst (fst (fst (s T))))), (fun T => snd (fst (fst (s T)))), (fun T => snd (fst (s T))), (fun T => snd (s T)). rewrite E. repeat split. intros T HT. specialize (H T HT). destruct (s T) as ((((t1 & a1) & b1) & c1) & x1), (s (T + 1)) as ((((t2 & a2) & b2) & c2) & x2). exact H.
Qed.
End Exist.
