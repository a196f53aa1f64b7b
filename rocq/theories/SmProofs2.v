(** Softmax and LogSoftmax: values and gradients. *)
From Coq Require Import List ZArith Lia Bool Reals Lra.
From Verif Require Import NdModel NdSpec NdProofs IdxModel IdxSpec IdxProofs1 IdxProofs2 IdxProofs3 IdxProofs6 JoinModel JoinSpec JoinProofs JoinProofs2 ScanModel ScanProofs1 ScanProofs4 ReduceProofs1 ConvProofs3 SortProofs3 ActSpec ActProofs1 ActProofs2 ActProofs4 SmSpec SmModel SmProofs1.
Import ListNotations.
Local Open Scope list_scope.
Local Open Scope Z_scope.

Lemma at3_k s1 s2 o k i : k * s2 + (o * s1 * s2 + i) = at3 s1 s2 o k i.
Proof. unfold at3. ring. Qed.
Lemma line_max_ok s0 s1 s2 x o i : 0 <= o < s0 -> 0 < s1 -> 0 <= i < s2 -> rlen x = s0 * s1 * s2 ->
  exists m, line_max s1 s2 x (o * s1 * s2 + i) = Some m /\ (forall k, 0 <= k < s1 -> (el x (at3 s1 s2 o k i) <= m)%R) /\ exists k, 0 <= k < s1 /\ el x (at3 s1 s2 o k i) = m.
Proof.
  intros Ho H1 Hi L. unfold line_max. assert (E0 : o * s1 * s2 + i = at3 s1 s2 o 0 i) by (unfold at3; ring). rewrite E0. rewrite rget by (rewrite L; apply at3_range; lia). cbn [obind].
  destruct (loop_inv (fun n m => (forall k, 0 <= k < n -> (el x (at3 s1 s2 o k i) <= m)%R) /\ exists k, 0 <= k < s1 /\ el x (at3 s1 s2 o k i) = m) (fun i1 m => obind (get x (i1 * s2 + at3 s1 s2 o 0 i)) (fun v => Some (if Rle_dec v m then m else v))) s1 ltac:(lia)) with (s := el x (at3 s1 s2 o 0 i)) as (m & E & A & B).
  - intros k m Hk (A & k0 & K0 & B). rewrite <- E0, at3_k, rget by (rewrite L; apply at3_range; lia). cbn [obind]. destruct (Rle_dec (el x (at3 s1 s2 o k i)) m) as [Le | Gt].
    + exists m. split; [reflexivity |]. split; [| exists k0; auto]. intros k' Hk'. destruct (Z.eq_dec k' k) as [-> | N]; [exact Le | apply A; lia].
    + exists (el x (at3 s1 s2 o k i)). split; [reflexivity |]. split; [| exists k; split; [lia | reflexivity]]. intros k' Hk'. destruct (Z.eq_dec k' k) as [-> | N]; [lra |]. specialize (A k' ltac:(lia)). lra.
  - split; [intros k Hk; lia |]. exists 0. split; [lia | reflexivity].
  - exists m. auto.
Qed.
(** Writing a line and adding up. *)
Lemma write_sum s0 s1 s2 o i (step : Z -> list R * R -> option (list R * R)) (f g : Z -> R) : 0 <= o < s0 -> 0 <= s1 -> 0 <= i < s2 ->
  (forall k y s, 0 <= k < s1 -> rlen y = s0 * s1 * s2 -> step k (y, s) = obind (put y (at3 s1 s2 o k i) (f k)) (fun y => Some (y, (s + g k)%R))) ->
  forall y0, rlen y0 = s0 * s1 * s2 -> exists y, loop step (upto s1) (y0, 0%R) = Some (y, rsum s1 g) /\ length y = length y0 /\
  (forall k, 0 <= k < s1 -> el y (at3 s1 s2 o k i) = f k) /\ (forall q, 0 <= q -> (forall k, 0 <= k < s1 -> q <> at3 s1 s2 o k i) -> el y q = el y0 q).
Proof.
  intros Ho B Hi ST y0 L.
  destruct (loop_inv (fun m '(y, s) => s = rsum m g /\ length y = length y0 /\ (forall k, 0 <= k < m -> el y (at3 s1 s2 o k i) = f k) /\ (forall q, 0 <= q -> (forall k, 0 <= k < m -> q <> at3 s1 s2 o k i) -> el y q = el y0 q)) step s1 B) with (s := (y0, 0%R)) as ((y & s) & E & -> & H).
  - intros m (y & s) Hm (-> & Ly & V1 & V2). rewrite ST by (try assumption; unfold rlen in *; rewrite Ly; exact L). pose proof (at3_range s0 s1 s2 o m i Ho Hm Hi) as Rg.
    destruct (rput y (at3 s1 s2 o m i) (f m)) as (y' & E & Ly' & V'); [unfold rlen in *; rewrite Ly, L; exact Rg |]. rewrite E. cbn [obind].
    eexists. split; [reflexivity |]. split; [rewrite rsum_S by lia; reflexivity |]. split; [congruence |]. split.
    + intros k Hk. rewrite V' by (apply (at3_range s0); lia). destruct (Z.eq_dec k m) as [-> | N]; [rewrite Z.eqb_refl; reflexivity |].
      destruct (Z.eqb_spec (at3 s1 s2 o k i) (at3 s1 s2 o m i)) as [Eq |]; [apply at3_inj in Eq; lia |]. apply V1. lia.
    + intros q Hq N. rewrite V' by exact Hq. destruct (Z.eqb_spec q (at3 s1 s2 o m i)) as [-> |]; [exfalso; apply (N m); [lia | reflexivity] |]. apply V2; [exact Hq |]. intros k Hk. apply N. lia.
  - split; [reflexivity |]. split; [reflexivity |]. split; [intros k Hk; lia | reflexivity].
  - exists y. split; [exact E | exact H].
Qed.

Section sizes.
Variables s0 s1 s2 : Z.
Hypothesis P0 : 0 <= s0.
Hypothesis P1 : 0 < s1.
Hypothesis P2 : 0 <= s2.
Local Notation N := (s0 * s1 * s2).
Local Notation P := (at3 s1 s2).

(** The sum of the exponentials of a line, and what both functions compute. *)
Definition esum (u : Z -> R) (o i : Z) : R := rsum s1 (fun k => exp (u (P o k i))).
Lemma esum_ext u v o i : 0 <= o < s0 -> 0 <= i < s2 -> (forall q, 0 <= q < N -> u q = v q) -> esum u o i = esum v o i.
Proof using. intros Ho Hi E. unfold esum. apply rsum_ext. intros k Hk. rewrite E by (apply at3_range; lia). reflexivity. Qed.
Lemma esum_pos u o i : (0 < esum u o i)%R.
Proof using P1. apply rsum_pos; [exact P1 |]. intros. apply exp_pos. Qed.
Lemma shifted u m o i : rsum s1 (fun k => exp (u (P o k i) - m)) = (esum u o i * exp (- m))%R.
Proof using. unfold esum. rewrite <- rsum_scale_r. apply rsum_ext. intros k _. unfold Rminus. apply exp_plus. Qed.
Lemma softmax_line_ok x o i y : 0 <= o < s0 -> 0 <= i < s2 -> rlen x = N -> rlen y = N -> exists y', softmax_line s1 s2 x o i y = Some y' /\ length y' = length y /\
  (forall k, 0 <= k < s1 -> el y' (P o k i) = (exp (el x (P o k i)) / esum (el x) o i)%R) /\
  (forall q, 0 <= q -> (forall k, 0 <= k < s1 -> q <> P o k i) -> el y' q = el y q).
Proof using P1.
  intros Ho Hi Lx Ly. unfold softmax_line. cbv zeta. destruct (line_max_ok s0 s1 s2 x o i Ho P1 Hi Lx) as (m & -> & _). cbn [obind].
  destruct (write_sum s0 s1 s2 o i (fun i1 '(y, s) => obind (get x (i1 * s2 + (o * s1 * s2 + i))) (fun v => obind (put y (i1 * s2 + (o * s1 * s2 + i)) (exp (v - m))) (fun y => Some (y, (s + exp (v - m))%R)))) (fun k => exp (el x (P o k i) - m)) (fun k => exp (el x (P o k i) - m)) Ho ltac:(lia) Hi) with (y0 := y) as (y1 & E1 & L1 & A1 & B1); [| exact Ly |].
  { intros k z s Hk Lz. rewrite !at3_k, rget by (rewrite Lx; apply at3_range; lia). reflexivity. }
  rewrite E1. cbn [obind]. rewrite (shifted (el x)).
  destruct (line_ok s0 s1 s2 o i (fun i1 y => obind (get y (i1 * s2 + (o * s1 * s2 + i))) (fun v => put y (i1 * s2 + (o * s1 * s2 + i)) (v / (esum (el x) o i * exp (- m)))%R)) (fun _ v => v / (esum (el x) o i * exp (- m)))%R Ho ltac:(lia) Hi) with (y0 := y1) as (y2 & E2 & L2 & A2 & B2).
  { intros k z Hk Lz. rewrite !at3_k, rget by (rewrite Lz; apply at3_range; lia). reflexivity. }
  { unfold rlen in *. rewrite L1. exact Ly. }
  exists y2. split; [exact E2 |]. split; [congruence |]. split.
  - intros k Hk. rewrite A2, A1 by exact Hk. pose proof (esum_pos (el x) o i). pose proof (exp_pos (- m)). unfold Rminus. rewrite exp_plus. field. split; lra.
  - intros q Hq Nq. rewrite B2, B1 by assumption. reflexivity.
Qed.
Lemma log_softmax_line_ok x o i y : 0 <= o < s0 -> 0 <= i < s2 -> rlen x = N -> rlen y = N -> exists y', log_softmax_line s1 s2 x o i y = Some y' /\ length y' = length y /\
  (forall k, 0 <= k < s1 -> el y' (P o k i) = (el x (P o k i) - ln (esum (el x) o i))%R) /\
  (forall q, 0 <= q -> (forall k, 0 <= k < s1 -> q <> P o k i) -> el y' q = el y q).
Proof using P1.
  intros Ho Hi Lx Ly. unfold log_softmax_line. cbv zeta. destruct (line_max_ok s0 s1 s2 x o i Ho P1 Hi Lx) as (m & -> & _). cbn [obind].
  destruct (write_sum s0 s1 s2 o i (fun i1 '(y, s) => obind (get x (i1 * s2 + (o * s1 * s2 + i))) (fun v => obind (put y (i1 * s2 + (o * s1 * s2 + i)) (v - m)%R) (fun y => Some (y, (s + exp (v - m))%R)))) (fun k => el x (P o k i) - m)%R (fun k => exp (el x (P o k i) - m)) Ho ltac:(lia) Hi) with (y0 := y) as (y1 & E1 & L1 & A1 & B1); [| exact Ly |].
  { intros k z s Hk Lz. rewrite !at3_k, rget by (rewrite Lx; apply at3_range; lia). reflexivity. }
  rewrite E1. cbn [obind]. rewrite (shifted (el x)).
  destruct (line_ok s0 s1 s2 o i (fun i1 y => obind (get y (i1 * s2 + (o * s1 * s2 + i))) (fun v => put y (i1 * s2 + (o * s1 * s2 + i)) (v - ln (esum (el x) o i * exp (- m)))%R)) (fun _ v => v - ln (esum (el x) o i * exp (- m)))%R Ho ltac:(lia) Hi) with (y0 := y1) as (y2 & E2 & L2 & A2 & B2).
  { intros k z Hk Lz. rewrite !at3_k, rget by (rewrite Lz; apply at3_range; lia). reflexivity. }
  { unfold rlen in *. rewrite L1. exact Ly. }
  exists y2. split; [exact E2 |]. split; [congruence |]. split.
  - intros k Hk. rewrite A2, A1 by exact Hk. rewrite ln_mult, ln_exp by (try apply exp_pos; apply esum_pos). ring.
  - intros q Hq Nq. rewrite B2, B1 by assumption. reflexivity.
Qed.
Lemma softmax_pairs x y : rlen x = N -> rlen y = N -> exists y', pairs s0 s2 (softmax_line s1 s2 x) y = Some y' /\ length y' = length y /\
  forall o k i, 0 <= o < s0 -> 0 <= k < s1 -> 0 <= i < s2 -> el y' (P o k i) = (exp (el x (P o k i)) / esum (el x) o i)%R.
Proof using P0 P1 P2.
  intros Lx Ly. apply (pairs_ok s0 s1 s2 (softmax_line s1 s2 x) (fun o k i _ => exp (el x (P o k i)) / esum (el x) o i)%R); try lia. intros o i z Ho Hi Lz. apply softmax_line_ok; assumption.
Qed.
Lemma log_softmax_pairs x y : rlen x = N -> rlen y = N -> exists y', pairs s0 s2 (log_softmax_line s1 s2 x) y = Some y' /\ length y' = length y /\
  forall o k i, 0 <= o < s0 -> 0 <= k < s1 -> 0 <= i < s2 -> el y' (P o k i) = (el x (P o k i) - ln (esum (el x) o i))%R.
Proof using P0 P1 P2.
  intros Lx Ly. apply (pairs_ok s0 s1 s2 (log_softmax_line s1 s2 x) (fun o k i _ => el x (P o k i) - ln (esum (el x) o i))%R); try lia. intros o i z Ho Hi Lz. apply log_softmax_line_ok; assumption.
Qed.
Lemma softmax_back_pairs accum y dy dx : rlen y = N -> rlen dy = N -> rlen dx = N -> exists dx', pairs s0 s2 (softmax_back_line s1 s2 accum y dy) dx = Some dx' /\ length dx' = length dx /\
  forall o k i, 0 <= o < s0 -> 0 <= k < s1 -> 0 <= i < s2 ->
  el dx' (P o k i) = ((if accum then el dx (P o k i) else 0) + el y (P o k i) * (el dy (P o k i) - rsum s1 (fun k => el dy (P o k i) * el y (P o k i))))%R.
Proof using P0 P1 P2.
  intros Ly Ldy Ldx. apply (pairs_ok s0 s1 s2 (softmax_back_line s1 s2 accum y dy) (fun o k i old => (if accum then old else 0) + el y (P o k i) * (el dy (P o k i) - rsum s1 (fun k => el dy (P o k i) * el y (P o k i))))%R); try lia.
  intros o i z Ho Hi Lz. unfold softmax_back_line. cbv zeta. rewrite (sum_loop _ (fun k => el dy (P o k i) * el y (P o k i))%R).
  - cbn [obind]. rewrite Rplus_0_l. apply (line_ok s0 s1 s2 o i _ (fun k old => (if accum then old else 0) + el y (P o k i) * (el dy (P o k i) - rsum s1 (fun k => el dy (P o k i) * el y (P o k i))))%R); try assumption; [lia |].
    intros k w Hk Lw. rewrite !at3_k, !rget by (rewrite ?Ly, ?Ldy, ?Lw; apply at3_range; lia). reflexivity.
  - lia.
  - intros k s Hk. rewrite !at3_k, !rget by (rewrite ?Ly, ?Ldy; apply at3_range; lia). reflexivity.
Qed.
Lemma log_softmax_back_pairs accum y dy dx : rlen y = N -> rlen dy = N -> rlen dx = N -> exists dx', pairs s0 s2 (log_softmax_back_line s1 s2 accum y dy) dx = Some dx' /\ length dx' = length dx /\
  forall o k i, 0 <= o < s0 -> 0 <= k < s1 -> 0 <= i < s2 ->
  el dx' (P o k i) = ((if accum then el dx (P o k i) else 0) + el dy (P o k i) - exp (el y (P o k i)) * rsum s1 (fun k => el dy (P o k i)))%R.
Proof using P0 P1 P2.
  intros Ly Ldy Ldx. apply (pairs_ok s0 s1 s2 (log_softmax_back_line s1 s2 accum y dy) (fun o k i old => (if accum then old else 0) + el dy (P o k i) - exp (el y (P o k i)) * rsum s1 (fun k => el dy (P o k i)))%R); try lia.
  intros o i z Ho Hi Lz. unfold log_softmax_back_line. cbv zeta. rewrite (sum_loop _ (fun k => el dy (P o k i))%R).
  - cbn [obind]. rewrite Rplus_0_l. apply (line_ok s0 s1 s2 o i _ (fun k old => (if accum then old else 0) + el dy (P o k i) - exp (el y (P o k i)) * rsum s1 (fun k => el dy (P o k i)))%R); try assumption; [lia |].
    intros k w Hk Lw. rewrite !at3_k, !rget by (rewrite ?Ly, ?Ldy, ?Lw; apply at3_range; lia). reflexivity.
  - lia.
  - intros k s Hk. rewrite !at3_k, !rget by (rewrite ?Ldy; apply at3_range; lia). reflexivity.
Qed.

(** ** Derivatives of a line *)
Definition put_in (q : Z) (t : R) (u : Z -> R) : Z -> R := fun i => if i =? q then t else u i.
Lemma put_in_line q t u o k i a b c : 0 <= k < s1 -> 0 <= i < s2 -> 0 <= b < s1 -> 0 <= c < s2 -> q = P a b c ->
  put_in q t u (P o k i) = if (o =? a) && (k =? b) && (i =? c) then t else u (P o k i).
Proof using.
  intros K I B C ->. unfold put_in. destruct (Z.eqb_spec (P o k i) (P a b c)) as [E | E].
  - apply at3_inj in E; [| assumption ..]. destruct E as (-> & -> & ->). rewrite !Z.eqb_refl. reflexivity.
  - destruct (Z.eqb_spec o a) as [-> |], (Z.eqb_spec k b) as [-> |], (Z.eqb_spec i c) as [-> |]; cbn [andb]; try reflexivity. exfalso. apply E. reflexivity.
Qed.
Lemma esum_other q t u o i a b c : 0 <= i < s2 -> 0 <= b < s1 -> 0 <= c < s2 -> q = P a b c -> (o <> a \/ i <> c) -> esum (put_in q t u) o i = esum u o i.
Proof using.
  intros I B C Q D. unfold esum. apply rsum_ext. intros k K. rewrite (put_in_line q t u o k i a b c) by assumption. destruct (Z.eqb_spec o a), (Z.eqb_spec k b), (Z.eqb_spec i c); cbn [andb]; try reflexivity. lia.
Qed.
Lemma esum_in q u a b c : 0 <= b < s1 -> 0 <= c < s2 -> q = P a b c -> forall t, esum (put_in q t u) a c = (exp t + (esum u a c - exp (u q)))%R.
Proof using.
  intros B C Q t. unfold esum. rewrite (rsum_ext s1 (fun k => exp (put_in q t u (P a k c))) (fun k => exp (u (P a k c)) + (if k =? b then exp t - exp (u q) else 0))%R).
  - rewrite rsum_plus, rsum_one by exact B. ring.
  - intros k K. rewrite (put_in_line q t u a k c a b c) by assumption. rewrite !Z.eqb_refl, Bool.andb_true_r. cbn [andb]. destruct (Z.eqb_spec k b) as [-> |]; [rewrite <- Q; ring | ring].
Qed.
Lemma put_in_same q u i : put_in q (u q) u i = u i.
Proof using. unfold put_in. destruct (Z.eqb_spec i q) as [-> |]; reflexivity. Qed.
Lemma D_softmax u q a b c o k i : 0 <= k < s1 -> 0 <= i < s2 -> 0 <= b < s1 -> 0 <= c < s2 -> q = P a b c ->
  let y := fun o k i => (exp (u (P o k i)) / esum u o i)%R in
  derivable_pt_lim (fun t => exp (put_in q t u (P o k i)) / esum (put_in q t u) o i)%R (u q) (if (o =? a) && (i =? c) then y o k i * ((if k =? b then 1 else 0) - y o b i) else 0)%R.
Proof using P1.
  intros K I B C Q. cbv zeta. destruct (Z.eqb_spec o a) as [-> | No]; [destruct (Z.eqb_spec i c) as [-> | Ni] |]; cbn [andb].
  - pose proof (esum_pos u a c) as SP. apply (near_ext _ (fun t => exp (if k =? b then t else u (P a k c)) / (exp t + (esum u a c - exp (u q))))%R).
    { intros t. rewrite (put_in_line q t u a k c a b c), (esum_in q u a b c) by assumption. rewrite !Z.eqb_refl, Bool.andb_true_r. reflexivity. }
    assert (E0 : (exp (u q) + (esum u a c - exp (u q)) <> 0)%R) by lra.
    destruct (Z.eqb_spec k b) as [-> | Nk].
    + rewrite <- Q. derive; [exact E0 |]. unfold Rsqr. replace (exp (u q) + (esum u a c - exp (u q)))%R with (esum u a c) by ring. field. lra.
    + derive; [exact E0 |]. rewrite <- Q. unfold Rsqr. replace (exp (u q) + (esum u a c - exp (u q)))%R with (esum u a c) by ring. field. lra.
  - apply (near_ext _ (fun _ => exp (u (P a k i)) / esum u a i)%R); [| apply derivable_pt_lim_const]. intros t. rewrite (put_in_line q t u a k i a b c), (esum_other q t u a i a b c) by (try assumption; right; exact Ni).
    apply Z.eqb_neq in Ni. rewrite Ni, Bool.andb_false_r. reflexivity.
  - apply (near_ext _ (fun _ => exp (u (P o k i)) / esum u o i)%R); [| apply derivable_pt_lim_const]. intros t. rewrite (put_in_line q t u o k i a b c), (esum_other q t u o i a b c) by (try assumption; left; exact No).
    apply Z.eqb_neq in No. rewrite No. reflexivity.
Qed.
Lemma D_log_softmax u q a b c o k i : 0 <= k < s1 -> 0 <= i < s2 -> 0 <= b < s1 -> 0 <= c < s2 -> q = P a b c ->
  derivable_pt_lim (fun t => put_in q t u (P o k i) - ln (esum (put_in q t u) o i))%R (u q) (if (o =? a) && (i =? c) then (if k =? b then 1 else 0) - exp (u (P o b i)) / esum u o i else 0)%R.
Proof using P1.
  intros K I B C Q. destruct (Z.eqb_spec o a) as [-> | No]; [destruct (Z.eqb_spec i c) as [-> | Ni] |]; cbn [andb].
  - pose proof (esum_pos u a c) as SP. apply (near_ext _ (fun t => (if k =? b then t else u (P a k c)) - ln (exp t + (esum u a c - exp (u q))))%R).
    { intros t. rewrite (put_in_line q t u a k c a b c), (esum_in q u a b c) by assumption. rewrite !Z.eqb_refl, Bool.andb_true_r. reflexivity. }
    assert (E0 : (0 < exp (u q) + (esum u a c - exp (u q)))%R) by lra.
    assert (DL : derivable_pt_lim (fun t => ln (exp t + (esum u a c - exp (u q))))%R (u q) (exp (u q) / esum u a c)%R).
    { derive; [exact E0 |]. replace (exp (u q) + (esum u a c - exp (u q)))%R with (esum u a c) by ring. field. lra. }
    destruct (Z.eqb_spec k b) as [-> | Nk]; rewrite <- Q.
    + apply (D_minus (fun t => t)); [apply derivable_pt_lim_id | exact DL].
    + apply (D_minus (fun _ => u (P a k c))); [apply derivable_pt_lim_const | exact DL].
  - apply (near_ext _ (fun _ => u (P a k i) - ln (esum u a i))%R); [| apply derivable_pt_lim_const]. intros t. rewrite (put_in_line q t u a k i a b c), (esum_other q t u a i a b c) by (try assumption; right; exact Ni).
    apply Z.eqb_neq in Ni. rewrite Ni, Bool.andb_false_r. reflexivity.
  - apply (near_ext _ (fun _ => u (P o k i) - ln (esum u o i))%R); [| apply derivable_pt_lim_const]. intros t. rewrite (put_in_line q t u o k i a b c), (esum_other q t u o i a b c) by (try assumption; left; exact No).
    apply Z.eqb_neq in No. rewrite No. reflexivity.
Qed.
(** Reading the parts of a position. *)
Definition p0 (q : Z) : Z := q / s2 / s1.
Definition p1 (q : Z) : Z := q / s2 mod s1.
Definition p2 (q : Z) : Z := q mod s2.
Lemma parts o k i : 0 <= k < s1 -> 0 <= i < s2 -> p0 (P o k i) = o /\ p1 (P o k i) = k /\ p2 (P o k i) = i.
Proof using P1.
  intros K I. unfold p0, p1, p2, at3. rewrite Z.div_add_l, (Z.div_small i s2), Z.add_0_r by lia. rewrite Z.div_add_l, (Z.div_small k s1), Z.add_0_r by lia.
  rewrite (Z.add_comm (o * s1)), Z.mod_add, (Z.mod_small k) by lia. rewrite (Z.add_comm _ i), Z.mod_add, (Z.mod_small i) by lia. auto.
Qed.
Lemma whole q : 0 <= q < N -> 0 <= p0 q < s0 /\ 0 <= p1 q < s1 /\ 0 <= p2 q < s2 /\ P (p0 q) (p1 q) (p2 q) = q.
Proof using P0 P1 P2.
  intros Q. destruct (at3_onto s0 s1 s2 q) as (o & k & i & Ho & Hk & Hi & ->); [lia | lia | lia | exact Q |]. destruct (parts o k i Hk Hi) as (-> & -> & ->). auto.
Qed.
Lemma softmax_gradient x : rlen x = N -> forall yb, rlen yb = N ->
  rgradient N N (fun x => pairs s0 s2 (softmax_line s1 s2 x)) (fun accum dy dx => obind (pairs s0 s2 (softmax_line s1 s2 x) yb) (fun y => pairs s0 s2 (softmax_back_line s1 s2 accum y dy) dx)) x.
Proof using P0 P1 P2.
  intros Lx yb Lyb accum dy dx0 Ldy Ldx. destruct (softmax_pairs x yb Lx Lyb) as (y & -> & Ly & Vy). cbn [obind]. assert (NN : 0 <= N) by nia.
  destruct (softmax_back_pairs accum y dy dx0) as (dx & E & Ldx' & Vdx); [unfold rlen in *; rewrite Ly; exact Lyb | exact Ldy | exact Ldx |].
  destruct (list_of N (fun q => el y q * (el dy q - rsum s1 (fun k => el dy (P (p0 q) k (p2 q)) * el y (P (p0 q) k (p2 q)))))%R NN) as (d & Ld & Vd).
  assert (Vy' : forall q, 0 <= q < N -> el y q = (exp (el x q) / esum (el x) (p0 q) (p2 q))%R).
  { intros q Hq. destruct (whole q Hq) as (A0 & A1 & A2 & Eq). rewrite <- Eq at 1. rewrite Vy, Eq by assumption. reflexivity. }
  exists dx, d. split; [exact E |]. split; [exact Ldx' |]. split; [unfold rlen in *; lia |]. split.
  - apply (rslopes_by N N _ x dy d (fun u q => exp (u q) / esum u (p0 q) (p2 q))%R (fun q o => if (p0 o =? p0 q) && (p2 o =? p2 q) then el y o * ((if p1 o =? p1 q then 1 else 0) - el y q) else 0)%R); try assumption.
    + intros u y0 Lu Ly0. destruct (softmax_pairs u y0 Lu Ly0) as (y' & E' & L' & V'). exists y'. split; [exact E' |]. split; [exact L' |]. intros q Hq. destruct (whole q Hq) as (H0 & H1 & H2 & Eq). rewrite <- Eq at 1. rewrite V' by assumption. rewrite Eq. reflexivity.
    + intros u v q Hq Euv. destruct (whole q Hq) as (H0 & H1 & H2 & _). rewrite Euv, (esum_ext u v) by assumption. reflexivity.
    + intros q o Hq Ho. destruct (whole q Hq) as (A0 & A1 & A2 & Eq). destruct (whole o Ho) as (O0 & O1 & O2 & Eo).
      pose proof (D_softmax (el x) q (p0 q) (p1 q) (p2 q) (p0 o) (p1 o) (p2 o) O1 O2 A1 A2 (eq_sym Eq)) as D. cbv zeta in D. rewrite Eo in D. unfold put_in in D.
      destruct (Z.eqb_spec (p0 o) (p0 q)) as [E0 |]; [destruct (Z.eqb_spec (p2 o) (p2 q)) as [E2 |] |]; cbn [andb] in D |- *; try exact D.
      rewrite !Vy' by assumption. rewrite Eo, E0, E2, Eq in D. rewrite E0, E2. exact D.
    + intros q Hq. rewrite Vd by exact Hq. destruct (whole q Hq) as (A0 & A1 & A2 & Eq). rewrite (rsum_line s0 s1 s2 _ (p0 q) (p2 q)); [| assumption | lia | assumption |].
      * symmetry. rewrite (rsum_ext s1 _ (fun k => (if k =? p1 q then el dy q * el y q else 0) + - el y q * (el dy (P (p0 q) k (p2 q)) * el y (P (p0 q) k (p2 q))))%R).
        { rewrite rsum_plus, rsum_one, rsum_scale by assumption. ring. }
        intros k Hk. destruct (parts (p0 q) k (p2 q) Hk A2) as (-> & -> & ->). rewrite !Z.eqb_refl. cbn [andb]. destruct (Z.eqb_spec k (p1 q)) as [-> |]; [rewrite Eq; ring | ring].
      * intros o k i Ho Hk Hi D. destruct (parts o k i Hk Hi) as (-> & -> & ->). destruct (Z.eqb_spec o (p0 q)), (Z.eqb_spec i (p2 q)); cbn [andb]; try (ring). lia.
  - intros q Hq. assert (Q : 0 <= Z.of_nat q < N) by (unfold rlen in *; lia). rewrite <- (Nat2Z.id q). rewrite !el_eq by lia. destruct (whole _ Q) as (A0 & A1 & A2 & Eq). rewrite Vd by exact Q. rewrite <- Eq at 1. rewrite Vdx by assumption. rewrite Eq. reflexivity.
Qed.
Lemma log_softmax_gradient x : rlen x = N -> forall yb, rlen yb = N ->
  rgradient N N (fun x => pairs s0 s2 (log_softmax_line s1 s2 x)) (fun accum dy dx => obind (pairs s0 s2 (log_softmax_line s1 s2 x) yb) (fun y => pairs s0 s2 (log_softmax_back_line s1 s2 accum y dy) dx)) x.
Proof using P0 P1 P2.
  intros Lx yb Lyb accum dy dx0 Ldy Ldx. destruct (log_softmax_pairs x yb Lx Lyb) as (y & -> & Ly & Vy). cbn [obind]. assert (NN : 0 <= N) by nia.
  destruct (log_softmax_back_pairs accum y dy dx0) as (dx & E & Ldx' & Vdx); [unfold rlen in *; rewrite Ly; exact Lyb | exact Ldy | exact Ldx |].
  destruct (list_of N (fun q => el dy q - exp (el y q) * rsum s1 (fun k => el dy (P (p0 q) k (p2 q))))%R NN) as (d & Ld & Vd).
  assert (Ey : forall q, 0 <= q < N -> exp (el y q) = (exp (el x q) / esum (el x) (p0 q) (p2 q))%R).
  { intros q Hq. destruct (whole q Hq) as (A0 & A1 & A2 & Eq). rewrite <- Eq at 1. rewrite Vy, Eq by assumption. unfold Rminus, Rdiv. rewrite exp_plus, exp_Ropp, exp_ln by apply esum_pos. reflexivity. }
  exists dx, d. split; [exact E |]. split; [exact Ldx' |]. split; [unfold rlen in *; lia |]. split.
  - apply (rslopes_by N N _ x dy d (fun u q => u q - ln (esum u (p0 q) (p2 q)))%R (fun q o => if (p0 o =? p0 q) && (p2 o =? p2 q) then (if p1 o =? p1 q then 1 else 0) - exp (el y q) else 0)%R); try assumption.
    + intros u y0 Lu Ly0. destruct (log_softmax_pairs u y0 Lu Ly0) as (y' & E' & L' & V'). exists y'. split; [exact E' |]. split; [exact L' |]. intros q Hq. destruct (whole q Hq) as (H0 & H1 & H2 & Eq). rewrite <- Eq at 1. rewrite V' by assumption. rewrite Eq. reflexivity.
    + intros u v q Hq Euv. destruct (whole q Hq) as (H0 & H1 & H2 & _). rewrite Euv, (esum_ext u v) by assumption. reflexivity.
    + intros q o Hq Ho. destruct (whole q Hq) as (A0 & A1 & A2 & Eq). destruct (whole o Ho) as (O0 & O1 & O2 & Eo).
      pose proof (D_log_softmax (el x) q (p0 q) (p1 q) (p2 q) (p0 o) (p1 o) (p2 o) O1 O2 A1 A2 (eq_sym Eq)) as D. rewrite Eo in D. unfold put_in in D.
      destruct (Z.eqb_spec (p0 o) (p0 q)) as [E0 |]; [destruct (Z.eqb_spec (p2 o) (p2 q)) as [E2 |] |]; cbn [andb] in D |- *; try exact D.
      rewrite Ey by exact Hq. rewrite E0, E2, Eq in D. rewrite E0, E2. exact D.
    + intros q Hq. rewrite Vd by exact Hq. destruct (whole q Hq) as (A0 & A1 & A2 & Eq). rewrite (rsum_line s0 s1 s2 _ (p0 q) (p2 q)); [| assumption | lia | assumption |].
      * symmetry. rewrite (rsum_ext s1 _ (fun k => (if k =? p1 q then el dy q else 0) + - exp (el y q) * el dy (P (p0 q) k (p2 q)))%R).
        { rewrite rsum_plus, rsum_one, rsum_scale by assumption. ring. }
        intros k Hk. destruct (parts (p0 q) k (p2 q) Hk A2) as (-> & -> & ->). rewrite !Z.eqb_refl. cbn [andb]. destruct (Z.eqb_spec k (p1 q)) as [-> |]; [rewrite Eq; ring | ring].
      * intros o k i Ho Hk Hi D. destruct (parts o k i Hk Hi) as (-> & -> & ->). destruct (Z.eqb_spec o (p0 q)), (Z.eqb_spec i (p2 q)); cbn [andb]; try (ring). lia.
  - intros q Hq. assert (Q : 0 <= Z.of_nat q < N) by (unfold rlen in *; lia). rewrite <- (Nat2Z.id q). rewrite !el_eq by lia. destruct (whole _ Q) as (A0 & A1 & A2 & Eq). rewrite Vd by exact Q. rewrite <- Eq at 1. rewrite Vdx by assumption. rewrite Eq. unfold Rminus. ring.
Qed.
End sizes.
