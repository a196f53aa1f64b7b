(** Loops over elements, sums over histories. *)
From Coq Require Import List ZArith Lia Bool Reals Lra.
From Verif Require Import NdModel IdxModel ScanModel ScanProofs1 ConvProofs3 SmSpec SmProofs1 UpdSpec UpdModel.
Import ListNotations.
Local Open Scope list_scope.
Local Open Scope Z_scope.

(** A write, with the element at any index. *)
Definition upd (i : Z) (v : R) (a r : list R) : Prop := rlen r = rlen a /\ forall j, 0 <= j -> el r j = if j =? i then v else el a j.
Lemma put_upd a i v : 0 <= i < rlen a -> exists r, put a i v = Some r /\ upd i v a r.
Proof. intros H. destruct (rput a i v H) as (r & E & L & V). exists r. split; [exact E |]. split; [unfold rlen; rewrite L; reflexivity | exact V]. Qed.
(** The first k elements are new. *)
Definition part (k : Z) (new old : Z -> R) (a : list R) : Prop := forall e, 0 <= e -> el a e = if e <? k then new e else old e.
Lemma part_0 old a : (forall e, 0 <= e -> el a e = old e) -> forall new, part 0 new old a.
Proof. intros H new e He. rewrite H by exact He. destruct (Z.ltb_spec e 0); [lia | reflexivity]. Qed.
Lemma part_S k new old a r : 0 <= k -> part k new old a -> upd k (new k) a r -> part (k + 1) new old r.
Proof.
  intros Hk P (_ & V) e He. rewrite V by exact He. destruct (Z.eqb_spec e k) as [-> |]; [destruct (Z.ltb_spec k (k + 1)); [reflexivity | lia] |].
  rewrite P by exact He. destruct (Z.ltb_spec e k), (Z.ltb_spec e (k + 1)); try reflexivity; lia.
Qed.
Lemma part_at k new old a : 0 <= k -> part k new old a -> el a k = old k.
Proof. intros Hk P. rewrite P by exact Hk. destruct (Z.ltb_spec k k); [lia | reflexivity]. Qed.
Lemma part_all n new old a e : part n new old a -> 0 <= e < n -> el a e = new e.
Proof. intros P He. rewrite P by lia. destruct (Z.ltb_spec e n); [reflexivity | lia]. Qed.

Lemma transform_ok f n a b : 0 <= n -> rlen a = n -> rlen b = n ->
  exists r, transform f n a b = Some r /\ rlen r = n /\ forall e, 0 <= e < n -> el r e = f (el a e) (el b e).
Proof.
  intros Hn La Lb. unfold transform.
  destruct (loop_inv (fun k r => rlen r = n /\ part k (fun e => f (el a e) (el b e)) (el b) r)
    (fun i b => obind (get a i) (fun u => obind (get b i) (fun w => put b i (f u w)))) n Hn) with (s := b) as (r & E & L & P).
  - intros i s Hi (L & P). rewrite rget by lia. cbn [obind]. rewrite rget by lia. cbn [obind]. destruct (put_upd s i (f (el a i) (el s i)) ltac:(lia)) as (r & E & U). exists r. split; [exact E |].
    split; [destruct U; lia |]. apply (part_S i _ _ s); [lia | exact P |]. rewrite (part_at i _ _ s ltac:(lia) P) in U. exact U.
  - split; [exact Lb |]. apply part_0. reflexivity.
  - exists r. split; [exact E |]. split; [exact L |]. intros e He. apply (part_all n _ _ r e P He).
Qed.
Lemma elements1_ok body n g a x : 0 <= n -> rlen g = n -> rlen a = n -> rlen x = n ->
  exists a' x', elements1 n body g (a, x) = Some (a', x') /\ rlen a' = n /\ rlen x' = n /\
  forall e, 0 <= e < n -> (el a' e, el x' e) = body (el g e) (el a e) (el x e).
Proof.
  intros Hn Lg La Lx. unfold elements1. set (N := fun e => body (el g e) (el a e) (el x e)).
  match goal with |- context [loop ?F _ _] => destruct (loop_inv (fun k '(a', x') => rlen a' = n /\ rlen x' = n /\
    part k (fun e => fst (N e)) (el a) a' /\ part k (fun e => snd (N e)) (el x) x') F n Hn) with (s := (a, x)) as ((a' & x') & E & L1 & L2 & P1 & P2) end.
  - intros i (a' & x') Hi (L1 & L2 & P1 & P2). do 3 (rewrite rget by lia; cbn [obind]). rewrite (part_at i _ _ a' ltac:(lia) P1), (part_at i _ _ x' ltac:(lia) P2). fold (N i). destruct (N i) as (u & w) eqn:EN.
    destruct (put_upd a' i u ltac:(lia)) as (ra & Ea & Ua). destruct (put_upd x' i w ltac:(lia)) as (rx & Ex & Ux). rewrite Ea. cbn [obind]. rewrite Ex. cbn [obind]. exists (ra, rx). split; [reflexivity |].
    split; [destruct Ua; lia |]. split; [destruct Ux; lia |]. split; [apply (part_S i _ _ a') | apply (part_S i _ _ x')]; try lia; try assumption; rewrite EN; assumption.
  - split; [exact La |]. split; [exact Lx |]. split; apply part_0; reflexivity.
  - exists a', x'. split; [exact E |]. split; [exact L1 |]. split; [exact L2 |]. intros e He. rewrite (part_all n _ _ a' e P1 He), (part_all n _ _ x' e P2 He). symmetry. apply surjective_pairing.
Qed.
Lemma elements2_ok body n g a b x : 0 <= n -> rlen g = n -> rlen a = n -> rlen b = n -> rlen x = n ->
  exists a' b' x', elements2 n body g (a, b, x) = Some (a', b', x') /\ rlen a' = n /\ rlen b' = n /\ rlen x' = n /\
  forall e, 0 <= e < n -> (el a' e, el b' e, el x' e) = body (el g e) (el a e) (el b e) (el x e).
Proof.
  intros Hn Lg La Lb Lx. unfold elements2. set (N := fun e => body (el g e) (el a e) (el b e) (el x e)).
  match goal with |- context [loop ?F _ _] => destruct (loop_inv (fun k '(a', b', x') => rlen a' = n /\ rlen b' = n /\ rlen x' = n /\
    part k (fun e => fst (fst (N e))) (el a) a' /\ part k (fun e => snd (fst (N e))) (el b) b' /\ part k (fun e => snd (N e)) (el x) x') F n Hn) with (s := (a, b, x)) as (((a' & b') & x') & E & L1 & L2 & L3 & P1 & P2 & P3) end.
  - intros i ((a' & b') & x') Hi (L1 & L2 & L3 & P1 & P2 & P3). do 4 (rewrite rget by lia; cbn [obind]). rewrite (part_at i _ _ a' ltac:(lia) P1), (part_at i _ _ b' ltac:(lia) P2), (part_at i _ _ x' ltac:(lia) P3). fold (N i). destruct (N i) as ((u & z) & w) eqn:EN.
    destruct (put_upd a' i u ltac:(lia)) as (ra & Ea & Ua). destruct (put_upd b' i z ltac:(lia)) as (rb & Eb & Ub). destruct (put_upd x' i w ltac:(lia)) as (rx & Ex & Ux). rewrite Ea. cbn [obind]. rewrite Eb. cbn [obind]. rewrite Ex. cbn [obind]. exists (ra, rb, rx). split; [reflexivity |].
    split; [destruct Ua; lia |]. split; [destruct Ub; lia |]. split; [destruct Ux; lia |]. split; [apply (part_S i _ _ a') | split; [apply (part_S i _ _ b') | apply (part_S i _ _ x')]]; try lia; try assumption; rewrite EN; assumption.
  - split; [exact La |]. split; [exact Lb |]. split; [exact Lx |]. split; [| split]; apply part_0; reflexivity.
  - exists a', b', x'. split; [exact E |]. split; [exact L1 |]. split; [exact L2 |]. split; [exact L3 |]. intros e He. rewrite (part_all n _ _ a' e P1 He), (part_all n _ _ b' e P2 He), (part_all n _ _ x' e P3 He). destruct (N e) as ((u & z) & w) eqn:EN. symmetry. exact EN.
Qed.
Lemma elements3_ok body n g a b c x : 0 <= n -> rlen g = n -> rlen a = n -> rlen b = n -> rlen c = n -> rlen x = n ->
  exists a' b' c' x', elements3 n body g (a, b, c, x) = Some (a', b', c', x') /\ rlen a' = n /\ rlen b' = n /\ rlen c' = n /\ rlen x' = n /\
  forall e, 0 <= e < n -> (el a' e, el b' e, el c' e, el x' e) = body (el g e) (el a e) (el b e) (el c e) (el x e).
Proof.
  intros Hn Lg La Lb Lc Lx. unfold elements3. set (N := fun e => body (el g e) (el a e) (el b e) (el c e) (el x e)).
  match goal with |- context [loop ?F _ _] => destruct (loop_inv (fun k '(a', b', c', x') => rlen a' = n /\ rlen b' = n /\ rlen c' = n /\ rlen x' = n /\
    part k (fun e => fst (fst (fst (N e)))) (el a) a' /\ part k (fun e => snd (fst (fst (N e)))) (el b) b' /\ part k (fun e => snd (fst (N e))) (el c) c' /\ part k (fun e => snd (N e)) (el x) x') F n Hn) with (s := (a, b, c, x)) as ((((a' & b') & c') & x') & E & L1 & L2 & L3 & L4 & P1 & P2 & P3 & P4) end.
  - intros i (((a' & b') & c') & x') Hi (L1 & L2 & L3 & L4 & P1 & P2 & P3 & P4). do 5 (rewrite rget by lia; cbn [obind]). rewrite (part_at i _ _ a' ltac:(lia) P1), (part_at i _ _ b' ltac:(lia) P2), (part_at i _ _ c' ltac:(lia) P3), (part_at i _ _ x' ltac:(lia) P4). fold (N i). destruct (N i) as (((u & z) & q) & w) eqn:EN.
    destruct (put_upd a' i u ltac:(lia)) as (ra & Ea & Ua). destruct (put_upd b' i z ltac:(lia)) as (rb & Eb & Ub). destruct (put_upd c' i q ltac:(lia)) as (rc & Ec & Uc). destruct (put_upd x' i w ltac:(lia)) as (rx & Ex & Ux). rewrite Ea. cbn [obind]. rewrite Eb. cbn [obind]. rewrite Ec. cbn [obind]. rewrite Ex. cbn [obind]. exists (ra, rb, rc, rx). split; [reflexivity |].
    split; [destruct Ua; lia |]. split; [destruct Ub; lia |]. split; [destruct Uc; lia |]. split; [destruct Ux; lia |].
    split; [apply (part_S i _ _ a') | split; [apply (part_S i _ _ b') | split; [apply (part_S i _ _ c') | apply (part_S i _ _ x')]]]; try lia; try assumption; rewrite EN; assumption.
  - split; [exact La |]. split; [exact Lb |]. split; [exact Lc |]. split; [exact Lx |]. split; [| split; [| split]]; apply part_0; reflexivity.
  - exists a', b', c', x'. split; [exact E |]. split; [exact L1 |]. split; [exact L2 |]. split; [exact L3 |]. split; [exact L4 |]. intros e He.
    rewrite (part_all n _ _ a' e P1 He), (part_all n _ _ b' e P2 He), (part_all n _ _ c' e P3 He), (part_all n _ _ x' e P4 He). destruct (N e) as (((u & z) & q) & w) eqn:EN. symmetry. exact EN.
Qed.
Lemma squares_ok n a : 0 <= n -> rlen a = n -> loop (fun i s => obind (get a i) (fun u => Some (s + u * u)%R)) (upto n) 0%R = Some (rsum n (fun e => el a e * el a e)%R).
Proof.
  intros Hn L. rewrite (sum_loop _ (fun e => el a e * el a e)%R n 0%R Hn); [f_equal; lra |]. intros k s Hk. rewrite rget by lia. reflexivity.
Qed.
Lemma norm_is n a : rlen a = n -> norm a = sqrt (rsum n (fun e => el a e * el a e)%R).
Proof. intros <-. reflexivity. Qed.
Lemma norm2_ok n a : 0 <= n -> rlen a = n -> norm2 n a = Some (norm a).
Proof. intros Hn L. unfold norm2. rewrite (squares_ok n a Hn L). cbn [obind]. rewrite (norm_is n a L). reflexivity. Qed.

(** ** Histories *)
Lemma power_S b k : 0 <= k -> power b (k + 1) = (b * power b k)%R.
Proof. intros H. unfold power. replace (Z.to_nat (k + 1)) with (S (Z.to_nat k)) by lia. reflexivity. Qed.
Lemma power_0 b : power b 0 = 1%R.
Proof. reflexivity. Qed.
Lemma power_range b k : (0 <= b < 1)%R -> 0 < k -> (0 <= power b k < 1)%R.
Proof.
  intros (B0 & B1) Hk. replace k with (k - 1 + 1) by lia. rewrite power_S by lia. assert (P : (0 <= power b (k - 1) <= 1)%R).
  { unfold power. split; [apply pow_le; lra |]. rewrite <- (pow1 (Z.to_nat (k - 1))). apply pow_incr. lra. }
  split; [apply Rmult_le_pos; lra |]. apply Rle_lt_trans with (b * 1)%R; [apply Rmult_le_compat_l; lra | lra].
Qed.
Lemma discounted_0 b f : discounted b f 0 = 0%R.
Proof. apply rsum_0. Qed.
Lemma discounted_S b f T : 0 <= T -> discounted b f (T + 1) = (b * discounted b f T + f T)%R.
Proof.
  intros H. unfold discounted. rewrite rsum_S by exact H. rewrite <- rsum_scale. f_equal.
  - apply rsum_ext. intros i Hi. replace (T + 1 - 1 - i) with (T - 1 - i + 1) by lia. rewrite power_S by lia. ring.
  - replace (T + 1 - 1 - T) with 0 by lia. rewrite power_0. ring.
Qed.
Lemma average_0 b f : average b f 0 = 0%R.
Proof. unfold average. rewrite discounted_0. ring. Qed.
Lemma average_S b f T : 0 <= T -> average b f (T + 1) = (b * average b f T + (1 - b) * f T)%R.
Proof. intros H. unfold average. rewrite discounted_S by exact H. ring. Qed.
Lemma el_zeros n e : el (zeros n) e = 0%R.
Proof. unfold el, zeros. apply nth_repeat. Qed.
Lemma len_zeros n : 0 <= n -> rlen (zeros n) = n.
Proof. intros H. unfold rlen, zeros. rewrite repeat_length. lia. Qed.
Lemma next_counted T : 0 <= T < counted -> next_t T = T + 1.
Proof. unfold counted, next_t. intros H. rewrite Z.mod_small by lia. lia. Qed.
