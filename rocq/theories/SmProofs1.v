(** Sums of real numbers, arrays of real numbers, nested loops over them, and slopes of sums. *)
From Coq Require Import List ZArith Lia Bool Reals Lra.
From Verif Require Import NdModel NdSpec NdProofs IdxModel IdxSpec IdxProofs1 IdxProofs2 IdxProofs3 IdxProofs6 JoinModel JoinSpec JoinProofs JoinProofs2 ScanModel ScanProofs1 ScanProofs4 ReduceProofs1 ConvProofs3 SortProofs3 ActSpec ActProofs1 ActProofs4 SmSpec SmModel.
Import ListNotations.
Local Open Scope list_scope.
Local Open Scope Z_scope.

(** ** Sums *)
Lemma rsum_0 f : rsum 0 f = 0%R.
Proof. reflexivity. Qed.
Lemma rsum_S n f : 0 <= n -> rsum (n + 1) f = (rsum n f + f n)%R.
Proof. intros H. unfold rsum. replace (Z.to_nat (n + 1)) with (S (Z.to_nat n)) by lia. cbn [rsum_nat]. rewrite Z2Nat.id by exact H. reflexivity. Qed.
Lemma rsum_ind (Q : Z -> Prop) : Q 0 -> (forall n, 0 <= n -> Q n -> Q (n + 1)) -> forall n, 0 <= n -> Q n.
Proof. intros A B. apply natlike_ind; [exact A |]. intros x Hx Hq. apply B; assumption. Qed.
Lemma rsum_neg n f : n <= 0 -> rsum n f = 0%R.
Proof. intros H. unfold rsum. replace (Z.to_nat n) with 0%nat by lia. reflexivity. Qed.
Lemma rsum_ext n f g : (forall i, 0 <= i < n -> f i = g i) -> rsum n f = rsum n g.
Proof.
  destruct (Z.le_gt_cases n 0) as [N | N]; [rewrite !rsum_neg by exact N; reflexivity |]. assert (P : 0 <= n) by lia. clear N. revert n P.
  apply (rsum_ind (fun n => (forall i, 0 <= i < n -> f i = g i) -> rsum n f = rsum n g)); [reflexivity |]. intros n Hn IH H. rewrite !rsum_S by exact Hn. rewrite IH, H; [reflexivity | lia |]. intros i Hi. apply H. lia.
Qed.
Lemma rsum_plus n f g : rsum n (fun i => f i + g i)%R = (rsum n f + rsum n g)%R.
Proof. unfold rsum. induction (Z.to_nat n) as [| k IH]; cbn [rsum_nat]; [lra |]. rewrite IH. lra. Qed.
Lemma rsum_scale n c f : rsum n (fun i => c * f i)%R = (c * rsum n f)%R.
Proof. unfold rsum. induction (Z.to_nat n) as [| k IH]; cbn [rsum_nat]; [lra |]. rewrite IH. lra. Qed.
Lemma rsum_scale_r n c f : rsum n (fun i => f i * c)%R = (rsum n f * c)%R.
Proof. unfold rsum. induction (Z.to_nat n) as [| k IH]; cbn [rsum_nat]; [lra |]. rewrite IH. lra. Qed.
Lemma rsum_zero n f : (forall i, 0 <= i < n -> f i = 0%R) -> rsum n f = 0%R.
Proof. intros H. rewrite (rsum_ext n f (fun _ => 0 * 0)%R) by (intros; rewrite H by assumption; lra). rewrite rsum_scale. lra. Qed.
Lemma rsum_only n f k : 0 <= k < n -> (forall i, 0 <= i < n -> i <> k -> f i = 0%R) -> rsum n f = f k.
Proof.
  intros K. assert (P : 0 <= n) by lia. revert n P K. apply (rsum_ind (fun n => 0 <= k < n -> (forall i, 0 <= i < n -> i <> k -> f i = 0%R) -> rsum n f = f k)); [lia |].
  intros n Hn IH K H. rewrite rsum_S by exact Hn. destruct (Z.eq_dec k n) as [-> | N].
  - rewrite rsum_zero; [lra |]. intros i Hi. apply H; lia.
  - rewrite IH, (H n); [lra | lia | congruence | lia |]. intros i Hi. apply H. lia.
Qed.
Lemma rsum_one n k v : 0 <= k < n -> rsum n (fun i => if i =? k then v else 0)%R = v.
Proof.
  intros K. rewrite (rsum_only n _ k K); [rewrite Z.eqb_refl; reflexivity |]. intros i _ N. apply Z.eqb_neq in N. rewrite N. reflexivity.
Qed.
Lemma rsum_pos n f : 0 < n -> (forall i, 0 <= i < n -> (0 < f i)%R) -> (0 < rsum n f)%R.
Proof.
  intros N H. replace n with (n - 1 + 1) in * by ring. set (m := n - 1) in *. assert (M : 0 <= m) by lia. clearbody m. clear N. revert m M H.
  apply (rsum_ind (fun m => (forall i, 0 <= i < m + 1 -> (0 < f i)%R) -> (0 < rsum (m + 1) f)%R)).
  - intros H. rewrite rsum_S by lia. rewrite rsum_0. specialize (H 0 ltac:(lia)). lra.
  - intros m Hm IH H. rewrite rsum_S by lia. specialize (IH ltac:(intros; apply H; lia)). specialize (H (m + 1) ltac:(lia)). lra.
Qed.
Lemma rsum_app a b f : 0 <= a -> 0 <= b -> rsum (a + b) f = (rsum a f + rsum b (fun i => f (a + i)%Z))%R.
Proof.
  intros A. revert b. apply (rsum_ind (fun b => rsum (a + b) f = (rsum a f + rsum b (fun i => f (a + i)%Z))%R)).
  - rewrite Z.add_0_r, rsum_0. lra.
  - intros b B IH. rewrite Z.add_assoc, !rsum_S by lia. rewrite IH. lra.
Qed.
Lemma rsum_mul a b f : 0 <= a -> 0 <= b -> rsum (a * b) f = rsum a (fun i => rsum b (fun k => f (i * b + k))).
Proof.
  intros A B. revert a A. apply (rsum_ind (fun a => rsum (a * b) f = rsum a (fun i => rsum b (fun k => f (i * b + k))))); [reflexivity |].
  intros a A IH. rewrite Z.mul_add_distr_r, Z.mul_1_l, rsum_app, IH, rsum_S by nia. reflexivity.
Qed.
Lemma rsum_swap a b f : rsum a (fun i => rsum b (fun k => f i k)) = rsum b (fun k => rsum a (fun i => f i k)).
Proof.
  unfold rsum at 1 4. induction (Z.to_nat a) as [| n IH]; cbn [rsum_nat]; [symmetry; apply rsum_zero; reflexivity |]. rewrite IH, <- rsum_plus. reflexivity.
Qed.

(** ** Arrays *)
Definition el (a : list R) (i : Z) : R := nth (Z.to_nat i) a 0%R.
Definition rlen (a : list R) : Z := Z.of_nat (length a).
Lemma rget a i : 0 <= i < rlen a -> get a i = Some (el a i).
Proof. apply get_gen. Qed.
Lemma rput a i v : 0 <= i < rlen a -> exists r, put a i v = Some r /\ length r = length a /\ forall j, 0 <= j -> el r j = if j =? i then v else el a j.
Proof. apply put_gen. Qed.
Lemma with_length x q t : (q < length x)%nat -> length (with_at x q t) = length x.
Proof. intros H. unfold with_at. rewrite app_length. cbn [length]. rewrite firstn_length, skipn_length. lia. Qed.
Lemma with_nth x q t j : (q < length x)%nat -> nth j (with_at x q t) 0%R = if Nat.eqb j q then t else nth j x 0%R.
Proof.
  unfold with_at. revert x j. induction q as [| q IH]; intros [| a x] j H; cbn [length] in H; try lia.
  - destruct j; reflexivity.
  - destruct j as [| j]; [reflexivity |]. cbn [firstn app nth skipn Nat.eqb]. rewrite <- (IH x j) by lia. reflexivity.
Qed.
Lemma with_el x q t j : 0 <= q < rlen x -> 0 <= j -> el (with_at x (Z.to_nat q) t) j = if j =? q then t else el x j.
Proof.
  unfold rlen, el. intros H J. rewrite with_nth by lia. destruct (Z.eqb_spec j q) as [-> | N]; [rewrite Nat.eqb_refl; reflexivity |].
  destruct (Nat.eqb_spec (Z.to_nat j) (Z.to_nat q)); [lia | reflexivity].
Qed.
Lemma rinner_sum a : forall b, length a = length b -> rinner a b = rsum (rlen b) (fun i => el a i * el b i)%R.
Proof.
  assert (SH : forall n f, rsum_nat (S n) f = (f 0%Z + rsum_nat n (fun i => f (i + 1)%Z))%R).
  { induction n as [| n IH]; intros f; [cbn [rsum_nat]; change (Z.of_nat 0) with 0; lra |]. change (rsum_nat (S (S n)) f) with (rsum_nat (S n) f + f (Z.of_nat (S n)))%R. rewrite IH. cbn [rsum_nat]. replace (Z.of_nat (S n)) with (Z.of_nat n + 1) by lia. lra. }
  induction a as [| x a IH]; intros [| y b] L; cbn [length] in L; try lia; [reflexivity |]. cbn [rinner]. unfold rsum, rlen. rewrite Nat2Z.id. cbn [length]. rewrite SH. rewrite IH by lia. unfold rsum, rlen. rewrite Nat2Z.id. f_equal.
  assert (Ex : forall n f g, (forall i, 0 <= i -> f i = g i) -> rsum_nat n f = rsum_nat n g) by (clear; intros n f g H; induction n as [| n IH]; cbn [rsum_nat]; [reflexivity | rewrite IH, H by lia; reflexivity]).
  apply Ex. intros i Hi. unfold el. replace (Z.to_nat (i + 1)) with (S (Z.to_nat i)) by lia. reflexivity.
Qed.
Lemma el_eq a i : 0 <= i -> nth (Z.to_nat i) a 0%R = el a i.
Proof. reflexivity. Qed.
Lemma list_of n (f : Z -> R) : 0 <= n -> exists d, rlen d = n /\ forall i, 0 <= i < n -> el d i = f i.
Proof.
  intros N. exists (map f (upto n)). unfold rlen, el. assert (L : length (upto n) = Z.to_nat n) by (unfold upto; rewrite map_length, seq_length; reflexivity). split; [rewrite map_length, L; lia |].
  intros i Hi. rewrite (nth_indep _ 0%R (f 0)) by (rewrite map_length, L; lia). rewrite map_nth. f_equal. unfold upto. rewrite (nth_indep _ 0 (Z.of_nat 0)) by (rewrite map_length, seq_length; lia). rewrite map_nth, seq_nth by lia. lia.
Qed.

(** ** Lines *)
Definition at3 (s1 s2 o k i : Z) : Z := (o * s1 + k) * s2 + i.
Lemma at3_range s0 s1 s2 o k i : 0 <= o < s0 -> 0 <= k < s1 -> 0 <= i < s2 -> 0 <= at3 s1 s2 o k i < s0 * s1 * s2.
Proof.
  intros O K I. unfold at3. assert (0 <= o * s1 + k < s0 * s1) by nia. split; [nia |]. assert (o * s1 + k <= s0 * s1 - 1) by lia. nia.
Qed.
Lemma at3_inj s1 s2 o k i o' k' i' : 0 <= k < s1 -> 0 <= i < s2 -> 0 <= k' < s1 -> 0 <= i' < s2 -> at3 s1 s2 o k i = at3 s1 s2 o' k' i' -> o = o' /\ k = k' /\ i = i'.
Proof.
  unfold at3. intros K I K' I' E. destruct (split_pos s2 (o * s1 + k) (o' * s1 + k') i i') as (E1 & ->); [lia | lia | lia |]. destruct (split_pos s1 o o' k k') as (-> & ->); [lia | lia | lia |]. auto.
Qed.
Lemma at3_onto s0 s1 s2 q : 0 <= s0 -> 0 <= s1 -> 0 <= s2 -> 0 <= q < s0 * s1 * s2 -> exists o k i, 0 <= o < s0 /\ 0 <= k < s1 /\ 0 <= i < s2 /\ q = at3 s1 s2 o k i.
Proof.
  intros A B C Q. assert (0 < s2) by nia. assert (0 < s1) by nia. exists (q / s2 / s1), (q / s2 mod s1), (q mod s2). pose proof (Z.mod_pos_bound q s2 ltac:(lia)). pose proof (Z.mod_pos_bound (q / s2) s1 ltac:(lia)).
  assert (E1 : q = s2 * (q / s2) + q mod s2) by (apply Z.div_mod; lia). assert (E2 : q / s2 = s1 * (q / s2 / s1) + q / s2 mod s1) by (apply Z.div_mod; lia).
  assert (D : 0 <= q / s2 < s0 * s1) by (split; [apply Z.div_pos; lia | apply Z.div_lt_upper_bound; nia]).
  split; [split; [apply Z.div_pos; lia | apply Z.div_lt_upper_bound; nia] |]. split; [lia |]. split; [lia |]. unfold at3. rewrite (Z.mul_comm (q / s2 / s1)), <- E2, (Z.mul_comm (q / s2)). exact E1.
Qed.
Lemma rsum_lines s0 s1 s2 f : 0 <= s0 -> 0 <= s1 -> 0 <= s2 ->
  rsum (s0 * s1 * s2) f = rsum s0 (fun o => rsum s2 (fun i => rsum s1 (fun k => f (at3 s1 s2 o k i)))).
Proof.
  intros A B C. rewrite rsum_mul, rsum_mul by nia. apply rsum_ext. intros o Ho. rewrite rsum_swap. reflexivity.
Qed.
(** Only the line through [a] and [c] counts. *)
Lemma rsum_line s0 s1 s2 f a c : 0 <= a < s0 -> 0 <= s1 -> 0 <= c < s2 ->
  (forall o k i, 0 <= o < s0 -> 0 <= k < s1 -> 0 <= i < s2 -> (o <> a \/ i <> c) -> f (at3 s1 s2 o k i) = 0%R) ->
  rsum (s0 * s1 * s2) f = rsum s1 (fun k => f (at3 s1 s2 a k c)).
Proof.
  intros A B C H. rewrite rsum_lines by lia. rewrite (rsum_only s0 _ a A).
  - rewrite (rsum_only s2 _ c C); [reflexivity |]. intros i Hi N. apply rsum_zero. intros k Hk. apply H; auto.
  - intros o Ho N. apply rsum_zero. intros i Hi. apply rsum_zero. intros k Hk. apply H; auto.
Qed.

(** A body that changes its own line only, in two loops. *)
Lemma pairs_ok s0 s1 s2 (body : Z -> Z -> list R -> option (list R)) (V : Z -> Z -> Z -> R -> R) : 0 <= s0 -> 0 <= s1 -> 0 <= s2 ->
  (forall o i y, 0 <= o < s0 -> 0 <= i < s2 -> rlen y = s0 * s1 * s2 -> exists y', body o i y = Some y' /\ length y' = length y /\
     (forall k, 0 <= k < s1 -> el y' (at3 s1 s2 o k i) = V o k i (el y (at3 s1 s2 o k i))) /\
     (forall q, 0 <= q -> (forall k, 0 <= k < s1 -> q <> at3 s1 s2 o k i) -> el y' q = el y q)) ->
  forall y0, rlen y0 = s0 * s1 * s2 -> exists y, pairs s0 s2 body y0 = Some y /\ length y = length y0 /\
  forall o k i, 0 <= o < s0 -> 0 <= k < s1 -> 0 <= i < s2 -> el y (at3 s1 s2 o k i) = V o k i (el y0 (at3 s1 s2 o k i)).
Proof.
  intros A B C H y0 L. unfold pairs.
  set (done := fun o' i' (y : list R) => length y = length y0 /\ forall o k i, 0 <= o < s0 -> 0 <= k < s1 -> 0 <= i < s2 ->
     el y (at3 s1 s2 o k i) = if (o <? o') || ((o =? o') && (i <? i')) then V o k i (el y0 (at3 s1 s2 o k i)) else el y0 (at3 s1 s2 o k i)).
  destruct (loop_inv (fun o y => done o 0 y) (fun i0 => loop (body i0) (upto s2)) s0 A) with (s := y0) as (y & E & Ly & Vy).
  - intros o y Ho (Ly & Vy). destruct (loop_inv (fun i y => done o i y) (body o) s2 C) with (s := y) as (y' & E' & Ly' & Vy').
    + intros i z Hi (Lz & Vz). destruct (H o i z Ho Hi) as (z' & Ez & Lz' & V1 & V2); [unfold rlen in *; rewrite Lz; exact L |]. exists z'. split; [exact Ez |]. split; [congruence |].
      intros o1 k1 i1 Ho1 Hk1 Hi1. destruct (Z.eq_dec o1 o) as [-> | No]; [destruct (Z.eq_dec i1 i) as [-> | Ni] |].
      * rewrite V1 by exact Hk1. rewrite Vz by assumption. rewrite !Z.ltb_irrefl, Z.eqb_refl. cbn [orb andb]. destruct (Z.ltb_spec i (i + 1)); [reflexivity | lia].
      * rewrite V2; [rewrite Vz by assumption; rewrite !Z.ltb_irrefl, Z.eqb_refl; cbn [orb andb]; destruct (Z.ltb_spec i1 i), (Z.ltb_spec i1 (i + 1)); try lia; reflexivity | apply (at3_range s0); assumption |].
        intros k Hk Eq. apply at3_inj in Eq; [lia | assumption ..].
      * rewrite V2; [rewrite Vz by assumption; apply Z.eqb_neq in No; rewrite No; reflexivity | apply (at3_range s0); assumption |].
        intros k Hk Eq. apply at3_inj in Eq; [lia | assumption ..].
    + split; assumption.
    + exists y'. split; [exact E' |]. split; [exact Ly' |]. intros o1 k1 i1 Ho1 Hk1 Hi1. rewrite Vy' by assumption.
      destruct (Z.ltb_spec o1 o), (Z.ltb_spec o1 (o + 1)), (Z.eqb_spec o1 o), (Z.eqb_spec o1 (o + 1)), (Z.ltb_spec i1 s2), (Z.ltb_spec i1 0); cbn [orb andb]; try lia; reflexivity.
  - split; [reflexivity |]. intros o k i Ho Hk Hi. destruct (Z.ltb_spec o 0), (Z.eqb_spec o 0), (Z.ltb_spec i 0); cbn [orb andb]; try lia; reflexivity.
  - exists y. split; [exact E |]. split; [exact Ly |]. intros o k i Ho Hk Hi. rewrite Vy by assumption. destruct (Z.ltb_spec o s0); [reflexivity | lia].
Qed.
(** A loop that changes one element after another of a line. *)
Lemma line_ok s0 s1 s2 o i (step : Z -> list R -> option (list R)) (W : Z -> R -> R) : 0 <= o < s0 -> 0 <= s1 -> 0 <= i < s2 ->
  (forall k y, 0 <= k < s1 -> rlen y = s0 * s1 * s2 -> step k y = put y (at3 s1 s2 o k i) (W k (el y (at3 s1 s2 o k i)))) ->
  forall y0, rlen y0 = s0 * s1 * s2 -> exists y, loop step (upto s1) y0 = Some y /\ length y = length y0 /\
  (forall k, 0 <= k < s1 -> el y (at3 s1 s2 o k i) = W k (el y0 (at3 s1 s2 o k i))) /\
  (forall q, 0 <= q -> (forall k, 0 <= k < s1 -> q <> at3 s1 s2 o k i) -> el y q = el y0 q).
Proof.
  intros Ho B Hi ST y0 L.
  destruct (loop_inv (fun m y => length y = length y0 /\ (forall k, 0 <= k < m -> el y (at3 s1 s2 o k i) = W k (el y0 (at3 s1 s2 o k i))) /\ (forall q, 0 <= q -> (forall k, 0 <= k < m -> q <> at3 s1 s2 o k i) -> el y q = el y0 q)) step s1 B) with (s := y0) as (y & E & H).
  - intros m y Hm (Ly & V1 & V2). rewrite ST by (try assumption; unfold rlen in *; rewrite Ly; exact L). pose proof (at3_range s0 s1 s2 o m i Ho Hm Hi) as Rg.
    destruct (rput y (at3 s1 s2 o m i) (W m (el y (at3 s1 s2 o m i)))) as (y' & E & Ly' & V'); [unfold rlen in *; rewrite Ly, L; exact Rg |].
    exists y'. split; [exact E |]. split; [congruence |]. split.
    + intros k Hk. rewrite V' by (apply (at3_range s0); lia). destruct (Z.eq_dec k m) as [-> | N].
      * rewrite Z.eqb_refl. rewrite V2; [reflexivity | lia |]. intros k Hk2 Eq. apply at3_inj in Eq; lia.
      * destruct (Z.eqb_spec (at3 s1 s2 o k i) (at3 s1 s2 o m i)) as [Eq |]; [apply at3_inj in Eq; lia |]. apply V1. lia.
    + intros q Hq N. rewrite V' by exact Hq. destruct (Z.eqb_spec q (at3 s1 s2 o m i)) as [-> |]; [exfalso; apply (N m); [lia | reflexivity] |]. apply V2; [exact Hq |]. intros k Hk. apply N. lia.
  - split; [reflexivity |]. split; [intros k Hk; lia | reflexivity].
  - exists y. split; [exact E | exact H].
Qed.
Lemma sum_loop (step : Z -> R -> option R) f n s0 : 0 <= n -> (forall k s, 0 <= k < n -> step k s = Some (s + f k)%R) -> loop step (upto n) s0 = Some (s0 + rsum n f)%R.
Proof.
  intros N H. destruct (loop_inv (fun m s => s = (s0 + rsum m f)%R) step n N) with (s := s0) as (s & E & ->).
  - intros k s Hk ->. exists (s0 + rsum k f + f k)%R. split; [apply H; exact Hk |]. rewrite rsum_S by lia. lra.
  - rewrite rsum_0. lra.
  - exact E.
Qed.

(** ** Slopes of weighted sums *)
Lemma left_const c x : left_slope (fun _ => c) x 0.
Proof. apply lim_left, derivable_pt_lim_const. Qed.
Lemma right_const c x : right_slope (fun _ => c) x 0.
Proof. apply lim_right, derivable_pt_lim_const. Qed.
Lemma left_comb f g x l r c : left_slope f x l -> left_slope g x r -> left_slope (fun t => f t + c * g t)%R x (l + c * r)%R.
Proof.
  intros F G eps P. assert (P' : (0 < eps / 2)%R) by lra. assert (C : (0 < Rabs c + 1)%R) by (pose proof (Rabs_pos c); lra).
  destruct (F _ P') as (d & Hd & H). destruct (G (eps / 2 / (Rabs c + 1))%R) as (d' & Hd' & H'); [apply Rdiv_lt_0_compat; lra |].
  exists (Rmin d d'). split; [apply Rmin_pos; assumption |]. intros h Hh. pose proof (Rmin_l d d'). pose proof (Rmin_r d d'). specialize (H h ltac:(lra)). specialize (H' h ltac:(lra)).
  replace ((f x + c * g x - (f (x - h) + c * g (x - h))) / h - (l + c * r))%R with (((f x - f (x - h)) / h - l) + c * ((g x - g (x - h)) / h - r))%R by (field; lra).
  eapply Rle_lt_trans; [apply Rabs_triang |]. rewrite Rabs_mult. assert (Rabs c * Rabs ((g x - g (x - h)) / h - r) <= Rabs c * (eps / 2 / (Rabs c + 1)))%R by (apply Rmult_le_compat_l; [apply Rabs_pos | lra]).
  assert (Rabs c * (eps / 2 / (Rabs c + 1)) <= eps / 2)%R; [| lra]. apply (Rmult_le_reg_r (Rabs c + 1)); [lra |]. replace (Rabs c * (eps / 2 / (Rabs c + 1)) * (Rabs c + 1))%R with (Rabs c * (eps / 2))%R by (field; lra). pose proof (Rabs_pos c). nra.
Qed.
Lemma right_comb f g x l r c : right_slope f x l -> right_slope g x r -> right_slope (fun t => f t + c * g t)%R x (l + c * r)%R.
Proof.
  intros F G eps P. assert (P' : (0 < eps / 2)%R) by lra. assert (C : (0 < Rabs c + 1)%R) by (pose proof (Rabs_pos c); lra).
  destruct (F _ P') as (d & Hd & H). destruct (G (eps / 2 / (Rabs c + 1))%R) as (d' & Hd' & H'); [apply Rdiv_lt_0_compat; lra |].
  exists (Rmin d d'). split; [apply Rmin_pos; assumption |]. intros h Hh. pose proof (Rmin_l d d'). pose proof (Rmin_r d d'). specialize (H h ltac:(lra)). specialize (H' h ltac:(lra)).
  replace ((f (x + h) + c * g (x + h) - (f x + c * g x)) / h - (l + c * r))%R with (((f (x + h) - f x) / h - l) + c * ((g (x + h) - g x) / h - r))%R by (field; lra).
  eapply Rle_lt_trans; [apply Rabs_triang |]. rewrite Rabs_mult. assert (Rabs c * Rabs ((g (x + h) - g x) / h - r) <= Rabs c * (eps / 2 / (Rabs c + 1)))%R by (apply Rmult_le_compat_l; [apply Rabs_pos | lra]).
  assert (Rabs c * (eps / 2 / (Rabs c + 1)) <= eps / 2)%R; [| lra]. apply (Rmult_le_reg_r (Rabs c + 1)); [lra |]. replace (Rabs c * (eps / 2 / (Rabs c + 1)) * (Rabs c + 1))%R with (Rabs c * (eps / 2))%R by (field; lra). pose proof (Rabs_pos c). nra.
Qed.
Lemma left_sum n (c : Z -> R) (F : Z -> R -> R) (l : Z -> R) x : 0 <= n -> (forall o, 0 <= o < n -> left_slope (F o) x (l o)) -> left_slope (fun t => rsum n (fun o => c o * F o t)%R) x (rsum n (fun o => c o * l o)%R).
Proof.
  intros N. revert n N. apply (rsum_ind (fun n => (forall o, 0 <= o < n -> left_slope (F o) x (l o)) -> left_slope (fun t => rsum n (fun o => c o * F o t)%R) x (rsum n (fun o => c o * l o)%R))); [intros _; exact (left_const 0 x) |].
  intros n N IH H. rewrite rsum_S by exact N. apply (left_ext _ (fun t => rsum n (fun o => c o * F o t) + c n * F n t)%R); [apply left_always; intros; apply rsum_S; exact N |]. apply left_comb; [apply IH; intros; apply H; lia | apply H; lia].
Qed.
Lemma right_sum n (c : Z -> R) (F : Z -> R -> R) (l : Z -> R) x : 0 <= n -> (forall o, 0 <= o < n -> right_slope (F o) x (l o)) -> right_slope (fun t => rsum n (fun o => c o * F o t)%R) x (rsum n (fun o => c o * l o)%R).
Proof.
  intros N. revert n N. apply (rsum_ind (fun n => (forall o, 0 <= o < n -> right_slope (F o) x (l o)) -> right_slope (fun t => rsum n (fun o => c o * F o t)%R) x (rsum n (fun o => c o * l o)%R))); [intros _; exact (right_const 0 x) |].
  intros n N IH H. rewrite rsum_S by exact N. apply (right_ext _ (fun t => rsum n (fun o => c o * F o t) + c n * F n t)%R); [apply right_always; intros; apply rsum_S; exact N |]. apply right_comb; [apply IH; intros; apply H; lia | apply H; lia].
Qed.
(** How slopes of an array function are found: its elements, their slopes from both sides. *)
Lemma rslopes_of nx ny (fwd : list R -> list R -> option (list R)) x dy d (F : (Z -> R) -> Z -> R) (l r : Z -> Z -> R) :
  0 <= ny -> rlen x = nx -> rlen d = nx -> rlen dy = ny ->
  (forall u y0, rlen u = nx -> rlen y0 = ny -> exists y, fwd u y0 = Some y /\ length y = length y0 /\ forall o, 0 <= o < ny -> el y o = F (el u) o) ->
  (forall u v o, 0 <= o < ny -> (forall i, 0 <= i < nx -> u i = v i) -> F u o = F v o) ->
  (forall q o, 0 <= q < nx -> 0 <= o < ny -> left_slope (fun t => F (fun i => if i =? q then t else el x i) o) (el x q) (l q o)) ->
  (forall q o, 0 <= q < nx -> 0 <= o < ny -> right_slope (fun t => F (fun i => if i =? q then t else el x i) o) (el x q) (r q o)) ->
  (forall q, 0 <= q < nx -> let a := rsum ny (fun o => el dy o * l q o)%R in let b := rsum ny (fun o => el dy o * r q o)%R in (Rmin a b <= el d q <= Rmax a b)%R) ->
  rslopes ny fwd x dy d.
Proof.
  intros Ny Lx Ld Ldy FW EXT LS RS DS y0 Ly q Hq. assert (Q : 0 <= Z.of_nat q < rlen x) by (unfold rlen; lia).
  assert (T : forall t, exists y, fwd (with_at x q t) y0 = Some y /\ length y = length y0 /\ forall o, 0 <= o < ny -> el y o = F (fun i => if i =? Z.of_nat q then t else el x i) o).
  { intros t. destruct (FW (with_at x q t) y0) as (y & E & L & V); [unfold rlen in *; rewrite with_length by exact Hq; exact Lx | exact Ly |]. exists y. split; [exact E |]. split; [exact L |]. intros o Ho. rewrite V by exact Ho. apply EXT; [exact Ho |]. intros i Hi. rewrite <- (Nat2Z.id q) at 1. apply with_el; [exact Q | lia]. }
  split; [intros t; destruct (T t) as (y & E & _); exists y; exact E |].
  apply (slope_ext _ (fun t => rsum ny (fun o => el dy o * F (fun i => if i =? Z.of_nat q then t else el x i) o)%R)).
  - intros t. destruct (T t) as (y & E & L & V). rewrite E. assert (Ly' : rlen y = ny) by (unfold rlen in *; rewrite L; exact Ly). rewrite rinner_sum by (unfold rlen in *; lia). rewrite Ly'. apply rsum_ext. intros o Ho. rewrite V by exact Ho. reflexivity.
  - replace (nth q x 0%R) with (el x (Z.of_nat q)) by (unfold el; rewrite Nat2Z.id; reflexivity). replace (nth q d 0%R) with (el d (Z.of_nat q)) by (unfold el; rewrite Nat2Z.id; reflexivity). exists (rsum ny (fun o => el dy o * l (Z.of_nat q) o)%R), (rsum ny (fun o => el dy o * r (Z.of_nat q) o)%R). split; [| split].
    + apply left_sum; [exact Ny |]. intros o Ho. apply LS; lia.
    + apply right_sum; [exact Ny |]. intros o Ho. apply RS; lia.
    + apply DS. lia.
Qed.
(** With derivatives. *)
Lemma rslopes_by nx ny (fwd : list R -> list R -> option (list R)) x dy d (F : (Z -> R) -> Z -> R) (F' : Z -> Z -> R) :
  0 <= ny -> rlen x = nx -> rlen d = nx -> rlen dy = ny ->
  (forall u y0, rlen u = nx -> rlen y0 = ny -> exists y, fwd u y0 = Some y /\ length y = length y0 /\ forall o, 0 <= o < ny -> el y o = F (el u) o) ->
  (forall u v o, 0 <= o < ny -> (forall i, 0 <= i < nx -> u i = v i) -> F u o = F v o) ->
  (forall q o, 0 <= q < nx -> 0 <= o < ny -> derivable_pt_lim (fun t => F (fun i => if i =? q then t else el x i) o) (el x q) (F' q o)) ->
  (forall q, 0 <= q < nx -> el d q = rsum ny (fun o => el dy o * F' q o)%R) ->
  rslopes ny fwd x dy d.
Proof.
  intros Ny Lx Ld Ldy FW EXT D DS. apply (rslopes_of nx ny fwd x dy d F F' F'); try assumption; [intros; apply lim_left; apply D; assumption | intros; apply lim_right; apply D; assumption |].
  intros q Hq. cbv zeta. rewrite DS by exact Hq. rewrite Rmin_left, Rmax_left by lra. lra.
Qed.
