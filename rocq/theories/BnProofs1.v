(** Batch normalization: positions of a channel, sums over it, loops over it. *)
From Coq Require Import List ZArith Lia Bool Reals Lra.
From Verif Require Import NdModel NdSpec NdProofs IdxModel IdxSpec IdxProofs1 IdxProofs2 IdxProofs3 IdxProofs6 JoinModel JoinSpec JoinProofs JoinProofs2 ScanModel ScanProofs1 ScanProofs4 ReduceProofs1 ConvProofs3 SortProofs3 BinModel ActModel ActSpec ActProofs1 ActProofs2 ActProofs4 SmSpec SmModel SmProofs1 SmProofs2 SmProofs3 BnSpec BnModel.
Import ListNotations.
Local Open Scope list_scope.
Local Open Scope Z_scope.

Section channels.
Variables s0 s1 s2 : Z.
Hypothesis P0 : 0 < s0.
Hypothesis P1 : 0 < s1.
Hypothesis P2 : 0 < s2.
Local Notation T := (s0 * s1 * s2).
Local Notation K := (s0 * s2).
(** Element k of channel c. *)
Definition pos (c k : Z) : Z := at3 s1 s2 (k / s2) c (k mod s2).
Lemma K_pos : 0 < K.
Proof using P0 P2. nia. Qed.
Lemma pos_range c k : 0 <= c < s1 -> 0 <= k < K -> 0 <= pos c k < T.
Proof using P0 P1 P2. intros C H. destruct (jsplit s0 s2 k) as (A & B & _); [lia | exact H |]. apply at3_range; assumption. Qed.
Lemma pos_inj c k c' k' : 0 <= c < s1 -> 0 <= k < K -> 0 <= c' < s1 -> 0 <= k' < K -> pos c k = pos c' k' -> c = c' /\ k = k'.
Proof using P0 P1 P2.
  intros C H C' H' E. destruct (jsplit s0 s2 k) as (A & B & D); [lia | exact H |]. destruct (jsplit s0 s2 k') as (A' & B' & D'); [lia | exact H' |].
  apply at3_inj in E; [| assumption ..]. destruct E as (E1 & -> & E2). split; [reflexivity |]. rewrite D, D', E1, E2. reflexivity.
Qed.
Lemma pos_onto q : 0 <= q < T -> exists c k, 0 <= c < s1 /\ 0 <= k < K /\ q = pos c k.
Proof using P0 P1 P2.
  intros H. destruct (at3_onto s0 s1 s2 q) as (o & c & i & Ho & Hc & Hi & ->); [lia .. |]. exists c, (o * s2 + i). destruct (jparts s2 o i Hi) as (D1 & D2). split; [exact Hc |]. split; [apply jrange; assumption |]. unfold pos. rewrite D1, D2. reflexivity.
Qed.
Lemma pos_split o c i : 0 <= i < s2 -> pos c (o * s2 + i) = at3 s1 s2 o c i.
Proof using. intros Hi. destruct (jparts s2 o i Hi) as (D1 & D2). unfold pos. rewrite D1, D2. reflexivity. Qed.
(** Sums over all elements and over a channel. *)
Lemma rsum_pos_split f : rsum T f = rsum s1 (fun c => rsum K (fun k => f (pos c k))).
Proof using P0 P1 P2.
  rewrite rsum_lines by lia. rewrite (rsum_ext s1 _ (fun c => rsum s0 (fun o => rsum s2 (fun i => f (at3 s1 s2 o c i))))).
  - rewrite (rsum_swap s1 s0). apply rsum_ext. intros o Ho. apply rsum_swap.
  - intros c Hc. rewrite rsum_mul by lia. apply rsum_ext. intros o Ho. apply rsum_ext. intros i Hi. rewrite pos_split by exact Hi. reflexivity.
Qed.
Lemma rsum_channel f c : 0 <= c < s1 -> (forall c' k, 0 <= c' < s1 -> 0 <= k < K -> c' <> c -> f (pos c' k) = 0%R) -> rsum T f = rsum K (fun k => f (pos c k)).
Proof using P0 P1 P2.
  intros C H. rewrite rsum_pos_split. apply (rsum_only s1 (fun c => rsum K (fun k => f (pos c k))) c C). intros c' C' N. apply rsum_zero. intros k Hk. apply H; auto.
Qed.
Lemma chan_pos c k : 0 <= c < s1 -> 0 <= k < K -> (pos c k / s2) mod s1 = c.
Proof using P0 P1 P2.
  intros C H. destruct (jsplit s0 s2 k) as (A & B & D); [lia | exact H |]. unfold pos, at3. rewrite Z.div_add_l, (Z.div_small (k mod s2)) by lia. rewrite Z.add_0_r, Z.add_comm, Z.mod_add, Z.mod_small by lia. reflexivity.
Qed.
Lemma rsum_chan f c : 0 <= c < s1 -> rsum T (fun e => if (e / s2) mod s1 =? c then f e else 0%R) = rsum K (fun k => f (pos c k)).
Proof using P0 P1 P2.
  intros C. rewrite (rsum_channel _ c C).
  - apply rsum_ext. intros k Hk. rewrite chan_pos, Z.eqb_refl by assumption. reflexivity.
  - intros c' k C' Hk N. rewrite chan_pos by assumption. apply Z.eqb_neq in N. rewrite N. reflexivity.
Qed.
(** The index that is computed. *)
Lemma bn_at_ok c k : 0 <= k < K -> bn_at s1 s2 c k = Some (pos c k).
Proof using P0 P2.
  intros H. destruct (jsplit s0 s2 k) as (A & B & D); [lia | exact H |]. unfold bn_at, divide, remainder. destruct (Z.eqb_spec s2 0); [lia |]. cbn [obind].
  rewrite Z.quot_div_nonneg, Z.rem_mod_nonneg by lia. unfold pos, at3. f_equal. ring.
Qed.
Lemma channel_inv {S} (I : Z -> S -> Prop) c (body : Z -> S -> option S) :
  (forall k s, 0 <= k < K -> I k s -> exists s', body (pos c k) s = Some s' /\ I (k + 1) s') ->
  forall s, I 0 s -> exists s', channel s0 s1 s2 c body s = Some s' /\ I K s'.
Proof using P0 P2.
  intros H s Hs. unfold channel. apply (loop_inv I); [nia | | exact Hs]. intros k t Hk Ht. rewrite bn_at_ok by exact Hk. cbn [obind]. apply H; assumption.
Qed.
(** A loop over a channel that sums up. *)
Lemma channel_sum c (body : Z -> R -> option R) f s : (forall k s, 0 <= k < K -> body (pos c k) s = Some (s + f k)%R) -> channel s0 s1 s2 c body s = Some (s + rsum K f)%R.
Proof using P0 P2.
  intros H. destruct (channel_inv (fun n t => t = (s + rsum n f)%R) c body) with (s := s) as (t & E & ->).
  - intros k t Hk ->. exists (s + rsum k f + f k)%R. split; [apply H; exact Hk |]. rewrite rsum_S by lia. ring.
  - rewrite rsum_0. ring.
  - exact E.
Qed.
(** A loop over a channel that writes every element of it. *)
Lemma channel_write c (body : Z -> list R -> option (list R)) (W : Z -> R -> R) : 0 <= c < s1 ->
  (forall k y, 0 <= k < K -> rlen y = T -> body (pos c k) y = put y (pos c k) (W k (el y (pos c k)))) ->
  forall y0, rlen y0 = T -> exists y, channel s0 s1 s2 c body y0 = Some y /\ length y = length y0 /\
  (forall k, 0 <= k < K -> el y (pos c k) = W k (el y0 (pos c k))) /\
  (forall c' k, 0 <= c' < s1 -> 0 <= k < K -> c' <> c -> el y (pos c' k) = el y0 (pos c' k)).
Proof using P0 P1 P2.
  intros C H y0 L. destruct (channel_inv (fun n y => length y = length y0 /\ (forall k, 0 <= k < n -> el y (pos c k) = W k (el y0 (pos c k))) /\ (forall c' k, 0 <= c' < s1 -> 0 <= k < K -> (c' <> c \/ n <= k) -> el y (pos c' k) = el y0 (pos c' k))) c body) with (s := y0) as (y & E & Ly & A & B).
  - intros k y Hk (Ly & A & B). pose proof (pos_range c k C Hk) as Rk. rewrite H by (try exact Hk; unfold rlen in *; rewrite Ly; exact L). destruct (rput y (pos c k) (W k (el y (pos c k)))) as (y' & E' & L' & V'); [unfold rlen in *; rewrite Ly, L; exact Rk |]. exists y'. split; [exact E' |]. split; [congruence |]. split.
    + intros j Hj. pose proof (pos_range c j C ltac:(lia)). rewrite V' by lia. destruct (Z.eqb_spec (pos c j) (pos c k)) as [E1 | N].
      * apply pos_inj in E1; [| assumption || lia ..]. destruct E1 as (_ & ->). rewrite (B c k) by (try assumption; lia). reflexivity.
      * apply A. assert (j <> k) by (intros ->; apply N; reflexivity). lia.
    + intros c' j C' Hj D. pose proof (pos_range c' j C' Hj). rewrite V' by lia. destruct (Z.eqb_spec (pos c' j) (pos c k)) as [E1 | N]; [apply pos_inj in E1; [lia | assumption ..] |]. apply B; [assumption .. | lia].
  - split; [reflexivity |]. split; [intros; lia | reflexivity].
  - exists y. split; [exact E |]. split; [exact Ly |]. split; [exact A |]. intros c' k C' Hk N. apply B; auto.
Qed.
End channels.

Lemma param_ok p d n c : fits p n -> 0 <= c < n -> param p d c = Some (given_or p d c).
Proof. destruct p as [a |]; cbn [fits param given_or]; [| reflexivity]. intros F C. apply rget. unfold rlen. lia. Qed.

(** Sum of squared deviations. *)
Lemma rsum_const n c : 0 <= n -> rsum n (fun _ => c) = (IZR n * c)%R.
Proof.
  revert n. apply (rsum_ind (fun n => rsum n (fun _ => c) = (IZR n * c)%R)); [rewrite rsum_0; ring |]. intros n Hn IH. rewrite rsum_S, IH, plus_IZR by exact Hn. ring.
Qed.
Lemma rsum_nonneg n f : (forall i, 0 <= i < n -> (0 <= f i)%R) -> (0 <= rsum n f)%R.
Proof.
  destruct (Z.le_gt_cases n 0) as [N | N]; [intros _; rewrite rsum_neg by exact N; lra |]. assert (P : 0 <= n) by lia. clear N. revert n P.
  apply (rsum_ind (fun n => (forall i, 0 <= i < n -> (0 <= f i)%R) -> (0 <= rsum n f)%R)); [intros _; rewrite rsum_0; lra |]. intros n Hn IH H. rewrite rsum_S by exact Hn. specialize (IH ltac:(intros; apply H; lia)). specialize (H n ltac:(lia)). lra.
Qed.
Lemma deviation_sum n f : 0 < n -> let m := (rsum n f / IZR n)%R in rsum n (fun k => (f k - m) * (f k - m))%R = (rsum n (fun k => f k * f k) - IZR n * m * m)%R.
Proof.
  intros N m. assert (NZ : (0 < IZR n)%R) by (apply IZR_lt; exact N). rewrite (rsum_ext n _ (fun k => f k * f k + (f k * (-2 * m) + m * m))%R) by (intros; ring). rewrite !rsum_plus, rsum_scale_r, rsum_const by lia.
  replace (rsum n f) with (IZR n * m)%R by (unfold m; field; lra). ring.
Qed.
