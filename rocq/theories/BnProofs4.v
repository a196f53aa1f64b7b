(** Batch normalization: gradients of all inputs in both modes. *)
From Coq Require Import List ZArith Lia Bool Reals Lra.
From Verif Require Import NdModel NdSpec NdProofs IdxModel IdxSpec IdxProofs1 IdxProofs2 IdxProofs3 IdxProofs6 JoinModel JoinSpec JoinProofs JoinProofs2 ScanModel ScanProofs1 ScanProofs4 ReduceProofs1 ConvProofs3 SortProofs3 BinModel ActModel ActSpec ActProofs1 ActProofs2 ActProofs4 SmSpec SmModel SmProofs1 SmProofs2 SmProofs3 BnSpec BnModel BnProofs1 BnProofs2 BnProofs3.
Import ListNotations.
Local Open Scope list_scope.
Local Open Scope Z_scope.

Lemma el_app a b i : 0 <= i -> el (a ++ b) i = if i <? rlen a then el a i else el b (i - rlen a).
Proof.
  intros H. unfold el, rlen. destruct (Z.ltb_spec i (Z.of_nat (length a))) as [L | L]; [apply app_nth1; lia |]. rewrite app_nth2 by lia. f_equal. lia.
Qed.
Lemma rlen_app a b : rlen (a ++ b) = rlen a + rlen b.
Proof. unfold rlen. rewrite app_length. lia. Qed.
Lemma rlen_firstn n (a : list R) : 0 <= n <= rlen a -> rlen (firstn (Z.to_nat n) a) = n.
Proof. unfold rlen. intros H. rewrite firstn_length. lia. Qed.
Lemma rlen_skipn n (a : list R) : 0 <= n <= rlen a -> rlen (skipn (Z.to_nat n) a) = rlen a - n.
Proof. unfold rlen. intros H. rewrite skipn_length. lia. Qed.
Lemma rmap_upto (f : Z -> option R) (g : Z -> R) n : 0 <= n -> (forall i, 0 <= i < n -> f i = Some (g i)) -> exists r, omap f (upto n) = Some r /\ rlen r = n /\ forall i, 0 <= i < n -> el r i = g i.
Proof.
  intros N H. exists (map g (upto n)). assert (L : length (upto n) = Z.to_nat n) by (unfold upto; rewrite map_length, seq_length; reflexivity). split; [| split].
  - assert (G : forall l, (forall i, In i l -> 0 <= i < n) -> omap f l = Some (map g l)).
    { induction l as [| i l IH]; intros A; cbn [omap map]; [reflexivity |]. rewrite H by (apply A; left; reflexivity). cbn [obind]. rewrite IH by (intros; apply A; right; assumption). reflexivity. }
    apply G. intros i Hi. apply upto_in in Hi. lia.
  - unfold rlen. rewrite map_length, L. lia.
  - intros i Hi. unfold el. rewrite (nth_indep _ 0%R (g 0)) by (rewrite map_length, L; lia). rewrite map_nth. f_equal. unfold upto. rewrite (nth_indep _ 0 (Z.of_nat 0)) by (rewrite map_length, seq_length; lia). rewrite map_nth, seq_nth by lia. lia.
Qed.

Section gradients.
Variables s0 s1 s2 : Z.
Hypothesis P0 : 0 < s0.
Hypothesis P1 : 0 < s1.
Hypothesis P2 : 0 < s2.
Local Notation T := (s0 * s1 * s2).
Local Notation K := (s0 * s2).
Local Notation pos := (pos s1 s2).
Local Notation cmean := (cmean s0 s1 s2).
Local Notation cvar := (cvar s0 s1 s2).
Definition chan (o : Z) : Z := (o / s2) mod s1.
Definition kof (o : Z) : Z := o / s2 / s1 * s2 + o mod s2.
Lemma chan_at c k : 0 <= c < s1 -> 0 <= k < K -> chan (pos c k) = c.
Proof using P0 P1 P2. apply chan_pos; assumption. Qed.
Lemma kof_at c k : 0 <= c < s1 -> 0 <= k < K -> kof (pos c k) = k.
Proof using P0 P1 P2.
  intros C H. destruct (jsplit s0 s2 k) as (A & B & D); [lia | exact H |]. unfold kof, BnProofs1.pos, at3. destruct (jparts s2 (k / s2 * s1 + c) (k mod s2) B) as (-> & ->). destruct (jparts s1 (k / s2) c C) as (-> & _). lia.
Qed.
Lemma T_pos : 0 < T.
Proof using P0 P1 P2. nia. Qed.

(** Parameters that the elements of a channel depend on linearly. *)
Lemma affine_gradient fwd bwd p (A : Z -> Z -> R) (B : Z -> Z -> R) : rlen p = s1 ->
  (forall u y0, rlen u = s1 -> rlen y0 = T -> exists y, fwd u y0 = Some y /\ length y = length y0 /\ forall c k, 0 <= c < s1 -> 0 <= k < K -> el y (pos c k) = (A c k * el u c + B c k)%R) ->
  (forall accum dy d0, rlen dy = T -> rlen d0 = s1 -> exists d, bwd accum dy d0 = Some d /\ length d = length d0 /\ forall c, 0 <= c < s1 -> el d c = ((if accum : bool then el d0 c else 0) + rsum K (fun k => el dy (pos c k) * A c k))%R) ->
  rgradient s1 T fwd bwd p.
Proof using P0 P1 P2.
  intros Lp FW BW. pose proof T_pos. apply (rgradient_by s1 T fwd bwd p (fun u o => (A (chan o) (kof o) * u (chan o) + B (chan o) (kof o))%R) (fun q o => if chan o =? q then A (chan o) (kof o) else 0%R)); try lia.
  - intros accum dy d0 Ly L0. destruct (BW accum dy d0 Ly L0) as (d & E & L & V). exists d. split; [exact E |]. split; [exact L |]. intros q Hq. rewrite V by exact Hq. f_equal. symmetry. rewrite (rsum_channel s0 s1 s2 P0 P1 P2 _ q Hq).
    + apply rsum_ext. intros k Hk. rewrite chan_at, kof_at, Z.eqb_refl by assumption. reflexivity.
    + intros c' k C' Hk N. rewrite chan_at by assumption. apply Z.eqb_neq in N. rewrite N. ring.
  - intros u y0 Lu Ly. destruct (FW u y0 Lu Ly) as (y & E & L & V). exists y. split; [exact E |]. split; [exact L |]. intros o Ho. destruct (pos_onto s0 s1 s2 P0 P1 P2 o Ho) as (c & k & C & Hk & ->). rewrite V, chan_at, kof_at by assumption. reflexivity.
  - intros u v o Ho E. destruct (pos_onto s0 s1 s2 P0 P1 P2 o Ho) as (c & k & C & Hk & ->). rewrite chan_at by assumption. rewrite E by exact C. reflexivity.
  - intros q o Hq Ho. cbv beta. rewrite (Z.eqb_sym (chan o) q). destruct (Z.eqb_spec q (chan o)) as [<- | N].
    + apply (near_ext _ (fun t => A q (kof o) * t + B q (kof o))%R); [reflexivity |]. derive. ring.
    + apply (near_ext _ (fun t => A (chan o) (kof o) * el p (chan o) + B (chan o) (kof o))%R); [reflexivity | apply D_const].
Qed.

Variables (eps decay : R).
Hypothesis Peps : (0 < eps)%R.
Local Notation scaled := (scaled eps).

(** ** Training mode *)
Section train.
Variables (beta gamma : option (list R)).
Hypothesis Fb : fits beta s1.
Hypothesis Fg : fits gamma s1.
Variables (update : bool) (m0 v0 rm0 : list R) (rv0 : list (option R)).
Hypothesis Lm0 : rlen m0 = s1.
Hypothesis Lv0 : rlen v0 = s1.
Hypothesis Lr0 : rlen rm0 = s1.
Hypothesis Lw0 : Z.of_nat (length rv0) = s1.
Variables (x m v : list R).
Hypothesis Lx : rlen x = T.
Hypothesis Lm : rlen m = s1.
Hypothesis Lv : rlen v = s1.
Hypothesis Em : forall c, 0 <= c < s1 -> el m c = cmean (el x) c.
Hypothesis Ev : forall c, 0 <= c < s1 -> el v c = cvar (el x) c.
Lemma dx_stats dy given c k : 0 <= c < s1 -> dx_of s0 s1 s2 eps gamma (el x) (el m) (el v) dy given c k = dx_of s0 s1 s2 eps gamma (el x) (cmean (el x)) (cvar (el x)) dy given c k.
Proof using Em Ev. intros C. unfold dx_of, dmean_of, dvar_of. rewrite Em, Ev by exact C. reflexivity. Qed.
Definition y_of (u : Z -> R) (o : Z) : R := scaled beta gamma (cmean u (chan o)) (cvar u (chan o)) (u o) (chan o).
Definition dy_of (q o : Z) : R := if chan o =? chan q then slope_y s0 s1 s2 eps gamma (el x) (chan q) (kof q) (kof o) else 0%R.
Lemma y_of_ext u w o : 0 <= o < T -> (forall i, 0 <= i < T -> u i = w i) -> y_of u o = y_of w o.
Proof using P0 P1 P2.
  intros Ho E. unfold y_of. assert (C : 0 <= chan o < s1) by (apply Z.mod_pos_bound; exact P1). rewrite (cmean_ext s0 s1 s2 P0 P1 P2 u w), (cvar_ext s0 s1 s2 P0 P1 P2 u w), E by assumption. reflexivity.
Qed.
Lemma D_y_of q o : 0 <= q < T -> 0 <= o < T -> derivable_pt_lim (fun t => y_of (fun i => if i =? q then t else el x i) o) (el x q) (dy_of q o).
Proof using P0 P1 P2 Peps.
  intros Hq Ho. destruct (pos_onto s0 s1 s2 P0 P1 P2 o Ho) as (c' & k & C' & Hk & ->). destruct (pos_onto s0 s1 s2 P0 P1 P2 q Hq) as (c & kq & C & Hkq & ->). unfold y_of, dy_of. rewrite !chan_at, !kof_at by assumption.
  destruct (Z.eqb_spec c' c) as [-> | N]; [apply (D_y s0 s1 s2 P0 P1 P2 eps Peps beta gamma (el x) c kq C Hkq k Hk) | apply (D_other s0 s1 s2 P0 P1 P2 eps beta gamma (el x) c kq C Hkq c' k C' Hk N)].
Qed.
Lemma dy_of_sum (dy : Z -> R) c k : 0 <= c < s1 -> 0 <= k < K -> rsum T (fun o => dy o * dy_of (pos c k) o)%R = rsum K (fun j => dy (pos c j) * slope_y s0 s1 s2 eps gamma (el x) c k j)%R.
Proof using P0 P1 P2.
  intros C Hk. rewrite (rsum_channel s0 s1 s2 P0 P1 P2 _ c C).
  - apply rsum_ext. intros j Hj. unfold dy_of. rewrite !chan_at, !kof_at, Z.eqb_refl by assumption. reflexivity.
  - intros c' j C' Hj N. unfold dy_of. rewrite !chan_at by assumption. apply Z.eqb_neq in N. rewrite N. ring.
Qed.
(** One output. *)
Lemma train_x : rgradient T T
  (fun u y0 => match bn_forward_batch s0 s1 s2 eps decay update u beta gamma (y0, m0, v0, rm0, rv0) with Some (y, _, _, _, _) => Some y | None => None end)
  (fun accum dy dx => bn_grad_x s0 s1 s2 eps accum x gamma m v dy None dx) x.
Proof using P0 P1 P2 Peps Fb Fg Lm0 Lv0 Lr0 Lw0 Lx Lm Lv Em Ev.
  pose proof T_pos. apply (rgradient_by T T _ _ x y_of dy_of); try lia.
  - intros accum dy dx0 Ly L0. destruct (grad_x_ok s0 s1 s2 P0 P1 P2 eps gamma Fg accum x m v dy None dx0 Lx Lm Lv Ly I L0) as (dx & E & L & V). exists dx. split; [exact E |]. split; [exact L |]. intros q Hq.
    destruct (pos_onto s0 s1 s2 P0 P1 P2 q Hq) as (c & k & C & Hk & ->). rewrite V, dx_stats, (dx_is_slope s0 s1 s2 P0 P1 P2 eps Peps gamma (el x) c k C Hk), dy_of_sum by assumption. cbn [given_at]. ring.
  - intros u y0 Lu Ly. destruct (forward_batch_ok s0 s1 s2 P0 P1 P2 eps decay beta gamma Fb Fg update u y0 m0 v0 rm0 rv0) as (y & m1 & v1 & rm1 & rv1 & E & L & _ & _ & _ & _ & V & _); [assumption .. |]. rewrite E. exists y. split; [reflexivity |]. split; [unfold rlen in *; lia |].
    intros o Ho. destruct (pos_onto s0 s1 s2 P0 P1 P2 o Ho) as (c & k & C & Hk & ->). unfold y_of. rewrite V, chan_at by assumption. reflexivity.
  - intros u w o Ho E. apply y_of_ext; assumption.
  - exact D_y_of.
Qed.
(** Three outputs: y, batch mean and batch variance, one after the other. *)
Definition three (u y0 : list R) : option (list R) :=
  match bn_forward_batch s0 s1 s2 eps decay update u beta gamma (firstn (Z.to_nat T) y0, firstn (Z.to_nat s1) (skipn (Z.to_nat T) y0), skipn (Z.to_nat (T + s1)) y0, rm0, rv0) with
  | Some (y, m, v, _, _) => Some (y ++ m ++ v) | None => None end.
Definition all_of (u : Z -> R) (o : Z) : R := if o <? T then y_of u o else if o <? T + s1 then cmean u (o - T) else cvar u (o - T - s1).
Definition dall_of (q o : Z) : R :=
  if o <? T then dy_of q o else if o <? T + s1 then (if o - T =? chan q then 1 / IZR K else 0)%R
  else (if (o - T - s1)%Z =? chan q then 2 * (el x q - cmean (el x) (chan q)) / IZR K else 0)%R.
Lemma train_three : rgradient T (T + s1 + s1) three
  (fun accum dy dx => bn_grad_x s0 s1 s2 eps accum x gamma m v (firstn (Z.to_nat T) dy) (Some (firstn (Z.to_nat s1) (skipn (Z.to_nat T) dy), skipn (Z.to_nat (T + s1)) dy)) dx) x.
Proof using P0 P1 P2 Peps Fb Fg Lr0 Lw0 Lx Lm Lv Em Ev.
  clear Lm0 Lv0. pose proof T_pos. apply (rgradient_by T (T + s1 + s1) _ _ x all_of dall_of); try lia.
  - intros accum dy dx0 Ly L0. assert (Ly1 : rlen (firstn (Z.to_nat T) dy) = T) by (apply rlen_firstn; lia). assert (Ls : rlen (skipn (Z.to_nat T) dy) = s1 + s1) by (rewrite rlen_skipn; lia). assert (Lm1 : rlen (firstn (Z.to_nat s1) (skipn (Z.to_nat T) dy)) = s1) by (apply rlen_firstn; lia). assert (Lv1 : rlen (skipn (Z.to_nat (T + s1)) dy) = s1) by (rewrite rlen_skipn; lia).
    assert (PY : forall o, 0 <= o < T -> el (firstn (Z.to_nat T) dy) o = el dy o).
    { intros o Ho. rewrite <- (firstn_skipn (Z.to_nat T) dy) at 2. rewrite el_app, Ly1 by lia. destruct (Z.ltb_spec o T); [reflexivity | lia]. }
    assert (PM : forall c, 0 <= c < s1 -> el (firstn (Z.to_nat s1) (skipn (Z.to_nat T) dy)) c = el dy (T + c)).
    { intros c C. rewrite <- (firstn_skipn (Z.to_nat T) dy) at 2. rewrite el_app, Ly1 by lia. destruct (Z.ltb_spec (T + c) T); [lia |]. replace (T + c - T) with c by ring. rewrite <- (firstn_skipn (Z.to_nat s1) (skipn (Z.to_nat T) dy)) at 2. rewrite el_app, Lm1 by lia. destruct (Z.ltb_spec c s1); [reflexivity | lia]. }
    assert (PV : forall c, 0 <= c < s1 -> el (skipn (Z.to_nat (T + s1)) dy) c = el dy (T + s1 + c)).
    { intros c C. rewrite <- (firstn_skipn (Z.to_nat (T + s1)) dy) at 2. rewrite el_app, rlen_firstn by lia. destruct (Z.ltb_spec (T + s1 + c) (T + s1)); [lia |]. f_equal. lia. }
    destruct (grad_x_ok s0 s1 s2 P0 P1 P2 eps gamma Fg accum x m v (firstn (Z.to_nat T) dy) (Some (firstn (Z.to_nat s1) (skipn (Z.to_nat T) dy), skipn (Z.to_nat (T + s1)) dy)) dx0 Lx Lm Lv Ly1 (conj Lm1 Lv1) L0) as (dx & E & L & V). exists dx. split; [exact E |]. split; [exact L |]. intros q Hq.
    destruct (pos_onto s0 s1 s2 P0 P1 P2 q Hq) as (c & k & C & Hk & ->). rewrite V, dx_stats, (dx_is_slope s0 s1 s2 P0 P1 P2 eps Peps gamma (el x) c k C Hk) by assumption. cbn [given_at].
    rewrite PM, PV by exact C. rewrite !rsum_app by lia.
    assert (S1 : rsum T (fun o => el dy o * dall_of (pos c k) o)%R = rsum K (fun j => el (firstn (Z.to_nat T) dy) (pos c j) * slope_y s0 s1 s2 eps gamma (el x) c k j)%R).
    { rewrite <- (dy_of_sum (el (firstn (Z.to_nat T) dy)) c k C Hk). apply rsum_ext. intros o Ho. unfold dall_of. destruct (Z.ltb_spec o T); [| lia]. rewrite PY by exact Ho. reflexivity. }
    assert (S2 : rsum s1 (fun i => el dy (T + i)%Z * dall_of (pos c k) (T + i)%Z)%R = (el dy (T + c)%Z * (1 / IZR K))%R).
    { rewrite (rsum_only s1 _ c C).
      - unfold dall_of. destruct (Z.ltb_spec (T + c) T); [lia |]. destruct (Z.ltb_spec (T + c) (T + s1)); [| lia]. replace (T + c - T) with c by ring. rewrite chan_at, Z.eqb_refl by assumption. reflexivity.
      - intros i Hi N. unfold dall_of. destruct (Z.ltb_spec (T + i) T); [lia |]. destruct (Z.ltb_spec (T + i) (T + s1)); [| lia]. replace (T + i - T) with i by ring. rewrite chan_at by assumption. apply Z.eqb_neq in N. rewrite N. ring. }
    assert (S3 : rsum s1 (fun i => el dy (T + s1 + i)%Z * dall_of (pos c k) (T + s1 + i)%Z)%R = (el dy (T + s1 + c)%Z * (2 * (el x (pos c k) - cmean (el x) c) / IZR K))%R).
    { rewrite (rsum_only s1 _ c C).
      - unfold dall_of. destruct (Z.ltb_spec (T + s1 + c) T); [lia |]. destruct (Z.ltb_spec (T + s1 + c) (T + s1)); [lia |]. replace (T + s1 + c - T - s1) with c by ring. rewrite chan_at, Z.eqb_refl by assumption. reflexivity.
      - intros i Hi N. unfold dall_of. destruct (Z.ltb_spec (T + s1 + i) T); [lia |]. destruct (Z.ltb_spec (T + s1 + i) (T + s1)); [lia |]. replace (T + s1 + i - T - s1) with i by ring. rewrite chan_at by assumption. apply Z.eqb_neq in N. rewrite N. ring. }
    rewrite S1, S2, S3. ring.
  - intros u y0 Lu Ly. assert (Ls : rlen (skipn (Z.to_nat T) y0) = s1 + s1) by (rewrite rlen_skipn; lia). destruct (forward_batch_ok s0 s1 s2 P0 P1 P2 eps decay beta gamma Fb Fg update u (firstn (Z.to_nat T) y0) (firstn (Z.to_nat s1) (skipn (Z.to_nat T) y0)) (skipn (Z.to_nat (T + s1)) y0) rm0 rv0) as (y & m1 & v1 & rm1 & rv1 & E & L1 & L2 & L3 & _ & _ & V & W & _); [assumption | apply rlen_firstn; lia | apply rlen_firstn; lia | rewrite rlen_skipn; lia | assumption .. |].
    unfold three. rewrite E. exists (y ++ m1 ++ v1). split; [reflexivity |]. split; [unfold rlen in *; rewrite !app_length; lia |]. intros o Ho. unfold all_of. rewrite el_app, L1 by lia. destruct (Z.ltb_spec o T) as [A | A].
    + destruct (pos_onto s0 s1 s2 P0 P1 P2 o ltac:(lia)) as (c & k & C & Hk & ->). unfold y_of. rewrite V, chan_at by assumption. reflexivity.
    + rewrite el_app, L2 by lia. destruct (Z.ltb_spec (o - T) s1), (Z.ltb_spec o (T + s1)); try lia; [destruct (W (o - T) ltac:(lia)) as (W1 & _); exact W1 | destruct (W (o - T - s1) ltac:(lia)) as (_ & W2); exact W2].
  - intros u w o Ho E. unfold all_of. destruct (Z.ltb_spec o T); [apply y_of_ext; [lia | exact E] |]. destruct (Z.ltb_spec o (T + s1)); [apply cmean_ext; [assumption .. | lia | exact E] | apply cvar_ext; [assumption .. | lia | exact E]].
  - intros q o Hq Ho. unfold all_of, dall_of. destruct (Z.ltb_spec o T); [apply D_y_of; lia |]. destruct (pos_onto s0 s1 s2 P0 P1 P2 q Hq) as (c & kq & C & Hkq & ->). rewrite !chan_at by assumption. destruct (Z.ltb_spec o (T + s1)).
    + destruct (Z.eqb_spec (o - T) c) as [-> | N]; [apply (D_cmean s0 s1 s2 P0 P1 P2 (el x) c kq C Hkq) | apply (D_cmean_other s0 s1 s2 P0 P1 P2 (el x) c kq C Hkq); [lia | exact N]].
    + destruct (Z.eqb_spec (o - T - s1) c) as [-> | N]; [apply (D_cvar s0 s1 s2 P0 P1 P2 (el x) c kq C Hkq) | apply (D_cvar_other s0 s1 s2 P0 P1 P2 (el x) c kq C Hkq); [lia | exact N]].
Qed.
End train.
End gradients.
