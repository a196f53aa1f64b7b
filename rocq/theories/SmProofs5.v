(** Softmax, losses and rectifiers in terms of elements of arrays. *)
From Coq Require Import List ZArith Lia Bool Reals Lra.
From Verif Require Import NdModel NdSpec NdProofs IdxModel IdxSpec IdxProofs1 IdxProofs2 IdxProofs3 IdxProofs5 IdxProofs6 JoinModel JoinSpec JoinProofs JoinProofs2 ScanModel ScanProofs1 ScanProofs4 ReduceProofs1 ConvProofs3 SortProofs3 PoolProofs2 BinModel ActSpec ActProofs1 ActProofs2 ActProofs4 SmSpec SmModel SmProofs1 SmProofs2 SmProofs3 SmProofs4.
Import ListNotations.
Local Open Scope list_scope.
Local Open Scope Z_scope.

Lemma off_onto sh : positive sh -> forall q, 0 <= q < size sh -> exists idx, inside idx sh /\ off idx sh = q.
Proof.
  induction 1 as [| n sh Hn P IH]; intros q Hq; cbn [size] in Hq.
  - exists []. split; [constructor | cbn [off]; lia].
  - pose proof (size_pos sh P).
    destruct (IH (q mod size sh)) as (r & Hr & Er); [apply Z.mod_pos_bound; lia |]. exists (q / size sh :: r). pose proof (Z.div_mod q (size sh) ltac:(lia)). split.
    + constructor; [split; [apply Z.div_pos; lia | apply Z.div_lt_upper_bound; nia] | exact Hr].
    + cbn [off]. rewrite Er. lia.
Qed.

Lemma Forall_nth_of (P : R -> Prop) l d : Forall P l -> forall i, (i < length l)%nat -> P (nth i l d).
Proof. intros F i H. rewrite Forall_forall in F. apply F, nth_In, H. Qed.

Section shapes.
Variables (A B : list Z) (n : Z).
Hypothesis PA : positive A.
Hypothesis Pn : 0 < n.
Hypothesis PB : positive B.
Local Notation sh := (A ++ n :: B).
Lemma sizeA : 0 < size A. Proof using PA. apply size_pos, PA. Qed.
Lemma sizeB : 0 < size B. Proof using PB. apply size_pos, PB. Qed.
Lemma size_sh m : size (A ++ m :: B) = size A * m * size B.
Proof using. rewrite size_app. cbn [size]. ring. Qed.
Lemma pos_at m p k r : inside p A -> inside r B -> 0 <= k < m -> position 0 (p ++ k :: r) (A ++ m :: B) = at3 m (size B) (off p A) k (off r B).
Proof using.
  intros Hp Hr K. rewrite position_off by (apply Forall2_app; [auto | constructor; auto]). rewrite off_mid by (auto; constructor; auto). unfold at3. ring.
Qed.
Lemma relem_at m a p k r : inside p A -> inside r B -> 0 <= k < m -> relem a (A ++ m :: B) (p ++ k :: r) = el a (at3 m (size B) (off p A) k (off r B)).
Proof using. intros. unfold relem, el. rewrite pos_at by assumption. reflexivity. Qed.
Lemma bounds p r : inside p A -> inside r B -> 0 <= off p A < size A /\ 0 <= off r B < size B.
Proof using. split; apply off_bound; assumption. Qed.
Lemma axis_ok axis : denotes axis (length A) (length sh) -> axis_of axis sh = Some (length A).
Proof using.
  intros D. unfold axis_of, refined. assert (L : length sh = (length A + S (length B))%nat) by (rewrite app_length; reflexivity). rewrite L in *. unfold denotes in D.
  destruct (Z.ltb_spec axis (Z.of_nat (length A + S (length B)))); [| lia]. destruct (Z.leb_spec (- Z.of_nat (length A + S (length B))) axis); [| lia]. cbn [andb]. f_equal. destruct (Z.ltb_spec axis 0); lia.
Qed.
Lemma nth_sh d : nth (length A) sh d = n.
Proof using. rewrite app_nth2, Nat.sub_diag by lia. reflexivity. Qed.

(** ** Labels *)
Lemma label_same s : label_fits (length s) s s = true.
Proof using. induction s as [| a s IH]; [reflexivity |]. cbn [length label_fits]. rewrite Z.eqb_refl. exact IH. Qed.
Lemma label_same_only : forall s l, label_fits (length s) l s = true -> l = s.
Proof using.
  induction s as [| a s IH]; intros [| b l] H; cbn [length label_fits] in H; try discriminate; [reflexivity |]. apply andb_true_iff in H. destruct H as (E & H). apply Z.eqb_eq in E. rewrite E, (IH l H). reflexivity.
Qed.
Lemma label_fits_iff l : label_fits (length A) l sh = true <-> l = A ++ 1 :: B.
Proof using.
  clear PA. revert l. induction A as [| a A' IH]; intros l; cbn [length app].
  - destruct l as [| b l]; cbn [label_fits]; [split; discriminate |]. split.
    + intros H. apply andb_true_iff in H. destruct H as (E & H). apply Z.eqb_eq in E. rewrite E, (label_same_only B l H). reflexivity.
    + intros E. injection E as -> ->. rewrite label_same. reflexivity.
  - destruct l as [| b l]; cbn [label_fits]; [split; discriminate |]. split.
    + intros H. apply andb_true_iff in H. destruct H as (E & H). apply Z.eqb_eq in E. apply IH in H. rewrite E, H. reflexivity.
    + intros E. injection E as -> ->. rewrite Z.eqb_refl. cbn [andb]. apply IH. reflexivity.
Qed.
Lemma refined_ok axis : denotes axis (length A) (length sh) -> refined axis sh = length A.
Proof using. intros D. apply axis_ok in D. unfold axis_of in D. destruct (_ && _); [| discriminate]. injection D as D. exact D. Qed.
Lemma label_setup_ok axis : denotes axis (length A) (length sh) -> label_setup axis sh (A ++ 1 :: B) = Some (size A, n, size B).
Proof using PA Pn PB.
  intros D. unfold label_setup. rewrite scan_setup_ok by assumption. cbn [obind]. rewrite refined_ok by exact D. assert (H : label_fits (length A) (A ++ 1 :: B) sh = true) by (apply label_fits_iff; reflexivity). rewrite H. reflexivity.
Qed.
Lemma label_setup_no axis l : denotes axis (length A) (length sh) -> l <> A ++ 1 :: B -> label_setup axis sh l = None.
Proof using PA Pn PB.
  intros D NE. unfold label_setup. rewrite scan_setup_ok by assumption. cbn [obind]. rewrite refined_ok by exact D. destruct (label_fits (length A) l sh) eqn:E; [| reflexivity]. apply label_fits_iff in E. contradiction.
Qed.
Lemma lab_at l p r : inside p A -> inside r B -> elem l (A ++ 1 :: B) (p ++ 0 :: r) = lab l (off p A * size B + off r B).
Proof using. intros. unfold elem, lab. rewrite pos_at by (try assumption; lia). unfold at3. do 2 f_equal. ring. Qed.
Lemma lab_bound l : Forall (fun t => t < n) l -> forall j, lab l j < n.
Proof using Pn. intros F j. unfold lab. revert j. intros j. generalize (Z.to_nat j) as m. induction F as [| a l Ha F IH]; intros [| m]; cbn [nth]; auto. Qed.

(** ** Softmax *)
Variable axis : Z.
Hypothesis D : denotes axis (length A) (length sh).
Local Notation expsum x p r := (rsum n (fun k => exp (relem x sh (p ++ k :: r)))).
Lemma expsum_at x p r : inside p A -> inside r B -> expsum x p r = esum n (size B) (el x) (off p A) (off r B).
Proof using. intros Hp Hr. unfold esum. apply rsum_ext. intros k Hk. rewrite relem_at by assumption. reflexivity. Qed.
Lemma softmax_values x y0 : Z.of_nat (length x) = size sh -> Z.of_nat (length y0) = size sh ->
  exists y, softmax_forward axis sh x y0 = Some y /\ length y = length y0 /\
  forall p k r, inside p A -> 0 <= k < n -> inside r B -> relem y sh (p ++ k :: r) = (exp (relem x sh (p ++ k :: r)) / expsum x p r)%R.
Proof using PA Pn PB D.
  intros Lx Ly. rewrite size_sh in *. pose proof sizeA. pose proof sizeB. unfold softmax_forward. rewrite scan_setup_ok by assumption. cbn [obind].
  destruct (softmax_pairs (size A) n (size B) ltac:(lia) Pn ltac:(lia) x y0 Lx Ly) as (y & E & L & V). exists y. split; [exact E |]. split; [exact L |]. intros p k r Hp Hk Hr. destruct (bounds p r Hp Hr).
  rewrite expsum_at, !relem_at, V by assumption. reflexivity.
Qed.
Lemma log_softmax_values x y0 : Z.of_nat (length x) = size sh -> Z.of_nat (length y0) = size sh ->
  exists y, log_softmax_forward axis sh x y0 = Some y /\ length y = length y0 /\
  forall p k r, inside p A -> 0 <= k < n -> inside r B -> relem y sh (p ++ k :: r) = (relem x sh (p ++ k :: r) - ln (expsum x p r))%R.
Proof using PA Pn PB D.
  intros Lx Ly. rewrite size_sh in *. pose proof sizeA. pose proof sizeB. unfold log_softmax_forward. rewrite scan_setup_ok by assumption. cbn [obind].
  destruct (log_softmax_pairs (size A) n (size B) ltac:(lia) Pn ltac:(lia) x y0 Lx Ly) as (y & E & L & V). exists y. split; [exact E |]. split; [exact L |]. intros p k r Hp Hk Hr. destruct (bounds p r Hp Hr).
  rewrite expsum_at, !relem_at, V by assumption. reflexivity.
Qed.
Lemma max_values x p r : Z.of_nat (length x) = size sh -> inside p A -> inside r B ->
  exists m, line_max n (size B) x (position 0 (p ++ 0 :: r) sh) = Some m /\ (forall k, 0 <= k < n -> (relem x sh (p ++ k :: r) <= m)%R) /\ exists k, 0 <= k < n /\ relem x sh (p ++ k :: r) = m.
Proof using Pn.
  intros Lx Hp Hr. rewrite size_sh in Lx. destruct (bounds p r Hp Hr) as (B1 & B2). destruct (line_max_ok (size A) n (size B) x (off p A) (off r B) B1 Pn B2 Lx) as (m & E & U & k & Hk & V).
  exists m. split; [rewrite pos_at by (try assumption; lia); rewrite <- E; f_equal; unfold at3; ring |]. split; [intros j Hj; rewrite relem_at by assumption; apply U; exact Hj |]. exists k. split; [exact Hk |]. rewrite relem_at by assumption. exact V.
Qed.
Lemma softmax_grad x y0 : Z.of_nat (length x) = size sh -> Z.of_nat (length y0) = size sh ->
  rgradient (size sh) (size sh) (softmax_forward axis sh) (fun accum dy dx => obind (softmax_forward axis sh x y0) (fun y => softmax_backward axis sh accum y dy dx)) x.
Proof using PA Pn PB D.
  intros Lx Ly. rewrite size_sh in *. pose proof sizeA. pose proof sizeB. pose proof (softmax_gradient (size A) n (size B) ltac:(lia) Pn ltac:(lia) x Lx y0 Ly) as G.
  unfold softmax_forward, softmax_backward. rewrite scan_setup_ok by assumption. cbn [obind]. exact G.
Qed.
Lemma log_softmax_grad x y0 : Z.of_nat (length x) = size sh -> Z.of_nat (length y0) = size sh ->
  rgradient (size sh) (size sh) (log_softmax_forward axis sh) (fun accum dy dx => obind (log_softmax_forward axis sh x y0) (fun y => log_softmax_backward axis sh accum y dy dx)) x.
Proof using PA Pn PB D.
  intros Lx Ly. rewrite size_sh in *. pose proof sizeA. pose proof sizeB. pose proof (log_softmax_gradient (size A) n (size B) ltac:(lia) Pn ltac:(lia) x Lx y0 Ly) as G.
  unfold log_softmax_forward, log_softmax_backward. rewrite scan_setup_ok by assumption. cbn [obind]. exact G.
Qed.

(** ** Losses *)
Section loss.
Variable l : list Z.
Hypothesis Ll : Z.of_nat (length l) = size (A ++ 1 :: B).
Hypothesis RG : Forall (fun t => t < n) l.
Local Notation t_of p r := (elem l (A ++ 1 :: B) (p ++ 0 :: r)).
Lemma Ll' : Z.of_nat (length l) = size A * size B.
Proof using Ll. rewrite Ll, size_sh. ring. Qed.
Lemma len1 (y : list R) : Z.of_nat (length y) = size (A ++ 1 :: B) -> rlen y = size A * size B.
Proof using. intros H. unfold rlen. rewrite H, size_sh. ring. Qed.
Lemma at1 p r : at3 1 (size B) (off p A) 0 (off r B) = off p A * size B + off r B.
Proof using. unfold at3. ring. Qed.
Lemma sce_values x buf y0 : Z.of_nat (length x) = size sh -> Z.of_nat (length buf) = size sh -> Z.of_nat (length y0) = size (A ++ 1 :: B) ->
  exists y lp, sce_forward axis sh (A ++ 1 :: B) x l buf y0 = Some (y, lp) /\ length y = length y0 /\
  forall p r, inside p A -> inside r B -> relem y (A ++ 1 :: B) (p ++ 0 :: r) = if t_of p r <? 0 then 0%R else (ln (expsum x p r) - relem x sh (p ++ t_of p r :: r))%R.
Proof using PA Pn PB D Ll RG.
  intros Lx Lb Ly. apply len1 in Ly. rewrite size_sh in Lx, Lb. pose proof sizeA. pose proof sizeB.
  destruct (sce_ok (size A) n (size B) ltac:(lia) Pn ltac:(lia) axis sh (A ++ 1 :: B) (label_setup_ok axis D) l Ll' (fun j _ => lab_bound l RG j) x buf y0 Lx Lb Ly) as (y & lp & E & L & _ & V & _).
  exists y, lp. split; [exact E |]. split; [exact L |]. intros p r Hp Hr. destruct (bounds p r Hp Hr) as (B1 & B2). rewrite relem_at by (try assumption; lia). rewrite at1, V by (apply jrange; assumption).
  unfold loss. destruct (jparts (size B) (off p A) (off r B) B2) as (-> & ->). rewrite lab_at by assumption. destruct (Z.ltb_spec (lab l (off p A * size B + off r B)) 0); [reflexivity |].
  rewrite expsum_at by assumption. rewrite relem_at by (first [assumption | split; [lia | apply lab_bound; assumption]]). reflexivity.
Qed.
Lemma sce_grad x buf y0 : Z.of_nat (length x) = size sh -> Z.of_nat (length buf) = size sh -> Z.of_nat (length y0) = size (A ++ 1 :: B) ->
  rgradient (size sh) (size (A ++ 1 :: B)) (fun x y => option_map fst (sce_forward axis sh (A ++ 1 :: B) x l buf y))
    (fun accum dy dx => obind (sce_forward axis sh (A ++ 1 :: B) x l buf y0) (fun '(_, log_p) => sce_backward axis sh (A ++ 1 :: B) accum log_p l dy dx)) x.
Proof using PA Pn PB D Ll RG.
  intros Lx Lb Ly. apply len1 in Ly. rewrite (size_sh n) in *. pose proof sizeA. pose proof sizeB. replace (size (A ++ 1 :: B)) with (size A * size B) by (rewrite size_sh; ring).
  apply (sce_gradient (size A) n (size B)); try assumption; try lia; [apply label_setup_ok; exact D | apply Ll' | intros j _; apply lab_bound; exact RG].
Qed.
Lemma cce_values least x y0 : Z.of_nat (length x) = size sh -> Z.of_nat (length y0) = size (A ++ 1 :: B) ->
  exists y, cce_forward least axis sh (A ++ 1 :: B) x l y0 = Some y /\ length y = length y0 /\
  forall p r, inside p A -> inside r B -> relem y (A ++ 1 :: B) (p ++ 0 :: r) = if t_of p r <? 0 then 0%R else (- ln (Rmax (relem x sh (p ++ t_of p r :: r)) least))%R.
Proof using PA Pn PB D Ll RG.
  intros Lx Ly. apply len1 in Ly. rewrite size_sh in Lx. pose proof sizeA. pose proof sizeB.
  destruct (cce_ok (size A) n (size B) ltac:(lia) Pn ltac:(lia) axis sh (A ++ 1 :: B) (label_setup_ok axis D) l Ll' (fun j _ => lab_bound l RG j) least x y0 Lx Ly) as (y & E & L & V).
  exists y. split; [exact E |]. split; [exact L |]. intros p r Hp Hr. destruct (bounds p r Hp Hr) as (B1 & B2). rewrite relem_at by (try assumption; lia). rewrite at1, V by (apply jrange; assumption).
  unfold closs. destruct (jparts (size B) (off p A) (off r B) B2) as (-> & ->). rewrite lab_at by assumption. destruct (Z.ltb_spec (lab l (off p A * size B + off r B)) 0); [reflexivity |].
  rewrite relem_at by (first [assumption | split; [lia | apply lab_bound; assumption]]). reflexivity.
Qed.
Lemma cce_grad least x : (0 < least)%R -> Z.of_nat (length x) = size sh ->
  (forall p r, inside p A -> inside r B -> 0 <= t_of p r -> (least <= relem x sh (p ++ t_of p r :: r))%R) ->
  rgradient (size sh) (size (A ++ 1 :: B)) (fun x y => cce_forward least axis sh (A ++ 1 :: B) x l y) (fun accum dy dx => cce_backward least axis sh (A ++ 1 :: B) accum x l dy dx) x.
Proof using PA Pn PB D Ll RG.
  intros HL Lx GE. rewrite (size_sh n) in *. pose proof sizeA. pose proof sizeB. replace (size (A ++ 1 :: B)) with (size A * size B) by (rewrite size_sh; ring).
  apply (cce_gradient (size A) n (size B)); try assumption; try lia; [apply label_setup_ok; exact D | apply Ll' | intros j _; apply lab_bound; exact RG |].
  intros j Hj Pt. destruct (jsplit (size A) (size B) j ltac:(lia) Hj) as (J0 & J2 & EJ). destruct (off_onto A PA (j / size B) J0) as (p & Hp & Ep). destruct (off_onto B PB (j mod size B) J2) as (r & Hr & Er).
  specialize (GE p r Hp Hr). rewrite lab_at in GE by assumption. rewrite Ep, Er, <- EJ in GE. specialize (GE Pt). rewrite relem_at in GE by (first [assumption | split; [lia | apply lab_bound; assumption]]). rewrite Ep, Er in GE. exact GE.
Qed.
End loss.

(** ** KLMultinomial *)
Lemma kl_sizes_ok : A <> [] -> kl_sizes axis sh = Some (size (n :: B), size A).
Proof using PA Pn PB D.
  intros NE. unfold kl_sizes. rewrite axis_ok by exact D. cbn [obind]. assert (LA : (0 < length A)%nat) by (destruct A; [contradiction | cbn [length]; lia]).
  rewrite (get_gen 0 (cstrides sh)) by (rewrite cstrides_length, app_length; cbn [length]; lia). cbn [obind]. replace (Z.to_nat (Z.of_nat (length A) - 1)) with (length A - 1)%nat by lia.
  rewrite PoolProofs2.cstrides_nth by exact LA. rewrite size_from_0, size_app, divide_mul by (cbn [size]; pose proof sizeB; nia). reflexivity.
Qed.
Lemma kl_none : A = [] -> kl_sizes axis sh = None.
Proof using D. intros E. unfold kl_sizes. rewrite axis_ok by exact D. cbn [obind]. rewrite E. reflexivity. Qed.
Lemma kl_setup_ok : kl_setup axis sh sh = Some (A ++ [1]).
Proof using D.
  unfold kl_setup. destruct (list_eq_dec Z.eq_dec sh sh) as [_ | C]; [| contradiction]. cbn [negb]. rewrite axis_ok by exact D. cbn [obind]. rewrite firstn_app, Nat.sub_diag, firstn_all, firstn_O, app_nil_r. reflexivity.
Qed.

(** ** PReLU *)
Lemma prelu_setup_ok w : w = [n] \/ size w = 1 -> prelu_setup axis sh w = Some (n, size B).
Proof using D.
  intros W. unfold prelu_setup. rewrite axis_ok by exact D. cbn [obind]. cbv zeta. rewrite nth_sh, size_from_0. rewrite cstrides_at by (rewrite app_length; cbn [length]; lia).
  replace (skipn (S (length A)) sh) with B by (replace (S (length A)) with (length (A ++ [n])) by (rewrite app_length; cbn [length]; lia); replace sh with ((A ++ [n]) ++ B) by (rewrite <- app_assoc; reflexivity); rewrite skipn_app, Nat.sub_diag, skipn_all; reflexivity).
  destruct W as [-> | ->]; [rewrite Z.eqb_refl, Bool.orb_true_r | rewrite Z.eqb_refl]; reflexivity.
Qed.
Lemma prelu_setup_no w : w <> [n] -> size w <> 1 -> prelu_setup axis sh w = None.
Proof using D.
  intros W1 W2. unfold prelu_setup. rewrite axis_ok by exact D. cbn [obind]. cbv zeta. rewrite nth_sh, size_from_0. apply Z.eqb_neq in W2. rewrite W2. cbn [orb].
  destruct w as [| m [|]]; [reflexivity | | reflexivity]. destruct (Z.eqb_spec m n) as [-> |]; [contradiction | reflexivity].
Qed.
Definition slot (w : list Z) (s : Z) : Z := if size w =? 1 then 0 else p1 n (size B) s.
Lemma slope_ok w : w = [n] \/ size w = 1 -> forall s, 0 <= s < size sh -> prelu_slope n (size B) (size_from w 0) s = Some (slot w s) /\ 0 <= slot w s < size w.
Proof using PA Pn PB.
  intros W s Hs. rewrite size_sh in Hs. pose proof sizeA. pose proof sizeB. unfold prelu_slope, slot. rewrite size_from_0. destruct (Z.eqb_spec (size w) 1) as [E | NE]; [split; [reflexivity | lia] |].
  unfold divide. destruct (Z.eqb_spec (size B) 0); [lia |]. cbn [obind]. unfold remainder. destruct (Z.eqb_spec n 0); [lia |]. rewrite Z.quot_div_nonneg, Z.rem_mod_nonneg by (try lia; apply Z.div_pos; lia). split; [reflexivity |].
  destruct W as [-> | W]; [| contradiction]. cbn [size]. rewrite Z.mul_1_r. apply Z.mod_pos_bound. exact Pn.
Qed.
Lemma slot_at w p k r : inside p A -> 0 <= k < n -> inside r B -> slot w (at3 n (size B) (off p A) k (off r B)) = if size w =? 1 then 0 else k.
Proof using Pn. intros Hp Hk Hr. unfold slot. destruct (size w =? 1); [reflexivity |]. destruct (bounds p r Hp Hr) as (_ & B2). destruct (parts n (size B) Pn (off p A) k (off r B) Hk B2) as (_ & E & _). exact E. Qed.
Lemma prelu_values w x a y0 : w = [n] \/ size w = 1 -> Z.of_nat (length x) = size sh -> Z.of_nat (length a) = size w -> Z.of_nat (length y0) = size sh ->
  exists y, prelu_forward axis sh w x a y0 = Some y /\ length y = length y0 /\
  forall p k r, inside p A -> 0 <= k < n -> inside r B ->
    let v := relem x sh (p ++ k :: r) in relem y sh (p ++ k :: r) = (Rmax 0 v + nth (Z.to_nat (if size w =? 1 then 0 else k)) a 0 * Rmin 0 v)%R.
Proof using PA Pn PB D.
  intros W Lx La Ly. pose proof sizeA. pose proof sizeB. assert (N0 : 0 <= size sh) by (rewrite size_sh; nia).
  destruct (prelu_ok (size sh) (size w) N0 axis sh w n (size B) (prelu_setup_ok w W) (size_from_0 sh) (slot w) (slope_ok w W) x a y0 Lx La Ly) as (y & E & L & V). exists y. split; [exact E |]. split; [exact L |].
  intros p k r Hp Hk Hr. cbv zeta. destruct (bounds p r Hp Hr) as (B1 & B2). rewrite !relem_at by assumption. rewrite V by (rewrite size_sh; apply at3_range; assumption). rewrite slot_at by assumption. rewrite el_eq by (destruct (size w =? 1); lia).
  set (v := el x _). unfold prelu. destruct (Rle_dec 0 v); [rewrite Rmax_right, Rmin_left by lra; ring | rewrite Rmax_left, Rmin_right by lra; ring].
Qed.
Lemma prelu_grad0 w x a : w = [n] \/ size w = 1 -> Z.of_nat (length x) = size sh -> Z.of_nat (length a) = size w ->
  rgradient (size sh) (size sh) (fun x y => prelu_forward axis sh w x a y) (fun accum dy dx => prelu_backward0 axis sh w accum x a dy dx) x.
Proof using PA Pn PB D.
  intros W Lx La. pose proof sizeA. pose proof sizeB. assert (N0 : 0 <= size sh) by (rewrite size_sh; nia).
  exact (prelu_gradient0 (size sh) (size w) N0 axis sh w n (size B) (prelu_setup_ok w W) (size_from_0 sh) (slot w) (slope_ok w W) x a Lx La).
Qed.
Lemma prelu_grad1 w x a : w = [n] \/ size w = 1 -> Z.of_nat (length x) = size sh -> Z.of_nat (length a) = size w ->
  rgradient (size w) (size sh) (fun a y => prelu_forward axis sh w x a y) (fun accum dy da => prelu_backward1 axis sh w accum x dy da) a.
Proof using PA Pn PB D.
  intros W Lx La. pose proof sizeA. pose proof sizeB. assert (N0 : 0 <= size sh) by (rewrite size_sh; nia). assert (W0 : 0 <= size w) by (unfold rlen in *; lia).
  exact (prelu_gradient1 (size sh) (size w) N0 W0 axis sh w n (size B) (prelu_setup_ok w W) (size_from_0 sh) (slot w) (slope_ok w W) x a Lx La).
Qed.

(** ** CReLU and CELU *)
Local Notation out := (A ++ n * 2 :: B).
Lemma crelu_setup_ok : crelu_setup axis sh = Some (out, size (n :: B), size A).
Proof using PA Pn PB D.
  unfold crelu_setup. rewrite axis_ok by exact D. cbn [obind]. cbv zeta. rewrite size_from_app, size_from_0, size_app, divide_mul by (cbn [size]; pose proof sizeB; nia). cbn [obind].
  rewrite nth_sh, firstn_app, Nat.sub_diag, firstn_all, firstn_O, app_nil_r.
  replace (skipn (S (length A)) sh) with B by (replace (S (length A)) with (length (A ++ [n])) by (rewrite app_length; cbn [length]; lia); replace sh with ((A ++ [n]) ++ B) by (rewrite <- app_assoc; reflexivity); rewrite skipn_app, Nat.sub_diag, skipn_all; reflexivity).
  reflexivity.
Qed.
Lemma size_out : size out = size A * 2 * size (n :: B).
Proof using. rewrite size_sh. cbn [size]. ring. Qed.
Lemma size_in : size sh = size A * size (n :: B).
Proof using. rewrite size_sh. cbn [size]. ring. Qed.
Lemma halves_values f g x y0 : Z.of_nat (length x) = size sh -> Z.of_nat (length y0) = size out ->
  exists y, halves_forward f g axis sh x y0 = Some y /\ length y = length y0 /\
  forall p k r, inside p A -> 0 <= k < n -> inside r B ->
    relem y out (p ++ k :: r) = f (relem x sh (p ++ k :: r)) /\ relem y out (p ++ (n + k) :: r) = g (relem x sh (p ++ k :: r)).
Proof using PA Pn PB D.
  intros Lx Ly. rewrite size_out in Ly. rewrite size_in in Lx. pose proof sizeA. pose proof sizeB. assert (S0 : 0 <= size (n :: B)) by (cbn [size]; nia).
  destruct (halves_ok (size (n :: B)) (size A) S0 ltac:(lia) axis sh out crelu_setup_ok f g x y0 Lx Ly) as (y & E & L & V). exists y. split; [exact E |]. split; [exact L |]. intros p k r Hp Hk Hr.
  destruct (bounds p r Hp Hr) as (B1 & B2). assert (KR : 0 <= k * size B + off r B < size (n :: B)) by (cbn [size]; nia).
  rewrite !relem_at by (try assumption; lia). replace (at3 n (size B) (off p A) k (off r B)) with (off p A * size (n :: B) + (k * size B + off r B)) by (unfold at3; cbn [size]; ring).
  replace (at3 (n * 2) (size B) (off p A) k (off r B)) with (at3 2 (size (n :: B)) (off p A) 0 (k * size B + off r B)) by (unfold at3; cbn [size]; ring).
  replace (at3 (n * 2) (size B) (off p A) (n + k) (off r B)) with (at3 2 (size (n :: B)) (off p A) 1 (k * size B + off r B)) by (unfold at3; cbn [size]; ring).
  rewrite !V by (try assumption; lia). split; reflexivity.
Qed.
Lemma crelu_grad x : Z.of_nat (length x) = size sh -> rgradient (size sh) (size out) (crelu_forward axis sh) (fun accum dy dx => crelu_backward axis sh accum x dy dx) x.
Proof using PA Pn PB D.
  intros Lx. rewrite size_out. rewrite size_in in *. pose proof sizeA. pose proof sizeB. assert (S0 : 0 <= size (n :: B)) by (cbn [size]; nia).
  apply (halves_gradient (size (n :: B)) (size A) S0 ltac:(lia) axis sh out crelu_setup_ok _ _ _ x pos_l pos_r (fun v => pos_l v - 1)%R (fun v => pos_r v - 1)%R Lx).
  - intros q Hq. destruct (relu_slopes (el x q)), (neg_relu_slopes (el x q)). auto.
  - intros q a b Hq. cbv zeta. match goal with |- (Rmin ?l ?r <= ?d <= _)%R => assert (E : d = l) end.
    { unfold pos_l. destruct (Rlt_dec 0 (el x q)); ring. }
    rewrite E. split; [apply Rmin_l | apply Rmax_l].
Qed.
Lemma celu_grad alpha x : Z.of_nat (length x) = size sh -> alpha = 1%R \/ Forall (fun v => v <> 0%R) x ->
  rgradient (size sh) (size out) (celu_forward alpha axis sh) (fun accum dy dx => celu_backward alpha axis sh accum x dy dx) x.
Proof using PA Pn PB D.
  intros Lx Z0. rewrite size_out. rewrite size_in in *. pose proof sizeA. pose proof sizeB. assert (S0 : 0 <= size (n :: B)) by (cbn [size]; nia).
  apply (halves_gradient (size (n :: B)) (size A) S0 ltac:(lia) axis sh out crelu_setup_ok _ _ _ x (elu_l alpha) (elu_r alpha) (nelu_l alpha) (nelu_r alpha) Lx).
  - intros q Hq. destruct (elu_slopes alpha (el x q)), (nelu_slopes alpha (el x q)). auto.
  - intros q a b Hq. cbv zeta. assert (C : alpha = 1%R \/ el x q <> 0%R) by (destruct Z0 as [-> | F]; [left; reflexivity | right; unfold el; apply (Forall_nth_of (fun v => v <> 0%R) x 0%R); [exact F | unfold rlen in *; lia]]).
    match goal with |- (Rmin ?l ?r <= ?d <= _)%R => assert (E : d = l) end.
    { unfold elu_l, nelu_l. destruct (Rle_dec 0 (el x q)), (Rle_dec (el x q) 0), (Rlt_dec 0 (el x q)); try lra; try ring. destruct C as [-> | C]; [| lra]. replace (el x q) with 0%R by lra. rewrite exp_0. ring. }
    rewrite E. split; [apply Rmin_l | apply Rmax_l].
Qed.
End shapes.
