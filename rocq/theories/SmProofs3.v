(** Losses of labels: values and gradients. *)
From Coq Require Import List ZArith Lia Bool Reals Lra.
From Verif Require Import NdModel NdSpec NdProofs IdxModel IdxSpec IdxProofs1 IdxProofs2 IdxProofs3 IdxProofs6 JoinModel JoinSpec JoinProofs JoinProofs2 ScanModel ScanProofs1 ScanProofs4 ReduceProofs1 ConvProofs3 SortProofs3 PoolProofs2 BinModel ActSpec ActProofs1 ActProofs2 ActProofs4 SmSpec SmModel SmProofs1 SmProofs2.
Import ListNotations.
Local Open Scope list_scope.
Local Open Scope Z_scope.

(** How a gradient is found. *)
Lemma rgradient_of nx ny fwd bwd x (F : (Z -> R) -> Z -> R) (l r : Z -> Z -> R) (G : list R -> Z -> R) : 0 <= nx -> 0 <= ny -> rlen x = nx ->
  (forall accum dy dx0, rlen dy = ny -> rlen dx0 = nx -> exists dx, bwd accum dy dx0 = Some dx /\ length dx = length dx0 /\ forall q, 0 <= q < nx -> el dx q = ((if accum : bool then el dx0 q else 0) + G dy q)%R) ->
  (forall u y0, rlen u = nx -> rlen y0 = ny -> exists y, fwd u y0 = Some y /\ length y = length y0 /\ forall o, 0 <= o < ny -> el y o = F (el u) o) ->
  (forall u v o, 0 <= o < ny -> (forall i, 0 <= i < nx -> u i = v i) -> F u o = F v o) ->
  (forall q o, 0 <= q < nx -> 0 <= o < ny -> left_slope (fun t => F (fun i => if i =? q then t else el x i) o) (el x q) (l q o)) ->
  (forall q o, 0 <= q < nx -> 0 <= o < ny -> right_slope (fun t => F (fun i => if i =? q then t else el x i) o) (el x q) (r q o)) ->
  (forall dy q, rlen dy = ny -> 0 <= q < nx -> let a := rsum ny (fun o => el dy o * l q o)%R in let b := rsum ny (fun o => el dy o * r q o)%R in (Rmin a b <= G dy q <= Rmax a b)%R) ->
  rgradient nx ny fwd bwd x.
Proof.
  intros Nx Ny Lx BW FW EXT LS RS DS accum dy dx0 Ldy Ldx. destruct (BW accum dy dx0 Ldy Ldx) as (dx & E & L & V). destruct (list_of nx (G dy) Nx) as (d & Ld & Vd).
  exists dx, d. split; [exact E |]. split; [exact L |]. split; [unfold rlen in *; lia |]. split.
  - apply (rslopes_of nx ny fwd x dy d F l r); try assumption. intros q Hq. rewrite Vd by exact Hq. apply DS; assumption.
  - intros q Hq. assert (Q : 0 <= Z.of_nat q < nx) by (unfold rlen in *; lia). rewrite <- (Nat2Z.id q). rewrite !el_eq by lia. rewrite Vd, V by exact Q. reflexivity.
Qed.
Lemma rgradient_by nx ny fwd bwd x (F : (Z -> R) -> Z -> R) (F' : Z -> Z -> R) : 0 <= nx -> 0 <= ny -> rlen x = nx ->
  (forall accum dy dx0, rlen dy = ny -> rlen dx0 = nx -> exists dx, bwd accum dy dx0 = Some dx /\ length dx = length dx0 /\ forall q, 0 <= q < nx -> el dx q = ((if accum : bool then el dx0 q else 0) + rsum ny (fun o => el dy o * F' q o))%R) ->
  (forall u y0, rlen u = nx -> rlen y0 = ny -> exists y, fwd u y0 = Some y /\ length y = length y0 /\ forall o, 0 <= o < ny -> el y o = F (el u) o) ->
  (forall u v o, 0 <= o < ny -> (forall i, 0 <= i < nx -> u i = v i) -> F u o = F v o) ->
  (forall q o, 0 <= q < nx -> 0 <= o < ny -> derivable_pt_lim (fun t => F (fun i => if i =? q then t else el x i) o) (el x q) (F' q o)) ->
  rgradient nx ny fwd bwd x.
Proof.
  intros Nx Ny Lx BW FW EXT D. apply (rgradient_of nx ny fwd bwd x F F' F' (fun dy q => rsum ny (fun o => el dy o * F' q o)%R)); try assumption.
  - intros; apply lim_left, D; assumption.
  - intros; apply lim_right, D; assumption.
  - intros dy q _ _. cbv zeta. rewrite Rmin_left, Rmax_left by lra. lra.
Qed.
(** Memory that is kept or cleared. *)
Lemma el_start (accum : bool) dx q : el (if accum then dx else map (fun _ => 0%R) dx) q = if accum then el dx q else 0%R.
Proof. destruct accum; [reflexivity |]. unfold el. generalize (Z.to_nat q) as n. induction dx as [| a dx IH]; intros [| n]; cbn [map nth]; auto. Qed.
Lemma len_start (accum : bool) (dx : list R) : length (if accum then dx else map (fun _ => 0%R) dx) = length dx.
Proof. destruct accum; [reflexivity | apply map_length]. Qed.
(** A loop over pairs that writes one element for every pair. *)
Lemma cells_ok s0 s2 (body : Z -> Z -> list R -> option (list R)) (V : Z -> R -> R) : 0 <= s0 -> 0 <= s2 ->
  (forall o i y, 0 <= o < s0 -> 0 <= i < s2 -> rlen y = s0 * s2 -> body o i y = put y (o * s2 + i) (V (o * s2 + i) (el y (o * s2 + i)))) ->
  forall y0, rlen y0 = s0 * s2 -> exists y, pairs s0 s2 body y0 = Some y /\ length y = length y0 /\ forall j, 0 <= j < s0 * s2 -> el y j = V j (el y0 j).
Proof.
  intros A C H y0 L. destruct (pairs_ok s0 1 s2 body (fun o k i => V (o * s2 + i)) A ltac:(lia) C) with (y0 := y0) as (y & E & Ly & Vy).
  - intros o i y Ho Hi Ly. assert (EP : at3 1 s2 o 0 i = o * s2 + i) by (unfold at3; ring). assert (Rg : 0 <= o * s2 + i < rlen y) by (rewrite Ly, <- EP; apply at3_range; lia).
    rewrite H by (try assumption; lia). destruct (rput y (o * s2 + i) (V (o * s2 + i) (el y (o * s2 + i))) Rg) as (y' & E' & L' & V'). exists y'. split; [exact E' |]. split; [exact L' |]. split.
    + intros k Hk. replace k with 0 by lia. rewrite EP, V' by lia. rewrite Z.eqb_refl. reflexivity.
    + intros q Hq N. rewrite V' by exact Hq. destruct (Z.eqb_spec q (o * s2 + i)) as [-> |]; [| reflexivity]. exfalso. apply (N 0); [lia | symmetry; exact EP].
  - rewrite L. ring.
  - exists y. split; [exact E |]. split; [exact Ly |]. intros j Hj. destruct (at3_onto s0 1 s2 j) as (o & k & i & Ho & Hk & Hi & ->); [lia .. | nia |]. rewrite Vy by assumption. replace k with 0 by lia. unfold at3. replace ((o * 1 + 0) * s2 + i) with (o * s2 + i) by ring. reflexivity.
Qed.

Lemma jsplit s0 s2 j : 0 <= s0 -> 0 <= j < s0 * s2 -> 0 <= j / s2 < s0 /\ 0 <= j mod s2 < s2 /\ j = j / s2 * s2 + j mod s2.
Proof.
  intros A H. assert (0 < s2) by nia. pose proof (Z.mod_pos_bound j s2 ltac:(lia)). pose proof (Z.div_mod j s2 ltac:(lia)). split; [split; [apply Z.div_pos; lia | apply Z.div_lt_upper_bound; nia] |]. split; [lia | lia].
Qed.
Lemma jparts s2 o i : 0 <= i < s2 -> (o * s2 + i) / s2 = o /\ (o * s2 + i) mod s2 = i.
Proof.
  intros H. rewrite Z.div_add_l, Z.div_small, Z.add_0_r by lia. rewrite Z.add_comm, Z.mod_add, Z.mod_small by lia. auto.
Qed.
Lemma jrange s0 s2 o i : 0 <= o < s0 -> 0 <= i < s2 -> 0 <= o * s2 + i < s0 * s2.
Proof. nia. Qed.

Section labels.
Variables s0 s1 s2 : Z.
Hypothesis P0 : 0 <= s0.
Hypothesis P1 : 0 < s1.
Hypothesis P2 : 0 <= s2.
Local Notation N := (s0 * s1 * s2).
Local Notation P := (at3 s1 s2).
Variables (axis : Z) (shape label : list Z).
Hypothesis SET : label_setup axis shape label = Some (s0, s1, s2).
Variable l : list Z.
Hypothesis Ll : Z.of_nat (length l) = s0 * s2.
Definition lab (j : Z) : Z := nth (Z.to_nat j) l 0.
Hypothesis LAB : forall j, 0 <= j < s0 * s2 -> lab j < s1.

Lemma scan_set : scan_setup axis shape = Some (s0, s1, s2).
Proof using SET. unfold label_setup in SET. destruct (scan_setup axis shape) as [s |]; [| discriminate]. cbn [obind] in SET. destruct (label_fits _ _ _); [exact SET | discriminate]. Qed.
Lemma lget j : 0 <= j < s0 * s2 -> get l j = Some (lab j).
Proof using Ll. intros H. apply get_gen. lia. Qed.
Lemma k_at o t i : o * s1 * s2 + t * s2 + i = P o t i.
Proof using. unfold at3. ring. Qed.

(** The loss of line [j]. *)
Definition loss (u : Z -> R) (j : Z) : R :=
  if lab j <? 0 then 0%R else (ln (esum s1 s2 u (j / s2) (j mod s2)) - u (P (j / s2) (lab j) (j mod s2)))%R.
Lemma sce_ok x buf y : rlen x = N -> rlen buf = N -> rlen y = s0 * s2 -> exists y' lp, sce_forward axis shape label x l buf y = Some (y', lp) /\ length y' = length y /\ length lp = length buf /\
  (forall j, 0 <= j < s0 * s2 -> el y' j = loss (el x) j) /\
  (forall o k i, 0 <= o < s0 -> 0 <= k < s1 -> 0 <= i < s2 -> el lp (P o k i) = (el x (P o k i) - ln (esum s1 s2 (el x) o i))%R).
Proof using P0 P1 P2 SET Ll LAB.
  intros Lx Lb Ly. unfold sce_forward. rewrite SET. cbn [obind]. unfold log_softmax_forward. rewrite scan_set. cbn [obind].
  destruct (log_softmax_pairs s0 s1 s2 P0 P1 P2 x buf Lx Lb) as (lp & -> & Llp & Vlp). cbn [obind].
  match goal with |- context [pairs s0 s2 ?b y] => destruct (cells_ok s0 s2 b (fun j _ => loss (el x) j) P0 P2) with (y0 := y) as (y' & E & L & V) end.
  - intros o i z Ho Hi Lz. pose proof (jrange s0 s2 o i Ho Hi) as J. rewrite lget by exact J. cbn [obind]. unfold loss. destruct (jparts s2 o i Hi) as (-> & ->). pose proof (LAB _ J). destruct (Z.ltb_spec (lab (o * s2 + i)) 0); [reflexivity |].
    rewrite k_at, rget by (unfold rlen in *; rewrite Llp, Lb; apply at3_range; lia). cbn [obind]. rewrite Vlp by (try assumption; lia). f_equal. ring.
  - exact Ly.
  - rewrite E. cbn [obind]. exists y', lp. split; [reflexivity |]. auto.
Qed.
Lemma D_loss u q a b c j : 0 <= a < s0 -> 0 <= b < s1 -> 0 <= c < s2 -> q = P a b c -> 0 <= j < s0 * s2 ->
  derivable_pt_lim (fun t => loss (put_in q t u) j) (u q)
    (if j =? a * s2 + c then if lab j <? 0 then 0 else exp (u q) / esum s1 s2 u a c - (if lab j =? b then 1 else 0) else 0)%R.
Proof using P0 P1 P2 LAB.
  intros Ha Hb Hc Q J. unfold loss. pose proof (LAB j J) as LJ. destruct (jsplit s0 s2 j P0 J) as (J0 & J2 & EJ). destruct (Z.ltb_spec (lab j) 0) as [Lt | Ge].
  { destruct (j =? a * s2 + c); apply derivable_pt_lim_const. }
  pose proof (D_log_softmax s1 s2 P1 u q a b c (j / s2) (lab j) (j mod s2) ltac:(lia) J2 Hb Hc Q) as D. apply derivable_pt_lim_opp in D.
  eapply D_eq; [eapply near_ext; [| exact D]; intros t; unfold opp_fct; ring |].
  destruct (Z.eqb_spec j (a * s2 + c)) as [-> | NE].
  - destruct (jparts s2 a c Hc) as (-> & ->). rewrite !Z.eqb_refl. cbn [andb]. rewrite <- Q. ring.
  - destruct (Z.eqb_spec (j / s2) a) as [Ea |], (Z.eqb_spec (j mod s2) c) as [Ec |]; cbn [andb]; try ring. exfalso. apply NE. rewrite EJ, Ea, Ec. reflexivity.
Qed.
Lemma sce_gradient x buf0 yb : rlen x = N -> rlen buf0 = N -> rlen yb = s0 * s2 ->
  rgradient N (s0 * s2) (fun x y => option_map fst (sce_forward axis shape label x l buf0 y)) (fun accum dy dx => obind (sce_forward axis shape label x l buf0 yb) (fun '(_, log_p) => sce_backward axis shape label accum log_p l dy dx)) x.
Proof using P0 P1 P2 SET Ll LAB.
  intros Lx Lb Lyb.
  apply (rgradient_by N (s0 * s2) _ _ x loss (fun q j => if j =? p0 s1 s2 q * s2 + p2 s2 q then if lab j <? 0 then 0 else exp (el x q) / esum s1 s2 (el x) (p0 s1 s2 q) (p2 s2 q) - (if lab j =? p1 s1 s2 q then 1 else 0) else 0)%R); try assumption; try nia.
  - intros accum dy dx0 Ldy Ldx. destruct (sce_ok x buf0 yb Lx Lb Lyb) as (y' & lp & -> & _ & Llp & _ & Vlp). cbn [obind]. unfold sce_backward. rewrite SET. cbn [obind].
    match goal with |- context [pairs s0 s2 ?b _] => destruct (pairs_ok s0 s1 s2 b (fun o k i old => old + (if lab (o * s2 + i) <? 0 then 0 else el dy (o * s2 + i)%Z * (exp (el lp (P o k i)) - (if lab (o * s2 + i) =? k then 1 else 0))))%R P0 ltac:(lia) P2) with (y0 := if accum then dx0 else map (fun _ => 0%R) dx0) as (dx & E & L & V) end.
    + intros o i z Ho Hi Lz. pose proof (jrange s0 s2 o i Ho Hi) as J. rewrite lget by exact J. cbn [obind]. rewrite rget by (rewrite Ldy; exact J). cbn [obind]. pose proof (LAB _ J). destruct (Z.ltb_spec (lab (o * s2 + i)) 0) as [Lt | Ge].
      * exists z. split; [reflexivity |]. split; [reflexivity |]. split; [intros; ring | reflexivity].
      * apply (line_ok s0 s1 s2 o i _ (fun k old => old + el dy (o * s2 + i)%Z * (exp (el lp (P o k i)) - (if lab (o * s2 + i) =? k then 1 else 0)))%R); try assumption; [lia |].
        intros k w Hk Lw. rewrite !k_at. rewrite (rget w) by (rewrite Lw; apply at3_range; lia). cbn [obind]. rewrite (rget lp) by (unfold rlen in *; rewrite Llp, Lb; apply at3_range; lia). reflexivity.
    + unfold rlen in *. rewrite len_start. exact Ldx.
    + exists dx. split; [exact E |]. split; [rewrite L; apply len_start |]. intros q Hq. destruct (whole s0 s1 s2 P0 P1 P2 q Hq) as (A0 & A1 & A2 & Eq). rewrite <- Eq at 1. rewrite V by assumption. rewrite Eq, el_start. f_equal.
      rewrite (rsum_only (s0 * s2) _ (p0 s1 s2 q * s2 + p2 s2 q)); [| apply jrange; assumption |].
      * rewrite Z.eqb_refl. destruct (lab _ <? 0); [ring |]. f_equal. f_equal. rewrite <- Eq at 1. rewrite Vlp by assumption. rewrite Eq. unfold Rminus, Rdiv. rewrite exp_plus, exp_Ropp, exp_ln by (apply esum_pos; exact P1). reflexivity.
      * intros j Hj NE. apply Z.eqb_neq in NE. rewrite NE. ring.
  - intros u y0 Lu Ly0. destruct (sce_ok u buf0 y0 Lu Lb Ly0) as (y' & lp & -> & L & _ & V & _). exists y'. split; [reflexivity |]. split; [exact L | exact V].
  - intros u v j Hj E. unfold loss. pose proof (LAB j Hj). destruct (jsplit s0 s2 j P0 Hj) as (J0 & J2 & _). destruct (Z.ltb_spec (lab j) 0); [reflexivity |]. rewrite (esum_ext s0 s1 s2 u v) by assumption. rewrite E by (apply at3_range; lia). reflexivity.
  - intros q j Hq Hj. destruct (whole s0 s1 s2 P0 P1 P2 q Hq) as (A0 & A1 & A2 & Eq). apply (D_loss (el x) q (p0 s1 s2 q) (p1 s1 s2 q) (p2 s2 q) j); auto.
Qed.

(** CategoricalCrossEntropy *)
Definition closs (least : R) (u : Z -> R) (j : Z) : R :=
  if lab j <? 0 then 0%R else (- ln (Rmax (u (P (j / s2) (lab j) (j mod s2))) least))%R.
Lemma cce_ok least p y : rlen p = N -> rlen y = s0 * s2 -> exists y', cce_forward least axis shape label p l y = Some y' /\ length y' = length y /\
  forall j, 0 <= j < s0 * s2 -> el y' j = closs least (el p) j.
Proof using P0 P1 P2 SET Ll LAB.
  intros Lp Ly. unfold cce_forward. rewrite SET. cbn [obind]. apply (cells_ok s0 s2 _ (fun j _ => closs least (el p) j)); try assumption.
  intros o i z Ho Hi Lz. pose proof (jrange s0 s2 o i Ho Hi) as J. rewrite lget by exact J. cbn [obind]. unfold closs. destruct (jparts s2 o i Hi) as (-> & ->). pose proof (LAB _ J). destruct (Z.ltb_spec (lab (o * s2 + i)) 0); [reflexivity |].
  rewrite k_at, rget by (rewrite Lp; apply at3_range; lia). reflexivity.
Qed.
Lemma D_neg_ln v : (0 < v)%R -> derivable_pt_lim (fun t => - ln t)%R v (- / v)%R.
Proof using. intros H. derive; [exact H |]. field. lra. Qed.
Lemma closs_left least u q a b c j : (0 < least)%R -> 0 <= a < s0 -> 0 <= b < s1 -> 0 <= c < s2 -> q = P a b c -> 0 <= j < s0 * s2 ->
  (j = a * s2 + c -> lab j = b -> (least <= u q)%R) ->
  left_slope (fun t => closs least (put_in q t u) j) (u q) (if (j =? a * s2 + c) && (lab j =? b) then if Rlt_dec least (u q) then - / u q else 0 else 0)%R /\
  right_slope (fun t => closs least (put_in q t u) j) (u q) (if (j =? a * s2 + c) && (lab j =? b) then - / u q else 0)%R.
Proof using P0 P1 P2 LAB.
  intros HL Ha Hb Hc Q J GE. unfold closs. pose proof (LAB j J) as LJ. destruct (jsplit s0 s2 j P0 J) as (J0 & J2 & EJ).
  destruct (Z.eqb_spec j (a * s2 + c)) as [-> | NE]; [destruct (Z.eqb_spec (lab (a * s2 + c)) b) as [Eb | NE] |]; cbn [andb].
  - specialize (GE eq_refl Eb). rewrite Eb. destruct (Z.ltb_spec b 0); [lia |]. destruct (jparts s2 a c Hc) as (-> & ->). rewrite <- Q.
    assert (PI : forall t, put_in q t u q = t) by (intros t; unfold put_in; rewrite Z.eqb_refl; reflexivity).
    split.
    + destruct (Rlt_dec least (u q)) as [Lt | Ge].
      * apply (left_ext _ (fun t => - ln t)%R); [| apply lim_left, D_neg_ln; lra].
        apply near_sides. apply (near_above _ _ least); [exact Lt |]. intros t Ht. rewrite PI, Rmax_left by lra. reflexivity.
      * apply (left_ext _ (fun _ => - ln least)%R); [| apply left_const]. assert (E : u q = least) by lra.
        exists 1%R. split; [lra |]. intros t Ht. rewrite PI, Rmax_right by lra. reflexivity.
    + apply (right_ext _ (fun t => - ln t)%R); [| apply lim_right, D_neg_ln; lra].
      exists 1%R. split; [lra |]. intros t Ht. rewrite PI, Rmax_left by lra. reflexivity.
  - assert (E : forall t, (if lab (a * s2 + c) <? 0 then 0%R else (- ln (Rmax (put_in q t u (P ((a * s2 + c) / s2) (lab (a * s2 + c)) ((a * s2 + c) mod s2))) least))%R) = (if lab (a * s2 + c) <? 0 then 0%R else (- ln (Rmax (u (P a (lab (a * s2 + c)) c)) least))%R)).
    { intros t. destruct (Z.ltb_spec (lab (a * s2 + c)) 0); [reflexivity |]. destruct (jparts s2 a c Hc) as (-> & ->). rewrite (put_in_line s1 s2 q t u a (lab (a * s2 + c)) c a b c) by (try assumption; lia). apply Z.eqb_neq in NE. rewrite NE, Bool.andb_false_r. reflexivity. }
    split; [eapply left_ext; [apply left_always; intros t _; rewrite (E t); reflexivity | apply left_const] | eapply right_ext; [apply right_always; intros t _; rewrite (E t); reflexivity | apply right_const]].
  - assert (E : forall t, (if lab j <? 0 then 0%R else (- ln (Rmax (put_in q t u (P (j / s2) (lab j) (j mod s2))) least))%R) = (if lab j <? 0 then 0%R else (- ln (Rmax (u (P (j / s2) (lab j) (j mod s2))) least))%R)).
    { intros t. destruct (Z.ltb_spec (lab j) 0); [reflexivity |]. rewrite (put_in_line s1 s2 q t u (j / s2) (lab j) (j mod s2) a b c) by (try assumption; lia).
      destruct (Z.eqb_spec (j / s2) a) as [Ea |], (Z.eqb_spec (j mod s2) c) as [Ec |], (lab j =? b); cbn [andb]; try reflexivity. exfalso. apply NE. rewrite EJ, Ea, Ec. reflexivity. }
    split; [eapply left_ext; [apply left_always; intros t _; rewrite (E t); reflexivity | apply left_const] | eapply right_ext; [apply right_always; intros t _; rewrite (E t); reflexivity | apply right_const]].
Qed.
Lemma cce_gradient least p : (0 < least)%R -> rlen p = N ->
  (forall j, 0 <= j < s0 * s2 -> 0 <= lab j -> (least <= el p (P (j / s2) (lab j) (j mod s2)))%R) ->
  rgradient N (s0 * s2) (fun p y => cce_forward least axis shape label p l y) (fun accum dy dx => cce_backward least axis shape label accum p l dy dx) p.
Proof using P0 P1 P2 SET Ll LAB.
  intros HL Lp GE.
  set (J := fun q => p0 s1 s2 q * s2 + p2 s2 q).
  assert (GE' : forall q j, 0 <= q < N -> j = J q -> lab j = p1 s1 s2 q -> (least <= el p q)%R).
  { intros q j Hq -> EL. destruct (whole s0 s1 s2 P0 P1 P2 q Hq) as (A0 & A1 & A2 & Eq). specialize (GE (J q) (jrange s0 s2 _ _ A0 A2) ltac:(lia)). destruct (jparts s2 (p0 s1 s2 q) (p2 s2 q) A2) as (E0 & E2). fold (J q) in E0, E2. rewrite E0, E2, EL, Eq in GE. exact GE. }
  apply (rgradient_of N (s0 * s2) _ _ p (closs least) (fun q j => if (j =? J q) && (lab j =? p1 s1 s2 q) then if Rlt_dec least (el p q) then - / el p q else 0 else 0)%R (fun q j => if (j =? J q) && (lab j =? p1 s1 s2 q) then - / el p q else 0)%R
     (fun dy q => if lab (J q) =? p1 s1 s2 q then - el dy (J q) / el p q else 0)%R); try assumption; try nia.
  - intros accum dy dx0 Ldy Ldx. unfold cce_backward. rewrite SET. cbn [obind].
    match goal with |- context [pairs s0 s2 ?b _] => destruct (pairs_ok s0 s1 s2 b (fun o k i old => old + (if lab (o * s2 + i) =? k then - el dy (o * s2 + i)%Z / Rmax (el p (P o k i)) least else 0))%R P0 ltac:(lia) P2) with (y0 := if accum then dx0 else map (fun _ => 0%R) dx0) as (dx & E & L & V) end.
    + intros o i z Ho Hi Lz. pose proof (jrange s0 s2 o i Ho Hi) as HJ. rewrite lget by exact HJ. cbn [obind]. pose proof (LAB _ HJ). destruct (Z.ltb_spec (lab (o * s2 + i)) 0) as [Lt | Ge].
      * exists z. split; [reflexivity |]. split; [reflexivity |]. split; [| reflexivity]. intros k Hk. destruct (Z.eqb_spec (lab (o * s2 + i)) k); [lia | ring].
      * rewrite !k_at. assert (Rg : 0 <= P o (lab (o * s2 + i)) i < N) by (apply at3_range; lia). rewrite (rget z) by (rewrite Lz; exact Rg). cbn [obind]. rewrite (rget dy) by (rewrite Ldy; exact HJ). cbn [obind]. rewrite (rget p) by (rewrite Lp; exact Rg). cbn [obind].
        match goal with |- context [put z ?k ?v] => destruct (rput z k v) as (z' & Ez & Lz' & Vz) end; [rewrite Lz; exact Rg |]. exists z'. split; [exact Ez |]. split; [exact Lz' |]. split.
        -- intros k Hk. rewrite Vz by (apply (at3_range s0); lia). destruct (Z.eqb_spec (lab (o * s2 + i)) k) as [-> | NE]; [rewrite Z.eqb_refl; reflexivity |]. destruct (Z.eqb_spec (P o k i) (P o (lab (o * s2 + i)) i)) as [Eq |]; [apply at3_inj in Eq; lia | ring].
        -- intros q Hq Nq. rewrite Vz by exact Hq. destruct (Z.eqb_spec q (P o (lab (o * s2 + i)) i)) as [-> |]; [| reflexivity]. exfalso. apply (Nq (lab (o * s2 + i))); [lia | reflexivity].
    + unfold rlen in *. rewrite len_start. exact Ldx.
    + exists dx. split; [exact E |]. split; [rewrite L; apply len_start |]. intros q Hq. destruct (whole s0 s1 s2 P0 P1 P2 q Hq) as (A0 & A1 & A2 & Eq). rewrite <- Eq at 1. rewrite V by assumption. rewrite Eq, el_start. fold (J q). f_equal.
      destruct (Z.eqb_spec (lab (J q)) (p1 s1 s2 q)) as [EL | NE]; [| reflexivity]. rewrite Rmax_left; [reflexivity |]. apply (GE' q (J q) Hq eq_refl EL).
  - intros u y0 Lu Ly0. apply cce_ok; assumption.
  - intros u v j Hj E. unfold closs. pose proof (LAB j Hj). destruct (jsplit s0 s2 j P0 Hj) as (J0 & J2 & _). destruct (Z.ltb_spec (lab j) 0); [reflexivity |]. rewrite E by (apply at3_range; lia). reflexivity.
  - intros q j Hq Hj. destruct (whole s0 s1 s2 P0 P1 P2 q Hq) as (A0 & A1 & A2 & Eq). apply (closs_left least (el p) q (p0 s1 s2 q) (p1 s1 s2 q) (p2 s2 q) j); auto; apply GE'; exact Hq.
  - intros q j Hq Hj. destruct (whole s0 s1 s2 P0 P1 P2 q Hq) as (A0 & A1 & A2 & Eq). apply (closs_left least (el p) q (p0 s1 s2 q) (p1 s1 s2 q) (p2 s2 q) j); auto; apply GE'; exact Hq.
  - intros dy q Ldy Hq. cbv zeta. destruct (whole s0 s1 s2 P0 P1 P2 q Hq) as (A0 & A1 & A2 & Eq).
    match goal with |- (Rmin ?a ?b <= ?g <= _)%R => assert (EG : b = g) end.
    { rewrite (rsum_only (s0 * s2) _ (J q)); [| apply jrange; assumption |].
      - rewrite Z.eqb_refl. cbn [andb]. destruct (lab (J q) =? p1 s1 s2 q); unfold Rdiv; ring.
      - intros j Hj NE. apply Z.eqb_neq in NE. rewrite NE. cbn [andb]. ring. }
    rewrite EG. split; [apply Rmin_r | apply Rmax_r].
Qed.
End labels.

(** ** KLMultinomial *)
Lemma acc_loop (step : Z -> list R -> option (list R)) f n i : 0 <= n -> (forall k y, 0 <= k < n -> 0 <= i < rlen y -> step k y = put y i (el y i + f k)%R) ->
  forall y0, 0 <= i < rlen y0 -> exists y, loop step (upto n) y0 = Some y /\ length y = length y0 /\ el y i = (el y0 i + rsum n f)%R /\ forall q, 0 <= q -> q <> i -> el y q = el y0 q.
Proof.
  intros Hn ST y0 Hi. destruct (loop_inv (fun m y => length y = length y0 /\ el y i = (el y0 i + rsum m f)%R /\ forall q, 0 <= q -> q <> i -> el y q = el y0 q) step n Hn) with (s := y0) as (y & E & H).
  - intros m y Hm (L & A & B). assert (R' : 0 <= i < rlen y) by (unfold rlen in *; rewrite L; exact Hi). rewrite ST by assumption. destruct (rput y i (el y i + f m)%R R') as (y' & E' & L' & V'). exists y'. split; [exact E' |]. split; [congruence |]. split.
    + rewrite V', Z.eqb_refl, A, rsum_S by lia. ring.
    + intros q Hq NE. rewrite V' by exact Hq. destruct (Z.eqb_spec q i); [lia | auto].
  - split; [reflexivity |]. split; [rewrite rsum_0; ring | reflexivity].
  - exists y. auto.
Qed.
Section kl.
Variables n k : Z.
Hypothesis Pn : 0 <= n.
Hypothesis Pk : 0 <= k.
Variables (e : R) (base_axis : Z) (shape : list Z).
Hypothesis SET : kl_sizes base_axis shape = Some (k, n).
Definition kl (u v : Z -> R) (i : Z) : R := rsum k (fun j => u (i * k + j)%Z * (ln (u (i * k + j)%Z + e) - ln (v (i * k + j)%Z + e)))%R.
Lemma kl_ok x0 x1 y : rlen x0 = n * k -> rlen x1 = n * k -> rlen y = n -> exists y', kl_forward e base_axis shape x0 x1 y = Some y' /\ length y' = length y /\ forall i, 0 <= i < n -> el y' i = kl (el x0) (el x1) i.
Proof using Pn Pk SET.
  intros L0 L1 Ly. unfold kl_forward. rewrite SET. cbn [obind].
  match goal with |- context [loop ?b (upto n) y] => destruct (loop_inv (fun m y' => length y' = length y /\ forall i, 0 <= i < m -> el y' i = kl (el x0) (el x1) i) b n Pn) with (s := y) as (y' & E & L & V) end.
  - intros i z Hi (Lz & Vz). assert (Rz : 0 <= i < rlen z) by (unfold rlen in *; rewrite Lz, Ly; exact Hi). destruct (rput z i 0%R Rz) as (z1 & -> & Lz1 & Vz1). cbn [obind].
    match goal with |- context [loop ?b (upto k) z1] => destruct (acc_loop b (fun j => el x0 (i * k + j)%Z * (ln (el x0 (i * k + j)%Z + e) - ln (el x1 (i * k + j)%Z + e)))%R k i Pk) with (y0 := z1) as (z2 & -> & Lz2 & A & B) end.
    + intros j w Hj Hw. assert (Rg : 0 <= i * k + j < n * k) by nia. rewrite (rget w) by exact Hw. cbn [obind]. rewrite (rget x0) by (rewrite L0; exact Rg). cbn [obind]. rewrite (rget x1) by (rewrite L1; exact Rg). reflexivity.
    + unfold rlen in *. rewrite Lz1. exact Rz.
    + exists z2. split; [reflexivity |]. split; [congruence |]. intros i' Hi'. destruct (Z.eq_dec i' i) as [-> | NE].
      * rewrite A, Vz1, Z.eqb_refl by lia. unfold kl. ring.
      * rewrite B, Vz1 by lia. destruct (Z.eqb_spec i' i); [lia |]. apply Vz. lia.
  - split; [reflexivity |]. intros i Hi. lia.
  - exists y'. auto.
Qed.
Lemma kl_only (u w : Z -> R) (f : Z -> R -> R) q a b : 0 <= b < k -> q = a * k + b -> forall t i, 0 <= i ->
  rsum k (fun j => f (i * k + j) (put_in q t u (i * k + j))) = (rsum k (fun j => f (i * k + j)%Z (u (i * k + j)%Z)) + (if i =? a then f q t - f q (u q) else 0))%R.
Proof using Pk.
  intros Hb Q t i Hi. destruct (Z.eqb_spec i a) as [-> | NE].
  - rewrite (rsum_ext k _ (fun j => f (a * k + j)%Z (u (a * k + j)%Z) + (if j =? b then f q t - f q (u q) else 0))%R); [rewrite rsum_plus, rsum_one by exact Hb; reflexivity |].
    intros j Hj. unfold put_in. destruct (Z.eqb_spec j b) as [-> |]; [rewrite <- Q, Z.eqb_refl; ring |]. destruct (Z.eqb_spec (a * k + j) q); [lia | ring].
  - rewrite Rplus_0_r. apply rsum_ext. intros j Hj. unfold put_in. destruct (Z.eqb_spec (i * k + j) q) as [Eq |]; [| reflexivity]. exfalso. apply NE. rewrite Q in Eq. destruct (split_pos k i a j b) as (-> & _); lia.
Qed.
Lemma D_kl0 u v q a b i : 0 <= a -> 0 <= b < k -> q = a * k + b -> 0 <= i -> (0 < u q + e)%R ->
  derivable_pt_lim (fun t => kl (put_in q t u) v i) (u q) (if i =? a then ln (u q + e) - ln (v q + e) + u q / (u q + e) else 0)%R.
Proof using Pk.
  intros Ha Hb Q Hi PU. unfold kl. apply (near_ext _ (fun t => rsum k (fun j => u (i * k + j)%Z * (ln (u (i * k + j)%Z + e) - ln (v (i * k + j)%Z + e))) + (if i =? a then t * (ln (t + e) - ln (v q + e)) - u q * (ln (u q + e) - ln (v q + e)) else 0))%R).
  - intros t. apply (kl_only u u (fun p s => s * (ln (s + e) - ln (v p + e)))%R q a b Hb Q t i Hi).
  - destruct (i =? a); [| apply derivable_pt_lim_const]. derive; [exact PU |]. field. lra.
Qed.
Lemma D_kl1 u v q a b i : 0 <= a -> 0 <= b < k -> q = a * k + b -> 0 <= i -> (0 < v q + e)%R ->
  derivable_pt_lim (fun t => kl u (put_in q t v) i) (v q) (if i =? a then - u q / (v q + e) else 0)%R.
Proof using Pk.
  intros Ha Hb Q Hi PU. unfold kl. apply (near_ext _ (fun t => rsum k (fun j => u (i * k + j)%Z * (ln (u (i * k + j)%Z + e) - ln (v (i * k + j)%Z + e))) + (if i =? a then u q * (ln (u q + e) - ln (t + e)) - u q * (ln (u q + e) - ln (v q + e)) else 0))%R).
  - intros t. apply (kl_only v v (fun p s => u p * (ln (u p + e) - ln (s + e)))%R q a b Hb Q t i Hi).
  - destruct (i =? a); [| apply derivable_pt_lim_const]. derive; [exact PU |]. field. lra.
Qed.
Lemma kl_rows q : 0 <= q < n * k -> 0 <= q / k < n /\ 0 <= q mod k < k /\ q = q / k * k + q mod k.
Proof using Pn. intros H. apply jsplit; assumption. Qed.
(** What both gradients are. *)
Definition kl_sent0 (x0 x1 dy : Z -> R) (q : Z) : R := (dy (q / k)%Z * (ln (x0 q + e) - ln (x1 q + e) + 1))%R.
Definition kl_sent1 (x0 x1 dy : Z -> R) (q : Z) : R := (- dy (q / k)%Z * x0 q / x1 q)%R.
Lemma kl_back0 accum x0 x1 dy dx : rlen x0 = n * k -> rlen x1 = n * k -> rlen dy = n -> rlen dx = n * k ->
  exists dx', kl_backward0 e base_axis shape accum x0 x1 dy dx = Some dx' /\ length dx' = length dx /\ forall q, 0 <= q < n * k -> el dx' q = ((if accum then el dx q else 0) + kl_sent0 (el x0) (el x1) (el dy) q)%R.
Proof using Pn Pk SET.
  intros L0 L1 Ldy Ldx. unfold kl_backward0. rewrite SET. cbn [obind]. apply (cells_ok n k _ (fun q old => (if accum then old else 0) + kl_sent0 (el x0) (el x1) (el dy) q)%R); try assumption.
  intros o i z Ho Hi Lz. pose proof (jrange n k o i Ho Hi) as J. rewrite (rget x0) by (rewrite L0; exact J). cbn [obind]. rewrite (rget x1) by (rewrite L1; exact J). cbn [obind]. rewrite (rget dy) by (rewrite Ldy; exact Ho). cbn [obind]. rewrite (rget z) by (rewrite Lz; exact J). cbn [obind].
  unfold kl_sent0. destruct (jparts k o i Hi) as (-> & _). reflexivity.
Qed.
Lemma kl_back1 accum x0 x1 dy dx : rlen x0 = n * k -> rlen x1 = n * k -> rlen dy = n -> rlen dx = n * k ->
  exists dx', kl_backward1 base_axis shape accum x0 x1 dy dx = Some dx' /\ length dx' = length dx /\ forall q, 0 <= q < n * k -> el dx' q = ((if accum then el dx q else 0) + kl_sent1 (el x0) (el x1) (el dy) q)%R.
Proof using Pn Pk SET.
  intros L0 L1 Ldy Ldx. unfold kl_backward1. rewrite SET. cbn [obind]. apply (cells_ok n k _ (fun q old => (if accum then old else 0) + kl_sent1 (el x0) (el x1) (el dy) q)%R); try assumption.
  intros o i z Ho Hi Lz. pose proof (jrange n k o i Ho Hi) as J. rewrite (rget x0) by (rewrite L0; exact J). cbn [obind]. rewrite (rget x1) by (rewrite L1; exact J). cbn [obind]. rewrite (rget dy) by (rewrite Ldy; exact Ho). cbn [obind]. rewrite (rget z) by (rewrite Lz; exact J). cbn [obind].
  unfold kl_sent1. destruct (jparts k o i Hi) as (-> & _). f_equal. unfold Rdiv. ring.
Qed.
Lemma kl_slopes0 x0 x1 dy d : rlen x0 = n * k -> rlen x1 = n * k -> rlen dy = n -> rlen d = n * k -> (forall q, 0 <= q < n * k -> (0 < el x0 q + e)%R) ->
  (forall q, 0 <= q < n * k -> el d q = (kl_sent0 (el x0) (el x1) (el dy) q - el dy (q / k)%Z * (e / (el x0 q + e)))%R) ->
  rslopes n (fun x0 y => kl_forward e base_axis shape x0 x1 y) x0 dy d.
Proof using Pn Pk SET.
  intros L0 L1 Ldy Ld PX Vd. apply (rslopes_by (n * k) n _ x0 dy d (fun u => kl u (el x1)) (fun q i => if i =? q / k then ln (el x0 q + e) - ln (el x1 q + e) + el x0 q / (el x0 q + e) else 0)%R); try assumption.
  - intros u y0 Lu Ly0. apply kl_ok; assumption.
  - intros u v i Hi E. unfold kl. apply rsum_ext. intros j Hj. rewrite E by nia. reflexivity.
  - intros q i Hq Hi. destruct (kl_rows q Hq) as (A & B & Q). apply (D_kl0 (el x0) (el x1) q (q / k) (q mod k) i); try assumption; try lia. apply PX. exact Hq.
  - intros q Hq. destruct (kl_rows q Hq) as (A & B & Q). rewrite (rsum_only n _ (q / k) A); [| intros i _ NE; apply Z.eqb_neq in NE; rewrite NE; ring]. rewrite Z.eqb_refl, Vd by exact Hq. unfold kl_sent0. specialize (PX q Hq). field. lra.
Qed.
Lemma kl_slopes1 x0 x1 dy d : rlen x0 = n * k -> rlen x1 = n * k -> rlen dy = n -> rlen d = n * k -> (forall q, 0 <= q < n * k -> (0 < el x1 q + e)%R) ->
  (forall q, 0 <= q < n * k -> el d q = (- el dy (q / k)%Z * el x0 q / (el x1 q + e))%R) ->
  rslopes n (fun x1 y => kl_forward e base_axis shape x0 x1 y) x1 dy d.
Proof using Pn Pk SET.
  intros L0 L1 Ldy Ld PX Vd. apply (rslopes_by (n * k) n _ x1 dy d (fun v => kl (el x0) v) (fun q i => if i =? q / k then - el x0 q / (el x1 q + e) else 0)%R); try assumption.
  - intros u y0 Lu Ly0. apply kl_ok; assumption.
  - intros u v i Hi E. unfold kl. apply rsum_ext. intros j Hj. rewrite E by nia. reflexivity.
  - intros q i Hq Hi. destruct (kl_rows q Hq) as (A & B & Q). apply (D_kl1 (el x0) (el x1) q (q / k) (q mod k) i); try assumption; try lia. apply PX. exact Hq.
  - intros q Hq. destruct (kl_rows q Hq) as (A & B & Q). rewrite (rsum_only n _ (q / k) A); [| intros i _ NE; apply Z.eqb_neq in NE; rewrite NE; ring]. rewrite Z.eqb_refl, Vd by exact Hq. unfold Rdiv. ring.
Qed.
End kl.
