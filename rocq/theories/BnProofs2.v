(** Batch normalization: what forward computes. *)
From Coq Require Import List ZArith Lia Bool Reals Lra.
From Verif Require Import NdModel NdSpec NdProofs IdxModel IdxSpec IdxProofs1 IdxProofs2 IdxProofs3 IdxProofs6 JoinModel JoinSpec JoinProofs JoinProofs2 ScanModel ScanProofs1 ScanProofs4 ReduceProofs1 ConvProofs3 SortProofs3 BinModel ActModel ActSpec ActProofs1 ActProofs2 ActProofs4 SmSpec SmModel SmProofs1 SmProofs2 SmProofs3 BnSpec BnModel BnProofs1.
Import ListNotations.
Local Open Scope list_scope.
Local Open Scope Z_scope.

(** Writing one element. *)
Lemma rput_at a i v : 0 <= i < rlen a -> exists r, put a i v = Some r /\ rlen r = rlen a /\ el r i = v /\ forall j, 0 <= j -> j <> i -> el r j = el a j.
Proof.
  intros H. destruct (rput a i v H) as (r & E & L & V). exists r. split; [exact E |]. split; [unfold rlen; rewrite L; reflexivity |]. split; [rewrite V, Z.eqb_refl by lia; reflexivity |].
  intros j Hj N. rewrite V by exact Hj. apply Z.eqb_neq in N. rewrite N. reflexivity.
Qed.
Definition oel (a : list (option R)) (i : Z) : option R := nth (Z.to_nat i) a None.
Lemma oput_at (a : list (option R)) i v : 0 <= i < Z.of_nat (length a) -> exists r, put a i v = Some r /\ length r = length a /\ oel r i = v /\ forall j, 0 <= j -> j <> i -> oel r j = oel a j.
Proof.
  intros H. destruct (put_gen None a i v H) as (r & E & L & V). exists r. split; [exact E |]. split; [exact L |]. split; [unfold oel; rewrite V, Z.eqb_refl by lia; reflexivity |].
  intros j Hj N. unfold oel. rewrite V by exact Hj. apply Z.eqb_neq in N. rewrite N. reflexivity.
Qed.
Lemma oget (a : list (option R)) i : 0 <= i < Z.of_nat (length a) -> get a i = Some (oel a i).
Proof. apply get_gen. Qed.

Section forward.
Variables s0 s1 s2 : Z.
Hypothesis P0 : 0 < s0.
Hypothesis P1 : 0 < s1.
Hypothesis P2 : 0 < s2.
Local Notation T := (s0 * s1 * s2).
Local Notation K := (s0 * s2).
Local Notation pos := (pos s1 s2).
Definition cmean (u : Z -> R) (c : Z) : R := (rsum K (fun k => u (pos c k)) / IZR K)%R.
Definition cvar (u : Z -> R) (c : Z) : R := (rsum K (fun k => u (pos c k) * u (pos c k)) / IZR K - cmean u c * cmean u c)%R.
Lemma K_real : (0 < IZR K)%R.
Proof using P0 P2. apply IZR_lt. apply K_pos; assumption. Qed.
Lemma cvar_dev u c : cvar u c = (rsum K (fun k => (u (pos c k) - cmean u c) * (u (pos c k) - cmean u c)) / IZR K)%R.
Proof using P0 P2.
  pose proof K_real. unfold cmean. rewrite (deviation_sum K (fun k => u (pos c k))) by (apply K_pos; assumption). unfold cvar, cmean. field. lra.
Qed.
Lemma cvar_nonneg u c : (0 <= cvar u c)%R.
Proof using P0 P2.
  pose proof K_real. rewrite cvar_dev. apply Rmult_le_pos; [apply rsum_nonneg; intros; apply Rle_0_sqr | left; apply Rinv_0_lt_compat; lra].
Qed.
Lemma cmean_ext u w c : 0 <= c < s1 -> (forall i, 0 <= i < T -> u i = w i) -> cmean u c = cmean w c.
Proof using P0 P1 P2. intros C H. unfold cmean. f_equal. apply rsum_ext. intros k Hk. apply H. apply pos_range; assumption. Qed.
Lemma cvar_ext u w c : 0 <= c < s1 -> (forall i, 0 <= i < T -> u i = w i) -> cvar u c = cvar w c.
Proof using P0 P1 P2. intros C H. unfold cvar. rewrite (cmean_ext u w c C H). do 2 f_equal. apply rsum_ext. intros k Hk. rewrite H by (apply pos_range; assumption). reflexivity. Qed.

Lemma stats_ok x m v c : rlen x = T -> rlen m = s1 -> rlen v = s1 -> 0 <= c < s1 ->
  exists m' v', obind (bn_sums s0 s1 s2 c x m v) (fun '(m, v) => bn_stats K c m v) = Some (m', v') /\ rlen m' = s1 /\ rlen v' = s1 /\
  el m' c = cmean (el x) c /\ el v' c = cvar (el x) c /\ (forall j, 0 <= j -> j <> c -> el m' j = el m j) /\ (forall j, 0 <= j -> j <> c -> el v' j = el v j).
Proof using P0 P1 P2.
  intros Lx Lm Lv C. unfold bn_sums.
  destruct (rput_at m c 0%R) as (ma & -> & La & Ea & Oa); [lia |]. cbn [obind]. destruct (rput_at v c 0%R) as (va & -> & Lb & Eb & Ob); [lia |]. cbn [obind].
  destruct (channel_inv s0 s1 s2 P0 P2 (fun n '(m', v') => rlen m' = s1 /\ rlen v' = s1 /\ el m' c = rsum n (fun k => el x (pos c k)) /\ el v' c = rsum n (fun k => el x (pos c k) * el x (pos c k))%R /\ (forall j, 0 <= j -> j <> c -> el m' j = el m j) /\ (forall j, 0 <= j -> j <> c -> el v' j = el v j)) c
     (fun i '(m, v) => obind (get x i) (fun value => obind (get m c) (fun a => obind (put m c (a + value)%R) (fun m => obind (get v c) (fun b => obind (put v c (b + value * value)%R) (fun v => Some (m, v)))))))) with (s := (ma, va)) as ([m1 v1] & E & L1 & L2 & E1 & E2 & O1 & O2).
  - intros k [m' v'] Hk (L1 & L2 & E1 & E2 & O1 & O2). rewrite rget by (rewrite Lx; apply pos_range; assumption). cbn [obind]. rewrite rget by lia. cbn [obind].
    destruct (rput_at m' c (el m' c + el x (pos c k))%R) as (m2 & -> & L3 & E3 & O3); [lia |]. cbn [obind]. rewrite rget by lia. cbn [obind].
    destruct (rput_at v' c (el v' c + el x (pos c k) * el x (pos c k))%R) as (v2 & -> & L4 & E4 & O4); [lia |]. cbn [obind]. exists (m2, v2). split; [reflexivity |].
    rewrite E3, E4, E1, E2, !rsum_S by lia. split; [lia |]. split; [lia |]. split; [reflexivity |]. split; [reflexivity |]. split; intros j Hj N; [rewrite O3 by assumption; auto | rewrite O4 by assumption; auto].
  - rewrite !rsum_0. split; [lia |]. split; [lia |]. auto.
  - rewrite E. cbn [obind]. unfold bn_stats. rewrite rget by lia. cbn [obind]. destruct (rput_at m1 c (el m1 c / IZR K)%R) as (m2 & -> & L3 & E3 & O3); [lia |]. cbn [obind]. rewrite rget by lia. cbn [obind]. rewrite rget by lia. cbn [obind].
    destruct (rput_at v1 c (el v1 c / IZR K - el m2 c * el m2 c)%R) as (v2 & -> & L4 & E4 & O4); [lia |]. cbn [obind]. exists m2, v2. split; [reflexivity |]. split; [lia |]. split; [lia |]. split; [rewrite E3, E1; reflexivity |]. split; [rewrite E4, E3, E1, E2; reflexivity |].
    split; intros j Hj N; [rewrite O3 by assumption; auto | rewrite O4 by assumption; auto].
Qed.

Variables (eps decay : R).
Variables (beta gamma : option (list R)).
Hypothesis Fb : fits beta s1.
Hypothesis Fg : fits gamma s1.
Definition scaled (mean var value : R) (c : Z) : R := ((value - mean) * given_or gamma 1 c / sqrt (var + eps) + given_or beta 0 c)%R.
Lemma normalize_ok x m v c y : rlen x = T -> rlen m = s1 -> rlen v = s1 -> 0 <= c < s1 -> rlen y = T ->
  exists y', bn_normalize s0 s1 s2 c eps x beta gamma m v y = Some y' /\ length y' = length y /\
  (forall k, 0 <= k < K -> el y' (pos c k) = scaled (el m c) (el v c) (el x (pos c k)) c) /\
  (forall c' k, 0 <= c' < s1 -> 0 <= k < K -> c' <> c -> el y' (pos c' k) = el y (pos c' k)).
Proof using P0 P1 P2 Fb Fg.
  intros Lx Lm Lv C Ly. unfold bn_normalize. apply (channel_write s0 s1 s2 P0 P1 P2 c _ (fun k _ => scaled (el m c) (el v c) (el x (pos c k)) c) C); [| exact Ly].
  intros k y1 Hk L1. rewrite !rget by (first [lia | rewrite Lx; apply pos_range; assumption]). cbn [obind]. rewrite !(param_ok _ _ s1) by assumption. reflexivity.
Qed.
Lemma running_ok m v rm rv c : rlen m = s1 -> rlen v = s1 -> rlen rm = s1 -> Z.of_nat (length rv) = s1 -> 0 <= c < s1 ->
  exists rm' rv', bn_running decay K c m v rm rv = Some (rm', rv') /\ rlen rm' = s1 /\ Z.of_nat (length rv') = s1 /\
  el rm' c = (decay * el rm c + (1 - decay) * el m c)%R /\ oel rv' c = running_var decay K (el v c) (oel rv c) /\
  (forall j, 0 <= j -> j <> c -> el rm' j = el rm j) /\ (forall j, 0 <= j -> j <> c -> oel rv' j = oel rv j).
Proof using.
  intros Lm Lv Lr Lw C. unfold bn_running. rewrite !rget by lia. cbn [obind]. destruct (rput_at rm c (decay * el rm c + (1 - decay) * el m c)%R) as (r1 & -> & L1 & E1 & O1); [lia |]. cbn [obind].
  rewrite oget by lia. cbn [obind]. destruct (oput_at rv c (running_var decay K (el v c) (oel rv c))) as (r2 & -> & L2 & E2 & O2); [lia |]. cbn [obind]. exists r1, r2. split; [reflexivity |]. split; [lia |]. split; [lia |]. auto.
Qed.
Lemma forward_batch_ok update x y0 m0 v0 rm0 rv0 : rlen x = T -> rlen y0 = T -> rlen m0 = s1 -> rlen v0 = s1 -> rlen rm0 = s1 -> Z.of_nat (length rv0) = s1 ->
  exists y m v rm rv, bn_forward_batch s0 s1 s2 eps decay update x beta gamma (y0, m0, v0, rm0, rv0) = Some (y, m, v, rm, rv) /\
  rlen y = T /\ rlen m = s1 /\ rlen v = s1 /\ rlen rm = s1 /\ Z.of_nat (length rv) = s1 /\
  (forall c k, 0 <= c < s1 -> 0 <= k < K -> el y (pos c k) = scaled (cmean (el x) c) (cvar (el x) c) (el x (pos c k)) c) /\
  (forall c, 0 <= c < s1 -> el m c = cmean (el x) c /\ el v c = cvar (el x) c) /\
  (forall c, 0 <= c < s1 -> el rm c = (if update : bool then decay * el rm0 c + (1 - decay) * cmean (el x) c else el rm0 c)%R) /\
  (forall c, 0 <= c < s1 -> oel rv c = (if update then running_var decay K (cvar (el x) c) (oel rv0 c) else oel rv0 c)).
Proof using P0 P1 P2 Fb Fg.
  intros Lx Ly Lm Lv Lr Lw. unfold bn_forward_batch.
  destruct (loop_inv (fun n '(y, m, v, rm, rv) => rlen y = T /\ rlen m = s1 /\ rlen v = s1 /\ rlen rm = s1 /\ Z.of_nat (length rv) = s1 /\
     (forall c k, 0 <= c < n -> 0 <= k < K -> el y (pos c k) = scaled (cmean (el x) c) (cvar (el x) c) (el x (pos c k)) c) /\
     (forall c, 0 <= c < n -> el m c = cmean (el x) c /\ el v c = cvar (el x) c) /\
     (forall c, 0 <= c < s1 -> el rm c = (if (c <? n) && update then decay * el rm0 c + (1 - decay) * cmean (el x) c else el rm0 c)%R) /\
     (forall c, 0 <= c < s1 -> oel rv c = (if (c <? n) && update then running_var decay K (cvar (el x) c) (oel rv0 c) else oel rv0 c)))
     (fun i1 '(y, m, v, rm, rv) => obind (bn_sums s0 s1 s2 i1 x m v) (fun '(m, v) => obind (bn_stats K i1 m v) (fun '(m, v) =>
       obind (if update then bn_running decay K i1 m v rm rv else Some (rm, rv)) (fun '(rm, rv) => obind (bn_normalize s0 s1 s2 i1 eps x beta gamma m v y) (fun y => Some (y, m, v, rm, rv)))))) s1 ltac:(lia)) with (s := (y0, m0, v0, rm0, rv0)) as ([[[[y m] v] rm] rv] & E & H).
  - intros c [[[[y m] v] rm] rv] C (Ly1 & Lm1 & Lv1 & Lr1 & Lw1 & Vy & Vm & Vr & Vw).
    destruct (stats_ok x m v c Lx Lm1 Lv1 C) as (m' & v' & ES & Lm2 & Lv2 & Em & Ev & Om & Ov). destruct (bn_sums s0 s1 s2 c x m v) as [[ma va] |]; [| discriminate ES]. cbn [obind] in ES |- *. rewrite ES. cbn [obind].
    assert (RU : exists rm' rv', (if update then bn_running decay K c m' v' rm rv else Some (rm, rv)) = Some (rm', rv') /\ rlen rm' = s1 /\ Z.of_nat (length rv') = s1 /\
       (forall j, 0 <= j < s1 -> el rm' j = (if (j <? c + 1) && update then decay * el rm0 j + (1 - decay) * cmean (el x) j else el rm0 j)%R) /\
       (forall j, 0 <= j < s1 -> oel rv' j = (if (j <? c + 1) && update then running_var decay K (cvar (el x) j) (oel rv0 j) else oel rv0 j))).
    { destruct update.
      - destruct (running_ok m' v' rm rv c Lm2 Lv2 Lr1 Lw1 C) as (rm' & rv' & ER & L1 & L2 & E1 & E2 & O1 & O2). exists rm', rv'. split; [exact ER |]. split; [exact L1 |]. split; [exact L2 |]. split; intros j Hj; rewrite andb_true_r; destruct (Z.eq_dec j c) as [-> | N].
        + rewrite E1, Em, Vr by exact C. destruct (Z.ltb_spec c c); [lia |]. destruct (Z.ltb_spec c (c + 1)); [| lia]. cbn [andb]. reflexivity.
        + rewrite O1, Vr by (try exact N; lia). rewrite andb_true_r. destruct (Z.ltb_spec j c), (Z.ltb_spec j (c + 1)); try lia; reflexivity.
        + rewrite E2, Ev, Vw by exact C. destruct (Z.ltb_spec c c); [lia |]. destruct (Z.ltb_spec c (c + 1)); [| lia]. cbn [andb]. reflexivity.
        + rewrite O2, Vw by (try exact N; lia). rewrite andb_true_r. destruct (Z.ltb_spec j c), (Z.ltb_spec j (c + 1)); try lia; reflexivity.
      - exists rm, rv. split; [reflexivity |]. split; [exact Lr1 |]. split; [exact Lw1 |]. split; intros j Hj; rewrite andb_false_r; [rewrite Vr by exact Hj | rewrite Vw by exact Hj]; rewrite andb_false_r; reflexivity. }
    destruct RU as (rm' & rv' & -> & Lr2 & Lw2 & Vr2 & Vw2). cbn [obind]. destruct (normalize_ok x m' v' c y Lx Lm2 Lv2 C Ly1) as (y' & -> & Ly2 & Ey & Oy). cbn [obind]. exists (y', m', v', rm', rv'). split; [reflexivity |].
    split; [unfold rlen in *; rewrite Ly2; exact Ly1 |]. split; [exact Lm2 |]. split; [exact Lv2 |]. split; [exact Lr2 |]. split; [exact Lw2 |]. split; [| split; [| split; [exact Vr2 | exact Vw2]]].
    + intros j k Hj Hk. destruct (Z.eq_dec j c) as [-> | N]; [rewrite Ey, Em, Ev by exact Hk; reflexivity |]. rewrite Oy by (try assumption; lia). apply Vy; [lia | exact Hk].
    + intros j Hj. destruct (Z.eq_dec j c) as [-> | N]; [auto |]. rewrite Om, Ov by lia. apply Vm. lia.
  - split; [exact Ly |]. split; [exact Lm |]. split; [exact Lv |]. split; [exact Lr |]. split; [exact Lw |]. split; [intros; lia |]. split; [intros; lia |]. split; intros c C; destruct (Z.ltb_spec c 0); try lia; reflexivity.
  - exists y, m, v, rm, rv. split; [exact E |]. destruct H as (A1 & A2 & A3 & A4 & A5 & A6 & A7 & A8 & A9). split; [exact A1 |]. split; [exact A2 |]. split; [exact A3 |]. split; [exact A4 |]. split; [exact A5 |]. split; [exact A6 |]. split; [exact A7 |]. split; intros c C; [rewrite A8 by exact C | rewrite A9 by exact C]; destruct (Z.ltb_spec c s1); try lia; reflexivity.
Qed.
(** Testing mode. *)
Lemma forward_global_ok x rm rv y0 : rlen x = T -> rlen rm = s1 -> rlen rv = s1 -> rlen y0 = T ->
  exists y, bn_forward_global s0 s1 s2 eps x beta gamma rm rv y0 = Some y /\ length y = length y0 /\
  (forall c k, 0 <= c < s1 -> 0 <= k < K -> el y (pos c k) = scaled (el rm c) (el rv c) (el x (pos c k)) c).
Proof using P0 P1 P2 Fb Fg.
  intros Lx Lr Lw Ly. unfold bn_forward_global.
  destruct (loop_inv (fun n y => length y = length y0 /\ (forall c k, 0 <= c < n -> 0 <= k < K -> el y (pos c k) = scaled (el rm c) (el rv c) (el x (pos c k)) c)) (fun i1 => bn_normalize s0 s1 s2 i1 eps x beta gamma rm rv) s1 ltac:(lia)) with (s := y0) as (y & E & L & V).
  - intros c y C (L & V). destruct (normalize_ok x rm rv c y Lx Lr Lw C) as (y' & E & L' & Ey & Oy); [unfold rlen in *; rewrite L; exact Ly |]. exists y'. split; [exact E |]. split; [congruence |].
    intros j k Hj Hk. destruct (Z.eq_dec j c) as [-> | N]; [apply Ey; exact Hk |]. rewrite Oy by (try assumption; lia). apply V; [lia | exact Hk].
  - split; [reflexivity | intros; lia].
  - exists y. auto.
Qed.
End forward.
