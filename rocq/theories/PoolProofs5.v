(** GlobalAveragePooling and Unpooling, by positions. *)
From Coq Require Import List ZArith Lia Bool QArith Qcanon.
From Verif Require Import NdModel NdSpec NdProofs IdxModel IdxSpec IdxProofs1 IdxProofs2 IdxProofs3 IdxProofs6 JoinModel JoinSpec JoinProofs JoinProofs2 ScanModel ScanSpec ScanProofs1 ReduceModel ReduceSpec ReduceProofs1 SortProofs2 SortProofs3 ConvModel ConvSpec ConvProofs1 ConvProofs2 ConvProofs3 ConvProofs5 ConvProofs6 ConvProofs7 PoolModel PoolSpec PoolProofs1 PoolProofs2 PoolProofs3.
Import ListNotations.
Local Open Scope list_scope.
Local Open Scope Z_scope.

(** Writes to all positions in order. *)
Lemma fill_ok N (V : Z -> Qc -> Qc) (step : Z -> list Qc -> option (list Qc)) a0 : 0 <= N -> qlen a0 = N ->
  (forall j a, 0 <= j < N -> qlen a = N -> step j a = put a j (V j (qat a j))) ->
  exists a, loop step (upto N) a0 = Some a /\ length a = length a0 /\ forall j, 0 <= j < N -> qat a j = V j (qat a0 j).
Proof.
  intros PN L0 HS.
  destruct (loop_inv (fun q a => length a = length a0 /\ (forall j, 0 <= j < q -> qat a j = V j (qat a0 j)) /\ forall j, q <= j -> qat a j = qat a0 j) step N PN) with (s := a0) as (a & E & L & V1 & _).
  - intros j a B (L & V1 & W). assert (LA : qlen a = N) by (unfold qlen in *; rewrite L; exact L0). rewrite HS by assumption. rewrite W by lia.
    edestruct (put_ok a j) as (a' & P1 & P2 & P3 & _); [unfold within; lia | rewrite P1].
    exists a'. split; [reflexivity |]. split; [congruence |]. split; intros i Hi; rewrite P3 by lia; destruct (Z.eqb_spec i j); subst; try reflexivity; try lia; [apply V1 | apply W]; lia.
  - split; [reflexivity |]. split; [intros; lia | reflexivity].
  - exists a. auto.
Qed.
(** Additions to positions of the destination. *)
Lemma gather_adds n N (P : Z -> Z) dy dx0 : 0 <= n -> qlen dy = n -> qlen dx0 = N -> (forall q, 0 <= q < n -> within N (P q)) ->
  exists dx, loop (fun q dx => obind (get dy q) (fun g => obind (get dx (P q)) (fun old => put dx (P q) (old + g)%Qc))) (upto n) dx0 = Some dx /\ length dx = length dx0 /\
  forall u, qinner u dx = (qinner u dx0 + zsum n (fun q => qat dy q * qat u (P q)))%Qc.
Proof.
  intros Pn LY LX HP.
  destruct (loop_inv (fun q dx => length dx = length dx0 /\ forall u, qinner u dx = (qinner u dx0 + zsum q (fun j => qat dy j * qat u (P j)))%Qc) (fun q dx => obind (get dy q) (fun g => obind (get dx (P q)) (fun old => put dx (P q) (old + g)%Qc))) n Pn) with (s := dx0) as (dx & E & L & V).
  - intros j dx B (L & V). rewrite get_ok by (unfold within; lia). cbn [obind]. assert (LD : qlen dx = N) by (unfold qlen in *; rewrite L; exact LX). rewrite get_ok by (rewrite LD; apply HP; exact B). cbn [obind].
    edestruct (put_ok dx (P j)) as (dx' & P1 & P2 & _ & P3); [rewrite LD; apply HP; exact B | rewrite P1].
    exists dx'. split; [reflexivity |]. split; [congruence |]. intros u. rewrite P3, V, zsum_S by lia. ring.
  - split; [reflexivity |]. intros u. rewrite zsum_0. ring.
  - exists dx. auto.
Qed.

(** * GlobalAveragePooling *)
Section Global.
Variables n c : Z.
Variable S : list Z.
Hypothesis NN : 0 <= n.
Hypothesis NC : 0 < c.
Hypothesis PS : positive S.
Hypothesis LS : (length S <= 2)%nat.
Local Notation W := (size S).
Lemma in_wh_ok : in_wh (n :: c :: S) = W.
Proof using LS. clear PS. destruct S as [| h [| w [|]]]; cbn in LS; try lia; unfold in_wh; cbn [length Nat.leb nth size]; ring. Qed.
Lemma w_pos : 0 < W.
Proof using PS. apply size_pos. exact PS. Qed.
Lemma q_split q : 0 <= q < n * c -> 0 <= q / c < n /\ 0 <= q mod c < c /\ q / c * c + q mod c = q.
Proof using NC LS. intros H. split; [split; [apply Z.div_pos; lia | apply Z.div_lt_upper_bound; lia] |]. split; [apply Z.mod_pos_bound; lia | rewrite Z.mul_comm; symmetry; apply Z.div_mod; lia]. Qed.
Lemma gap_forward_ok x y0 : qlen x = n * c * W -> qlen y0 = n * c -> exists y, gap_forward (n :: c :: S) x y0 = Some y /\ length y = length y0 /\
  forall q, 0 <= q < n * c -> qat y q = (zsum W (fun k => qat x (q * W + k)) / Q2Qc (inject_Z W))%Qc.
Proof using NN NC PS LS.
  intros LX LY. unfold gap_forward. cbn [gap_setup obind nth]. rewrite in_wh_ok. cbv zeta. pose proof w_pos as PW.
  rewrite (loop2 (fun i j y => obind (omap (fun k => get x (i * (W * c) + j * W + k)) (upto W)) (fun l => if W =? 0 then None else put y (i * c + j) (sum_list l / Q2Qc (inject_Z W))%Qc))) by assumption.
  apply (fill_ok (n * c) (fun q _ => (zsum W (fun k => qat x (q * W + k)) / Q2Qc (inject_Z W))%Qc)); [nia | exact LY |].
  intros q a B LA. destruct (q_split q B) as (B1 & B2 & B3).
  rewrite (omap_some _ (fun k => qat x (q * W + k))).
  - cbn [obind]. destruct (Z.eqb_spec W 0); [lia |]. rewrite B3, sum_list_lsum. fold (total (upto W) (fun k => qat x (q * W + k))). rewrite total_upto. reflexivity.
  - intros k K. apply upto_in in K. replace (q / c * (W * c) + q mod c * W + k) with ((q / c * c + q mod c) * W + k) by ring. rewrite B3. apply get_ok. unfold within. rewrite LX. nia.
Qed.
Lemma gap_backward_ok (accum : bool) dy dx0 : qlen dy = n * c -> qlen dx0 = n * c * W -> exists dx, gap_backward (n :: c :: S) accum dy dx0 = Some dx /\ length dx = length dx0 /\
  forall j, 0 <= j < n * c * W -> qat dx j = ((if accum then qat dx0 j else 0) + qat dy (j / W) / Q2Qc (inject_Z W))%Qc.
Proof using NN NC PS LS.
  intros LY LX. unfold gap_backward. cbn [gap_setup obind nth]. rewrite in_wh_ok. cbv zeta. pose proof w_pos as PW.
  rewrite (loop2 (fun i j dx => obind (get dy (i * c + j)) (fun g => if W =? 0 then None else loop (fun k dx => if accum then obind (get dx (i * (W * c) + j * W + k)) (fun old => put dx (i * (W * c) + j * W + k) (old + g / Q2Qc (inject_Z W))%Qc) else put dx (i * (W * c) + j * W + k) (g / Q2Qc (inject_Z W))%Qc) (upto W) dx))) by assumption.
  rewrite (loop_ext _ (fun q => loop (fun k dx => if accum then obind (get dx (q * W + k)) (fun old => put dx (q * W + k) (old + qat dy q / Q2Qc (inject_Z W))%Qc) else put dx (q * W + k) (qat dy q / Q2Qc (inject_Z W))%Qc) (upto W))).
  - rewrite loop2 by nia. apply (fill_ok (n * c * W) (fun j old => ((if accum then old else 0) + qat dy (j / W) / Q2Qc (inject_Z W))%Qc)); [nia | exact LX |].
    intros j a B LA. assert (E : j / W * W + j mod W = j) by (rewrite Z.mul_comm; symmetry; apply Z.div_mod; lia). rewrite E.
    destruct accum; [rewrite get_ok by (unfold within; lia); reflexivity | rewrite Qcplus_0_l; reflexivity].
  - intros q a K. apply upto_in in K. destruct (q_split q K) as (B1 & B2 & B3). rewrite B3, get_ok by (unfold within; lia). cbn [obind]. destruct (Z.eqb_spec W 0); [lia |].
    apply loop_ext. intros k a' _. replace (q / c * (W * c) + q mod c * W + k) with (q * W + k) by (rewrite <- B3 at 1; ring). reflexivity.
Qed.
End Global.

(** * Unpooling *)
Lemma unpool_loop_ok {T} xs ys k m (body : Z -> Z -> T -> option T) xo yo t : 0 < k -> 0 <= m ->
  unpool_loop (xs, ys, k, m * k) body xo yo t = loop (fun i => body (xo + i / k * xs) (yo + i * ys)) (upto (m * k)) t.
Proof.
  intros K M. unfold unpool_loop.
  assert (G : forall n : nat, loop (fun _ '(count, cx, cy, t) => obind (body cx cy t) (fun t => Some (if k <=? count + 1 then (0, cx + xs, cy + ys, t) else (count + 1, cx, cy + ys, t)))) (upto (Z.of_nat n)) (0, xo, yo, t) =
    obind (loop (fun i => body (xo + i / k * xs) (yo + i * ys)) (upto (Z.of_nat n)) t) (fun t => Some (Z.of_nat n mod k, xo + Z.of_nat n / k * xs, yo + Z.of_nat n * ys, t))).
  { induction n as [| n IH]; [change (upto (Z.of_nat 0)) with (@nil Z); cbn [loop obind]; change (Z.of_nat 0) with 0; rewrite Z.mod_0_l, Z.div_0_l, !Z.mul_0_l, !Z.add_0_r by lia; reflexivity |].
    rewrite upto_S, !loop_app, IH. destruct (loop _ (upto (Z.of_nat n)) t) as [u |]; [| reflexivity]. cbn [obind loop].
    destruct (body (xo + Z.of_nat n / k * xs) (yo + Z.of_nat n * ys) u) as [v |]; [| reflexivity]. cbn [obind]. f_equal.
    pose proof (Z.mod_pos_bound (Z.of_nat n) k K) as B. pose proof (Z.div_mod (Z.of_nat n) k ltac:(lia)) as D. rewrite Nat2Z.inj_succ. unfold Z.succ.
    destruct (Z.leb_spec k (Z.of_nat n mod k + 1)).
    - assert (E1 : (Z.of_nat n + 1) / k = Z.of_nat n / k + 1) by (symmetry; apply (Z.div_unique _ _ _ 0); nia).
      assert (E2 : (Z.of_nat n + 1) mod k = 0) by (symmetry; apply (Z.mod_unique _ _ (Z.of_nat n / k + 1)); nia).
      rewrite E1, E2. replace (xo + (Z.of_nat n / k + 1) * xs) with (xo + Z.of_nat n / k * xs + xs) by ring. replace (yo + (Z.of_nat n + 1) * ys) with (yo + Z.of_nat n * ys + ys) by ring. reflexivity.
    - assert (E1 : (Z.of_nat n + 1) / k = Z.of_nat n / k) by (symmetry; apply (Z.div_unique _ _ _ (Z.of_nat n mod k + 1)); nia).
      assert (E2 : (Z.of_nat n + 1) mod k = Z.of_nat n mod k + 1) by (symmetry; apply (Z.mod_unique _ _ (Z.of_nat n / k)); nia).
      rewrite E1, E2. replace (yo + (Z.of_nat n + 1) * ys) with (yo + Z.of_nat n * ys + ys) by ring. reflexivity. }
  rewrite <- (Z2Nat.id (m * k)) by nia. rewrite G. destruct (loop _ _ t); reflexivity.
Qed.
Definition dims_of (KK sh : list Z) : list (Z * Z * Z * Z) := combine (combine (combine (cstrides sh) (cstrides (repeated KK sh))) KK) (repeated KK sh).
Lemma dims_cons k KK n sh : dims_of (k :: KK) (n :: sh) = (size sh, size (repeated KK sh), k, n * k) :: dims_of KK sh.
Proof. unfold dims_of. cbn [repeated]. rewrite !cstrides_cons. reflexivity. Qed.
Lemma loop_indices_1 {T} (F : list Z -> T -> option T) n s : loop F (indices [n]) s = loop (fun i => F [i]) (upto n) s.
Proof. rewrite loop_cons. apply loop_ext. intros. cbn [indices loop]. destruct (F [a] s0); reflexivity. Qed.
Lemma unpool_rec_ok : forall sh KK x xo yo y, sh <> [] -> length KK = length sh -> positive KK -> nonneg sh ->
  unpool_rec (dims_of KK sh) x xo yo y = loop (fun idx y => obind (get x (xo + off (divided KK idx) sh)) (fun v => put y (yo + off idx (repeated KK sh)) v)) (indices (repeated KK sh)) y.
Proof.
  induction sh as [| n sh IH]; intros [| k KK] x xo yo y NE L PK NS; try discriminate; [congruence |]. injection L as L. inversion PK as [| ? ? K0 PK']; inversion NS as [| ? ? N0 NS']; subst.
  rewrite dims_cons. destruct sh as [| n2 sh].
  - destruct KK; [| discriminate]. cbn [unpool_rec dims_of repeated combine cstrides size]. rewrite loop_indices_1.
    destruct (Z.eqb_spec 1 1); [| lia]. cbn [andb]. destruct (Z.eqb_spec k 1) as [-> |].
    + apply loop_ext. intros i a _. cbn [divided off size]. rewrite Z.div_1_r, Z.mul_1_r, Z.add_0_r. reflexivity.
    + rewrite unpool_loop_ok by assumption. apply loop_ext. intros i a _. cbn [divided off size]. rewrite !Z.add_0_r. reflexivity.
  - destruct KK as [| k2 KK]; [discriminate |].
    assert (E : unpool_rec ((size (n2 :: sh), size (repeated (k2 :: KK) (n2 :: sh)), k, n * k) :: dims_of (k2 :: KK) (n2 :: sh)) x xo yo y =
      unpool_loop (size (n2 :: sh), size (repeated (k2 :: KK) (n2 :: sh)), k, n * k) (fun cx cy y => unpool_rec (dims_of (k2 :: KK) (n2 :: sh)) x cx cy y) xo yo y) by (rewrite dims_cons; reflexivity).
    rewrite E, unpool_loop_ok by assumption. change (repeated (k :: k2 :: KK) (n :: n2 :: sh)) with (n * k :: repeated (k2 :: KK) (n2 :: sh)). rewrite loop_cons.
    apply loop_ext. intros i a _. rewrite IH by (assumption || discriminate). apply loop_ext. intros idx b _.
    change (off (divided (k :: k2 :: KK) (i :: idx)) (n :: n2 :: sh)) with (i / k * size (n2 :: sh) + off (divided (k2 :: KK) idx) (n2 :: sh)).
    change (off (i :: idx) (n * k :: repeated (k2 :: KK) (n2 :: sh))) with (i * size (repeated (k2 :: KK) (n2 :: sh)) + off idx (repeated (k2 :: KK) (n2 :: sh))).
    rewrite !Z.add_assoc. reflexivity.
Qed.
Lemma unpool_back_ok : forall sh KK dy xo yo dx, sh <> [] -> length KK = length sh -> positive KK -> nonneg sh ->
  unpool_back (dims_of KK sh) dy xo yo dx = loop (fun idx dx => obind (get dy (yo + off idx (repeated KK sh))) (fun g => obind (get dx (xo + off (divided KK idx) sh)) (fun old => put dx (xo + off (divided KK idx) sh) (old + g)%Qc))) (indices (repeated KK sh)) dx.
Proof.
  induction sh as [| n sh IH]; intros [| k KK] dy xo yo dx NE L PK NS; try discriminate; [congruence |]. injection L as L. inversion PK as [| ? ? K0 PK']; inversion NS as [| ? ? N0 NS']; subst.
  rewrite dims_cons. destruct sh as [| n2 sh].
  - destruct KK; [| discriminate]. cbn [unpool_back dims_of repeated combine cstrides size]. rewrite loop_indices_1.
    rewrite unpool_loop_ok by assumption. apply loop_ext. intros i a _. cbn [divided off size]. rewrite !Z.add_0_r. reflexivity.
  - destruct KK as [| k2 KK]; [discriminate |].
    assert (E : unpool_back ((size (n2 :: sh), size (repeated (k2 :: KK) (n2 :: sh)), k, n * k) :: dims_of (k2 :: KK) (n2 :: sh)) dy xo yo dx =
      unpool_loop (size (n2 :: sh), size (repeated (k2 :: KK) (n2 :: sh)), k, n * k) (fun cx cy y => unpool_back (dims_of (k2 :: KK) (n2 :: sh)) dy cx cy y) xo yo dx) by (rewrite dims_cons; reflexivity).
    rewrite E, unpool_loop_ok by assumption. change (repeated (k :: k2 :: KK) (n :: n2 :: sh)) with (n * k :: repeated (k2 :: KK) (n2 :: sh)). rewrite loop_cons.
    apply loop_ext. intros i a _. rewrite IH by (assumption || discriminate). apply loop_ext. intros idx b _.
    change (off (divided (k :: k2 :: KK) (i :: idx)) (n :: n2 :: sh)) with (i / k * size (n2 :: sh) + off (divided (k2 :: KK) idx) (n2 :: sh)).
    change (off (i :: idx) (n * k :: repeated (k2 :: KK) (n2 :: sh))) with (i * size (repeated (k2 :: KK) (n2 :: sh)) + off idx (repeated (k2 :: KK) (n2 :: sh))).
    rewrite !Z.add_assoc. reflexivity.
Qed.

Lemma divided_inside : forall KK sh idx, length KK = length sh -> positive KK -> inside idx (repeated KK sh) -> inside (divided KK idx) sh.
Proof.
  induction KK as [| k KK IH]; intros [| n sh] idx L PK I; try discriminate; inversion I; subst; [constructor |]. injection L as L. inversion PK; subst. constructor; [| apply IH; assumption].
  split; [apply Z.div_pos; lia | apply Z.div_lt_upper_bound; lia].
Qed.
Lemma repeated_nonneg : forall KK sh, positive KK -> nonneg sh -> nonneg (repeated KK sh).
Proof. induction KK as [| k KK IH]; intros [| n sh] PK NS; try constructor; inversion PK; inversion NS; subst; [nia | apply IH; assumption]. Qed.
Section Unpool.
Variables A S K : list Z.
Hypothesis NA : nonneg A.
Hypothesis NS : nonneg S.
Hypothesis PK : positive K.
Hypothesis LK : length K = length S.
Hypothesis NE : A ++ S <> [].
Local Notation KK := (repeat 1 (length A) ++ K).
Local Notation sh := (A ++ S).
Local Notation out := (A ++ repeated K S).
Lemma ones_repeated : forall B T L : list Z, length L = length T -> repeated (repeat 1 (length B) ++ L) (B ++ T) = B ++ repeated L T.
Proof using. induction B as [| b B IH]; intros T L E; [reflexivity |]. cbn [length repeat app repeated]. rewrite IH by exact E. rewrite Z.mul_1_r. reflexivity. Qed.
Lemma ones_divided : forall B L a j : list Z, length a = length B -> divided (repeat 1 (length B) ++ L) (a ++ j) = a ++ divided L j.
Proof using. induction B as [| b B IH]; intros L [| i a] j E; try discriminate; [reflexivity |]. injection E as E. cbn [length repeat app divided]. rewrite IH by exact E. rewrite Z.div_1_r. reflexivity. Qed.
Lemma kk_pos : positive KK.
Proof using PK LK. apply Forall_app. split; [| exact PK]. apply Forall_forall. intros x X. apply repeat_spec in X. lia. Qed.
Lemma kk_length : length KK = length sh.
Proof using LK. rewrite !app_length, repeat_length. lia. Qed.
Lemma unpool_setup_ok : unpool_setup K sh = Some out /\ unpool_dims K sh out = dims_of KK sh.
Proof using LK.
  assert (EL : (length sh - length K)%nat = length A) by (rewrite app_length; lia).
  unfold unpool_setup, unpool_dims, dims_of. rewrite EL, ones_repeated by exact LK. assert (T : Nat.ltb (length sh) (length K) = false) by (apply Nat.ltb_ge; rewrite app_length; lia). rewrite T.
  split; [| reflexivity]. rewrite skipn_app, skipn_all, Nat.sub_diag, firstn_app, firstn_all, Nat.sub_diag, app_nil_r. cbn [skipn app]. do 2 f_equal.
  clear -LK. revert K LK. induction S as [| n T IH]; intros [| k L] E; try discriminate; [reflexivity |]. injection E as E. cbn [combine map fst snd repeated]. rewrite IH by exact E. reflexivity.
Qed.
Lemma out_nonneg : nonneg out.
Proof using NA NS PK. apply Forall_app. split; [exact NA | apply repeated_nonneg; assumption]. Qed.
Lemma src_bound q : 0 <= q < size out -> within (size sh) (off (divided KK (unoff out q)) sh).
Proof using NA NS PK LK.
  intros B. apply off_bound. destruct (unoff_inside out q out_nonneg B) as (I & _). apply divided_inside; [apply kk_length | apply kk_pos | rewrite ones_repeated by exact LK; exact I].
Qed.
Lemma unpool_forward_ok x y0 : qlen x = size sh -> qlen y0 = size out -> exists y, unpool_forward K sh x y0 = Some y /\ length y = length y0 /\
  forall q, 0 <= q < size out -> qat y q = qat x (off (divided KK (unoff out q)) sh).
Proof using NA NS PK LK NE.
  intros LX LY. unfold unpool_forward. destruct unpool_setup_ok as (-> & E). cbn [obind]. rewrite E, unpool_rec_ok; [| exact NE | apply kk_length | apply kk_pos | apply Forall_app; split; assumption].
  rewrite ones_repeated by exact LK.
  rewrite (loop_ext _ (fun idx y => obind (get x (off (divided KK (unoff out (off idx out))) sh)) (fun v => put y (off idx out) v))) by (intros idx a I; apply indices_in in I; rewrite unoff_off by (exact out_nonneg || exact I); rewrite !Z.add_0_l; reflexivity).
  rewrite <- (loop_indices (fun q y => obind (get x (off (divided KK (unoff out q)) sh)) (fun v => put y q v))) by apply out_nonneg.
  apply (fill_ok (size out) (fun q _ => qat x (off (divided KK (unoff out q)) sh))); [apply size_nonneg; apply out_nonneg | exact LY |].
  intros q a B LA. rewrite get_ok by (rewrite LX; apply src_bound; exact B). reflexivity.
Qed.
Lemma unpool_backward_ok (accum : bool) dy dx0 : qlen dy = size out -> qlen dx0 = size sh -> exists dx, unpool_backward K sh accum dy dx0 = Some dx /\ length dx = length dx0 /\
  forall u, qinner u dx = ((if accum then qinner u dx0 else 0) + zsum (size out) (fun q => qat dy q * qat u (off (divided KK (unoff out q)) sh)))%Qc.
Proof using NA NS PK LK NE.
  intros LY LX. unfold unpool_backward. destruct unpool_setup_ok as (-> & E). cbn [obind]. rewrite E, unpool_back_ok; [| exact NE | apply kk_length | apply kk_pos | apply Forall_app; split; assumption].
  rewrite ones_repeated by exact LK.
  rewrite (loop_ext _ (fun idx dx => obind (get dy (off idx out)) (fun g => obind (get dx (off (divided KK (unoff out (off idx out))) sh)) (fun old => put dx (off (divided KK (unoff out (off idx out))) sh) (old + g)%Qc)))) by (intros idx a I; apply indices_in in I; rewrite unoff_off by (exact out_nonneg || exact I); rewrite !Z.add_0_l; reflexivity).
  rewrite <- (loop_indices (fun q dx => obind (get dy q) (fun g => obind (get dx (off (divided KK (unoff out q)) sh)) (fun old => put dx (off (divided KK (unoff out q)) sh) (old + g)%Qc)))) by apply out_nonneg.
  destruct (gather_adds (size out) (size sh) (fun q => off (divided KK (unoff out q)) sh) dy (cleared accum dx0)) as (dx & E1 & L & V); [apply size_nonneg; apply out_nonneg | exact LY | unfold qlen; rewrite cleared_length; exact LX | apply src_bound |].
  exists dx. split; [exact E1 |]. split; [rewrite L; apply cleared_length |]. intros u. rewrite V, cleared_qinner. reflexivity.
Qed.
End Unpool.
