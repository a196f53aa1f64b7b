(** Deconvolution and its gradients, by positions. *)
From Coq Require Import List ZArith Lia Bool QArith Qcanon.
From Verif Require Import NdModel NdSpec NdProofs IdxModel IdxSpec IdxProofs1 IdxProofs2 IdxProofs3 IdxProofs6 JoinModel JoinSpec JoinProofs JoinProofs2 ScanModel ScanSpec ScanProofs1 ReduceModel ReduceSpec ReduceProofs1 SortProofs2 SortProofs3 ConvModel ConvSpec ConvProofs1 ConvProofs2 ConvProofs3 ConvProofs4 ConvProofs5.
Import ListNotations.
Local Open Scope list_scope.
Local Open Scope Z_scope.

(** The array with a one at [p]. *)
Definition unit_at (n p : Z) : list Qc := map (fun i => if i =? p then 1%Qc else 0%Qc) (upto n).
Lemma unit_length n p : length (unit_at n p) = Z.to_nat n.
Proof. unfold unit_at. rewrite map_length, upto_range, range_length. reflexivity. Qed.
Lemma unit_qat n p i : 0 <= i < n -> qat (unit_at n p) i = if i =? p then 1%Qc else 0%Qc.
Proof.
  intros Hi. unfold qat, unit_at. rewrite (nth_indep _ 0%Qc ((fun i => if i =? p then 1%Qc else 0%Qc) 0)) by (rewrite map_length, upto_range, range_length; lia).
  rewrite (map_nth (fun i => if i =? p then 1%Qc else 0%Qc)). rewrite upto_range, range_nth by lia. rewrite Z.add_0_l, Z2Nat.id by lia. reflexivity.
Qed.
Lemma zsum_hit n p (v : Z -> Qc) : 0 <= p < n -> zsum n (fun i => v i * (if i =? p then 1 else 0))%Qc = v p.
Proof.
  intros Hp. assert (E : forall m, 0 <= m -> zsum m (fun i => v i * (if i =? p then 1 else 0))%Qc = if p <? m then v p else 0%Qc).
  { intros m Hm. rewrite <- (Z2Nat.id m) by auto. induction (Z.to_nat m) as [|k IH]; [rewrite zsum_0; destruct (Z.ltb_spec p (Z.of_nat 0)); [lia|reflexivity]|].
    rewrite Nat2Z.inj_succ. unfold Z.succ. rewrite zsum_S, IH by lia.
    destruct (Z.ltb_spec p (Z.of_nat k)), (Z.eqb_spec (Z.of_nat k) p), (Z.ltb_spec p (Z.of_nat k + 1)); try lia; subst; ring. }
  rewrite E by lia. destruct (Z.ltb_spec p n); [reflexivity|lia].
Qed.
Lemma unit_inner n p a : qlen a = n -> 0 <= p < n -> qinner (unit_at n p) a = qat a p.
Proof.
  intros L Hp. rewrite qinner_zsum by (rewrite unit_length; unfold qlen in L; lia). rewrite L, <- (zsum_hit n p (qat a)) by auto.
  apply zsum_ext. intros i Hi. rewrite unit_qat by auto. ring.
Qed.
Lemma zero_fill_ok2 N base n x : 0 <= base -> 0 <= n -> base + n <= N -> qlen x = N ->
  exists x', zero_fill base n x = Some x' /\ length x' = length x /\ (forall t, 0 <= t < n -> qat x' (base + t) = 0%Qc) /\
    (forall q, 0 <= q -> ~ base <= q < base + n -> qat x' q = qat x q).
Proof.
  intros HB Hn HN L. destruct (writes_ok 0%Qc N (fun i => base + i) (fun _ _ => 0%Qc) (fun i x => put x (base + i) 0%Qc) (upto n)) with (a := x) as (x' & E & L' & V & F); auto.
  - apply nodup_map; [intros; lia|apply upto_nodup].
  - intros i Hi. apply upto_in in Hi. lia.
  - exists x'. split; [exact E|split; [auto|split]].
    + intros t Ht. apply (V t). apply upto_in. auto.
    + intros q Hq Nq. apply F; auto. intros I. apply in_map_iff in I. destruct I as (i & <- & Hi). apply upto_in in Hi. lia.
Qed.

Section core.
Variables (f : conv) (R : Z).
Hypothesis OK : fine f R.
Hypothesis CG : 0 < channels_g f.
Let N := outer f.
Let G := groups f.
Let K := inner_k f.
Let Q := size (shape_o f).
Let I := inner_i f.
Let IO := inner_o f.
Let M := size (shape_i f).
Notation og := (og f).
Notation wpos := (wpos f R).
Notation ypos := (ypos f R).
Notation back := (back f R).

Definition hit (p : option Z) (t : Z) : Qc := match p with Some s => if s =? t then 1%Qc else 0%Qc | None => 0%Qc end.
(** What sample [n] of [y] adds to place [t] of the image. *)
Definition spread (w y : list Qc) (n t : Z) : Qc :=
  zsum G (fun g => zsum K (fun k => zsum Q (fun q => zsum R (fun r => qat w (wpos g r k) * qat y (ypos n g r q))%Qc * hit (og (g * K + k) q) t)%Qc)).
Lemma ci_pos : 0 < channels_i f.
Proof using OK CG. rewrite (f_ci _ _ OK). pose proof (f_g _ _ OK). nia. Qed.
Lemma m_pos : 0 <= M.
Proof using OK. apply size_nonneg. apply (f_i _ _ OK). Qed.
Lemma i_eq : I = channels_i f * M.
Proof using. unfold I, inner_i. rewrite prod_size. reflexivity. Qed.
Lemma map_i_ok : map_i f = Some M.
Proof using OK CG. unfold map_i. fold I. rewrite i_eq, Z.mul_comm. apply divide_mul. pose proof ci_pos. lia. Qed.

Lemma back_unit w y n p : 0 <= n < N -> 0 <= p < N * I -> back w y (unit_at (N * I) p) n = if (n * I <=? p) && (p <? (n + 1) * I) then spread w y n (p - n * I) else 0%Qc.
Proof using OK.
  intros Hn Hp. pose proof (i_pos f R OK) as IP. fold I in IP.
  transitivity (zsum G (fun g => zsum K (fun k => zsum Q (fun q => zsum R (fun r => qat w (wpos g r k) * qat y (ypos n g r q))%Qc * (if (n * I <=? p)%Z && (p <? (n + 1) * I)%Z then hit (og (g * K + k)%Z q) (p - n * I)%Z else 0))%Qc))).
  - unfold ConvProofs5.back. fold G K Q. apply zsum_ext. intros g Hg. apply zsum_ext. intros k Hk. apply zsum_ext. intros q Hq. f_equal. fold K I.
    destruct (og (g * K + k) q) as [t|] eqn:Eo; cbn [val hit]; [|destruct (_ && _); reflexivity].
    apply (og_bound f R OK) in Eo; [|apply (row_in f); auto|auto]. unfold within in Eo. fold I in Eo.
    rewrite unit_qat by nia. destruct (Z.leb_spec (n * I) p), (Z.ltb_spec p ((n + 1) * I)); cbn [andb].
    + destruct (Z.eqb_spec (n * I + t) p), (Z.eqb_spec t (p - n * I)); try lia; reflexivity.
    + destruct (Z.eqb_spec (n * I + t) p); [lia|reflexivity].
    + destruct (Z.eqb_spec (n * I + t) p); [lia|reflexivity].
    + lia.
  - destruct (_ && _); [reflexivity|]. apply zsum_zero. intros g _. apply zsum_zero. intros k _. apply zsum_zero. intros q _. ring.
Qed.

Lemma deconv_forward_ok y w b col x0 : qlen y = N * IO -> qlen w = G * R * K -> qlen col = G * K * Q -> qlen x0 = N * I ->
  match b with Some b => qlen b = channels_i f | None => True end ->
  exists x, deconv_forward f y w b col x0 = Some x /\ length x = length x0 /\
    forall n c i, 0 <= n < N -> 0 <= c < channels_i f -> 0 <= i < M -> qat x (n * I + c * M + i) = (spread w y n (c * M + i) + bias_at b c)%Qc.
Proof using OK CG.
  intros Ly Lw Lc Lx Lb. pose proof (i_pos f R OK) as IP. fold I in IP. pose proof m_pos as MP. pose proof i_eq as EI. pose proof ci_pos as CP.
  unfold deconv_forward. fold N.
  match goal with |- context [loop ?F (upto N) _] => destruct (loop_inv (fun m s => qlen (fst s) = G * K * Q /\ length (snd s) = length x0 /\
    forall n c i, 0 <= n < m -> 0 <= c < channels_i f -> 0 <= i < M -> qat (snd s) (n * I + c * M + i) = (spread w y n (c * M + i)%Z + bias_at b c)%Qc) F N) with (s := (col, x0)) as ((c', x') & E & L1 & L2 & V) end.
  - apply (f_outer _ _ OK).
  - intros m (c, x) Hm (L1 & L2 & V). cbn [fst snd] in *.
    destruct (zero_fill_ok2 (N * I) (m * I) I x) as (x1 & E1 & Lx1 & Z1 & F1); [nia|auto|nia|unfold qlen in *; lia|].
    destruct (image_ok f R OK w y m c x1 (m * I)) as (c1 & x2 & E2 & Lc1 & E3 & Lx2 & M2); auto; try (unfold qlen in *; lia).
    assert (P2 : forall p, 0 <= p < N * I -> qat x2 p = (qat x1 p + if (m * I <=? p)%Z && (p <? (m + 1) * I)%Z then spread w y m (p - m * I)%Z else 0)%Qc).
    { intros p Hp. rewrite <- (unit_inner (N * I) p x2), <- (unit_inner (N * I) p x1) by (auto; unfold qlen in *; lia). rewrite M2. f_equal. apply back_unit; auto. }
    rewrite E2. cbn [obind]. fold I. rewrite E1. cbn [obind]. rewrite E3. cbn [obind].
    assert (X : exists x3, (match b with Some b => obind (map_i f) (fun m0 => add_column (channels_i f) m0 b (m * I) x2) | None => Some x2 end) = Some x3 /\ length x3 = length x2 /\
      (forall ch i, 0 <= ch < channels_i f -> 0 <= i < M -> qat x3 (m * I + ch * M + i) = (qat x2 (m * I + ch * M + i)%Z + bias_at b ch)%Qc) /\
      (forall p, 0 <= p -> ~ m * I <= p < (m + 1) * I -> qat x3 p = qat x2 p)).
    { destruct b as [b|]; [|exists x2; repeat split; auto; intros; cbn [bias_at]; ring].
      destruct (add_column_ok (N * I) (channels_i f) M b (m * I) x2) as (x3 & E4 & L4 & V4 & F4); auto; try lia; try nia; try (unfold qlen in *; lia).
      exists x3. rewrite map_i_ok. cbn [obind]. split; [exact E4|split; [auto|split]].
      - intros ch i A B. cbn [bias_at]. apply V4; auto.
      - intros p Hp Np. apply F4; auto. rewrite <- EI. lia. }
    destruct X as (x3 & E4 & L4 & V4 & F4). rewrite E4. cbn [obind]. exists (c1, x3). split; [reflexivity|]. cbn [fst snd].
    split; [unfold qlen in *; lia|split; [lia|]]. intros n ch i A B C.
    assert (B1 : 0 <= ch * M + i < I) by (rewrite EI; nia). assert (B2 : 0 <= n * I) by nia. assert (B4 : (m + 1) * I <= N * I) by nia.
    destruct (Z.eq_dec n m) as [->|Ne].
    + rewrite V4, P2 by lia. replace (m * I + ch * M + i) with (m * I + (ch * M + i)) by ring. rewrite Z1 by auto.
      destruct (Z.leb_spec (m * I) (m * I + (ch * M + i))); [|lia]. destruct (Z.ltb_spec (m * I + (ch * M + i)) ((m + 1) * I)); [|lia]. cbn [andb].
      replace (m * I + (ch * M + i) - m * I) with (ch * M + i) by ring. ring.
    + assert (B3 : (n + 1) * I <= m * I) by nia. rewrite F4 by lia. rewrite P2 by lia.
      destruct (Z.leb_spec (m * I) (n * I + ch * M + i)); [lia|]. cbn [andb]. rewrite F1 by lia. rewrite Qcplus_0_r. apply V; auto. lia.
  - cbn [fst snd]. split; [auto|split; [auto|]]. intros. lia.
  - rewrite E. cbn [obind]. exists x'. auto.
Qed.

(** Weighted sum of an image. *)
Lemma zsum_val u n p : 0 <= n < N -> (forall t, p = Some t -> within I t) -> zsum I (fun t => qat u (n * I + t) * hit p t)%Qc = val u (n * I) p.
Proof using.
  intros Hn B. destruct p as [s|]; cbn [hit val].
  - specialize (B s eq_refl). rewrite <- (zsum_hit I s (fun t => qat u (n * I + t))) by exact B. apply zsum_ext. intros t _. rewrite (Z.eqb_sym s t). reflexivity.
  - apply zsum_zero. intros. ring.
Qed.
Lemma inner_x u w y x : qlen u = N * I -> qlen x = N * I ->
  (forall n c i, 0 <= n < N -> 0 <= c < channels_i f -> 0 <= i < M -> qat x (n * I + c * M + i) = spread w y n (c * M + i)) ->
  qinner u x = zsum N (back w y u).
Proof using OK CG.
  intros Lu Lx V. pose proof (i_pos f R OK) as IP. fold I in IP. pose proof (f_outer _ _ OK) as NP. fold N in NP. pose proof m_pos as MP. pose proof ci_pos as CP. pose proof i_eq as EI.
  rewrite qinner_zsum by (unfold qlen in *; lia). rewrite Lx, zsum_mul by auto. apply zsum_ext. intros n Hn.
  transitivity (zsum I (fun t => qat u (n * I + t) * spread w y n t)%Qc).
  - rewrite EI, !zsum_mul by lia. rewrite <- EI. apply zsum_ext. intros c Hc. apply zsum_ext. intros i Hi. rewrite <- V by auto. rewrite !Z.add_assoc. reflexivity.
  - unfold spread, ConvProofs5.back. fold G K Q I.
    rewrite (zsum_ext I _ (fun t => zsum G (fun g => zsum K (fun k => zsum Q (fun q => zsum R (fun r => qat w (wpos g r k) * qat y (ypos n g r q))%Qc * (qat u (n * I + t)%Z * hit (og (g * K + k)%Z q) t))%Qc)))).
    2:{ intros t _. rewrite <- zsum_scale. apply zsum_ext. intros g _. rewrite <- zsum_scale. apply zsum_ext. intros k _. rewrite <- zsum_scale. apply zsum_ext. intros q _. ring. }
    rewrite (zsum_swap I G). apply zsum_ext. intros g Hg. rewrite (zsum_swap I K). apply zsum_ext. intros k Hk. rewrite (zsum_swap I Q). apply zsum_ext. intros q Hq.
    rewrite zsum_scale. f_equal. apply zsum_val; auto. intros t Et. apply (og_bound f R OK) in Et; auto. apply (row_in f); auto.
Qed.

Definition dyd_is (w dx : list Qc) (gr : grad) (m : Z) (dy : option (list Qc)) : Prop :=
  match gr, dy with
  | Some (accum, dy0), Some d => length d = length dy0 /\ (forall n g r q, 0 <= n < m -> 0 <= g < G -> 0 <= r < R -> 0 <= q < Q ->
      qat d (ypos n g r q) = ((if accum then qat dy0 (ypos n g r q) else 0) + zsum K (term f R dx w n g r q))%Qc) /\
      (forall p, m * IO <= p -> qat d p = qat dy0 p)
  | None, None => True
  | _, _ => False
  end.
Definition dbd_is (dx : list Qc) (gr : grad) (m : Z) (db : option (list Qc)) : Prop :=
  match gr, db with
  | Some (accum, db0), Some d => length d = length db0 /\ forall c, 0 <= c < channels_i f ->
      qat d c = ((if accum then qat db0 c else 0) + zsum m (fun n => zsum M (fun i => qat dx (n * I + c * M + i)%Z)))%Qc
  | None, None => True
  | _, _ => False
  end.
Lemma deconv_backward_ok y w dx col gy gw gb : qlen y = N * IO -> qlen w = G * R * K -> qlen dx = N * I -> qlen col = G * K * Q ->
  grad_len gy (N * IO) -> grad_len gw (G * R * K) -> grad_len gb (channels_i f) ->
  exists dy dw db, deconv_backward f y w dx col gy gw gb = Some (dy, dw, db) /\ dyd_is w dx gy N dy /\ dw_is f R dx y gw N dw /\ dbd_is dx gb N db.
Proof using OK CG.
  intros Ly Lw Lx Lc LY LW LB. pose proof (q_pos f R OK) as QP. pose proof (k_pos f R OK) as KP. pose proof (f_g _ _ OK) as GP. pose proof (f_R _ _ OK) as RP. pose proof (i_pos f R OK) as IP.
  fold Q in QP. fold K in KP. fold G in GP. fold I in IP. pose proof (io_eq f R OK) as EIO. fold IO G Q in EIO. assert (GRP : 0 <= G * R) by nia. assert (IOP : 0 <= IO) by (rewrite EIO; nia).
  pose proof m_pos as MP. pose proof i_eq as EI. pose proof ci_pos as CP.
  unfold deconv_backward. fold N.
  match goal with |- context [loop ?F (upto N) ?s0] => destruct (loop_inv (fun m s => let '(c, dy, dw, db) := s in qlen c = G * K * Q /\ dyd_is w dx gy m dy /\ dw_is f R dx y gw m dw /\ dbd_is dx gb m db) F N) with (s := s0) as ((((c', dy'), dw'), db') & E & L1 & A1 & A2 & A3) end.
  - apply (f_outer _ _ OK).
  - intros m (((c, dy), dw), db) Hm (L & A1 & A2 & A3).
    assert (X0 : exists c1, (match gy, gw with None, None => Some c | _, _ => unfold_conv f dx (m * inner_i f) c end) = Some c1 /\ qlen c1 = G * K * Q /\
      (gy = None /\ gw = None \/ forall r q, within (G * K) r -> within Q q -> qat c1 (r * Q + q) = val dx (m * I) (og r q))).
    { destruct (unfold_conv_ok f R OK dx (m * I) c) as (c1 & E1 & Lc1 & V1); auto; [fold I; nia|fold I; nia|].
      destruct gy as [p|]; [|destruct gw as [p|]]; [| |exists c; auto]; exists c1; (split; [exact E1|split; [unfold qlen in *; lia|right; exact V1]]). }
    destruct X0 as (c1 & E1 & Lc1 & V1). rewrite E1. cbn [obind].
    assert (X1 : exists dy1, (match gy with
           | Some (accum, _) => on_grad (fun dy => loop (fun g => matmul accum (rows_w f) (inner_k f) (cols_y f) (w_mat f w g) (col_mat f c1 g) (y_off f m g)) (upto (groups f)) dy) dy
           | None => Some dy
           end) = Some dy1 /\ dyd_is w dx gy (m + 1) dy1).
    { destruct gy as [(accum, dy0)|], dy as [d|]; cbn [dyd_is] in A1; try contradiction; [|exists None; auto].
      destruct V1 as [(V1 & _)|V1]; [discriminate|]. destruct A1 as (Ld & Vd & Fd). cbn [grad_len] in LY. cbn [on_grad].
      destruct (product_ok f R OK accum w dx m c1 d) as (d1 & E2 & L2 & V2 & F2); auto; try (unfold qlen in *; lia).
      exists (Some d1). rewrite E2. cbn [obind]. split; [reflexivity|]. split; [lia|split].
      - intros n g r q A B C D.
        assert (B1 : 0 <= (g * R + r) * Q + q < IO) by (rewrite EIO; assert (0 <= g * R + r < G * R) by nia; nia).
        destruct (Z.eq_dec n m) as [->|Ne].
        + rewrite V2 by auto. destruct accum; [|reflexivity]. rewrite Fd; [reflexivity|]. unfold ConvProofs4.ypos. fold IO Q. lia.
        + assert (B2 : (n + 1) * IO <= m * IO) by nia. assert (B3 : 0 <= n * IO) by nia.
          rewrite F2 by (unfold ConvProofs4.ypos; fold IO Q; lia). apply Vd; auto. lia.
      - intros p Hp. assert (0 <= m * IO) by nia. rewrite F2 by (fold IO; lia). apply Fd. lia. }
    destruct X1 as (dy1 & E2 & D1). rewrite E2. cbn [obind].
    assert (X2 : exists dw1, on_grad (fun dw => loop (fun g => matmul true (rows_w f) (cols_y f) (inner_k f) (y_mat f y m g) (transposed_mat (col_mat f c1 g)) (g * rows_w f * inner_k f)) (upto (groups f)) dw) dw = Some dw1 /\ dw_is f R dx y gw (m + 1) dw1).
    { destruct gw as [(accum, dw0)|], dw as [d|]; cbn [dw_is] in A2; try contradiction; [|exists None; auto].
      destruct V1 as [(_ & V1)|V1]; [discriminate|]. destruct A2 as (Ld & Md). cbn [grad_len] in LW. cbn [on_grad].
      destruct (weights_ok f R OK dx y m c1 d) as (d1 & E3 & Ld1 & MM); auto; try (unfold qlen in *; lia).
      exists (Some d1). rewrite E3. cbn [obind]. split; [reflexivity|]. split; [lia|].
      intros g r k A B C. rewrite MM, Md, zsum_S by (auto; lia). ring. }
    destruct X2 as (dw1 & E3 & D2). rewrite E3. cbn [obind].
    assert (X3 : exists db1, on_grad (fun db => obind (map_i f) (fun m0 => add_row_sums (channels_i f) m0 dx (m * inner_i f) db)) db = Some db1 /\ dbd_is dx gb (m + 1) db1).
    { destruct gb as [(accum, db0)|], db as [d|]; cbn [dbd_is] in A3; try contradiction; [|exists None; auto].
      destruct A3 as (Ld & Md). cbn [grad_len] in LB. cbn [on_grad]. rewrite map_i_ok. cbn [obind].
      destruct (add_row_sums_ok (channels_i f) M dx (m * I) d) as (d1 & E4 & Ld1 & MM); auto; try lia; try nia; try (unfold qlen in *; lia).
      fold I. rewrite E4. exists (Some d1). split; [reflexivity|]. split; [lia|].
      intros ch A. rewrite MM, Md, zsum_S by (auto; lia). ring. }
    destruct X3 as (db1 & E4 & D3). rewrite E4. cbn [obind]. eexists. split; [reflexivity|]. cbv beta iota. auto.
  - cbv beta iota. split; [auto|split; [|split]].
    + destruct gy as [(accum, a)|]; cbn [dyd_is]; [|exact Logic.I]. split; [auto|split; [intros; lia|auto]].
    + destruct gw as [(accum, a)|]; cbn [start dw_is]; [|exact Logic.I]. split; [apply cleared_length|]. intros g r k _ _ _. rewrite cleared_qat, zsum_0. ring.
    + destruct gb as [(accum, a)|]; cbn [start dbd_is]; [|exact Logic.I]. split; [apply cleared_length|]. intros g _. rewrite cleared_qat, zsum_0. ring.
  - rewrite E. cbn [obind]. exists dy', dw', db'. auto.
Qed.
End core.
