(** Convolution and its gradients, by positions. *)
From Coq Require Import List ZArith Lia Bool QArith Qcanon.
From Verif Require Import NdModel NdSpec NdProofs IdxModel IdxSpec IdxProofs1 IdxProofs2 IdxProofs3 IdxProofs6 JoinModel JoinSpec JoinProofs JoinProofs2 ScanModel ScanSpec ScanProofs1 ReduceModel ReduceSpec ReduceProofs1 SortProofs2 SortProofs3 ConvModel ConvSpec ConvProofs1 ConvProofs2 ConvProofs3.
Import ListNotations.
Local Open Scope list_scope.
Local Open Scope Z_scope.

Lemma add_column_ok N rows cols b base dst : 0 <= rows -> 0 <= cols -> 0 <= base -> base + rows * cols <= N -> qlen b = rows -> qlen dst = N ->
  exists dst', add_column rows cols b base dst = Some dst' /\ length dst' = length dst /\
    (forall r c, 0 <= r < rows -> 0 <= c < cols -> qat dst' (base + r * cols + c) = (qat dst (base + r * cols + c) + qat b r)%Qc) /\
    (forall q, 0 <= q -> ~ base <= q < base + rows * cols -> qat dst' q = qat dst q).
Proof.
  intros HR HC HB HN LB L. apply (writes2 N rows cols base (fun r c old => (old + qat b r)%Qc)); auto.
  intros r c a Hr Hc La. rewrite (get_ok b) by (unfold within; lia). cbn [obind]. rewrite get_ok; [reflexivity|]. unfold within. rewrite La. nia.
Qed.
Lemma add_row_sums_ok rows cols a base dst : 0 <= rows -> 0 <= cols -> 0 <= base -> base + rows * cols <= qlen a -> qlen dst = rows ->
  exists dst', add_row_sums rows cols a base dst = Some dst' /\ length dst' = length dst /\
    forall r, 0 <= r < rows -> qat dst' r = (qat dst r + zsum cols (fun c => qat a (base + r * cols + c)%Z))%Qc.
Proof.
  intros HR HC HB HN L.
  destruct (writes_ok 0%Qc rows (fun r => r) (fun r old => old + zsum cols (fun c => qat a (base + r * cols + c)%Z))%Qc
    (fun r dst => obind (omap (fun c => get a (base + r * cols + c)) (upto cols)) (fun l => obind (get dst r) (fun old => put dst r (old + sum_list l)%Qc))) (upto rows)) with (a := dst) as (d & E & L' & V & _); auto.
  - rewrite map_id. apply upto_nodup.
  - intros i Hi. apply upto_in in Hi. auto.
  - intros r d Hr Ld. apply upto_in in Hr. rewrite (omap_some _ (fun c => qat a (base + r * cols + c))).
    2:{ intros c Hc. apply upto_in in Hc. apply get_ok. unfold within. nia. }
    cbn [obind]. rewrite sum_list_lsum. change (lsum (map (fun c => qat a (base + r * cols + c)) (upto cols))) with (total (upto cols) (fun c => qat a (base + r * cols + c))). rewrite total_upto.
    rewrite (get_ok d) by (unfold within; unfold glen, qlen in *; lia). reflexivity.
  - exists d. split; [auto|split; [auto|]]. intros r Hr. apply V. apply upto_in. auto.
Qed.

(** What both setups establish. *)
Record fine (f : conv) (R : Z) : Prop := {
  f_outmap : outmap (shape_i f) (kernel f) (pad f) (stride f) (dilation f) = Some (shape_o f);
  f_i : nonneg (shape_i f);
  f_k : nonneg (kernel f);
  f_o : nonneg (shape_o f);
  f_ne : shape_o f <> [];
  f_outer : 0 <= outer f;
  f_g : 0 < groups f;
  f_cg : 0 <= channels_g f;
  f_R : 0 < R;
  f_ci : channels_i f = groups f * channels_g f;
  f_co : channels_o f = groups f * R }.

Section core.
Variables (f : conv) (R : Z).
Hypothesis OK : fine f R.
Let N := outer f.
Let G := groups f.
Let K := inner_k f.
Let Q := size (shape_o f).
Let I := inner_i f.
Let IO := inner_o f.
Definition og : Z -> Z -> option Z := origin (channels_i f) (shape_i f) (kernel f) (pad f) (stride f) (dilation f) (shape_o f).

Lemma r_eq : rows_w f = R.
Proof using OK. unfold rows_w. rewrite (f_co _ _ OK), Z.mul_comm, Z.quot_mul; [reflexivity|]. pose proof (f_g _ _ OK). lia. Qed.
Lemma q_eq : cols_y f = Q.
Proof using OK.
  unfold cols_y, inner_o. rewrite prod_size, Z.mul_comm, Z.quot_mul; [reflexivity|]. rewrite (f_co _ _ OK). pose proof (f_g _ _ OK). pose proof (f_R _ _ OK). nia.
Qed.
Lemma q_pos : 0 <= Q.
Proof using OK. apply size_nonneg. apply (f_o _ _ OK). Qed.
Lemma k_pos : 0 <= K.
Proof using OK. unfold K, inner_k. rewrite prod_size. pose proof (size_nonneg _ (f_k _ _ OK)). pose proof (f_cg _ _ OK). nia. Qed.
Lemma i_pos : 0 <= I.
Proof using OK.
  unfold I, inner_i. rewrite prod_size, (f_ci _ _ OK). pose proof (size_nonneg _ (f_i _ _ OK)). pose proof (f_cg _ _ OK). pose proof (f_g _ _ OK).
  apply Z.mul_nonneg_nonneg; [|auto]. apply Z.mul_nonneg_nonneg; lia.
Qed.
Lemma io_eq : IO = G * R * Q.
Proof using OK. unfold IO, inner_o. rewrite prod_size, (f_co _ _ OK). reflexivity. Qed.
Lemma gk_eq : channels_i f * size (kernel f) = G * K.
Proof using OK. unfold K, inner_k. rewrite prod_size, (f_ci _ _ OK). unfold G. ring. Qed.
Lemma ck_nonneg : nonneg (channels_i f :: kernel f).
Proof using OK. constructor; [|apply (f_k _ _ OK)]. rewrite (f_ci _ _ OK). pose proof (f_cg _ _ OK). pose proof (f_g _ _ OK). nia. Qed.
Lemma og_bound r q t : within (G * K) r -> within Q q -> og r q = Some t -> within I t.
Proof using OK.
  intros Hr Hq E. unfold I, inner_i. rewrite prod_size. rewrite <- gk_eq in Hr.
  eapply (origin_bound (channels_i f)); [exact (f_outmap _ _ OK)|exact ck_nonneg|exact (f_o _ _ OK)|exact Hr|exact Hq|exact E].
Qed.
Lemma unfold_conv_ok x xo col : 0 <= xo -> xo + I <= qlen x -> qlen col = G * K * Q ->
  exists col', unfold_conv f x xo col = Some col' /\ length col' = length col /\
    forall r q, within (G * K) r -> within Q q -> qat col' (r * Q + q) = val x xo (og r q).
Proof using OK.
  intros XO XN L. unfold unfold_conv.
  rewrite (unfold_flat _ _ _ _ _ _ (shape_o f) (f_outmap _ _ OK) ck_nonneg (f_o _ _ OK) (f_ne _ _ OK)). rewrite gk_eq.
  pose proof k_pos. pose proof q_pos. pose proof (f_g _ _ OK).
  apply (unfold_vals og I (G * K) Q); auto; [unfold G; nia|]. exact og_bound.
Qed.
Lemma fold_conv_ok col x xo : 0 <= xo -> xo + I <= qlen x -> qlen col = G * K * Q ->
  exists x', fold_conv f col x xo = Some x' /\ length x' = length x /\
    forall u, qinner u x' = (qinner u x + zsum (G * K) (fun r => zsum Q (fun q => qat col (r * Q + q)%Z * val u xo (og r q))))%Qc.
Proof using OK.
  intros XO XN L. unfold fold_conv.
  rewrite (fold_flat _ _ _ _ _ _ (shape_o f) (f_outmap _ _ OK) ck_nonneg (f_o _ _ OK) (f_ne _ _ OK)). rewrite gk_eq.
  pose proof k_pos. pose proof q_pos. pose proof (f_g _ _ OK).
  apply (fold_vals og I (G * K) Q); auto; [unfold G; nia|]. exact og_bound.
Qed.

(** Positions. *)
Definition wpos (g r k : Z) : Z := (g * R + r) * K + k.
Definition ypos (n g r q : Z) : Z := n * IO + (g * R + r) * Q + q.
Lemma wpos_in g r k : 0 <= g < G -> 0 <= r < R -> 0 <= k < K -> 0 <= wpos g r k < G * R * K.
Proof using. intros A B C. unfold wpos. assert (0 <= g * R + r < G * R) by nia. nia. Qed.
Lemma ypos_in n g r q : 0 <= n < N -> 0 <= g < G -> 0 <= r < R -> 0 <= q < Q -> 0 <= ypos n g r q < N * IO.
Proof using OK.
  intros A B C D. unfold ypos. assert (E : 0 <= g * R + r < G * R) by nia. assert (F : 0 <= (g * R + r) * Q + q < IO) by (rewrite io_eq; nia). nia.
Qed.
Lemma row_in g k : 0 <= g < G -> 0 <= k < K -> within (G * K) (g * K + k).
Proof using. intros. unfold within. nia. Qed.
Lemma w_mat_ok w g r k : qlen w = G * R * K -> 0 <= g < G -> 0 <= r < R -> 0 <= k < K -> w_mat f w g r k = Some (qat w (wpos g r k)).
Proof using OK.
  intros L A B C. unfold w_mat, mat. rewrite r_eq. fold K. replace (g * R * K + r * K + k) with (wpos g r k) by (unfold wpos; ring).
  apply get_ok. unfold within. rewrite L. apply wpos_in; auto.
Qed.
Lemma col_mat_ok col g k q : qlen col = G * K * Q -> 0 <= g < G -> 0 <= k < K -> 0 <= q < Q -> col_mat f col g k q = Some (qat col ((g * K + k) * Q + q)).
Proof using OK.
  intros L A B C. unfold col_mat, mat. rewrite q_eq. fold K. replace (g * K * Q + k * Q + q) with ((g * K + k) * Q + q) by ring.
  apply get_ok. pose proof (row_in g k A B) as D. unfold within in *. rewrite L. nia.
Qed.
Lemma y_mat_ok y n g r q : qlen y = N * IO -> 0 <= n < N -> 0 <= g < G -> 0 <= r < R -> 0 <= q < Q -> y_mat f y n g r q = Some (qat y (ypos n g r q)).
Proof using OK.
  intros L A B C D. unfold y_mat, mat, y_off. rewrite q_eq, r_eq. fold IO. replace (n * IO + g * R * Q + r * Q + q) with (ypos n g r q) by (unfold ypos; ring).
  apply get_ok. unfold within. rewrite L. apply ypos_in; auto.
Qed.

Definition term (x w : list Qc) (n g r q k : Z) : Qc := (qat w (wpos g r k) * val x (n * I) (og (g * K + k) q))%Qc.
Definition bias_at (b : option (list Qc)) (c : Z) : Qc := match b with Some b => qat b c | None => 0%Qc end.

(** One sample of the product with the patch matrix, added or not. *)
Lemma product_ok (accum : bool) w x n col y : 0 <= n < N -> qlen w = G * R * K -> qlen y = N * IO -> qlen col = G * K * Q ->
  (forall r q, within (G * K) r -> within Q q -> qat col (r * Q + q) = val x (n * I) (og r q)) ->
  exists y', loop (fun g => matmul accum (rows_w f) (inner_k f) (cols_y f) (w_mat f w g) (col_mat f col g) (y_off f n g)) (upto (groups f)) y = Some y' /\ length y' = length y /\
    (forall g r q, 0 <= g < G -> 0 <= r < R -> 0 <= q < Q -> qat y' (ypos n g r q) = ((if accum then qat y (ypos n g r q) else 0) + zsum K (term x w n g r q))%Qc) /\
    (forall p, 0 <= p -> ~ n * IO <= p < (n + 1) * IO -> qat y' p = qat y p).
Proof using OK.
  intros Hn Lw Ly Lc V. pose proof q_pos. pose proof (f_g _ _ OK). pose proof (f_R _ _ OK). pose proof io_eq as EIO.
  assert (IOP : 0 <= IO) by (rewrite EIO; unfold G; nia).
  destruct (group_matmul accum (N * IO) G R K Q (w_mat f w) (col_mat f col) (fun g r k => qat w (wpos g r k)) (fun g k q => val x (n * I) (og (g * K + k) q)) (n * IO) y) as (y' & E & L & V' & F); auto; try (unfold G; lia); try nia.
  - intros g r k A B C. apply w_mat_ok; auto.
  - intros g k q A B C. rewrite col_mat_ok by auto. rewrite V by (auto; apply row_in; auto). reflexivity.
  - exists y'. rewrite r_eq, q_eq. fold K G. split; [|split; [auto|split]].
    + rewrite <- E. apply loop_ext. intros g a _. unfold y_off. rewrite r_eq, q_eq. reflexivity.
    + intros g r q A B C. apply (V' g r q A B C).
    + intros p Hp Np. apply F; auto. rewrite <- EIO. lia.
Qed.

Lemma conv_forward_ok x w b col y0 : qlen x = N * I -> qlen w = G * R * K -> qlen col = G * K * Q -> qlen y0 = N * IO ->
  match b with Some b => qlen b = G * R | None => True end ->
  exists y, conv_forward f x w b col y0 = Some y /\ length y = length y0 /\
    forall n g r q, 0 <= n < N -> 0 <= g < G -> 0 <= r < R -> 0 <= q < Q -> qat y (ypos n g r q) = (zsum K (term x w n g r q) + bias_at b (g * R + r))%Qc.
Proof using OK.
  intros Lx Lw Lc Ly Lb. pose proof q_pos as QP. pose proof (f_g _ _ OK) as GP. pose proof (f_R _ _ OK) as RP. pose proof io_eq as EIO. pose proof i_pos as IP.
  assert (GRP : 0 <= G * R) by (unfold G; nia). assert (IOP : 0 <= IO) by (rewrite EIO; nia). unfold conv_forward. fold N.
  match goal with |- context [loop ?F (upto N) _] => destruct (loop_inv (fun m s => qlen (fst s) = G * K * Q /\ length (snd s) = length y0 /\
    forall n g r q, 0 <= n < m -> 0 <= g < G -> 0 <= r < R -> 0 <= q < Q -> qat (snd s) (ypos n g r q) = (zsum K (term x w n g r q) + bias_at b (g * R + r)%Z)%Qc) F N) with (s := (col, y0)) as ((c', y') & E & L1 & L2 & V) end.
  - apply (f_outer _ _ OK).
  - intros m (c, y) Hm (L1 & L2 & V). cbn [fst snd] in *.
    destruct (unfold_conv_ok x (m * I) c) as (c1 & E1 & Lc1 & V1); auto; [nia|nia|]. fold I. rewrite E1. cbn [obind].
    destruct (product_ok false w x m c1 y) as (y1 & E2 & Ly1 & V2 & F2); auto; try (unfold qlen in *; lia). rewrite E2. cbn [obind].
    assert (X : exists y2, (match b with Some b => add_column (channels_o f) (cols_y f) b (m * inner_o f) y1 | None => Some y1 end) = Some y2 /\ length y2 = length y1 /\
      (forall g r q, 0 <= g < G -> 0 <= r < R -> 0 <= q < Q -> qat y2 (ypos m g r q) = (qat y1 (ypos m g r q) + bias_at b (g * R + r)%Z)%Qc) /\
      (forall p, 0 <= p -> ~ m * IO <= p < (m + 1) * IO -> qat y2 p = qat y1 p)).
    { destruct b as [b|]; [|exists y1; repeat split; auto; intros; cbn [bias_at]; ring].
      destruct (add_column_ok (N * IO) (G * R) Q b (m * IO) y1) as (y2 & E3 & L3 & V3 & F3); auto; try nia; try (unfold qlen in *; lia).
      exists y2. rewrite (f_co _ _ OK), q_eq. split; [exact E3|split; [auto|split]].
      - intros g r q A B C. cbn [bias_at]. apply (V3 (g * R + r) q); auto. nia.
      - intros p Hp Np. apply F3; auto. rewrite <- EIO. lia. }
    destruct X as (y2 & E3 & L3 & V3 & F3). rewrite E3. cbn [obind]. exists (c1, y2). split; [reflexivity|]. cbn [fst snd].
    split; [unfold qlen in *; lia|split; [lia|]]. intros n g r q A B C D.
    assert (B1 : 0 <= (g * R + r) * Q + q < IO) by (rewrite EIO; assert (0 <= g * R + r < G * R) by nia; nia).
    destruct (Z.eq_dec n m) as [->|Ne].
    + rewrite V3, V2 by auto. ring.
    + assert (B2 : (n + 1) * IO <= m * IO) by nia. assert (B3 : 0 <= n * IO) by nia.
      rewrite F3, F2 by (unfold ypos; lia). apply V; auto. lia.
  - cbn [fst snd]. split; [auto|split; [auto|]]. intros. lia.
  - rewrite E. cbn [obind]. exists y'. auto.
Qed.
End core.
