(** The gradients of Convolution, by positions. *)
From Coq Require Import List ZArith Lia Bool QArith Qcanon.
From Verif Require Import NdModel NdSpec NdProofs IdxModel IdxSpec IdxProofs1 IdxProofs2 IdxProofs3 IdxProofs6 JoinModel JoinSpec JoinProofs JoinProofs2 ScanModel ScanSpec ScanProofs1 ReduceModel ReduceSpec ReduceProofs1 SortProofs2 SortProofs3 ConvModel ConvSpec ConvProofs1 ConvProofs2 ConvProofs3 ConvProofs4.
Import ListNotations.
Local Open Scope list_scope.
Local Open Scope Z_scope.

Section core.
Variables (f : conv) (R : Z).
Hypothesis OK : fine f R.
Let N := outer f.
Let G := groups f.
Let K := inner_k f.
Let Q := size (shape_o f).
Let I := inner_i f.
Let IO := inner_o f.
Notation og := (og f).
Notation wpos := (wpos f R).
Notation ypos := (ypos f R).

(** Weighted with [u], what sample [n] of [dy] adds to the image. *)
Definition back (w dy u : list Qc) (n : Z) : Qc :=
  zsum G (fun g => zsum K (fun k => zsum Q (fun q => zsum R (fun r => qat w (wpos g r k) * qat dy (ypos n g r q))%Qc * val u (n * I) (og (g * K + k) q))%Qc)).

(** The product with the transposed weights, folded. *)
Lemma image_ok w dy n col dx xo : 0 <= n < N -> qlen w = G * R * K -> qlen dy = N * IO -> qlen col = G * K * Q -> xo = n * I -> qlen dx = N * I ->
  exists col' dx', loop (fun g => matmul false (inner_k f) (rows_w f) (cols_y f) (transposed_mat (w_mat f w g)) (y_mat f dy n g) (g * inner_k f * cols_y f)) (upto (groups f)) col = Some col' /\
    length col' = length col /\ fold_conv f col' dx xo = Some dx' /\ length dx' = length dx /\ forall u, qinner u dx' = (qinner u dx + back w dy u n)%Qc.
Proof using OK.
  intros Hn Lw Ly Lc -> Lx. pose proof (q_pos f R OK) as QP. pose proof (k_pos f R OK) as KP. pose proof (f_g _ _ OK) as GP. pose proof (i_pos f R OK) as IP. fold Q in QP. fold K in KP. fold I in IP. fold G in GP.
  destruct (group_matmul false (G * K * Q) G K R Q (fun g => transposed_mat (w_mat f w g)) (y_mat f dy n) (fun g k r => qat w (wpos g r k)) (fun g r q => qat dy (ypos n g r q)) 0 col) as (c' & E & L & V & _); auto; try lia.
  - intros g k r A B C. unfold transposed_mat. apply (w_mat_ok f R OK); auto.
  - intros g r q A B C. apply (y_mat_ok f R OK); auto.
  - destruct (fold_conv_ok f R OK c' dx (n * I)) as (dx' & E2 & L2 & M); [fold I; nia|fold I; nia|unfold qlen in *; lia|].
    exists c', dx'. split; [|split; [auto|split; [auto|split; [auto|]]]].
    + rewrite (r_eq f R OK), (q_eq f R OK). fold K G Q. rewrite <- E. apply loop_ext. intros g a _. reflexivity.
    + intros u. rewrite M. f_equal. fold G K Q. rewrite zsum_mul by lia. apply zsum_ext. intros g Hg. apply zsum_ext. intros k Hk. apply zsum_ext. intros q Hq.
      specialize (V g k q Hg Hk Hq). cbv iota in V. rewrite Z.add_0_l in V. rewrite V. unfold I. ring.
Qed.
(** The product with the transposed patch matrix, added to the weights. *)
Lemma weights_ok x dy n col dw : 0 <= n < N -> qlen dy = N * IO -> qlen col = G * K * Q -> qlen dw = G * R * K ->
  (forall r q, within (G * K) r -> within Q q -> qat col (r * Q + q) = val x (n * I) (og r q)) ->
  exists dw', loop (fun g => matmul true (rows_w f) (cols_y f) (inner_k f) (y_mat f dy n g) (transposed_mat (col_mat f col g)) (g * rows_w f * inner_k f)) (upto (groups f)) dw = Some dw' /\
    length dw' = length dw /\ forall g r k, 0 <= g < G -> 0 <= r < R -> 0 <= k < K ->
      qat dw' (wpos g r k) = (qat dw (wpos g r k) + zsum Q (fun q => qat dy (ypos n g r q) * val x (n * I) (og (g * K + k) q)))%Qc.
Proof using OK.
  intros Hn Ly Lc Lw VC. pose proof (q_pos f R OK) as QP. pose proof (k_pos f R OK) as KP. pose proof (f_g _ _ OK) as GP. pose proof (f_R _ _ OK) as RP. fold Q in QP. fold K in KP. fold G in GP.
  destruct (group_matmul true (G * R * K) G R Q K (y_mat f dy n) (fun g => transposed_mat (col_mat f col g)) (fun g r q => qat dy (ypos n g r q)) (fun g q k => val x (n * I) (og (g * K + k) q)) 0 dw) as (d' & E & L & V & _); auto; try lia.
  - intros g r q A B C. apply (y_mat_ok f R OK); auto.
  - intros g q k A B C. unfold transposed_mat. rewrite (col_mat_ok f R OK) by auto. fold K Q. rewrite VC by (auto; apply (row_in f); auto). reflexivity.
  - exists d'. split; [|split; [auto|]].
    + rewrite (r_eq f R OK), (q_eq f R OK). fold K G Q. rewrite <- E. apply loop_ext. intros g a _. reflexivity.
    + intros g r k A B C. apply (V g r k A B C).
Qed.

Definition grad_len (g : grad) (n : Z) : Prop := match g with Some (_, a) => qlen a = n | None => True end.
Lemma cleared_length (accum : bool) a : length (cleared accum a) = length a.
Proof. destruct accum; cbn [cleared]; [auto|apply map_length]. Qed.
Lemma cleared_qat (accum : bool) a i : qat (cleared accum a) i = if accum then qat a i else 0%Qc.
Proof. destruct accum; cbn [cleared]; [auto|apply qat_zeros]. Qed.
Lemma qinner_zeros u : forall a : list Qc, qinner u (map (fun _ => 0%Qc) a) = 0%Qc.
Proof. induction u as [|x u IH]; intros [|b a]; cbn [map qinner]; auto. rewrite IH. ring. Qed.
Lemma cleared_qinner (accum : bool) u a : qinner u (cleared accum a) = if accum then qinner u a else 0%Qc.
Proof. destruct accum; cbn [cleared]; [auto|apply qinner_zeros]. Qed.

Definition dx_is (w dy : list Qc) (g : grad) (m : Z) (dx : option (list Qc)) : Prop :=
  match g, dx with
  | Some (accum, dx0), Some d => length d = length dx0 /\ forall u, qinner u d = ((if accum then qinner u dx0 else 0) + zsum m (back w dy u))%Qc
  | None, None => True
  | _, _ => False
  end.
Definition dw_is (x dy : list Qc) (gr : grad) (m : Z) (dw : option (list Qc)) : Prop :=
  match gr, dw with
  | Some (accum, dw0), Some d => length d = length dw0 /\ forall g r k, 0 <= g < G -> 0 <= r < R -> 0 <= k < K ->
      qat d (wpos g r k) = ((if accum then qat dw0 (wpos g r k) else 0) + zsum m (fun n => zsum Q (fun q => qat dy (ypos n g r q) * val x (n * I) (og (g * K + k) q))%Qc))%Qc
  | None, None => True
  | _, _ => False
  end.
Definition db_is (dy : list Qc) (gr : grad) (m : Z) (db : option (list Qc)) : Prop :=
  match gr, db with
  | Some (accum, db0), Some d => length d = length db0 /\ forall g r, 0 <= g < G -> 0 <= r < R ->
      qat d (g * R + r) = ((if accum then qat db0 (g * R + r) else 0) + zsum m (fun n => zsum Q (fun q => qat dy (ypos n g r q))))%Qc
  | None, None => True
  | _, _ => False
  end.

Lemma conv_backward_ok x w dy col gx gw gb : qlen x = N * I -> qlen w = G * R * K -> qlen dy = N * IO -> qlen col = G * K * Q ->
  grad_len gx (N * I) -> grad_len gw (G * R * K) -> grad_len gb (G * R) ->
  exists dx dw db, conv_backward f x w dy col gx gw gb = Some (dx, dw, db) /\ dx_is w dy gx N dx /\ dw_is x dy gw N dw /\ db_is dy gb N db.
Proof using OK.
  intros Lx Lw Ly Lc LX LW LB. pose proof (q_pos f R OK) as QP. pose proof (k_pos f R OK) as KP. pose proof (f_g _ _ OK) as GP. pose proof (f_R _ _ OK) as RP. pose proof (i_pos f R OK) as IP.
  fold Q in QP. fold K in KP. fold G in GP. fold I in IP. pose proof (io_eq f R OK) as EIO. fold IO G Q in EIO. assert (GRP : 0 <= G * R) by nia. assert (IOP : 0 <= IO) by (rewrite EIO; nia).
  unfold conv_backward. fold N.
  match goal with |- context [loop ?F (upto N) _] => destruct (loop_inv (fun m s => let '(c, dx, dw, db) := s in qlen c = G * K * Q /\ dx_is w dy gx m dx /\ dw_is x dy gw m dw /\ db_is dy gb m db) F N) with (s := (col, start gx, start gw, start gb)) as ((((c', dx'), dw'), db') & E & L1 & A1 & A2 & A3) end.
  - apply (f_outer _ _ OK).
  - intros m (((c, dx), dw), db) Hm (L & A1 & A2 & A3).
    assert (X1 : exists c1 dx1, (match dx with
           | Some dx =>
               obind (loop (fun g => matmul false (inner_k f) (rows_w f) (cols_y f) (transposed_mat (w_mat f w g)) (y_mat f dy m g) (g * inner_k f * cols_y f)) (upto (groups f)) c) (fun col =>
               obind (fold_conv f col dx (m * inner_i f)) (fun dx => Some (col, Some dx)))
           | None => Some (c, None)
           end) = Some (c1, dx1) /\ qlen c1 = G * K * Q /\ dx_is w dy gx (m + 1) dx1).
    { destruct gx as [(accum, dx0)|], dx as [d|]; cbn [dx_is] in A1; try contradiction; [|exists c, None; auto].
      destruct A1 as (Ld & Md). cbn [grad_len] in LX.
      destruct (image_ok w dy m c d (m * I)) as (c1 & d1 & E1 & Lc1 & E2 & Ld1 & M); auto; try (unfold qlen in *; lia).
      exists c1, (Some d1). rewrite E1. cbn [obind]. fold I. rewrite E2. split; [reflexivity|split; [unfold qlen in *; lia|]]. split; [lia|].
      intros u. rewrite M, Md, zsum_S by lia. ring. }
    destruct X1 as (c1 & dx1 & E1 & Lc1 & D1). rewrite E1. cbn [obind].
    assert (X2 : exists c2 dw1, (match dw with
           | Some dw =>
               obind (unfold_conv f x (m * inner_i f) c1) (fun col =>
               obind (loop (fun g => matmul true (rows_w f) (cols_y f) (inner_k f) (y_mat f dy m g) (transposed_mat (col_mat f col g)) (g * rows_w f * inner_k f)) (upto (groups f)) dw) (fun dw =>
               Some (col, Some dw)))
           | None => Some (c1, None)
           end) = Some (c2, dw1) /\ qlen c2 = G * K * Q /\ dw_is x dy gw (m + 1) dw1).
    { destruct gw as [(accum, dw0)|], dw as [d|]; cbn [dw_is] in A2; try contradiction; [|exists c1, None; auto].
      destruct A2 as (Ld & Md). cbn [grad_len] in LW.
      destruct (unfold_conv_ok f R OK x (m * I) c1) as (c2 & E2 & Lc2 & V2); auto; [fold I; nia|fold I; nia|].
      destruct (weights_ok x dy m c2 d) as (d1 & E3 & Ld1 & M); auto; try (unfold qlen in *; lia).
      exists c2, (Some d1). fold I. rewrite E2. cbn [obind]. rewrite E3. split; [reflexivity|split; [unfold qlen in *; lia|]]. split; [lia|].
      intros g r k A B C. rewrite M, Md, zsum_S by (auto; lia). ring. }
    destruct X2 as (c2 & dw1 & E2 & Lc2 & D2). rewrite E2. cbn [obind].
    assert (X3 : exists db1, on_grad (add_row_sums (channels_o f) (cols_y f) dy (m * inner_o f)) db = Some db1 /\ db_is dy gb (m + 1) db1).
    { destruct gb as [(accum, db0)|], db as [d|]; cbn [db_is] in A3; try contradiction; [|exists None; auto].
      destruct A3 as (Ld & Md). cbn [grad_len] in LB. cbn [on_grad].
      destruct (add_row_sums_ok (G * R) Q dy (m * IO) d) as (d1 & E3 & Ld1 & M); auto; try nia; try (unfold qlen in *; lia).
      rewrite (f_co _ _ OK), (q_eq f R OK). fold G Q IO. rewrite E3. exists (Some d1). split; [reflexivity|]. split; [lia|].
      intros g r A B. rewrite M by nia. rewrite Md, zsum_S by (auto; lia). rewrite Qcplus_assoc. reflexivity. }
    destruct X3 as (db1 & E3 & D3). rewrite E3. cbn [obind]. eexists. split; [reflexivity|]. cbv beta iota. auto.
  - cbv beta iota. split; [auto|split; [|split]].
    + destruct gx as [(accum, a)|]; cbn [start dx_is]; [|exact Logic.I]. split; [apply cleared_length|]. intros u. rewrite cleared_qinner, zsum_0. ring.
    + destruct gw as [(accum, a)|]; cbn [start dw_is]; [|exact Logic.I]. split; [apply cleared_length|]. intros g r k _ _ _. rewrite cleared_qat, zsum_0. ring.
    + destruct gb as [(accum, a)|]; cbn [start db_is]; [|exact Logic.I]. split; [apply cleared_length|]. intros g r _ _. rewrite cleared_qat, zsum_0. ring.
  - rewrite E. cbn [obind]. exists dx', dw', db'. auto.
Qed.

(** The weighted sum of the output without the bias. *)
Lemma inner_y dy y (T : Z -> Z -> Z -> Z -> Qc) : qlen dy = N * IO -> qlen y = N * IO ->
  (forall n g r q, 0 <= n < N -> 0 <= g < G -> 0 <= r < R -> 0 <= q < Q -> qat y (ypos n g r q) = T n g r q) ->
  qinner dy y = zsum N (fun n => zsum G (fun g => zsum R (fun r => zsum Q (fun q => qat dy (ypos n g r q) * T n g r q)%Qc))).
Proof using OK.
  intros L1 L2 V. pose proof (q_pos f R OK) as QP. pose proof (f_g _ _ OK) as GP. pose proof (f_R _ _ OK) as RP. pose proof (f_outer _ _ OK) as NP. fold Q in QP. fold G in GP. fold N in NP.
  pose proof (io_eq f R OK) as EIO. fold IO G Q in EIO. assert (GRP : 0 <= G * R) by nia. assert (IOP : 0 <= IO) by (rewrite EIO; nia).
  rewrite qinner_zsum by (unfold qlen in *; lia). rewrite L2, zsum_mul by auto. apply zsum_ext. intros n Hn. rewrite EIO at 1.
  rewrite zsum_mul by auto. rewrite zsum_mul by lia. apply zsum_ext. intros g Hg. apply zsum_ext. intros r Hr. apply zsum_ext. intros q Hq.
  rewrite <- V by auto. unfold ConvProofs4.ypos. fold IO Q. rewrite Z.add_assoc. reflexivity.
Qed.
Lemma inner_w w d (T : Z -> Z -> Z -> Qc) : qlen w = G * R * K -> qlen d = G * R * K -> (forall g r k, 0 <= g < G -> 0 <= r < R -> 0 <= k < K -> qat d (wpos g r k) = T g r k) ->
  qinner w d = zsum G (fun g => zsum R (fun r => zsum K (fun k => qat w (wpos g r k) * T g r k)%Qc)).
Proof using OK.
  intros L1 L2 V. pose proof (k_pos f R OK) as KP. pose proof (f_g _ _ OK) as GP. pose proof (f_R _ _ OK) as RP. fold K in KP. fold G in GP.
  rewrite qinner_zsum by (unfold qlen in *; lia). rewrite L2, zsum_mul by nia. rewrite zsum_mul by lia. apply zsum_ext. intros g Hg. apply zsum_ext. intros r Hr. apply zsum_ext. intros k Hk.
  rewrite <- V by auto. reflexivity.
Qed.
(** The same sum, arranged by images. *)
Lemma back_form x w dy n : zsum G (fun g => zsum R (fun r => zsum Q (fun q => qat dy (ypos n g r q) * zsum K (term f R x w n g r q))%Qc)) = back w dy x n.
Proof using.
  unfold back. apply zsum_ext. intros g _.
  rewrite (zsum_ext K _ (fun k => zsum Q (fun q => zsum R (fun r => qat w (wpos g r k) * qat dy (ypos n g r q) * val x (n * I) (og (g * K + k)%Z q))%Qc))).
  2:{ intros k _. apply zsum_ext. intros q _. rewrite zsum_scale_r. reflexivity. }
  rewrite (zsum_swap R Q), (zsum_swap K Q). apply zsum_ext. intros q _. rewrite (zsum_swap K R). apply zsum_ext. intros r _. rewrite <- zsum_scale. apply zsum_ext. intros k _.
  unfold term. fold I K. ring.
Qed.
Lemma weight_form x w dy : zsum G (fun g => zsum R (fun r => zsum K (fun k => qat w (wpos g r k) * zsum N (fun n => zsum Q (fun q => qat dy (ypos n g r q) * val x (n * I) (og (g * K + k)%Z q))%Qc))%Qc)) =
  zsum N (fun n => zsum G (fun g => zsum R (fun r => zsum Q (fun q => qat dy (ypos n g r q) * zsum K (term f R x w n g r q))%Qc))).
Proof using.
  rewrite (zsum_swap N G). apply zsum_ext. intros g _. rewrite (zsum_swap N R). apply zsum_ext. intros r _.
  rewrite (zsum_ext K _ (fun k => zsum N (fun n => zsum Q (fun q => qat w (wpos g r k) * (qat dy (ypos n g r q) * val x (n * I) (og (g * K + k)%Z q)))%Qc))).
  2:{ intros k _. rewrite <- zsum_scale. apply zsum_ext. intros n _. rewrite <- zsum_scale. reflexivity. }
  rewrite (zsum_swap K N). apply zsum_ext. intros n _. rewrite (zsum_swap K Q). apply zsum_ext. intros q _. rewrite <- zsum_scale. apply zsum_ext. intros k _. unfold term. fold I K. ring.
Qed.
End core.
