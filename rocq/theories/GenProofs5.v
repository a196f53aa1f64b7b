(** Proofs about Meshgrid. *)
From Coq Require Import List ZArith Bool Lia QArith Qcanon.
From Verif Require Import NdSpec NdModel NdProofs IdxSpec IdxModel IdxProofs1 IdxProofs2 IdxProofs3 IdxProofs6 JoinModel JoinSpec JoinProofs ScanSpec ScanModel ScanProofs1 ReduceModel ReduceProofs1 ConvSpec ConvModel ConvProofs1 ConvProofs3 MatSpec MatModel BinSpec BinModel BinProofs3 BfaSpec BfaModel BfaProofs1 BfaProofs2 PoolProofs3 GenModel GenSpec GenProofs1 GenProofs4.
From Verif Require MatProps.
Import ListNotations.
Local Open Scope list_scope.
Local Open Scope Z_scope.

Lemma broadcast_backward_ok A C accum dy dx : widens A C -> sizes C -> sizes A -> (length C <= 8)%nat -> has_size dy (size C) -> has_size dx (size A) ->
  exists d, broadcast_backward A C accum dy dx = Some d /\ has_size d (size A) /\
  forall a, inside a A -> qelem d A a = ((if accum then qelem dx A a else 0) + total (filter (fun c => if list_eq_dec Z.eq_dec (picked A c) a then true else false) (indices C)) (qelem dy C))%Qc.
Proof.
  intros W P PA N LY L. destruct (bc_strides_ok A C W (cstrides A) (cstrides_length A)) as (st & E & LS & D).
  unfold broadcast_backward, bc_pairs. pose proof (widens_length A C W) as LA.
  destruct (Nat.leb_spec (length A) (length C)); [| lia]. destruct (Nat.leb_spec (length C) 8); [| lia]. cbn [andb].
  replace (expand_shape A (length C)) with A by (unfold expand_shape; replace (length C - length A)%nat with 0%nat by lia; reflexivity).
  rewrite E. cbn [obind].
  assert (SI : forall c, inside c C -> strided_index (off c C) C st = off (picked A c) A).
  { intros c I. unfold strided_index. pose proof (strided_dot C st c 0 I LS ltac:(lia)) as Q. rewrite Z.mul_0_l, Z.add_0_l in Q. rewrite Q, D, picked_amap by exact I. apply dot_cstrides. apply (widens_inside A C); assumption. }
  rewrite map_map. unfold addq. rewrite <- (loop_map _ (fun i => (strided_index i C st, i))). rewrite prod_size. cbn [fst snd].
  set (d0 := if accum then dx else map (fun _ => 0%Qc) dx). assert (L0 : length d0 = length dx) by (unfold d0; destruct accum; [reflexivity | apply map_length]). pose proof (size_nonneg C P) as HC. unfold has_size in *.
  match goal with |- context [loop ?f (upto (size C)) d0] => destruct (each_added f (fun i => strided_index i C st) (qat dy) (size C) d0 HC) as (d & ED & LD & VD) end.
  - intros i Hi. destruct (unoff_inside C i P Hi) as (I & O). rewrite <- O, SI by exact I. unfold within, qlen. rewrite L0, L. apply off_bound. apply (widens_inside A C); assumption.
  - intros i d Hi _. cbv beta. rewrite (get_ok dy) by (unfold within, qlen; lia). reflexivity.
  - rewrite ED. exists d. split; [reflexivity |]. split; [lia |]. intros a I. pose proof (off_bound _ _ I). rewrite !MatProps.qelem_off by exact I. rewrite VD by lia. f_equal.
    + unfold d0. destruct accum; [reflexivity |]. apply qat_zeroed.
    + rewrite total_filter. symmetry. apply total_indices; [exact P |]. intros c Ic. rewrite SI by exact Ic.
      destruct (list_eq_dec Z.eq_dec (picked A c) a) as [<- | NE].
      * rewrite Z.eqb_refl. apply MatProps.qelem_off. exact Ic.
      * destruct (Z.eqb_spec (off (picked A c) A) (off a A)) as [X |]; [| reflexivity]. destruct NE. apply (off_inj A); auto. apply (widens_inside A C); assumption.
Qed.

(** ** An array that extends along one axis *)
Definition spike (n k : nat) (m : Z) : list Z := set_nth (repeat 1 n) k m.
Lemma set_nth_length l : forall k v, length (set_nth l k v) = length l.
Proof. induction l as [| x l IH]; intros [| k] v; cbn [set_nth length]; auto. Qed.
Lemma ones_widens C : widens (repeat 1 (length C)) C.
Proof. induction C as [| n C IH]; constructor; auto. Qed.
Lemma ones_size n : size (repeat 1 n) = 1.
Proof. induction n as [| n IH]; [reflexivity |]. cbn [repeat size]. rewrite IH. reflexivity. Qed.
Lemma ones_off C c : inside c C -> off (picked (repeat 1 (length C)) c) (repeat 1 (length C)) = 0.
Proof. induction 1 as [| i n c C H I IH]; [reflexivity |]. cbn [length repeat picked off]. change (1 =? 1) with true. cbv iota. cbn [off]. rewrite IH. ring. Qed.
Lemma spike_widens C : forall k, (k < length C)%nat -> widens (spike (length C) k (nth k C 0)) C.
Proof. induction C as [| n C IH]; intros [| k] L; cbn [length] in L; try lia; cbn [length repeat spike set_nth nth]; constructor; auto. - apply ones_widens. - apply IH. lia. Qed.
Lemma spike_size n : forall k m, (k < n)%nat -> size (spike n k m) = m.
Proof. induction n as [| n IH]; intros [| k] m L; try lia; unfold spike; cbn [repeat set_nth size]; [rewrite ones_size; ring |]. fold (spike n k m). rewrite IH by lia. ring. Qed.
Lemma spike_off C c : inside c C -> forall k, (k < length C)%nat -> off (picked (spike (length C) k (nth k C 0)) c) (spike (length C) k (nth k C 0)) = nth k c 0.
Proof.
  induction 1 as [| i n c C H I IH]; intros k L; cbn [length] in L; [lia |]. destruct k as [| k]; unfold spike; cbn [length repeat set_nth nth picked off].
  - rewrite ones_off by exact I. rewrite ones_size. destruct (Z.eqb_spec n 1); lia.
  - change (1 =? 1) with true. cbv iota. cbn [off]. fold (spike (length C) k (nth k C 0)). rewrite IH by lia. ring.
Qed.
Lemma spike_sizes C k : sizes C -> (k < length C)%nat -> sizes (spike (length C) k (nth k C 0)).
Proof.
  intros P L. pose proof (spike_widens C k L) as W. clear L. revert P W. generalize (spike (length C) k (nth k C 0)) as A. intros A P W. induction W as [| a n A C H W IH]; [constructor |]. inversion P; subst. constructor; [destruct H; lia |]. apply IH. assumption.
Qed.

(** ** Shapes *)
Lemma mesh_axis_own ij n i : (i < n)%nat -> mesh_axis ij n i = own_axis ij n i.
Proof.
  intros H. unfold mesh_axis, own_axis. destruct ij; cbn [negb andb]; [reflexivity |]. destruct (Nat.leb_spec n 1), (Nat.ltb_spec 1 n); try lia; rewrite ?andb_false_r, ?andb_true_r; [reflexivity |].
  destruct i as [| [| i]]; reflexivity.
Qed.
Lemma own_axis_lt ij n i : (i < n)%nat -> (own_axis ij n i < n)%nat.
Proof. intros H. unfold own_axis. destruct ij; [exact H |]. destruct (Nat.leb_spec n 1); [exact H |]. destruct i as [| [| i]]; lia. Qed.
Lemma grid_length ij ms : length (grid ij ms) = length ms.
Proof. destruct ij, ms as [| a [| b ms]]; reflexivity. Qed.
Lemma grid_nth ij ms i : (i < length ms)%nat -> nth (own_axis ij (length ms) i) (grid ij ms) 0 = nth i ms 0.
Proof. intros H. unfold own_axis, grid. destruct ij; [reflexivity |]. destruct ms as [| a [| b ms]]; try reflexivity. cbn [length Nat.leb]. destruct i as [| [| i]]; reflexivity. Qed.
Lemma grid_sizes ij ms : sizes ms -> sizes (grid ij ms).
Proof. intros P. unfold grid. destruct ij; [exact P |]. destruct ms as [| a [| b ms]]; try exact P. inversion P as [| ? ? Ha P2]; subst. inversion P2; subst. repeat constructor; auto. Qed.

Lemma set_nth_mid A x B v : set_nth (A ++ x :: B) (length A) v = A ++ v :: B.
Proof. induction A as [| a A IH]; [reflexivity |]. cbn [app length set_nth]. rewrite IH. reflexivity. Qed.
Lemma mesh_out_tail ij n ms : forall i A B, (forall k, (i <= k)%nat -> mesh_axis ij n k = k) -> length A = i -> length B = length ms ->
  mesh_out ij n i (map (fun m => [m]) ms) (A ++ B) = Some (A ++ ms).
Proof.
  induction ms as [| m ms IH]; intros i A B H LA LB; (destruct B as [| x B]; try discriminate); [reflexivity |]. cbn [map mesh_out]. rewrite H, <- LA, set_nth_mid by lia.
  replace (A ++ m :: B) with ((A ++ [m]) ++ B) by (rewrite <- app_assoc; reflexivity). rewrite LA, (IH (S i)); [rewrite <- app_assoc; reflexivity | intros k Hk; apply H; lia | rewrite app_length; cbn [length]; lia | cbn in LB; lia].
Qed.
Lemma mesh_shape_ok ij ms : mesh_shape ij (map (fun m => [m]) ms) = Some (grid ij ms).
Proof.
  unfold mesh_shape. rewrite map_length. assert (T : ij = true \/ (length ms <= 1)%nat -> mesh_out ij (length ms) 0 (map (fun m => [m]) ms) (repeat 1 (length ms)) = Some ms).
  { intros H. apply (mesh_out_tail ij (length ms) ms 0 [] (repeat 1 (length ms))); [| reflexivity | apply repeat_length]. intros k _. unfold mesh_axis. destruct H as [-> | H]; [reflexivity |]. destruct (Nat.ltb_spec 1 (length ms)); [lia |]. rewrite andb_false_r. reflexivity. }
  destruct ij; [apply T; auto |]. destruct ms as [| a [| b ms]]; [apply T; cbn; lia | apply T; cbn; lia |]. cbn [grid length map mesh_out]. unfold mesh_axis at 1. cbn [negb Nat.eqb orb andb Nat.ltb Nat.leb]. cbn [repeat set_nth Nat.sub].
  unfold mesh_axis at 1. cbn [negb Nat.eqb orb andb Nat.ltb Nat.leb Nat.sub set_nth]. apply (mesh_out_tail false (S (S (length ms))) ms 2 [b; a] (repeat 1 (length ms))); [| reflexivity | apply repeat_length].
  intros k Hk. unfold mesh_axis. destruct (Nat.eqb_spec k 0), (Nat.eqb_spec k 1); try lia. reflexivity.
Qed.

(** ** Values *)
Definition axis_of (x : list Qc) : nd := ([Z.of_nat (length x)], x).
Lemma mesh_each_ok junk ij n C xs : forall i, (n <= 8)%nat -> length C = n -> sizes C -> (i + length xs <= n)%nat ->
  (forall k, (k < length xs)%nat -> nth (own_axis ij n (i + k)) C 0 = Z.of_nat (length (nth k xs []))) ->
  exists ys, mesh_each junk ij n i C (map axis_of xs) = Some (map (fun y => (C, y)) ys) /\ length ys = length xs /\
  forall k, (k < length xs)%nat -> has_size (nth k ys []) (size C) /\ forall c, inside c C -> qelem (nth k ys []) C c = nth (Z.to_nat (nth (own_axis ij n (i + k)) c 0)) (nth k xs []) 0%Qc.
Proof.
  induction xs as [| x xs IH]; intros i N8 LC PC LI H; [exists []; split; [reflexivity |]; split; [reflexivity |]; intros k Hk; cbn in Hk; lia |].
  cbn [map mesh_each axis_of fst snd]. cbn [length] in LI. unfold mesh_in. rewrite mesh_axis_own by lia. replace (prod [Z.of_nat (length x)]) with (Z.of_nat (length x)) by (rewrite prod_size; cbn [size]; ring).
  pose proof (own_axis_lt ij n i ltac:(lia)) as OL. pose proof (H 0%nat ltac:(cbn; lia)) as H0. rewrite Nat.add_0_r in H0. cbn [nth] in H0. set (k := own_axis ij n i) in *.
  assert (SP : set_nth (repeat 1 n) k (Z.of_nat (length x)) = spike (length C) k (nth k C 0)) by (rewrite H0, LC; reflexivity). rewrite SP.
  assert (SS : size (spike (length C) k (nth k C 0)) = Z.of_nat (length x)) by (rewrite spike_size by lia; exact H0).
  destruct (broadcast_ok junk (spike (length C) k (nth k C 0)) C x (spike_widens C k ltac:(lia)) PC ltac:(lia)) as (y & E & L & V); [unfold has_size; lia |]. rewrite E. cbn [obind].
  destruct (IH (S i) N8 LC PC ltac:(lia)) as (ys & E2 & L2 & V2); [intros j Hj; specialize (H (S j) ltac:(cbn; lia)); replace (S i + j)%nat with (i + S j)%nat by lia; exact H |].
  rewrite E2. cbn [obind]. exists (y :: ys). split; [reflexivity |]. split; [cbn [length]; congruence |]. intros [| j] Hj.
  - rewrite Nat.add_0_r. fold k. cbn [nth]. split; [exact L |]. intros c I. rewrite V by exact I. rewrite MatProps.qelem_off by (apply (widens_inside _ C); [apply spike_widens; lia | exact I]). rewrite spike_off by (auto; lia). reflexivity.
  - cbn [nth]. replace (i + S j)%nat with (S i + j)%nat by lia. apply V2. cbn in Hj. lia.
Qed.
Lemma nth_map_len {X} (xs : list (list X)) i : (i < length xs)%nat -> nth i (map (fun x => Z.of_nat (length x)) xs) 0 = Z.of_nat (length (nth i xs [])).
Proof. intros H. change 0 with ((fun x : list X => Z.of_nat (length x)) []). apply (map_nth (fun x : list X => Z.of_nat (length x))). Qed.
Lemma lens_sizes {X} (xs : list (list X)) : sizes (map (fun x => Z.of_nat (length x)) xs).
Proof. apply Forall_forall. intros m H. apply in_map_iff in H as (x & <- & _). lia. Qed.
Lemma meshgrid_ok junk ij xs : (length xs <= 8)%nat -> let C := grid ij (map (fun x => Z.of_nat (length x)) xs) in
  exists ys, meshgrid junk ij (map axis_of xs) = Some (map (fun y => (C, y)) ys) /\ length ys = length xs /\
  forall i, (i < length xs)%nat -> has_size (nth i ys []) (size C) /\ forall c, inside c C -> qelem (nth i ys []) C c = nth (Z.to_nat (nth (own_axis ij (length xs) i) c 0)) (nth i xs []) 0%Qc.
Proof.
  intros N C. unfold meshgrid. rewrite map_map. cbn [axis_of fst]. replace (map (fun x => [Z.of_nat (length x)]) xs) with (map (fun m => [m]) (map (fun x : list Qc => Z.of_nat (length x)) xs)) by (rewrite map_map; reflexivity).
  rewrite mesh_shape_ok. cbn [obind]. fold C. rewrite map_length. apply (mesh_each_ok junk ij (length xs) C xs 0); [exact N | unfold C; rewrite grid_length, map_length; reflexivity | apply grid_sizes, lens_sizes | lia |].
  intros k Hk. cbn [Nat.add]. unfold C. rewrite <- (map_length (fun x : list Qc => Z.of_nat (length x)) xs) at 1. rewrite grid_nth by (rewrite map_length; exact Hk). apply nth_map_len. exact Hk.
Qed.

(** ** Gradients *)
Lemma slab_picked C k (f : list Z -> Qc) j : sizes C -> (k < length C)%nat -> 0 <= j < nth k C 0 ->
  let A := spike (length C) k (nth k C 0) in let a := unoff A j in
  total (filter (fun c => if list_eq_dec Z.eq_dec (picked A c) a then true else false) (indices C)) f = total (slab C k j) f.
Proof.
  intros P L Hj A a. assert (PA : nonneg A) by (apply spike_sizes; assumption). assert (SA : size A = nth k C 0) by (apply spike_size; exact L). destruct (unoff_inside A j PA ltac:(lia)) as (Ia & Oa). fold a in Ia, Oa.
  unfold slab. f_equal. apply filter_ext_in. intros c Hc. apply indices_in in Hc. pose proof (widens_inside A C c (spike_widens C k L) Hc) as IP. pose proof (spike_off C c Hc k L) as SO. fold A in SO.
  destruct (list_eq_dec Z.eq_dec (picked A c) a) as [E | NE]; symmetry.
  - apply Z.eqb_eq. rewrite <- SO, E. exact Oa.
  - apply Z.eqb_neq. intros C1. apply NE. apply (off_inj A); auto. congruence.
Qed.
Lemma mesh_back_ok ij n C dys dxs : forall i, (n <= 8)%nat -> length C = n -> sizes C -> (i + length dxs <= n)%nat -> length dys = n -> Forall (fun dy => has_size dy (size C)) dys ->
  (forall k, (k < length dxs)%nat -> nth (own_axis ij n (i + k)) C 0 = Z.of_nat (length (snd (nth k dxs (false, false, []))))) ->
  exists ds, mesh_back ij n i C dys dxs = Some ds /\ length ds = length dxs /\
  forall k, (k < length dxs)%nat -> let '(want, accum, dx) := nth k dxs (false, false, []) in
    if want : bool then length (nth k ds []) = length dx /\ forall j, 0 <= j < Z.of_nat (length dx) -> qat (nth k ds []) j = ((if accum then qat dx j else 0) + total (slab C (own_axis ij n (i + k)) j) (qelem (nth (i + k) dys []) C))%Qc
    else nth k ds [] = dx.
Proof.
  induction dxs as [| ((want, accum), dx) dxs IH]; intros i N8 LC PC LI LD FD H; [exists []; split; [reflexivity |]; split; [reflexivity |]; intros k Hk; cbn in Hk; lia |].
  cbn [mesh_back]. cbn [length] in LI. assert (NE : nth_error dys i = Some (nth i dys [])) by (apply nth_error_nth'; lia). rewrite NE. cbn [obind].
  pose proof (own_axis_lt ij n i ltac:(lia)) as OL. pose proof (H 0%nat ltac:(cbn; lia)) as H0. rewrite Nat.add_0_r in H0. cbn [nth snd] in H0.
  destruct (IH (S i) N8 LC PC ltac:(lia) LD FD) as (ds & E2 & L2 & V2); [intros j Hj; specialize (H (S j) ltac:(cbn; lia)); replace (S i + j)%nat with (i + S j)%nat by lia; exact H |].
  assert (D : exists d, (if want then broadcast_backward (mesh_in ij n i (Z.of_nat (length dx))) C accum (nth i dys []) dx else Some dx) = Some d /\
    if want then length d = length dx /\ forall j, 0 <= j < Z.of_nat (length dx) -> qat d j = ((if accum then qat dx j else 0) + total (slab C (own_axis ij n i) j) (qelem (nth i dys []) C))%Qc else d = dx).
  { destruct want; [| eauto]. unfold mesh_in. rewrite mesh_axis_own by lia. set (k := own_axis ij n i) in *.
    assert (SP : set_nth (repeat 1 n) k (Z.of_nat (length dx)) = spike (length C) k (nth k C 0)) by (rewrite H0, LC; reflexivity). rewrite SP. set (A := spike (length C) k (nth k C 0)).
    assert (SS : size A = Z.of_nat (length dx)) by (unfold A; rewrite spike_size by lia; exact H0). assert (PA : sizes A) by (apply spike_sizes; [exact PC | lia]).
    destruct (broadcast_backward_ok A C accum (nth i dys []) dx (spike_widens C k ltac:(lia)) PC PA ltac:(lia)) as (d & E & L & V); [apply (proj1 (Forall_forall _ _) FD); apply nth_In; lia | unfold has_size; lia |].
    exists d. split; [exact E |]. unfold has_size in L. split; [lia |]. intros j Hj. destruct (unoff_inside A j PA ltac:(lia)) as (Ia & Oa). specialize (V _ Ia). rewrite !MatProps.qelem_off, Oa in V by exact Ia. rewrite V. f_equal. apply (slab_picked C k); [exact PC | lia | lia]. }
  destruct D as (d & E & V). rewrite E. cbn [obind]. rewrite E2. cbn [obind]. exists (d :: ds). split; [reflexivity |]. split; [cbn [length]; congruence |]. intros [| j] Hj.
  - rewrite Nat.add_0_r. cbn [nth]. exact V.
  - cbn [nth]. replace (i + S j)%nat with (S i + j)%nat by lia. apply V2. cbn in Hj. lia.
Qed.
