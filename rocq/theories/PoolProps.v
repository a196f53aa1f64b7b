(** MaxPooling, AveragePooling and SumPooling (C54), MaxPoolingBackward (C55),
    GlobalAveragePooling and Unpooling (C56). *)
From Coq Require Import List ZArith Lia Bool QArith Qcanon.
From Verif Require Import NdSpec NdProofs IdxModel IdxSpec IdxProofs1 IdxProofs2 IdxProofs3 IdxProofs6 JoinModel JoinSpec ScanModel ScanSpec ScanProofs1 ReduceModel ReduceSpec ConvModel ConvSpec ConvProofs3 ConvProofs5 ConvProofs6 PoolModel PoolSpec PoolProofs2 PoolProofs3 PoolProofs4 PoolProofs5.
Import ListNotations.
Local Open Scope list_scope.
Local Open Scope Z_scope.

Lemma qelem_app v A B a b : inside a A -> inside b B -> qelem v (A ++ B) (a ++ b) = qat v (off a A * size B + off b B).
Proof. intros I J. unfold qelem, qat. rewrite position_off by (apply inside_app; assumption). rewrite Z.mul_0_l, Z.add_0_l, off_app by assumption. reflexivity. Qed.
Lemma row_split n Y k : 0 <= k < Y -> (n * Y + k) / Y = n /\ (n * Y + k) mod Y = k.
Proof. intros H. split; [rewrite Z.div_add_l, Z.div_small by lia; lia | rewrite Z.add_comm, Z.mod_add, Z.mod_small by lia; lia]. Qed.
Lemma inner_values dy v n (V : Z -> Qc) : qlen dy = n -> qlen v = n -> (forall j, 0 <= j < n -> qat v j = V j) -> qinner dy v = zsum n (fun j => qat dy j * V j)%Qc.
Proof.
  intros L1 L2 H. rewrite qinner_zsum by (unfold qlen in *; lia). rewrite L2. apply zsum_ext. intros j B. rewrite H by exact B. reflexivity.
Qed.

(** * C54 *)
(** Proved for [poolable] poolings only: the full statement would have every pooling that
    [pool_setup] accepts; that is refuted below for paddings that are not smaller than the kernel
    and for kernels that do not fit. *)
(** [f] is the pooling set up with the arguments of [l]; the stride may be left out if it is
    the kernel. *)
Definition made (l : pooling) (f : pool) : Prop := exists stride, (stride = stepping l \/ stride = [] /\ stepping l = extent l) /\ pool_setup (extent l) stride (whole l) (margin l) (pool_in l) = Some f.
Lemma made_is l f : poolable l -> made l f -> f = pool_of l.
Proof. intros OK (s & H & E). rewrite (p_setup l OK s H) in E. congruence. Qed.

Theorem C54_setup : forall l stride, poolable l -> (stride = stepping l \/ stride = [] /\ stepping l = extent l) ->
  exists f, pool_setup (extent l) stride (whole l) (margin l) (pool_in l) = Some f /\ p_out f = pool_out l.
Proof. intros l stride OK H. exists (pool_of l). split; [apply p_setup; assumption | reflexivity]. Qed.

Lemma place_ok l a o : poolable l -> inside a (outer l) -> inside o (pooled l) -> let j := off a (outer l) * size (pooled l) + off o (pooled l) in
  0 <= j < size (outer l) * size (pooled l) /\ j / size (pooled l) = off a (outer l) /\ unoff (pooled l) (j mod size (pooled l)) = o.
Proof.
  intros OK A O. pose proof (off_bound _ _ A). pose proof (off_bound _ _ O). cbv zeta. destruct (row_split (off a (outer l)) (size (pooled l)) (off o (pooled l)) H0) as (E1 & E2).
  split; [nia |]. split; [exact E1 |]. rewrite E2. apply unoff_off; [apply positive_sizes; apply (p_pooled l OK) | exact O].
Qed.
Lemma value_at l k x a o : poolable l -> inside a (outer l) -> inside o (pooled l) -> pooled_value l k x (off a (outer l) * size (pooled l) + off o (pooled l)) = (window_sum l x a o * factor l k o)%Qc.
Proof.
  intros OK A O. destruct (place_ok l a o OK A O) as (_ & E1 & E2). unfold pooled_value, pooled_sum, window_sum. rewrite E1, E2. f_equal.
  apply total_ext. intros i I. unfold pixel, pool_in. rewrite qelem_app by (assumption || eapply region_in; exact I). reflexivity.
Qed.
Lemma sizes_are l (x : list Qc) sh : has_size x (size (outer l ++ sh)) -> qlen x = size (outer l) * size sh.
Proof. unfold has_size. rewrite size_app. auto. Qed.

Lemma sums_ok l f k x y0 : poolable l -> made l f -> has_size x (size (pool_in l)) -> has_size y0 (size (pool_out l)) ->
  exists y, sum_forward k f x y0 = Some y /\ has_size y (size (pool_out l)) /\
  forall a o, inside a (outer l) -> inside o (pooled l) -> qelem y (pool_out l) (a ++ o) = (window_sum l x a o * factor l k o)%Qc.
Proof.
  intros OK M LX LY. rewrite (made_is l f OK M). destruct (sum_forward_ok l OK k x y0 (sizes_are _ _ _ LX) (sizes_are _ _ _ LY)) as (y & E & L & V).
  exists y. split; [exact E |]. split; [unfold has_size in *; rewrite L; exact LY |]. intros a o A O. unfold pool_out. rewrite qelem_app by assumption.
  destruct (place_ok l a o OK A O) as (B & _). rewrite V by exact B. apply value_at; assumption.
Qed.
Theorem C54_sum_values_partial : forall l f x y0, poolable l -> made l f -> has_size x (size (pool_in l)) -> has_size y0 (size (pool_out l)) ->
  exists y, sum_forward Sums f x y0 = Some y /\ has_size y (size (pool_out l)) /\
  forall a o, inside a (outer l) -> inside o (pooled l) -> qelem y (pool_out l) (a ++ o) = window_sum l x a o.
Proof.
  intros l f x y0 OK M LX LY. destruct (sums_ok l f Sums x y0 OK M LX LY) as (y & E & L & V). exists y. split; [exact E |]. split; [exact L |].
  intros a o A O. rewrite V by assumption. cbn [factor]. ring.
Qed.
Theorem C54_average_values_partial : forall l f including_pad x y0, poolable l -> made l f -> has_size x (size (pool_in l)) -> has_size y0 (size (pool_out l)) ->
  exists y, sum_forward (Averages including_pad) f x y0 = Some y /\ has_size y (size (pool_out l)) /\
  forall a o, inside a (outer l) -> inside o (pooled l) -> weight l including_pad o <> 0%Qc /\ qelem y (pool_out l) (a ++ o) = (window_sum l x a o / weight l including_pad o)%Qc.
Proof.
  intros l f p x y0 OK M LX LY. destruct (sums_ok l f (Averages p) x y0 OK M LX LY) as (y & E & L & V). exists y. split; [exact E |]. split; [exact L |].
  intros a o A O. split; [| rewrite V by assumption; reflexivity].
  pose proof (share_ok l OK (Averages p) o 0%Qc O) as S0. cbn [share] in S0.
  destruct (p_full l OK o O) as (F1 & F2). unfold weight. intros W. apply (f_equal this) in W.
  assert (Q0 : (inject_Z (Z.of_nat (length (if p then enclosed l o else region l o))) == 0)%Q) by (apply Qred_eq_iff; exact W).
  unfold Qeq in Q0. cbn [inject_Z Qnum Qden] in Q0.
  assert (0 < Z.of_nat (length (if p then enclosed l o else region l o))); [| lia].
  destruct p.
  - pose proof (padded_size (whole l) _ _ _ _ o (a_sensible _ OK) O) as E1. unfold enclosed. rewrite E1. apply full_size.
    unfold spans_of in F2. pose proof (p_x l OK) as (_ & _ & _ & EX & _). rewrite EX in F2. exact F2.
  - pose proof (region_ne l OK o O). destruct (region l o); [congruence | cbn [length]; lia].
Qed.
(** The gradient of a sum or an average is the adjoint of the forward pass. *)
Theorem C54_sum_gradient_partial : forall l f k (accum : bool) dy dx0 y0, poolable l -> made l f ->
  has_size dy (size (pool_out l)) -> has_size dx0 (size (pool_in l)) -> has_size y0 (size (pool_out l)) ->
  adjoint (Some (accum, dx0)) (sum_backward k f accum dy dx0) dy (fun x => sum_forward k f x y0).
Proof.
  intros l f k accum dy dx0 y0 OK M LY LX L0. rewrite (made_is l f OK M). apply sizes_are in LX, LY, L0. destruct (sum_backward_ok l OK k accum dy dx0 LY LX) as (dx & E & L & V). rewrite E. cbn [adjoint].
  split; [exact L |]. intros u v LU EV. destruct (sum_forward_ok l OK k u y0) as (v' & E' & L' & V'); [unfold qlen in *; rewrite LU; exact LX | exact L0 |]. rewrite E' in EV. injection EV as <-.
  rewrite V. f_equal. symmetry. apply inner_values; [exact LY | unfold qlen in *; rewrite L'; exact L0 | exact V'].
Qed.

Definition maps_to (l : pooling) (x : list Qc) (at_ : list Z -> list Z -> list Z) : Prop :=
  forall a o, inside a (outer l) -> inside o (pooled l) -> first_max (region l o) (pixel l x a) (at_ a o).
Lemma pick_maps l x : poolable l -> maps_to l x (fun a o => pick l x (off a (outer l)) o).
Proof.
  intros OK a o A O. destruct (pick_first l OK x (off a (outer l)) o O) as (b & e & E & H1 & H2). exists b, e. split; [exact E |].
  assert (P : forall i, In i (region l o) -> pixel l x a i = qat x (off a (outer l) * size (field l) + off i (field l))).
  { intros i I. unfold pixel, pool_in. apply qelem_app; [exact A | eapply region_in; exact I]. }
  assert (P1 : pixel l x a (pick l x (off a (outer l)) o) = qat x (off a (outer l) * size (field l) + off (pick l x (off a (outer l)) o) (field l))) by (apply P; rewrite E; apply in_or_app; right; left; reflexivity).
  split; intros j J; rewrite P1, P by (rewrite E; apply in_or_app; first [left; exact J | right; right; exact J]); auto.
Qed.
(** The value is the first maximum of the window, and its place in the image is remembered. *)
Theorem C54_max_values_partial : forall l f x y0 m0, poolable l -> made l f -> has_size x (size (pool_in l)) -> has_size y0 (size (pool_out l)) -> Z.of_nat (length m0) = size (pool_out l) ->
  exists y m at_, max_forward f x y0 m0 = Some (y, m) /\ has_size y (size (pool_out l)) /\ length m = length m0 /\ maps_to l x at_ /\
  forall a o, inside a (outer l) -> inside o (pooled l) -> qelem y (pool_out l) (a ++ o) = pixel l x a (at_ a o) /\
    nth (Z.to_nat (position 0 (a ++ o) (pool_out l))) m 0 = position 0 (at_ a o) (field l).
Proof.
  intros l f x y0 m0 OK M LX LY LM. rewrite (made_is l f OK M). unfold pool_out in LM. rewrite size_app in LM.
  destruct (max_forward_ok l OK x y0 m0 (sizes_are _ _ _ LX) (sizes_are _ _ _ LY) LM) as (y & m & E & L1 & L2 & V).
  exists y, m, (fun a o => pick l x (off a (outer l)) o). split; [exact E |]. split; [unfold has_size in *; rewrite L1; exact LY |]. split; [exact L2 |]. split; [apply pick_maps; exact OK |].
  intros a o A O. destruct (place_ok l a o OK A O) as (B & E1 & E2). destruct (V _ B) as (V1 & V2). unfold spot_of in V1, V2. rewrite E1, E2 in V1, V2.
  pose proof (pick_in l OK x (off a (outer l)) o O) as I. unfold pool_out. split.
  - rewrite qelem_app by assumption. rewrite V1. unfold pixel, pool_in. rewrite qelem_app by assumption. reflexivity.
  - rewrite !position_off by (first [exact I | apply inside_app; assumption]). rewrite !Z.mul_0_l, !Z.add_0_l, off_app by assumption. exact V2.
Qed.
Definition equal (a b : list Z) : bool := if list_eq_dec Z.eq_dec a b then true else false.
(** Place [i] gets the gradients of the windows whose first maximum it is. *)
Definition received (l : pooling) (at_ : list Z -> list Z -> list Z) (dy : list Qc) (a i : list Z) : Qc :=
  total (indices (pooled l)) (fun o => if equal (at_ a o) i then qelem dy (pool_out l) (a ++ o) else 0)%Qc.
Lemma spread_at l x dy dx0 dx : poolable l -> qlen dy = size (outer l) * size (pooled l) -> qlen dx0 = size (outer l) * size (field l) -> length dx = length dx0 ->
  (forall u, qinner u dx = (qinner u dx0 + zsum (size (outer l) * size (pooled l)) (fun j => qat dy j * qat u (j / size (pooled l) * size (field l) + spot_of l x j)))%Qc) ->
  forall a i, inside a (outer l) -> inside i (field l) -> qelem dx (pool_in l) (a ++ i) = (qelem dx0 (pool_in l) (a ++ i) + received l (fun a o => pick l x (off a (outer l)) o) dy a i)%Qc.
Proof.
  intros OK LY LX L V a i A I. unfold pool_in. rewrite !qelem_app by assumption. set (p := off a (outer l) * size (field l) + off i (field l)).
  pose proof (off_bound _ _ A) as BA. pose proof (off_bound _ _ I) as BI. pose proof (p_pos l OK) as (PN & PX & PY).
  assert (BP : 0 <= p < size (outer l) * size (field l)) by (unfold p; nia).
  specialize (V (unit_at (size (outer l) * size (field l)) p)). rewrite !unit_inner in V by (try exact BP; unfold qlen in *; lia). rewrite V. f_equal.
  rewrite zsum_mul by lia. unfold received.
  rewrite (total_indices (pooled l) _ (fun q => if equal (pick l x (off a (outer l)) (unoff (pooled l) q)) i then qat dy (off a (outer l) * size (pooled l) + q) else 0%Qc)).
  - transitivity (zsum (size (outer l)) (fun n => (zsum (size (pooled l)) (fun q => if equal (pick l x n (unoff (pooled l) q)) i then qat dy (n * size (pooled l) + q) else 0) * (if n =? off a (outer l) then 1 else 0))%Qc)).
    + apply zsum_ext. intros n Bn. rewrite <- zsum_scale_r. apply zsum_ext. intros q Bq. destruct (row_split n (size (pooled l)) q Bq) as (E1 & E2). unfold spot_of. rewrite E1, E2.
      destruct (unoff_inside (pooled l) q (positive_sizes _ (p_pooled l OK)) Bq) as (IO & _). pose proof (pick_in l OK x n _ IO) as IP. pose proof (off_bound _ _ IP) as BO.
      rewrite unit_qat by nia. destruct (Z.eqb_spec n (off a (outer l))) as [-> | NE].
      * unfold equal. destruct (list_eq_dec Z.eq_dec _ i) as [EQ | NQ].
        -- unfold p. rewrite EQ, Z.eqb_refl. ring.
        -- destruct (Z.eqb_spec (off a (outer l) * size (field l) + off (pick l x (off a (outer l)) (unoff (pooled l) q)) (field l)) p) as [EP | NP]; [| ring].
           exfalso. apply NQ. apply (off_inj (field l)); [apply positive_sizes; apply (p_field l OK) | exact IP | exact I | unfold p in EP; lia].
      * destruct (Z.eqb_spec (n * size (field l) + off (pick l x n (unoff (pooled l) q)) (field l)) p) as [EP | NP]; [| ring].
        exfalso. apply NE. pose proof (proj1 (row_split n _ _ BO)) as R1. pose proof (proj1 (row_split (off a (outer l)) _ _ BI)) as R2. fold p in R2. rewrite EP in R1. congruence.
    + rewrite zsum_hit by exact BA. reflexivity.
  - apply positive_sizes. apply (p_pooled l OK).
  - intros o O. rewrite unoff_off by (first [exact O | apply positive_sizes; apply (p_pooled l OK)]). unfold pool_out. rewrite qelem_app by assumption. reflexivity.
Qed.
Theorem C54_max_gradient_partial : forall l f x y0 m0 y m (accum : bool) dy dx0, poolable l -> made l f -> has_size x (size (pool_in l)) -> has_size y0 (size (pool_out l)) -> Z.of_nat (length m0) = size (pool_out l) ->
  max_forward f x y0 m0 = Some (y, m) -> has_size dy (size (pool_out l)) -> has_size dx0 (size (pool_in l)) ->
  exists dx at_, max_backward f (Some m) accum dy dx0 = Some dx /\ has_size dx (size (pool_in l)) /\ maps_to l x at_ /\
  forall a i, inside a (outer l) -> inside i (field l) -> qelem dx (pool_in l) (a ++ i) = ((if accum then qelem dx0 (pool_in l) (a ++ i) else 0) + received l at_ dy a i)%Qc.
Proof.
  intros l f x y0 m0 y m accum dy dx0 OK M LX L0 LM EM LY LD. rewrite (made_is l f OK M) in *. unfold pool_out in LM. rewrite size_app in LM.
  destruct (max_forward_ok l OK x y0 m0 (sizes_are _ _ _ LX) (sizes_are _ _ _ L0) LM) as (y' & m' & E & _ & L2 & V). rewrite E in EM. injection EM as <- <-.
  rewrite (max_backward_loop l OK x) by (first [congruence | intros; apply V; assumption]).
  pose proof (sizes_are _ _ _ LY) as LY'. pose proof (sizes_are _ _ _ LD) as LD'.
  destruct (spread_ok l OK x dy (cleared accum dx0) LY') as (dx & E1 & L1 & V1); [unfold qlen; rewrite cleared_length; exact LD' |]. rewrite cleared_length in L1.
  exists dx, (fun a o => pick l x (off a (outer l)) o). split; [exact E1 |]. split; [unfold has_size in *; rewrite L1; exact LD |]. split; [apply pick_maps; exact OK |].
  intros a i A I. rewrite (spread_at l x dy (cleared accum dx0) dx) by (first [assumption | unfold qlen; rewrite cleared_length; exact LD' | rewrite cleared_length; exact L1]).
  f_equal. unfold pool_in. rewrite !qelem_app, cleared_qat by assumption. reflexivity.
Qed.
(** Without a forward pass, the gradient is refused. *)
Theorem C54_max_unprepared : forall f accum dy dx, max_backward f None accum dy dx = None.
Proof. reflexivity. Qed.

(** * C55 *)
(** Missing in the statements for all poolings: inputs without an axis for the channel, and the
    default stride (both refuted below). *)
(** MaxPoolingBackward computes the gradient of MaxPooling. *)
Theorem C55_is_gradient_partial : forall l A C f x y0 m0 y m dy dx0, poolable l -> made l f -> outer l = A ++ [C] -> 0 < C ->
  has_size x (size (pool_in l)) -> has_size y0 (size (pool_out l)) -> Z.of_nat (length m0) = size (pool_out l) -> max_forward f x y0 m0 = Some (y, m) ->
  mpb_forward (extent l) (stepping l) (margin l) (pool_out l) (pool_in l) dy x dx0 = max_backward f (Some m) false dy dx0.
Proof.
  intros l A C f x y0 m0 y m dy dx0 OK M EA PC LX L0 LM EM. rewrite (made_is l f OK M) in *. unfold pool_out in LM. rewrite size_app in LM.
  destruct (max_forward_ok l OK x y0 m0 (sizes_are _ _ _ LX) (sizes_are _ _ _ L0) LM) as (y' & m' & E & _ & L2 & V). rewrite E in EM. injection EM as <- <-.
  rewrite (max_backward_loop l OK x) by (first [congruence | intros; apply V; assumption]). apply (mpb_forward_loop l OK A C); try assumption. apply sizes_are. exact LX.
Qed.
(** Its own gradient for dy is the adjoint of its forward pass. *)
Theorem C55_gradient_partial : forall l A C x (accum : bool) gdx gdy0 dx0, poolable l -> outer l = A ++ [C] -> 0 < C ->
  has_size x (size (pool_in l)) -> has_size gdx (size (pool_in l)) -> has_size gdy0 (size (pool_out l)) -> has_size dx0 (size (pool_in l)) ->
  adjoint (Some (accum, gdy0)) (mpb_backward (extent l) (stepping l) (margin l) (pool_out l) (pool_in l) accum gdx x gdy0) gdx
    (fun dy => mpb_forward (extent l) (stepping l) (margin l) (pool_out l) (pool_in l) dy x dx0).
Proof.
  intros l A C x accum gdx gdy0 dx0 OK EA PC LX LG LY LD. apply sizes_are in LX, LG, LY, LD. destruct (mpb_backward_ok l OK A C x accum gdx gdy0 EA PC LX LG LY) as (e & E & L & V). rewrite E. cbn [adjoint].
  split; [exact L |]. intros u v LU EV. rewrite (mpb_forward_loop l OK A C) in EV by assumption.
  assert (LU' : qlen u = size (outer l) * size (pooled l)) by (unfold qlen in *; rewrite LU; exact LY).
  destruct (spread_ok l OK x u (cleared false dx0) LU') as (v' & E' & L' & V'); [unfold qlen; rewrite cleared_length; exact LD |]. rewrite E' in EV. injection EV as <-.
  rewrite V', cleared_qinner. cbn iota. rewrite (inner_values u e _ _ LU' ltac:(unfold qlen in *; rewrite L; exact LY) V), Qcplus_0_l.
  assert (EQ : (if accum then qinner u gdy0 else 0)%Qc = zsum (size (outer l) * size (pooled l)) (fun j => qat u j * (if accum then qat gdy0 j else 0))%Qc).
  { destruct accum; [apply inner_values; [exact LU' | exact LY | reflexivity] | symmetry; apply zsum_zero; intros; ring]. }
  rewrite EQ, <- zsum_plus. apply zsum_ext. intros j _. ring.
Qed.

(** * C56 *)
(** Missing in the statements for all inputs: more than two image dimensions and empty images
    for the global average, and scalars for unpooling (all refuted below). *)
(** The mean over the last axes. *)
Theorem C56_global_values_partial : forall n c S x y0, 0 <= n -> 0 < c -> Forall (fun m => 0 < m) S -> (length S <= 2)%nat ->
  has_size x (size (n :: c :: S)) -> has_size y0 (n * c) ->
  gap_setup (n :: c :: S) = Some [n; c; 1; 1] /\
  exists y, gap_forward (n :: c :: S) x y0 = Some y /\ has_size y (n * c) /\ forall i j, 0 <= i < n -> 0 <= j < c ->
    qelem y [n; c; 1; 1] [i; j; 0; 0] = (total (indices S) (fun k => qelem x (n :: c :: S) (i :: j :: k)) / Q2Qc (inject_Z (size S)))%Qc.
Proof.
  intros n c S x y0 NN NC PS LS LX LY. split; [reflexivity |].
  assert (LX' : qlen x = n * c * size S) by (unfold has_size in LX; unfold qlen; rewrite LX; cbn [size]; ring).
  destruct (gap_forward_ok n c S NN NC PS LS x y0 LX' LY) as (y & E & L & V). exists y. split; [exact E |]. split; [unfold has_size in *; rewrite L; exact LY |]. intros i j I J.
  unfold qelem at 1. assert (EP : position 0 [i; j; 0; 0] [n; c; 1; 1] = i * c + j) by (cbn [position]; ring). rewrite EP. fold (qat y (i * c + j)). rewrite V by nia. f_equal.
  symmetry. apply total_indices; [apply positive_sizes; exact PS |]. intros k K. change (n :: c :: S) with ([n; c] ++ S). change (i :: j :: k) with ([i; j] ++ k).
  rewrite qelem_app by (first [exact K | repeat constructor; lia]). cbn [off size]. do 2 f_equal. ring.
Qed.
Theorem C56_global_gradient_partial : forall n c S (accum : bool) dy dx0 y0, 0 <= n -> 0 < c -> Forall (fun m => 0 < m) S -> (length S <= 2)%nat ->
  has_size dy (n * c) -> has_size dx0 (size (n :: c :: S)) -> has_size y0 (n * c) ->
  adjoint (Some (accum, dx0)) (gap_backward (n :: c :: S) accum dy dx0) dy (fun x => gap_forward (n :: c :: S) x y0).
Proof.
  intros n c S accum dy dx0 y0 NN NC PS LS LY LX L0. assert (LX' : qlen dx0 = n * c * size S) by (unfold has_size in LX; unfold qlen; rewrite LX; cbn [size]; ring).
  pose proof (size_pos _ PS) as PW. destruct (gap_backward_ok n c S NN NC PS LS accum dy dx0 LY LX') as (dx & E & L & V). rewrite E. cbn [adjoint]. split; [exact L |]. intros u v LU EV.
  assert (LU' : qlen u = n * c * size S) by (unfold qlen in *; rewrite LU; exact LX').
  destruct (gap_forward_ok n c S NN NC PS LS u y0 LU' L0) as (v' & E' & L' & V'). rewrite E' in EV. injection EV as <-.
  rewrite (inner_values u dx _ _ LU' ltac:(unfold qlen in *; rewrite L; exact LX') V), (inner_values dy v' _ _ LY ltac:(unfold has_size, qlen in *; rewrite L'; exact L0) V').
  assert (EQ : (if accum then qinner u dx0 else 0)%Qc = zsum (n * c * size S) (fun j => qat u j * (if accum then qat dx0 j else 0))%Qc).
  { destruct accum; [apply inner_values; [exact LU' | exact LX' | reflexivity] | symmetry; apply zsum_zero; intros; ring]. }
  rewrite EQ. rewrite (zsum_ext _ (fun j => qat u j * ((if accum then qat dx0 j else 0) + qat dy (j / size S) / Q2Qc (inject_Z (size S))))%Qc (fun j => qat u j * (if accum then qat dx0 j else 0) + qat u j * (qat dy (j / size S) / Q2Qc (inject_Z (size S))))%Qc) by (intros; ring).
  rewrite zsum_plus. f_equal. rewrite zsum_mul by nia. apply zsum_ext. intros q Bq. unfold Qcdiv. rewrite Qcmult_assoc, <- zsum_scale, <- zsum_scale_r. apply zsum_ext. intros k Bk.
  destruct (row_split q (size S) k Bk) as (E1 & _). rewrite E1. ring.
Qed.
(** Every element is repeated. *)
Theorem C56_unpooling_values_partial : forall A S K x y0, sizes A -> sizes S -> Forall (fun k => 0 < k) K -> length K = length S -> A ++ S <> [] ->
  has_size x (size (A ++ S)) -> has_size y0 (size (A ++ repeated K S)) ->
  unpool_setup K (A ++ S) = Some (A ++ repeated K S) /\
  exists y, unpool_forward K (A ++ S) x y0 = Some y /\ has_size y (size (A ++ repeated K S)) /\ forall a j, inside a A -> inside j (repeated K S) ->
    qelem y (A ++ repeated K S) (a ++ j) = qelem x (A ++ S) (a ++ divided K j).
Proof.
  intros A S K x y0 NA NS PK LK NE LX LY. split; [apply (unpool_setup_ok A S K LK) |]. destruct (unpool_forward_ok A S K NA NS PK LK NE x y0 LX LY) as (y & E & L & V).
  exists y. split; [exact E |]. split; [unfold has_size in *; rewrite L; exact LY |]. intros a j IA IJ. unfold qelem.
  assert (I : inside (a ++ j) (A ++ repeated K S)) by (apply inside_app; assumption). assert (I2 : inside (a ++ divided K j) (A ++ S)) by (apply inside_app; [exact IA | apply divided_inside; assumption]).
  rewrite !position_off by assumption. rewrite !Z.mul_0_l, !Z.add_0_l. fold (qat y (off (a ++ j) (A ++ repeated K S))). rewrite V by (apply off_bound; exact I).
  rewrite unoff_off by (first [exact I | apply out_nonneg; assumption]). rewrite ones_divided by (apply inside_length; exact IA). reflexivity.
Qed.
Theorem C56_unpooling_gradient_partial : forall A S K (accum : bool) dy dx0 y0, sizes A -> sizes S -> Forall (fun k => 0 < k) K -> length K = length S -> A ++ S <> [] ->
  has_size dy (size (A ++ repeated K S)) -> has_size dx0 (size (A ++ S)) -> has_size y0 (size (A ++ repeated K S)) ->
  adjoint (Some (accum, dx0)) (unpool_backward K (A ++ S) accum dy dx0) dy (fun x => unpool_forward K (A ++ S) x y0).
Proof.
  intros A S K accum dy dx0 y0 NA NS PK LK NE LY LX L0. destruct (unpool_backward_ok A S K NA NS PK LK NE accum dy dx0 LY LX) as (dx & E & L & V). rewrite E. cbn [adjoint]. split; [exact L |].
  intros u v LU EV. destruct (unpool_forward_ok A S K NA NS PK LK NE u y0) as (v' & E' & L' & V'); [unfold has_size, qlen in *; rewrite LU; exact LX | exact L0 |]. rewrite E' in EV. injection EV as <-.
  rewrite V. f_equal. symmetry. apply inner_values; [exact LY | unfold has_size, qlen in *; rewrite L'; exact L0 | exact V'].
Qed.

(** * Examples and refutations *)
Definition q (z : Z) : Qc := Q2Qc (inject_Z z).
Definition show (o : option (list Qc)) : option (list Q) := option_map (map this) o.
Definition qs (l : list Z) : option (list Q) := Some (map inject_Z l).
Definition nines (n : nat) : list Qc := repeat (q 9) n.
(** Two channels of 3 x 3, with padding. *)
Definition ex_pool : pooling := {| outer := [1; 2]; field := [3; 3]; extent := [2; 2]; stepping := [2; 2]; margin := [1; 1]; whole := true |}.
Definition ex_rest : pooling := {| outer := [1]; field := [3; 3]; extent := [2; 2]; stepping := [2; 2]; margin := [0; 1]; whole := false |}.
Definition with_pool {T} (l : pooling) (k : pool -> option T) : option T := obind (pool_setup (extent l) [] (whole l) (margin l) (pool_in l)) k.
Example C54_setup_ex : poolable ex_pool /\ made ex_pool (pool_of ex_pool) /\ pool_out ex_pool = [1; 2; 2; 2] /\ poolable ex_rest /\ pool_out ex_rest = [1; 2; 2] /\
  region ex_pool [1; 0] = [[1; 0]; [2; 0]] /\ length (enclosed ex_pool [1; 0]) = 4%nat.
Proof.
  split; [constructor; cbn; [repeat constructor; lia | left; reflexivity | repeat split; lia || (intros; lia)] |].
  split; [exists []; split; [right; split; reflexivity | reflexivity] |]. split; [reflexivity |].
  split; [constructor; cbn; [repeat constructor; lia | left; reflexivity | repeat split; lia || discriminate] |]. repeat split; reflexivity.
Qed.
Definition ex_px : list Qc := map q [1; 2; 3; 4; 5; 6; 7; 8; 8;  0; -1; -1; -2; -3; -1; -4; -4; -4].
Definition ex_py : list Qc := map q [1; 10; 100; 1000; 2; 20; 200; 2000].
Example C54_sum_ex : show (with_pool ex_pool (fun f => sum_forward Sums f ex_px (nines 8))) = qs [1; 5; 11; 27; 0; -2; -6; -12] /\
  show (with_pool ex_pool (fun f => sum_backward Sums f true ex_py (nines 18))) =
    qs [10; 19; 19; 109; 1009; 1009; 109; 1009; 1009;  11; 29; 29; 209; 2009; 2009; 209; 2009; 2009].
Proof. split; vm_compute; reflexivity. Qed.
Example C54_average_ex : show (with_pool ex_pool (fun f => sum_forward (Averages false) f ex_px (nines 8))) = Some [1%Q; (5 # 2)%Q; (11 # 2)%Q; (27 # 4)%Q; 0%Q; (-1)%Q; (-3)%Q; (-3)%Q] /\
  show (with_pool ex_pool (fun f => sum_forward (Averages true) f ex_px (nines 8))) = Some [(1 # 4)%Q; (5 # 4)%Q; (11 # 4)%Q; (27 # 4)%Q; 0%Q; (-1 # 2)%Q; (-3 # 2)%Q; (-3)%Q] /\
  show (with_pool ex_rest (fun f => sum_backward (Averages true) f false (map q [12; 12; 12; 12]) (nines 9))) = qs [3; 3; 3; 3; 3; 3; 6; 6; 6].
Proof. repeat split; vm_compute; reflexivity. Qed.
Example C54_max_ex : option_map (fun '(y, m) => (map this y, m)) (with_pool ex_pool (fun f => max_forward f ex_px (nines 8) (repeat 9 8))) =
    Some (map inject_Z [1; 3; 7; 8; 0; -1; -2; -1], [0; 2; 6; 7; 0; 1; 3; 5]) /\
  show (with_pool ex_pool (fun f => max_backward f (Some [0; 2; 6; 7; 0; 1; 3; 5]) false ex_py (nines 18))) =
    qs [1; 0; 10; 0; 0; 0; 100; 1000; 0;  2; 20; 0; 200; 0; 2000; 0; 0; 0].
Proof. split; vm_compute; reflexivity. Qed.
Example C55_ex : show (mpb_forward [2; 2] [2; 2] [1; 1] [1; 2; 2; 2] [1; 2; 3; 3] ex_py ex_px (nines 18)) =
    qs [1; 0; 10; 0; 0; 0; 100; 1000; 0;  2; 20; 0; 200; 0; 2000; 0; 0; 0] /\
  show (mpb_backward [2; 2] [2; 2] [1; 1] [1; 2; 2; 2] [1; 2; 3; 3] true (map q [1; 2; 3; 4; 5; 6; 7; 8; 9; 10; 11; 12; 13; 14; 15; 16; 17; 18]) ex_px (nines 8)) =
    qs [10; 12; 16; 17; 19; 20; 22; 24].
Proof. split; vm_compute; reflexivity. Qed.
Example C56_global_ex : show (gap_forward [1; 2; 2; 2] (map q [1; 2; 3; 6; 4; 4; 4; 8]) (nines 2)) = qs [3; 5] /\
  show (gap_backward [1; 2; 2; 2] true (map q [4; 8]) (nines 8)) = qs [10; 10; 10; 10; 11; 11; 11; 11] /\ show (gap_forward [2; 1] (map q [1; 2]) (nines 2)) = qs [1; 2].
Proof. repeat split; vm_compute; reflexivity. Qed.
Example C56_unpooling_ex : show (unpool_forward [2; 3] [2; 1; 2] (map q [1; 2; 3; 4]) (nines 24)) =
    qs [1; 1; 1; 2; 2; 2; 1; 1; 1; 2; 2; 2; 3; 3; 3; 4; 4; 4; 3; 3; 3; 4; 4; 4] /\
  show (unpool_backward [2] [2; 2] true (map q [1; 2; 3; 4; 5; 6; 7; 8]) (nines 4)) = qs [12; 16; 20; 24].
Proof. split; vm_compute; reflexivity. Qed.

(** A padding as large as the kernel is accepted.  Then windows without an element of the image
    exist: MaxPooling reads outside the image, and the average without the padding divides by
    zero. *)
Theorem C54_padding_refuted : exists f, pool_setup [1; 1] [1; 1] true [1; 1] [1; 1] = Some f /\ p_out f = [3; 3] /\
  region {| outer := []; field := [1; 1]; extent := [1; 1]; stepping := [1; 1]; margin := [1; 1]; whole := true |} [0; 0] = [] /\
  max_forward f [q 5] (nines 9) (repeat 0 9) = None /\ sum_forward (Averages false) f [q 5] (nines 9) = None /\
  show (sum_forward (Averages true) f [q 5] (nines 9)) = qs [0; 0; 0; 0; 5; 0; 0; 0; 0].
Proof. eexists. repeat split; vm_compute; reflexivity. Qed.
(** In larger images, the maximum of such a window is an element that the window does not
    cover. *)
Theorem C54_foreign_maximum_refuted : exists f, pool_setup [1; 1] [2; 2] true [1; 1] [2; 2] = Some f /\ p_out f = [2; 2] /\
  option_map (fun '(y, m) => (map this y, m)) (max_forward f (map q [1; 2; 3; 4]) (nines 4) (repeat 0 4)) = Some (map inject_Z [1; 2; 3; 4], [0; 1; 2; 3]) /\
  region {| outer := []; field := [2; 2]; extent := [1; 1]; stepping := [2; 2]; margin := [1; 1]; whole := true |} [0; 1] = [].
Proof. eexists. repeat split; vm_compute; reflexivity. Qed.
(** A kernel larger than the padded image is accepted: with a negative number of outputs, with
    none, or, because the division truncates towards zero, with one. *)
Theorem C54_fits_refuted : 
  option_map p_out (pool_setup [3; 3] [1; 1] true [0; 0] [1; 1]) = Some [-1; -1] /\ option_map p_out (pool_setup [3; 3] [2; 2] true [0; 0] [1; 1]) = Some [0; 0] /\
  option_map p_out (pool_setup [3; 3] [3; 3] true [0; 0] [1; 1]) = Some [1; 1] /\ counts true [1; 1] [3; 3] [3; 3] [0; 0] = [0; 0] /\
  pool_setup [3; 3] [0; 1] true [0; 0] [3; 3] = None.
Proof. repeat split; reflexivity. Qed.
(** The gradient of an input that MaxPooling accepts, without an axis for the channel, cannot be
    computed with MaxPoolingBackward; nor without an explicit stride, which MaxPooling fills
    in. *)
Theorem C55_axis_refuted : exists f, pool_setup [2; 2] [2; 2] true [0; 0] [2; 2] = Some f /\
  option_map (fun '(y, m) => (map this y, m)) (max_forward f (map q [1; 2; 3; 4]) (nines 1) [0]) = Some ([4%Q], [3]) /\
  mpb_forward [2; 2] [2; 2] [0; 0] [1; 1] [2; 2] [q 1] (map q [1; 2; 3; 4]) (nines 4) = None.
Proof. eexists. repeat split; vm_compute; reflexivity. Qed.
Theorem C55_stride_refuted : exists f, pool_setup [2; 2] [] true [0; 0] [1; 2; 2] = Some f /\
  show (max_backward f (Some [3]) false [q 1] (nines 4)) = qs [0; 0; 0; 1] /\ mpb_forward [2; 2] [] [0; 0] [1; 1; 1] [1; 2; 2] [q 1] (map q [1; 2; 3; 4]) (nines 4) = None.
Proof. eexists. repeat split; vm_compute; reflexivity. Qed.
(** With three image dimensions, the average is over elements of the wrong place. *)
Theorem C56_global_3d_refuted : gap_setup [1; 2; 1; 1; 2] = Some [1; 2; 1; 1] /\ show (gap_forward [1; 2; 1; 1; 2] (map q [1; 2; 3; 4]) (nines 2)) = qs [1; 2].
Proof. split; vm_compute; reflexivity. Qed.
(** An empty image is accepted and divided by its size. *)
Theorem C56_global_empty_refuted : gap_setup [1; 1; 0; 3] = Some [1; 1; 1; 1] /\ gap_forward [1; 1; 0; 3] [] (nines 1) = None.
Proof. split; vm_compute; reflexivity. Qed.
(** A scalar is accepted and read out of range. *)
Theorem C56_scalar_refuted : unpool_setup [] [] = Some [] /\ unpool_forward [] [] [q 1] [q 9] = None.
Proof. split; vm_compute; reflexivity. Qed.

(** Everything accepted is of this form; whether it is [poolable], too, is refuted above. *)
Theorem C54_accepted_partial : forall kernel stride ignore_border pad shape f, pool_setup kernel stride ignore_border pad shape = Some f ->
  exists outer image step, shape = outer ++ image /\ length image = length kernel /\ (length kernel = 2 \/ length kernel = 3)%nat /\ length pad = length kernel /\
    length step = length kernel /\ (stride = step \/ stride = [] /\ step = kernel) /\ Forall (fun s => s <> 0) step /\
    exists out, p_out f = outer ++ out /\ length out = length kernel.
Proof.
  intros kernel stride ib pad shape f. unfold pool_setup. set (step := pool_stride kernel stride).
  destruct (Nat.eqb_spec (length kernel) (length step)) as [E1 |]; [| discriminate]. destruct (Nat.ltb_spec (length shape) (length kernel)) as [| E2]; [discriminate |].
  destruct (Nat.ltb_spec (length kernel) 2) as [| E3]; [discriminate |]. destruct (Nat.ltb_spec 3 (length kernel)) as [| E4]; [discriminate |]. cbn [orb negb].
  destruct (Nat.eqb_spec (length kernel) (length pad)) as [E5 |]; [| discriminate]. cbn [negb].
  assert (X : forall k s p w o, length w = length k -> length k = length s -> length k = length p -> pool_extents ib w k s p = Some o -> Forall (fun s => s <> 0) s /\ length o = length k).
  { clear. induction k as [| k0 k IH]; intros [| s0 s] [| p0 p] [| w0 w] o L1 L2 L3; try discriminate; cbn [pool_extents].
    - intros [= <-]. split; [constructor | reflexivity].
    - unfold divide. destruct (Z.eqb_spec s0 0) as [| N]; [discriminate |]. cbn [obind]. destruct (pool_extents ib w k s p) as [r |] eqn:ER; [| discriminate]. cbn [obind].
      intros [= <-]. destruct (IH s p w r) as (F & L); [injection L1; auto | injection L2; auto | injection L3; auto | exact ER |]. split; [constructor; assumption | cbn [length]; rewrite L; reflexivity]. }
  destruct (pool_extents ib (skipn (length shape - length kernel) shape) kernel step pad) as [out |] eqn:EO; [| discriminate]. cbn [obind]. intros H. injection H as <-.
  assert (LS : length (skipn (length shape - length kernel) shape) = length kernel) by (rewrite skipn_length; lia).
  destruct (X kernel step pad _ out LS E1 E5 EO) as (F & LO).
  exists (firstn (length shape - length kernel) shape), (skipn (length shape - length kernel) shape), step. split; [symmetry; apply firstn_skipn |]. split; [exact LS |].
  split; [lia |]. split; [auto |]. split; [auto |].
  split; [unfold step, pool_stride; destruct stride; [right; split; reflexivity | left; reflexivity] |]. split; [exact F |].
  exists out. split; [reflexivity | exact LO].
Qed.
Example C54_accepted_ex : (exists f, pool_setup [2; 2] [] true [0; 0] [1; 4; 4] = Some f /\ p_out f = [1; 2; 2]) /\ pool_setup [2] [] true [0] [1; 4; 4] = None /\
  pool_setup [2; 2] [1] true [0; 0] [1; 4; 4] = None /\ pool_setup [2; 2] [1; 0] true [0; 0] [1; 4; 4] = None /\ pool_setup [2; 2] [] true [0; 0] [4] = None /\
  pool_setup [2; 2] [] true [0] [1; 4; 4] = None /\ pool_setup [1; 1; 1; 1] [] true [0; 0; 0; 0] [1; 1; 1; 1] = None.
Proof. split; [eexists; split; reflexivity |]. repeat split; reflexivity. Qed.

Print Assumptions C54_setup.
Print Assumptions C54_sum_values_partial.
Print Assumptions C54_average_values_partial.
Print Assumptions C54_sum_gradient_partial.
Print Assumptions C54_max_values_partial.
Print Assumptions C54_max_gradient_partial.
Print Assumptions C55_is_gradient_partial.
Print Assumptions C55_gradient_partial.
Print Assumptions C56_global_values_partial.
Print Assumptions C56_global_gradient_partial.
Print Assumptions C56_unpooling_values_partial.
Print Assumptions C56_unpooling_gradient_partial.
Print Assumptions C54_accepted_partial.
