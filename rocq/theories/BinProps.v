(** Properties C67 to C69: functions of two arrays element by element, and the operators. *)
From Coq Require Import List ZArith Bool Lia QArith Qcanon.
From Verif Require Import NdSpec NdProofs IdxModel IdxProofs1 IdxProofs2 IdxProofs3 IdxProofs6 JoinModel JoinProofs ScanSpec ScanModel ScanProofs1 ReduceSpec ReduceModel ReduceProofs1 ConvSpec ConvModel ConvProofs3 ConvProofs5 ConvProofs6 MatSpec MatModel MatProofs2 MatProps ScatProofs1 PoolProps ConvProps BinSpec BinModel BinProofs1 BinProofs2 BinProofs3.
Import ListNotations.
Local Open Scope list_scope.
Local Open Scope Z_scope.

(** * C67: values *)
(** The shapes that are accepted, and the shape of the output.  An axis of one element against
    an axis of none is refused, unlike by numpy. *)
Theorem C67_accepted : forall A B C, (exists f, bin_setup A B = Some f /\ b_out f = C) <-> joined A B C /\ unmixed A B.
Proof.
  intros A B C. split.
  - intros (f & S & <-). unfold bin_setup in S. destruct (bin_out A B) as [o |] eqn:E; [| discriminate]. cbn [obind] in S. injection S as <-. cbn [b_out].
    split; [apply bin_out_joined; exact E | eapply bin_out_unmixed; exact E].
  - intros (J & U). unfold bin_setup. rewrite (joined_bin_out A B C J U). cbn [obind]. eexists. split; reflexivity.
Qed.
(** Every element of the output is the operation on the elements repeated there, for every way of
    broadcasting and whatever adjacent axes are treated as one. *)
Theorem C67_values : forall A B C f op x0 x1 y0, bin_setup A B = Some f -> joined A B C -> sizes C ->
  has_size x0 (size A) -> has_size x1 (size B) -> has_size y0 (size C) ->
  exists y, bin_forward op f x0 x1 y0 = Some y /\ has_size y (size C) /\ pairwise op A B C x0 x1 y.
Proof.
  intros A B C f op x0 x1 y0 S J P L0 L1 LY. destruct (forward_ok A B C f J S P op x0 x1 y0 L0 L1 LY) as (y & E & L & V). exists y. split; [exact E |]. split; [unfold has_size in *; congruence | exact V].
Qed.
Definition shapes_of (r : option bin) := match r with Some f => Some (b_out f, shape_y f, strides_x0 f, strides_x1 f) | None => None end.
Example C67_axes : shapes_of (bin_setup [2; 3; 1; 1; 4] [2; 3; 5; 6; 1]) = Some ([2; 3; 5; 6; 4], [6; 30; 4], [4; 0; 1], [30; 1; 0]).
Proof. vm_compute. reflexivity. Qed.
Example C67_four : shapes_of (bin_setup [2; 1; 3; 1] [1; 2; 1; 2]) = Some ([2; 2; 3; 2], [2; 2; 3; 2], [3; 0; 1; 0], [0; 2; 0; 1]).
Proof. vm_compute. reflexivity. Qed.
Definition run2 (op : Qc -> Qc -> Qc) (A B : list Z) (x0 x1 : list Qc) : option (list Z * list Qc) :=
  match bin_setup A B with Some f => match bin_forward op f x0 x1 (fresh (q 9) (b_out f)) with Some y => Some (b_out f, y) | None => None end | None => None end.
Definition showb (r : option (list Z * list Qc)) : option (list Z * list Q) := match r with Some (s, y) => Some (s, map this y) | None => None end.
Example C67_runs : showb (run2 sub_op [2; 1] [1; 3] (map q [10; 20]) (map q [1; 2; 3])) = Some ([2; 3], map inject_Z [9; 8; 7; 19; 18; 17]) /\
  showb (run2 mul_op [] [] (map q [3]) (map q [4])) = Some ([], [inject_Z 12]) /\
  showb (run2 max_op [2; 2] [2; 2] (map q [1; 5; 3; 2]) (map q [4; 4; 3; 1])) = Some ([2; 2], map inject_Z [4; 5; 3; 2]) /\
  showb (run2 add_op [2] [3] (map q [1; 2]) (map q [1; 2; 3])) = None /\
  showb (run2 add_op [2] [1; 2] (map q [1; 2]) (map q [1; 2])) = None /\
  showb (run2 add_op [0] [0] [] []) = Some ([0], []).
Proof. vm_compute. repeat split. Qed.
(** The broadcasting of numpy accepts an axis of one element against an axis of none. *)
Theorem C67_numpy_refuted : ~ forall A B C, joined A B C -> sizes A -> sizes B -> exists f, bin_setup A B = Some f /\ b_out f = C.
Proof.
  intros H. destruct (H [1] [0] [0]) as (f & E & _); [constructor; constructor | repeat constructor; lia | repeat constructor; lia |]. vm_compute in E. discriminate.
Qed.

(** * C68: gradients *)
(** Every element gets the sum of its gradients over the places it is used at, added to the
    previous gradient or replacing it. *)
Theorem C68_sums : forall A B C f g0 g1 x0 x1 y dy d0 d1, bin_setup A B = Some f -> joined A B C -> sizes C ->
  has_size x0 (size A) -> has_size x1 (size B) -> has_size y (size C) -> has_size dy (size C) -> grad_size d0 (size A) -> grad_size d1 (size B) ->
  exists e0 e1, bin_backward g0 g1 f x0 x1 y dy d0 d1 = Some (e0, e1) /\
  each_at d0 e0 A (fun a => total (used_at A C a) (fun c => g0 (qelem dy C c) (qelem x0 A a) (qelem x1 B (picked B c)) (qelem y C c))) /\
  each_at d1 e1 B (fun b => total (used_at B C b) (fun c => g1 (qelem dy C c) (qelem x0 A (picked A c)) (qelem x1 B b) (qelem y C c))).
Proof.
  intros A B C f g0 g1 x0 x1 y dy d0 d1 S J P L0 L1 LY LE G0 G1.
  assert (OWN : forall (X : list Z) a (h h' : list Z -> Qc), (forall c, picked X c = a -> h c = h' c) -> total (used_at X C a) h = total (used_at X C a) h').
  { intros X a h h' H. unfold total. f_equal. apply map_ext_in. intros c I. apply filter_In in I as (_ & I). apply H. destruct (list_eq_dec Z.eq_dec (picked X c) a); [assumption | discriminate]. }
  assert (Z0 : forall (accum : bool) X d a, inside a X -> has_size d (size X) -> qelem (cleared accum d) X a = if accum then qelem d X a else 0%Qc).
  { intros accum X d a I L. rewrite !qelem_off by exact I. apply cleared_qat. }
  assert (CL : forall (accum : bool) (d : list Qc), length (cleared accum d) = length d) by (intros [|] d; cbn [cleared]; [reflexivity | apply map_length]).
  assert (T0 : exists e0, with_grad (fun accum d => bin_grad false g0 f dy x0 x1 y (cleared accum d)) d0 = Some e0 /\ each_at d0 e0 A (fun a => total (used_at A C a) (fun c => g0 (qelem dy C c) (qelem x0 A a) (qelem x1 B (picked B c)) (qelem y C c)))).
  { destruct d0 as [[accum d] |]; cbn [with_grad]; [| exists None; split; [reflexivity | exact I]].
    destruct (grad_ok A B C f J S P false g0 dy x0 x1 y (cleared accum d) L0 L1 LY LE) as (e & E & L & _ & V); [unfold has_size in *; cbn [grad_size] in G0; unfold has_size in G0; rewrite CL; exact G0 |].
    rewrite E. exists (Some e). split; [reflexivity |]. split; [rewrite L; apply CL |]. intros a Ia. rewrite V by exact Ia. rewrite Z0 by assumption. f_equal. apply OWN. intros c ->. reflexivity. }
  assert (T1 : exists e1, with_grad (fun accum d => bin_grad true g1 f dy x0 x1 y (cleared accum d)) d1 = Some e1 /\ each_at d1 e1 B (fun b => total (used_at B C b) (fun c => g1 (qelem dy C c) (qelem x0 A (picked A c)) (qelem x1 B b) (qelem y C c)))).
  { destruct d1 as [[accum d] |]; cbn [with_grad]; [| exists None; split; [reflexivity | exact I]].
    destruct (grad_ok A B C f J S P true g1 dy x0 x1 y (cleared accum d) L0 L1 LY LE) as (e & E & L & _ & V); [unfold has_size in *; cbn [grad_size] in G1; unfold has_size in G1; rewrite CL; exact G1 |].
    rewrite E. exists (Some e). split; [reflexivity |]. split; [rewrite L; apply CL |]. intros a Ia. rewrite V by exact Ia. rewrite Z0 by assumption. f_equal. apply OWN. intros c ->. reflexivity. }
  destruct T0 as (e0 & E0 & V0). destruct T1 as (e1 & E1 & V1). exists e0, e1. split; [| auto]. unfold bin_backward. rewrite E0. cbn [obind]. rewrite E1. reflexivity.
Qed.
(** One variable as both inputs gets both. *)
Theorem C68_same : forall A f g0 g1 x y dy (accum : bool) d, bin_setup A A = Some f -> sizes A ->
  has_size x (size A) -> has_size y (size A) -> has_size dy (size A) -> has_size d (size A) ->
  exists e, bin_backward_same g0 g1 f x y dy accum d = Some e /\ has_size e (size A) /\
  forall a, inside a A -> qelem e A a = ((if accum then qelem d A a else 0) + (g0 (qelem dy A a) (qelem x A a) (qelem x A a) (qelem y A a) + g1 (qelem dy A a) (qelem x A a) (qelem x A a) (qelem y A a)))%Qc.
Proof.
  intros A f g0 g1 x y dy accum d S P LX LY LE LD.
  assert (J : joined A A A) by (clear; induction A; constructor; assumption).
  assert (CL : length (cleared accum d) = length d) by (destruct accum; cbn [cleared]; [reflexivity | apply map_length]).
  assert (ONE : forall a (h : list Z -> Qc), inside a A -> total (used_at A A a) h = h a).
  { intros a h Ia. unfold used_at. rewrite total_filter.
    rewrite (total_indices A _ (fun q => if q =? off a A then h a else 0%Qc)); [apply (zsum_one (size A) (off a A) (fun _ => h a)); apply off_bound; exact Ia | exact P |].
    intros i Ii. rewrite picked_same by exact Ii. destruct (list_eq_dec Z.eq_dec i a) as [-> | N]; [rewrite Z.eqb_refl; reflexivity |]. destruct (Z.eqb_spec (off i A) (off a A)) as [Q |]; [| reflexivity]. exfalso. apply N. apply (SliceProofs.off_inj A); assumption. }
  destruct (grad_ok A A A f J S P false g0 dy x x y (cleared accum d) LX LX LY LE) as (e & E & L & _ & V); [unfold has_size in *; rewrite CL; exact LD |].
  destruct (grad_ok A A A f J S P true g1 dy x x y e LX LX LY LE) as (e' & E' & L' & _ & V'); [unfold has_size in *; rewrite L, CL; exact LD |].
  exists e'. unfold bin_backward_same. rewrite E. cbn [obind cleared]. split; [exact E' |]. split; [unfold has_size in *; congruence |].
  intros a Ia. rewrite V', V by exact Ia. rewrite !ONE by exact Ia. rewrite !picked_same by exact Ia.
  replace (qelem (cleared accum d) A a) with (if accum then qelem d A a else 0%Qc); [ring |].
  rewrite !qelem_off by exact Ia. symmetry. apply cleared_qat.
Qed.

(** ** Operations that are linear in an argument *)
Lemma slope_ok (p : bool) A B C f op k g x0 x1 y dy d0 y0 : bin_setup A B = Some f -> joined A B C -> sizes C ->
  (if p then forall a b b', (op a b' - op a b = (b' - b) * k a)%Qc else forall b a a', (op a' b - op a b = (a' - a) * k b)%Qc) ->
  (forall e a b v, g e a b v = (e * k (if p then a else b))%Qc) ->
  has_size x0 (size A) -> has_size x1 (size B) -> has_size y (size C) -> has_size dy (size C) -> has_size d0 (size (if p then B else A)) -> has_size y0 (size C) ->
  exists d, bin_grad p g f dy x0 x1 y (cleared false d0) = Some d /\ has_size d (size (if p then B else A)) /\
  exact_slope (fun u => bin_forward op f (if p then x0 else u) (if p then u else x1) y0) (if p then x1 else x0) dy d.
Proof.
  intros S J P HOP HG L0 L1 LY LE LD L9. assert (CL : length (cleared false d0) = length d0) by apply map_length.
  destruct (grad_ok A B C f J S P p g dy x0 x1 y (cleared false d0) L0 L1 LY LE) as (d & E & L & V & _); [unfold has_size in *; rewrite CL; exact LD |].
  exists d. split; [exact E |]. split; [unfold has_size in *; congruence |]. intros x' v v' LX F F'. set (X := if p then B else A) in *.
  assert (LX0 : Z.of_nat (length (if p then x1 else x0)) = size X) by (unfold X; destruct p; assumption).
  assert (FW : forall u w, has_size u (size X) -> bin_forward op f (if p then x0 else u) (if p then u else x1) y0 = Some w -> length w = length y0 /\
    forall q, 0 <= q < size C -> qat w q = op (qat (if p then x0 else u) (off (picked A (unoff C q)) A)) (qat (if p then u else x1) (off (picked B (unoff C q)) B))).
  { intros u w LU EW. destruct (forward_ok A B C f J S P op (if p then x0 else u) (if p then u else x1) y0) as (w' & EW' & LW & VW); [unfold X in LU; destruct p; assumption | unfold X in LU; destruct p; assumption | exact L9 |].
    rewrite EW' in EW. injection EW as <-. split; [exact LW |]. intros q Hq. destruct (unoff_ok C q P Hq) as (Iq & Oq). specialize (VW _ Iq). destruct (fit_in A B C J _ Iq) as (IA & IB). rewrite !qelem_off in VW by assumption. rewrite Oq in VW. exact VW. }
  destruct (FW _ v LX0 F) as (LV & VV). destruct (FW x' v') as (LV' & VV'); [unfold has_size; congruence | exact F' |]. unfold has_size in *.
  rewrite !qinner_zsum by (rewrite ?L, ?CL, ?LX; lia). unfold qlen. replace (Z.of_nat (length v')) with (size C) by lia. replace (Z.of_nat (length v)) with (size C) by lia. replace (Z.of_nat (length d)) with (size X) by (unfold X in *; lia).
  assert (ZD : forall j, 0 <= j -> qat d j = zsum (size C) (fun q => if off (picked X (unoff C q)) X =? j then (qat dy q * k (if p then qat x0 (off (picked A (unoff C q)) A) else qat x1 (off (picked B (unoff C q)) B)))%Qc else 0%Qc)).
  { intros j Hj. rewrite V by exact Hj. replace (qat (cleared false d0) j) with 0%Qc by (symmetry; apply cleared_qat). rewrite Qcplus_0_l. apply zsum_ext. intros q _. rewrite HG. destruct p; reflexivity. }
  assert (SUM : forall u, zsum (size X) (fun i => qat u i * qat d i)%Qc = zsum (size C) (fun q => qat u (off (picked X (unoff C q)) X) * (qat dy q * k (if p then qat x0 (off (picked A (unoff C q)) A) else qat x1 (off (picked B (unoff C q)) B))))%Qc).
  { intros u. rewrite (zsum_ext (size X) _ (fun i => zsum (size C) (fun q => qat u i * (if off (picked X (unoff C q)) X =? i then (qat dy q * k (if p then qat x0 (off (picked A (unoff C q)) A) else qat x1 (off (picked B (unoff C q)) B))) else 0)))%Qc) by (intros i Hi; rewrite ZD, zsum_scale by lia; reflexivity).
    rewrite zsum_swap. apply zsum_ext. intros q Hq. destruct (fit_at A B C f J S P q Hq) as (_ & W0 & W1).
    assert (W : 0 <= off (picked X (unoff C q)) X < size X) by (unfold X; destruct p; assumption).
    rewrite (zsum_only (size X) (off (picked X (unoff C q)) X)) by (first [exact W | intros i Hi N; destruct (Z.eqb_spec (off (picked X (unoff C q)) X) i); [congruence | ring]]). rewrite Z.eqb_refl. reflexivity. }
  rewrite !SUM. 
  assert (SUB : forall n h h', (zsum n h - zsum n h' = zsum n (fun i => h i - h' i))%Qc).
  { intros n h h'. replace (zsum n (fun i => h i - h' i))%Qc with (zsum n h + zsum n (fun i => - (1) * h' i))%Qc by (rewrite <- zsum_plus; apply zsum_ext; intros; ring). rewrite zsum_scale. ring. }
  rewrite !SUB. apply zsum_ext. intros q Hq. rewrite VV, VV' by exact Hq. unfold X. destruct p.
  - transitivity (qat dy q * (op (qat x0 (off (picked A (unoff C q)) A)) (qat x' (off (picked B (unoff C q)) B)) - op (qat x0 (off (picked A (unoff C q)) A)) (qat x1 (off (picked B (unoff C q)) B))))%Qc; [ring |]. rewrite HOP. ring.
  - transitivity (qat dy q * (op (qat x' (off (picked A (unoff C q)) A)) (qat x1 (off (picked B (unoff C q)) B)) - op (qat x0 (off (picked A (unoff C q)) A)) (qat x1 (off (picked B (unoff C q)) B))))%Qc; [ring |]. rewrite HOP. ring.
Qed.
(** A function whose two gradients are exactly the derivatives of what is computed. *)
Definition linear_in_each (op : Qc -> Qc -> Qc) (g0 g1 : Qc -> Qc -> Qc -> Qc -> Qc) : Prop :=
  forall A B C f x0 x1 y dy d0 d1 y0, bin_setup A B = Some f -> joined A B C -> sizes C ->
  has_size x0 (size A) -> has_size x1 (size B) -> has_size y (size C) -> has_size dy (size C) -> has_size d0 (size A) -> has_size d1 (size B) -> has_size y0 (size C) ->
  exists e0 e1, bin_backward g0 g1 f x0 x1 y dy (Some (false, d0)) (Some (false, d1)) = Some (Some e0, Some e1) /\
  exact_slope (fun u => bin_forward op f u x1 y0) x0 dy e0 /\ exact_slope (fun u => bin_forward op f x0 u y0) x1 dy e1.
Lemma linear_by (op : Qc -> Qc -> Qc) g0 g1 (k0 k1 : Qc -> Qc) : (forall b a a', (op a' b - op a b = (a' - a) * k0 b)%Qc) -> (forall a b b', (op a b' - op a b = (b' - b) * k1 a)%Qc) ->
  (forall e a b v, g0 e a b v = (e * k0 b)%Qc) -> (forall e a b v, g1 e a b v = (e * k1 a)%Qc) -> linear_in_each op g0 g1.
Proof.
  intros H0 H1 G0 G1 A B C f x0 x1 y dy d0 d1 y0 S J P L0 L1 LY LE LD0 LD1 L9.
  destruct (slope_ok false A B C f op k0 g0 x0 x1 y dy d0 y0 S J P H0 G0 L0 L1 LY LE LD0 L9) as (e0 & E0 & _ & V0).
  destruct (slope_ok true A B C f op k1 g1 x0 x1 y dy d1 y0 S J P H1 G1 L0 L1 LY LE LD1 L9) as (e1 & E1 & _ & V1).
  exists e0, e1. split; [| auto]. unfold bin_backward. cbn [with_grad]. rewrite E0. cbn [obind]. rewrite E1. reflexivity.
Qed.
Theorem C68_add : linear_in_each add_op add_g0 add_g1.
Proof. apply (linear_by _ _ _ (fun _ => 1%Qc) (fun _ => 1%Qc)); intros; unfold add_op, add_g0, add_g1; ring. Qed.
Theorem C68_sub : linear_in_each sub_op sub_g0 sub_g1.
Proof. apply (linear_by _ _ _ (fun _ => 1%Qc) (fun _ => - (1))%Qc); intros; unfold sub_op, sub_g0, sub_g1; ring. Qed.
Theorem C68_mul : linear_in_each mul_op mul_g0 mul_g1.
Proof. apply (linear_by _ _ _ (fun b => b) (fun a => a)); intros; unfold mul_op, mul_g0, mul_g1; ring. Qed.
(** Division, by its remainder of second order. *)
Theorem C68_div : forall (dy a a' b h v : Qc), b <> 0%Qc -> (b + h <> 0)%Qc ->
  (dy * (div_op a' b - div_op a b) = (a' - a) * div_g0 dy a b v /\ dy * (div_op a (b + h) - div_op a b) = h * div_g1 dy a b v + h * h * (dy * a / (b * b * (b + h))))%Qc.
Proof. intros dy a a' b h v N N'. unfold div_op, div_g0, div_g1. split; field; auto. Qed.
(** Maximum and minimum give the gradient to the element that is the value, on a tie to the second. *)
Lemma qgt_iff a b : qgt a b = true <-> (b < a)%Qc.
Proof.
  unfold qgt. destruct (a ?= b)%Qc eqn:E.
  - apply Qceq_alt in E. subst. split; [discriminate |]. intros H. exfalso. exact (Qclt_not_eq _ _ H eq_refl).
  - apply Qclt_alt in E. split; [discriminate |]. intros H. exfalso. exact (Qclt_not_le _ _ H (Qclt_le_weak _ _ E)).
  - apply Qcgt_alt in E. split; auto.
Qed.
Theorem C68_extremes : forall e a b v : Qc,
  ((b < a -> max_op a b = a /\ max_g0 e a b v = e /\ max_g1 e a b v = 0) /\ (a <= b -> max_op a b = b /\ max_g0 e a b v = 0 /\ max_g1 e a b v = e))%Qc /\
  ((a < b -> min_op a b = a /\ min_g0 e a b v = e /\ min_g1 e a b v = 0) /\ (b <= a -> min_op a b = b /\ min_g0 e a b v = 0 /\ min_g1 e a b v = e))%Qc.
Proof.
  assert (LE : forall a b, (a <= b)%Qc -> qgt a b = false).
  { intros a b H. destruct (qgt a b) eqn:E; [| reflexivity]. apply qgt_iff in E. exfalso. exact (Qclt_not_le _ _ E H). }
  intros e a b v. unfold max_op, max_g0, max_g1, min_op, min_g0, min_g1.
  split; split; intros H.
  - rewrite (proj2 (qgt_iff a b) H). cbn [negb qbool]. split; [reflexivity | split; ring].
  - rewrite (LE a b H). cbn [negb qbool]. split; [reflexivity | split; ring].
  - rewrite (proj2 (qgt_iff b a) H). cbn [negb qbool]. split; [reflexivity | split; ring].
  - rewrite (LE b a H). cbn [negb qbool]. split; [reflexivity | split; ring].
Qed.
Definition back2 (g0 g1 : Qc -> Qc -> Qc -> Qc -> Qc) (A B : list Z) (x0 x1 y dy : list Qc) (d0 d1 : grad) :=
  match bin_setup A B with Some f => show2 (bin_backward g0 g1 f x0 x1 y dy d0 d1) | None => None end.
Example C68_runs :
  back2 mul_g0 mul_g1 [2; 1] [1; 3] (map q [10; 20]) (map q [1; 2; 3]) (nines 6) (map q [1; 1; 1; 2; 0; 1]) (Some (false, nines 2)) (Some (true, map q [100; 200; 300])) = Some (qs [6; 5], qs [150; 210; 330]) /\
  back2 sub_g0 sub_g1 [2; 2] [1; 1] (nines 4) (nines 1) (nines 4) (map q [1; 2; 3; 4]) None (Some (false, nines 1)) = Some (None, qs [-10]) /\
  back2 max_g0 max_g1 [3] [3] (map q [1; 2; 3]) (map q [2; 2; 2]) (nines 3) (map q [5; 6; 7]) (Some (false, nines 3)) (Some (false, nines 3)) = Some (qs [0; 0; 7], qs [5; 6; 0]).
Proof. vm_compute. repeat split. Qed.
Example C68_same_ex : match bin_setup [2] [2] with Some f => show (bin_backward_same mul_g0 mul_g1 f (map q [3; 4]) (map q [9; 16]) (map q [1; 10]) false (nines 2)) | None => None end = qs [6; 80].
Proof. vm_compute. reflexivity. Qed.

(** Functions of one array, element by element: the gradient is added or replaces. *)
Theorem C68_unary : forall C op g x y0 dy (accum : bool) d, sizes C -> has_size x (size C) -> has_size y0 (size C) -> has_size dy (size C) -> has_size d (size C) ->
  exists y e, un_forward op (prod C) x y0 = Some y /\ has_size y (size C) /\ un_grad g accum (prod C) dy x y d = Some e /\ has_size e (size C) /\
  forall c, inside c C -> qelem y C c = op (qelem x C c) /\ qelem e C c = ((if accum then qelem d C c else 0) + g (qelem dy C c) (qelem x C c) (op (qelem x C c)))%Qc.
Proof.
  intros C op g x y0 dy accum d P LX LY LE LD. unfold has_size in *. unfold un_forward, un_grad. rewrite prod_size.
  destruct (each_written (fun i y => obind (get x i) (fun a => put y i (op a))) (fun i => op (qat x i)) (size C) y0) as (y & E & L & V & _).
  - unfold qlen. pose proof (size_nonneg C P). lia.
  - intros i y Hi _ _. rewrite get_ok by (unfold within, qlen; lia). reflexivity.
  - destruct (each_written (fun i d => obind (get d i) (fun old => obind (get dy i) (fun e => obind (get x i) (fun a => obind (get y i) (fun v => put d i ((if accum then old else 0) + g e a v)%Qc)))))
      (fun i => ((if accum then qat d i else 0) + g (qat dy i) (qat x i) (op (qat x i)))%Qc) (size C) d) as (e & E' & L' & V' & _).
    + unfold qlen. pose proof (size_nonneg C P). lia.
    + intros i u Hi Lu U. rewrite !get_ok by (unfold within, qlen; lia). cbn [obind]. rewrite U, V by lia. reflexivity.
    + exists y, e. split; [exact E |]. split; [congruence |]. split; [exact E' |]. split; [congruence |]. intros c I. rewrite !qelem_off by exact I. pose proof (off_bound c C I). split; [apply V | apply V']; assumption.
Qed.
Example C68_unary_ex : match un_forward (fun u => u * u)%Qc 2 (map q [3; 4]) (nines 2) with Some y => show (un_grad (fun e a _ => e * (a + a))%Qc true 2 (map q [1; 10]) (map q [3; 4]) y (map q [100; 200])) | None => None end = qs [106; 280].
Proof. vm_compute. reflexivity. Qed.

(** * C69: the operators *)
(** Two shapes that fit, and the shape of the result. *)
Definition fit (A B C : list Z) : Prop := joined A B C /\ unmixed A B.
Lemma fit_setup A B C : fit A B C -> exists f, bin_setup A B = Some f /\ b_out f = C.
Proof. apply C67_accepted. Qed.
Lemma fit_none A B : (forall C, ~ fit A B C) -> bin_setup A B = None.
Proof. intros H. destruct (bin_setup A B) as [f |] eqn:E; [| reflexivity]. exfalso. apply (H (b_out f)). apply C67_accepted. exists f. auto. Qed.
Lemma joined_refl A : joined A A A.
Proof. induction A; constructor; assumption. Qed.
Lemma unmixed_refl A : unmixed A A.
Proof. induction A; constructor; [lia | assumption]. Qed.
Lemma joined_unique A B C : joined A B C -> forall C', joined A B C' -> unmixed A B -> C = C'.
Proof. intros J C' J' U. pose proof (joined_bin_out _ _ _ J U). pose proof (joined_bin_out _ _ _ J' U). congruence. Qed.
Lemma joined_self A C : joined A A C -> C = A.
Proof. intros J. exact (joined_unique A A C J A (joined_refl A) (unmixed_refl A)). Qed.

(** ** Add2 *)
Lemma add2_made old A B C f : fit A B C -> add2_setup old A B = Some f -> add2_shape f = C /\ ((f = Plain A /\ A = B) \/ exists g, f = Fallen g /\ bin_setup A B = Some g).
Proof.
  intros (J & U) S. unfold add2_setup in S.
  assert (FALL : obind (bin_setup A B) (fun g => Some (Fallen g)) = Some f -> add2_shape f = C /\ ((f = Plain A /\ A = B) \/ exists g, f = Fallen g /\ bin_setup A B = Some g)).
  { intros H. destruct (bin_setup A B) as [g |] eqn:E; [| discriminate]. cbn [obind] in H. injection H as <-. split; [exact (fit_out A B C g J E) | right; exists g; auto]. }
  assert (EITHER : (if list_eq_dec Z.eq_dec A B then Some (Plain A) else obind (bin_setup A B) (fun g => Some (Fallen g))) = Some f -> add2_shape f = C /\ ((f = Plain A /\ A = B) \/ exists g, f = Fallen g /\ bin_setup A B = Some g)).
  { intros H. destruct (list_eq_dec Z.eq_dec A B) as [<- |]; [| auto]. injection H as <-. split; [cbn [add2_shape]; symmetry; apply joined_self; exact J | left; auto]. }
  destruct old as [[s | g] |]; auto.
Qed.
Lemma plain_forward (op : Qc -> Qc -> Qc) A x0 x1 y0 : sizes A -> has_size x0 (size A) -> has_size x1 (size A) -> has_size y0 (size A) ->
  exists y, loop (fun i y => obind (get x0 i) (fun a => obind (get x1 i) (fun b => put y i (op a b)))) (upto (prod A)) y0 = Some y /\ has_size y (size A) /\ pairwise op A A A x0 x1 y.
Proof.
  intros P L0 L1 LY. unfold has_size in *. rewrite prod_size.
  destruct (each_written (fun i y => obind (get x0 i) (fun a => obind (get x1 i) (fun b => put y i (op a b)))) (fun i => op (qat x0 i) (qat x1 i)) (size A) y0) as (y & E & L & V & _).
  - unfold qlen. pose proof (size_nonneg A P). lia.
  - intros i y Hi _ _. rewrite !get_ok by (unfold within, qlen; lia). reflexivity.
  - exists y. split; [exact E |]. split; [congruence |]. intros c I. rewrite picked_same by exact I. rewrite !qelem_off by exact I. apply V. apply off_bound. exact I.
Qed.
(** Whatever shapes the function was set up for before, it adds, and its gradients are sums. *)
Theorem C69_add2 : forall old A B C, fit A B C -> sizes C -> exists f, add2_setup old A B = Some f /\ add2_shape f = C /\
  (forall x0 x1 y0, has_size x0 (size A) -> has_size x1 (size B) -> has_size y0 (size C) ->
    exists y, add2_forward f x0 x1 y0 = Some y /\ has_size y (size C) /\ pairwise Qcplus A B C x0 x1 y) /\
  (forall x0 x1 y dy d0 d1, has_size x0 (size A) -> has_size x1 (size B) -> has_size y (size C) -> has_size dy (size C) -> grad_size d0 (size A) -> grad_size d1 (size B) ->
    exists e0 e1, add2_backward f x0 x1 y dy d0 d1 = Some (e0, e1) /\
    each_at d0 e0 A (fun a => total (used_at A C a) (qelem dy C)) /\ each_at d1 e1 B (fun b => total (used_at B C b) (qelem dy C))).
Proof.
  intros old A B C F P. destruct (fit_setup A B C F) as (g & S & _).
  assert (EX : exists f, add2_setup old A B = Some f) by (unfold add2_setup; rewrite S; cbn [obind]; destruct old as [[s | g'] |]; [destruct (list_eq_dec Z.eq_dec A B) | | destruct (list_eq_dec Z.eq_dec A B)]; eexists; reflexivity).
  destruct EX as (f & E). exists f. split; [exact E |]. destruct (add2_made old A B C f F E) as (SH & K). split; [exact SH |]. destruct F as (J & U).
  destruct K as [(-> & EQ) | (g' & -> & S')].
  - subst B. cbn [add2_shape] in SH. subst C. split.
    + intros x0 x1 y0 L0 L1 LY. exact (plain_forward Qcplus A x0 x1 y0 P L0 L1 LY).
    + intros x0 x1 y dy d0 d1 _ _ _ LE G0 G1.
      assert (ONE : forall a (h : list Z -> Qc), inside a A -> total (used_at A A a) h = h a).
      { intros a h Ia. unfold used_at. rewrite total_filter. rewrite (total_indices A _ (fun q => if q =? off a A then h a else 0%Qc)); [apply (zsum_one (size A) (off a A) (fun _ => h a)); apply off_bound; exact Ia | exact P |].
        intros i Ii. rewrite picked_same by exact Ii. destruct (list_eq_dec Z.eq_dec i a) as [-> | N]; [rewrite Z.eqb_refl; reflexivity |]. destruct (Z.eqb_spec (off i A) (off a A)) as [Q |]; [| reflexivity]. exfalso. apply N. apply (SliceProofs.off_inj A); assumption. }
      assert (GR : forall d, grad_size d (size A) -> exists e, with_grad (fun accum => add2_grad accum (prod A) dy) d = Some e /\ each_at d e A (fun a => total (used_at A A a) (qelem dy A))).
      { intros [[accum d] |] G; cbn [with_grad]; [| exists None; split; [reflexivity | exact I]]. cbn [grad_size] in G. unfold has_size in *.
        destruct (each_written (fun i d => obind (get dy i) (fun e => obind (get d i) (fun old => put d i (if accum then (old + e)%Qc else e)))) (fun i => ((if accum then qat d i else 0) + qat dy i)%Qc) (size A) d) as (e & EE & L & V & _).
        - unfold qlen. pose proof (size_nonneg A P). lia.
        - intros i u Hi Lu Hu. rewrite !get_ok by (unfold within, qlen; lia). cbn [obind]. rewrite Hu by lia. destruct accum; [reflexivity | f_equal; ring].
        - unfold add2_grad. rewrite prod_size, EE. exists (Some e). split; [reflexivity |]. split; [exact L |]. intros a Ia. rewrite ONE by exact Ia. rewrite !qelem_off by exact Ia. rewrite V by (apply off_bound; exact Ia). destruct accum; reflexivity. }
      destruct (GR d0 G0) as (e0 & E0 & V0). destruct (GR d1 G1) as (e1 & E1 & V1). exists e0, e1. split; [cbn [add2_backward]; rewrite E0; cbn [obind]; rewrite E1; reflexivity | auto].
  - split.
    + intros x0 x1 y0 L0 L1 LY. exact (C67_values A B C g' add_op x0 x1 y0 S' J P L0 L1 LY).
    + intros x0 x1 y dy d0 d1 L0 L1 LY LE G0 G1. exact (C68_sums A B C g' add_g0 add_g1 x0 x1 y dy d0 d1 S' J P L0 L1 LY LE G0 G1).
Qed.

(** ** Operators *)
(** A number counts as an array that is repeated everywhere. *)
Definition opfits (x y : operand) (C : list Z) : Prop :=
  match x, y with
  | Arr a, Arr b => fit (fst a) (fst b) C
  | Arr a, Num _ => fst a = C
  | Num _, Arr b => fst b = C
  | Num _, Num _ => False
  end.
Definition whole (x : operand) : Prop := match x with Arr a => has_size (snd a) (size (fst a)) | Num _ => True end.
Definition at_place (x : operand) (c : list Z) : Qc := match x with Arr a => qelem (snd a) (fst a) (picked (fst a) c) | Num n => n end.
Definition meaning (o : operator) (a b v : Qc) : Prop :=
  match o with Plus => v = (a + b)%Qc | Minus => v = (a - b)%Qc | Times => v = (a * b)%Qc | Over => b <> 0%Qc -> (v * b = a)%Qc end.
Lemma fresh_size junk C : sizes C -> has_size (fresh junk C) (size C).
Proof. intros P. unfold has_size, fresh. rewrite repeat_length, prod_size. pose proof (size_nonneg C P). lia. Qed.
Lemma call2_ok junk op a b C : fit (fst a) (fst b) C -> sizes C -> whole (Arr a) -> whole (Arr b) ->
  exists y, call2 junk op a b = Some (C, y) /\ has_size y (size C) /\ pairwise op (fst a) (fst b) C (snd a) (snd b) y.
Proof.
  intros F P La Lb. destruct (fit_setup _ _ _ F) as (f & S & O). destruct F as (J & U).
  destruct (C67_values _ _ C f op (snd a) (snd b) (fresh junk C) S J P La Lb (fresh_size junk C P)) as (y & E & L & V).
  exists y. unfold call2. rewrite S. cbn [obind]. rewrite O, E. auto.
Qed.
Lemma call_add_ok junk a b C : fit (fst a) (fst b) C -> sizes C -> whole (Arr a) -> whole (Arr b) ->
  exists y, call_add junk a b = Some (C, y) /\ has_size y (size C) /\ pairwise Qcplus (fst a) (fst b) C (snd a) (snd b) y.
Proof.
  intros F P La Lb. destruct (C69_add2 None _ _ C F P) as (f & S & O & V & _). destruct (V (snd a) (snd b) (fresh junk C) La Lb (fresh_size junk C P)) as (y & E & L & W).
  exists y. unfold call_add. rewrite S. cbn [obind]. rewrite O, E. auto.
Qed.
Lemma unary_ok op C x y0 : sizes C -> has_size x (size C) -> has_size y0 (size C) ->
  exists y, un_forward op (prod C) x y0 = Some y /\ has_size y (size C) /\ forall c, inside c C -> qelem y C c = op (qelem x C c).
Proof.
  intros P L LY. unfold has_size in *. unfold un_forward. rewrite prod_size.
  destruct (each_written (fun i y => obind (get x i) (fun a => put y i (op a))) (fun i => op (qat x i)) (size C) y0) as (y & E & L' & V & _).
  - unfold qlen. pose proof (size_nonneg C P). lia.
  - intros i y Hi _ _. rewrite get_ok by (unfold within, qlen; lia). reflexivity.
  - exists y. split; [exact E |]. split; [congruence |]. intros c I. rewrite !qelem_off by exact I. apply V. apply off_bound. exact I.
Qed.
Lemma call1_ok junk op a : sizes (fst a) -> whole (Arr a) -> exists y, call1 junk op a = Some (fst a, y) /\ has_size y (size (fst a)) /\ forall c, inside c (fst a) -> qelem y (fst a) c = op (qelem (snd a) (fst a) c).
Proof.
  intros P L. destruct (unary_ok op (fst a) (snd a) (fresh junk (fst a)) P L (fresh_size junk _ P)) as (y & E & L' & V). exists y. unfold call1. rewrite E. auto.
Qed.
(** Every operator gives, at every place, what it means for the two values there, whichever
    function the operands are handed to. *)
Theorem C69_operators : forall junk o x y C, opfits x y C -> sizes C -> whole x -> whole y -> ~ (o = Over /\ y = Num 0) ->
  exists r, apply_op junk o x y = Some (Arr (C, r)) /\ has_size r (size C) /\
  forall c, inside c C -> meaning o (at_place x c) (at_place y c) (qelem r C c).
Proof.
  intros junk o x y C F P Wx Wy N.
  destruct x as [a | m], y as [b | n]; cbn [opfits] in F; [| subst C | subst C | contradiction].
  - destruct o; cbn [apply_op].
    + destruct (call_add_ok junk a b C F P Wx Wy) as (r & E & L & V). exists r. rewrite E. split; [reflexivity |]. split; [exact L |]. intros c I. rewrite (V c I). reflexivity.
    + destruct (call2_ok junk sub_op a b C F P Wx Wy) as (r & E & L & V). exists r. rewrite E. split; [reflexivity |]. split; [exact L |]. intros c I. rewrite (V c I). reflexivity.
    + destruct (call2_ok junk mul_op a b C F P Wx Wy) as (r & E & L & V). exists r. rewrite E. split; [reflexivity |]. split; [exact L |]. intros c I. rewrite (V c I). reflexivity.
    + destruct (call2_ok junk div_op a b C F P Wx Wy) as (r & E & L & V). exists r. rewrite E. split; [reflexivity |]. split; [exact L |]. intros c I. rewrite (V c I). cbn [meaning at_place]. intros NZ. unfold div_op. field. exact NZ.
  - destruct o; cbn [apply_op].
    4: { unfold number_op. destruct (Qc_eq_dec n 0) as [-> | NZ]; [exfalso; apply N; auto |]. cbn [obind].
      destruct (call1_ok junk (fun u => u * (1 / n))%Qc a P Wx) as (r & E & L & V). exists r. rewrite E. split; [reflexivity |]. split; [exact L |]. intros c I. rewrite (V c I). cbn [meaning at_place]. rewrite picked_same by exact I. intros _. field. exact NZ. }
    + destruct (call1_ok junk (fun u => u + n)%Qc a P Wx) as (r & E & L & V). exists r. rewrite E. split; [reflexivity |]. split; [exact L |]. intros c I. rewrite (V c I). cbn [meaning at_place]. rewrite picked_same by exact I. ring.
    + destruct (call1_ok junk (fun u => u + - n)%Qc a P Wx) as (r & E & L & V). exists r. rewrite E. split; [reflexivity |]. split; [exact L |]. intros c I. rewrite (V c I). cbn [meaning at_place]. rewrite picked_same by exact I. ring.
    + destruct (call1_ok junk (fun u => u * n)%Qc a P Wx) as (r & E & L & V). exists r. rewrite E. split; [reflexivity |]. split; [exact L |]. intros c I. rewrite (V c I). cbn [meaning at_place]. rewrite picked_same by exact I. ring.
  - destruct o; cbn [apply_op].
    + destruct (call1_ok junk (fun u => u + m)%Qc b P Wy) as (r & E & L & V). exists r. rewrite E. split; [reflexivity |]. split; [exact L |]. intros c I. rewrite (V c I). cbn [meaning at_place]. rewrite picked_same by exact I. ring.
    + destruct (call1_ok junk (fun u => m - u)%Qc b P Wy) as (r & E & L & V). exists r. rewrite E. split; [reflexivity |]. split; [exact L |]. intros c I. rewrite (V c I). cbn [meaning at_place]. rewrite picked_same by exact I. ring.
    + destruct (call1_ok junk (fun u => u * m)%Qc b P Wy) as (r & E & L & V). exists r. rewrite E. split; [reflexivity |]. split; [exact L |]. intros c I. rewrite (V c I). cbn [meaning at_place]. rewrite picked_same by exact I. ring.
    + destruct (call1_ok junk (fun u => m / u)%Qc b P Wy) as (r & E & L & V). exists r. rewrite E. split; [reflexivity |]. split; [exact L |]. intros c I. rewrite (V c I). cbn [meaning at_place]. rewrite picked_same by exact I. intros NZ. field. exact NZ.
Qed.
(** Refused: shapes that do not fit, and division by the number zero. *)
Theorem C69_refused : forall junk o a b, (forall C, ~ fit (fst a) (fst b) C) -> apply_op junk o (Arr a) (Arr b) = None.
Proof.
  intros junk o a b H. pose proof (fit_none _ _ H) as S. assert (ND : fst a <> fst b) by (intros E; apply (H (fst a)); rewrite <- E; split; [apply joined_refl | apply unmixed_refl]).
  destruct o; cbn [apply_op]; unfold call2, call_add, add2_setup; try rewrite S; cbn [obind]; try reflexivity. destruct (list_eq_dec Z.eq_dec (fst a) (fst b)); [contradiction | reflexivity].
Qed.
Theorem C69_by_zero : forall junk x, apply_op junk Over x (Num 0) = None.
Proof. intros junk [a | m]; cbn [apply_op]; unfold number_op; destruct (Qc_eq_dec 0 0) as [_ | N]; try reflexivity; exfalso; apply N; reflexivity. Qed.
Theorem C69_negate : forall junk a, sizes (fst a) -> whole (Arr a) -> exists r, negate junk a = Some (fst a, r) /\ has_size r (size (fst a)) /\ forall c, inside c (fst a) -> qelem r (fst a) c = (- qelem (snd a) (fst a) c)%Qc.
Proof. intros junk a P W. destruct (call1_ok junk (fun u => u * - (1))%Qc a P W) as (r & E & L & V). exists r. split; [exact E |]. split; [exact L |]. intros c I. rewrite (V c I). ring. Qed.
Definition showo (r : option operand) : option (list Z * list Q) := match r with Some (Arr (s, y)) => Some (s, map this y) | Some (Num c) => Some ([-1], [this c]) | None => None end.
Example C69_runs :
  showo (apply_op (q 9) Minus (Num (q 10)) (Arr ([2], map q [1; 2]))) = Some ([2], map inject_Z [9; 8]) /\
  showo (apply_op (q 9) Over (Num (q 10)) (Arr ([2], map q [1; 2]))) = Some ([2], map inject_Z [10; 5]) /\
  showo (apply_op (q 9) Over (Arr ([2], map q [10; 20])) (Num (q 5))) = Some ([2], map inject_Z [2; 4]) /\
  showo (apply_op (q 9) Minus (Arr ([2; 1], map q [10; 20])) (Arr ([1; 2], map q [1; 2]))) = Some ([2; 2], map inject_Z [9; 8; 19; 18]) /\
  showo (apply_op (q 9) Plus (Arr ([2; 1], map q [10; 20])) (Arr ([1; 2], map q [1; 2]))) = Some ([2; 2], map inject_Z [11; 12; 21; 22]) /\
  showo (apply_op (q 9) Over (Arr ([2], map q [10; 20])) (Num 0)) = None /\
  showo (apply_op (q 9) Times (Arr ([2], map q [10; 20])) (Arr ([3], map q [1; 2; 3]))) = None.
Proof. vm_compute. repeat split. Qed.

(** ** Augmented assignments *)
(** Adding or subtracting an array that can be repeated to the shape of the updated one, also
    the array itself, and every operation with a number: array and name hold the new values. *)
Lemma scalar_into_ok op a : sizes (fst a) -> whole (Arr a) -> exists y, scalar_into op a = Some (fst a, y) /\ has_size y (size (fst a)) /\ forall c, inside c (fst a) -> qelem y (fst a) c = op (qelem (snd a) (fst a) c).
Proof.
  intros P L. cbn [whole] in L. unfold has_size in *. unfold scalar_into. rewrite prod_size.
  destruct (each_written (fun i y => obind (get y i) (fun u => put y i (op u))) (fun i => op (qat (snd a) i)) (size (fst a)) (snd a)) as (y & E & L' & V & _).
  - unfold qlen. pose proof (size_nonneg _ P). lia.
  - intros i y Hi Ly U. rewrite get_ok by (unfold within, qlen; lia). cbn [obind]. rewrite U by lia. reflexivity.
  - exists y. rewrite E. split; [reflexivity |]. split; [congruence |]. intros c I. rewrite !qelem_off by exact I. apply V. apply off_bound. exact I.
Qed.
Lemma call_into_ok (same : bool) op a b : fit (fst a) (fst b) (fst a) -> sizes (fst a) -> whole (Arr a) -> whole (Arr b) -> (same = true -> b = a) ->
  exists y, call_into same op a b = Some (fst a, y) /\ has_size y (size (fst a)) /\ pairwise op (fst a) (fst b) (fst a) (snd a) (snd b) y.
Proof.
  intros F P La Lb SM. destruct (fit_setup _ _ _ F) as (f & S & O). destruct F as (J & U).
  assert (EQ : (if same then snd a else snd b) = snd b) by (destruct same; [rewrite SM; reflexivity | reflexivity]).
  destruct (in_place_ok _ _ _ f J S P same op (snd b) (snd a) eq_refl) as (y & E & L & V).
  - intros ->. rewrite SM; reflexivity.
  - rewrite EQ. exact Lb.
  - exact La.
  - exists y. unfold call_into. rewrite S. cbn [obind]. rewrite O, Z.eqb_refl. cbn [negb]. rewrite E. split; [reflexivity |]. split; [unfold has_size in *; cbn [whole] in La; unfold has_size in La; congruence |]. rewrite EQ in V. exact V.
Qed.
Lemma add_into_ok (same : bool) a b : fit (fst a) (fst b) (fst a) -> sizes (fst a) -> whole (Arr a) -> whole (Arr b) -> (same = true -> b = a) ->
  exists y, add_into same a b = Some (fst a, y) /\ has_size y (size (fst a)) /\ pairwise Qcplus (fst a) (fst b) (fst a) (snd a) (snd b) y.
Proof.
  intros F P La Lb SM. unfold add_into. destruct (list_eq_dec Z.eq_dec (fst a) (fst b)) as [EA |].
  - cbn [whole] in La, Lb. unfold has_size in *. rewrite prod_size.
    destruct (each_written (fun i y => obind (get y i) (fun u => obind (get (if same then y else snd b) i) (fun v => put y i (u + v)%Qc))) (fun i => (qat (snd a) i + qat (snd b) i)%Qc) (size (fst a)) (snd a)) as (y & E & L & V & _).
    + unfold qlen. pose proof (size_nonneg _ P). lia.
    + intros i y Hi Ly U. rewrite get_ok by (unfold within, qlen; lia). cbn [obind]. rewrite U by lia. destruct same.
      * rewrite get_ok by (unfold within, qlen; lia). cbn [obind]. rewrite U by lia. rewrite (SM eq_refl). reflexivity.
      * rewrite get_ok by (unfold within, qlen; rewrite <- EA in Lb; lia). reflexivity.
    + exists y. rewrite E. split; [reflexivity |]. split; [congruence |]. intros c I. rewrite <- EA. rewrite picked_same by exact I. rewrite !qelem_off by exact I. apply V. apply off_bound. exact I.
  - apply call_into_ok; assumption.
Qed.
Theorem C69_augmented : forall junk o (same : bool) a y, (forall b, y = Arr b -> (o = Plus \/ o = Minus) /\ fit (fst a) (fst b) (fst a) /\ (same = true -> b = a)) ->
  sizes (fst a) -> whole (Arr a) -> whole y -> ~ (o = Over /\ y = Num 0) ->
  exists r, augment junk o same a y = Some ((fst a, r), (fst a, r)) /\ has_size r (size (fst a)) /\
  forall c, inside c (fst a) -> meaning o (at_place (Arr a) c) (at_place y c) (qelem r (fst a) c).
Proof.
  intros junk o same a y F P Wa Wy N. destruct y as [b | n].
  - destruct (F b eq_refl) as (K & FT & SM). destruct o; try (destruct K; discriminate); cbn [augment].
    + destruct (add_into_ok same a b FT P Wa Wy SM) as (r & E & L & V). exists r. rewrite E. split; [reflexivity |]. split; [exact L |]. intros c I. rewrite (V c I). reflexivity.
    + destruct (call_into_ok same sub_op a b FT P Wa Wy SM) as (r & E & L & V). exists r. rewrite E. split; [reflexivity |]. split; [exact L |]. intros c I. rewrite (V c I). reflexivity.
  - destruct o; cbn [augment].
    4: { unfold number_op. destruct (Qc_eq_dec n 0) as [-> | NZ]; [exfalso; apply N; auto |]. cbn [obind].
      destruct (scalar_into_ok (fun u => u * (1 / n))%Qc a P Wa) as (r & E & L & V). exists r. rewrite E. split; [reflexivity |]. split; [exact L |]. intros c I. rewrite (V c I). cbn [meaning at_place]. rewrite picked_same by exact I. intros _. field. exact NZ. }
    + destruct (scalar_into_ok (fun u => u + n)%Qc a P Wa) as (r & E & L & V). exists r. rewrite E. split; [reflexivity |]. split; [exact L |]. intros c I. rewrite (V c I). cbn [meaning at_place]. rewrite picked_same by exact I. ring.
    + destruct (scalar_into_ok (fun u => u + - n)%Qc a P Wa) as (r & E & L & V). exists r. rewrite E. split; [reflexivity |]. split; [exact L |]. intros c I. rewrite (V c I). cbn [meaning at_place]. rewrite picked_same by exact I. ring.
    + destruct (scalar_into_ok (fun u => u * n)%Qc a P Wa) as (r & E & L & V). exists r. rewrite E. split; [reflexivity |]. split; [exact L |]. intros c I. rewrite (V c I). cbn [meaning at_place]. rewrite picked_same by exact I. ring.
Qed.
(** An array whose addition would need more places than the updated array has is refused. *)
Theorem C69_augmented_refused : forall junk o (same : bool) a b, o = Plus \/ o = Minus -> (forall C, fit (fst a) (fst b) C -> size C <> size (fst a)) -> augment junk o same a (Arr b) = None.
Proof.
  intros junk o same a b K H.
  assert (CI : forall op, call_into same op a b = None).
  { intros op. unfold call_into. destruct (bin_setup (fst a) (fst b)) as [f |] eqn:E; [| reflexivity]. cbn [obind].
    assert (F : fit (fst a) (fst b) (b_out f)) by (apply C67_accepted; exists f; auto). specialize (H _ F). rewrite !prod_size. destruct (Z.eqb_spec (size (fst a)) (size (b_out f))); [congruence | reflexivity]. }
  destruct K as [-> | ->]; cbn [augment]; [| rewrite CI; reflexivity].
  unfold add_into. destruct (list_eq_dec Z.eq_dec (fst a) (fst b)) as [E |]; [| rewrite CI; reflexivity].
  exfalso. apply (H (fst a)); [rewrite <- E; split; [apply joined_refl | apply unmixed_refl] | reflexivity].
Qed.
Definition showa (r : option (nd * nd)) : option (list Q * list Q) := match r with Some (a, b) => Some (map this (snd a), map this (snd b)) | None => None end.
Example C69_augmented_runs :
  showa (augment (q 9) Plus false ([2; 2], map q [1; 2; 3; 4]) (Arr ([1; 2], map q [10; 20]))) = Some (map inject_Z [11; 22; 13; 24], map inject_Z [11; 22; 13; 24]) /\
  showa (augment (q 9) Minus true ([2], map q [1; 2]) (Arr ([2], map q [1; 2]))) = Some (map inject_Z [0; 0], map inject_Z [0; 0]) /\
  showa (augment (q 9) Times false ([2], map q [1; 2]) (Num (q 5))) = Some (map inject_Z [5; 10], map inject_Z [5; 10]) /\
  showa (augment (q 9) Minus false ([1; 2], map q [1; 2]) (Arr ([2; 2], map q [1; 2; 3; 4]))) = None.
Proof. vm_compute. repeat split. Qed.
(** Multiplying or dividing by an array leaves the array as it was: only the name is bound to the
    product.  Another name for the array does not see the new values. *)
Theorem C69_augmented_refuted : ~ forall junk o (same : bool) a b r, fst a = fst b -> sizes (fst a) -> whole (Arr a) -> whole (Arr b) -> augment junk o same a (Arr b) = Some r -> fst r = snd r.
Proof.
  intros H. destruct (augment (q 9) Times false ([1], [q 2]) (Arr ([1], [q 3]))) as [r |] eqn:E; [| vm_compute in E; discriminate].
  assert (K : fst r = snd r) by (apply (H (q 9) Times false ([1], [q 2]) ([1], [q 3]) r); [reflexivity | repeat constructor; cbn; lia | reflexivity | reflexivity | exact E]).
  vm_compute in E. injection E as <-. cbn [fst snd] in K. discriminate.
Qed.
(** A row that is updated with a column is refused only because of the number of elements: with
    an empty array the shapes need not agree. *)
Theorem C69_unlike_shape_refuted : ~ forall junk o (same : bool) a b r, (o = Plus \/ o = Minus) -> augment junk o same a (Arr b) = Some r -> fit (fst a) (fst b) (fst a).
Proof.
  intros H. assert (F : fit [1; 0] [2; 0] [1; 0]).
  { apply (H (q 9) Plus false ([1; 0], []) ([2; 0], []) (([1; 0], []), ([1; 0], []))); [auto | vm_compute; reflexivity]. }
  destruct F as (J & U). pose proof (joined_bin_out _ _ _ J U) as E. vm_compute in E. discriminate.
Qed.

Print Assumptions C67_accepted. Print Assumptions C67_values. Print Assumptions C67_numpy_refuted. Print Assumptions C68_sums. Print Assumptions C68_same. Print Assumptions C68_add. Print Assumptions C68_sub. Print Assumptions C68_mul. Print Assumptions C68_div. Print Assumptions C68_extremes. Print Assumptions C68_unary.
Print Assumptions C69_add2. Print Assumptions C69_operators. Print Assumptions C69_refused. Print Assumptions C69_by_zero. Print Assumptions C69_negate. Print Assumptions C69_augmented. Print Assumptions C69_augmented_refused. Print Assumptions C69_augmented_refuted. Print Assumptions C69_unlike_shape_refuted.
