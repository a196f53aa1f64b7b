(** Pad: sources by index, and gradients. *)
From Coq Require Import List ZArith Lia Bool Permutation.
From Verif Require Import NdModel NdSpec NdProofs IdxModel IdxSpec IdxProofs1 IdxProofs2 IdxProofs3.
Import ListNotations.
Local Open Scope list_scope.
Local Open Scope Z_scope.

Lemma reflect_index_ok n p : 0 < n -> reflect_index (Z.abs p) (n - 1) = mirror_whole n p.
Proof.
  intros Hn. unfold reflect_index, mirror_whole. destruct (Z.ltb_spec 0 (n - 1)), (Z.eqb_spec n 1); try lia.
  set (L := n - 1) in *. assert (EL : n = L + 1) by lia. clearbody L. subst n.
  rewrite Z.quot_div_nonneg, Z.rem_mod_nonneg by lia. change 1 with (Z.ones 1) at 1. rewrite Z.land_ones by lia. change (2 ^ 1) with 2.
  set (q := Z.abs p).
  assert (Q : Z.abs ((q / L) mod 2 * L - q mod L) = let a := q mod (2 * L) in if a <? L + 1 then a else 2 * L - a).
  { cbn zeta. pose proof (Z.mod_pos_bound q (2 * L) ltac:(lia)) as Ba. set (a := q mod (2 * L)) in *.
    assert (E : q = 2 * L * (q / (2 * L)) + a) by (apply Z.div_mod; lia).
    assert (D : q / L = 2 * (q / (2 * L)) + a / L).
    { rewrite E at 1. replace (2 * L * (q / (2 * L)) + a) with (a + (2 * (q / (2 * L))) * L) by ring. rewrite Z.div_add by lia. ring. }
    assert (M : q mod L = a mod L).
    { rewrite E at 1. replace (2 * L * (q / (2 * L)) + a) with (a + (2 * (q / (2 * L))) * L) by ring. rewrite Z.mod_add by lia. auto. }
    rewrite D, M. replace ((2 * (q / (2 * L)) + a / L) mod 2) with ((a / L) mod 2).
    2:{ replace (2 * (q / (2 * L)) + a / L) with (a / L + (q / (2 * L)) * 2) by ring. rewrite Z.mod_add by lia. auto. }
    clear D M E. clearbody a. destruct (Z_lt_ge_dec a L).
    - rewrite (Z.div_small a L), (Z.mod_small a L) by lia. change (0 mod 2) with 0. destruct (Z.ltb_spec a (L + 1)); lia.
    - assert (a / L = 1) as ->. { symmetry. apply Z.div_unique with (a - L); lia. }
      assert (a mod L = a - L) as ->. { symmetry. apply Z.mod_unique with 1; lia. }
      change (1 mod 2) with 1. destruct (Z.ltb_spec a (L + 1)); lia. }
  rewrite Q. cbn zeta. unfold q. clear Q q.
  destruct (Z_le_gt_dec 0 p).
  - rewrite Z.abs_eq by lia. auto.
  - rewrite Z.abs_neq by lia. destruct (Z.eq_dec (p mod (2 * L)) 0) as [E|E].
    + rewrite Z.mod_opp_l_z by lia. rewrite E. auto.
    + rewrite Z.mod_opp_l_nz by lia. pose proof (Z.mod_pos_bound p (2 * L) ltac:(lia)).
      destruct (Z.ltb_spec (2 * L - p mod (2 * L)) (L + 1)), (Z.ltb_spec (p mod (2 * L)) (L + 1)); lia.
Qed.
Lemma mirror_whole_within n p : 0 < n -> within n (mirror_whole n p).
Proof.
  intros H. unfold within, mirror_whole. destruct (Z.eqb_spec n 1); [lia|]. pose proof (Z.mod_pos_bound p (2 * (n - 1)) ltac:(lia)).
  cbn zeta. destruct (Z.ltb_spec (p mod (2 * (n - 1))) n); lia.
Qed.

(** Reflect and repeat. *)
Definition ext_of (m : pad_mode) : Z -> Z -> Z := match m with PReflect => mirror_whole | _ => nearest end.
Fixpoint ext_fs (f : Z -> Z -> Z) (shape : list Z) (padding : list (Z * Z)) : list (Z -> Z) :=
  match shape, padding with
  | n :: shape, (a, _) :: padding => (fun i => f n (i - a)) :: ext_fs f shape padding
  | _, _ => []
  end.
Lemma ext_srcs m shape padding : m <> PConstant -> positive shape -> length padding = length shape ->
  let ys := pad_shape shape padding in
  fits ys (ext_fs (ext_of m) shape padding) shape /\
  forall st, length st = length shape -> srcs (pad_desc m ys padding st) = srcs (desc ys (ext_fs (ext_of m) shape padding) st).
Proof.
  intros NC P L. cbn zeta. split.
  - revert padding L. induction P as [|n s Hn P IH]; intros [|[a b] padding] L; try discriminate; cbn; constructor; [|apply IH; auto].
    intros i _. destruct m; [congruence|apply mirror_whole_within; auto|]. cbn [ext_of]. unfold within, nearest. lia.
  - intros st Lst. apply srcs_ext. revert padding L st Lst.
    induction P as [|n s Hn P IH]; intros [|[a b] padding] L [|v st] Lst; try discriminate; cbn; constructor; [|apply IH; auto].
    cbn [fst snd]. split; [auto|]. intros i _. destruct m; [congruence| |]; cbn [pad_h ext_of]; do 2 f_equal.
    + replace (n + a + b - a - b - 1) with (n - 1) by ring. apply reflect_index_ok. auto.
    + unfold nearest. lia.
Qed.
Lemma ext_nth f shape : forall padding k, (k < length shape)%nat -> length padding = length shape ->
  nth_error (ext_fs f shape padding) k = Some (fun i => f (nth k shape 0) (i - fst (nth k padding (0, 0)))).
Proof.
  induction shape as [|n s IH]; intros [|[a b] padding] k H L; try discriminate; cbn in H; [lia|]. destruct k as [|k]; cbn [ext_fs nth_error nth]; [reflexivity|].
  apply IH; cbn in *; lia.
Qed.
Lemma ext_fs_length f shape : forall padding, length padding = length shape -> length (ext_fs f shape padding) = length shape.
Proof. induction shape as [|n s IH]; intros [|[a b] p] L; try discriminate; cbn; auto. Qed.
Lemma padding_nth (shape w : list Z) k : Nat.even (length w) = true -> (length w <= 2 * length shape)%nat -> (k < length shape)%nat ->
  nth k (padding_of (length shape) w) (0, 0) = (pad_before w (length shape) k, pad_after w (length shape) k).
Proof.
  intros Ev Le Hk. pose proof (pad_pairs_length w Ev) as LP. unfold padding_of, pad_before, pad_after.
  destruct (Nat.ltb_spec (2 * k + length w) (2 * length shape)) as [H|H].
  - rewrite app_nth1 by (rewrite repeat_length; lia). destruct (nth_in_or_default k (repeat (0,0) (length shape - length (pad_pairs w))) (0,0)) as [E|E]; [|auto].
    apply repeat_spec in E. auto.
  - rewrite app_nth2 by (rewrite repeat_length; lia). rewrite repeat_length.
    replace (2 * k + length w - 2 * length shape)%nat with (2 * (k - (length shape - length (pad_pairs w))))%nat by lia.
    generalize (k - (length shape - length (pad_pairs w)))%nat as q. clear - Ev.
    enough (G : forall n (w : list Z) q, (length w <= n)%nat -> Nat.even (length w) = true -> nth q (pad_pairs w) (0, 0) = (nth (2 * q) w 0, nth (2 * q + 1) w 0)) by (intros q; apply (G (length w)); auto).
    clear. induction n as [|n IH]; intros [|a [|b v]] q L E; cbn [length] in *; try lia; try discriminate.
    + cbn [pad_pairs]. destruct q as [|q]; [reflexivity|]. cbn [nth]. replace (2 * S q)%nat with (S (S (2 * q))) by lia. reflexivity.
    + cbn [pad_pairs]. destruct q as [|q]; [reflexivity|]. cbn [nth]. replace (2 * S q)%nat with (S (S (2 * q))) by lia. reflexivity.
    + cbn [pad_pairs]. destruct q as [|q]; [reflexivity|]. cbn [nth]. replace (2 * S q)%nat with (S (S (2 * q))) by lia. cbn [nth Nat.add].
      apply IH; [lia|]. cbn in E. auto.
Qed.

(** Constant. *)
Fixpoint insideb (idx shape : list Z) : bool :=
  match idx, shape with
  | [], [] => true
  | i :: idx, n :: shape => (0 <=? i) && (i <? n) && insideb idx shape
  | _, _ => false
  end.
Lemma insideb_ok idx : forall shape, insideb idx shape = true <-> inside idx shape.
Proof.
  induction idx as [|i idx IH]; intros [|n s]; cbn; split; intros H; try discriminate; try (inversion H; fail).
  - constructor.
  - auto.
  - apply andb_true_iff in H as (H & H'). apply andb_true_iff in H as (H1 & H2). constructor; [lia|]. apply IH. auto.
  - inversion H as [|? ? ? ? Hi H']; subst. apply andb_true_iff. split; [apply andb_true_iff; lia|]. apply IH. auto.
Qed.
Fixpoint sub_pad (idx : list Z) (padding : list (Z * Z)) : list Z :=
  match idx, padding with i :: idx, (a, _) :: padding => i - a :: sub_pad idx padding | _, _ => [] end.
Lemma const_osum shape : forall padding st idx, length padding = length shape -> length st = length shape -> length idx = length shape ->
  osum (pad_desc PConstant (pad_shape shape padding) padding st) idx =
  if insideb (sub_pad idx padding) shape then Some (dot (sub_pad idx padding) st) else None.
Proof.
  induction shape as [|n s IH]; intros [|[a b] padding] [|v st] [|i idx] L1 L2 L3; try discriminate; [reflexivity|].
  cbn [pad_shape pad_desc osum sub_pad insideb dot]. rewrite IH by (cbn in *; lia). cbn [pad_h].
  destruct (Z.ltb_spec i a), (Z.leb_spec (n + a + b - b) i), (Z.leb_spec 0 (i - a)), (Z.ltb_spec (i - a) n); try lia; cbn [orb andb oadd]; auto.
  destruct (insideb (sub_pad idx padding) s); reflexivity.
Qed.
Fixpoint somes (l : list (option Z)) : list Z := match l with [] => [] | Some s :: l => s :: somes l | None :: l => somes l end.
Lemma somes_app a b : somes (a ++ b) = somes a ++ somes b.
Proof. induction a as [|[x|] a IH]; cbn; auto. rewrite IH. auto. Qed.
Lemma somes_map c S : somes (map (oadd (Some c)) S) = map (Z.add c) (somes S).
Proof. induction S as [|[x|] S IH]; cbn; auto. rewrite IH. auto. Qed.
Lemma somes_none S : somes (map (oadd None) S) = [].
Proof. induction S as [|x S IH]; cbn; auto. Qed.
Lemma const_somes shape : nonneg shape -> forall padding, length padding = length shape -> Forall (fun p => 0 <= fst p /\ 0 <= snd p) padding ->
  somes (srcs (pad_desc PConstant (pad_shape shape padding) padding (cstrides shape))) = range 0 (Z.to_nat (size shape)).
Proof.
  induction 1 as [|n s Hn P IH]; intros [|[a b] padding] L F; try discriminate; [reflexivity|].
  inversion F as [|? ? Hab F']; subst. cbn in Hab. rewrite cstrides_cons. cbn [pad_shape pad_desc srcs].
  specialize (IH padding ltac:(cbn in L; lia) F'). set (S := srcs _) in *. pose proof (size_nonneg s P) as Hs.
  replace (Z.to_nat (n + a + b)) with (Z.to_nat a + (Z.to_nat n + Z.to_nat b))%nat by lia.
  rewrite !range_app, !flat_map_app, !somes_app. rewrite !Z2Nat.id by lia. rewrite Z.add_0_l.
  assert (N1 : forall k j, (forall i, j <= i < j + Z.of_nat k -> pad_h PConstant (n + a + b) a b (size s) i = None) ->
    somes (flat_map (fun i => map (oadd (pad_h PConstant (n + a + b) a b (size s) i)) S) (range j k)) = []).
  { induction k as [|k I]; intros j H; cbn [range flat_map]; [auto|]. rewrite somes_app, (H j), somes_none by lia. apply I. intros i Hi. apply H. lia. }
  rewrite N1, (N1 (Z.to_nat b)), app_nil_r.
  - cbn [app].
    assert (N2 : forall k j, a <= j -> j + Z.of_nat k <= a + n ->
      somes (flat_map (fun i => map (oadd (pad_h PConstant (n + a + b) a b (size s) i)) S) (range j k)) = range ((j - a) * size s) (k * Z.to_nat (size s))).
    { induction k as [|k I]; intros j H1 H2; cbn [range flat_map Nat.mul]; [auto|]. rewrite somes_app, range_app.
      assert (E : pad_h PConstant (n + a + b) a b (size s) j = Some ((j - a) * size s)).
      { cbn [pad_h]. destruct (Z.ltb_spec j a), (Z.leb_spec (n + a + b - b) j); try lia. reflexivity. }
      rewrite E, somes_map, IH, map_add_range, Z.add_0_r. f_equal. rewrite I by lia. f_equal. rewrite Z2Nat.id by lia. ring. }
    rewrite N2 by lia. replace (a - a) with 0 by lia. cbn [size]. rewrite Z2Nat.inj_mul by lia. reflexivity.
  - intros i Hi. cbn [pad_h]. destruct (Z.leb_spec (n + a + b - b) i); [|lia]. rewrite orb_true_r. auto.
  - intros i Hi. cbn [pad_h]. destruct (Z.ltb_spec i a); [|lia]. auto.
Qed.
Lemma used_snd S : forall k, map snd (used (combine (range k (length S)) S)) = somes S.
Proof. induction S as [|[s|] S IH]; intros k; cbn; auto. rewrite IH. auto. Qed.

Lemma adjoint_const nx S (fwd : list Z -> list Z -> option (list Z)) (bwd : bool -> list Z -> list Z -> option (list Z)) :
  0 <= nx -> somes S = range 0 (Z.to_nat nx) ->
  (forall x y0, fwd x y0 = fill_loop 0 (combine (range 0 (length S)) S) x y0) ->
  (forall accum dy dx0, bwd accum dy dx0 = (if accum then add_loop else copy_loop) (map swap (used (combine (range 0 (length S)) S))) dy dx0) ->
  adjoint nx (Z.of_nat (length S)) fwd bwd.
Proof.
  intros Hn HS HF HB.
  assert (B : Forall (sbound nx) S).
  { apply Forall_forall. intros [s|] Hi; cbn; [|auto]. assert (I : In s (somes S)).
    { clear - Hi. induction S as [|[x|] S IH]; cbn in *; [tauto| |]; destruct Hi as [E|Hi]; auto; [inversion E; auto|discriminate]. }
    rewrite HS in I. apply range_in in I. unfold within. lia. }
  intros accum dy dx0 Ldy Ldx. rewrite HB.
  assert (BB : bounded (map swap (used (combine (range 0 (length S)) S))) (len dx0) (len dy)).
  { unfold len. rewrite Ldx. apply swap_bounded. apply used_bounded; auto; lia. }
  assert (R : exists r, (if accum then add_loop else copy_loop) (map swap (used (combine (range 0 (length S)) S))) dy dx0 = Some r /\ length r = length dx0 /\
     forall u, inner r u = (if accum then inner dx0 u else 0) + psum (map swap (used (combine (range 0 (length S)) S))) dy u).
  { destruct accum; [apply add_loop_ok; auto|]. destruct (copy_cover _ dy dx0 BB) as (r & E & L & I).
    - rewrite map_map. cbn [swap fst]. rewrite used_snd, HS. replace (Z.to_nat nx) with (length dx0) by lia. auto.
    - exists r. split; [auto|]. split; [auto|]. intros u. rewrite I. lia. }
  destruct R as (r & E & L & I). exists r. split; [auto|]. split; [auto|].
  intros x y0 Lx Ly. rewrite HF, fill_all; [|rewrite <- Lx in B; exact B|lia]. eexists. split; [reflexivity|].
  rewrite I, (inner_used S dy x 0) by lia. cbn [Z.to_nat repeat app]. reflexivity.
Qed.
