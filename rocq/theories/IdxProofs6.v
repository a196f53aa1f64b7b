(** GatherNd, Gather, Embed, MatrixDiagPart and MatrixDiag. *)
From Coq Require Import List ZArith Lia Bool Permutation.
From Verif Require Import NdModel NdSpec NdProofs IdxModel IdxSpec IdxProofs1 IdxProofs2 IdxProofs3 IdxProofs4.
Import ListNotations.
Local Open Scope list_scope.
Local Open Scope Z_scope.

(** ** Writing the output in order from computed positions *)
Definition direct (n : Z) (f : Z -> Z) : list (Z * Z) := map (fun q => (q, f q)) (range 0 (Z.to_nat n)).
Lemma direct_somed n f : map (fun p => (fst p, Some (snd p))) (direct n f) =
  combine (range 0 (length (map (fun q => Some (f q)) (range 0 (Z.to_nat n))))) (map (fun q => Some (f q)) (range 0 (Z.to_nat n))).
Proof.
  unfold direct. rewrite map_map. cbn [fst snd]. rewrite map_length, range_length.
  rewrite <- (map_id (range 0 (Z.to_nat n))) at 2. rewrite combine_map. reflexivity.
Qed.
Lemma direct_ok xs ys f : nonneg ys -> (forall q, within (size ys) q -> within (size xs) (f q)) ->
  computes xs ys (fun x y0 => copy_loop (direct (size ys) f) x y0)
    (fun ex ey => forall idx j, inside idx ys -> inside j xs -> off j xs = f (off idx ys) -> ey idx = ex j) /\
  adjoint (size xs) (size ys) (fun x y0 => copy_loop (direct (size ys) f) x y0)
    (fun (accum : bool) dy dx0 => add_loop (map swap (direct (size ys) f)) dy (if accum then dx0 else zeroed dx0)).
Proof.
  intros P B. pose proof (size_nonneg ys P) as SN. split.
  - eapply computes_impl.
    + apply (computes_src 0 ys xs (fun idx => Some (f (off idx ys))) _ P).
      * intros idx I. cbn [sbound]. apply B. apply off_bound. auto.
      * intros x y0. rewrite (copy_fill 0), direct_somed. f_equal. rewrite map_length, range_length.
        rewrite <- (indices_length ys P), Nat2Z.id. f_equal.
        replace (range 0 (length (indices ys))) with (map (fun i => off i ys) (indices ys)) by (rewrite indices_off by auto; f_equal; pose proof (indices_length ys P); lia).
        rewrite map_map. reflexivity.
    + cbn. intros ex ey H idx j I J E. apply (H idx I); auto.
  - set (S := map (fun q => Some (f q)) (range 0 (Z.to_nat (size ys)))).
    assert (L : Z.of_nat (length S) = size ys) by (unfold S; rewrite map_length, range_length; lia).
    rewrite <- L at 1. apply (adjoint_add _ S).
    + apply Forall_map, Forall_forall. intros q Hq. apply range_in in Hq. cbn [sbound]. apply B. unfold within. lia.
    + intros x y0. rewrite (copy_fill 0), direct_somed. reflexivity.
    + intros accum dy dx0. rewrite <- (used_some (direct (size ys) f)), direct_somed. reflexivity.
Qed.

Lemma omap_all {A B} (h : A -> option B) (g : A -> B) l : (forall a, In a l -> h a = Some (g a)) -> omap h l = Some (map g l).
Proof. intros H. induction l as [|a l IH]; cbn [omap map]; [auto|]. rewrite H by (cbn; auto). rewrite IH by (intros; apply H; cbn; auto). reflexivity. Qed.
Lemma omap_none {A B} (h : A -> option B) l a : In a l -> h a = None -> omap h l = None.
Proof.
  induction l as [|b l IH]; intros HI E; [inversion HI|]. cbn [omap]. destruct HI as [->|H].
  - rewrite E. reflexivity.
  - rewrite (IH H E). destruct (h b); reflexivity.
Qed.
Lemma blocks m (F : Z -> Z -> Z) : forall n k, 0 <= k ->
  flat_map (fun i => map (fun j => (i * Z.of_nat m + j, F i j)) (range 0 m)) (range k n) =
  map (fun q => (q, F (q / Z.of_nat m) (q mod Z.of_nat m))) (range (k * Z.of_nat m) (n * m)).
Proof.
  induction n as [|n IH]; intros k Hk; [reflexivity|]. cbn [range flat_map Nat.mul]. rewrite range_app, map_app. f_equal.
  - replace (range (k * Z.of_nat m) m) with (map (Z.add (k * Z.of_nat m)) (range 0 m)) by (rewrite map_add_range; f_equal; lia).
    rewrite map_map. apply map_ext_in. intros j Hj. apply range_in in Hj.
    rewrite Z.add_comm, Z.div_add, Z.mod_add by lia. rewrite (Z.div_small j), (Z.mod_small j) by lia. auto.
  - rewrite IH by lia. do 2 f_equal. lia.
Qed.
Lemma blocks_direct n m F : 0 <= n -> 0 <= m ->
  flat_map (fun i => map (fun j => (i * m + j, F i j)) (upto m)) (upto n) = direct (n * m) (fun q => F (q / m) (q mod m)).
Proof.
  intros Hn Hm. rewrite !upto_range. unfold direct. rewrite Z2Nat.inj_mul by lia.
  pose proof (blocks (Z.to_nat m) F (Z.to_nat n) 0 ltac:(lia)) as B. rewrite Z2Nat.id in B by lia. rewrite Z.mul_0_l in B. exact B.
Qed.

Lemma first_of {A} (a b : list A) : firstn (length a) (a ++ b) = a.
Proof. apply firstn_app_len. auto. Qed.
Lemma rest_of {A} (a b : list A) : skipn (length a) (a ++ b) = b.
Proof. apply skipn_app_len. auto. Qed.

(** ** Offsets of joined indices *)
Lemma off_app c A : inside c A -> forall r B, inside r B -> off (c ++ r) (A ++ B) = off c A * size B + off r B.
Proof.
  induction 1 as [|i s c A Hi H IH]; intros r B Hr; cbn [app off]; [lia|]. rewrite IH by auto. rewrite size_app. ring.
Qed.
Lemma inside_app c A : inside c A -> forall r B, inside r B -> inside (c ++ r) (A ++ B).
Proof. intros H r B Hr. apply Forall2_app; auto. Qed.
Lemma inside_split A B idx : inside idx (A ++ B) -> exists c r, idx = c ++ r /\ inside c A /\ inside r B.
Proof. intros H. apply Forall2_app_inv_r in H as (c & r & H1 & H2 & ->). exists c, r. auto. Qed.
Lemma off_div c A r B : inside c A -> inside r B -> off (c ++ r) (A ++ B) / size B = off c A /\ off (c ++ r) (A ++ B) mod size B = off r B.
Proof.
  intros HA HB. rewrite off_app by auto. pose proof (off_bound _ _ HB) as X.
  rewrite Z.add_comm, Z.div_add, Z.mod_add, Z.div_small, Z.mod_small by lia. lia.
Qed.
(** Every position is that of an index. *)
Lemma off_onto s q : nonneg s -> within (size s) q -> exists idx, inside idx s /\ off idx s = q.
Proof.
  intros P H. assert (I : In q (map (fun i => off i s) (indices s))) by (rewrite indices_off by auto; apply range_in; unfold within in H; lia).
  apply in_map_iff in I as (idx & E & I). exists idx. split; [apply indices_in; auto|auto].
Qed.

(** ** GatherNd *)
Definition wrapped (n v : Z) : Z := if v <? 0 then v + n else v.
Definition gnd_at (idx ishape : list Z) (shape c : list Z) (rows : nat) : list Z :=
  map (fun m => wrapped (nth m shape 0) (elem idx ishape (Z.of_nat m :: c))) (seq 0 rows).
Definition gnd_valid (idx ishape shape : list Z) (rows : nat) (c : list Z) : Prop :=
  forall m, (m < rows)%nat -> - nth m shape 0 <= elem idx ishape (Z.of_nat m :: c) < nth m shape 0.
Lemma seq_S_map {A} (f : nat -> A) n : map f (seq 0 (S n)) = f 0%nat :: map (fun m => f (S m)) (seq 0 n).
Proof. cbn [seq map]. rewrite <- seq_shift, map_map. reflexivity. Qed.
Lemma gnd_index_ok idx cols i : forall A B m, 0 <= m -> 0 <= i < cols -> (m + Z.of_nat (length A)) * cols <= len idx ->
  (forall k, (k < length A)%nat -> - nth k A 0 <= at_ idx ((m + Z.of_nat k) * cols + i) < nth k A 0) ->
  gnd_index idx cols i m (A ++ B) (length A) = Some (map (fun k => wrapped (nth k A 0) (at_ idx ((m + Z.of_nat k) * cols + i))) (seq 0 (length A)) ++ map (fun _ => 0) B).
Proof.
  induction A as [|n A IH]; intros B m Hm Hi HL HV; [destruct B; reflexivity|]. cbn [length app gnd_index]. cbn [length] in HL.
  pose proof (HV 0%nat ltac:(cbn; lia)) as V0. cbn [nth] in V0. rewrite Z.add_0_r in V0.
  rewrite rd_ok by (unfold within; nia). cbn [obind]. unfold norm_index.
  destruct (Z.ltb_spec (at_ idx (m * cols + i)) n); [|lia]. destruct (Z.leb_spec (- n) (at_ idx (m * cols + i))); [|lia]. cbn [obind].
  rewrite IH; [|lia|lia|nia|].
  - cbn [obind]. rewrite seq_S_map. cbn [nth app]. f_equal. f_equal.
    + rewrite Z.add_0_r. unfold wrapped. destruct (Z.ltb_spec (at_ idx (m * cols + i)) 0); lia.
    + f_equal. apply map_ext. intros k. do 2 f_equal. f_equal. f_equal. lia.
  - intros k Hk. specialize (HV (S k) ltac:(cbn; lia)). cbn [nth] in HV. replace (m + 1 + Z.of_nat k) with (m + Z.of_nat (S k)) by lia. auto.
Qed.
Lemma dot_zeros (B : list Z) : forall st, dot (map (fun _ => 0) B) st = 0.
Proof. induction B as [|n B IH]; intros [|s st]; cbn [map dot]; auto. rewrite IH. lia. Qed.
Lemma dot_front a A B : inside a A -> dot (a ++ map (fun _ => 0) B) (cstrides (A ++ B)) = off a A * size B.
Proof.
  induction 1 as [|i s a A Hi H IH]; cbn [app off]; [rewrite dot_zeros; lia|]. rewrite cstrides_cons. cbn [dot]. rewrite IH, size_app. ring.
Qed.
Lemma wrapped_in n v : - n <= v < n -> 0 <= wrapped n v < n.
Proof. unfold wrapped. destruct (Z.ltb_spec v 0); lia. Qed.
Lemma nth_app_l (A B : list Z) k : (k < length A)%nat -> nth k (A ++ B) 0 = nth k A 0. Proof. apply app_nth1. Qed.
Lemma inside_fun A : forall h : nat -> Z, (forall m, (m < length A)%nat -> 0 <= h m < nth m A 0) -> inside (map h (seq 0 (length A))) A.
Proof.
  induction A as [|n A IH]; intros h V; [constructor|]. cbn [length]. rewrite seq_S_map. constructor.
  - apply (V 0%nat). cbn. lia.
  - apply IH. intros m Hm. apply (V (S m)). cbn. lia.
Qed.
Lemma gnd_at_inside idx ishape A B c : gnd_valid idx ishape (A ++ B) (length A) c -> inside (gnd_at idx ishape (A ++ B) c (length A)) A.
Proof.
  unfold gnd_valid, gnd_at. intros V. assert (V' : forall m, (m < length A)%nat -> 0 <= wrapped (nth m (A ++ B) 0) (elem idx ishape (Z.of_nat m :: c)) < nth m A 0).
  { intros m Hm. rewrite nth_app_l by auto. apply wrapped_in. rewrite <- (nth_app_l A B) by auto. auto. }
  apply (inside_fun _ _ V').
Qed.

Section Gnd.
Variables (A B rest idx : list Z).
Let rows := Z.of_nat (length A).
Let ishape := rows :: rest.
Let shape := A ++ B.
Hypothesis HA : A <> [].
Hypothesis HR : rest <> [].
Hypothesis PA : nonneg shape.
Hypothesis PR : nonneg rest.
Hypothesis LI : Z.of_nat (length idx) = size ishape.
Let cols := size rest.
Let column (q : Z) : list Z := map (fun k => wrapped (nth k A 0) (at_ idx (Z.of_nat k * cols + q))) (seq 0 (length A)).

Lemma gnd_column c : inside c rest -> column (off c rest) = gnd_at idx ishape shape c (length A).
Proof.
  intros I. unfold column, gnd_at. apply map_ext_in. intros k Hk. apply in_seq in Hk. unfold shape. rewrite nth_app_l by lia. f_equal.
  rewrite elem_at. { unfold ishape. cbn [off]. reflexivity. }
  constructor; [unfold rows; lia|auto].
Qed.
Lemma gnd_shape_ok : gnd_shape shape ishape = Some (rest ++ B).
Proof.
  unfold gnd_shape, ishape. revert HR. generalize rest as l. intros [|r0 l] NE; [congruence|].
  assert (X : Nat.leb (Z.to_nat rows) (length shape) = true) by (apply Nat.leb_le; unfold rows, shape; rewrite Nat2Z.id, app_length; lia).
  rewrite X. unfold rows, shape. rewrite Nat2Z.id, rest_of. reflexivity.
Qed.
Lemma gnd_pairs_ok : (forall c, inside c rest -> gnd_valid idx ishape shape (length A) c) ->
  gnd_pairs shape ishape idx = Some (direct (size rest * size B) (fun q => off (column (q / size B)) A * size B + q mod size B)).
Proof.
  intros V. unfold gnd_pairs. rewrite gnd_shape_ok. cbn [obind].
  assert (ST : strides shape = Some (cstrides shape)).
  { assert (NS : shape <> []) by (unfold shape; destruct A; [congruence|discriminate]). revert NS. generalize shape as s. intros [|a s] NS; [congruence|]. rewrite strides_sfx, cstrides_sfx. auto. }
  rewrite ST. cbn [obind]. change (hd 0 ishape) with rows. change (tl ishape) with rest.
  assert (VG : vget (cstrides shape) (rows - 1) = Some (size B)).
  { unfold vget, rows. assert (LA : (0 < length A)%nat) by (revert HA; destruct A; cbn; [congruence|lia]).
    destruct (Z.ltb_spec (Z.of_nat (length A) - 1) 0); [lia|]. rewrite (nth_error_nth' _ 0) by (rewrite cstrides_length; unfold shape; rewrite app_length; lia). f_equal.
    replace (Z.to_nat (Z.of_nat (length A) - 1)) with (length A - 1)%nat by lia.
    assert (K : forall s k, (k < length s)%nat -> nth k (cstrides s) 0 = size (skipn (S k) s)).
    { clear. induction s as [|n s IH]; intros k H; [cbn in H; lia|]. rewrite cstrides_cons. destruct k as [|k]; [reflexivity|]. cbn [nth]. rewrite IH by (cbn in H; lia). reflexivity. }
    rewrite K by (unfold shape; rewrite app_length; lia). replace (S (length A - 1)) with (length A) by lia. unfold shape. rewrite rest_of. auto. }
  rewrite (omap_all _ (fun i => map (fun k => (i * size B + k, off (column i) A * size B + k)) (upto (size B)))).
  - cbn [obind]. f_equal. rewrite <- flat_map_concat_map, prod_size. unfold nonneg, shape in PA. apply Forall_app in PA as (PA1 & PA2).
    rewrite (blocks_direct (size rest) (size B) (fun i j => off (column i) A * size B + j)) by (apply size_nonneg; auto). reflexivity.
  - intros i Hi. rewrite upto_range, prod_size in Hi. apply range_in in Hi. pose proof (size_nonneg rest PR) as SN.
    destruct (off_onto rest i PR ltac:(unfold within; lia)) as (c & Hc & Ec).
    unfold rows at 1. rewrite Nat2Z.id, prod_size. unfold shape at 1. rewrite gnd_index_ok.
    + cbn [obind]. rewrite VG. cbn [obind]. f_equal. apply map_ext. intros k. f_equal. f_equal.
      fold cols. change (map (fun k0 => wrapped (nth k0 A 0) (at_ idx ((0 + Z.of_nat k0) * cols + i))) (seq 0 (length A))) with (column i).
      unfold shape. apply dot_front. rewrite <- Ec, gnd_column by auto. apply gnd_at_inside. fold shape. apply V. auto.
    + lia.
    + lia.
    + unfold len. rewrite LI. unfold ishape. cbn [size]. unfold rows. lia.
    + intros k Hk. specialize (V c Hc k Hk). unfold shape in V. rewrite nth_app_l in V by auto.
      rewrite elem_at in V by (constructor; [unfold rows; lia|auto]). unfold ishape in V. cbn [off] in V. rewrite Ec in V. exact V.
Qed.
Theorem gnd_ok : (forall c, inside c rest -> gnd_valid idx ishape shape (length A) c) ->
  computes shape (rest ++ B) (gnd_forward shape ishape idx) (fun ex ey => forall c r, inside c rest -> inside r B ->
     ey (c ++ r) = ex (gnd_at idx ishape shape c (length A) ++ r)) /\
  adjoint (size shape) (size (rest ++ B)) (gnd_forward shape ishape idx) (gnd_backward shape ishape idx).
Proof.
  intros V. pose proof (gnd_pairs_ok V) as GP. rewrite <- size_app in GP.
  assert (PB : nonneg B) by (unfold nonneg, shape in *; apply Forall_app in PA; tauto).
  assert (PY : nonneg (rest ++ B)) by (apply Forall_app; auto).
  destruct (direct_ok shape (rest ++ B) (fun q => off (column (q / size B)) A * size B + q mod size B) PY) as (C & D).
  { intros q Hq. destruct (off_onto _ _ PY Hq) as (i & Hi & <-). destruct (inside_split _ _ _ Hi) as (c & r & -> & Hc & Hr).
    destruct (off_div c rest r B Hc Hr) as (-> & ->). rewrite gnd_column by auto.
    pose proof (gnd_at_inside idx ishape A B c (V c Hc)) as GI. fold shape in GI. rewrite <- off_app by auto. apply off_bound. apply inside_app; auto. }
  split.
  - eapply computes_ext; [eapply computes_impl; [exact C|]|].
    + cbn. intros ex ey H c r Hc Hr. pose proof (gnd_at_inside idx ishape A B c (V c Hc)) as GI. fold shape in GI. apply H.
      * apply inside_app; auto.
      * apply inside_app; auto.
      * destruct (off_div c rest r B Hc Hr) as (-> & ->). rewrite gnd_column by auto. apply off_app; auto.
    + intros x y. unfold gnd_forward. rewrite GP. reflexivity.
  - eapply adjoint_ext; [exact D| |].
    + intros x y. unfold gnd_forward. rewrite GP. reflexivity.
    + intros a x y. unfold gnd_backward. rewrite GP. reflexivity.
Qed.
End Gnd.

(** ** Gather *)
Section Ga.
Variables (P C R idx : list Z) (x1 : Z) (bd : nat).
Let axis := length P.
Let shape := P ++ x1 :: R.
Let ishape := firstn bd P ++ C.
Hypothesis BD : (bd <= axis)%nat.
Hypothesis PP : positive P.
Hypothesis PX : 0 <= x1.
Hypothesis PC : nonneg C.
Hypothesis PR : nonneg R.
Hypothesis LI : Z.of_nat (length idx) = size ishape.
Let PB := firstn bd P.
Let PL := skipn bd P.
Let index (a c : list Z) : Z := elem idx ishape (firstn bd a ++ c).
Lemma ga_split : P = PB ++ PL. Proof. symmetry. apply firstn_skipn. Qed.
Lemma ga_lens : length PB = bd. Proof. unfold PB. rewrite firstn_length. unfold axis in BD. lia. Qed.
Lemma ga_front a : inside a P -> inside (firstn bd a) PB /\ off a P / size PL = off (firstn bd a) PB.
Proof.
  intros I. rewrite ga_split in I. destruct (inside_split _ _ _ I) as (u & v & -> & Hu & Hv).
  replace bd with (length u) at 1 2 by (rewrite (inside_length _ _ Hu); apply ga_lens). rewrite first_of.
  split; [auto|]. rewrite ga_split. apply (off_div u PB v PL); auto.
Qed.
Lemma ga_shape_ok : ga_shape axis bd shape ishape = Some (P ++ C ++ R).
Proof.
  unfold ga_shape, shape, ishape, axis. fold PB.
  assert (E1 : Nat.ltb (length P) (length (P ++ x1 :: R)) = true) by (apply Nat.ltb_lt; rewrite app_length; cbn; lia).
  assert (E2 : Nat.leb bd (length (P ++ x1 :: R)) = true) by (apply Nat.leb_le; rewrite app_length; cbn; unfold axis in BD; lia).
  assert (E3 : Nat.leb bd (length (PB ++ C)) = true) by (apply Nat.leb_le; rewrite app_length, ga_lens; lia).
  rewrite E1, E2, E3. cbn [andb].
  assert (F1 : firstn bd (P ++ x1 :: R) = PB) by (unfold PB; rewrite firstn_app; replace (bd - length P)%nat with 0%nat by (unfold axis in BD; lia); cbn [firstn]; rewrite app_nil_r; auto).
  assert (F2 : firstn bd (PB ++ C) = PB) by (rewrite <- ga_lens at 1; apply first_of).
  rewrite F1, F2. assert (E4 : forallb (fun p => fst p =? snd p) (combine PB PB) = true).
  { apply forallb_forall. intros [a b] Hi. apply Z.eqb_eq. clear - Hi. induction PB as [|z l IH]; [inversion Hi|]. destruct Hi as [E|Hi]; [inversion E; auto|auto]. }
  rewrite E4. f_equal. rewrite first_of. f_equal.
  replace (skipn bd (PB ++ C)) with C by (rewrite <- ga_lens; rewrite rest_of; auto).
  f_equal. replace (P ++ x1 :: R) with ((P ++ [x1]) ++ R) by (rewrite <- app_assoc; auto).
  replace (S (length P)) with (length (P ++ [x1])) by (rewrite app_length; cbn; lia). apply rest_of.
Qed.
Let g (i j : Z) : Z := at_ idx (i / size PL * size C + j).
Lemma ga_g a c : inside a P -> inside c C -> g (off a P) (off c C) = index a c.
Proof.
  intros Ha Hc. destruct (ga_front a Ha) as (H1 & H2). unfold g, index. rewrite H2, <- off_app by auto. rewrite elem_at by (apply inside_app; auto). reflexivity.
Qed.
Lemma sizes_pos l : positive l -> 0 < size l.
Proof. induction 1; cbn [size]; nia. Qed.
Lemma ga_pairs_ok : (forall a c, inside a P -> inside c C -> 0 <= index a c < x1) ->
  ga_pairs axis bd shape ishape idx = Some (direct (size P * (size C * size R))
    (fun q => let i := q / (size C * size R) in let p := q mod (size C * size R) in
       (i * x1 + g i (p / size R)) * size R + p mod size R)).
Proof.
  intros V. unfold ga_pairs. rewrite ga_shape_ok. cbn [obind].
  assert (N : nth_error shape axis = Some x1) by (unfold shape, axis; rewrite nth_error_app2, Nat.sub_diag by lia; auto).
  rewrite N. cbn [obind].
  assert (F0 : firstn axis (P ++ C ++ R) = P) by apply first_of.
  assert (F1 : firstn bd ishape = PB) by (unfold ishape; fold PB; rewrite <- ga_lens at 1; apply first_of).
  assert (F2 : skipn bd ishape = C) by (unfold ishape; fold PB; rewrite <- ga_lens; apply rest_of).
  assert (F3 : skipn (S axis) shape = R).
  { unfold shape, axis. replace (P ++ x1 :: R) with ((P ++ [x1]) ++ R) by (rewrite <- app_assoc; auto).
    replace (S (length P)) with (length (P ++ [x1])) by (rewrite app_length; cbn; lia). apply rest_of. }
  rewrite F0, F1, F2, F3, !prod_size.
  assert (SB : 0 < size PB) by (apply sizes_pos; unfold positive in *; rewrite ga_split in PP; apply Forall_app in PP; tauto).
  assert (SL : 0 < size PL) by (apply sizes_pos; unfold positive in *; rewrite ga_split in PP; apply Forall_app in PP; tauto).
  assert (SP : size P = size PB * size PL) by (rewrite ga_split at 1; apply size_app).
  pose proof (size_nonneg C PC) as SC. pose proof (size_nonneg R PR) as SR.
  destruct (Z.eqb_spec (size PB) 0) as [|_]; [lia|].
  assert (LD : Z.quot (size P) (size PB) = size PL) by (rewrite SP, Z.mul_comm; apply Z.quot_mul; lia). rewrite LD.
  destruct (Z.eqb_spec (size PL) 0) as [|_]; [lia|].
  assert (PN : nonneg P) by (eapply Forall_impl; [|exact PP]; cbn; lia).
  rewrite (omap_all _ (fun i => map (fun p => (i * (size C * size R) + p, (i * x1 + g i (p / size R)) * size R + p mod size R)) (upto (size C * size R)))).
  - cbn [obind]. f_equal. rewrite <- flat_map_concat_map.
    rewrite (blocks_direct (size P) (size C * size R) (fun i p => (i * x1 + g i (p / size R)) * size R + p mod size R)) by nia. reflexivity.
  - intros i Hi. rewrite upto_range in Hi. apply range_in in Hi. destruct (off_onto P i PN ltac:(unfold within; lia)) as (a & Ha & Ea).
    rewrite (omap_all _ (fun j => map (fun k => (i * (size C * size R) + (j * size R + k), (i * x1 + g i j) * size R + k)) (upto (size R)))).
    + cbn [obind]. f_equal. rewrite <- flat_map_concat_map.
      pose proof (blocks_direct (size C) (size R) (fun j k => (i * x1 + g i j) * size R + k) SC SR) as BLK. unfold direct in BLK. rewrite (upto_range (size C * size R)).
      apply (f_equal (map (fun p => (i * (size C * size R) + fst p, snd p)))) in BLK. rewrite map_map in BLK. cbn [fst snd] in BLK. rewrite <- BLK.
      rewrite <- flat_map_concat_map || idtac. clear. induction (upto (size C)) as [|j l IH]; cbn [flat_map map]; [auto|]. rewrite map_app, <- IH, map_map. reflexivity.
    + intros j Hj. rewrite upto_range in Hj. apply range_in in Hj. destruct (off_onto C j PC ltac:(unfold within; lia)) as (c & Hc & Ec).
      specialize (V a c Ha Hc).
      assert (EB : hd 0 (flat2nd i [size PL; 1]) = i / size PL).
      { unfold flat2nd. cbn [hd]. try rewrite Z.quot_div_nonneg by lia. auto. }
      rewrite EB. destruct (ga_front a Ha) as (H1 & H2). rewrite Ea in H2.
      assert (RD : rd idx (dot [i / size PL; j] [size C; 1]) = Some (g i j)).
      { replace (dot [i / size PL; j] [size C; 1]) with (i / size PL * size C + j) by (cbn [dot]; ring). apply rd_ok. unfold within, len. rewrite LI, H2, <- Ec, <- off_app by auto.
        apply off_bound. apply inside_app; auto. }
      rewrite RD. cbn [obind]. assert (GV : 0 <= g i j < x1) by (rewrite <- Ea, <- Ec, ga_g by auto; auto).
      destruct (Z.leb_spec 0 (g i j)); [|lia]. destruct (Z.ltb_spec (g i j) x1); [|lia]. cbn [andb]. f_equal. apply map_ext. intros k. cbn [dot]. f_equal; ring.
Qed.
Theorem ga_ok : (forall a c, inside a P -> inside c C -> 0 <= index a c < x1) ->
  computes shape (P ++ C ++ R) (ga_forward axis bd shape ishape idx) (fun ex ey => forall a c r, inside a P -> inside c C -> inside r R ->
     ey (a ++ c ++ r) = ex (a ++ index a c :: r)) /\
  adjoint (size shape) (size (P ++ C ++ R)) (ga_forward axis bd shape ishape idx)
    (fun accum dy dx => ga_backward axis bd shape ishape idx accum dy (if accum then dx else zeroed dx)).
Proof.
  intros V. pose proof (ga_pairs_ok V) as GP. rewrite <- !size_app in GP.
  assert (PN : nonneg P) by (eapply Forall_impl; [|exact PP]; cbn; lia).
  assert (PY : nonneg (P ++ C ++ R)) by (apply Forall_app; split; [auto|]; apply Forall_app; auto).
  match type of GP with _ = Some (direct _ ?f) => set (F := f) in * end.
  assert (K : forall a c r, inside a P -> inside c C -> inside r R -> F (off (a ++ c ++ r) (P ++ C ++ R)) = off (a ++ index a c :: r) shape).
  { intros a c r Ha Hc Hr. unfold F. pose proof (inside_app c C Hc r R Hr) as Hcr. destruct (off_div a P (c ++ r) (C ++ R) Ha Hcr) as (-> & ->).
    destruct (off_div c C r R Hc Hr) as (-> & ->). rewrite ga_g by auto. unfold shape. rewrite off_app; [|auto|constructor; [apply V; auto|exact Hr]]. cbn [off size]. ring. }
  assert (J : forall a c r, inside a P -> inside c C -> inside r R -> inside (a ++ index a c :: r) shape).
  { intros a c r Ha Hc Hr. apply inside_app; [auto|]. constructor; [apply V; auto|exact Hr]. }
  destruct (direct_ok shape (P ++ C ++ R) F PY) as (CC & DD).
  { intros q Hq. destruct (off_onto _ _ PY Hq) as (i & Hi & <-). destruct (inside_split _ _ _ Hi) as (a & s & -> & Ha & Hs). destruct (inside_split _ _ _ Hs) as (c & r & -> & Hc & Hr).
    rewrite K by auto. apply off_bound. auto. }
  split.
  - eapply computes_ext; [eapply computes_impl; [exact CC|]|].
    + cbn. intros ex ey H a c r Ha Hc Hr. apply H; auto.
      * apply inside_app; [auto|]. apply inside_app; auto.
      * rewrite K by auto. auto.
    + intros x y. unfold ga_forward. rewrite GP. reflexivity.
  - eapply adjoint_ext; [exact DD| |].
    + intros x y. unfold ga_forward. rewrite GP. reflexivity.
    + intros a x y. unfold ga_backward. rewrite GP. reflexivity.
Qed.
End Ga.

(** ** Embed *)
Theorem em_ok ishape n rest ix : nonneg ishape -> nonneg rest -> 0 <= n -> Z.of_nat (length ix) = size ishape ->
  (forall c, inside c ishape -> 0 <= elem ix ishape c < n) ->
  computes (n :: rest) (ishape ++ rest) (em_forward ishape (n :: rest) ix) (fun ew ey => forall c r, inside c ishape -> inside r rest ->
     ey (c ++ r) = ew (elem ix ishape c :: r)) /\
  adjoint (size (n :: rest)) (size (ishape ++ rest)) (em_forward ishape (n :: rest) ix) (em_backward ishape (n :: rest) ix).
Proof.
  intros PI PR Hn LI V. pose proof (size_nonneg _ PI) as SI. pose proof (size_nonneg _ PR) as SR.
  set (F := fun q => at_ ix (q / size rest) * size rest + q mod size rest).
  assert (EP : em_pairs ishape (n :: rest) ix = Some (direct (size (ishape ++ rest)) F)).
  { unfold em_pairs. rewrite !prod_size. rewrite (omap_all _ (fun i => map (fun j => (i * size rest + j, at_ ix i * size rest + j)) (upto (size rest)))).
    - cbn [obind]. f_equal. rewrite <- flat_map_concat_map, size_app. rewrite (blocks_direct (size ishape) (size rest) (fun i j => at_ ix i * size rest + j)) by auto. reflexivity.
    - intros i Hi. rewrite upto_range in Hi. apply range_in in Hi. rewrite rd_ok by (unfold within, len; lia). reflexivity. }
  assert (PY : nonneg (ishape ++ rest)) by (apply Forall_app; auto).
  assert (K : forall c r, inside c ishape -> inside r rest -> F (off (c ++ r) (ishape ++ rest)) = off (elem ix ishape c :: r) (n :: rest)).
  { intros c r Hc Hr. unfold F. destruct (off_div c ishape r rest Hc Hr) as (-> & ->). cbn [off]. rewrite elem_at by auto. reflexivity. }
  assert (J : forall c r, inside c ishape -> inside r rest -> inside (elem ix ishape c :: r) (n :: rest)) by (intros; constructor; auto).
  destruct (direct_ok (n :: rest) (ishape ++ rest) F PY) as (C & D).
  { intros q Hq. destruct (off_onto _ _ PY Hq) as (i & Hi & <-). destruct (inside_split _ _ _ Hi) as (c & r & -> & Hc & Hr). rewrite K by auto. apply off_bound. auto. }
  split.
  - eapply computes_ext; [eapply computes_impl; [exact C|]|].
    + cbn. intros ex ey H c r Hc Hr. apply H; auto. { apply inside_app; auto. } rewrite K by auto. auto.
    + intros x y. unfold em_forward. rewrite EP. reflexivity.
  - eapply adjoint_ext; [exact D| |].
    + intros x y. unfold em_forward. rewrite EP. reflexivity.
    + intros a x y. unfold em_backward. rewrite EP. reflexivity.
Qed.

(** ** Diagonals *)
Definition dsrc (n : Z) (q : Z) : option Z := if (q / n) mod n =? q mod n then Some (q / n) else None.
Lemma diag_list_ok n sz : 0 < n -> 0 <= sz -> diag_list n sz = map (fun q => (q, dsrc n q)) (range 0 (Z.to_nat (sz * n))).
Proof.
  intros Hn Hs. unfold diag_list. rewrite !upto_range. rewrite Z2Nat.inj_mul by lia.
  assert (G : forall k m, 0 <= k -> flat_map (fun i => map (fun j => (i * n + j, if Z.rem i n =? j then Some i else None)) (range 0 (Z.to_nat n))) (range k m) =
    map (fun q => (q, dsrc n q)) (range (k * n) (m * Z.to_nat n))).
  { intros k m. revert k. induction m as [|m IH]; intros k Hk; [reflexivity|]. cbn [range flat_map Nat.mul]. rewrite range_app, map_app. f_equal.
    - replace (range (k * n) (Z.to_nat n)) with (map (Z.add (k * n)) (range 0 (Z.to_nat n))) by (rewrite map_add_range; f_equal; lia).
      rewrite map_map. apply map_ext_in. intros j Hj. apply range_in in Hj. f_equal. unfold dsrc.
      rewrite Z.add_comm, Z.div_add, Z.mod_add, (Z.div_small j), (Z.mod_small j) by lia. rewrite Z.rem_mod_nonneg by lia. reflexivity.
    - rewrite IH by lia. do 2 f_equal. lia. }
  rewrite G by lia. reflexivity.
Qed.
Lemma dsrc_used n sz : 0 < n -> 0 <= sz ->
  used (map (fun q => (q, dsrc n q)) (range 0 (Z.to_nat (sz * n)))) = map swap (mdp_pairs n [sz]).
Proof.
  intros Hn Hs. unfold mdp_pairs. rewrite prod_size. cbn [size]. rewrite Z.mul_1_r, upto_range, map_map. unfold swap. cbn [fst snd]. rewrite Z2Nat.inj_mul by lia.
  assert (UA : forall a b, used (a ++ b) = used a ++ used b) by (induction a as [|[d [s|]] a IH]; intros b; cbn; auto; rewrite IH; auto).
  assert (ROW : forall k, 0 <= k -> used (map (fun q => (q, dsrc n q)) (range (k * n) (Z.to_nat n))) = [(k * n + k mod n, k)]).
  { intros k Hk. pose proof (Z.mod_pos_bound k n Hn) as MB.
    assert (D : forall j, 0 <= j < n -> dsrc n (k * n + j) = if k mod n =? j then Some k else None).
    { intros j Hj. unfold dsrc. rewrite Z.add_comm, Z.div_add, Z.mod_add, (Z.div_small j), (Z.mod_small j) by lia. reflexivity. }
    assert (G : forall m j, 0 <= j -> j + Z.of_nat m <= n -> used (map (fun q => (q, dsrc n q)) (range (k * n + j) m)) =
       if (j <=? k mod n) && (k mod n <? j + Z.of_nat m) then [(k * n + k mod n, k)] else []).
    { induction m as [|m IH]; intros j H1 H2; cbn [range map used].
      - destruct (Z.leb_spec j (k mod n)), (Z.ltb_spec (k mod n) (j + Z.of_nat 0)); try reflexivity. lia.
      - rewrite (D j) by lia. replace (k * n + j + 1) with (k * n + (j + 1)) by lia. destruct (Z.eqb_spec (k mod n) j) as [E|E]; cbn [used]; rewrite IH by lia.
        + destruct (Z.leb_spec (j + 1) (k mod n)); [lia|]. cbn [andb]. destruct (Z.leb_spec j (k mod n)); [|lia]. destruct (Z.ltb_spec (k mod n) (j + Z.of_nat (S m))); [|lia]. cbn [andb]. rewrite E. auto.
        + destruct (Z.leb_spec (j + 1) (k mod n)), (Z.leb_spec j (k mod n)); try lia; cbn [andb]; auto.
          destruct (Z.ltb_spec (k mod n) (j + 1 + Z.of_nat m)), (Z.ltb_spec (k mod n) (j + Z.of_nat (S m))); try lia; auto. }
    specialize (G (Z.to_nat n) 0 ltac:(lia) ltac:(lia)). rewrite Z.add_0_r in G. rewrite G.
    destruct (Z.leb_spec 0 (k mod n)); [|lia]. destruct (Z.ltb_spec (k mod n) (0 + Z.of_nat (Z.to_nat n))); [|lia]. reflexivity. }
  assert (G : forall m k, 0 <= k -> used (map (fun q => (q, dsrc n q)) (range (k * n) (m * Z.to_nat n))) = map (fun i => (i * n + Z.rem i n, i)) (range k m)).
  { induction m as [|m IH]; intros k Hk; [reflexivity|]. cbn [Nat.mul range map]. rewrite range_app, map_app, UA, ROW by lia. cbn [app].
    rewrite Z.rem_mod_nonneg by lia. f_equal. rewrite <- IH by lia. do 3 f_equal. lia. }
  apply (G _ 0). lia.
Qed.
Lemma rev_snoc2 {A} (l : list A) a b : rev (l ++ [a; b]) = b :: a :: rev l.
Proof. rewrite rev_app_distr. reflexivity. Qed.
Lemma mdp_pairs_size n l : mdp_pairs n l = mdp_pairs n [size l].
Proof. unfold mdp_pairs. rewrite !prod_size. cbn [size]. rewrite Z.mul_1_r. auto. Qed.
Lemma mdp_direct n sz : 0 < n -> 0 <= sz -> mdp_pairs n [sz] = direct sz (fun q => q * n + q mod n).
Proof.
  intros Hn Hs. unfold mdp_pairs, direct. rewrite prod_size. cbn [size]. rewrite Z.mul_1_r, upto_range. apply map_ext_in. intros q Hq. apply range_in in Hq.
  rewrite Z.rem_mod_nonneg by lia. auto.
Qed.
Lemma inner_comm a : forall b, inner a b = inner b a.
Proof. induction a as [|x a IH]; intros [|y b]; cbn [inner]; auto. rewrite IH. ring. Qed.

Section Diag.
Variables (C : list Z) (n : Z).
Hypothesis PC : nonneg C.
Hypothesis Hn : 0 < n.
Let vec := C ++ [n].
Let mat := C ++ [n; n].
Let sz := size vec.
Lemma diag_sizes : 0 <= sz /\ size mat = sz * n.
Proof.
  unfold sz, vec, mat. rewrite !size_app. cbn [size]. pose proof (size_nonneg C PC). split; nia.
Qed.
Lemma vec_nonneg : nonneg vec. Proof. apply Forall_app. split; [auto|]. constructor; [lia|constructor]. Qed.
Lemma mat_nonneg : nonneg mat. Proof. apply Forall_app. split; [auto|]. repeat constructor; lia. Qed.
Lemma diag_off c i : inside c C -> 0 <= i < n -> off (c ++ [i]) vec = off c C * n + i.
Proof. intros Hc Hi. unfold vec. rewrite off_app; [cbn [off size]; ring|auto|]. constructor; [auto|constructor]. Qed.
Lemma mat_off c i j : inside c C -> 0 <= i < n -> 0 <= j < n -> off (c ++ [i; j]) mat = (off c C * n + i) * n + j.
Proof. intros Hc Hi Hj. unfold mat. rewrite off_app; [cbn [off size]; ring|auto|]. constructor; [auto|]. constructor; [auto|constructor]. Qed.
Let Sd := map (dsrc n) (range 0 (Z.to_nat (sz * n))).
Lemma Sd_length : Z.of_nat (length Sd) = size mat.
Proof. unfold Sd. rewrite map_length, range_length. destruct diag_sizes as (H & E). rewrite E. nia. Qed.
Lemma Sd_list : diag_list n sz = combine (range 0 (length Sd)) Sd.
Proof.
  destruct diag_sizes as (H & E). rewrite diag_list_ok by auto. unfold Sd. rewrite map_length, range_length.
  rewrite <- (map_id (range 0 (Z.to_nat (sz * n)))) at 2. rewrite combine_map. reflexivity.
Qed.
Lemma Sd_used : used (combine (range 0 (length Sd)) Sd) = map swap (mdp_pairs n [sz]).
Proof.
  rewrite <- Sd_list. destruct diag_sizes as (H & E). rewrite diag_list_ok by auto. apply dsrc_used; auto.
Qed.
Lemma swap_swap (ps : list (Z * Z)) : map swap (map swap ps) = ps.
Proof. rewrite map_map. rewrite <- (map_id ps) at 2. apply map_ext. intros [a b]. reflexivity. Qed.
Lemma Sd_somes : somes Sd = range 0 (Z.to_nat sz).
Proof.
  rewrite <- (used_snd Sd 0), Sd_used. unfold mdp_pairs. rewrite prod_size. cbn [size]. rewrite Z.mul_1_r, upto_range, map_map. rewrite map_map. unfold swap. cbn [fst snd]. apply map_id.
Qed.
Theorem md_ok :
  computes vec mat (md_forward vec) (fun ex ey => forall c i j, inside c C -> 0 <= i < n -> 0 <= j < n ->
     ey (c ++ [i; j]) = if i =? j then ex (c ++ [i]) else 0) /\
  adjoint (size vec) (size mat) (md_forward vec) (md_backward vec).
Proof.
  destruct diag_sizes as (H & E).
  assert (MF : forall x y, md_forward vec x y = fill_loop 0 (combine (range 0 (length Sd)) Sd) x y).
  { intros x y. unfold md_forward, vec. rewrite rev_app_distr. cbn [rev app]. fold vec. rewrite prod_size. fold sz. rewrite Sd_list. auto. }
  split.
  - eapply computes_impl.
    + apply (computes_src 0 mat vec (fun idx => dsrc n (off idx mat)) _ mat_nonneg).
      * intros idx I. pose proof (off_bound _ _ I) as B. unfold dsrc. destruct (_ =? _); [|exact Logic.I]. cbn [sbound]. fold sz.
        rewrite E in B. split; [apply Z.div_pos; lia|apply Z.div_lt_upper_bound; lia].
      * intros x y0. rewrite MF. f_equal. f_equal.
        { f_equal. pose proof (indices_length mat mat_nonneg). pose proof Sd_length. lia. }
        unfold Sd. rewrite <- E, <- (indices_off mat mat_nonneg), map_map. reflexivity.
    + cbn. intros ex ey R c i j Hc Hi Hj.
      assert (I : inside (c ++ [i; j]) mat) by (apply inside_app; [auto|]; constructor; [auto|]; constructor; [auto|constructor]).
      specialize (R _ I). rewrite mat_off in R by auto. unfold dsrc in R.
      rewrite (Z.add_comm _ j), Z.div_add, Z.mod_add, (Z.div_small j), (Z.mod_small j), Z.add_0_l in R by lia.
      rewrite (Z.add_comm _ i), Z.mod_add, (Z.mod_small i) in R by lia. destruct (Z.eqb_spec i j) as [->|N]; [|exact R].
      apply R; [apply inside_app; [auto|]; constructor; [auto|constructor]|]. rewrite diag_off by auto. ring.
  - rewrite <- Sd_length. apply (adjoint_const _ Sd).
    + exact H.
    + apply Sd_somes.
    + exact MF.
    + intros accum dy dx0. unfold md_backward, vec. rewrite rev_app_distr. cbn [rev app]. fold vec. rewrite mdp_pairs_size. fold sz. rewrite Sd_used, swap_swap. destruct accum; auto.
Qed.
Theorem mdp_ok :
  computes mat vec (mdp_forward mat) (fun ex ey => forall c i, inside c C -> 0 <= i < n -> ey (c ++ [i]) = ex (c ++ [i; i])) /\
  adjoint (size mat) (size vec) (mdp_forward mat) (mdp_backward mat).
Proof.
  destruct diag_sizes as (H & E).
  assert (SU : mdp_setup mat = Some (n, vec)).
  { unfold mdp_setup, mat. rewrite rev_snoc2. destruct (Z.eqb_spec n 0); [lia|]. cbn [rev]. rewrite rev_involutive. reflexivity. }
  assert (MD : mdp_pairs n vec = direct (size vec) (fun q => q * n + q mod n)) by (rewrite mdp_pairs_size; apply mdp_direct; auto).
  destruct (direct_ok mat vec (fun q => q * n + q mod n) vec_nonneg) as (CC & DD).
  { intros q Hq. fold sz in Hq. rewrite E. pose proof (Z.mod_pos_bound q n Hn). unfold within in *. nia. }
  split.
  - eapply computes_ext; [eapply computes_impl; [exact CC|]|].
    + cbn. intros ex ey R c i Hc Hi. apply R.
      * apply inside_app; [auto|]; constructor; [auto|constructor].
      * apply inside_app; [auto|]; constructor; [auto|]; constructor; [auto|constructor].
      * rewrite mat_off, diag_off by auto. f_equal. rewrite Z.add_comm, Z.mod_add, Z.mod_small by lia. auto.
    + intros x y. unfold mdp_forward. rewrite SU. cbn [obind]. rewrite MD. auto.
  - intros accum dy dx0 Ldy Ldx. destruct accum.
    + destruct (DD true dy dx0 Ldy Ldx) as (dx & A & B & D). exists dx. unfold mdp_backward. rewrite SU. cbn [obind]. rewrite MD. split; [auto|]. split; [auto|].
      intros x y0 Lx Ly. unfold mdp_forward. rewrite SU. cbn [obind]. rewrite MD. auto.
    + unfold mdp_backward. rewrite SU. cbn [obind]. rewrite prod_size. fold sz. rewrite Sd_list.
      assert (SB : Forall (sbound (len dy)) Sd).
      { unfold len. rewrite Ldy. fold sz. unfold Sd. apply Forall_map, Forall_forall. intros q Hq. apply range_in in Hq. unfold dsrc. destruct (_ =? _); [|exact Logic.I]. cbn [sbound].
        split; [apply Z.div_pos; lia|apply Z.div_lt_upper_bound; lia]. }
      pose proof Sd_length as SL. rewrite fill_all; [|auto|lia]. eexists. split; [reflexivity|]. split; [rewrite map_length; lia|].
      intros x y0 Lx Ly. destruct (DD false dy dx0 Ldy Ldx) as (dx & A & B & D). destruct (D x y0 Lx Ly) as (y & F & I). unfold mdp_forward. rewrite SU. cbn [obind]. rewrite MD.
      exists y. split; [auto|]. rewrite <- I. rewrite inner_comm, (inner_used Sd x dy 0) by lia. cbn [Z.to_nat repeat app]. rewrite Sd_used, swap_swap.
      destruct (add_loop_ok (map swap (direct (size vec) (fun q => q * n + q mod n))) dy (zeroed dx0)) as (r & R1 & R2 & R3).
      { unfold len. rewrite zeroed_length, Ldx, Ldy. apply swap_bounded. apply Forall_map, Forall_forall. intros q Hq. apply range_in in Hq. cbn [fst snd]. fold sz in Hq. fold sz. rewrite E.
        pose proof (Z.mod_pos_bound q n Hn). unfold within. split; nia. }
      cbn in A. rewrite R1 in A. inversion A; subst r. rewrite R3, zeroed_inner, psum_swap. rewrite <- MD, (mdp_pairs_size n vec). reflexivity.
Qed.
End Diag.
