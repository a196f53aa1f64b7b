(** Proofs about Tile: the index map. *)
From Coq Require Import List ZArith Bool Lia QArith Qcanon.
From Verif Require Import NdSpec NdModel NdProofs IdxModel IdxProofs1 IdxProofs2 IdxProofs3 IdxProofs6 JoinModel JoinSpec JoinProofs ScanSpec ScanModel ScanProofs1 ReduceModel ReduceProofs1 ConvSpec ConvModel ConvProofs1 ConvProofs3 MatModel BinModel PoolProofs3 GenModel GenSpec.
Import ListNotations.
Local Open Scope list_scope.
Local Open Scope Z_scope.

(** * Arrays of integers *)
Definition zat (a : list Z) (i : Z) : Z := nth (Z.to_nat i) a 0.
Definition zlen (a : list Z) : Z := Z.of_nat (length a).
Lemma zget a i : 0 <= i < zlen a -> get a i = Some (zat a i).
Proof. unfold zlen, get, zat. intros H. destruct (Z.ltb_spec i 0); [lia |]. apply nth_error_nth'. lia. Qed.
Lemma zput_nat (a : list Z) : forall i v, (i < length a)%nat -> exists r, put_nat a i v = Some r /\ length r = length a /\ forall j, nth j r 0 = if Nat.eqb j i then v else nth j a 0.
Proof.
  induction a as [| x a IH]; intros i v H; cbn [length] in H; [lia |]. destruct i as [| i]; cbn [put_nat].
  - exists (v :: a). split; [auto |]. split; [reflexivity |]. intros [| j]; reflexivity.
  - destruct (IH i v) as (r & E & L & N); [lia |]. rewrite E. cbn [obind]. exists (x :: r). split; [auto |]. split; [cbn [length]; congruence |]. intros [| j]; [reflexivity | cbn [nth]; rewrite N; reflexivity].
Qed.
Lemma zput a i v : 0 <= i < zlen a -> exists r, put a i v = Some r /\ zlen r = zlen a /\ forall j, 0 <= j -> zat r j = if j =? i then v else zat a j.
Proof.
  unfold zlen, put, zat. intros H. destruct (Z.ltb_spec i 0); [lia |]. destruct (zput_nat a (Z.to_nat i) v) as (r & E & L & N); [lia |].
  exists r. split; [exact E |]. split; [lia |]. intros j J. rewrite N. destruct (Nat.eqb_spec (Z.to_nat j) (Z.to_nat i)), (Z.eqb_spec j i); auto; lia.
Qed.
Lemma zat_ext a b : zlen a = zlen b -> (forall j, 0 <= j < zlen a -> zat a j = zat b j) -> a = b.
Proof.
  unfold zlen. intros L H. apply (nth_ext a b 0 0); [lia |]. intros n Hn. specialize (H (Z.of_nat n)). unfold zat in H. rewrite Nat2Z.id in H. apply H. lia.
Qed.

Lemma copy_within_ok dst src n a : 0 <= n -> 0 <= src -> src + n <= dst -> dst + n <= zlen a ->
  exists b, copy_within dst src n a = Some b /\ zlen b = zlen a /\ forall i, 0 <= i -> zat b i = if (dst <=? i) && (i <? dst + n) then zat a (src + (i - dst)) else zat a i.
Proof.
  intros Hn Hs Hd He. destruct (loop_inv (fun k b => zlen b = zlen a /\ forall i, 0 <= i -> zat b i = if (dst <=? i) && (i <? dst + k) then zat a (src + (i - dst)) else zat a i)
    (fun i a => obind (get a (src + i)) (fun v => put a (dst + i) v)) n Hn) with (s := a) as (b & E & L & V).
  - intros i b Hi (L & V). rewrite zget by lia. cbn [obind]. destruct (zput b (dst + i) (zat b (src + i)) ltac:(lia)) as (c & P & L' & V'). exists c. split; [exact P |]. split; [lia |].
    intros j Hj. rewrite V' by lia. destruct (Z.eqb_spec j (dst + i)) as [-> |].
    + rewrite V by lia. destruct (Z.leb_spec dst (src + i)); [lia |]. cbn [andb]. destruct (Z.leb_spec dst (dst + i)); [| lia]. destruct (Z.ltb_spec (dst + i) (dst + (i + 1))); [| lia]. cbn [andb]. f_equal. lia.
    + rewrite V by lia. destruct (Z.leb_spec dst j); cbn [andb]; [| reflexivity]. destruct (Z.ltb_spec j (dst + i)), (Z.ltb_spec j (dst + (i + 1))); try lia; reflexivity.
  - split; [reflexivity |]. intros i Hi. destruct (Z.leb_spec dst i); cbn [andb]; [| reflexivity]. destruct (Z.ltb_spec i (dst + 0)); [lia | reflexivity].
  - exists b. auto.
Qed.
(** Copying a block after itself. *)
Lemma repeat_ok at_ n reps a : 0 < n -> 0 <= at_ -> 1 <= reps -> at_ + reps * n <= zlen a ->
  exists b, loop (fun r a => copy_within (at_ + r * n) at_ n a) (from_1 reps) a = Some b /\ zlen b = zlen a /\
  forall i, 0 <= i -> zat b i = if (at_ <=? i) && (i <? at_ + reps * n) then zat a (at_ + (i - at_) mod n) else zat a i.
Proof.
  intros Hn Ha Hr He. unfold from_1. rewrite <- (loop_map (fun r a => copy_within (at_ + r * n) at_ n a) (Z.add 1)).
  destruct (loop_inv (fun k b => zlen b = zlen a /\ forall i, 0 <= i -> zat b i = if (at_ <=? i) && (i <? at_ + (k + 1) * n) then zat a (at_ + (i - at_) mod n) else zat a i)
    (fun r a => copy_within (at_ + (1 + r) * n) at_ n a) (reps - 1) ltac:(lia)) with (s := a) as (b & E & L & V).
  - intros k b Hk (L & V). destruct (copy_within_ok (at_ + (1 + k) * n) at_ n b) as (c & C & L' & V'); try nia. exists c. split; [exact C |]. split; [lia |].
    intros i Hi. rewrite V' by exact Hi. destruct (Z.leb_spec (at_ + (1 + k) * n) i) as [H1 | H1]; cbn [andb].
    + destruct (Z.ltb_spec i (at_ + (1 + k) * n + n)) as [H2 | H2]; cbn [andb].
      * destruct (Z.leb_spec at_ i); [| nia]. destruct (Z.ltb_spec i (at_ + (k + 1 + 1) * n)); [| nia]. cbn [andb]. rewrite V by nia. destruct (Z.leb_spec at_ (at_ + (i - (at_ + (1 + k) * n)))); [| nia]. destruct (Z.ltb_spec (at_ + (i - (at_ + (1 + k) * n))) (at_ + (k + 1) * n)); [| nia]. cbn [andb].
        f_equal. f_equal. replace (i - at_) with (at_ + (i - (at_ + (1 + k) * n)) - at_ + (1 + k) * n) by ring. rewrite Z.mod_add by lia. reflexivity.
      * rewrite V by exact Hi. destruct (Z.leb_spec at_ i); cbn [andb]; [| nia]. destruct (Z.ltb_spec i (at_ + (k + 1) * n)), (Z.ltb_spec i (at_ + (k + 1 + 1) * n)); try nia; reflexivity.
    + rewrite V by exact Hi. destruct (Z.leb_spec at_ i); cbn [andb]; [| reflexivity]. destruct (Z.ltb_spec i (at_ + (k + 1) * n)), (Z.ltb_spec i (at_ + (k + 1 + 1) * n)); try nia; reflexivity.
  - split; [reflexivity |]. intros i Hi. destruct (Z.leb_spec at_ i); cbn [andb]; [| reflexivity]. destruct (Z.ltb_spec i (at_ + (0 + 1) * n)); [| reflexivity]. rewrite Z.mod_small by lia. f_equal. lia.
  - exists b. split; [exact E |]. split; [exact L |]. intros i Hi. rewrite V by exact Hi. replace (reps - 1 + 1) with reps by ring. reflexivity.
Qed.

(** * The loops over indices *)
Lemma zeros_app a b : zeros (a ++ b) = zeros a ++ zeros b.
Proof. apply map_app. Qed.
Lemma zeros_inside s : positive s -> inside (zeros s) s /\ off (zeros s) s = 0.
Proof. induction 1 as [| n s H P (I & O)]; [split; [constructor | reflexivity] |]. split; [constructor; [lia | exact I] |]. cbn [zeros map off]. change (map (fun _ => 0) s) with (zeros s). rewrite O. lia. Qed.
Lemma inc_axis P R idx axis : P <> [] -> length idx = length P -> norm_axis axis (length (P ++ R)) = Z.of_nat (length P) - 1 ->
  increment_axis (idx ++ zeros R) (P ++ R) axis = let (r, b) := inc idx P in Some (r ++ zeros R, b).
Proof.
  intros NE L AX. unfold increment_axis. assert (LL : length (idx ++ zeros R) = length (P ++ R)) by (rewrite !app_length, zeros_len; lia). rewrite LL, AX, Nat.eqb_refl.
  assert (LP : (0 < length P)%nat) by (destruct P; [contradiction | cbn; lia]). rewrite (proj2 (Z.leb_le _ _)) by lia. rewrite app_length. rewrite (proj2 (Z.ltb_lt _ _)) by lia. cbn [andb].
  replace (S (Z.to_nat (Z.of_nat (length P) - 1))) with (length P) by lia. rewrite (firstn_app_len P R _ eq_refl), (firstn_app_len idx (zeros R)) by (symmetry; exact L). rewrite (skipn_app_len idx (zeros R)) by (symmetry; exact L).
  rewrite inc_inc_rev by exact L. destruct (inc idx P) as [r b]. rewrite rev_involutive. reflexivity.
Qed.
Lemma do_while_V {A} P R axis (body : list Z -> A -> option A) : P <> [] -> norm_axis axis (length (P ++ R)) = Z.of_nat (length P) - 1 ->
  forall idx l, V P idx l -> length idx = length P -> forall fuel a, (length l <= fuel)%nat ->
  do_while fuel (P ++ R) axis body (idx ++ zeros R) a = obind (loop (fun p => body (p ++ zeros R)) l a) (fun a => Some (zeros P ++ zeros R, a)).
Proof.
  intros NE AX. induction 1 as [idx r E | idx n l E VN IH]; intros L fuel a F; (destruct fuel as [| fuel]; [cbn [length] in F; lia |]); cbn [do_while loop].
  - destruct (body (idx ++ zeros R) a) as [a' |]; [| reflexivity]. cbn [obind]. rewrite inc_axis by assumption. rewrite E. cbn [obind]. rewrite (inc_false_zeros _ _ _ L E). reflexivity.
  - destruct (body (idx ++ zeros R) a) as [a' |]; [| reflexivity]. cbn [obind]. rewrite inc_axis by assumption. rewrite E. cbn [obind]. apply IH; [| cbn [length] in F; lia]. pose proof (inc_length _ _ L) as X. rewrite E in X. cbn [fst] in X. congruence.
Qed.
Lemma indices_length s : nonneg s -> Z.of_nat (length (indices s)) = size s.
Proof. intros N. pose proof (f_equal (@length Z) (upto_indices s N)) as E. rewrite map_length in E. rewrite <- E. unfold upto. rewrite map_length, seq_length. pose proof (size_nonneg s N). lia. Qed.
Lemma positive_nonneg s : positive s -> nonneg s.
Proof. apply Forall_impl. intros; lia. Qed.
(** A do-while loop is a loop over the positions. *)
Lemma do_while_ok {A} P R axis (body : list Z -> A -> option A) fuel a : P <> [] -> positive P -> norm_axis axis (length (P ++ R)) = Z.of_nat (length P) - 1 -> size P <= Z.of_nat fuel ->
  do_while fuel (P ++ R) axis body (zeros (P ++ R)) a = obind (loop (fun q => body (unoff P q ++ zeros R)) (upto (size P)) a) (fun a => Some (zeros (P ++ R), a)).
Proof.
  intros NE PP AX F. pose proof (positive_nonneg P PP) as NN. rewrite zeros_app. rewrite (do_while_V P R axis body NE AX _ _ (V_all P PP) (zeros_len P)).
  - f_equal. rewrite upto_indices by exact NN. rewrite <- (loop_map (fun q => body (unoff P q ++ zeros R)) (fun i => off i P)). apply loop_ext. intros p s Ip. apply indices_in in Ip. rewrite unoff_off by assumption. reflexivity.
  - pose proof (indices_length P NN). lia.
Qed.
