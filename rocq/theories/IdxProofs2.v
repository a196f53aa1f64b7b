(** Shift, Flip and Broadcast. *)
From Coq Require Import List ZArith Lia Bool Permutation.
From Verif Require Import NdModel NdSpec NdProofs IdxModel IdxSpec IdxProofs1.
Import ListNotations.
Local Open Scope list_scope.
Local Open Scope Z_scope.

Definition nonneg (l : list Z) : Prop := Forall (fun s => 0 <= s) l.

(** * Axis-wise functions *)
Fixpoint amap (fs : list (Z -> Z)) (idx : list Z) : list Z :=
  match fs, idx with f :: fs, i :: idx => f i :: amap fs idx | _, _ => [] end.
Fixpoint desc (ns : list Z) (fs : list (Z -> Z)) (st : list Z) : list (Z * (Z -> option Z)) :=
  match ns, fs, st with
  | n :: ns, f :: fs, s :: st => (n, fun i => Some (f i * s)) :: desc ns fs st
  | _, _, _ => []
  end.
Inductive fits : list Z -> list (Z -> Z) -> list Z -> Prop :=
| fits_nil : fits [] [] []
| fits_cons n f m ns fs ms : (forall i, within n i -> within m (f i)) -> fits ns fs ms -> fits (n :: ns) (f :: fs) (m :: ms).

Lemma desc_fst ns fs xs : fits ns fs xs -> forall st, length st = length ns -> map fst (desc ns fs st) = ns.
Proof.
  induction 1 as [|n f m ns fs ms Hf F IH]; intros st L; [reflexivity|]. destruct st as [|s st]; [discriminate|].
  cbn [desc map fst]. rewrite IH; auto.
Qed.
Lemma osum_desc ns fs xs : fits ns fs xs -> forall st idx, length st = length ns -> length idx = length ns ->
  osum (desc ns fs st) idx = Some (dot (amap fs idx) st).
Proof.
  induction 1 as [|n f m ns fs ms Hf F IH]; intros st idx L L'; [destruct idx; [reflexivity|discriminate]|].
  destruct st as [|s st]; [discriminate|]. destruct idx as [|i idx]; [discriminate|]. cbn [desc osum amap dot].
  rewrite IH by (cbn in *; lia). reflexivity.
Qed.
Lemma fits_inside ns fs xs : fits ns fs xs -> forall idx, inside idx ns -> inside (amap fs idx) xs.
Proof.
  induction 1 as [|n f m ns fs ms Hf F IH]; intros idx I; inversion I; subst; cbn [amap]; constructor; auto.
  - apply Hf. auto.
  - apply IH. auto.
Qed.
Lemma cstrides_length s : length (cstrides s) = length s.
Proof. destruct s as [|a s]; [reflexivity|]. rewrite cstrides_sfx, sfx_length. reflexivity. Qed.
Lemma dot_cstrides idx s : inside idx s -> dot idx (cstrides s) = off idx s.
Proof. intros H. destruct s as [|a s]; [inversion H; reflexivity|]. rewrite cstrides_sfx. apply dot_off. auto. Qed.
Lemma fits_length ns fs xs : fits ns fs xs -> length ns = length xs.
Proof. induction 1; cbn; auto. Qed.

Lemma srcs_desc ns fs xs : fits ns fs xs ->
  srcs (desc ns fs (cstrides xs)) = map (fun idx => Some (off (amap fs idx) xs)) (indices ns).
Proof.
  intros F. assert (L : length (cstrides xs) = length ns) by (rewrite cstrides_length; symmetry; eapply fits_length; eauto).
  rewrite srcs_osum, (desc_fst _ _ _ F _ L). apply map_ext_in. intros idx Hi. apply indices_in in Hi.
  rewrite (osum_desc _ _ _ F) by (auto; apply inside_length; auto). f_equal. apply dot_cstrides. eapply fits_inside; eauto.
Qed.
Lemma srcs_desc_bound ns fs xs : fits ns fs xs -> Forall (sbound (size xs)) (srcs (desc ns fs (cstrides xs))).
Proof.
  intros F. rewrite (srcs_desc _ _ _ F). apply Forall_map, Forall_forall. intros idx Hi. apply indices_in in Hi. cbn [sbound].
  apply off_bound. eapply fits_inside; eauto.
Qed.
Lemma indices_length ns : nonneg ns -> Z.of_nat (length (indices ns)) = size ns.
Proof.
  intros P. rewrite <- (map_length (fun x => off x ns)), indices_off, range_length by auto.
  rewrite Z2Nat.id; [auto|]. apply size_nonneg. auto.
Qed.
Lemma elem_at a s idx : inside idx s -> elem a s idx = at_ a (off idx s).
Proof. intros H. unfold elem, at_. rewrite position_off by auto. do 2 f_equal. Qed.

(** A forward pass writing all elements in order from sources given by index. *)
Lemma computes_src c ns xs (src : list Z -> option Z) (fwd : list Z -> list Z -> option (list Z)) :
  nonneg ns -> (forall idx, inside idx ns -> sbound (size xs) (src idx)) ->
  (forall x y0, fwd x y0 = fill_loop c (combine (range 0 (length (indices ns))) (map src (indices ns))) x y0) ->
  computes xs ns fwd (fun ex ey => forall idx, inside idx ns ->
     match src idx with Some o => forall j, inside j xs -> off j xs = o -> ey idx = ex j | None => ey idx = c end).
Proof.
  intros P B HF x y0 Lx Ly. rewrite HF.
  replace (length (indices ns)) with (length (map src (indices ns))) by apply map_length.
  rewrite fill_all.
  - eexists. split; [reflexivity|]. pose proof (indices_length ns P) as L. split; [rewrite !map_length; lia|].
    intros idx I. specialize (B idx I).
    assert (E : elem (map (pick c x) (map src (indices ns))) ns idx = pick c x (src idx)).
    { unfold elem. rewrite map_map. apply (nth_indices (fun i => pick c x (src i))); auto. }
    rewrite E. destruct (src idx) as [o|]; cbn [pick]; [|auto].
    intros j Hj <-. rewrite elem_at by auto. reflexivity.
  - apply Forall_map, Forall_forall. intros idx Hi. apply indices_in in Hi. unfold len. rewrite Lx. auto.
  - rewrite map_length. pose proof (indices_length ns P). lia.
Qed.
Lemma computes_impl xs ys fwd (R R' : (list Z -> Z) -> (list Z -> Z) -> Prop) :
  computes xs ys fwd R -> (forall ex ey, R ex ey -> R' ex ey) -> computes xs ys fwd R'.
Proof. intros H I x y0 Lx Ly. destruct (H x y0 Lx Ly) as (y & A & B & C). exists y. auto. Qed.

Lemma computes_desc ns fs xs (fwd : list Z -> list Z -> option (list Z)) :
  nonneg ns -> fits ns fs xs ->
  (forall x y0, fwd x y0 = fill_loop 0 (combine (range 0 (Z.to_nat (size ns))) (srcs (desc ns fs (cstrides xs)))) x y0) ->
  computes xs ns fwd (fun ex ey => forall idx, inside idx ns -> ey idx = ex (amap fs idx)).
Proof.
  intros P F HF. eapply computes_impl.
  - apply (computes_src 0 ns xs (fun idx => Some (off (amap fs idx) xs)) fwd P).
    + intros idx I. cbn [sbound]. apply off_bound. eapply fits_inside; eauto.
    + intros x y0. rewrite HF, (srcs_desc _ _ _ F). f_equal. f_equal. f_equal. pose proof (indices_length ns P). lia.
  - cbn. intros ex ey H idx I. apply (H idx I); auto. eapply fits_inside; eauto.
Qed.

Lemma used_some ps : used (map (fun p => (fst p, Some (snd p))) ps) = ps.
Proof. induction ps as [|[d s] ps IH]; cbn [map used fst snd]; [reflexivity|]. rewrite IH. reflexivity. Qed.

(** The pairs of such a function: forward and backward from the list of pairs. *)
Lemma pairs_desc ns fs xs ps : nonneg ns -> fits ns fs xs ->
  map (fun p => (fst p, Some (snd p))) ps = combine (range 0 (Z.to_nat (size ns))) (srcs (desc ns fs (cstrides xs))) ->
  computes xs ns (fun x y0 => copy_loop ps x y0) (fun ex ey => forall idx, inside idx ns -> ey idx = ex (amap fs idx)) /\
  adjoint (size xs) (size ns) (fun x y0 => copy_loop ps x y0)
    (fun (accum : bool) dy dx0 => add_loop (map swap ps) dy (if accum then dx0 else zeroed dx0)).
Proof.
  intros P F E. assert (L : Z.of_nat (length (srcs (desc ns fs (cstrides xs)))) = size ns).
  { rewrite (srcs_desc _ _ _ F), map_length. apply indices_length. auto. }
  split.
  - apply computes_desc; auto. intros x y0. rewrite (copy_fill 0), E. auto.
  - rewrite <- L. apply adjoint_add.
    + apply srcs_desc_bound. auto.
    + intros x y0. rewrite (copy_fill 0), E. do 3 f_equal. lia.
    + intros accum dy dx0. rewrite <- (used_some ps), E. do 5 f_equal. lia.
Qed.

Lemma adjoint_ext nx ny f f' g g' : adjoint nx ny f g -> (forall x y, f' x y = f x y) -> (forall a x y, g' a x y = g a x y) -> adjoint nx ny f' g'.
Proof.
  intros H Ef Eg accum dy dx0 L1 L2. destruct (H accum dy dx0 L1 L2) as (dx & A & B & C). exists dx. rewrite Eg. split; [auto|]. split; [auto|].
  intros x y0 L3 L4. rewrite Ef. auto.
Qed.
Lemma computes_ext xs ys f f' R : computes xs ys f R -> (forall x y, f' x y = f x y) -> computes xs ys f' R.
Proof. intros H E x y0 Lx Ly. rewrite E. auto. Qed.

(** Nested loops: the output offset advances by the block. *)
Lemma combine_app {A B} (a a' : list A) (b b' : list B) : length a = length b -> combine (a ++ a') (b ++ b') = combine a b ++ combine a' b'.
Proof. revert b. induction a as [|x a IH]; intros [|y b] L; try discriminate; cbn; [auto|]. rewrite IH; auto. Qed.
Lemma flat_combine {B} (F : Z -> list B) yo m : (forall i, length (F i) = m) -> forall n k,
  flat_map (fun i => combine (range (yo + i * Z.of_nat m) m) (F i)) (range k n) =
  combine (range (yo + k * Z.of_nat m) (n * m)) (flat_map F (range k n)).
Proof.
  intros L. induction n as [|n IH]; intros k; [reflexivity|]. cbn [range flat_map Nat.mul]. rewrite IH, range_app, combine_app.
  - f_equal. f_equal. f_equal. lia.
  - rewrite range_length, L. auto.
Qed.
Lemma map_flat_map {A B C} (f : B -> C) (g : A -> list B) l : map f (flat_map g l) = flat_map (fun a => map f (g a)) l.
Proof. induction l as [|a l IH]; cbn; [auto|]. rewrite map_app, IH. auto. Qed.
Lemma oadd_0 l : map (oadd (Some 0)) l = l.
Proof. rewrite <- (map_id l) at 2. apply map_ext. intros [a|]; reflexivity. Qed.
Definition somed (ps : list (Z * Z)) : list (Z * option Z) := map (fun p => (fst p, Some (snd p))) ps.

Lemma nested n st f D (R : Z -> Z -> list (Z * Z)) : 0 <= n -> Z.of_nat (length (srcs D)) = st ->
  forall st', (forall xo yo, somed (R xo yo) = combine (range yo (Z.to_nat st)) (map (oadd (Some xo)) (srcs D))) ->
  forall xo yo, somed (flat_map (fun i => R (xo + f i * st') (yo + i * st)) (range 0 (Z.to_nat n))) =
  combine (range yo (Z.to_nat (n * st))) (map (oadd (Some xo)) (srcs ((n, fun i => Some (f i * st')) :: D))).
Proof.
  intros Hn Hst st' H xo yo. unfold somed in *. rewrite map_flat_map. cbn [srcs]. rewrite map_flat_map.
  rewrite Z2Nat.inj_mul by lia. set (m := Z.to_nat st) in *. assert (M : st = Z.of_nat m) by lia. rewrite M.
  erewrite flat_map_ext; [|intros i; apply H].
  rewrite flat_combine by (intros i; rewrite map_length; lia).
  rewrite Z.mul_0_l, Z.add_0_r. f_equal. apply flat_map_ext. intros i. rewrite map_map. apply map_ext. intros a.
  rewrite <- oadd_assoc. reflexivity.
Qed.

(** * Shift *)
Definition shift_fs (reflect : bool) (shifts : list Z) (ndim dim : nat) (shape : list Z) : list (Z -> Z) :=
  map (fun p => shift_j reflect (snd p) (shift_at shifts ndim (dim + fst p))) (combine (seq 0 (length shape)) shape).
Lemma shift_fs_cons r sh nd dim n t : shift_fs r sh nd dim (n :: t) = shift_j r n (shift_at sh nd dim) :: shift_fs r sh nd (S dim) t.
Proof.
  unfold shift_fs. cbn [length seq combine map fst snd]. f_equal; [rewrite Nat.add_0_r; auto|].
  rewrite <- seq_shift. rewrite <- (map_id t) at 2.
  generalize (seq 0 (length t)) as l. intros l. revert l. induction t as [|m t IH]; intros [|k l]; cbn; auto.
  rewrite Nat.add_succ_r. f_equal. apply IH.
Qed.
Lemma shift_j_within r n sh i : 0 <= i < n -> within n (shift_j r n sh i).
Proof.
  unfold within, shift_j. intros H. destruct r; [|lia].
  destruct (Z.ltb_spec 1 n); [|destruct (Z.leb_spec n 0); lia].
  pose proof (Z.rem_bound_pos (Z.abs (i + n * 2 + sh)) (n * 2)) as B. specialize (B ltac:(lia) ltac:(lia)).
  destruct (Z.leb_spec n (Z.rem (Z.abs (i + n * 2 + sh)) (n * 2))); lia.
Qed.
Lemma shift_fits r sh nd shape : forall dim, fits shape (shift_fs r sh nd dim shape) shape.
Proof.
  induction shape as [|n t IH]; intros dim; [constructor|]. rewrite shift_fs_cons. constructor; [|apply IH].
  intros i Hi. apply shift_j_within. auto.
Qed.
Lemma srcs_desc_length ns fs xs : nonneg ns -> fits ns fs xs -> Z.of_nat (length (srcs (desc ns fs (cstrides xs)))) = size ns.
Proof. intros P F. rewrite (srcs_desc _ _ _ F), map_length. apply indices_length. auto. Qed.
Lemma cstrides_cons n t : cstrides (n :: t) = size t :: cstrides t.
Proof. destruct t as [|m t]; rewrite !cstrides_sfx; reflexivity. Qed.
Lemma shift_rec_ok r sh nd shape : nonneg shape -> forall dim xo yo,
  somed (shift_rec r sh nd dim shape (cstrides shape) xo yo) =
  combine (range yo (Z.to_nat (size shape))) (map (oadd (Some xo)) (srcs (desc shape (shift_fs r sh nd dim shape) (cstrides shape)))).
Proof.
  induction 1 as [|n t Hn P IH]; intros dim xo yo.
  - cbn. rewrite Z.add_0_r. reflexivity.
  - rewrite cstrides_cons, shift_fs_cons. cbn [shift_rec desc size]. rewrite upto_range.
    apply (nested n (size t) (shift_j r n (shift_at sh nd dim)) (desc t (shift_fs r sh nd (S dim) t) (cstrides t))
      (fun xo yo => shift_rec r sh nd (S dim) t (cstrides t) xo yo)).
    + auto.
    + apply srcs_desc_length; auto. apply shift_fits.
    + intros xo' yo'. apply IH.
Qed.
Lemma shift_ok r sh shape : nonneg shape -> shape <> [] ->
  computes shape shape (shift_forward r sh shape) (fun ex ey => forall idx, inside idx shape -> ey idx = ex (amap (shift_fs r sh (length shape) 0 shape) idx)) /\
  adjoint (size shape) (size shape) (shift_forward r sh shape) (shift_backward r sh shape).
Proof.
  intros P NE. destruct (pairs_desc shape (shift_fs r sh (length shape) 0 shape) shape
     (shift_rec r sh (length shape) 0 shape (cstrides shape) 0 0) P (shift_fits _ _ _ _ _)) as (A & B).
  { etransitivity; [apply (shift_rec_ok r sh (length shape) shape P 0 0 0)|]. rewrite oadd_0. auto. }
  split.
  - eapply computes_ext; [exact A|]. intros x y. unfold shift_forward, shift_pairs. destruct shape; [congruence|reflexivity].
  - eapply adjoint_ext; [exact B| |].
    + intros x y. unfold shift_forward, shift_pairs. destruct shape; [congruence|reflexivity].
    + intros a x y. unfold shift_backward, shift_pairs. destruct shape; [congruence|reflexivity].
Qed.

Lemma amap_nth fs : forall idx k f d, nth_error fs k = Some f -> (k < length idx)%nat -> nth k (amap fs idx) d = f (nth k idx d).
Proof.
  induction fs as [|g fs IH]; intros idx k f d E L; [destruct k; discriminate|]. destruct idx as [|i idx]; [cbn in L; lia|].
  destruct k as [|k]; cbn [nth_error nth amap] in *; [congruence|]. apply IH; auto. cbn in L. lia.
Qed.
Lemma amap_length fs : forall idx, length fs = length idx -> length (amap fs idx) = length idx.
Proof. induction fs as [|g fs IH]; intros [|i idx] L; cbn in *; auto. Qed.
Lemma shift_fs_nth r sh nd shape : forall dim k, (k < length shape)%nat ->
  nth_error (shift_fs r sh nd dim shape) k = Some (shift_j r (nth k shape 0) (shift_at sh nd (dim + k))).
Proof.
  induction shape as [|n t IH]; intros dim k H; [cbn in H; lia|]. rewrite shift_fs_cons. destruct k as [|k]; cbn [nth_error nth].
  - rewrite Nat.add_0_r. auto.
  - rewrite IH by (cbn in H; lia). do 3 f_equal. lia.
Qed.
Lemma shift_fs_length r sh nd dim shape : length (shift_fs r sh nd dim shape) = length shape.
Proof. unfold shift_fs. rewrite map_length, combine_length, seq_length. lia. Qed.

Lemma shift_at_aligned sh nd k : shift_at sh nd k = - aligned sh nd k.
Proof.
  unfold shift_at, aligned. destruct (Nat.leb_spec nd (length sh + k)), (Nat.ltb_spec (k + length sh) nd); try lia.
  do 2 f_equal. lia.
Qed.
Lemma shift_j_nearest n s i : shift_j false n (- s) i = nearest n (i - s).
Proof. unfold shift_j, nearest. do 2 f_equal. Qed.
Lemma shift_j_reflect n s i : 0 <= i < n -> s <= 2 * n -> shift_j true n (- s) i = mirror_half n (i - s).
Proof.
  intros Hi Hs. unfold shift_j, mirror_half. rewrite Z.abs_eq by lia. rewrite Z.rem_mod_nonneg by lia.
  replace (i + n * 2 + - s) with (i - s + 1 * (2 * n)) by ring. replace (n * 2) with (2 * n) by ring. rewrite Z.mod_add by lia.
  destruct (Z.ltb_spec 1 n).
  - destruct (Z.leb_spec n ((i - s) mod (2 * n))), (Z.ltb_spec ((i - s) mod (2 * n)) n); lia.
  - assert (n = 1) by lia. subst n. cbn [Z.leb Z.compare]. pose proof (Z.mod_pos_bound (i - s) (2 * 1)).
    destruct (Z.ltb_spec ((i - s) mod (2 * 1)) 1); lia.
Qed.

(** * Flip *)
Definition flip_fs (flip : list bool) (shape : list Z) : list (Z -> Z) :=
  map (fun (p : bool * Z) i => if fst p then snd p - 1 - i else i) (combine flip shape).
Lemma flip_fits flip : forall shape, length flip = length shape -> fits shape (flip_fs flip shape) shape.
Proof.
  induction flip as [|f flip IH]; intros [|n t] L; try discriminate; [constructor|]. cbn. constructor; [|apply IH; auto].
  intros i Hi. unfold within in *. destruct f; cbn [fst snd]; lia.
Qed.
Lemma flip_rec_ok shape : nonneg shape -> forall flip, length flip = length shape -> forall xo yo,
  somed (flip_rec flip shape (cstrides shape) xo yo) =
  combine (range yo (Z.to_nat (size shape))) (map (oadd (Some xo)) (srcs (desc shape (flip_fs flip shape) (cstrides shape)))).
Proof.
  induction 1 as [|n t Hn P IH]; intros [|f flip] L xo yo; try discriminate.
  - cbn. rewrite Z.add_0_r. reflexivity.
  - rewrite cstrides_cons. cbn [flip_rec size]. rewrite upto_range.
    change (flip_fs (f :: flip) (n :: t)) with ((fun i => if f then n - 1 - i else i) :: flip_fs flip t). cbn [desc].
    rewrite <- (nested n (size t) (fun i => if f then n - 1 - i else i) (desc t (flip_fs flip t) (cstrides t))
      (fun xo yo => flip_rec flip t (cstrides t) xo yo)).
    + f_equal. apply flat_map_ext. intros i. f_equal. destruct f; ring.
    + auto.
    + apply srcs_desc_length; auto. apply flip_fits. auto.
    + intros xo' yo'. apply IH. auto.
Qed.
Lemma somed_inj a b : somed a = somed b -> a = b.
Proof. intros H. rewrite <- (used_some a), <- (used_some b). f_equal. exact H. Qed.
Lemma combine_map {A B C} (f : A -> B) (g : A -> C) l : combine (map f l) (map g l) = map (fun a => (f a, g a)) l.
Proof. induction l as [|a l IH]; cbn; [auto|]. rewrite IH. auto. Qed.
Lemma pairs_indices ns fs xs ps : nonneg ns -> fits ns fs xs ->
  somed ps = combine (range 0 (Z.to_nat (size ns))) (srcs (desc ns fs (cstrides xs))) ->
  ps = map (fun idx => (off idx ns, off (amap fs idx) xs)) (indices ns).
Proof.
  intros P F E. apply somed_inj. rewrite E, (srcs_desc _ _ _ F), <- (indices_off ns P), combine_map. unfold somed. rewrite map_map. reflexivity.
Qed.
Lemma nodup_range n : forall k, NoDup (range k n).
Proof. induction n as [|n IH]; intros k; cbn [range]; constructor; auto. rewrite range_in. lia. Qed.
Lemma nodup_fst {A B} (l : list (A * B)) : NoDup (map fst l) -> NoDup l.
Proof. apply NoDup_map_inv. Qed.
Lemma off_inj shape i j : nonneg shape -> inside i shape -> inside j shape -> off i shape = off j shape -> i = j.
Proof.
  intros P I J E. rewrite <- (nth_indices (fun z => z) shape i [] P I), <- (nth_indices (fun z => z) shape j [] P J).
  rewrite !position_off by auto. rewrite E. reflexivity.
Qed.

(** A backward pass whose pairs are those of the forward pass the other way around. *)
Lemma adjoint_cover nx ny ps qs (fwd : list Z -> list Z -> option (list Z)) (bwd : bool -> list Z -> list Z -> option (list Z)) :
  0 <= nx -> map fst ps = range 0 (Z.to_nat ny) -> 0 <= ny -> map fst qs = range 0 (Z.to_nat nx) ->
  bounded ps ny nx -> Permutation (map swap ps) qs ->
  (forall x y0, fwd x y0 = copy_loop ps x y0) ->
  (forall accum dy dx0, bwd accum dy dx0 = (if accum then add_loop else copy_loop) qs dy dx0) ->
  adjoint nx ny fwd bwd.
Proof.
  intros Hx Fp Hy Fq B P HF HB accum dy dx0 L1 L2. rewrite HB.
  assert (B' : bounded qs (len dx0) (len dy)).
  { unfold len. rewrite L1, L2. apply (Permutation_Forall P). apply swap_bounded. auto. }
  assert (FW : forall x y0, Z.of_nat (length x) = nx -> Z.of_nat (length y0) = ny -> exists y, fwd x y0 = Some y /\ inner dy y = psum qs dy x).
  { intros x y0 L3 L4. rewrite HF. destruct (copy_cover ps x y0) as (y & E & L & I).
    - unfold len. rewrite L3, L4. auto.
    - rewrite Fp. replace (Z.to_nat ny) with (length y0) by lia. auto.
    - exists y. split; [auto|].
      assert (C : forall a b, inner a b = inner b a).
      { induction a as [|u a IH]; intros [|v b]; cbn [inner]; auto. rewrite IH. ring. }
      rewrite C, I, <- (psum_perm _ _ dy x P), psum_swap. auto. }
  destruct accum.
  - destruct (add_loop_ok qs dy dx0 B') as (r & E & L & I). exists r. split; [auto|]. split; [auto|].
    intros x y0 L3 L4. destruct (FW x y0 L3 L4) as (y & Ey & Iy). exists y. split; [auto|]. rewrite I, Iy. auto.
  - destruct (copy_cover qs dy dx0 B') as (r & E & L & I).
    { rewrite Fq. replace (Z.to_nat nx) with (length dx0) by lia. auto. }
    exists r. split; [auto|]. split; [auto|].
    intros x y0 L3 L4. destruct (FW x y0 L3 L4) as (y & Ey & Iy). exists y. split; [auto|]. rewrite I, Iy. lia.
Qed.
Lemma flip_invol flip : forall shape idx, length flip = length shape -> inside idx shape ->
  amap (flip_fs flip shape) (amap (flip_fs flip shape) idx) = idx.
Proof.
  induction flip as [|f flip IH]; intros [|n t] idx L I; try discriminate; inversion I; subst; [reflexivity|].
  cbn. f_equal; [destruct f; cbn; lia|]. apply IH; auto.
Qed.
Lemma flip_ok flip shape ps : nonneg shape -> length flip = length shape ->
  ps = flip_rec flip shape (cstrides shape) 0 0 ->
  computes shape shape (copy_loop ps) (fun ex ey => forall idx, inside idx shape -> ey idx = ex (amap (flip_fs flip shape) idx)) /\
  adjoint (size shape) (size shape) (copy_loop ps) (fun (accum : bool) dy dx => (if accum then add_loop else copy_loop) ps dy dx).
Proof.
  intros P L E. pose proof (flip_fits flip shape L) as F.
  assert (S : somed ps = combine (range 0 (Z.to_nat (size shape))) (srcs (desc shape (flip_fs flip shape) (cstrides shape)))).
  { subst ps. rewrite flip_rec_ok, oadd_0 by auto. auto. }
  destruct (pairs_desc shape (flip_fs flip shape) shape ps P F S) as (A & _). split; [exact A|].
  pose proof (pairs_indices _ _ _ _ P F S) as X. pose proof (size_nonneg _ P) as SP.
  assert (F1 : map fst ps = range 0 (Z.to_nat (size shape))).
  { rewrite X, map_map. cbn [fst]. apply indices_off. auto. }
  apply (adjoint_cover _ _ ps ps); auto.
  - rewrite X. apply Forall_map, Forall_forall. intros idx Hi. apply indices_in in Hi. cbn [fst snd]. split; apply off_bound; auto.
    eapply fits_inside; eauto.
  - assert (N : NoDup ps) by (apply nodup_fst; rewrite F1; apply nodup_range).
    apply NoDup_Permutation; auto.
    + apply FinFun.Injective_map_NoDup; auto. intros [a b] [c d] H. unfold swap in H. cbn in H. congruence.
    + assert (G : forall p, In p ps -> In (swap p) ps).
      { intros p Hp. rewrite X in *. apply in_map_iff in Hp as (idx & <- & Hi). apply in_map_iff. unfold swap. cbn [fst snd].
        apply indices_in in Hi. exists (amap (flip_fs flip shape) idx). rewrite flip_invol by auto. split; [auto|].
        apply indices_in. eapply fits_inside; eauto. }
      intros p. split; intros H.
      * apply in_map_iff in H as (q & <- & Hq). auto.
      * apply in_map_iff. exists (swap p). split; [destruct p; reflexivity|]. auto.
Qed.
