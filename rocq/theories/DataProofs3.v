(** ConcatDataSource and DataSourceWithFileCache satisfy the reading laws. *)
From Coq Require Import List Bool Arith ZArith Lia Permutation.
From Coq Require Import ZifyBool ZifyNat.
From Verif Require Import DataModel DataSpec DataProofs DataProofs2.
Import ListNotations.

(** ** ConcatDataSource *)

Lemma nth_error_upd {A} (l : list A) i j x :
  nth_error (upd l i x) j = if Nat.eqb i j then (match nth_error l i with Some _ => Some x | None => None end)
                            else nth_error l j.
Proof.
  revert i j. induction l as [|y l IH]; intros [|i] [|j]; cbn; auto.
  destruct (Nat.eqb i j); reflexivity.
Qed.

Lemma upd_length {A} (l : list A) i x : length (upd l i x) = length l.
Proof. revert i. induction l as [|y l IH]; intros [|i]; cbn; auto. Qed.

Lemma list_sum_cons x l : list_sum (x :: l) = x + list_sum l.
Proof. reflexivity. Qed.

Section Concat.
Context {S E : Type} (o : ops S E).
Variables (sz : nat -> nat) (ord : nat -> nat -> nat -> nat -> E) (R : nat -> S -> nat -> nat -> Prop).
Hypothesis L : forall id, ra_law o (sz id) (ord id) (R id).
Variables (ids : list nat) (shuffle : bool) (rng : rng_t).
Hypothesis Hnd : NoDup ids.
Hypothesis Hf : fair rng.

Definition items (id : nat) : list E := map (ord id 0 0) (seq 0 (sz id)).
Definition all_items (l : list nat) : list E := flat_map items l.
Definition good_store (store : list S) : Prop :=
  forall id, In id ids -> exists s, nth_error store id = Some s /\ R id s 0 0.

Fixpoint psums (acc : nat) (l : list nat) : list nat :=
  match l with [] => [] | x :: l' => (acc + sz x) :: psums (acc + sz x) l' end.

Lemma items_length id : length (items id) = sz id.
Proof. unfold items. now rewrite map_length, seq_length. Qed.

Lemma all_items_length l : length (all_items l) = list_sum (map sz l).
Proof.
  induction l as [|x l IH]; [reflexivity|]. cbn. rewrite app_length, items_length.
  unfold all_items in IH. now rewrite IH.
Qed.

Lemma find_source_spec l : forall acc idx i, acc <= idx < acc + list_sum (map sz l) ->
  exists i' j id, find_source idx acc i (psums acc l) = Some (i + i', j) /\ nth_error l i' = Some id /\
    j < sz id /\ nth_error (all_items l) (idx - acc) = nth_error (items id) j.
Proof.
  induction l as [|x l IH]; intros acc idx i H; [cbn in H; lia|].
  cbn [map] in H. rewrite list_sum_cons in H. cbn [psums find_source]. destruct (Nat.ltb_spec idx (acc + sz x)) as [Hlt|Hge].
  - exists 0, (idx - acc), x. rewrite Nat.add_0_r. repeat split; auto; [lia|].
    cbn. apply nth_error_app1. rewrite items_length. lia.
  - destruct (IH (acc + sz x) idx (Datatypes.S i)) as (i' & j & id & A & B & C & D); [lia|].
    exists (Datatypes.S i'), j, id. rewrite A. split; [do 2 f_equal; lia|]. split; [exact B|]. split; [exact C|].
    cbn. rewrite nth_error_app2 by (rewrite items_length; lia). rewrite items_length.
    replace (idx - acc - sz x) with (idx - (acc + sz x)) by lia. exact D.
Qed.

Lemma list_index_app pre x l : ~ In x pre -> list_index x (pre ++ x :: l) = length pre.
Proof.
  induction pre as [|y pre IH]; intros H; cbn; [now rewrite Nat.eqb_refl|].
  destruct (Nat.eqb_spec x y); [subst; exfalso; apply H; now left|].
  f_equal. apply IH. intros Hi. apply H. now right.
Qed.

Lemma sw_points_psums f pre l : NoDup (pre ++ l) -> (forall id, In id (pre ++ l) -> f id = sz id) ->
  map (fun s => list_sum (map f (firstn (list_index s (pre ++ l) + 1) (pre ++ l)))) l =
  psums (list_sum (map sz pre)) l.
Proof.
  revert pre. induction l as [|x l IH]; intros pre Hn Hfz; [reflexivity|].
  cbn [map psums].
  assert (Hx : ~ In x pre).
  { intros Hi. apply NoDup_remove_2 in Hn. apply Hn, in_app_iff. now left. }
  assert (Ei : firstn (list_index x (pre ++ x :: l) + 1) (pre ++ x :: l) = pre ++ [x]).
  { rewrite list_index_app by exact Hx.
    replace (length pre + 1) with (length (pre ++ [x])) by (rewrite app_length; reflexivity).
    replace (pre ++ x :: l) with ((pre ++ [x]) ++ l) by (now rewrite <- app_assoc).
    rewrite firstn_app, firstn_all, Nat.sub_diag. cbn. apply app_nil_r. }
  rewrite Ei.
  assert (Es : list_sum (map f (pre ++ [x])) = list_sum (map sz pre) + sz x).
  { rewrite map_app, list_sum_app. cbn [map]. rewrite list_sum_cons. cbn [list_sum fold_right]. rewrite Nat.add_0_r. f_equal.
    - f_equal. apply map_ext_in. intros y Hy. apply Hfz, in_app_iff. now left.
    - apply Hfz, in_app_iff. right. now left. }
  rewrite Es. f_equal.
  replace (pre ++ x :: l) with ((pre ++ [x]) ++ l) in * by (now rewrite <- app_assoc).
  rewrite IH by auto. f_equal. rewrite map_app, list_sum_app. cbn [map]. rewrite list_sum_cons. cbn [list_sum fold_right]. lia.
Qed.

Lemma last_psums acc l : l <> [] -> last (psums acc l) 0 = acc + list_sum (map sz l).
Proof.
  revert acc. induction l as [|x l IH]; intros acc H; [congruence|].
  destruct l as [|y l]; [cbn; lia|].
  change (psums acc (x :: y :: l)) with ((acc + sz x) :: psums (acc + sz x) (y :: l)).
  change (last (psums (acc + sz x) (y :: l)) 0 = acc + list_sum (map sz (x :: y :: l))).
  rewrite IH by discriminate. cbn [map]. rewrite !list_sum_cons. lia.
Qed.

Definition total : nat := list_sum (map sz ids).

Definition concat_perm (k : nat) : list nat := if shuffle then rng k total else seq 0 total.
Lemma concat_perm_permutes k : permutes (concat_perm k) total.
Proof. unfold concat_perm. destruct shuffle; [apply Hf|apply permutes_seq]. Qed.

Definition concat_R (s : concat S) (a k : nat) : Prop :=
  cc_ids s = ids /\ good_store (cc_store s) /\ cc_shuffle s = shuffle /\ cc_rng s = rng /\
  (shuffle = true -> cc_draws s = Datatypes.S k) /\ cc_points s = psums 0 ids /\ cc_size s = total /\
  cc_indexes s = concat_perm k.

Lemma concat_ra (d : E) :
  ra_law (concat_ops o) total (fun _ k p => nth (nth p (concat_perm k) 0) (all_items ids) d) concat_R.
Proof.
  constructor.
  - intros s a k H. apply H.
  - intros s a k p (A & B & C & D & F & G & T & I) Hp. cbn [o_get concat_ops]. unfold concat_get.
    rewrite I, (permutes_nth _ _ _ (concat_perm_permutes k) Hp), G, A.
    assert (Hlt := permutes_nth_lt _ _ _ (concat_perm_permutes k) Hp).
    set (idx := nth p (concat_perm k) 0) in *.
    destruct (find_source_spec ids 0 idx 0) as (i & j & id & E1 & E2 & E3 & E4); [unfold total in Hlt; lia|].
    rewrite E1. cbn [Nat.add]. rewrite E2.
    destruct (B id (nth_error_In _ _ E2)) as (x & Ex & Hx). rewrite Ex.
    destruct (ra_get _ _ _ _ (L id) x 0 0 j Hx E3) as (x' & Eg & Hx' & _). rewrite Eg.
    eexists. split.
    + f_equal. f_equal. rewrite Nat.sub_0_r in E4.
      assert (E5 : nth_error (items id) j = Some (ord id 0 0 j)).
      { unfold items. rewrite nth_error_map, (nth_error_nth' _ 0) by (now rewrite seq_length).
        now rewrite seq_nth by exact E3. }
      rewrite E5 in E4. symmetry. now apply nth_error_nth with (d := d) in E4.
    + split; [|left; reflexivity]. unfold concat_R. cbn. repeat split; auto.
      intros id' Hi. destruct (B id' Hi) as (y & Ey & Hy). rewrite nth_error_upd.
      destruct (Nat.eqb_spec id id') as [->|Hne]; [|eauto]. rewrite Ex. eauto.
  - intros s a k p H. split; [exact H|reflexivity].
  - intros s a k (A & B & C & D & F & G & T & I). cbn [o_reset o_pos concat_ops]. unfold concat_reset.
    rewrite C, D, T, Nat.add_1_r. unfold concat_R, concat_perm in *. destruct shuffle; cbn.
    + split; [|reflexivity]. rewrite F by reflexivity. repeat split; auto.
    + split; [|reflexivity]. repeat split; auto. discriminate.
  - intros s a k H. split; [exact H|reflexivity].
Qed.

Lemma concat_start store : ids <> [] -> good_store store ->
  concat_R (concat_new o store ids shuffle rng) 0 0.
Proof.
  intros Hne Hs. unfold concat_new.
  assert (Ep : sw_points o store ids = psums 0 ids).
  { unfold sw_points. apply (sw_points_psums (size_of o store) [] ids Hnd).
    intros id Hi. destruct (Hs id Hi) as (s & Es & HR). unfold size_of. rewrite Es.
    eapply (ra_size _ _ _ _ (L id)); eauto. }
  rewrite Ep, last_psums by exact Hne. cbn [Nat.add].
  unfold concat_reset, concat_R, concat_perm. cbn. destruct shuffle; cbn; repeat split; auto; discriminate.
Qed.
End Concat.

(** ** DataSourceWithFileCache *)

Section FileCache.
Context {S E : Type} (o : ops S E) (size : nat) (ord : nat -> nat -> nat -> E) (R : S -> nat -> nat -> Prop).
Hypothesis L : ra_law o size ord R.
Variables (a0 k0 csize : nat) (shuffle : bool) (rng : rng_t).
Hypothesis Hf : fair rng.
Hypothesis Hcs : 0 < csize.

Definition fbase (i : nat) : E := ord a0 k0 i.
Definition flen (f : nat) : nat := min csize (size - f * csize).
Definition ffile (f : nat) : list E := map fbase (seq (f * csize) (flen f)).
Definition nfiles : nat := ceil_div size csize.

Lemma ceil_div_unique n : size <= n * csize < size + csize -> n = ceil_div size csize.
Proof.
  intros H. unfold ceil_div. apply (Nat.div_unique _ _ _ (size + csize - 1 - n * csize)); nia.
Qed.

Lemma nfiles_bounds : size <= nfiles * csize < size + csize.
Proof.
  unfold nfiles, ceil_div. assert (H := Nat.div_mod (size + csize - 1) csize ltac:(lia)).
  assert (H2 := Nat.mod_upper_bound (size + csize - 1) csize ltac:(lia)). nia.
Qed.

Lemma create_cache_spec left : forall i pos n buf files,
  R i a0 k0 -> pos + left = size -> length buf < csize ->
  buf = map fbase (seq (n * csize) (length buf)) ->
  files = map ffile (seq 0 n) ->
  (left = 0 -> buf = [] /\ size <= n * csize < size + csize) ->
  (left <> 0 -> pos = n * csize + length buf) ->
  exists i', create_cache o i csize pos left buf files = (i', Some (map ffile (seq 0 nfiles))) /\ R i' a0 k0.
Proof.
  induction left as [|left IH]; intros i pos n buf files HR Hpl Hlb Hb Hfl H0 H1; cbn [create_cache].
  - destruct (H0 eq_refl) as [-> Hn]. cbn. exists i. split; [|exact HR].
    rewrite Hfl. unfold nfiles. now rewrite <- (ceil_div_unique n Hn).
  - specialize (H1 ltac:(lia)).
    destruct (ra_get _ _ _ _ L i a0 k0 pos HR ltac:(lia)) as (i' & Eg & HR' & _). rewrite Eg.
    assert (Hb' : buf ++ [ord a0 k0 pos] = map fbase (seq (n * csize) (length buf + 1))).
    { rewrite Nat.add_1_r, seq_S, map_app, <- Hb, H1. reflexivity. }
    assert (Hl' : length (buf ++ [ord a0 k0 pos]) = length buf + 1) by (rewrite app_length; reflexivity).
    rewrite Hl'.
    destruct (Nat.leb csize (length buf + 1) || Nat.eqb left 0) eqn:Hc.
    + apply (IH i' (Datatypes.S pos) (n + 1) [] (files ++ [buf ++ [ord a0 k0 pos]])); auto; try lia.
      * rewrite Hb', Hfl, (Nat.add_1_r n), (seq_S n 0), map_app. cbn. do 2 f_equal. unfold ffile. do 2 f_equal.
        unfold flen. apply orb_true_iff in Hc. destruct Hc as [Hc|Hc].
        -- apply Nat.leb_le in Hc. lia.
        -- apply Nat.eqb_eq in Hc. lia.
      * intros ->. split; [reflexivity|]. nia.
      * intros Hne. apply orb_true_iff in Hc. destruct Hc as [Hc|Hc].
        -- apply Nat.leb_le in Hc. cbn. nia.
        -- apply Nat.eqb_eq in Hc. lia.
    + apply orb_false_iff in Hc. destruct Hc as [Hc1 Hc2]. apply Nat.leb_gt in Hc1. apply Nat.eqb_neq in Hc2.
      apply (IH i' (Datatypes.S pos) n (buf ++ [ord a0 k0 pos]) files); auto; try lia.
      rewrite Hl'. exact Hb'.
Qed.

Definition dlen (d : list (list nat)) (f : nat) : nat := length (nth f d []).
Definition flat_order (d : list (list nat)) (fo : list nat) : list nat :=
  flat_map (fun f => map (fun j => j + f * csize) (nth f d [])) fo.

Lemma upd_nth {A} (l : list A) i j x d : j < length l ->
  nth j (upd l i x) d = if Nat.eqb i j then x else nth j l d.
Proof.
  revert i j. induction l as [|y l IH]; intros [|i] [|j] H; cbn in *; try lia; auto.
  apply IH. lia.
Qed.

Lemma position_table_spec d fo : forall pos starts st fp od,
  position_table csize d fo pos starts = (st, fp, od) ->
  NoDup fo -> (forall f, In f fo -> f < length starts) ->
  fp = flat_map (fun f => repeat f (dlen d f)) fo /\
  od = flat_order d fo /\ length st = length starts /\
  (forall f, ~ In f fo -> nth f st 0 = nth f starts 0) /\
  (forall l1 f l2, fo = l1 ++ f :: l2 -> nth f st 0 = pos + list_sum (map (dlen d) l1)).
Proof.
  induction fo as [|f fo IH]; intros pos starts st fp od E0 Hn Hr; cbn in E0.
  - inversion E0; subst. repeat split; auto. intros [|? ?] ? ?; discriminate.
  - destruct (position_table csize d fo (pos + length (nth f d [])) (upd starts f pos)) as [[st1 fp1] od1] eqn:E1.
    inversion E0; subst. inversion Hn as [|? ? Hnf Hn']; subst.
    destruct (IH _ _ _ _ _ E1 Hn') as (A & B & C & D & F).
    { intros g Hg. rewrite upd_length. apply Hr. now right. }
    subst fp1 od1. rewrite upd_length in C.
    assert (Hfl : f < length starts) by (apply Hr; now left).
    repeat split; auto.
    + cbn. f_equal. unfold dlen. generalize (nth f d []). intros l. induction l; cbn; [reflexivity|]. now rewrite IHl.
    + intros g Hg. cbn in Hg. rewrite D by tauto.
      destruct (Nat.lt_ge_cases g (length starts)).
      * rewrite upd_nth by exact H. destruct (Nat.eqb_spec f g); [tauto|reflexivity].
      * rewrite !nth_overflow; auto. now rewrite upd_length.
    + intros [|x l1] g l2 Hg; cbn in Hg; inversion Hg; subst.
      * rewrite D by exact Hnf. rewrite upd_nth by exact Hfl. rewrite Nat.eqb_refl. cbn. lia.
      * rewrite (F _ _ _ eq_refl). cbn [map]. rewrite list_sum_cons. unfold dlen at 2. lia.
Qed.

Lemma locate (fo : list nat) (w : nat -> nat) : forall p, p < list_sum (map w fo) ->
  exists l1 f l2 q, fo = l1 ++ f :: l2 /\ p = list_sum (map w l1) + q /\ q < w f.
Proof.
  induction fo as [|f fo IH]; intros p H; [cbn in H; lia|].
  cbn [map] in H. rewrite list_sum_cons in H.
  destruct (Nat.lt_ge_cases p (w f)).
  - exists [], f, fo, p. repeat split; auto.
  - destruct (IH (p - w f)) as (l1 & g & l2 & q & A & B & C); [lia|].
    exists (f :: l1), g, l2, q. subst fo. repeat split; auto. cbn [map]. rewrite list_sum_cons. lia.
Qed.

Lemma flat_map_len {A} (g : nat -> list A) (w : nat -> nat) l :
  (forall f, length (g f) = w f) -> length (flat_map g l) = list_sum (map w l).
Proof. intros H. induction l; cbn; [reflexivity|]. rewrite app_length, IHl, H. reflexivity. Qed.

Lemma nth_error_flat {A} (g : nat -> list A) (w : nat -> nat) l1 f l2 q :
  (forall f, length (g f) = w f) -> q < w f ->
  nth_error (flat_map g (l1 ++ f :: l2)) (list_sum (map w l1) + q) = nth_error (g f) q.
Proof.
  intros H Hq. rewrite flat_map_app. cbn. rewrite nth_error_app2 by (rewrite (flat_map_len g w) by exact H; lia).
  rewrite (flat_map_len g w) by exact H. replace (_ + q - _) with q by lia.
  apply nth_error_app1. now rewrite H.
Qed.

Lemma flat_order_len d fo : length (flat_order d fo) = list_sum (map (dlen d) fo).
Proof. apply flat_map_len. intros f. now rewrite map_length. Qed.

Definition good_orders (d : list (list nat)) (fo : list nat) : Prop :=
  permutes fo nfiles /\ length d = nfiles /\ forall f, f < nfiles -> permutes (nth f d []) (flen f).

Lemma flat_map_perm {A B} (g : A -> list B) l1 l2 : Permutation l1 l2 -> Permutation (flat_map g l1) (flat_map g l2).
Proof.
  induction 1; cbn; auto.
  - now apply Permutation_app_head.
  - rewrite !app_assoc. apply Permutation_app_tail, Permutation_app_comm.
  - etransitivity; eauto.
Qed.

Lemma flat_map_perm_in {A B} (g h : A -> list B) l :
  (forall x, In x l -> Permutation (g x) (h x)) -> Permutation (flat_map g l) (flat_map h l).
Proof.
  induction l as [|x l IH]; intros H; cbn; [auto|]. apply Permutation_app; [apply H; now left|].
  apply IH. intros y Hy. apply H. now right.
Qed.

Lemma flat_seq n : n <= nfiles ->
  flat_map (fun f => map (fun j => j + f * csize) (seq 0 (flen f))) (seq 0 n) = seq 0 (min size (n * csize)).
Proof.
  induction n as [|n IH]; intros H; [cbn; now rewrite Nat.min_0_r|].
  rewrite seq_S, flat_map_app, IH by lia. cbn [flat_map Nat.add]. rewrite app_nil_r.
  assert (B := nfiles_bounds).
  assert (Hn : n * csize < size) by nia.
  rewrite (Nat.min_r size (n * csize)) by lia.
  assert (Em : map (fun j => j + n * csize) (seq 0 (flen n)) = seq (0 + n * csize) (flen n)).
  { rewrite seq_plus. apply map_ext. intros; lia. }
  rewrite Em. cbn [Nat.add]. rewrite <- seq_app. f_equal. unfold flen. nia.
Qed.

Lemma good_flat d fo : good_orders d fo -> permutes (flat_order d fo) size.
Proof.
  intros (A & B & C). unfold permutes, flat_order.
  etransitivity; [apply flat_map_perm; exact A|].
  etransitivity; [apply flat_map_perm_in with (h := fun f => map (fun j => j + f * csize) (seq 0 (flen f)))|].
  - intros f Hi. apply in_seq in Hi. apply Permutation_map, C. lia.
  - rewrite flat_seq by lia. assert (H := nfiles_bounds). now rewrite Nat.min_l by lia.
Qed.

(** Orders after [k] resets. *)
Fixpoint f_orders (k : nat) : list nat * list (list nat) :=
  match k with
  | O => (seq 0 nfiles, map (fun f => seq 0 (flen f)) (seq 0 nfiles))
  | Datatypes.S k' =>
      let (fo, d) := f_orders k' in
      if shuffle then (permute 0 (rng (k' * (nfiles + 1)) nfiles) fo,
                       snd (permute_all rng (Datatypes.S (k' * (nfiles + 1))) d))
      else (fo, d)
  end.

Lemma permute_perm {A} (d : A) ix l : permutes ix (length l) -> Permutation (permute d ix l) l.
Proof.
  intros H. unfold permute. etransitivity; [apply Permutation_map; exact H|].
  clear H. induction l as [|x l IH]; [auto|]. cbn [length seq map nth].
  rewrite <- seq_shift, map_map. now constructor.
Qed.

Lemma permute_all_spec k ls : fst (permute_all rng k ls) = k + length ls /\
  length (snd (permute_all rng k ls)) = length ls /\
  forall f, Permutation (nth f (snd (permute_all rng k ls)) []) (nth f ls []).
Proof.
  revert k. induction ls as [|l ls IH]; intros k; cbn.
  - repeat split; auto.
  - destruct (IH (Datatypes.S k)) as (A & B & C). destruct (permute_all rng (Datatypes.S k) ls) as [k' r]. cbn in *.
    repeat split; try lia. intros [|f]; [|apply C]. apply permute_perm. apply Hf.
Qed.

Lemma good_f_orders k : good_orders (snd (f_orders k)) (fst (f_orders k)).
Proof.
  induction k as [|k IH]; cbn.
  - repeat split.
    + apply permutes_seq.
    + now rewrite map_length, seq_length.
    + intros f Hlt. rewrite (nth_indep _ [] (seq 0 (flen 0))) by (now rewrite map_length, seq_length).
      rewrite (map_nth (fun f => seq 0 (flen f))), seq_nth by exact Hlt. apply permutes_seq.
  - destruct (f_orders k) as [fo d]. cbn in IH. destruct IH as (A & B & C). destruct shuffle; cbn; [|repeat split; auto].
    destruct (permute_all_spec (Datatypes.S (k * (nfiles + 1))) d) as (P & Q & T).
    split; [|split].
    + unfold permutes. etransitivity; [apply permute_perm|exact A].
      rewrite (permutes_length _ _ A). apply Hf.
    + lia.
    + intros f Hlt. unfold permutes. etransitivity; [apply T|]. now apply C.
Qed.

Definition f_perm (k : nat) : list nat := flat_order (snd (f_orders k)) (fst (f_orders k)).
Lemma f_perm_permutes k : permutes (f_perm k) size.
Proof. apply good_flat, good_f_orders. Qed.

Definition fc_R (c : fcache S E) (a k : nat) : Prop :=
  fc_csize c = csize /\ fc_size c = size /\ fc_shuffle c = shuffle /\ fc_rng c = rng /\
  (shuffle = true -> fc_draws c = k * (nfiles + 1)) /\
  fc_files c = map ffile (seq 0 nfiles) /\
  fc_forder c = fst (f_orders k) /\ fc_dorders c = snd (f_orders k) /\
  length (fc_order c) = size /\
  exists fp od, position_table csize (fc_dorders c) (fc_forder c) 0 (seq 0 nfiles) = (fc_starts c, fp, od) /\
    fc_fpos c = fp.

Lemma rebuild_eq (c : fcache S E) k : fc_csize c = csize ->
  fc_forder c = fst (f_orders k) -> fc_dorders c = snd (f_orders k) ->
  exists st fp, position_table csize (fc_dorders c) (fc_forder c) 0 (seq 0 nfiles) = (st, fp, f_perm k) /\
  fc_rebuild c size =
  FCache (fc_in c) (fc_csize c) (fc_size c) (fc_shuffle c) (fc_rng c) (fc_draws c) (fc_pos c)
         (fc_files c) (fc_forder c) (fc_dorders c) st fp (f_perm k).
Proof.
  intros A B C. assert (G := good_f_orders k). destruct G as (Gf & Gl & Gd).
  assert (Ef : length (fc_forder c) = nfiles) by (rewrite B; now apply permutes_length).
  unfold fc_rebuild. rewrite A, Ef.
  destruct (position_table csize (fc_dorders c) (fc_forder c) 0 (seq 0 nfiles)) as [[st fp] od] eqn:E0.
  destruct (position_table_spec _ _ _ _ _ _ _ E0) as (P & Q & _ & _ & _).
  { rewrite B. apply (Permutation_NoDup (Permutation_sym Gf)), seq_NoDup. }
  { intros f Hi. rewrite seq_length. rewrite B in Hi. apply (Permutation_in _ Gf), in_seq in Hi. lia. }
  assert (Eod : od = f_perm k) by (rewrite Q, B, C; reflexivity).
  assert (Lod : length od = size) by (rewrite Eod; apply permutes_length, f_perm_permutes).
  assert (Lfp : length fp = size).
  { rewrite <- Lod, Q, P, flat_order_len. apply flat_map_len. intros f. apply repeat_length. }
  exists st, fp. subst od. split; [rewrite <- Eod; reflexivity|].
  unfold overwrite. rewrite Lfp, Lod, skipn_all2, !app_nil_r by (rewrite seq_length; lia).
  rewrite <- Eod. reflexivity.
Qed.

Lemma nth_error_seq_files f : f < nfiles -> nth_error (map ffile (seq 0 nfiles)) f = Some (ffile f).
Proof.
  intros H. rewrite nth_error_map, (nth_error_nth' _ 0) by (now rewrite seq_length).
  now rewrite seq_nth by exact H.
Qed.

Lemma fc_get_spec c a k p : fc_R c a k -> p < size ->
  snd (fc_get c p) = Some (ord a0 k0 (nth p (f_perm k) 0)).
Proof.
  intros (A & B & C & D & F & G & H & I & J & fp & od & T & U) Hp.
  assert (Go := good_f_orders k). destruct Go as (Gf & Gl & Gd).
  destruct (position_table_spec _ _ _ _ _ _ _ T) as (P1 & P2 & P3 & P4 & P5).
  { rewrite H. apply (Permutation_NoDup (Permutation_sym Gf)), seq_NoDup. }
  { intros f Hi. rewrite seq_length. rewrite H in Hi. apply (Permutation_in _ Gf), in_seq in Hi. lia. }
  rewrite H, I in *. rewrite seq_length in P3.
  assert (Hsum : list_sum (map (dlen (snd (f_orders k))) (fst (f_orders k))) = size).
  { rewrite <- flat_order_len. apply permutes_length, f_perm_permutes. }
  destruct (locate (fst (f_orders k)) (dlen (snd (f_orders k))) p) as (l1 & f & l2 & q & E1 & E2 & E3); [lia|].
  assert (Hfn : f < nfiles).
  { assert (Hi : In f (fst (f_orders k))) by (rewrite E1; apply in_app_iff; right; now left).
    apply (Permutation_in _ Gf), in_seq in Hi. lia. }
  unfold fc_get. cbn [snd]. rewrite U, P1.
  assert (Ep : nth_error (flat_map (fun f => repeat f (dlen (snd (f_orders k)) f)) (fst (f_orders k))) p = Some f).
  { rewrite E1, E2. rewrite nth_error_flat by (auto using repeat_length).
    rewrite (nth_error_nth' _ 0) by (now rewrite repeat_length). f_equal.
    apply (repeat_spec (dlen (snd (f_orders k)) f) f). apply nth_In. now rewrite repeat_length. }
  rewrite Ep. rewrite (nth_error_nth' (fc_starts c) 0) by lia. rewrite I, G.
  rewrite (nth_error_nth' (snd (f_orders k)) []) by lia. rewrite (nth_error_seq_files f Hfn).
  rewrite (P5 _ _ _ E1), E2. replace (_ + q - _) with q by lia.
  specialize (Gd f Hfn). assert (Hql : q < flen f) by (unfold dlen in E3; now rewrite (permutes_length _ _ Gd) in E3).
  rewrite (permutes_nth _ _ _ Gd Hql).
  assert (Hj := permutes_nth_lt _ _ _ Gd Hql). set (j := nth q (nth f (snd (f_orders k)) []) 0) in *.
  unfold ffile. rewrite nth_error_map, (nth_error_nth' _ 0) by (now rewrite seq_length).
  rewrite seq_nth by exact Hj. cbn [option_map]. unfold fbase. do 2 f_equal.
  (* the order entry *)
  assert (Eo : nth_error (f_perm k) (list_sum (map (dlen (snd (f_orders k))) l1) + q) = Some (j + f * csize)).
  { unfold f_perm, flat_order. rewrite E1.
    rewrite (nth_error_flat _ (dlen (snd (f_orders k)))) by (auto; intros; now rewrite map_length).
    rewrite nth_error_map, (permutes_nth _ _ _ Gd Hql). reflexivity. }
  apply (nth_error_nth _ _ 0) in Eo. rewrite Eo. lia.
Qed.

Lemma fc_ra : ra_law (fc_ops o) size (fun _ k p => ord a0 k0 (nth p (f_perm k) 0)) fc_R.
Proof.
  constructor.
  - intros c a k H. apply H.
  - intros c a k p H Hp. cbn [o_get fc_ops]. exists (fst (fc_get c p)).
    rewrite <- (fc_get_spec c a k p H Hp). rewrite <- surjective_pairing.
    split; [reflexivity|]. split; [exact H|right; reflexivity].
  - intros c a k p H. split; [exact H|reflexivity].
  - intros c a k (A & B & C & D & F & G & H & I & J & fp & od & T & U). cbn [o_reset o_pos fc_ops].
    unfold fc_reset. rewrite C, Nat.add_1_r.
    assert (Go := good_f_orders k). destruct Go as (Gf & Gl & Gd).
    destruct shuffle eqn:Esh.
    + rewrite D, H, I, F by reflexivity. rewrite (permutes_length _ _ Gf).
      destruct (permute_all rng (Datatypes.S (k * (nfiles + 1))) (snd (f_orders k))) as [k1 d1] eqn:E1.
      assert (Ek := permute_all_spec (Datatypes.S (k * (nfiles + 1))) (snd (f_orders k))).
      rewrite E1 in Ek. cbn [fst snd] in Ek. destruct Ek as (Ek & El & Ed).
      assert (Es : f_orders (Datatypes.S k) = (permute 0 (rng (k * (nfiles + 1)) nfiles) (fst (f_orders k)), d1)).
      { cbn [f_orders]. destruct (f_orders k) as [fo d]. rewrite Esh. cbn [fst snd] in *. now rewrite E1. }
      set (c1 := FCache (fc_in c) _ _ _ _ _ _ _ _ _ _ _ _).
      assert (Lo : length (fc_order c1) = size).
      { subst c1. cbn [fc_order]. assert (Gs := good_flat _ _ (good_f_orders (Datatypes.S k))).
        apply permutes_length in Gs. rewrite Es in Gs. cbn [fst snd] in Gs. rewrite flat_order_len in Gs.
        rewrite (flat_map_len _ (dlen d1)) by reflexivity. exact Gs. }
      rewrite Lo.
      destruct (rebuild_eq c1 (Datatypes.S k)) as (st & fp' & T' & Er).
      { exact A. } { rewrite Es; reflexivity. } { rewrite Es; reflexivity. }
      rewrite Er. cbn -[f_orders f_perm nfiles]. split; [|reflexivity].
      unfold fc_R. cbn -[f_orders f_perm nfiles]. rewrite Es. cbn [fst snd].
      repeat split; auto.
      * intros _. lia.
      * apply permutes_length, f_perm_permutes.
      * exists fp', (f_perm (Datatypes.S k)). split; [exact T'|reflexivity].
    + assert (Es : f_orders (Datatypes.S k) = f_orders k).
      { cbn [f_orders]. destruct (f_orders k). now rewrite Esh. }
      rewrite J. destruct (rebuild_eq c k A H I) as (st & fp' & T' & Er).
      rewrite Er. cbn -[f_orders f_perm nfiles]. split; [|reflexivity].
      unfold fc_R. cbn -[f_orders f_perm nfiles]. rewrite Es.
      repeat split; auto.
      * congruence.
      * intros ?; congruence.
      * apply permutes_length, f_perm_permutes.
      * exists fp', (f_perm k). split; [exact T'|reflexivity].
  - intros c a k H. split; [exact H|reflexivity].
Qed.

Lemma cut_orders_id : cut_orders size csize (map (fun f => seq 0 (length f)) (map ffile (seq 0 nfiles))) =
  map (fun f => seq 0 (flen f)) (seq 0 nfiles).
Proof.
  rewrite map_map.
  rewrite (map_ext (fun x => seq 0 (length (ffile x))) (fun f => seq 0 (flen f)))
    by (intros f; unfold ffile; now rewrite map_length, seq_length).
  unfold cut_orders. fold nfiles.
  rewrite (firstn_all2 (n := nfiles)) by (rewrite map_length, seq_length; lia).
  destruct (Nat.eqb_spec (size mod csize) 0) as [|Hm]; [reflexivity|].
  assert (B := nfiles_bounds). assert (Hd := Nat.div_mod size csize ltac:(lia)).
  assert (Hu := Nat.mod_upper_bound size csize ltac:(lia)).
  assert (En1 : size / csize + 1 = nfiles).
  { apply ceil_div_unique. revert Hd Hu Hm. generalize (size / csize), (size mod csize). intros; nia. }
  assert (Hn : 0 < nfiles) by lia.
  assert (En : nfiles - 1 = size / csize) by lia.
  apply nth_ext with (d := []) (d' := []); rewrite upd_length, map_length; [reflexivity|].
  intros n Hlt. rewrite upd_nth by (now rewrite map_length).
  destruct (Nat.eqb_spec (nfiles - 1) n) as [<-|]; [|reflexivity].
  rewrite (nth_indep _ [] (seq 0 (flen 0))) by (rewrite map_length, seq_length; lia).
  rewrite (map_nth (fun f => seq 0 (flen f))), seq_nth by lia. cbn [Nat.add].
  apply firstn_all2. rewrite seq_length. unfold flen. rewrite En. nia.
Qed.

Lemma fc_start i : R i a0 k0 -> 0 < size -> exists c, fc_new o i csize shuffle rng = Some c /\ fc_R c 0 0.
Proof.
  intros HR Hs. unfold fc_new. rewrite (ra_size _ _ _ _ L _ _ _ HR).
  destruct (create_cache_spec size i 0 0 [] [] HR) as (i' & E1 & HR'); auto; try lia.
  rewrite E1. rewrite cut_orders_id. rewrite map_length, seq_length. fold nfiles.
  rewrite firstn_all2 by (rewrite seq_length; lia).
  set (c0 := FCache _ _ _ _ _ _ _ _ _ _ _ _ _).
  destruct (rebuild_eq c0 0 eq_refl eq_refl eq_refl) as (st & fp & T & Er).
  eexists. split; [reflexivity|]. rewrite Er. unfold fc_R. cbn -[f_orders f_perm nfiles].
  repeat split; auto.
  - apply permutes_length, f_perm_permutes.
  - exists fp, (f_perm 0). split; [exact T|reflexivity].
Qed.
End FileCache.
