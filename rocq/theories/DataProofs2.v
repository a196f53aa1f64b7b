(** Each data source satisfies the reading laws. *)
From Coq Require Import List Bool Arith ZArith Lia Permutation.
From Coq Require Import ZifyBool ZifyNat.
From Verif Require Import DataModel DataSpec DataProofs.
Import ListNotations.

(** ** SimpleDataSource *)

Definition simple_perm (shuffle : bool) (rng : rng_t) (size a : nat) : list nat :=
  if shuffle then rng a size else seq 0 size.

Record simple_inv {E} (load : nat -> E) (size : nat) (shuffle : bool) (rng : rng_t)
       (s : simple E) (a : nat) : Prop := {
  si_load : sm_load s = load; si_size : sm_size s = size; si_shuffle : sm_shuffle s = shuffle;
  si_rng : sm_rng s = rng;
  si_draws : shuffle = true -> sm_draws s = S a;
  si_find : find_gen a (sm_orders s) = Some (simple_perm shuffle rng size a);
  si_new : forall g o, In (g, o) (sm_orders s) -> g <= a }.

Lemma find_gen_new g l : (forall h o, In (h, o) l -> h < g) -> find_gen g l = None.
Proof.
  induction l as [|[h o] l IH]; intros H; [reflexivity|]. cbn.
  assert (h < g) by (apply (H h o); now left). destruct (Nat.eqb_spec h g); [lia|].
  apply IH. intros h' o' Hi. apply (H h' o'). now right.
Qed.

Lemma find_gen_last g o l : find_gen g l = None -> find_gen g (l ++ [(g, o)]) = Some o.
Proof.
  induction l as [|[h o'] l IH]; intros H; cbn in *; [now rewrite Nat.eqb_refl|].
  destruct (Nat.eqb h g); [discriminate|auto].
Qed.

Lemma tl_app {A} (l : list A) x : l <> [] -> tl (l ++ [x]) = tl l ++ [x].
Proof. destruct l; [congruence|reflexivity]. Qed.

Lemma in_tl {A} (x : A) l : In x (tl l) -> In x l.
Proof. destruct l; cbn; auto. Qed.

Lemma genorder_inv {E} (load : nat -> E) size shuffle rng s a :
  simple_inv load size shuffle rng s a ->
  simple_inv load size shuffle rng (simple_genorder s (S a)) (S a).
Proof.
  intros [A B C D F G N]. unfold simple_genorder.
  assert (Hn : find_gen (S a) (sm_orders s) = None).
  { apply find_gen_new. intros h o Hi. apply N in Hi. lia. }
  rewrite Hn, C, D, B.
  assert (Ne : sm_orders s <> []) by (intros E0; rewrite E0 in G; discriminate).
  assert (K : forall d o, simple_perm shuffle rng size (S a) = o -> (shuffle = true -> d = S (S a)) ->
    simple_inv load size shuffle rng
      (Simple (sm_load s) size shuffle rng d (sm_gen s) (sm_pos s)
         (deque_append 15 (sm_orders s) (S a, o))) (S a)).
  { intros d o Ho Hd. constructor; cbn [sm_load sm_size sm_shuffle sm_rng sm_draws sm_orders]; auto.
    - unfold deque_append. rewrite Ho. destruct (Nat.ltb 15 _).
      + rewrite tl_app by exact Ne. apply find_gen_last.
        apply find_gen_new. intros h o' Hi. apply in_tl, N in Hi. lia.
      + now apply find_gen_last.
    - intros g o' Hi. assert (Hi' : In (g, o') (sm_orders s ++ [(S a, o)])).
      { unfold deque_append in Hi. destruct (Nat.ltb 15 _); [now apply in_tl|exact Hi]. }
      apply in_app_iff in Hi'. destruct Hi' as [Hi'|[Hi'|[]]]; [apply N in Hi'; lia|].
      inversion Hi'; lia. }
  destruct shuffle.
  - apply K; [rewrite F by reflexivity; reflexivity|]. intros _. now rewrite F.
  - apply K; [reflexivity|discriminate].
Qed.

Lemma simple_new_inv {E} (load : nat -> E) size shuffle rng :
  simple_inv load size shuffle rng (simple_new load size shuffle rng) 0 /\
  sm_gen (simple_new load size shuffle rng) = 0 /\ sm_pos (simple_new load size shuffle rng) = 0.
Proof.
  destruct shuffle; (split; [|split; reflexivity]); constructor; cbn; auto; try discriminate;
    intros g o [H|[]]; inversion H; lia.
Qed.

Lemma simple_inv_ext {E} (load : nat -> E) size shuffle rng s s' a :
  sm_load s' = sm_load s -> sm_size s' = sm_size s -> sm_shuffle s' = sm_shuffle s ->
  sm_rng s' = sm_rng s -> sm_draws s' = sm_draws s -> sm_orders s' = sm_orders s ->
  simple_inv load size shuffle rng s a -> simple_inv load size shuffle rng s' a.
Proof.
  intros A B C D F G [? ? ? ? ? ? N]. constructor; try congruence.
  - intros H. rewrite F. auto.
  - rewrite G. exact N.
Qed.

Definition permutes (o : list nat) (size : nat) : Prop := Permutation o (seq 0 size).

Lemma permutes_length o size : permutes o size -> length o = size.
Proof. intros H. apply Permutation_length in H. now rewrite seq_length in H. Qed.

Lemma permutes_nth o size p : permutes o size -> p < size -> nth_error o p = Some (nth p o 0).
Proof. intros H Hp. apply nth_error_nth'. now rewrite (permutes_length _ _ H). Qed.

Lemma permutes_nth_lt o size p : permutes o size -> p < size -> nth p o 0 < size.
Proof.
  intros H Hp. assert (Hi : In (nth p o 0) o) by (apply nth_In; now rewrite (permutes_length _ _ H)).
  apply (Permutation_in _ H) in Hi. apply in_seq in Hi. lia.
Qed.

Lemma permutes_seq size : permutes (seq 0 size) size.
Proof. unfold permutes. reflexivity. Qed.

Lemma permutes_map_nth o size : permutes o size -> map (fun p => nth p o 0) (seq 0 size) = o.
Proof.
  intros H. rewrite <- (permutes_length _ _ H). clear H.
  induction o as [|x o IH]; [reflexivity|]. cbn [length seq map nth]. f_equal.
  rewrite <- seq_shift, map_map. exact IH.
Qed.

Lemma simple_perm_permutes shuffle rng size a : fair rng -> permutes (simple_perm shuffle rng size a) size.
Proof. intros H. destruct shuffle; cbn; [apply H|apply permutes_seq]. Qed.

Lemma getgen_inv {E} (load : nat -> E) size shuffle rng s a p :
  fair rng -> simple_inv load size shuffle rng s a -> p < size ->
  simple_getgen s p a = (s, Some (load (nth p (simple_perm shuffle rng size a) 0))).
Proof.
  intros Hf H Hp. unfold simple_getgen. rewrite (si_find _ _ _ _ _ _ H).
  rewrite (permutes_nth _ _ _ (simple_perm_permutes shuffle rng size a Hf) Hp). cbn.
  now rewrite (si_load _ _ _ _ _ _ H).
Qed.

Definition simple_R {E} (load : nat -> E) size shuffle rng (s : simple E) (a k : nat) : Prop :=
  simple_inv load size shuffle rng s a /\ sm_gen s = a.

Lemma simple_ra {E} (load : nat -> E) size shuffle rng :
  fair rng ->
  ra_law simple_ops size (fun a _ p => load (nth p (simple_perm shuffle rng size a) 0))
         (simple_R load size shuffle rng).
Proof.
  intros Hf. constructor.
  - intros s a k [H _]. apply H.
  - intros s a k p [H Hg] Hp. exists s. cbn. rewrite Hg, (getgen_inv _ _ _ _ _ _ _ Hf H Hp).
    split; [reflexivity|]. split; [split; auto|auto].
  - intros s a k p [H Hg]. split; [|reflexivity]. split; [|exact Hg].
    now apply (simple_inv_ext _ _ _ _ s).
  - intros s a k [H Hg]. split; [|reflexivity]. split; [|exact Hg].
    now apply (simple_inv_ext _ _ _ _ s).
  - intros s a k [H Hg]. cbn [o_apply simple_ops]. unfold simple_apply.
    set (s1 := Simple _ _ _ _ _ _ _ _).
    assert (H1 : simple_inv load size shuffle rng s1 a) by now apply (simple_inv_ext _ _ _ _ s).
    apply genorder_inv in H1. rewrite Hg. rewrite Nat.add_1_r. split; [split; [exact H1|]|].
    + unfold simple_genorder. subst s1. cbn. destruct (find_gen _ _); [cbn; congruence|].
      destruct (sm_shuffle s); cbn; congruence.
    + unfold simple_genorder. subst s1. cbn. destruct (find_gen _ _); [reflexivity|].
      destruct (sm_shuffle s); reflexivity.
Qed.

Lemma simple_start {E} (load : nat -> E) size shuffle rng k :
  simple_R load size shuffle rng (o_reset simple_ops (simple_new load size shuffle rng)) 0 k /\
  o_pos simple_ops (o_reset simple_ops (simple_new load size shuffle rng)) = 0.
Proof.
  destruct (simple_new_inv load size shuffle rng) as (H & G & P).
  split; [|reflexivity]. split; [|exact G]. now apply (simple_inv_ext _ _ _ _ (simple_new load size shuffle rng)).
Qed.

(** ** Slice of a SimpleDataSource *)

Definition sliced_simple_R {E} (load : nat -> E) size shuffle rng st en (s : sliced (simple E)) (a k : nat) : Prop :=
  simple_inv load size shuffle rng (sl_in s) a /\ sl_gen s = a /\ sl_start s = st /\ sl_end s = en.

Lemma sliced_simple_ra {E} (load : nat -> E) size shuffle rng st en :
  fair rng -> en <= size ->
  ra_law (sliced_ops simple_ops) (en - st)
         (fun a _ p => load (nth (st + p) (simple_perm shuffle rng size a) 0))
         (sliced_simple_R load size shuffle rng st en).
Proof.
  intros Hf Hen. constructor.
  - intros s a k (_ & _ & A & B). cbn. congruence.
  - intros s a k p (H & G & A & B) Hp. cbn [o_get sliced_ops]. unfold sliced_get.
    rewrite G, A, B. cbn [o_getgen simple_ops].
    rewrite (getgen_inv _ _ _ _ _ _ _ Hf H) by lia. eexists. split; [reflexivity|].
    split; [exact (conj H (conj eq_refl (conj eq_refl eq_refl)))|right; reflexivity].
  - intros s a k p (H & G & A & B). split; [exact (conj H (conj G (conj A B)))|reflexivity].
  - intros s a k (H & G & A & B). split; [|reflexivity].
    refine (conj _ (conj G (conj A B))). now apply (simple_inv_ext _ _ _ _ (sl_in s)).
  - intros s a k (H & G & A & B). split; [|reflexivity]. rewrite Nat.add_1_r.
    unfold sliced_simple_R. cbn [sliced_ops o_apply sl_in sl_gen sl_start sl_end simple_ops o_genorder].
    rewrite G. split; [now apply genorder_inv|auto].
Qed.

Lemma sliced_simple_start {E} (load : nat -> E) size shuffle rng st en k :
  let s := o_reset (sliced_ops simple_ops) (sliced_new (simple_new load size shuffle rng) st en) in
  sliced_simple_R load size shuffle rng st en s 0 k /\ o_pos (sliced_ops simple_ops) s = 0.
Proof.
  destruct (simple_new_inv load size shuffle rng) as (H & G & P).
  cbn [sliced_ops o_reset o_pos sliced_new sl_in sl_start sl_end sl_gen sl_pos]. split; [|reflexivity].
  unfold sliced_simple_R. cbn [sl_in sl_gen sl_start sl_end simple_ops o_setpos o_reset].
  split; [|auto]. now apply (simple_inv_ext _ _ _ _ (simple_new load size shuffle rng)).
Qed.

(** ** CsvDataSource *)

Definition csv_perm (shuffle : bool) (rng : rng_t) (size k : nat) : list nat :=
  if shuffle then rng k size else seq 0 size.

Definition csv_R {E} (rows : list E) shuffle rng (s : csv E) (a k : nat) : Prop :=
  cs_rows s = rows /\ cs_shuffle s = shuffle /\ cs_rng s = rng /\
  (shuffle = true -> cs_draws s = S k) /\ cs_order s = csv_perm shuffle rng (length rows) k.

Lemma csv_ra {E} (rows : list E) (d : E) shuffle rng :
  fair rng ->
  ra_law csv_ops (length rows) (fun _ k p => nth (nth p (csv_perm shuffle rng (length rows) k) 0) rows d)
         (csv_R rows shuffle rng).
Proof.
  intros Hf.
  assert (Hp : forall k, permutes (csv_perm shuffle rng (length rows) k) (length rows)).
  { intros k. destruct shuffle; cbn; [apply Hf|apply permutes_seq]. }
  constructor.
  - intros s a k (A & _). cbn. now rewrite A.
  - intros s a k p (A & B & C & D & F) Hlt. exists s. cbn. unfold csv_get. rewrite F, A.
    rewrite (permutes_nth _ _ _ (Hp k) Hlt).
    rewrite (nth_error_nth' rows d) by (now apply (permutes_nth_lt _ (length rows))).
    split; [reflexivity|]. split; [repeat split; auto|auto].
  - intros s a k p (A & B & C & D & F). split; [repeat split; auto|reflexivity].
  - intros s a k (A & B & C & D & F). cbn [o_reset o_pos csv_ops]. unfold csv_reset. rewrite B, C, A.
    rewrite Nat.add_1_r.
    destruct shuffle; cbn.
    + split; [|reflexivity]. repeat split; auto; cbn; intros; rewrite D by reflexivity; reflexivity.
    + split; [|reflexivity]. repeat split; auto. discriminate.
  - intros s a k (A & B & C & D & F). split; [repeat split; auto|reflexivity].
Qed.

Lemma csv_start {E} (rows : list E) shuffle rng :
  csv_R rows shuffle rng (o_reset csv_ops (csv_new rows shuffle rng)) 0 1 /\
  o_pos csv_ops (o_reset csv_ops (csv_new rows shuffle rng)) = 0.
Proof.
  unfold csv_new, csv_ops, csv_reset. destruct shuffle; cbn; (split; [|reflexivity]); repeat split; auto; discriminate.
Qed.
Lemma csv_start0 {E} (rows : list E) shuffle rng :
  csv_R rows shuffle rng (csv_new rows shuffle rng) 0 0.
Proof.
  unfold csv_new, csv_ops, csv_reset. destruct shuffle; cbn; repeat split; auto; discriminate.
Qed.

(** ** A slice of a source whose order does not depend on generations *)

Section SlicedGeneric.
Context {S E : Type} (o : ops S E) (size : nat) (ord : nat -> nat -> nat -> E) (R : S -> nat -> nat -> Prop).
Hypothesis L : ra_law o size ord R.
Hypothesis Gget : forall s p g, o_getgen o s p g = o_get o s p.
Hypothesis Gord : forall s g, o_genorder o s g = s.

Definition sliced_R (a0 st en : nat) (s : sliced S) (a k : nat) : Prop :=
  R (sl_in s) a0 k /\ sl_start s = st /\ sl_end s = en.

Lemma sliced_ra a0 st en :
  en <= size ->
  ra_law (sliced_ops o) (en - st) (fun _ k p => ord a0 k (st + p)) (sliced_R a0 st en).
Proof.
  intros Hen. constructor.
  - intros s a k (_ & A & B). cbn. congruence.
  - intros s a k p (H & A & B) Hp. cbn [o_get sliced_ops]. unfold sliced_get.
    rewrite Gget, A, B. destruct (ra_get _ _ _ _ L _ a0 k (st + p) H ltac:(lia)) as (i & E1 & H1 & _).
    rewrite E1. eexists. split; [reflexivity|]. split; [repeat split; auto|right; reflexivity].
  - intros s a k p (H & A & B). split; [repeat split; auto|reflexivity].
  - intros s a k (H & A & B). split; [|reflexivity]. repeat split; auto. cbn.
    apply (ra_setpos _ _ _ _ L). now apply (ra_reset _ _ _ _ L).
  - intros s a k (H & A & B). split; [|reflexivity]. unfold sliced_R. cbn. rewrite Gord. auto.
Qed.

Lemma sliced_start a0 k i st en : R i a0 k ->
  let s := o_reset (sliced_ops o) (sliced_new i st en) in
  sliced_R a0 st en s 0 (k + 1) /\ o_pos (sliced_ops o) s = 0.
Proof.
  intros H. cbn. split; [|reflexivity]. repeat split; auto. cbn.
  apply (ra_setpos _ _ _ _ L). now apply (ra_reset _ _ _ _ L).
Qed.
End SlicedGeneric.

(** ** Memory cache *)

Section Memory.
Context {S E : Type} (o : ops S E) (size : nat) (ord : nat -> nat -> nat -> E) (R : S -> nat -> nat -> Prop).
Hypothesis L : ra_law o size ord R.
Variables (shuffle : bool) (rng : rng_t).
Hypothesis Hf : fair rng.
Hypothesis Hsize : 0 < size.

(** Order of epoch [k]: the first two epochs are unshuffled. *)
Definition mem_perm (k : nat) : list nat :=
  match k with
  | Datatypes.S (Datatypes.S j) => if shuffle then rng j size else seq 0 size
  | _ => seq 0 size
  end.

Lemma mem_perm_permutes k : permutes (mem_perm k) size.
Proof. destruct k as [|[|j]]; cbn; try apply permutes_seq. destruct shuffle; [apply Hf|apply permutes_seq]. Qed.

Definition mem_on_R (a0 k0 : nat) (m : mem S E) (a k p : nat) : Prop :=
  mc_on m = true /\ mc_shuffle m = shuffle /\ mc_rng m = rng /\ mc_size m = size /\
  mc_pos m = p /\ mc_gen m = (Z.of_nat k - 1)%Z /\ mc_order m = mem_perm k /\
  (mc_draws m = k - 1 \/ shuffle = false) /\
  match k with
  | O => R (mc_in m) a0 k0 /\ p <= size /\ mc_cache m = map (ord a0 k0) (seq 0 p)
  | _ => mc_cache m = map (ord a0 k0) (seq 0 size)
  end.

Lemma mem_on_seq a0 k0 :
  seq_law (mem_ops o) size (fun _ k p => ord a0 k0 (nth p (mem_perm k) 0)) (mem_on_R a0 k0).
Proof.
  constructor.
  - intros m a k p H. apply H.
  - intros m a k p (A & B & C & D & F & G & Ho & Hd & Hc) Hp.
    unfold src_next. cbn [o_pos o_get o_setpos mem_ops]. rewrite F. unfold mem_get. rewrite A, Ho.
    rewrite (permutes_nth _ _ _ (mem_perm_permutes k) Hp).
    destruct k as [|k].
    + destruct Hc as (Hr & Hle & Hc). cbn [mem_perm]. rewrite seq_nth by exact Hp. cbn [Nat.add].
      rewrite (proj2 (nth_error_None (mc_cache m) p)) by (rewrite Hc, map_length, seq_length; lia).
      destruct (ra_get _ _ _ _ L _ a0 k0 p Hr Hp) as (i & E1 & H1 & _). rewrite E1.
      eexists. split; [reflexivity|]. unfold mem_on_R, mem_setpos, mem_upd. cbn -[Z.of_nat Z.sub].
      repeat split; auto; try lia. rewrite Hc, Nat.add_1_r, seq_S, map_app. reflexivity.
    + assert (Hlt := permutes_nth_lt _ _ _ (mem_perm_permutes (Datatypes.S k)) Hp).
      assert (En : nth_error (mc_cache m) (nth p (mem_perm (Datatypes.S k)) 0) =
                   Some (ord a0 k0 (nth p (mem_perm (Datatypes.S k)) 0))).
      { rewrite Hc, nth_error_map.
        rewrite (nth_error_nth' _ 0) by (rewrite seq_length; exact Hlt).
        rewrite seq_nth by exact Hlt. reflexivity. }
      rewrite En.
      eexists. split; [reflexivity|]. unfold mem_on_R, mem_setpos, mem_upd. cbn -[Z.of_nat Z.sub mem_perm].
      repeat split; auto; try lia.
  - intros m a k (A & B & C & D & F & G & Ho & Hd & Hc).
    cbn [o_reset mem_ops]. unfold mem_reset. rewrite A, B, C, D, F, G.
    destruct (Nat.eqb_spec size 0); [lia|]. rewrite Nat.add_1_r.
    assert (Hcache : mc_cache m = map (ord a0 k0) (seq 0 size)) by (destruct k; [apply Hc|exact Hc]).
    destruct k as [|k].
    + replace (0 <? Z.of_nat 0 - 1 + 1)%Z with false by reflexivity. rewrite andb_false_r.
      unfold mem_on_R. cbn -[Z.of_nat Z.sub]. repeat split; auto; lia.
    + replace (0 <? Z.of_nat (Datatypes.S k) - 1 + 1)%Z with true by lia. rewrite andb_true_r.
      destruct shuffle eqn:Es.
      * destruct Hd as [Hd|Hd]; [|discriminate]. cbn in Hd. rewrite Nat.sub_0_r in Hd. rewrite Hd.
        unfold mem_on_R. cbn -[Z.of_nat Z.sub]. rewrite Es. repeat split; auto; try lia.
      * unfold mem_on_R; cbn -[Z.of_nat Z.sub]; rewrite Es; repeat split; auto; try lia.
  - intros m a k p H. exact H.
Qed.

Lemma mem_on_start a0 k0 i : R i a0 k0 ->
  mem_on_R a0 k0 (o_reset (mem_ops o) (mem_new o i true shuffle rng)) 0 0 0.
Proof.
  intros H. cbn [o_reset mem_ops]. unfold mem_reset, mem_new. cbn [mc_on mc_gen mc_shuffle mc_pos Nat.eqb].
  replace (0 <? -1 + 1)%Z with false by reflexivity. rewrite andb_false_r.
  destruct (ra_get _ _ _ _ L i a0 k0 0 H Hsize) as (i' & E1 & H1 & _).
  unfold mem_on_R. cbn. rewrite E1, (ra_size _ _ _ _ L _ _ _ H). cbn.
  repeat split; auto; lia.
Qed.

(** Without room in memory the cache hands reads through, but not apply_order. *)
Definition mem_off_R (a0 : nat) (m : mem S E) (a k : nat) : Prop :=
  R (mc_in m) a0 k /\ mc_on m = false /\ mc_size m = size.

Lemma mem_off_ra a0 : ra_law (mem_ops o) size (fun _ k p => ord a0 k p) (mem_off_R a0).
Proof.
  constructor.
  - intros m a k H. apply H.
  - intros m a k p (H & A & B) Hp. cbn [o_get mem_ops]. unfold mem_get. rewrite A.
    destruct (ra_get _ _ _ _ L _ a0 k p H Hp) as (i & E1 & H1 & _). rewrite E1.
    eexists. split; [reflexivity|]. split; [repeat split; auto|right; reflexivity].
  - intros m a k p (H & A & B). split; [repeat split; auto|reflexivity].
  - intros m a k (H & A & B). cbn [o_reset o_pos mem_ops]. unfold mem_reset. rewrite A. cbn.
    split; [|reflexivity]. repeat split; auto. now apply (ra_reset _ _ _ _ L).
  - intros m a k (H & A & B). split; [repeat split; auto|reflexivity].
Qed.

Lemma mem_off_start a0 k0 i : R i a0 k0 ->
  mem_off_R a0 (o_reset (mem_ops o) (mem_new o i false shuffle rng)) 0 (k0 + 1) /\
  o_pos (mem_ops o) (o_reset (mem_ops o) (mem_new o i false shuffle rng)) = 0.
Proof.
  intros H. destruct (ra_get _ _ _ _ L i a0 k0 0 H Hsize) as (i' & E1 & H1 & _).
  cbn. rewrite E1. split; [|reflexivity]. repeat split; cbn.
  - now apply (ra_reset _ _ _ _ L).
  - apply (ra_size _ _ _ _ L _ _ _ H).
Qed.
End Memory.
