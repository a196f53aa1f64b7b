(** Loops copying blocks; concatenating, stacking and splitting. *)
From Coq Require Import List ZArith Lia Bool.
From Verif Require Import NdModel NdSpec NdProofs IdxModel IdxSpec IdxProofs1 IdxProofs2 IdxProofs3 IdxProofs6 JoinModel.
Import ListNotations.
Local Open Scope list_scope.
Local Open Scope Z_scope.

Lemma add_loop_nodup ps : forall src dst, bounded ps (len dst) (len src) -> NoDup (map fst ps) ->
  exists r, add_loop ps src dst = Some r /\ length r = length dst /\
    (forall j, 0 <= j -> ~ In j (map fst ps) -> at_ r j = at_ dst j) /\
    (forall d s, In (d, s) ps -> at_ r d = at_ dst d + at_ src s).
Proof.
  induction ps as [|[d s] ps IH]; intros src dst B N; cbn [add_loop map].
  - exists dst. split; [auto|]. split; [auto|]. split; [auto|]. intros ? ? [].
  - inversion B as [|? ? (Hd & Hs) B']; subst. cbn [fst snd map] in *. inversion N as [|? ? N1 N2]; subst.
    rewrite (rd_ok src s), (rd_ok dst d) by auto. cbn [obind].
    destruct (wr_ok dst d (at_ dst d + at_ src s)) as (r & E & L & J & _); [auto|]. rewrite E. cbn [obind].
    destruct (IH src r) as (r' & E' & L' & K & I').
    { unfold len. rewrite L. exact B'. } { auto. }
    unfold within in Hd.
    exists r'. split; [auto|]. split; [congruence|]. split.
    + intros j Hj H. cbn [In] in H. rewrite K, J by (auto; tauto). destruct (Z.eqb_spec j d); [subst; tauto|auto].
    + intros d' s' [H|H].
      * inversion H; subst. rewrite K, J, Z.eqb_refl by (auto; lia). auto.
      * rewrite (I' _ _ H).
        assert (In d' (map fst ps)) by (apply (in_map fst) in H; exact H).
        assert (0 <= d') by (pose proof (proj1 (Forall_forall _ _) B' _ H) as W; cbn in W; unfold within in W; lia).
        rewrite J by auto. destruct (Z.eqb_spec d' d); [subst; tauto|auto].
Qed.
Definition kept (accum : bool) (v : Z) : Z := if accum then v else 0.
Lemma acc_loop_nodup accum ps src dst : bounded ps (len dst) (len src) -> NoDup (map fst ps) ->
  exists r, acc_loop accum ps src dst = Some r /\ length r = length dst /\
    (forall j, 0 <= j -> ~ In j (map fst ps) -> at_ r j = at_ dst j) /\
    (forall d s, In (d, s) ps -> at_ r d = kept accum (at_ dst d) + at_ src s).
Proof.
  intros B N. destruct accum; cbn [acc_loop kept]; [apply add_loop_nodup; auto|].
  destruct (copy_loop_ok ps src dst B N) as (r & E & L & K & I). exists r. split; [auto|]. split; [auto|]. split; [auto|].
  intros d s H. rewrite Z.add_0_l. auto.
Qed.

Lemma upto_in n i : In i (upto n) <-> 0 <= i < n.
Proof. rewrite upto_range, range_in. lia. Qed.
Lemma upto_nodup n : NoDup (upto n).
Proof. rewrite upto_range. apply nodup_range. Qed.
Lemma nest_in outer inner f p : In p (nest outer inner f) <-> exists o i, 0 <= o < outer /\ 0 <= i < inner /\ p = f o i.
Proof.
  unfold nest. rewrite in_flat_map. split.
  - intros (o & Ho & H). apply in_map_iff in H. destruct H as (i & <- & Hi). apply upto_in in Ho, Hi. exists o, i. auto.
  - intros (o & i & Ho & Hi & ->). exists o. split; [apply upto_in; auto|]. apply in_map. apply upto_in. auto.
Qed.
Lemma NoDup_app_intro {A} (a b : list A) : NoDup a -> NoDup b -> (forall x, In x a -> ~ In x b) -> NoDup (a ++ b).
Proof.
  induction 1 as [|x a Nx N IH]; intros Nb D; cbn [app]; [auto|]. constructor.
  - intros H. apply in_app_or in H. destruct H as [H|H]; [tauto|]. apply (D x); [left; auto|auto].
  - apply IH; [auto|]. intros y Hy. apply D. right. auto.
Qed.
Lemma nodup_flat {A B} (g : A -> list B) l : NoDup l -> (forall a, In a l -> NoDup (g a)) ->
  (forall a b x, In a l -> In b l -> In x (g a) -> In x (g b) -> a = b) -> NoDup (flat_map g l).
Proof.
  induction 1 as [|a l Na N IH]; intros G D; cbn [flat_map]; [constructor|].
  apply NoDup_app_intro.
  - apply G. left. auto.
  - apply IH; [intros; apply G; right; auto|]. intros a' b x Ha Hb. apply D; right; auto.
  - intros x Hx H. apply in_flat_map in H. destruct H as (b & Hb & Hx'). rewrite (D a b x) in Na; auto; [left; auto|right; auto].
Qed.

Lemma nodup_map {A B} (f : A -> B) l : (forall a b, In a l -> In b l -> f a = f b -> a = b) -> NoDup l -> NoDup (map f l).
Proof.
  intros I N. induction N as [|a l Na N IH]; cbn [map]; [constructor|]. constructor.
  - intros H. apply in_map_iff in H. destruct H as (b & E & Hb). rewrite (I b a) in Hb; auto; [right; auto|left; auto].
  - apply IH. intros. apply I; auto; right; auto.
Qed.
Lemma split_pos D o o' q q' : 0 <= q < D -> 0 <= q' < D -> o * D + q = o' * D + q' -> o = o' /\ q = q'.
Proof. intros H H' E. assert (o = o') by nia. subst. lia. Qed.
Lemma blk_ok accum outer inner D doff S soff f src dst :
  (forall o i, f o i = (o * D + doff + i, o * S + soff + i)) ->
  0 <= doff -> doff + inner <= D -> 0 <= soff -> soff + inner <= S -> outer * D <= len dst -> outer * S <= len src ->
  exists r, acc_loop accum (nest outer inner f) src dst = Some r /\ length r = length dst /\
    (forall o i, 0 <= o < outer -> 0 <= i < inner -> at_ r (o * D + doff + i) = kept accum (at_ dst (o * D + doff + i)) + at_ src (o * S + soff + i)) /\
    (forall o q, 0 <= o -> 0 <= q < D -> ~ (doff <= q < doff + inner) -> at_ r (o * D + q) = at_ dst (o * D + q)).
Proof.
  intros F H1 H2 H3 H4 H5 H6.
  destruct (acc_loop_nodup accum (nest outer inner f) src dst) as (r & E & L & K & I).
  - apply Forall_forall. intros p Hp. apply nest_in in Hp. destruct Hp as (o & i & Ho & Hi & ->). rewrite F. cbn [fst snd]. unfold within. nia.
  - unfold nest. rewrite map_flat_map. apply nodup_flat.
    + apply upto_nodup.
    + intros o _. rewrite map_map. apply nodup_map; [|apply upto_nodup]. intros a b _ _. rewrite !F. cbn [fst]. lia.
    + intros a b x _ _ Ha Hb. rewrite map_map in Ha, Hb. apply in_map_iff in Ha, Hb. destruct Ha as (i & <- & Hi), Hb as (j & E & Hj).
      apply upto_in in Hi, Hj. rewrite !F in E. cbn [fst] in E. destruct (split_pos D b a (doff + j) (doff + i)); lia.
  - exists r. split; [auto|]. split; [auto|]. split.
    + intros o i Ho Hi. apply I. apply nest_in. exists o, i. rewrite F. auto.
    + intros o q Ho Hq N. apply K; [nia|]. intros H. apply in_map_iff in H. destruct H as (p & E' & Hp). apply nest_in in Hp.
      destruct Hp as (o' & i & Ho' & Hi & ->). rewrite F in E'. cbn [fst] in E'. destruct (split_pos D o' o (doff + i) q); lia.
Qed.
Lemma copy_acc ps src dst : copy_loop ps src dst = acc_loop false ps src dst. Proof. reflexivity. Qed.

(** ** Joining blocks of sizes [inner] one after the other *)
Fixpoint join (accum : bool) (outer total offset : Z) (l : list (Z * list Z)) (y : list Z) : option (list Z) :=
  match l with
  | [] => Some y
  | (inner, x) :: l =>
      obind (acc_loop accum (nest outer inner (fun o i => (o * total + offset + i, o * inner + i))) x y) (join accum outer total (offset + inner) l)
  end.
Definition total_of (l : list (Z * list Z)) : Z := fold_right (fun p t => fst p + t) 0 l.
Lemma join_ok accum outer total l : forall offset y, 0 <= outer -> 0 <= offset -> offset + total_of l <= total -> outer * total <= len y ->
  Forall (fun p => 0 <= fst p /\ outer * fst p <= len (snd p)) l ->
  exists r, join accum outer total offset l y = Some r /\ length r = length y /\
    (forall o q, 0 <= o -> 0 <= q < offset -> at_ r (o * total + q) = at_ y (o * total + q)) /\
    (forall c inner x, nth_error l c = Some (inner, x) -> forall o i, 0 <= o < outer -> 0 <= i < inner ->
       at_ r (o * total + (offset + total_of (firstn c l)) + i) =
       kept accum (at_ y (o * total + (offset + total_of (firstn c l)) + i)) + at_ x (o * inner + i)).
Proof.
  induction l as [|[inner x] l IH]; intros offset y Ho Hof Ht Hy F; cbn [join].
  - exists y. split; [auto|]. split; [auto|]. split; [auto|]. intros [|c]; discriminate.
  - inversion F as [|? ? (Hi & Hx) F']; subst. cbn [fst snd] in *. cbn [total_of fold_right fst] in Ht. fold (total_of l) in Ht.
    assert (Tl : 0 <= total_of l).
    { clear - F'. induction F' as [|[a b] l [H _] F IH]; cbn [total_of fold_right fst] in *; [lia|]. fold (total_of l). lia. }
    destruct (blk_ok accum outer inner total offset inner 0 (fun o i => (o * total + offset + i, o * inner + i)) x y) as (r & E & L & I & K); try lia.
    { intros. f_equal. lia. }
    rewrite E. cbn [obind]. destruct (IH (offset + inner) r) as (r' & E' & L' & K' & I'); auto; try lia.
    { unfold len in *. rewrite L. auto. }
    exists r'. split; [auto|]. split; [congruence|]. split.
    + intros o q H H'. rewrite K', K by lia. auto.
    + intros [|c] inner' x' N o i H H'; cbn [nth_error] in N.
      * inversion N; subst. cbn [firstn total_of fold_right]. rewrite Z.add_0_r.
        replace (o * total + offset + i) with (o * total + (offset + i)) by ring. rewrite K' by lia.
        replace (o * total + (offset + i)) with (o * total + offset + i) by ring. rewrite I by lia. f_equal. f_equal. ring.
      * cbn [firstn total_of fold_right fst]. fold (total_of (firstn c l)).
        replace (offset + (inner + total_of (firstn c l))) with (offset + inner + total_of (firstn c l)) by ring.
        rewrite (I' c inner' x' N o i H H'). f_equal. f_equal.
        assert (T : inner' <= total_of l - total_of (firstn c l) /\ 0 <= total_of (firstn c l)).
        { clear - N F'. revert l F' N. induction c as [|c IH]; intros [|[a b] l] F N; cbn [nth_error] in N; try discriminate; inversion F as [|? ? (Ha & _) F']; subst; cbn [fst] in *.
          - inversion N; subst. cbn [firstn total_of fold_right fst]. fold (total_of l).
            assert (0 <= total_of l). { clear - F'. induction F' as [|[p q] l [H _] F IH]; cbn [total_of fold_right fst] in *; [lia|]. fold (total_of l). lia. }
            lia.
          - cbn [firstn total_of fold_right fst]. fold (total_of l). fold (total_of (firstn c l)). specialize (IH l F' N). lia. }
        replace (o * total + (offset + inner + total_of (firstn c l)) + i) with (o * total + (offset + inner + total_of (firstn c l) + i)) by ring.
        apply K; lia.
Qed.

(** ** Taking blocks out *)
Definition grad_ok (accum prop : bool) (outer inner total offset : Z) (dy dx r : list Z) : Prop :=
  length r = length dx /\
  (prop = false -> r = dx) /\
  (prop = true -> forall o i, 0 <= o < outer -> 0 <= i < inner -> at_ r (o * inner + i) = kept accum (at_ dx (o * inner + i)) + at_ dy (o * total + offset + i)).
Lemma cat_back_ok outer total dy : 0 <= outer -> outer * total <= len dy -> forall l offset, 0 <= offset ->
  offset + fold_right (fun p t => fst p + t) 0 l <= total ->
  Forall (fun p => 0 <= fst p /\ outer * fst p <= len (snd (snd p))) l ->
  exists rs, cat_back outer total offset dy l = Some rs /\ length rs = length l /\
    forall c inner prop accum dx, nth_error l c = Some (inner, (prop, accum, dx)) ->
    exists r, nth_error rs c = Some r /\ grad_ok accum prop outer inner total (offset + fold_right (fun p t => fst p + t) 0 (firstn c l)) dy dx r.
Proof.
  intros Ho Hy. induction l as [|[inner [[prop accum] dx]] l IH]; intros offset Hof Ht F; cbn [cat_back].
  - exists []. split; [auto|]. split; [auto|]. intros [|c]; discriminate.
  - inversion F as [|? ? (Hi & Hx) F']; subst. cbn [fst snd fold_right] in *.
    assert (Tl : 0 <= fold_right (fun p t => fst p + t) 0 l).
    { clear - F'. induction F' as [|[a b] l [H _] F IH]; cbn [fold_right fst] in *; lia. }
    assert (R : exists r, (if prop then acc_loop accum (nest outer inner (fun o i => (o * inner + i, o * total + offset + i))) dy dx else Some dx) = Some r /\
       grad_ok accum prop outer inner total offset dy dx r).
    { destruct prop.
      - destruct (blk_ok accum outer inner inner 0 total offset (fun o i => (o * inner + i, o * total + offset + i)) dy dx) as (r & E & L & I & _); try lia.
        { intros. f_equal. lia. }
        exists r. split; [auto|]. split; [auto|]. split; [discriminate|]. intros _ o i H1 H2. specialize (I o i H1 H2). rewrite Z.add_0_r in I. auto.
      - exists dx. split; [auto|]. split; [auto|]. split; [auto|discriminate]. }
    destruct R as (r & E & G). rewrite E. cbn [obind]. destruct (IH (offset + inner)) as (rs & E' & L' & I'); auto; try lia.
    rewrite E'. cbn [obind]. exists (r :: rs). split; [auto|]. split; [cbn; auto|].
    intros [|c] inner' prop' accum' dx' N; cbn [nth_error] in N.
    + inversion N; subst. exists r. split; [auto|]. cbn [firstn fold_right]. rewrite Z.add_0_r. auto.
    + destruct (I' c _ _ _ _ N) as (r' & N' & G'). exists r'. split; [auto|]. cbn [firstn fold_right fst]. rewrite Z.add_assoc. auto.
Qed.
