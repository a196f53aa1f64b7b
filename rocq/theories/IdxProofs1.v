(** Loops over pairs of indices; lists of source offsets. *)
From Coq Require Import List ZArith Lia Bool Permutation.
From Verif Require Import NdModel NdSpec NdProofs IdxModel IdxSpec.
Import ListNotations.
Local Open Scope list_scope.
Local Open Scope Z_scope.

Definition at_ (x : list Z) (i : Z) : Z := nth (Z.to_nat i) x 0.
Definition len (x : list Z) : Z := Z.of_nat (length x).
Definition within (n i : Z) : Prop := 0 <= i < n.

Lemma upto_range n : upto n = range 0 (Z.to_nat n).
Proof.
  unfold upto. enough (G : forall m k, map Z.of_nat (seq k m) = range (Z.of_nat k) m) by apply (G _ 0%nat).
  induction m as [|m IH]; intros k; [reflexivity|]. cbn [seq map range]. f_equal. rewrite IH. f_equal. lia.
Qed.
Lemma range_length from n : length (range from n) = n.
Proof. revert from. induction n as [|n IH]; intros from; cbn [range length]; auto. Qed.
Lemma range_nth n : forall from k d, (k < n)%nat -> nth k (range from n) d = from + Z.of_nat k.
Proof.
  induction n as [|n IH]; intros from k d H; [lia|]. destruct k as [|k]; cbn [range nth]; [lia|]. rewrite IH by lia. lia.
Qed.

Lemma rd_ok x i : within (len x) i -> rd x i = Some (at_ x i).
Proof.
  unfold within, len, rd, at_. intros H. destruct (Z.ltb_spec i 0); [lia|].
  apply nth_error_nth'. lia.
Qed.
Lemma wr_nat_ok a : forall i v, (i < length a)%nat -> exists r, wr_nat a i v = Some r /\ length r = length a /\
  (forall j, nth j r 0 = if Nat.eqb j i then v else nth j a 0) /\
  (forall u, inner r u = inner a u + (v - nth i a 0) * nth i u 0).
Proof.
  induction a as [|x a IH]; intros i v H; cbn [length] in H; [lia|]. destruct i as [|i]; cbn [wr_nat].
  - exists (v :: a). split; [auto|]. split; [reflexivity|]. split; [intros [|j]; reflexivity|].
    intros [|w u]; cbn [inner nth]; ring.
  - destruct (IH i v) as (r & E & L & N & I); [lia|]. rewrite E. exists (x :: r). split; [auto|]. split; [cbn [length]; congruence|].
    split; [intros [|j]; [reflexivity|cbn [nth]; rewrite N; reflexivity]|].
    intros [|w u]; cbn [inner nth]; [destruct i; ring|]. rewrite I. ring.
Qed.
Lemma wr_ok a i v : within (len a) i -> exists r, wr a i v = Some r /\ length r = length a /\
  (forall j, 0 <= j -> at_ r j = if j =? i then v else at_ a j) /\
  (forall u, inner r u = inner a u + (v - at_ a i) * at_ u i).
Proof.
  unfold within, len, wr, at_. intros H. destruct (Z.ltb_spec i 0); [lia|].
  destruct (wr_nat_ok a (Z.to_nat i) v) as (r & E & L & N & I); [lia|]. exists r. split; [auto|]. split; [auto|]. split; [|auto].
  intros j J. rewrite N. destruct (Nat.eqb_spec (Z.to_nat j) (Z.to_nat i)), (Z.eqb_spec j i); auto; lia.
Qed.

(** ** Sums over pairs *)
Fixpoint psum (ps : list (Z * Z)) (src u : list Z) : Z :=
  match ps with [] => 0 | (d, s) :: ps => at_ src s * at_ u d + psum ps src u end.
Lemma psum_perm p q src u : Permutation p q -> psum p src u = psum q src u.
Proof. induction 1 as [|[a b] l l' P IH|[a b] [c d] l|l m n P1 I1 P2 I2]; cbn [psum]; lia. Qed.
Lemma psum_app p q src u : psum (p ++ q) src u = psum p src u + psum q src u.
Proof. induction p as [|[a b] p IH]; cbn [psum app]; lia. Qed.
Lemma psum_swap p a b : psum (map swap p) a b = psum p b a.
Proof. induction p as [|[d s] p IH]; cbn [psum map swap fst snd]; [reflexivity|]. rewrite IH. ring. Qed.

Definition bounded (ps : list (Z * Z)) (nd ns : Z) : Prop := Forall (fun p => within nd (fst p) /\ within ns (snd p)) ps.

Lemma add_loop_ok ps : forall src dst, bounded ps (len dst) (len src) ->
  exists r, add_loop ps src dst = Some r /\ length r = length dst /\ forall u, inner r u = inner dst u + psum ps src u.
Proof.
  induction ps as [|[d s] ps IH]; intros src dst B; cbn [add_loop psum].
  - exists dst. split; [auto|]. split; [auto|]. intros u. lia.
  - inversion B as [|? ? (Hd & Hs) B']; subst. cbn [fst snd] in *. rewrite (rd_ok src s), (rd_ok dst d) by auto. cbn [obind].
    destruct (wr_ok dst d (at_ dst d + at_ src s)) as (r & E & L & _ & I); [auto|]. rewrite E. cbn [obind].
    destruct (IH src r) as (r' & E' & L' & I').
    { unfold len. rewrite L. exact B'. }
    exists r'. split; [auto|]. split; [congruence|]. intros u. rewrite I', I. ring.
Qed.

Lemma copy_loop_ok ps : forall src dst, bounded ps (len dst) (len src) -> NoDup (map fst ps) ->
  exists r, copy_loop ps src dst = Some r /\ length r = length dst /\
    (forall j, 0 <= j -> ~ In j (map fst ps) -> at_ r j = at_ dst j) /\
    (forall d s, In (d, s) ps -> at_ r d = at_ src s).
Proof.
  induction ps as [|[d s] ps IH]; intros src dst B N; cbn [copy_loop map].
  - exists dst. split; [auto|]. split; [auto|]. split; [auto|]. intros ? ? [].
  - inversion B as [|? ? (Hd & Hs) B']; subst. cbn [fst snd map] in *. inversion N as [|? ? N1 N2]; subst.
    rewrite (rd_ok src s) by auto. cbn [obind].
    destruct (wr_ok dst d (at_ src s)) as (r & E & L & J & _); [auto|]. rewrite E. cbn [obind].
    destruct (IH src r) as (r' & E' & L' & K & I').
    { unfold len. rewrite L. exact B'. } { auto. }
    unfold within in Hd.
    exists r'. split; [auto|]. split; [congruence|]. split.
    + intros j Hj H. cbn [In] in H. rewrite K, J by (auto; tauto). destruct (Z.eqb_spec j d); [subst; tauto|auto].
    + intros d' s' [H|H]; [|auto]. inversion H; subst. rewrite K, J, Z.eqb_refl by (auto; lia). auto.
Qed.

Lemma at_ext a b : length a = length b -> (forall j, within (len a) j -> at_ a j = at_ b j) -> a = b.
Proof.
  intros L H. apply (nth_ext a b 0 0 L). intros n Hn. specialize (H (Z.of_nat n)). unfold at_, within, len in H.
  rewrite Nat2Z.id in H. apply H. lia.
Qed.
Lemma inner_at u : forall a, inner a u = psum (map (fun i => (i, i)) (range 0 (length a))) a u.
Proof.
  intros a. enough (G : forall a b k, (forall i, (i < length a)%nat -> nth i a 0 = at_ b (k + Z.of_nat i)) -> 0 <= k ->
    forall u v, (forall i, nth i u 0 = at_ v (k + Z.of_nat i)) -> inner a u = psum (map (fun i => (i, i)) (range k (length a))) b v).
  { apply G; [| lia |]; intros i; [intros H|]; unfold at_; f_equal; lia. }
  clear a u. induction a as [|x a IH]; intros b k Ha Hk u v Hu; cbn [length range map psum]; [reflexivity|].
  pose proof (Ha 0%nat ltac:(cbn; lia)) as A0. pose proof (Hu 0%nat) as U0. cbn [nth Z.of_nat] in *. rewrite Z.add_0_r in *.
  destruct u as [|w u]; cbn [inner].
  - cbn in U0. rewrite <- U0. rewrite <- (IH b (k + 1)) with (u := []).
    + rewrite Z.mul_0_r. destruct a; reflexivity.
    + intros i Hi. specialize (Ha (S i)). cbn [nth length] in Ha. rewrite Ha by lia. f_equal. lia.
    + lia.
    + intros i. specialize (Hu (S i)). replace (k + 1 + Z.of_nat i) with (k + Z.of_nat (S i)) by lia. rewrite <- Hu. destruct i; reflexivity.
  - cbn in U0. rewrite <- A0, <- U0. f_equal. apply IH; [| lia |].
    + intros i Hi. specialize (Ha (S i)). cbn [nth length] in Ha. rewrite Ha by lia. f_equal. lia.
    + intros i. specialize (Hu (S i)). cbn [nth] in Hu. rewrite Hu. f_equal. lia.
Qed.

(** Copying to all places, each once. *)
Lemma copy_cover ps src dst : bounded ps (len dst) (len src) -> Permutation (map fst ps) (range 0 (length dst)) ->
  exists r, copy_loop ps src dst = Some r /\ length r = length dst /\ forall u, inner r u = psum ps src u.
Proof.
  intros B P.
  assert (N : NoDup (map fst ps)).
  { apply (Permutation_NoDup (Permutation_sym P)). generalize (length dst) as n. clear. intros n. generalize 0 as k.
    induction n as [|n IH]; intros k; cbn [range]; constructor; [rewrite range_in; lia|apply IH]. }
  destruct (copy_loop_ok ps src dst B N) as (r & E & L & _ & I). exists r. split; [auto|]. split; [auto|].
  intros u. rewrite inner_at, L.
  transitivity (psum (map (fun i => (i, i)) (map fst ps)) r u).
  - apply psum_perm. apply Permutation_map. apply Permutation_sym. auto.
  - clear - I. induction ps as [|[d s] ps IH]; cbn [map psum fst]; [reflexivity|]. rewrite (I d s) by (left; auto). f_equal.
    apply IH. intros d' s' H. apply I. right. auto.
Qed.

(** Writing all places in order. *)
Definition pick (c : Z) (x : list Z) (s : option Z) : Z := match s with Some s => at_ x s | None => c end.
Definition sbound (n : Z) (s : option Z) : Prop := match s with Some s => within n s | None => True end.
Lemma fill_seq c x S : Forall (sbound (len x)) S -> forall pre y0, length y0 = length S ->
  fill_loop c (combine (range (len pre) (length S)) S) x (pre ++ y0) = Some (pre ++ map (pick c x) S).
Proof.
  induction 1 as [|s S Hs H IH]; intros pre y0 L; cbn [length] in L.
  - destruct y0; [|discriminate]. cbn. reflexivity.
  - destruct y0 as [|v y0]; [discriminate|]. cbn [range length combine fill_loop].
    assert (R : (match s with Some s => rd x s | None => Some c end) = Some (pick c x s)).
    { destruct s as [s|]; cbn [pick sbound] in *; [apply rd_ok; auto|auto]. }
    rewrite R. cbn [obind].
    assert (W : wr (pre ++ v :: y0) (len pre) (pick c x s) = Some ((pre ++ [pick c x s]) ++ y0)).
    { unfold wr, len. destruct (Z.ltb_spec (Z.of_nat (length pre)) 0); [lia|]. rewrite Nat2Z.id. clear.
      induction pre as [|p pre IH]; cbn [app length wr_nat]; [reflexivity|]. rewrite IH. reflexivity. }
    rewrite W. cbn [obind]. replace (len pre + 1) with (len (pre ++ [pick c x s])) by (unfold len; rewrite app_length; cbn; lia).
    rewrite IH by (cbn in L; lia). rewrite <- app_assoc. reflexivity.
Qed.
Lemma copy_fill c ps : forall x y, copy_loop ps x y = fill_loop c (map (fun p => (fst p, Some (snd p))) ps) x y.
Proof.
  induction ps as [|[d s] ps IH]; intros x y; cbn [copy_loop fill_loop map fst snd]; [reflexivity|].
  destruct (rd x s); cbn [obind]; [|reflexivity]. destruct (wr y d _); cbn [obind]; auto.
Qed.
Lemma fill_all c x S y0 : Forall (sbound (len x)) S -> length y0 = length S ->
  fill_loop c (combine (range 0 (length S)) S) x y0 = Some (map (pick c x) S).
Proof. intros H L. exact (fill_seq c x S H [] y0 L). Qed.

(** The gradient of such a loop. *)
Lemma used_bounded n nx S : forall k, 0 <= k -> k + Z.of_nat (length S) <= n -> Forall (sbound nx) S ->
  bounded (used (combine (range k (length S)) S)) n nx.
Proof.
  induction S as [|s S IH]; intros k Hk Hn B; cbn [length range combine used]; [constructor|]. inversion B; subst. cbn [length] in Hn.
  assert (R : bounded (used (combine (range (k + 1) (length S)) S)) n nx) by (apply IH; auto; lia).
  destruct s as [s|]; [|exact R]. constructor; [|exact R]. cbn [fst snd sbound] in *. unfold within in *. lia.
Qed.
Lemma swap_bounded ps a b : bounded ps a b -> bounded (map swap ps) b a.
Proof. intros H. apply Forall_map. eapply Forall_impl; [|exact H]. cbn. tauto. Qed.
Lemma inner_used S : forall dy x k, 0 <= k -> inner dy (map (pick 0 x) S) =
  psum (map swap (used (combine (range k (length S)) S))) (repeat 0 (Z.to_nat k) ++ dy) x.
Proof.
  induction S as [|s S IH]; intros dy x k Hk; cbn [map length range combine used psum]; [destruct dy; reflexivity|].
  destruct dy as [|w dy].
  - cbn [inner]. transitivity (inner [] (map (pick 0 x) S)); [reflexivity|]. rewrite (IH [] x (k + 1)) by lia.
    assert (A : forall i, at_ (repeat 0 (Z.to_nat k) ++ []) i = 0).
    { intros i. unfold at_. rewrite app_nil_r. destruct (nth_in_or_default (Z.to_nat i) (repeat 0 (Z.to_nat k)) 0) as [E|E]; auto. apply repeat_spec in E. auto. }
    assert (A' : forall i, at_ (repeat 0 (Z.to_nat (k + 1)) ++ []) i = 0).
    { intros i. unfold at_. rewrite app_nil_r. destruct (nth_in_or_default (Z.to_nat i) (repeat 0 (Z.to_nat (k + 1))) 0) as [E|E]; auto. apply repeat_spec in E. auto. }
    assert (Z0 : forall p a, (forall i, at_ a i = 0) -> psum p a x = 0).
    { intros p a H. induction p as [|[d t] p I]; cbn [psum]; [reflexivity|]. rewrite H, I. ring. }
    rewrite !Z0 by auto. reflexivity.
  - cbn [inner]. rewrite (IH dy x (k + 1)) by lia.
    assert (E : psum (map swap (used (combine (range (k + 1) (length S)) S))) (repeat 0 (Z.to_nat (k + 1)) ++ dy) x =
                psum (map swap (used (combine (range (k + 1) (length S)) S))) (repeat 0 (Z.to_nat k) ++ w :: dy) x).
    { assert (A : forall i, k + 1 <= i -> at_ (repeat 0 (Z.to_nat (k + 1)) ++ dy) i = at_ (repeat 0 (Z.to_nat k) ++ w :: dy) i).
      { intros i Hi. unfold at_. rewrite !app_nth2 by (rewrite repeat_length; lia). rewrite !repeat_length.
        replace (Z.to_nat i - Z.to_nat k)%nat with (Datatypes.S (Z.to_nat i - Z.to_nat (k + 1)))%nat by lia. reflexivity. }
      assert (B : forall j, k + 1 <= j -> forall S, psum (map swap (used (combine (range j (length S)) S))) (repeat 0 (Z.to_nat (k + 1)) ++ dy) x =
                psum (map swap (used (combine (range j (length S)) S))) (repeat 0 (Z.to_nat k) ++ w :: dy) x).
      { intros j Hj S'. revert j Hj. induction S' as [|s' S' I]; intros j Hj; cbn [length range combine used map psum]; [reflexivity|].
        destruct s' as [s'|]; cbn [map psum swap fst snd]; rewrite I by lia; [rewrite A by lia|]; reflexivity. }
      apply B. lia. }
    rewrite E. destruct s as [s|]; cbn [pick used map psum swap fst snd]; [|ring]. f_equal. f_equal.
    unfold at_. rewrite app_nth2 by (rewrite repeat_length; lia). rewrite repeat_length, Nat.sub_diag. reflexivity.
Qed.
Lemma zeroed_inner a : forall u, inner (zeroed a) u = 0.
Proof. induction a as [|x a IH]; intros [|w u]; cbn; auto. Qed.
Lemma zeroed_length a : length (zeroed a) = length a. Proof. apply map_length. Qed.

(** A function given by the list of the sources of its output elements. *)
Lemma adjoint_add nx S (fwd : list Z -> list Z -> option (list Z)) (bwd : bool -> list Z -> list Z -> option (list Z)) :
  Forall (sbound nx) S ->
  (forall x y0, fwd x y0 = fill_loop 0 (combine (range 0 (length S)) S) x y0) ->
  (forall accum dy dx0, bwd accum dy dx0 = add_loop (map swap (used (combine (range 0 (length S)) S))) dy (if accum then dx0 else zeroed dx0)) ->
  adjoint nx (Z.of_nat (length S)) fwd bwd.
Proof.
  intros B HF HB accum dy dx0 Ldy Ldx. rewrite HB.
  destruct (add_loop_ok (map swap (used (combine (range 0 (length S)) S))) dy (if accum then dx0 else zeroed dx0)) as (r & E & L & I).
  { assert (X : len (if accum then dx0 else zeroed dx0) = nx) by (unfold len; destruct accum; rewrite ?zeroed_length; auto).
    rewrite X. apply swap_bounded. apply used_bounded; auto; unfold len; lia. }
  exists r. split; [auto|]. split; [rewrite L; destruct accum; rewrite ?zeroed_length; auto|].
  intros x y0 Lx Ly. rewrite HF, fill_all; [|rewrite <- Lx in B; exact B|lia]. eexists. split; [reflexivity|].
  rewrite I, (inner_used S dy x 0) by lia. cbn [Z.to_nat repeat app]. destruct accum; [reflexivity|]. rewrite zeroed_inner. reflexivity.
Qed.

(** * Lists of source offsets, axis by axis *)
Definition oadd (a b : option Z) : option Z := match a, b with Some a, Some b => Some (a + b) | _, _ => None end.
Fixpoint srcs (D : list (Z * (Z -> option Z))) : list (option Z) :=
  match D with
  | [] => [Some 0]
  | (n, h) :: D => flat_map (fun i => map (oadd (h i)) (srcs D)) (range 0 (Z.to_nat n))
  end.
Fixpoint osum (D : list (Z * (Z -> option Z))) (idx : list Z) : option Z :=
  match D, idx with
  | (_, h) :: D, i :: idx => oadd (h i) (osum D idx)
  | _, _ => Some 0
  end.
Lemma srcs_osum D : srcs D = map (osum D) (indices (map fst D)).
Proof.
  induction D as [|[n h] D IH]; [reflexivity|]. cbn [srcs map fst indices]. rewrite IH.
  induction (range 0 (Z.to_nat n)) as [|i l IHl]; cbn [flat_map map]; [reflexivity|]. rewrite map_app, IHl, !map_map. reflexivity.
Qed.
Lemma srcs_ext D : forall E, Forall2 (fun a b => fst a = fst b /\ forall i, within (fst a) i -> snd a i = snd b i) D E -> srcs D = srcs E.
Proof.
  intros E H. induction H as [|[n h] [m g] D E [Hn Hh] F IH]; [reflexivity|]. cbn [fst snd srcs] in *. subst m. rewrite IH.
  assert (A : forall i, In i (range 0 (Z.to_nat n)) -> h i = g i).
  { intros i Hi. apply range_in in Hi. apply Hh. unfold within. lia. }
  induction (range 0 (Z.to_nat n)) as [|i l IHl]; cbn [flat_map]; [reflexivity|].
  rewrite (A i) by (left; auto). f_equal. apply IHl. intros j Hj. apply A. right. auto.
Qed.
Lemma oadd_assoc a b c : oadd (oadd a b) c = oadd a (oadd b c).
Proof. destruct a, b, c; cbn; auto. f_equal. ring. Qed.
Lemma srcs_merge n1 n2 st D : 0 <= n1 -> 0 <= n2 ->
  srcs ((n1, fun i => Some (i * (n2 * st))) :: (n2, fun i => Some (i * st)) :: D) = srcs ((n1 * n2, fun i => Some (i * st)) :: D).
Proof.
  intros H1 H2. cbn [srcs]. generalize (srcs D) as S. intros S.
  rewrite Z2Nat.inj_mul by lia.
  enough (G : forall m k, flat_map (fun i => map (oadd (Some (i * (n2 * st)))) (flat_map (fun i0 => map (oadd (Some (i0 * st))) S) (range 0 (Z.to_nat n2)))) (range k m) =
    flat_map (fun i => map (oadd (Some (i * st))) S) (range (k * n2) (m * Z.to_nat n2))) by (rewrite G; f_equal).
  induction m as [|m IH]; intros k; [reflexivity|]. cbn [range flat_map Nat.mul]. rewrite range_app, flat_map_app. f_equal.
  - clear. replace (k * n2) with (k * n2 + 0) by ring. generalize 0 as j. induction (Z.to_nat n2) as [|q IH]; intros j; cbn [range flat_map map]; [reflexivity|].
    rewrite map_app, map_map. f_equal.
    + apply map_ext. intros a. rewrite <- oadd_assoc. replace (oadd (Some (k * (n2 * st))) (Some (j * st))) with (Some ((k * n2 + j) * st)); [reflexivity|]. cbn [oadd]. f_equal. ring.
    + rewrite IH. f_equal. f_equal. lia.
  - rewrite IH. f_equal. f_equal. lia.
Qed.
Lemma srcs_length D : Forall (fun d => 0 <= fst d) D -> Z.of_nat (length (srcs D)) = size (map fst D).
Proof.
  intros P. rewrite srcs_osum, map_length. rewrite <- (map_length (fun x => off x (map fst D))), indices_off, range_length.
  - rewrite Z2Nat.id; [auto|]. apply size_nonneg. apply Forall_map. auto.
  - apply Forall_map. auto.
Qed.

(** The element at an index. *)
Lemma nth_indices {A} (f : list Z -> A) shape idx d : Forall (fun s => 0 <= s) shape -> inside idx shape ->
  nth (Z.to_nat (position 0 idx shape)) (map f (indices shape)) d = f idx.
Proof.
  intros P I. rewrite position_off by auto. cbn [Z.mul]. rewrite Z.add_0_l.
  destruct (In_nth _ _ [] (proj2 (indices_in shape idx) I)) as (k & Hk & E).
  pose proof (indices_off shape P) as O.
  assert (X : nth k (map (fun x => off x shape) (indices shape)) 0 = off idx shape).
  { erewrite nth_indep by (rewrite map_length; auto). rewrite (map_nth (fun x => off x shape)), E. reflexivity. }
  assert (Ln : length (indices shape) = Z.to_nat (size shape)).
  { rewrite <- (map_length (fun x => off x shape)), O, range_length. auto. }
  rewrite O, range_nth in X by lia. rewrite <- X, Z.add_0_l, Nat2Z.id.
  erewrite nth_indep by (rewrite map_length; auto). rewrite map_nth, E. reflexivity.
Qed.
Lemma cstrides_sfx s t : cstrides (s :: t) = sfx t.
Proof.
  revert s. induction t as [|u t IH]; intros s; [reflexivity|].
  change (cstrides (s :: u :: t)) with (match cstrides (u :: t) with st :: _ => 1 * (st * u) | [] => 1 end :: cstrides (u :: t)).
  rewrite IH. destruct t as [|v t]; cbn [sfx size]; [f_equal; lia|]. f_equal. ring.
Qed.
Lemma prod_size l : prod l = size l.
Proof.
  unfold prod. enough (G : forall a, fold_left Z.mul l a = a * size l) by (rewrite G; ring).
  induction l as [|x l IH]; intros a; cbn [fold_left size]; [ring|]. rewrite IH. ring.
Qed.
