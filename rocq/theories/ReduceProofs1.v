(** Loops over rows. *)
From Coq Require Import List ZArith Lia Bool QArith Qcanon.
From Verif Require Import NdModel NdSpec NdProofs IdxModel IdxSpec IdxProofs1 IdxProofs2 JoinModel JoinSpec JoinProofs JoinProofs2 ScanModel ScanSpec ScanProofs1 ReduceModel ReduceSpec.
Import ListNotations.
Local Open Scope list_scope.
Local Open Scope Z_scope.

Lemma get_gen {A} (d : A) a i : 0 <= i < Z.of_nat (length a) -> get a i = Some (nth (Z.to_nat i) a d).
Proof. unfold get. intros H. destruct (Z.ltb_spec i 0); [lia|]. apply nth_error_nth'. lia. Qed.
Lemma put_gen {A} (d : A) : forall a i v, 0 <= i < Z.of_nat (length a) -> exists r, put a i v = Some r /\ length r = length a /\
  forall j, 0 <= j -> nth (Z.to_nat j) r d = if j =? i then v else nth (Z.to_nat j) a d.
Proof.
  intros a i v H. unfold put. destruct (Z.ltb_spec i 0); [lia|].
  assert (G : forall (a : list A) i, (i < length a)%nat -> exists r, put_nat a i v = Some r /\ length r = length a /\ forall j, nth j r d = if Nat.eqb j i then v else nth j a d).
  { clear. induction a as [|x a IH]; intros i H; cbn [length] in H; [lia|]. destruct i as [|i]; cbn [put_nat].
    - exists (v :: a). split; [auto|]. split; [auto|]. intros [|j]; reflexivity.
    - destruct (IH i) as (r & E & L & N); [lia|]. rewrite E. exists (x :: r). split; [auto|]. split; [cbn [length]; congruence|]. intros [|j]; cbn [nth Nat.eqb]; auto. }
  destruct (G a (Z.to_nat i)) as (r & E & L & N); [lia|]. exists r. split; [auto|]. split; [auto|]. intros j J. rewrite N.
  destruct (Nat.eqb_spec (Z.to_nat j) (Z.to_nat i)), (Z.eqb_spec j i); auto; lia.
Qed.

Lemma omap_some {A B} (f : A -> option B) (g : A -> B) l : (forall a, In a l -> f a = Some (g a)) -> omap f l = Some (map g l).
Proof.
  induction l as [|a l IH]; intros H; cbn [omap map]; [reflexivity|]. rewrite H by (left; auto). cbn [obind]. rewrite IH; [reflexivity|]. intros. apply H. right. auto.
Qed.
Definition row_of (x : list Qc) (o r : Z) : list Qc := map (fun i => qat x (o * r + i)) (upto r).
Lemma row_ok x outer o r : qlen x = outer * r -> 0 <= o < outer -> 0 <= r -> row x o r = Some (row_of x o r).
Proof.
  intros L O R. unfold row, row_of. apply omap_some. intros i Hi. apply upto_in in Hi. apply get_ok. unfold within. rewrite L. nia.
Qed.

Lemma rows_forward_ok f outer r x y : 0 <= r -> qlen x = outer * r -> qlen y = outer ->
  exists y', rows_forward f outer r x y = Some y' /\ length y' = length y /\ forall o, 0 <= o < outer -> qat y' o = f (row_of x o r).
Proof.
  intros R Lx Ly. unfold rows_forward.
  assert (G : forall m, Z.of_nat m <= outer -> exists y', loop (fun o y => obind (row x o r) (fun l => put y o (f l))) (upto (Z.of_nat m)) y = Some y' /\
    length y' = length y /\ forall o, 0 <= o < Z.of_nat m -> qat y' o = f (row_of x o r)).
  { induction m as [|m IH]; intros M; [exists y; split; [reflexivity|split; [auto|lia]]|].
    destruct IH as (z & E & L & V); [lia|]. rewrite upto_S, loop_app, E. cbn [obind loop]. rewrite (row_ok x outer) by (auto; lia). cbn [obind].
    destruct (put_ok z (Z.of_nat m) (f (row_of x (Z.of_nat m) r))) as (z' & E' & L' & N & _); [unfold within, qlen in *; lia|]. rewrite E'. cbn [obind].
    exists z'. split; [auto|]. split; [congruence|]. intros o O. rewrite N by lia. destruct (Z.eqb_spec o (Z.of_nat m)); [subst; auto|apply V; lia]. }
  assert (0 <= outer) by (rewrite <- Ly; unfold qlen; lia). destruct (G (Z.to_nat outer)) as (y' & E & L & V); [lia|]. rewrite Z2Nat.id in E, V by auto. eauto.
Qed.

Lemma rows_backward_ok (g : Z -> Z -> option Qc) (v : Z -> Z -> Qc) outer r (accum : bool) dx : 0 <= r -> 0 <= outer -> qlen dx = outer * r ->
  (forall o i, 0 <= o < outer -> 0 <= i < r -> g o (o * r + i) = Some (v o i)) ->
  exists dx', rows_backward g outer r accum dx = Some dx' /\ length dx' = length dx /\
  forall o i, 0 <= o < outer -> 0 <= i < r -> qat dx' (o * r + i) = ((if accum then qat dx (o * r + i) else 0) + v o i)%Qc.
Proof.
  intros R O L HG. unfold rows_backward.
  assert (G1 : forall o z, 0 <= o < outer -> qlen z = outer * r -> forall m, Z.of_nat m <= r -> exists z', 
    loop (fun i dx => obind (g o (o * r + i)) (fun v => if accum then obind (get dx (o * r + i)) (fun old => put dx (o * r + i) (old + v)%Qc) else put dx (o * r + i) v)) (upto (Z.of_nat m)) z = Some z' /\
    length z' = length z /\ (forall i, 0 <= i < Z.of_nat m -> qat z' (o * r + i) = (if accum then qat z (o * r + i) else 0) + v o i)%Qc /\
    (forall q, 0 <= q -> ~ (o * r <= q < o * r + Z.of_nat m) -> qat z' q = qat z q)).
  { intros o z Ho Lz. induction m as [|m IH]; intros M; [exists z; split; [reflexivity|split; [auto|split; [lia|auto]]]|].
    destruct IH as (w & E & Lw & V & U); [lia|]. rewrite upto_S, loop_app, E. cbn [obind loop]. rewrite HG by lia. cbn [obind].
    assert (W : within (qlen w) (o * r + Z.of_nat m)). { unfold within, qlen in *. rewrite Lw, Lz. nia. }
    rewrite get_ok by auto. cbn [obind].
    assert (PE : (if accum then put w (o * r + Z.of_nat m) (qat w (o * r + Z.of_nat m) + v o (Z.of_nat m))%Qc else put w (o * r + Z.of_nat m) (v o (Z.of_nat m))) =
      put w (o * r + Z.of_nat m) ((if accum then qat z (o * r + Z.of_nat m) else 0) + v o (Z.of_nat m))%Qc).
    { rewrite U by nia. destruct accum; [auto|f_equal; ring]. }
    rewrite PE. destruct (put_ok w _ ((if accum then qat z (o * r + Z.of_nat m) else 0) + v o (Z.of_nat m))%Qc W) as (w' & E' & L' & N & _). rewrite E'. cbn [obind].
    exists w'. split; [auto|]. split; [congruence|]. split.
    - intros i Hi. rewrite N by nia. destruct (Z.eqb_spec (o * r + i) (o * r + Z.of_nat m)) as [Q|Q].
      + assert (i = Z.of_nat m) by lia. subst. auto.
      + apply V. lia.
    - intros q Q D. rewrite N by auto. destruct (Z.eqb_spec q (o * r + Z.of_nat m)); [lia|]. apply U; [auto|lia]. }
  assert (G : forall m, Z.of_nat m <= outer -> exists z, 
    loop (fun o => loop (fun i dx => obind (g o (o * r + i)) (fun v => if accum then obind (get dx (o * r + i)) (fun old => put dx (o * r + i) (old + v)%Qc) else put dx (o * r + i) v)) (upto r)) (upto (Z.of_nat m)) dx = Some z /\
    length z = length dx /\ (forall o i, 0 <= o < Z.of_nat m -> 0 <= i < r -> qat z (o * r + i) = (if accum then qat dx (o * r + i) else 0) + v o i)%Qc /\
    (forall q, Z.of_nat m * r <= q -> qat z q = qat dx q)).
  { induction m as [|m IH]; intros M; [exists dx; split; [reflexivity|split; [auto|split; [lia|auto]]]|].
    destruct IH as (w & E & Lw & V & U); [lia|]. rewrite upto_S, loop_app, E. cbn [obind loop].
    destruct (G1 (Z.of_nat m) w) with (m := Z.to_nat r) as (w' & E' & L' & V' & U'); [lia|unfold qlen in *; congruence|lia|]. rewrite Z2Nat.id in E', V', U' by auto.
    rewrite E'. cbn [obind]. exists w'. split; [auto|]. split; [congruence|]. split.
    - intros o i Ho Hi. destruct (Z.eq_dec o (Z.of_nat m)) as [->|].
      + rewrite V' by auto. rewrite U by lia. auto.
      + rewrite U' by nia. apply V; lia.
    - intros q Q. rewrite U' by nia. apply U. nia. }
  destruct (G (Z.to_nat outer)) as (dx' & E & L' & V & _); [lia|]. rewrite Z2Nat.id in E, V by auto. eauto.
Qed.

(** Copying and adding to distinct places. *)
Lemma copyq_ok ps : forall src dst, (forall p, In p ps -> within (qlen dst) (fst p) /\ within (qlen src) (snd p)) -> NoDup (map fst ps) ->
  exists r, copyq ps src dst = Some r /\ length r = length dst /\ (forall d s, In (d, s) ps -> qat r d = qat src s) /\
    (forall q, 0 <= q -> ~ In q (map fst ps) -> qat r q = qat dst q).
Proof.
  unfold copyq. induction ps as [|[d s] ps IH]; intros src dst B N; cbn [loop fst snd].
  - exists dst. split; [auto|]. split; [auto|]. split; [intros ? ? []|auto].
  - destruct (B (d, s)) as (Bd & Bs); [left; auto|]. cbn [fst snd map] in *. inversion N as [|? ? N1 N2]; subst.
    rewrite get_ok by auto. cbn [obind]. destruct (put_ok dst d (qat src s) Bd) as (z & E & L & P & _). rewrite E. cbn [obind].
    destruct (IH src z) as (r & E' & L' & V & U); [|auto|].
    { intros p Hp. unfold qlen. rewrite L. apply B. right. auto. }
    exists r. split; [auto|]. split; [congruence|]. split.
    + intros d' s' [H|H]; [inversion H; subst|auto]. rewrite U, P by (auto; apply Bd). rewrite Z.eqb_refl. auto.
    + intros q Q H. cbn [In] in H. rewrite U, P by tauto. destruct (Z.eqb_spec q d); [subst; tauto|auto].
Qed.
Lemma addq_ok ps : forall src dst, (forall p, In p ps -> within (qlen dst) (fst p) /\ within (qlen src) (snd p)) -> NoDup (map fst ps) ->
  exists r, addq ps src dst = Some r /\ length r = length dst /\ (forall d s, In (d, s) ps -> qat r d = (qat dst d + qat src s)%Qc) /\
    (forall q, 0 <= q -> ~ In q (map fst ps) -> qat r q = qat dst q).
Proof.
  unfold addq. induction ps as [|[d s] ps IH]; intros src dst B N; cbn [loop fst snd].
  - exists dst. split; [auto|]. split; [auto|]. split; [intros ? ? []|auto].
  - destruct (B (d, s)) as (Bd & Bs); [left; auto|]. cbn [fst snd map] in *. inversion N as [|? ? N1 N2]; subst.
    rewrite get_ok by auto. cbn [obind]. rewrite get_ok by auto. cbn [obind]. destruct (put_ok dst d (qat dst d + qat src s)%Qc Bd) as (z & E & L & P & _). rewrite E. cbn [obind].
    destruct (IH src z) as (r & E' & L' & V & U); [|auto|].
    { intros p Hp. unfold qlen. rewrite L. apply B. right. auto. }
    exists r. split; [auto|]. split; [congruence|]. split.
    + intros d' s' [H|H]; [inversion H; subst|].
      * rewrite U, P by (auto; apply Bd). rewrite Z.eqb_refl. auto.
      * rewrite (V d' s' H), P by (apply (B (d', s')); right; auto). destruct (Z.eqb_spec d' d) as [->|]; [|auto]. exfalso. apply N1. apply in_map_iff. exists (d, s'). auto.
    + intros q Q H. cbn [In] in H. rewrite U, P by tauto. destruct (Z.eqb_spec q d); [subst; tauto|auto].
Qed.
