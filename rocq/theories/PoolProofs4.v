(** MaxPooling, its gradient and MaxPoolingBackward, by positions. *)
From Coq Require Import List ZArith Lia Bool QArith Qcanon.
From Verif Require Import NdModel NdSpec NdProofs IdxModel IdxSpec IdxProofs1 IdxProofs2 IdxProofs3 IdxProofs6 JoinModel JoinSpec JoinProofs JoinProofs2 ScanModel ScanSpec ScanProofs1 ReduceModel ReduceSpec ReduceProofs1 ReduceProofs5 SortProofs2 SortProofs3 ConvModel ConvSpec ConvProofs1 ConvProofs2 ConvProofs3 ConvProofs5 ConvProofs6 ConvProofs7 PoolModel PoolSpec PoolProofs1 PoolProofs2 PoolProofs3.
Import ListNotations.
Local Open Scope list_scope.
Local Open Scope Z_scope.

(** The search for the maximum. *)
Definition best_of (v : list Z -> Qc) (L : list (list Z)) : list Z :=
  match L with [] => [] | i :: L => fold_left (fun i j => if less (v i) (v j) then j else i) L i end.
Lemma first_max_fold (v : list Z -> Qc) : forall L D i, first_max D v i -> first_max (D ++ L) v (fold_left (fun i j => if less (v i) (v j) then j else i) L i).
Proof.
  induction L as [| j L IH]; intros D i H; [rewrite app_nil_r; exact H |]. cbn [fold_left].
  replace (D ++ j :: L) with ((D ++ [j]) ++ L) by (rewrite <- app_assoc; reflexivity). apply IH.
  destruct H as (a & b & -> & H1 & H2). destruct (less (v i) (v j)) eqn:E.
  - apply less_t in E. exists (a ++ i :: b), []. split; [reflexivity |]. split; [| intros ? []].
    intros k K. apply in_app_or in K as [K | [<- | K]]; [eapply Qclt_trans; [apply H1; exact K | exact E] | exact E | eapply Qcle_lt_trans; [apply H2; exact K | exact E]].
  - apply less_f in E. exists a, (b ++ [j]). split; [rewrite <- app_assoc; reflexivity |]. split; [exact H1 |].
    intros k K. apply in_app_or in K as [K | [<- | []]]; [apply H2; exact K | exact E].
Qed.
Lemma best_first v L : L <> [] -> first_max L v (best_of v L).
Proof.
  destruct L as [| i L]; [congruence |]. intros _. apply (first_max_fold v L [i] i). exists [], []. split; [reflexivity |]. split; intros ? [].
Qed.
Lemma first_max_in {A} (L : list A) v i : first_max L v i -> In i L.
Proof. intros (a & b & -> & _). apply in_or_app. right. left. reflexivity. Qed.
Lemma search_loop {A} (look : list Z -> option Qc) (pos : list Z -> A) (v : list Z -> Qc) : forall L i, (forall j, In j L -> look j = Some (v j)) ->
  loop (fun idx '(mi, mv) => obind (look idx) (fun w => Some (if less mv w then (pos idx, w) else (mi, mv)))) L (pos i, v i) =
  Some (pos (fold_left (fun i j => if less (v i) (v j) then j else i) L i), v (fold_left (fun i j => if less (v i) (v j) then j else i) L i)).
Proof.
  induction L as [| j L IH]; intros i H; [reflexivity |]. cbn [loop fold_left]. rewrite H by (left; reflexivity). cbn [obind].
  rewrite <- IH by (intros; apply H; right; assumption). destruct (less (v i) (v j)); reflexivity.
Qed.
Lemma max_in_ok x xo strides w (h : list Z -> Z) : Forall (fun ab => fst ab < snd ab) w -> (forall i, In i (box w) -> flat i strides = h i /\ within (qlen x) (xo + h i)) ->
  let i := best_of (fun i => qat x (xo + h i)) (box w) in max_in x xo strides w = Some (h i, qat x (xo + h i)).
Proof.
  intros F H. destruct (box_head w F) as (r & E). rewrite E in *. unfold max_in. rewrite E. cbn zeta. cbn [best_of].
  destruct (H (map fst w) (or_introl eq_refl)) as (E1 & B1). rewrite E1, (get_ok _ _ B1). cbn [obind].
  rewrite (loop_ext _ (fun idx '(mi, mv) => obind (Some (qat x (xo + h idx))) (fun w => Some (if less mv w then (h idx, w) else (mi, mv))))).
  - pose proof (search_loop (fun i => Some (qat x (xo + h i))) h (fun i => qat x (xo + h i)) (map fst w :: r) (map fst w) (fun _ _ => eq_refl)) as S1.
    cbn [fold_left] in S1. rewrite less_0 in S1. exact S1.
  - intros i (mi, mv) I. destruct (H i I) as (E2 & B2). rewrite E2, (get_ok _ _ B2). reflexivity.
Qed.

Section Pooling.
Variable l : pooling.
Hypothesis OK : poolable l.
Local Notation f := (pool_of l).
Local Notation N := (size (outer l)).
Local Notation X := (size (field l)).
Local Notation Y := (size (pooled l)).

(** Where the maximum of window [o] of map [n] is. *)
Definition pick (x : list Qc) (n : Z) (o : list Z) : list Z := best_of (fun i => qat x (n * X + off i (field l))) (region l o).
Definition spot_of (x : list Qc) (j : Z) : Z := off (pick x (j / Y) (unoff (pooled l) (j mod Y))) (field l).
Lemma region_ne o : inside o (pooled l) -> region l o <> [].
Proof using OK. intros I. destruct (p_full l OK o I) as (F & _). apply box_head in F as (r & E). rewrite p_window in E by assumption. rewrite E. discriminate. Qed.
Lemma pick_first x n o : inside o (pooled l) -> first_max (region l o) (fun i => qat x (n * X + off i (field l))) (pick x n o).
Proof using OK. intros I. apply best_first. apply region_ne. exact I. Qed.
Lemma pick_in x n o : inside o (pooled l) -> inside (pick x n o) (field l).
Proof using OK. intros I. eapply region_in. eapply first_max_in. apply pick_first. exact I. Qed.
Lemma spot_bound x j : 0 <= j < N * Y -> 0 <= spot_of x j < X /\ within (N * X) (j / Y * X + spot_of x j).
Proof using OK.
  intros B. destruct (p_split l OK j B) as (B1 & B2 & B3 & I). fold Y in B1, B2, B3, I. pose proof (off_bound _ _ (pick_in x (j / Y) _ I)) as B4. fold X in B4.
  unfold spot_of. fold X. split; [exact B4 |]. unfold within. fold N in B1. nia.
Qed.
Lemma max_forward_ok x y0 m0 : qlen x = N * X -> qlen y0 = N * Y -> Z.of_nat (length m0) = N * Y -> exists y m, max_forward f x y0 m0 = Some (y, m) /\ length y = length y0 /\ length m = length m0 /\
  forall j, 0 <= j < N * Y -> qat y j = qat x (j / Y * X + spot_of x j) /\ nth (Z.to_nat j) m 0 = spot_of x j.
Proof using OK.
  intros LX LY LM. unfold max_forward. rewrite (proj1 (p_maps l OK)). cbn [obind]. rewrite (p_loop l OK). pose proof (p_pos l OK) as (PN & PX & PY). fold N X Y in PN, PX, PY. assert (H : 0 <= N * Y) by nia.
  destruct (loop_inv (fun q '(y, m) => length y = length y0 /\ length m = length m0 /\ forall j, 0 <= j < q -> qat y j = qat x (j / Y * X + spot_of x j) /\ nth (Z.to_nat j) m 0 = spot_of x j)
    (fun j '(y, m) => obind (max_in x (j / Y * x_map f) (x_strides f) (window_of f (unoff (pooled l) (j mod Y)))) (fun '(i, v) =>
      obind (put m (j / Y * y_map f + j mod Y) i) (fun m => obind (put y (j / Y * y_map f + j mod Y) v) (fun y => Some (y, m))))) (N * Y) H) with (s := (y0, m0)) as ((y & m) & E & Ly & Lm & V).
  - intros j (y, m) B (L1 & L2 & V). destruct (p_split l OK j B) as (B1 & B2 & B3 & I). fold N in B1. fold Y in B1, B2, B3, I. pose proof (p_x l OK) as (E1 & E2 & _). fold f X Y in E1, E2. rewrite E1, E2.
    rewrite (max_in_ok x _ _ _ (fun i => off i (field l))) by (first [apply (proj1 (p_full l OK _ I)) | intros i Hi; eapply (p_flat l OK); eassumption]). cbn [obind].
    rewrite (p_window l OK) by exact I. fold (pick x (j / Y) (unoff (pooled l) (j mod Y))). fold (spot_of x j). rewrite B3.
    edestruct (put_gen 0 m j) as (m' & P1 & P2 & P3); [rewrite L2; lia | rewrite P1; cbn [obind]].
    edestruct (put_ok y j) as (y' & Q1 & Q2 & Q3 & _); [unfold within, qlen; unfold qlen in LY; rewrite L1; lia | rewrite Q1; cbn [obind]].
    exists (y', m'). split; [reflexivity |]. split; [congruence |]. split; [congruence |]. intros i Hi. rewrite Q3, P3 by lia. destruct (Z.eqb_spec i j); [subst; split; reflexivity | apply V; lia].
  - split; [reflexivity |]. split; [reflexivity |]. intros; lia.
  - exists y, m. auto.
Qed.
(** The gradient as one loop. *)
Definition spread_step (x dy : list Qc) (j : Z) (dx : list Qc) : option (list Qc) :=
  obind (get dy j) (fun g => obind (get dx (j / Y * X + spot_of x j)) (fun old => put dx (j / Y * X + spot_of x j) (old + g)%Qc)).
Lemma spread_ok x dy dx0 : qlen dy = N * Y -> qlen dx0 = N * X -> exists dx, loop (spread_step x dy) (upto (N * Y)) dx0 = Some dx /\ length dx = length dx0 /\
  forall u, qinner u dx = (qinner u dx0 + zsum (N * Y) (fun j => qat dy j * qat u (j / Y * X + spot_of x j)))%Qc.
Proof using OK.
  intros LY LX. pose proof (p_pos l OK) as (PN & PX & PY). fold N X Y in PN, PX, PY. assert (H : 0 <= N * Y) by nia.
  destruct (loop_inv (fun q dx => length dx = length dx0 /\ forall u, qinner u dx = (qinner u dx0 + zsum q (fun j => qat dy j * qat u (j / Y * X + spot_of x j)))%Qc) (spread_step x dy) (N * Y) H) with (s := dx0) as (dx & E & Ly & V).
  - intros j dx B (L & V). destruct (spot_bound x j B) as (B1 & B2). unfold spread_step. rewrite get_ok by (unfold within; lia). cbn [obind].
    assert (LD : qlen dx = N * X) by (unfold qlen in *; rewrite L; exact LX). rewrite get_ok by (rewrite LD; exact B2). cbn [obind].
    edestruct (put_ok dx (j / Y * X + spot_of x j)) as (dx' & P1 & P2 & _ & P3); [rewrite LD; exact B2 | rewrite P1].
    exists dx'. split; [reflexivity |]. split; [congruence |]. intros u. rewrite P3, V, zsum_S by lia. ring.
  - split; [reflexivity |]. intros u. rewrite zsum_0. ring.
  - exists dx. auto.
Qed.
Lemma max_backward_loop x m (accum : bool) dy dx0 : Z.of_nat (length m) = N * Y -> (forall j, 0 <= j < N * Y -> nth (Z.to_nat j) m 0 = spot_of x j) ->
  max_backward f (Some m) accum dy dx0 = loop (spread_step x dy) (upto (N * Y)) (cleared accum dx0).
Proof using OK.
  intros LM V. unfold max_backward. rewrite (proj2 (p_maps l OK)). cbn [obind]. pose proof (p_pos l OK) as (PN & PX & PY). fold N X Y in PN, PX, PY. pose proof (p_x l OK) as (E1 & E2 & _). fold f X Y in E1, E2. rewrite E1, E2.
  rewrite (loop2 (fun n k dx => obind (get m (n * Y + k)) (fun i => obind (get dy (n * Y + k)) (fun g => obind (get dx (n * X + i)) (fun old => put dx (n * X + i) (old + g)%Qc))))) by assumption.
  apply loop_ext. intros j dx I. apply upto_in in I. destruct (p_split l OK j I) as (_ & _ & B3 & _). fold Y in B3. rewrite B3, (get_gen 0) by lia. cbn [obind]. rewrite V by exact I. reflexivity.
Qed.

(** The loops of MaxPoolingBackward, if the last axis before the image is the channel. *)
Lemma nd2flat_off : forall sh idx, inside idx sh -> PoolModel.nd2flat idx (cstrides sh) = off idx sh.
Proof using.
  induction sh as [| n sh IH]; intros idx H; inversion H as [| i n' idx' sh' B F]; subst; [reflexivity |]. rewrite cstrides_cons. cbn [PoolModel.nd2flat off]. rewrite IH by assumption. reflexivity.
Qed.
Lemma last_ok A C S : last_dims (length (A ++ C :: S)) (length S) (A ++ C :: S) = Some (C, S).
Proof using.
  unfold last_dims. rewrite app_length. cbn [length]. assert (T1 : Nat.ltb (length A + Datatypes.S (length S)) (length S + 1) = false) by (apply Nat.ltb_ge; lia). rewrite T1, Nat.eqb_refl. cbn [negb].
  replace (length A + Datatypes.S (length S) - length S - 1)%nat with (length A) by lia. replace (length A + Datatypes.S (length S) - length S)%nat with (Datatypes.S (length A)) by lia.
  rewrite nth_middle. replace (A ++ C :: S) with ((A ++ [C]) ++ S) by (rewrite <- app_assoc; reflexivity).
  replace (Datatypes.S (length A)) with (length (A ++ [C])) by (rewrite app_length; cbn [length]; lia). rewrite skipn_app, skipn_all, Nat.sub_diag. reflexivity.
Qed.
Lemma counter_upto {T} (G : Z -> Z -> T -> option T) w C k t : 0 <= C ->
  loop (fun c '(o, t) => obind (G c o t) (fun t => Some (o + w, t))) (upto C) (k, t) = obind (loop (fun c t => G c (k + c * w) t) (upto C) t) (fun t => Some (k + C * w, t)).
Proof using.
  intros H. rewrite <- (Z2Nat.id C) by lia. induction (Z.to_nat C) as [| n IH]; [cbn [loop obind]; change (upto (Z.of_nat 0)) with (@nil Z); cbn [loop obind]; do 2 f_equal; lia |].
  rewrite upto_S, !loop_app, IH. destruct (loop _ (upto (Z.of_nat n)) t) as [u |]; [| reflexivity]. cbn [obind loop].
  destruct (G (Z.of_nat n) (k + Z.of_nat n * w) u) as [v |]; [| reflexivity]. cbn [obind loop]. replace (k + Z.of_nat n * w + w) with (k + Z.of_nat (S n) * w) by lia. reflexivity.
Qed.
Lemma max_at_ok A C x n b c o : outer l = A ++ [C] -> qlen x = N * X -> 0 <= b < size A -> 0 <= c < C -> n = b * C + c -> inside o (pooled l) ->
  max_at x (cstrides (size A :: C :: field l)) b c (regions o (stepping l) (margin l) (extent l) (field l)) = Some (n * X + off (pick x n o) (field l)).
Proof using OK.
  intros EA LX Bb Bc -> I. pose proof (p_lengths l OK) as (L1 & L2 & L3 & L4).
  assert (EN : N = size A * C) by (rewrite EA, size_app; cbn [size]; ring).
  rewrite regions_clips; try assumption; [| rewrite (inside_length _ _ I); exact L4 | eapply sensible_margin; apply (a_sensible _ OK)].
  assert (EW : clips (field l) (spans o (stepping l) (margin l) (extent l) (field l)) = window_of f o) by (unfold window_of, spans_of; pose proof (p_x l OK) as (_ & _ & _ & E & _); fold f in E; rewrite E; reflexivity).
  rewrite EW. destruct (p_full l OK o I) as (F & _). fold f in F. pose proof (p_window l OK o I) as EB. fold f in EB. destruct (box_head _ F) as (r & ER).
  assert (P : forall i, In i (box (window_of f o)) -> PoolModel.nd2flat (b :: c :: i) (cstrides (size A :: C :: field l)) = (b * C + c) * X + off i (field l) /\ get x ((b * C + c) * X + off i (field l)) = Some (qat x ((b * C + c) * X + off i (field l)))).
  { intros i J. rewrite EB in J. apply region_in in J. split.
    - rewrite !cstrides_cons. cbn [PoolModel.nd2flat size]. rewrite nd2flat_off by exact J. fold X. ring.
    - apply get_ok. pose proof (off_bound _ _ J). fold X in H. unfold within. rewrite LX, EN. assert (0 <= b * C + c < size A * C) by nia. nia. }
  unfold max_at. destruct (P (map fst (window_of f o))) as (E1 & G1); [rewrite ER; left; reflexivity |]. rewrite E1, G1. cbn [obind].
  rewrite (loop_ext _ (fun idx '(mi, mv) => obind (Some (qat x ((b * C + c) * X + off idx (field l)))) (fun w => Some (if less mv w then ((b * C + c) * X + off idx (field l), w) else (mi, mv))))).
  - pose proof (search_loop (fun i => Some (qat x ((b * C + c) * X + off i (field l)))) (fun i => (b * C + c) * X + off i (field l)) (fun i => qat x ((b * C + c) * X + off i (field l))) (box (window_of f o)) (map fst (window_of f o)) (fun _ _ => eq_refl)) as S1.
    rewrite S1. cbn [obind]. unfold pick. fold X. rewrite <- EB, ER. cbn [best_of fold_left]. rewrite less_0. reflexivity.
  - intros i (mi, mv) J. destruct (P i J) as (E2 & G2). rewrite E2, G2. reflexivity.
Qed.
Lemma each_max_ok {T} A C x (body : Z -> Z -> T -> option T) t : outer l = A ++ [C] -> 0 < C -> qlen x = N * X ->
  each_max (extent l) (stepping l) (margin l) (pool_out l) (pool_in l) x body t = loop (fun j => body (j / Y * X + spot_of x j) j) (upto (N * Y)) t.
Proof using OK.
  intros EA PC LX. pose proof (p_lengths l OK) as (L1 & L2 & L3 & L4). pose proof (p_pos l OK) as (PN & PX & PY).
  assert (L0 : length (field l) = 2%nat \/ length (field l) = 3%nat) by apply (a_dims _ OK).
  assert (EN : N = size A * C) by (rewrite EA, size_app; cbn [size]; ring).
  pose proof (a_outer _ OK) as SA. rewrite EA in SA. apply Forall_app in SA as (SA & _). apply size_nonneg in SA.
  unfold each_max. cbv zeta. rewrite L1, L2, L3.
  assert (T1 : Nat.eqb (length (field l)) 2 || Nat.eqb (length (field l)) 3 = true) by (destruct L0 as [-> | ->]; reflexivity). rewrite T1, Nat.ltb_irrefl. cbn [negb orb].
  assert (EI : pool_in l = A ++ C :: field l) by (unfold pool_in; rewrite EA, <- app_assoc; reflexivity).
  assert (EO : pool_out l = A ++ C :: pooled l) by (unfold pool_out; rewrite EA, <- app_assoc; reflexivity).
  rewrite EI, last_ok. cbn [obind].
  assert (E2 : last_dims (length (A ++ C :: field l)) (length (field l)) (A ++ C :: pooled l) = Some (C, pooled l)).
  { replace (length (A ++ C :: field l)) with (length (A ++ C :: pooled l)) by (rewrite !app_length; cbn [length]; lia). rewrite <- L4. apply last_ok. }
  rewrite EO, E2. cbn [obind].
  rewrite !prod_size, size_app. change (size (C :: pooled l)) with (C * Y). rewrite divide_mul by nia. cbn [obind]. cbv zeta. rewrite box_indices.
  set (G := fun b c i o t => body ((b * C + c) * X + off (pick x (b * C + c) i) (field l)) o t).
  rewrite (loop_ext _ (fun b '(o, t) => obind (loop (fun c t => loop (fun q t => G b c (unoff (pooled l) q) (o + c * Y + q) t) (upto Y) t) (upto C) t) (fun t => Some (o + C * Y, t))) (upto (size A))).
  - rewrite counter_upto by assumption.
    rewrite (loop_ext _ (fun b => loop (fun c => loop (fun q => G b c (unoff (pooled l) q) ((b * C + c) * Y + q)) (upto Y)) (upto C)) (upto (size A))).
    + rewrite (loop2 (fun b c => loop (fun q => G b c (unoff (pooled l) q) ((b * C + c) * Y + q)) (upto Y))) by lia. rewrite <- EN.
      rewrite (loop_ext _ (fun n => loop (fun q => body (n * X + off (pick x n (unoff (pooled l) q)) (field l)) (n * Y + q)) (upto Y)) (upto N)).
      * rewrite loop2 by lia.
        rewrite (loop_ext _ (fun j => body (j / Y * X + spot_of x j) j) (upto (N * Y))) by (intros j v Ij; apply upto_in in Ij; destruct (p_split l OK j Ij) as (_ & _ & B3 & _); rewrite B3; reflexivity).
        destruct (loop _ (upto (N * Y)) t); reflexivity.
      * intros n v _. apply loop_ext. intros q w _. unfold G. assert (E3 : n / C * C + n mod C = n) by (rewrite Z.mul_comm; symmetry; apply Z.div_mod; lia). rewrite E3. reflexivity.
    + intros b u _. apply loop_ext. intros c v _. apply loop_ext. intros q w _. f_equal. ring.
  - intros b (o, u) Ib. apply upto_in in Ib.
    rewrite (loop_ext _ (fun c '(o, t) => obind (loop (fun q t => G b c (unoff (pooled l) q) (o + q) t) (upto Y) t) (fun t => Some (o + Y, t))) (upto C)).
    + rewrite counter_upto by lia. reflexivity.
    + intros c (o', u') Ic. apply upto_in in Ic.
      rewrite (loop_ext _ (fun i '(o, t) => obind (G b c i o t) (fun t => Some (o + 1, t))) (indices (pooled l))).
      * rewrite (loop_ext _ (fun i '(o, t) => obind (G b c (unoff (pooled l) (off i (pooled l))) o t) (fun t => Some (o + 1, t))) (indices (pooled l))) by (intros i (o1, u1) Ii; apply indices_in in Ii; rewrite unoff_off by (first [assumption | apply positive_sizes; apply (p_pooled l OK)]); reflexivity).
        rewrite <- (loop_indices (fun q '(o, t) => obind (G b c (unoff (pooled l) q) o t) (fun t => Some (o + 1, t)))) by (apply positive_sizes; apply (p_pooled l OK)).
        rewrite (counter_upto (fun q o t => G b c (unoff (pooled l) q) o t)) by lia. rewrite (loop_ext _ (fun q t => G b c (unoff (pooled l) q) (o' + q) t) (upto Y)) by (intros; rewrite Z.mul_1_r; reflexivity).
        destruct (loop _ (upto Y) u'); cbn [obind]; [rewrite Z.mul_1_r; reflexivity | reflexivity].
      * intros i (o1, u1) Ii. apply indices_in in Ii. rewrite (max_at_ok A C x (b * C + c)) by (assumption || reflexivity). reflexivity.
Qed.
Lemma mpb_forward_loop A C x dy dx0 : outer l = A ++ [C] -> 0 < C -> qlen x = N * X ->
  mpb_forward (extent l) (stepping l) (margin l) (pool_out l) (pool_in l) dy x dx0 = loop (spread_step x dy) (upto (N * Y)) (cleared false dx0).
Proof using OK. intros EA PC LX. unfold mpb_forward. rewrite (each_max_ok A C) by assumption. reflexivity. Qed.
Lemma mpb_backward_ok A C x (accum : bool) gdx gdy0 : outer l = A ++ [C] -> 0 < C -> qlen x = N * X -> qlen gdx = N * X -> qlen gdy0 = N * Y ->
  exists e, mpb_backward (extent l) (stepping l) (margin l) (pool_out l) (pool_in l) accum gdx x gdy0 = Some e /\ length e = length gdy0 /\
  forall j, 0 <= j < N * Y -> qat e j = ((if accum then qat gdy0 j else 0) + qat gdx (j / Y * X + spot_of x j))%Qc.
Proof using OK.
  intros EA PC LX LG LY. unfold mpb_backward. rewrite (each_max_ok A C) by assumption. pose proof (p_pos l OK) as (PN & PX & PY). assert (H : 0 <= N * Y) by nia.
  destruct (loop_inv (fun q e => length e = length gdy0 /\ (forall j, 0 <= j < q -> qat e j = ((if accum then qat gdy0 j else 0) + qat gdx (j / Y * X + spot_of x j))%Qc) /\ forall j, q <= j -> qat e j = qat gdy0 j)
    (fun j e => obind (get gdx (j / Y * X + spot_of x j)) (fun g => if accum then obind (get e j) (fun old => put e j (old + g)%Qc) else put e j g)) (N * Y) H) with (s := gdy0) as (e & E & Le & V & _).
  - intros j e B (L & V & W). destruct (spot_bound x j B) as (_ & B2). rewrite get_ok by (rewrite LG; exact B2). cbn [obind].
    assert (LE : qlen e = N * Y) by (unfold qlen in *; rewrite L; exact LY).
    assert (EQ : (if accum then obind (get e j) (fun old => put e j (old + qat gdx (j / Y * X + spot_of x j))%Qc) else put e j (qat gdx (j / Y * X + spot_of x j))) =
      put e j ((if accum then qat gdy0 j else 0) + qat gdx (j / Y * X + spot_of x j))%Qc).
    { destruct accum; [rewrite get_ok by (unfold within; lia); cbn [obind]; rewrite W by lia; reflexivity | rewrite Qcplus_0_l; reflexivity]. }
    rewrite EQ. edestruct (put_ok e j) as (e' & P1 & P2 & P3 & _); [unfold within; lia | rewrite P1].
    exists e'. split; [reflexivity |]. split; [congruence |]. split; intros i Hi; rewrite P3 by lia; destruct (Z.eqb_spec i j); subst; try reflexivity; try lia; [apply V | apply W]; lia.
  - split; [reflexivity |]. split; [intros; lia | reflexivity].
  - exists e. auto.
Qed.
End Pooling.
