(** Sums and averages, by positions. *)
From Coq Require Import List ZArith Lia Bool QArith Qcanon.
From Verif Require Import NdModel NdSpec NdProofs IdxModel IdxSpec IdxProofs1 IdxProofs2 IdxProofs3 IdxProofs6 JoinModel JoinSpec JoinProofs JoinProofs2 ScanModel ScanSpec ScanProofs1 ReduceModel ReduceSpec ReduceProofs1 SortProofs2 SortProofs3 ConvModel ConvSpec ConvProofs1 ConvProofs2 ConvProofs3 ConvProofs5 ConvProofs6 ConvProofs7 PoolModel PoolSpec PoolProofs1 PoolProofs2.
Import ListNotations.
Local Open Scope list_scope.
Local Open Scope Z_scope.

(** The index at a position. *)
Definition unoff (sh : list Z) (q : Z) : list Z := nth (Z.to_nat q) (indices sh) [].
Lemma unoff_off sh idx : nonneg sh -> inside idx sh -> unoff sh (off idx sh) = idx.
Proof. intros N I. unfold unoff. pose proof (nth_indices (fun i => i) sh idx [] N I) as H. rewrite map_id, position_off in H by exact I. exact H. Qed.
Lemma unoff_inside sh q : nonneg sh -> 0 <= q < size sh -> inside (unoff sh q) sh /\ off (unoff sh q) sh = q.
Proof. intros N H. destruct (off_onto sh q N H) as (idx & I & E). rewrite <- E, unoff_off by assumption. auto. Qed.
Lemma over_map_flat {T} sh (body : list Z -> Z -> T -> option T) t : nonneg sh -> over_map sh body t = loop (fun q => body (unoff sh q) q) (upto (size sh)) t.
Proof.
  intros N. rewrite over_map_ok by exact N. rewrite (loop_indices (fun q => body (unoff sh q) q)) by exact N.
  apply loop_ext. intros i s I. apply indices_in in I. rewrite unoff_off by assumption. reflexivity.
Qed.
Lemma positive_sizes l : positive l -> nonneg l.
Proof. intros H. eapply Forall_impl; [| exact H]. intros; cbn beta in *; lia. Qed.

Definition pool_of (l : pooling) : pool := {| p_kernel := extent l; p_stride := stepping l; p_pad := margin l; p_in := pool_in l; p_out := pool_out l |}.

Lemma total_cons {A} (a : A) L f : total (a :: L) f = (f a + total L f)%Qc.
Proof. reflexivity. Qed.
Lemma total_nil {A} (f : A -> Qc) : total [] f = 0%Qc.
Proof. reflexivity. Qed.
Lemma total_ext {A} (L : list A) f g : (forall a, In a L -> f a = g a) -> total L f = total L g.
Proof. intros H. unfold total. f_equal. apply map_ext_in. exact H. Qed.
Lemma sum_in_ok x xo strides w (h : list Z -> Z) : (forall i, In i (box w) -> flat i strides = h i /\ within (qlen x) (xo + h i)) ->
  sum_in x xo strides w = Some (total (box w) (fun i => qat x (xo + h i))).
Proof.
  intros H. unfold sum_in. enough (G : forall L s, (forall i, In i L -> In i (box w)) -> loop (fun idx s => obind (get x (xo + flat idx strides)) (fun v => Some (s + v)%Qc)) L s = Some (s + total L (fun i => qat x (xo + h i)))%Qc).
  { rewrite G by auto. f_equal. ring. }
  induction L as [| i L IH]; intros s I; [cbn [loop]; rewrite total_nil; f_equal; ring |].
  destruct (H i) as (E & B); [apply I; left; reflexivity |]. cbn [loop]. rewrite E, (get_ok _ _ B). cbn [obind]. rewrite IH by (intros; apply I; right; assumption).
  rewrite total_cons. f_equal. ring.
Qed.
Lemma add_in_ok v xo strides w (h : list Z -> Z) n : (forall i, In i (box w) -> flat i strides = h i /\ within n (xo + h i)) -> forall dx, qlen dx = n ->
  exists dx', add_in v xo strides w dx = Some dx' /\ length dx' = length dx /\ forall u, qinner u dx' = (qinner u dx + v * total (box w) (fun i => qat u (xo + h i)))%Qc.
Proof.
  intros H. unfold add_in. induction (box w) as [| i L IH]; intros dx E.
  - exists dx. cbn [loop]. split; [reflexivity |]. split; [reflexivity |]. intros u. rewrite total_nil. ring.
  - destruct (H i) as (Ei & B); [left; reflexivity |]. cbn [loop]. rewrite Ei, get_ok by (rewrite E; exact B). cbn [obind].
    destruct (put_ok dx (xo + h i) (qat dx (xo + h i) + v)%Qc) as (dx1 & P1 & P2 & _ & P3); [rewrite E; exact B |]. rewrite P1. cbn [obind].
    destruct (IH (fun j J => H j (or_intror J)) dx1) as (dx2 & Q1 & Q2 & Q3); [unfold qlen in *; rewrite P2; exact E |].
    exists dx2. split; [exact Q1 |]. split; [congruence |]. intros u. rewrite Q3, P3, total_cons. ring.
Qed.

Lemma full_size L : Forall (fun ab => fst ab < snd ab) L -> 0 < pool_size L.
Proof.
  intros H. assert (Forall (fun ab => fst ab <= snd ab) L) by (eapply Forall_impl; [| exact H]; intros; cbn beta in *; lia).
  rewrite <- box_length by assumption. destruct (box_head L H) as (r & ->). cbn [length]. lia.
Qed.

Section Pooling.
Variable l : pooling.
Hypothesis OK : poolable l.
Local Notation f := (pool_of l).
Local Notation N := (size (outer l)).
Local Notation X := (size (field l)).
Local Notation Y := (size (pooled l)).

Lemma p_lengths : length (extent l) = length (field l) /\ length (stepping l) = length (field l) /\ length (margin l) = length (field l) /\ length (pooled l) = length (field l).
Proof using OK. pose proof (sensible_length _ _ _ _ _ (a_sensible _ OK)) as (A & B & C). pose proof (counts_ok _ _ _ _ _ (a_sensible _ OK)) as (_ & _ & D). auto. Qed.
Lemma p_setup stride : stride = stepping l \/ stride = [] /\ stepping l = extent l -> pool_setup (extent l) stride (whole l) (margin l) (pool_in l) = Some f.
Proof using OK.
  intros HS. pose proof p_lengths as (L1 & L2 & L3 & _). pose proof (counts_ok _ _ _ _ _ (a_sensible _ OK)) as (C1 & _ & _).
  assert (L0 : (2 <= length (field l) <= 3)%nat) by (destruct (a_dims _ OK); lia).
  assert (ES : pool_stride (extent l) stride = stepping l).
  { destruct HS as [-> | (-> & E)]; [| cbn; congruence]. unfold pool_stride. destruct (stepping l); [cbn in L2; lia | reflexivity]. }
  unfold pool_setup. rewrite ES, L1, L2, L3. rewrite Nat.eqb_refl. cbn [negb].
  assert (LI : length (pool_in l) = (length (outer l) + length (field l))%nat) by apply app_length. rewrite LI.
  replace (length (outer l) + length (field l) - length (field l))%nat with (length (outer l)) by lia.
  assert (T1 : Nat.ltb (length (outer l) + length (field l)) (length (field l)) = false) by (apply Nat.ltb_ge; lia). rewrite T1.
  assert (T2 : Nat.ltb (length (field l)) 2 = false) by (apply Nat.ltb_ge; lia). assert (T3 : Nat.ltb 3 (length (field l)) = false) by (apply Nat.ltb_ge; lia). rewrite T2, T3. cbn [orb].
  unfold pool_in. rewrite skipn_app, skipn_all, Nat.sub_diag. cbn [app skipn]. rewrite C1. cbn [obind]. rewrite firstn_app, firstn_all, Nat.sub_diag, app_nil_r. reflexivity.
Qed.
Lemma p_dims : outer_dims f = length (outer l).
Proof using OK. pose proof p_lengths as (L1 & _). unfold outer_dims, f, pool_of, pool_in. cbn [p_in p_kernel]. rewrite app_length. lia. Qed.
Lemma p_x : x_map f = X /\ y_map f = Y /\ x_strides f = cstrides (field l) /\ x_shape f = field l /\ y_shape f = pooled l.
Proof using OK.
  unfold x_map, y_map, x_strides, x_shape, y_shape. rewrite p_dims. unfold f, pool_of, pool_in, pool_out. cbn [p_in p_out].
  rewrite !map_size_ok, cstrides_app, !skipn_app, !skipn_all, Nat.sub_diag. auto.
Qed.
Lemma p_field : positive (field l).
Proof using OK. eapply sensible_field. apply (a_sensible _ OK). Qed.
Lemma p_pooled : positive (pooled l).
Proof using OK. apply (counts_ok _ _ _ _ _ (a_sensible _ OK)). Qed.
Lemma p_pos : 0 <= N /\ 0 < X /\ 0 < Y.
Proof using OK. split; [apply size_nonneg; apply (a_outer _ OK) |]. split; apply size_pos; [apply p_field | apply p_pooled]. Qed.
Lemma p_ne : field l <> [].
Proof using OK. intros E. destruct (a_dims _ OK) as [H | H]; rewrite E in H; discriminate. Qed.
Lemma p_maps : divide (prod (p_in f)) (x_map f) = Some N /\ divide (prod (p_out f)) (y_map f) = Some N.
Proof using OK.
  pose proof p_x as (-> & -> & _). pose proof p_pos as (_ & PX & PY). unfold f, pool_of, pool_in, pool_out. cbn [p_in p_out]. rewrite !prod_size, !size_app.
  split; apply divide_mul; lia.
Qed.
Lemma p_window o : inside o (pooled l) -> box (window_of f o) = region l o.
Proof using OK.
  intros I. pose proof p_lengths as (L1 & L2 & L3 & L4). unfold window_of, spans_of. pose proof p_x as (_ & _ & _ & -> & _). apply box_region; try assumption.
  - rewrite (inside_length _ _ I). exact L4.
  - eapply sensible_margin. apply (a_sensible _ OK).
Qed.
Lemma region_in o i : In i (region l o) -> inside i (field l).
Proof using l. intros H. apply filter_In in H as (H & _). apply indices_in. exact H. Qed.
Lemma p_flat o i n m : inside o (pooled l) -> In i (box (window_of f o)) -> 0 <= n < N -> m = N * X -> flat i (x_strides f) = off i (field l) /\ within m (n * X + off i (field l)).
Proof using OK.
  intros O I B ->. rewrite p_window in I by exact O. apply region_in in I. pose proof p_x as (_ & _ & -> & _). split; [apply flat_off; [exact I | apply p_ne] |].
  pose proof (off_bound _ _ I). fold X in H. unfold within. nia.
Qed.
Lemma p_full o : inside o (pooled l) -> Forall (fun ab => fst ab < snd ab) (window_of f o) /\ Forall (fun ab => fst ab < snd ab) (spans_of f o).
Proof using OK. intros I. unfold window_of, spans_of. pose proof p_x as (_ & _ & _ & -> & _). apply (spans_full (whole l)); [apply (a_sensible _ OK) | exact I]. Qed.

(** The factor of a kind. *)
Definition factor (k : kind) (o : list Z) : Qc := match k with Sums => 1%Qc | Averages p => (/ weight l p o)%Qc end.
Lemma share_ok k o v : inside o (pooled l) -> share k f o v = Some (v * factor k o)%Qc.
Proof using OK.
  intros I. destruct k as [| p]; cbn [share factor]; [f_equal; ring |]. destruct (p_full o I) as (F1 & F2).
  assert (E : pool_size (if p then spans_of f o else window_of f o) = Z.of_nat (length (if p then enclosed l o else region l o))).
  { destruct p.
    - symmetry. unfold spans_of. pose proof p_x as (_ & _ & _ & -> & _). apply (padded_size (whole l)); [apply (a_sensible _ OK) | exact I].
    - rewrite <- p_window by exact I. symmetry. apply box_length. eapply Forall_impl; [| exact F1]. intros; cbn beta in *; lia. }
  assert (0 < pool_size (if p then spans_of f o else window_of f o)) by (destruct p; apply full_size; assumption).
  destruct (Z.eqb_spec (pool_size (if p then spans_of f o else window_of f o)) 0); [lia |]. rewrite E. reflexivity.
Qed.

Definition pooled_sum (x : list Qc) (j : Z) : Qc := total (region l (unoff (pooled l) (j mod Y))) (fun i => qat x (j / Y * X + off i (field l))).
Definition pooled_value (k : kind) (x : list Qc) (j : Z) : Qc := (pooled_sum x j * factor k (unoff (pooled l) (j mod Y)))%Qc.
Lemma p_split j : 0 <= j < N * Y -> 0 <= j / Y < N /\ 0 <= j mod Y < Y /\ j / Y * Y + j mod Y = j /\ inside (unoff (pooled l) (j mod Y)) (pooled l).
Proof using OK.
  intros H. pose proof p_pos as (_ & _ & PY). assert (M : 0 <= j mod Y < Y) by (apply Z.mod_pos_bound; lia). split; [split; [apply Z.div_pos; lia | apply Z.div_lt_upper_bound; lia] |].
  split; [exact M |]. split; [rewrite Z.mul_comm; symmetry; apply Z.div_mod; lia |]. apply unoff_inside; [apply positive_sizes; apply p_pooled | exact M].
Qed.
Lemma p_loop {T} (body : Z -> list Z -> Z -> T -> option T) t :
  loop (fun n => over_map (y_shape f) (body n)) (upto N) t = loop (fun j => body (j / Y) (unoff (pooled l) (j mod Y)) (j mod Y)) (upto (N * Y)) t.
Proof using OK.
  pose proof p_x as (_ & _ & _ & _ & ->). pose proof p_pos as (PN & PX & PY).
  rewrite (loop_ext _ (fun n => loop (fun q => body n (unoff (pooled l) q) q) (upto Y)) (upto N)) by (intros; apply over_map_flat; apply positive_sizes; apply p_pooled).
  rewrite loop2 by assumption. reflexivity.
Qed.
Lemma sum_forward_ok k x y0 : qlen x = N * X -> qlen y0 = N * Y -> exists y, sum_forward k f x y0 = Some y /\ length y = length y0 /\ forall j, 0 <= j < N * Y -> qat y j = pooled_value k x j.
Proof using OK.
  intros LX LY. unfold sum_forward. rewrite (proj1 p_maps). cbn [obind]. rewrite p_loop. pose proof p_pos as (PN & PX & PY). assert (0 <= N * Y) by nia.
  destruct (loop_inv (fun q y => length y = length y0 /\ forall j, 0 <= j < q -> qat y j = pooled_value k x j)
    (fun j y => obind (sum_in x (j / Y * x_map f) (x_strides f) (window_of f (unoff (pooled l) (j mod Y)))) (fun v => obind (share k f (unoff (pooled l) (j mod Y)) v) (fun v => put y (j / Y * y_map f + j mod Y) v))) (N * Y) H) with (s := y0) as (y & E & Ly & V).
  - intros j y B (L & V). destruct (p_split j B) as (B1 & B2 & B3 & I). pose proof p_x as (E1 & E2 & _). rewrite E1, E2.
    rewrite (sum_in_ok x _ _ _ (fun i => off i (field l))) by (intros i Hi; eapply p_flat; eassumption). cbn [obind]. rewrite p_window, share_ok by exact I. cbn [obind].
    rewrite B3. edestruct (put_ok y j) as (y' & P1 & P2 & P3 & _); [| rewrite P1].
    + unfold within, qlen. unfold qlen in LY. rewrite L. lia.
    + exists y'. split; [reflexivity |]. split; [congruence |]. intros i Hi. rewrite P3 by lia. destruct (Z.eqb_spec i j); [subst; reflexivity | apply V; lia].
  - split; [reflexivity | intros; lia].
  - exists y. auto.
Qed.
Lemma sum_backward_ok k (accum : bool) dy dx0 : qlen dy = N * Y -> qlen dx0 = N * X -> exists dx, sum_backward k f accum dy dx0 = Some dx /\ length dx = length dx0 /\
  forall u, qinner u dx = ((if accum then qinner u dx0 else 0) + zsum (N * Y) (fun j => qat dy j * pooled_value k u j))%Qc.
Proof using OK.
  intros LY LX. unfold sum_backward. rewrite (proj2 p_maps). cbn [obind]. rewrite p_loop. pose proof p_pos as (PN & PX & PY). assert (0 <= N * Y) by nia.
  destruct (loop_inv (fun q dx => length dx = length dx0 /\ forall u, qinner u dx = ((if accum then qinner u dx0 else 0) + zsum q (fun j => qat dy j * pooled_value k u j))%Qc)
    (fun j dx => obind (get dy (j / Y * y_map f + j mod Y)) (fun g => obind (share k f (unoff (pooled l) (j mod Y)) g) (fun g => add_in g (j / Y * x_map f) (x_strides f) (window_of f (unoff (pooled l) (j mod Y))) dx))) (N * Y) H) with (s := cleared accum dx0) as (dx & E & Ly & V).
  - intros j dx B (L & V). destruct (p_split j B) as (B1 & B2 & B3 & I). pose proof p_x as (E1 & E2 & _). rewrite E1, E2, B3, get_ok by (unfold within; lia). cbn [obind]. rewrite share_ok by exact I. cbn [obind].
    assert (LD : qlen dx = N * X) by (unfold qlen in *; rewrite L; exact LX).
    destruct (add_in_ok (qat dy j * factor k (unoff (pooled l) (j mod Y)))%Qc (j / Y * X) (x_strides f) (window_of f (unoff (pooled l) (j mod Y))) (fun i => off i (field l)) (N * X)) with (dx := dx) as (dx' & Q1 & Q2 & Q3); [intros i Hi; eapply p_flat; try eassumption; reflexivity | exact LD |].
    exists dx'. split; [exact Q1 |]. split; [congruence |]. intros u. rewrite Q3, V, zsum_S, p_window by (exact I || lia). unfold pooled_value, pooled_sum. ring.
  - split; [apply cleared_length |]. intros u. rewrite cleared_qinner, zsum_0. ring.
  - exists dx. auto.
Qed.
End Pooling.
