(** SearchSorted and NonZero. *)
From Coq Require Import List ZArith Lia Bool Permutation QArith Qcanon.
From Verif Require Import NdModel NdSpec NdProofs IdxModel IdxSpec IdxProofs1 IdxProofs2 IdxProofs3 IdxProofs6 JoinModel JoinSpec JoinProofs JoinProofs2 ScanModel ScanSpec ScanProofs1 ReduceModel ReduceSpec ReduceProofs1 ReduceProofs2 ReduceProofs5 SortModel SortSpec SortProofs1 SortProofs2 SortProofs3 ConvProofs1 FindModel FindSpec.
Import ListNotations.
Local Open Scope list_scope.
Local Open Scope Z_scope.

Lemma less_true a b : less a b = true <-> (a < b)%Qc.
Proof. unfold less. destruct (Qclt_le_dec a b) as [H|H]; split; intros E; auto; try discriminate. exfalso. apply (Qclt_not_le _ _ E H). Qed.
Lemma less_false a b : less a b = false <-> (b <= a)%Qc.
Proof. unfold less. destruct (Qclt_le_dec a b) as [H|H]; split; intros E; auto; try discriminate. exfalso. apply (Qclt_not_le _ _ H E). Qed.
Lemma more_less a b : more a b = less b a.
Proof. reflexivity. Qed.
Lemma same_true a b : same a b = true <-> a = b.
Proof.
  unfold same. rewrite andb_true_iff, !negb_true_iff, !less_false. split; [intros [H1 H2]; apply Qcle_antisym; auto|intros ->; split; apply Qcle_refl].
Qed.
Lemma same_false a b : same a b = false <-> a <> b.
Proof. rewrite <- not_true_iff_false, same_true. tauto. Qed.

(** * Searching *)
Section search.
Variables (right : bool) (s : list Qc) (v : Qc) (lo hi : Z).
Hypothesis Hlo : 0 <= lo.
Hypothesis Hhi : hi <= qlen s.
Let rises := forall i j, lo <= i < j -> j < hi -> (qat s i <= qat s j)%Qc.
Let before i := goes_before right (qat s i) v.
Lemma rising_le : rises -> forall i j, lo <= i <= j -> j < hi -> (qat s i <= qat s j)%Qc.
Proof. intros R i j I J. destruct (Z.eq_dec i j) as [->|]; [apply Qcle_refl|]. apply R; lia. Qed.
Lemma before_mono : rises -> forall i j, lo <= i <= j -> j < hi -> before j -> before i.
Proof.
  intros R i j I J. pose proof (rising_le R i j I J) as H. unfold before, goes_before. destruct right; intros B.
  - eapply Qcle_trans; eauto. - eapply Qcle_lt_trans; eauto.
Qed.
Lemma search_ok fuel : forall start finish, lo <= start <= finish -> finish < hi -> finish - start < Z.of_nat fuel ->
  exists k, search fuel right s v start finish = Some k /\ start <= k <= finish + 1 /\
  (rises -> (forall i, lo <= i < start -> before i) -> (forall i, finish < i < hi -> ~ before i) ->
   forall i, lo <= i < hi -> (i < k <-> before i)).
Proof.
  induction fuel as [|fuel IH]; intros start finish S F L; [lia|]. cbn [search].
  rewrite (get_ok s finish) by (unfold within; lia). cbn [obind].
  assert (OK : before finish -> rises -> (forall i, finish < i < hi -> ~ before i) -> forall i, lo <= i < hi -> (i < finish + 1 <-> before i)).
  { intros B R NB i I. split; intros H; [apply (before_mono R i finish); auto; lia|]. destruct (Z.lt_ge_cases i (finish + 1)); [auto|]. exfalso. apply (NB i); [lia|auto]. }
  assert (OKs : ~ before start -> rises -> (forall i, lo <= i < start -> before i) -> forall i, lo <= i < hi -> (i < start <-> before i)).
  { intros B R PB i I. split; intros H; [apply PB; lia|]. destruct (Z.lt_ge_cases i start); [auto|]. exfalso. apply B. apply (before_mono R start i); auto; lia. }
  rewrite !more_less. destruct (less (qat s finish) v) eqn:E1.
  { exists (finish + 1). split; [auto|]. split; [lia|]. intros R _ NB. apply OK; auto. unfold before, goes_before. apply less_true in E1. destruct right; [apply Qclt_le_weak|]; auto. }
  apply less_false in E1. destruct (right && same v (qat s finish)) eqn:E2.
  { exists (finish + 1). split; [auto|]. split; [lia|]. intros R _ NB. apply OK; auto. apply andb_true_iff in E2 as [E2 E3]. apply same_true in E3. unfold before, goes_before. rewrite E2. rewrite E3. apply Qcle_refl. }
  assert (NF : ~ before finish).
  { unfold before, goes_before. intros B. destruct right; cbn [andb] in E2; [apply same_false in E2; apply E2; apply Qcle_antisym; auto|]. apply (Qclt_not_le _ _ B E1). }
  rewrite (get_ok s start) by (unfold within; lia). cbn [obind]. destruct (less v (qat s start)) eqn:E3.
  { exists start. split; [auto|]. split; [lia|]. intros R PB _. apply OKs; auto. unfold before, goes_before. apply less_true in E3. intros B.
    destruct right; [apply (Qclt_not_le _ _ E3 B)|]. apply (Qclt_not_le _ _ E3). apply Qclt_le_weak. auto. }
  apply less_false in E3. destruct (negb right && same v (qat s start)) eqn:E4.
  { exists start. split; [auto|]. split; [lia|]. intros R PB _. apply OKs; auto. apply andb_true_iff in E4 as [E4 E5]. apply same_true in E5. apply negb_true_iff in E4.
    unfold before, goes_before. rewrite E4, <- E5. intros B. apply (Qclt_not_le _ _ B). apply Qcle_refl. }
  assert (BS : before start).
  { unfold before, goes_before. destruct right; cbn [andb negb] in E4; [auto|]. apply same_false in E4. apply Qcnot_le_lt. intros H. apply E4. apply Qcle_antisym; auto. }
  destruct (Z.leb_spec (finish - start) 1) as [C|C].
  { exists finish. split; [auto|]. split; [lia|]. intros R PB NB i I. split; intros H.
    - apply (before_mono R i start); auto; lia.
    - destruct (Z.lt_ge_cases i finish); [auto|]. exfalso. apply NF. apply (before_mono R finish i); auto; lia. }
  set (mid := Z.quot (start + finish + 1) 2). assert (M : start < mid < finish) by (subst mid; rewrite Z.quot_div_nonneg by lia; Z.div_mod_to_equations; lia).
  rewrite (get_ok s mid) by (unfold within; lia). cbn [obind].
  change (more v (qat s mid)) with (less (qat s mid) v). destruct (if right then less v (qat s mid) else negb (less (qat s mid) v)) eqn:E5.
  - assert (NM : ~ before mid).
    { unfold before, goes_before. destruct right; [apply less_true in E5; intros B; apply (Qclt_not_le _ _ E5 B)|]. apply negb_true_iff in E5. apply less_false in E5. intros B. apply (Qclt_not_le _ _ B E5). }
    destruct (IH start mid) as (k & E & B & P); [lia|lia|lia|]. exists k. split; [auto|]. split; [lia|]. intros R PB NB. apply P; auto.
    intros i I H. apply NM. apply (before_mono R mid i); auto; lia.
  - assert (BM : before mid).
    { unfold before, goes_before. destruct right; [apply less_false in E5; auto|]. apply negb_false_iff in E5. apply less_true in E5. auto. }
    destruct (IH mid finish) as (k & E & B & P); [lia|lia|lia|]. exists k. split; [auto|]. split; [lia|]. intros R PB NB. apply P; auto.
    intros i I. apply (before_mono R i mid); auto; lia.
Qed.
End search.

Lemma same_but_last_app A n m : same_but_last (A ++ [n]) (A ++ [m]) = true.
Proof.
  induction A as [|a A IH]; [reflexivity|]. cbn [app same_but_last].
  destruct A as [|b A]; cbn [app]; [rewrite Z.eqb_refl; reflexivity|]. cbn [app] in IH. rewrite Z.eqb_refl, IH. reflexivity.
Qed.
Lemma search_setup_ok A n m : 0 < n -> search_setup (A ++ [n]) (A ++ [m]) = Some (size A, n, m).
Proof.
  intros Hn. unfold search_setup. rewrite same_but_last_app. cbn [negb]. rewrite !last_last, size_from_0, size_app. cbn [size]. rewrite Z.mul_1_r.
  rewrite divide_mul by lia. cbn [obind]. destruct A; reflexivity.
Qed.
Lemma position_last p A k n : inside p A -> 0 <= k < n -> position 0 (p ++ [k]) (A ++ [n]) = off p A * n + k.
Proof.
  intros I K. assert (J : inside [k] [n]) by (constructor; [auto|constructor]). rewrite position_off by (apply Forall2_app; auto).
  rewrite off_app by auto. cbn [off size]. lia.
Qed.
(** Loops over rows and columns. *)
Definition cells (a b : Z) : list (Z * Z) := flat_map (fun i => map (pair i) (upto b)) (upto a).
Lemma loop_cells {T} (f : Z -> Z -> T -> option T) a b t : loop (fun i => loop (f i) (upto b)) (upto a) t = loop (fun c => f (fst c) (snd c)) (cells a b) t.
Proof. unfold cells. rewrite <- loop_flat. apply loop_ext. intros i t' _. apply (loop_map (fun c => f (fst c) (snd c)) (pair i)). Qed.
Lemma cells_in a b c : In c (cells a b) <-> 0 <= fst c < a /\ 0 <= snd c < b.
Proof.
  unfold cells. rewrite in_flat_map. split.
  - intros (i & Hi & H). apply in_map_iff in H as (j & <- & Hj). apply upto_in in Hi, Hj. auto.
  - intros [H1 H2]. exists (fst c). split; [apply upto_in; auto|]. apply in_map_iff. exists (snd c). split; [destruct c; auto|]. apply upto_in. auto.
Qed.
Lemma cells_nodup a b : NoDup (map (fun c => fst c * b + snd c) (cells a b)).
Proof.
  apply nodup_map.
  - intros x y Hx Hy E. apply cells_in in Hx, Hy. destruct x as [x1 x2], y as [y1 y2]. cbn [fst snd] in *.
    assert (x1 = y1) by nia. f_equal; nia.
  - unfold cells. apply nodup_flat; [apply upto_nodup| |].
    + intros i _. apply nodup_map; [intros ? ? _ _ E; inversion E; auto|apply upto_nodup].
    + intros i i' x _ _ Hx Hy. apply in_map_iff in Hx as (u & <- & _). apply in_map_iff in Hy as (w & E & _). inversion E; subst. auto.
Qed.

Lemma search_forward_ok right A n m s v y0 : nonneg A -> 0 < n -> 0 <= m -> qlen s = size (A ++ [n]) -> qlen v = size (A ++ [m]) -> glen y0 = size (A ++ [m]) ->
  exists y, search_forward right (A ++ [n]) (A ++ [m]) s v y0 = Some y /\ length y = length y0 /\
  forall p j, inside p A -> 0 <= j < m -> let k := elem y (A ++ [m]) (p ++ [j]) in 0 <= k <= n /\
  (rising n (fun i => qelem s (A ++ [n]) (p ++ [i])) -> insertion right n (fun i => qelem s (A ++ [n]) (p ++ [i])) (qelem v (A ++ [m]) (p ++ [j])) k).
Proof.
  intros NA Hn Hm Ls Lv Ly. pose proof (size_nonneg A NA) as SA. rewrite size_app in *. cbn [size] in *. rewrite Z.mul_1_r in *.
  unfold search_forward. rewrite search_setup_ok by auto. cbn [obind]. rewrite loop_cells.
  set (R := fun i j => search (S (Z.to_nat n)) right s (qat v (i * m + j)) (i * n) ((i + 1) * n - 1)).
  assert (ROK : forall i j, 0 <= i < size A -> exists k, R i j = Some k /\ i * n <= k <= (i + 1) * n /\
     ((forall a b, 0 <= a < b -> b < n -> (qat s (i * n + a) <= qat s (i * n + b))%Qc) -> forall a, 0 <= a < n -> (i * n + a < k <-> goes_before right (qat s (i * n + a)) (qat v (i * m + j))))).
  { intros i j I. destruct (search_ok right s (qat v (i * m + j)) (i * n) ((i + 1) * n)) with (fuel := S (Z.to_nat n)) (start := i * n) (finish := (i + 1) * n - 1) as (k & E & B & P); try nia.
    exists k. split; [exact E|]. split; [lia|]. intros RS a Ha. apply P; [|lia|lia|nia].
    intros x z X Z. replace x with (i * n + (x - i * n)) by lia. replace z with (i * n + (z - i * n)) by lia. apply RS; lia. }
  destruct (writes_ok 0 (size A * m) (fun c => fst c * m + snd c) (fun c _ => match R (fst c) (snd c) with Some k => k - fst c * n | None => 0 end)
     (fun c => search_step right n m s v (fst c) (snd c)) (cells (size A) m)) with (a := y0) as (y & E & L & V & _).
  - apply cells_nodup.
  - intros [i j] H. apply cells_in in H as [H1 H2]. cbn [fst snd] in *. nia.
  - intros [i j] a H La. apply cells_in in H as [H1 H2]. cbn [fst snd] in *. unfold search_step. rewrite get_ok by (unfold within; nia). cbn [obind].
    destruct (ROK i j H1) as (k & Ek & _). unfold R in Ek |- *. rewrite Ek. reflexivity.
  - auto.
  - exists y. split; [auto|]. split; [auto|]. intros p j I J. cbn zeta. pose proof (off_bound p A I) as O.
    unfold elem. rewrite position_last by auto. specialize (V (off p A, j)). cbn [fst snd] in V. unfold gat in V. rewrite V by (apply cells_in; cbn; lia). clear V.
    destruct (ROK (off p A) j O) as (k & Ek & Bk & Pk). rewrite Ek. split; [lia|]. intros RS. split; [lia|].
    assert (Q : forall i, 0 <= i < n -> qelem s (A ++ [n]) (p ++ [i]) = qat s (off p A * n + i)) by (intros; unfold qelem; rewrite position_last; auto).
    assert (QV : qelem v (A ++ [m]) (p ++ [j]) = qat v (off p A * m + j)) by (unfold qelem; rewrite position_last; auto).
    intros i Hi. rewrite QV, Q by auto. rewrite <- Pk; [split; lia| |auto].
    intros a b X Y. specialize (RS a b X Y). cbv beta in RS. rewrite !Q in RS by lia. exact RS.
Qed.
