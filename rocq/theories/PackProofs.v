(** Lemmas about packing. *)
From Coq Require Import List Arith Bool Lia Sorting.Sorted Permutation.
From Verif Require Import PackModel PackSpec.
Import ListNotations.
Local Open Scope list_scope.

(** ** Counting *)
Definition cnt (t : nat) (l : list nat) : nat := length (filter (fun x => t <? x) l).
Lemma cnt_pred t l : cnt t (map pred l) = cnt (S t) l.
Proof.
  unfold cnt. induction l as [|x l IH]; cbn [map filter]; auto.
  replace (t <? pred x) with (S t <? x).
  - destruct (S t <? x); cbn [length]; lia.
  - destruct (Nat.ltb_spec (S t) x), (Nat.ltb_spec t (pred x)); auto; lia.
Qed.
Lemma cnt_zero t l : cnt t l = 0 <-> list_max l <= t.
Proof.
  unfold cnt. induction l as [|x l IH]; cbn [filter list_max fold_right length]; [split; intros; cbn; lia|].
  change (fold_right Nat.max 0 l) with (list_max l).
  destruct (Nat.ltb_spec t x); cbn [length]; lia.
Qed.
Lemma max_pred l : list_max (map pred l) = pred (list_max l).
Proof. induction l as [|x l IH]; cbn [map list_max fold_right]; auto. change (fold_right Nat.max 0 l) with (list_max l). change (fold_right Nat.max 0 (map pred l)) with (list_max (map pred l)). lia. Qed.
Lemma counts_ok fuel : forall l, list_max l < fuel -> counts fuel l = Some (map (fun t => cnt t l) (seq 0 (list_max l))).
Proof.
  induction fuel as [|fuel IH]; intros l H; [lia|]. cbn [counts]. change (length _) with (cnt 0 l).
  destruct (Nat.eqb_spec (cnt 0 l) 0) as [Z|Z].
  - apply cnt_zero in Z. replace (list_max l) with 0 by lia. auto.
  - assert (0 < list_max l) by (destruct (Nat.eq_dec (list_max l) 0); [exfalso; apply Z, cnt_zero; lia|lia]).
    rewrite IH by (rewrite max_pred; lia). rewrite max_pred. destruct (list_max l) as [|m]; [lia|]. cbn [pred seq map].
    do 2 f_equal. rewrite <- seq_shift, map_map. apply map_ext. intros t. apply cnt_pred.
Qed.
Lemma counts_enough l : counts (enough l) l = Some (map (fun t => cnt t l) (seq 0 (list_max l))).
Proof. apply counts_ok. unfold enough. lia. Qed.

Lemma cnt_sorted l : decreasing l -> forall b t, b < cnt t l <-> b < length l /\ t < nth b l 0.
Proof.
  induction 1 as [|x l S IH F]; intros b t; [unfold cnt; cbn; lia|]. unfold cnt. cbn [filter length].
  destruct (Nat.ltb_spec t x) as [L|L].
  - cbn [length nth]. destruct b as [|b]; [lia|]. fold (cnt t l). rewrite <- Nat.succ_lt_mono, IH. lia.
  - fold (cnt t l). assert (Z : cnt t l = 0).
    { apply cnt_zero. apply list_max_le. eapply Forall_impl; [|exact F]. cbn. lia. }
    rewrite Z. split; [lia|]. intros [A B]. destruct b as [|b]; cbn [nth] in B; [lia|].
    assert (In (nth b l 0) l) as I by (apply nth_In; lia). rewrite Forall_forall in F. apply F in I. lia.
Qed.
Lemma filter_below (p : nat -> bool) n m : n <= m -> (forall b, b < m -> (p b = true <-> b < n)) -> filter p (seq 0 m) = seq 0 n.
Proof.
  intros L H. replace m with (n + (m - n)) in * by lia. rewrite seq_app, filter_app. cbn [plus].
  assert (E1 : forall l, (forall b, In b l -> p b = true) -> filter p l = l).
  { induction l as [|b l IH]; intros G; cbn; auto. rewrite G by (left; auto). f_equal. apply IH. intros; apply G; right; auto. }
  assert (E2 : forall l, (forall b, In b l -> p b = false) -> filter p l = []).
  { induction l as [|b l IH]; intros G; cbn; auto. rewrite G by (left; auto). apply IH. intros; apply G; right; auto. }
  rewrite E1, E2, app_nil_r; auto.
  - intros b I. apply in_seq in I. destruct (p b) eqn:P; auto. apply H in P; lia.
  - intros b I. apply in_seq in I. apply H; lia.
Qed.
Lemma cnt_le t l : cnt t l <= length l.
Proof. unfold cnt. induction l as [|x l IH]; cbn [filter length]; auto. destruct (t <? x); cbn [length]; lia. Qed.
Lemma cnt_filter t l : decreasing l -> filter (fun b => t <? nth b l 0) (seq 0 (length l)) = seq 0 (cnt t l).
Proof.
  intros S. apply filter_below; [apply cnt_le|]. intros b B. rewrite Nat.ltb_lt, cnt_sorted by auto. tauto.
Qed.

(** Batch sizes of decreasing positive lengths. *)
Definition sizes (l : list nat) : list nat := map (fun t => cnt t l) (seq 0 (list_max l)).
Lemma sizes_length l : length (sizes l) = list_max l.
Proof. unfold sizes. rewrite map_length, seq_length. auto. Qed.
Lemma sizes_nth l t : nth t (sizes l) 0 = cnt t l.
Proof.
  destruct (Nat.lt_ge_cases t (list_max l)).
  - unfold sizes. rewrite nth_indep with (d' := cnt 0 l) by (rewrite map_length, seq_length; lia).
    rewrite map_nth with (f := fun t => cnt t l). rewrite seq_nth by lia. auto.
  - rewrite nth_overflow by (rewrite sizes_length; lia). symmetry. apply cnt_zero. lia.
Qed.
Lemma cnt_mono l s t : s <= t -> cnt t l <= cnt s l.
Proof.
  intros L. unfold cnt. induction l as [|x l IH]; cbn [filter length]; auto.
  destruct (Nat.ltb_spec t x), (Nat.ltb_spec s x); cbn [length]; lia.
Qed.
Lemma cnt_all l : Forall (fun x => 0 < x) l -> cnt 0 l = length l.
Proof. unfold cnt. induction 1 as [|x l H F IH]; cbn [filter length]; auto. destruct (Nat.ltb_spec 0 x); cbn [length]; lia. Qed.
Lemma max_positive l : l <> [] -> Forall (fun x => 0 < x) l -> 0 < list_max l.
Proof. intros N F. destruct F as [|x l H F]; [congruence|]. cbn. lia. Qed.
Lemma sizes_max l : l <> [] -> Forall (fun x => 0 < x) l -> list_max (sizes l) = length l.
Proof.
  intros N F. apply Nat.le_antisymm.
  - apply list_max_le. apply Forall_forall. intros x I. unfold sizes in I. apply in_map_iff in I. destruct I as (t & <- & _). apply cnt_le.
  - pose proof (max_positive _ N F) as P. unfold sizes. destruct (list_max l); [lia|]. cbn [seq map list_max fold_right].
    rewrite cnt_all by auto. lia.
Qed.
Lemma cnt_map_seq b g n : cnt b (map g (seq 0 n)) = length (filter (fun t => b <? g t) (seq 0 n)).
Proof.
  unfold cnt. generalize 0 as s. induction n as [|n IH]; intros s; cbn [seq map filter]; auto. destruct (b <? g s); cbn [length]; rewrite IH; auto.
Qed.
Lemma nth_max l b : nth b l 0 <= list_max l.
Proof.
  destruct (Nat.lt_ge_cases b (length l)); [|rewrite nth_overflow by lia; lia].
  pose proof (proj1 (list_max_le l (list_max l)) (le_n _)) as F. rewrite Forall_forall in F. apply F. apply nth_In. auto.
Qed.
Lemma sizes_sizes l : l <> [] -> Forall (fun x => 0 < x) l -> decreasing l -> sizes (sizes l) = l.
Proof.
  intros N F S. unfold sizes at 1. rewrite sizes_max by auto.
  transitivity (map (fun b => nth b l 0) (seq 0 (length l))).
  - apply map_ext_in. intros b I. apply in_seq in I. unfold sizes. rewrite cnt_map_seq.
    rewrite filter_below with (n := nth b l 0); [apply seq_length|apply nth_max|].
    intros t _. rewrite Nat.ltb_lt, cnt_sorted by auto. split; [tauto|]. split; auto. lia.
  - clear. induction l as [|x l IH]; cbn [length seq map nth]; auto. f_equal. rewrite <- seq_shift, map_map. auto.
Qed.

(** ** Memory *)
Lemma read_ok {A} (x : list A) offs : (forall o, In o offs -> o < length x) ->
  exists r, read x offs = Some r /\ length r = length offs /\
    forall i o, nth_error offs i = Some o -> nth_error r i = nth_error x o.
Proof.
  induction offs as [|o offs IH]; intros H; [exists []; cbn; split; auto; split; auto; intros [|i]; discriminate|].
  destruct IH as (r & R & L & N); [intros; apply H; right; auto|]. cbn [read].
  destruct (nth_error x o) as [v|] eqn:V; [|apply nth_error_None in V; pose proof (H o (or_introl eq_refl)); lia].
  rewrite R. exists (v :: r). split; auto. split; [cbn; lia|]. intros [|i] o' E; cbn [nth_error] in *; [congruence|auto].
Qed.
Lemma write_ok {A} (f : A -> A -> A) values : forall old, length values <= length old ->
  exists r, write old f values = Some r /\ length r = length old /\
    (forall i v o, nth_error values i = Some v -> nth_error old i = Some o -> nth_error r i = Some (f o v)) /\
    (forall i, length values <= i -> nth_error r i = nth_error old i).
Proof.
  induction values as [|v values IH]; intros [|o old] L; cbn [length] in L; try lia.
  - exists []. cbn. repeat split; auto. intros [|i]; discriminate.
  - exists (o :: old). cbn. repeat split; auto. intros [|i]; discriminate.
  - destruct (IH old) as (r & R & Lr & N & U); [lia|]. cbn [write]. rewrite R. exists (f o v :: r). split; auto.
    split; [cbn; lia|]. split.
    + intros [|i] v' o' E1 E2; cbn [nth_error] in *; [congruence|eauto].
    + intros [|i] Hi; cbn [length] in Hi; [lia|]. cbn [nth_error]. apply U. lia.
Qed.
Lemma write_all {A} values : forall old : list A, length values = length old -> write old overwrite values = Some values.
Proof. induction values as [|v values IH]; intros [|o old] L; try discriminate; auto. cbn [write]. rewrite IH by (cbn in L; lia). auto. Qed.
Lemma update_ok {A} (l : list A) i f v : nth_error l i = Some v ->
  exists r, update l i f = Some r /\ length r = length l /\ nth_error r i = Some (f v) /\
    forall j, j <> i -> nth_error r j = nth_error l j.
Proof.
  revert i. induction l as [|x l IH]; intros [|i] H; cbn [nth_error update] in *; try discriminate.
  - injection H as ->. eexists. split; [reflexivity|]. repeat split; auto. intros [|j] J; [congruence|auto].
  - destruct (IH _ H) as (r & -> & Len & R & O). eexists. split; [reflexivity|]. cbn [length nth_error].
    split; [lia|]. split; [exact R|]. intros [|j] J; [auto|]. apply O. lia.
Qed.

Definition validc (valid : nat -> nat -> bool) (c : nat * nat * nat) : bool := let '(t, b, _) := c in valid t b.
Lemma unpack_ok {A} zero (f : A -> A -> A) off valid cells : forall packed mem,
  NoDup (map off cells) -> (forall c, In c cells -> off c < length mem) ->
  length (filter (validc valid) cells) <= length packed ->
  exists r, unpack_loop zero f off valid cells packed mem = Some r /\ length r = length mem /\
    (forall j c, nth_error (filter (validc valid) cells) j = Some c -> exists v o,
      nth_error packed j = Some v /\ nth_error mem (off c) = Some o /\ nth_error r (off c) = Some (f o v)) /\
    (forall c, In c cells -> validc valid c = false ->
      match zero with Some z => nth_error r (off c) = Some z | None => nth_error r (off c) = nth_error mem (off c) end) /\
    (forall i, ~ In i (map off cells) -> nth_error r i = nth_error mem i).
Proof.
  induction cells as [|c cells IH]; intros packed mem ND B L.
  - exists mem. cbn. split; auto. split; auto. split; [intros [|j]; discriminate|]. split; [tauto|auto].
  - cbn [map] in ND. inversion ND as [|? ? NI ND']; subst. cbn [unpack_loop filter] in *.
    destruct (nth_error mem (off c)) as [o|] eqn:O; [|apply nth_error_None in O; pose proof (B c (or_introl eq_refl)); lia].
    assert (V : valid (fst (fst c)) (snd (fst c)) = validc valid c) by (destruct c as [[t b] d]; auto).
    destruct c as [[t b] d] eqn:Ec. cbn [fst snd] in V. rewrite <- Ec in *. rewrite V.
    assert (Keep : forall mem1, length mem1 = length mem -> (forall i, i <> off c -> nth_error mem1 i = nth_error mem i) ->
      forall packed1 r, length r = length mem1 ->
      (forall j c, nth_error (filter (validc valid) cells) j = Some c -> exists v o,
        nth_error packed1 j = Some v /\ nth_error mem1 (off c) = Some o /\ nth_error r (off c) = Some (f o v)) ->
      (forall j c, nth_error (filter (validc valid) cells) j = Some c -> exists v o,
        nth_error packed1 j = Some v /\ nth_error mem (off c) = Some o /\ nth_error r (off c) = Some (f o v))).
    { intros mem1 L1 E1 packed1 r Lr H j c' Hj. destruct (H j c' Hj) as (v & o' & Hv & Ho & Hr). exists v, o'.
      split; auto. split; auto. rewrite <- E1; auto. intros E. apply NI. rewrite <- E. apply in_map.
      apply nth_error_In in Hj. apply filter_In in Hj. tauto. }
    destruct (validc valid c) eqn:Vc.
    + destruct packed as [|v packed]; [cbn in L; lia|]. cbn [length] in L.
      destruct (update_ok mem (off c) (fun o => f o v) o O) as (mem1 & U & L1 & At & Oth). rewrite U.
      destruct (IH packed mem1 ND') as (r & R & Lr & H1 & H2 & H3); [intros; rewrite L1; apply B; right; auto|lia|].
      exists r. split; auto. split; [lia|]. split; [|split].
      * intros [|j] c' Hj; cbn [nth_error] in Hj.
        -- injection Hj as <-. exists v, o. split; auto. split; auto. rewrite H3 by auto. auto.
        -- cbn [nth_error]. eapply Keep; eauto.
      * intros c' [<-|I] Hv; [congruence|]. specialize (H2 c' I Hv). destruct zero; auto. rewrite H2. apply Oth.
        intros E. apply NI. rewrite <- E. apply in_map. auto.
      * intros i Hi. rewrite H3 by (intros X; apply Hi; right; auto). apply Oth. intros ->. apply Hi. left; auto.
    + destruct zero as [z|].
      * destruct (update_ok mem (off c) (fun _ => z) o O) as (mem1 & U & L1 & At & Oth). rewrite U.
        destruct (IH packed mem1 ND') as (r & R & Lr & H1 & H2 & H3); [intros; rewrite L1; apply B; right; auto|lia|].
        exists r. split; auto. split; [lia|]. split; [|split].
        -- intros j c' Hj. eapply Keep; eauto.
        -- intros c' [<-|I] Hv; auto. rewrite H3; auto.
        -- intros i Hi. rewrite H3 by (intros X; apply Hi; right; auto). apply Oth. intros ->. apply Hi. left; auto.
      * destruct (IH packed mem ND') as (r & R & Lr & H1 & H2 & H3); [intros; apply B; right; auto|lia|].
        exists r. split; auto. split; [lia|]. split; [|split]; auto.
        -- intros c' [<-|I] Hv; auto.
        -- intros i Hi. apply H3. intros X; apply Hi; right; auto.
Qed.

(** ** Cells *)
Lemma offset_cell bf T B D t b d : offset bf T B D (t, b, d) = (if bf then b * T + t else t * B + b) * D + d.
Proof. unfold offset. destruct bf; nia. Qed.
Lemma divmod_inj D q d q' d' : d < D -> d' < D -> q * D + d = q' * D + d' -> q = q' /\ d = d'.
Proof. intros. assert (q = q') by nia. subst. lia. Qed.
Lemma all_cells_in T B D t b d : In (t, b, d) (all_cells T B D) <-> t < T /\ b < B /\ d < D.
Proof.
  unfold all_cells. rewrite in_flat_map. split.
  - intros (t' & I & H). apply in_flat_map in H. destruct H as (b' & I' & H). apply in_map_iff in H. destruct H as (d' & E & I'').
    injection E as -> -> ->. rewrite in_seq in *. lia.
  - intros (Ht & Hb & Hd). exists t. rewrite in_seq. split; [lia|]. apply in_flat_map. exists b. rewrite in_seq. split; [lia|].
    apply in_map_iff. exists d. rewrite in_seq. split; auto. lia.
Qed.
Lemma offset_inj bf T B D c c' : In c (all_cells T B D) -> In c' (all_cells T B D) -> offset bf T B D c = offset bf T B D c' -> c = c'.
Proof.
  destruct c as [[t b] d], c' as [[t' b'] d']. rewrite !all_cells_in, !offset_cell. intros (A1 & A2 & A3) (B1 & B2 & B3) E.
  apply divmod_inj in E; auto. destruct E as [E ->]. destruct bf; apply divmod_inj in E; auto; destruct E as [-> ->]; auto.
Qed.
Lemma offset_bound bf T B D c : In c (all_cells T B D) -> offset bf T B D c < T * B * D.
Proof. destruct c as [[t b] d]. rewrite all_cells_in, offset_cell. intros (A1 & A2 & A3).
  assert ((if bf then b * T + t else t * B + b) < T * B) as Q by (destruct bf; nia).
  set (q := if bf then _ else _) in *. clearbody q. nia. Qed.
Lemma flat_map_seq {A} (f : nat -> list A) (g : A -> nat) n m s : (forall i, s <= i < s + n -> map g (f i) = seq (i * m) m) ->
  map g (flat_map f (seq s n)) = seq (s * m) (n * m).
Proof.
  revert s. induction n as [|n IH]; intros s H; cbn [seq flat_map map]; auto. rewrite map_app, H by lia.
  rewrite IH by (intros; apply H; lia). change (S n * m) with (m + n * m). rewrite seq_app. do 2 f_equal. lia.
Qed.
Lemma map_add_seq s n a : map (fun d => a + d) (seq s n) = seq (a + s) n.
Proof. revert s. induction n as [|n IH]; intros s; cbn; auto. rewrite IH. f_equal. f_equal. lia. Qed.
Lemma map_flat_map' {A B C} (g : B -> C) (f : A -> list B) l : map g (flat_map f l) = flat_map (fun x => map g (f x)) l.
Proof. induction l; cbn; auto. rewrite map_app. congruence. Qed.
Lemma all_cells_seq T B D : map (offset false T B D) (all_cells T B D) = seq 0 (T * (B * D)).
Proof.
  unfold all_cells. apply (flat_map_seq _ _ T (B * D) 0). intros t _. rewrite map_flat_map'.
  pose proof (flat_map_seq (fun b => map (fun d => t * (B * D) + b * D + d) (seq 0 D)) (fun z => z - t * (B * D)) B D 0) as E. rewrite Nat.mul_0_l in E.
  assert (E2 : flat_map (fun b => map (fun d => t * (B * D) + b * D + d) (seq 0 D)) (seq 0 B) =
    map (fun z => t * (B * D) + z) (seq 0 (B * D))).
  { rewrite <- E.
    - rewrite map_map. rewrite <- map_id at 1. apply map_ext_in. intros z I. apply in_flat_map in I. destruct I as (b & _ & I).
      apply in_map_iff in I. destruct I as (d & <- & _). lia.
    - intros b _. rewrite map_map. rewrite map_ext with (g := fun d => b * D + d) by (intros; lia). rewrite map_add_seq. f_equal. lia. }
  rewrite flat_map_ext with (g := fun b => map (fun d => t * (B * D) + b * D + d) (seq 0 D)).
  - rewrite E2, map_add_seq. f_equal. lia.
  - intros b. rewrite map_map. apply map_ext. intros d. reflexivity.
Qed.
Lemma all_cells_nodup T B D : NoDup (all_cells T B D).
Proof. eapply NoDup_map_inv with (f := offset false T B D). rewrite all_cells_seq. apply seq_NoDup. Qed.
Lemma NoDup_map_in {A B} (g : A -> B) l : NoDup l -> (forall x y, In x l -> In y l -> g x = g y -> x = y) -> NoDup (map g l).
Proof.
  induction 1 as [|x l N ND IH]; intros J; cbn; constructor.
  - intros I. apply in_map_iff in I. destruct I as (y & E & I). apply N. rewrite <- (J y x); auto; [right|left]; auto.
  - apply IH. intros a b Ia Ib. apply J; right; auto.
Qed.
Lemma offsets_nodup bf T B D : NoDup (map (offset bf T B D) (all_cells T B D)).
Proof. apply NoDup_map_in; [apply all_cells_nodup|]. intros x y I J. apply offset_inj; auto. Qed.

Lemma filter_flat_map {A B} (p : B -> bool) (f : A -> list B) l : filter p (flat_map f l) = flat_map (fun x => filter p (f x)) l.
Proof. induction l; cbn; auto. rewrite filter_app. congruence. Qed.
Lemma flat_map_ext_in' {A B} (f g : A -> list B) l : (forall x, In x l -> f x = g x) -> flat_map f l = flat_map g l.
Proof. induction l; cbn; intros H; auto. rewrite H by auto. f_equal. auto. Qed.
Lemma filter_cells bs T TL B D : T <= TL -> (forall t, t < T -> nth t bs 0 <= B) ->
  filter (validc (fun t b => (t <? T) && (b <? nth t bs 0))) (all_cells TL B D) = pack_cells bs T D.
Proof.
  intros L H. unfold all_cells, pack_cells. rewrite filter_flat_map.
  replace TL with (T + (TL - T)) by lia. rewrite seq_app, flat_map_app. cbn [plus].
  assert (Row : forall t b n (v : bool), (t <? T) && (b <? nth t bs 0) = v ->
    filter (validc (fun t b => (t <? T) && (b <? nth t bs 0))) (map (fun d => (t, b, d)) (seq 0 n)) = if v then map (fun d => (t, b, d)) (seq 0 n) else []).
  { intros t b n v E. induction (seq 0 n) as [|d l IH]; cbn [map filter]; [destruct v; auto|]. unfold validc at 1. rewrite E, IH. destruct v; auto. }
  assert (Skip : forall l, (forall t, In t l -> T <= t) ->
    flat_map (fun t => filter (validc (fun t b => (t <? T) && (b <? nth t bs 0))) (flat_map (fun b => map (fun d => (t, b, d)) (seq 0 D)) (seq 0 B))) l = []).
  { induction l as [|t l IH]; intros G; cbn [flat_map]; auto. rewrite IH by (intros; apply G; right; auto). rewrite app_nil_r, filter_flat_map.
    specialize (G t (or_introl eq_refl)). clear IH. induction (seq 0 B) as [|b m IHm]; cbn [flat_map]; auto. rewrite IHm, app_nil_r. rewrite Row with (v := false); auto.
    destruct (Nat.ltb_spec t T); [lia|auto]. }
  rewrite (Skip (seq T (TL - T))) by (intros t I; apply in_seq in I; lia). rewrite app_nil_r.
  apply flat_map_ext_in'. intros t I. apply in_seq in I. rewrite filter_flat_map.
  assert (Ht : nth t bs 0 <= B) by (apply H; lia).
  replace B with (nth t bs 0 + (B - nth t bs 0)) at 1 by lia. rewrite seq_app, flat_map_app. cbn [plus].
  assert (Skip2 : forall l, (forall b, In b l -> nth t bs 0 <= b) ->
    flat_map (fun b => filter (validc (fun t b => (t <? T) && (b <? nth t bs 0))) (map (fun d => (t, b, d)) (seq 0 D))) l = []).
  { induction l as [|b l IH]; intros G; cbn [flat_map]; auto. rewrite IH by (intros; apply G; right; auto). rewrite app_nil_r.
    specialize (G b (or_introl eq_refl)). rewrite Row with (v := false); auto.
    destruct (Nat.ltb_spec b (nth t bs 0)); [lia|]. apply andb_false_r. }
  rewrite (Skip2 (seq (nth t bs 0) (B - nth t bs 0))) by (intros b J; apply in_seq in J; lia). rewrite app_nil_r.
  apply flat_map_ext_in'. intros b J. apply in_seq in J. rewrite Row with (v := true); auto.
  destruct (Nat.ltb_spec t T); [|lia]. destruct (Nat.ltb_spec b (nth t bs 0)); [auto|lia].
Qed.
Lemma pack_cells_order l T D : decreasing l -> list_max l <= T -> pack_cells (sizes l) T D = packed_order l T D.
Proof.
  intros S L. unfold pack_cells, packed_order. apply flat_map_ext. intros t. rewrite cnt_filter, sizes_nth by auto. auto.
Qed.
Lemma pack_cells_in bs T D t b d : In (t, b, d) (pack_cells bs T D) <-> t < T /\ b < nth t bs 0 /\ d < D.
Proof.
  unfold pack_cells. rewrite in_flat_map. split.
  - intros (t' & I & H). apply in_flat_map in H. destruct H as (b' & I' & H). apply in_map_iff in H. destruct H as (d' & E & I'').
    injection E as -> -> ->. rewrite in_seq in *. lia.
  - intros (Ht & Hb & Hd). exists t. rewrite in_seq. split; [lia|]. apply in_flat_map. exists b. rewrite in_seq. split; [lia|].
    apply in_map_iff. exists d. rewrite in_seq. split; auto. lia.
Qed.
Lemma pack_cells_length bs T D : length (pack_cells bs T D) = total (map (fun t => nth t bs 0) (seq 0 T)) * D.
Proof.
  unfold pack_cells. induction (seq 0 T) as [|t l IH]; cbn [flat_map map total fold_right length]; auto. rewrite app_length, IH.
  fold (total (map (fun t => nth t bs 0) l)). rewrite Nat.mul_add_distr_r. f_equal.
  assert (E : forall n s, length (flat_map (fun b => map (fun d => (t, b, d)) (seq 0 D)) (seq s n)) = n * D); [|apply E].
  induction n as [|n IHn]; intros s; cbn [seq flat_map length]; auto. rewrite app_length, IHn, map_length, seq_length. lia.
Qed.
Lemma total_sizes l T : list_max l <= T -> total (map (fun t => cnt t l) (seq 0 T)) = total l.
Proof.
  induction l as [|x l IH]; intros L.
  - induction (seq 0 T); cbn; auto.
  - cbn [list_max fold_right] in L. change (fold_right Nat.max 0 l) with (list_max l) in L. cbn [total fold_right]. fold (total l).
    rewrite <- IH by lia.
    assert (E : length (filter (fun t => t <? x) (seq 0 T)) = x).
    { rewrite filter_below with (n := x); [apply seq_length|lia|]. intros; rewrite Nat.ltb_lt; tauto. }
    assert (G : forall m, total (map (fun t => cnt t (x :: l)) m) = length (filter (fun t => t <? x) m) + total (map (fun t => cnt t l) m)).
    { clear. induction m as [|t m IHm]; cbn [map total fold_right filter length]; auto.
      fold (total (map (fun t => cnt t (x :: l)) m)) (total (map (fun t => cnt t l) m)). rewrite IHm.
      unfold cnt at 1 3. cbn [filter]. destruct (t <? x); cbn [length]; lia. }
    rewrite G, E. auto.
Qed.
Lemma packed_length l T D : decreasing l -> list_max l <= T -> length (packed_order l T D) = total l * D.
Proof.
  intros S L. rewrite <- pack_cells_order, pack_cells_length by auto. f_equal. rewrite <- (total_sizes l T L). f_equal.
  apply map_ext. intros. apply sizes_nth.
Qed.

(** ** The functions *)
Lemma pack_ok {A} bf f (x : list A) bs old T TL B D : T <= TL -> length x = TL * B * D ->
  (forall t, t < T -> nth t bs 0 <= B) -> length (pack_cells bs T D) = length old ->
  exists r, pack bf f x bs old T TL B D = Some r /\ length r = length old /\
    forall j t b d, nth_error (pack_cells bs T D) j = Some (t, b, d) -> exists v o, cell bf TL B D x t b d v /\
      nth_error old j = Some o /\ nth_error r j = Some (f o v).
Proof.
  intros L Lx H Lo. unfold pack.
  assert (Bd : forall t b d, In (t, b, d) (pack_cells bs T D) -> t < TL /\ b < B /\ d < D).
  { intros t b d I. apply pack_cells_in in I. destruct I as (It & Ib & Id). specialize (H t It). lia. }
  destruct (read_ok x (map (offset bf TL B D) (pack_cells bs T D))) as (vs & R & Lv & N).
  { intros o I. apply in_map_iff in I. destruct I as ([[t b] d] & <- & I). rewrite Lx. apply offset_bound. apply all_cells_in. auto. }
  rewrite map_length in Lv. rewrite R.
  destruct (write_ok f vs old) as (r & W & Lr & Nr & _); [lia|]. exists r. split; auto. split; auto.
  intros j t b d J. assert (I : In (t, b, d) (pack_cells bs T D)) by (eapply nth_error_In; eauto).
  pose proof (Bd _ _ _ I) as (B1 & B2 & B3).
  assert (Nj : nth_error (map (offset bf TL B D) (pack_cells bs T D)) j = Some (offset bf TL B D (t, b, d))) by (rewrite nth_error_map, J; auto).
  apply N in Nj. assert (j < length (pack_cells bs T D)) by (apply nth_error_Some; congruence).
  destruct (nth_error vs j) as [v|] eqn:V; [|apply nth_error_None in V; lia].
  destruct (nth_error old j) as [o|] eqn:O; [|apply nth_error_None in O; lia].
  exists v, o. split; [|split; eauto]. split; auto. split; auto. split; auto. rewrite <- offset_cell. auto.
Qed.
Lemma unpack_all {A} bf zero f (packed : list A) bs mem T TL B D : T <= TL -> length mem = TL * B * D ->
  (forall t, t < T -> nth t bs 0 <= B) -> length (pack_cells bs T D) <= length packed ->
  exists r, unpack bf zero f packed bs mem T TL B D = Some r /\ length r = length mem /\
    (forall j t b d, nth_error (pack_cells bs T D) j = Some (t, b, d) -> exists v o,
      nth_error packed j = Some v /\ cell bf TL B D mem t b d o /\ cell bf TL B D r t b d (f o v)) /\
    (forall t b d o, cell bf TL B D mem t b d o -> ~ In (t, b, d) (pack_cells bs T D) ->
      cell bf TL B D r t b d match zero with Some z => z | None => o end).
Proof.
  intros L Lm H Lp. unfold unpack.
  destruct (unpack_ok zero f (offset bf TL B D) (fun t b => (t <? T) && (b <? nth t bs 0)) (all_cells TL B D) packed mem)
    as (r & R & Lr & H1 & H2 & _).
  - apply offsets_nodup.
  - intros c I. rewrite Lm. apply offset_bound. auto.
  - rewrite filter_cells by auto. auto.
  - exists r. split; auto. split; auto. rewrite filter_cells in H1 by auto. split.
    + intros j t b d J. destruct (H1 _ _ J) as (v & o & V & O & R'). exists v, o. split; auto.
      assert (I : In (t, b, d) (pack_cells bs T D)) by (eapply nth_error_In; eauto). apply pack_cells_in in I.
      destruct I as (It & Ib & Id). specialize (H t It). rewrite offset_cell in *. unfold cell. repeat split; auto; lia.
    + intros t b d o (C1 & C2 & C3 & C4) NI. split; auto. split; auto. split; auto.
      assert (I : In (t, b, d) (all_cells TL B D)) by (apply all_cells_in; auto).
      assert (V : validc (fun t b => (t <? T) && (b <? nth t bs 0)) (t, b, d) = false).
      { cbn [validc]. destruct (Nat.ltb_spec t T); auto. destruct (Nat.ltb_spec b (nth t bs 0)); auto. exfalso. apply NI. apply pack_cells_in. auto. }
      specialize (H2 _ I V). rewrite offset_cell in H2. destruct zero; [auto|congruence].
Qed.
Lemma cell_some {A} bf T B D (x : list A) t b d : length x = T * B * D -> t < T -> b < B -> d < D -> exists v, cell bf T B D x t b d v.
Proof.
  intros L Ht Hb Hd. destruct (nth_error x (offset bf T B D (t, b, d))) as [v|] eqn:V.
  - exists v. rewrite offset_cell in V. repeat split; auto.
  - apply nth_error_None in V. pose proof (offset_bound bf T B D (t, b, d)) as O. rewrite all_cells_in in O. lia.
Qed.
Lemma cell_fun {A} bf T B D (x : list A) t b d v w : cell bf T B D x t b d v -> cell bf T B D x t b d w -> v = w.
Proof. intros (_ & _ & _ & E) (_ & _ & _ & F). congruence. Qed.

(** Blocks. *)
Lemma nth_blocks {A B} (f : A -> list B) m l q r : (forall a, In a l -> length (f a) = m) -> r < m ->
  nth_error (flat_map f l) (q * m + r) = match nth_error l q with Some a => nth_error (f a) r | None => None end.
Proof.
  intros H R. revert q. induction l as [|a l IH]; intros q; cbn [flat_map]; [destruct (q * m + r), q; auto|].
  assert (La : length (f a) = m) by (apply H; left; auto). destruct q as [|q]; cbn [nth_error].
  - rewrite nth_error_app1 by lia. auto.
  - rewrite nth_error_app2 by (rewrite La; nia). rewrite <- IH by (intros; apply H; right; auto). f_equal. nia.
Qed.
Lemma blocks_length {A B} (f : A -> list B) m l : (forall a, In a l -> length (f a) = m) -> length (flat_map f l) = length l * m.
Proof. induction l as [|a l IH]; intros H; cbn [flat_map length]; auto. rewrite app_length, IH, H by (intros; try apply H; cbn; auto). lia. Qed.
Lemma nth_error_seq n r : r < n -> nth_error (seq 0 n) r = Some r.
Proof. intros H. rewrite nth_error_nth' with (d := 0) by (rewrite seq_length; lia). rewrite seq_nth by lia. auto. Qed.
Lemma gather_ok {A} bf T D (x : list A) B idx : length x = T * B * D -> (forall b, In b idx -> b < B) ->
  exists r, gather_batch bf T D x B idx = Some r /\ length r = T * length idx * D /\
    forall t b d b' v, nth_error idx b = Some b' -> cell bf T B D x t b' d v -> cell bf T (length idx) D r t b d v.
Proof.
  intros Lx H. unfold gather_batch.
  set (offs := if bf then _ else _).
  assert (Lo : length offs = T * length idx * D /\ forall t b d b', t < T -> d < D -> nth_error idx b = Some b' ->
    nth_error offs ((if bf then b * T + t else t * length idx + b) * D + d) = Some (offset bf T B D (t, b', d))).
  { subst offs. destruct bf.
    - assert (E : forall b, length (flat_map (fun t => map (fun d => offset true T B D (t, b, d)) (seq 0 D)) (seq 0 T)) = T * D).
      { intros b. rewrite blocks_length with (m := D); [rewrite seq_length; auto|]. intros; rewrite map_length, seq_length; auto. }
      split.
      + rewrite blocks_length with (m := T * D) by (intros; apply E). nia.
      + intros t b d b' Ht Hd Hb. replace ((b * T + t) * D + d) with (b * (T * D) + (t * D + d)) by nia.
        rewrite nth_blocks by (auto; nia). rewrite Hb.
        rewrite nth_blocks by (intros; rewrite ?map_length, ?seq_length; auto). rewrite nth_error_seq by auto.
        rewrite nth_error_map, nth_error_seq by auto. auto.
    - assert (E : forall t, length (flat_map (fun b => map (fun d => offset false T B D (t, b, d)) (seq 0 D)) idx) = length idx * D).
      { intros b. apply blocks_length. intros; rewrite map_length, seq_length; auto. }
      split.
      + rewrite blocks_length with (m := length idx * D) by (intros; apply E). rewrite seq_length. nia.
      + intros t b d b' Ht Hd Hb. assert (b < length idx) by (apply nth_error_Some; congruence).
        replace ((t * length idx + b) * D + d) with (t * (length idx * D) + (b * D + d)) by nia.
        rewrite nth_blocks by (auto; nia). rewrite nth_error_seq by auto.
        rewrite nth_blocks by (intros; rewrite ?map_length, ?seq_length; auto). rewrite Hb.
        rewrite nth_error_map, nth_error_seq by auto. auto. }
  assert (Bo : forall o, In o offs -> o < length x).
  { intros o I. rewrite Lx. assert (G : exists t b d, t < T /\ b < B /\ d < D /\ o = offset bf T B D (t, b, d)).
    { subst offs. destruct bf.
      - apply in_flat_map in I. destruct I as (b & Ib & I). apply in_flat_map in I. destruct I as (t & It & I).
        apply in_map_iff in I. destruct I as (d & <- & Id). exists t, b, d. rewrite in_seq in *. repeat split; try lia. apply H; auto.
      - apply in_flat_map in I. destruct I as (t & It & I). apply in_flat_map in I. destruct I as (b & Ib & I).
        apply in_map_iff in I. destruct I as (d & <- & Id). exists t, b, d. rewrite in_seq in *. repeat split; try lia. apply H; auto. }
    destruct G as (t & b & d & Ht & Hb & Hd & ->). apply offset_bound. apply all_cells_in. auto. }
  destruct (read_ok x offs Bo) as (r & R & Lr & N). exists r. split; auto. destruct Lo as [Lo No]. split; [lia|].
  intros t b d b' v Hb (C1 & C2 & C3 & C4). assert (b < length idx) by (apply nth_error_Some; congruence).
  split; auto. split; auto. split; auto. rewrite (N _ _ (No t b d b' C1 C3 Hb)). rewrite offset_cell. auto.
Qed.

Lemma scatter_ok sorted : forall i u, NoDup sorted -> (forall s, In s sorted -> s < length u) ->
  exists r, scatter i sorted u = Some r /\ length r = length u /\
    (forall k s, nth_error sorted k = Some s -> nth_error r s = Some (i + k)) /\
    (forall s, ~ In s sorted -> nth_error r s = nth_error u s).
Proof.
  induction sorted as [|s sorted IH]; intros i u ND B; cbn [scatter].
  - exists u. split; auto. split; auto. split; [intros [|k]; discriminate|auto].
  - inversion ND as [|? ? NI ND']; subst.
    destruct (nth_error u s) as [v|] eqn:V; [|apply nth_error_None in V; pose proof (B s (or_introl eq_refl)); lia].
    destruct (update_ok u s (fun _ => i) v V) as (u1 & U & L1 & At & Oth). rewrite U.
    destruct (IH (S i) u1 ND') as (r & R & Lr & H1 & H2); [intros; rewrite L1; apply B; right; auto|].
    exists r. split; auto. split; [lia|]. split.
    + intros [|k] s' K; cbn [nth_error] in K.
      * injection K as <-. rewrite H2 by auto. rewrite At. f_equal. lia.
      * rewrite (H1 k s' K). f_equal. lia.
    + intros s' NI'. rewrite H2 by (intros X; apply NI'; right; auto). apply Oth. intros ->. apply NI'. left; auto.
Qed.
Lemma max_perm l l' : Permutation l l' -> list_max l = list_max l'.
Proof. unfold list_max. induction 1; cbn [fold_right]; lia. Qed.
Lemma total_perm l l' : Permutation l l' -> total l = total l'.
Proof. induction 1; cbn [total fold_right]; auto; try (unfold total in *; lia). Qed.
Lemma map_nth_seq l : map (fun b => nth b l 0) (seq 0 (length l)) = l.
Proof. induction l as [|x l IH]; cbn [length seq map nth]; auto. f_equal. rewrite <- seq_shift, map_map. auto. Qed.
