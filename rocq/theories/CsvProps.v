(** C32: CSV headers and rows are assigned to the right variables. *)
From Coq Require Import String Ascii List Arith Bool Lia.
From Verif Require Import Assoc CsvModel CsvSpec CsvProofs.
Import ListNotations.
Local Open Scope string_scope.
Local Open Scope list_scope.

Definition cols_of (h : list cell) : list column :=
  flat_map (fun c => match c with Comment _ => [] | Col n k l => [column_of n k l] end) h.

Lemma keep_cols h : Forall good_cell h -> map parse_column (keep h (map render h)) = cols_of h.
Proof.
  induction 1 as [|c h G _ IH]; auto. destruct c as [t|n k l]; cbn [map keep is_col cols_of flat_map]; auto.
  cbn [app]. fold (cols_of h). rewrite <- IH. cbn [map]. rewrite parse_render by exact G. reflexivity.
Qed.
Lemma cols_app h h' : cols_of (h ++ h') = cols_of h ++ cols_of h'.
Proof. apply flat_map_app. Qed.
Lemma cols_names h : map col_name (cols_of h) = names h.
Proof. induction h as [|[t|n k l] h IH]; cbn; auto. f_equal. exact IH. Qed.
Lemma cols_split h : forall pre c post, cols_of h = pre ++ c :: post ->
  exists hp n k l hq, h = hp ++ Col n k l :: hq /\ cols_of hp = pre /\ c = column_of n k l.
Proof.
  induction h as [|[t|n k l] h IH]; intros pre c post E.
  - destruct pre; discriminate.
  - cbn in E. destruct (IH _ _ _ E) as (hp & n & k & l & hq & -> & Ep & Ec).
    exists (Comment t :: hp), n, k, l, hq. auto.
  - destruct pre as [|c' pre]; cbn in E.
    + injection E as Ec Ep. exists [], n, k, l, h. auto.
    + injection E as Ec Ep. destruct (IH _ _ _ Ep) as (hp & n' & k' & l' & hq & -> & Ep' & Ec').
      exists (Col n k l :: hp), n', k', l', hq. split; [auto|]. split; [|auto]. cbn. rewrite Ec. f_equal. exact Ep'.
Qed.
Lemma keep_length {A} h (r : list A) : length r = length h -> length (keep h r) = length (cols_of h).
Proof.
  revert r. induction h as [|[t|n k l] h IH]; intros [|x r] L; cbn in *; try discriminate; auto.
Qed.
Lemma whole_compatible h : whole_once h -> compatible (cols_of h).
Proof.
  intros W pre c post E. apply cols_split in E as (hp & n & k & l & hq & E & Ep & Ec). subst c pre. cbn.
  assert (N : nth_error h (length hp) = Some (Col n k l)) by (rewrite E; apply nth_error_snoc).
  destruct k as [k|]; cbn.
  - intros c' Hc En Hn. apply in_split in Hc as (p & q & Hc). apply cols_split in Hc as (hp' & n' & k' & l' & hq' & E' & _ & Ec').
    subst c'. cbn in En, Hn. destruct k'; [discriminate|]. subst n'.
    assert (N' : nth_error h (length hp') = Some (Col n None l')).
    { rewrite E, E', <- app_assoc. cbn. apply nth_error_snoc. }
    pose proof (W _ _ _ _ _ _ N' N) as L. rewrite E', app_length in L. cbn in L. lia.
  - intros Hn. apply in_map_iff in Hn as (c' & En & Hc). apply in_split in Hc as (p & q & Hc).
    apply cols_split in Hc as (hp' & n' & k' & l' & hq' & E' & _ & Ec'). subst c'. cbn in En. subst n'.
    assert (N' : nth_error h (length hp') = Some (Col n k' l')).
    { rewrite E, E', <- app_assoc. cbn. apply nth_error_snoc. }
    pose proof (W _ _ _ _ _ _ N N') as L. rewrite E', app_length in L. cbn in L. lia.
Qed.
Lemma values_exist {V} (get : bool -> string -> option V) h : forall row,
  length row = length h ->
  (forall j n k l cell, nth_error h j = Some (Col n k l) -> nth_error row j = Some cell ->
     get (match k with None => true | Some _ => false end) cell <> None) ->
  exists xs, length xs = length (cols_of h)
    /\ forall j c cell, nth_error (cols_of h) j = Some c -> nth_error (keep h row) j = Some cell ->
       get (match col_index c with None => true | Some _ => false end) cell = nth_error xs j.
Proof.
  induction h as [|[t|n k l] h IH]; intros [|cell row] L R; cbn in L; try discriminate.
  - exists []. split; auto. intros [|j] c cell H; discriminate.
  - destruct (IH row) as (xs & Lx & Rx); [congruence| |].
    + intros j n k l c. apply (R (S j)).
    + exists xs. split; auto.
  - destruct (IH row) as (xs & Lx & Rx); [congruence| |].
    + intros j n' k' l' c. apply (R (S j)).
    + pose proof (R 0 n k l cell eq_refl eq_refl) as R0.
      destruct (get (match k with None => true | Some _ => false end) cell) as [x|] eqn:E; [|congruence].
      exists (x :: xs). split; [cbn; f_equal; exact Lx|]. intros [|j] c cell' Hc Hx.
      * cbn in Hc, Hx. injection Hc as <-. injection Hx as <-. cbn. destruct k; exact E.
      * apply (Rx j); auto.
Qed.
Lemma named_count {V} n hp (xs : list V) : length xs = length (cols_of hp) ->
  length (filter (named n) (combine (cols_of hp) xs)) = count_occ string_dec (names hp) n.
Proof.
  revert xs. induction hp as [|[t|n' k l] hp IH]; intros xs L.
  - reflexivity.
  - apply IH. exact L.
  - destruct xs as [|x xs]; [discriminate|]. injection L as L.
    change (cols_of (Col n' k l :: hp)) with (column_of n' k l :: cols_of hp).
    change (names (Col n' k l :: hp)) with (n' :: names hp).
    cbn [combine filter count_occ]. unfold named at 1. cbn [fst col_name column_of].
    destruct (String.eqb_spec n n') as [E|E], (string_dec n' n) as [E'|E']; try congruence.
    + cbn [length]. f_equal. apply IH. exact L.
    + apply IH. exact L.
Qed.

(** For every header of good cells in which a variable given as a whole has one column and
    the items of the others are numbered from left to right: the file opens, its variables
    are the names in the order of first appearance, and every row of readable cells of the
    right length gives one datum per variable, where each column is found at its place and
    nothing else is. *)
Theorem C32_positions_partial :
  forall (V : Type) (get : bool -> string -> option V) (h : list cell) (rows : list (list string)),
  Forall good_cell h -> whole_once h -> in_order h ->
  Forall (fun r => length r = length h) rows ->
  exists s, open_csv (map render h) rows = Ok s
    /\ src_variables s = firsts (names h)
    /\ forall i row, nth_error rows i = Some row ->
       (forall j n k l cell, nth_error h j = Some (Col n k l) -> nth_error row j = Some cell ->
          get (match k with None => true | Some _ => false end) cell <> None) ->
       exists data, get_data get s i = Ok data
         /\ length data = length (firsts (names h))
         /\ forall v n d, nth_error (firsts (names h)) v = Some n -> nth_error data v = Some d ->
            (forall j l cell, nth_error h j = Some (Col n None l) -> nth_error row j = Some cell ->
               exists x, get true cell = Some x /\ d = Whole x)
            /\ (forall j k l cell, nth_error h j = Some (Col n (Some k) l) -> nth_error row j = Some cell ->
                  exists x xs, get false cell = Some x /\ d = Items xs /\ nth_error xs k = Some x
                               /\ length xs = count_occ string_dec (names h) n).
Proof.
  intros V get h rows G W O Lr.
  pose proof (whole_compatible h W) as C.
  destruct (columns_ok _ C) as (d & Hd & Kd). rewrite cols_names in Kd.
  assert (P := remove_comments_spec h G [] rows).
  rewrite !app_nil_r in P.
  exists {| src_columns := cols_of h; src_variables := akeys d; src_rows := map (fun r => keep h r) rows |}.
  split.
  { unfold open_csv. rewrite map_length, P.
    2:{ eapply Forall_impl; [|exact Lr]. cbn. intros; lia. }
    rewrite keep_cols by exact G. rewrite Hd. f_equal. f_equal. apply map_ext_in. intros r Hr.
    rewrite Forall_forall in Lr. specialize (Lr r Hr). rewrite <- Lr, firstn_all, skipn_all, app_nil_r. reflexivity. }
  split; [exact Kd|]. intros i row Hrow R. cbn [src_rows src_columns].
  assert (L : length row = length h) by (rewrite Forall_forall in Lr; apply Lr; eapply nth_error_In; eauto).
  destruct (values_exist get h row L R) as (xs & Lx & Rx).
  assert (Lk : length (keep h row) = length (cols_of h)) by (apply keep_length; exact L).
  destruct (cells_ok get (cols_of h) (keep h row) xs C Lk Lx Rx) as (values & Hv & Hw & Hi).
  assert (K : akeys values = firsts (names h)).
  { rewrite <- Kd. eapply (aligned get (cols_of h) (keep h row) [] []); eauto. }
  unfold get_data. cbn [src_rows src_columns]. rewrite nth_error_map, Hrow. cbn [option_map].
  unfold process_row. rewrite Lk, Nat.eqb_refl, Hv. exists (map snd values). split; [reflexivity|].
  split. { rewrite <- K. unfold akeys. rewrite !map_length. reflexivity. }
  intros v n dt Hn Hdt.
  assert (A : aget n values = Some dt).
  { apply in_aget; [rewrite K; apply firsts_nodup|]. rewrite <- K in Hn. unfold akeys in Hn. rewrite nth_error_map in Hn, Hdt.
    destruct (nth_error values v) as [[n' d']|] eqn:E; [|discriminate]. cbn in Hn, Hdt. injection Hn as <-. injection Hdt as <-.
    eapply nth_error_In; eauto. }
  assert (Sp : forall j n' k l cell, nth_error h j = Some (Col n' k l) -> nth_error row j = Some cell ->
     exists hq, h = firstn j h ++ Col n' k l :: hq /\ length (keep (firstn j h) (firstn j row)) = length (cols_of (firstn j h)) /\
       nth_error (cols_of h) (length (cols_of (firstn j h))) = Some (column_of n' k l)
       /\ nth_error (keep h row) (length (cols_of (firstn j h))) = Some cell).
  { intros j n' k l cell Hj Hc.
    assert (Lj : j < length h) by (apply nth_error_Some; congruence).
    assert (exists hq, skipn j h = Col n' k l :: hq) as [hq Eq].
    { clear - Hj. revert j Hj. induction h as [|c h IH]; intros [|j] Hj; cbn in *; try discriminate; [injection Hj as ->; eauto|auto]. }
    assert (exists rq, skipn j row = cell :: rq) as [rq Er].
    { clear - Hc. revert j Hc. induction row as [|c h IH]; intros [|j] Hj; cbn in *; try discriminate; [injection Hj as ->; eauto|auto]. }
    assert (Lf : length (firstn j row) = length (firstn j h)) by (rewrite !firstn_length; lia).
    exists hq. split; [rewrite <- Eq; symmetry; apply firstn_skipn|].
    assert (Lkf : length (keep (firstn j h) (firstn j row)) = length (cols_of (firstn j h))) by (apply keep_length; exact Lf).
    split; [exact Lkf|]. split.
    - rewrite <- (firstn_skipn j h) at 1. rewrite Eq, cols_app. cbn [cols_of flat_map app]. apply nth_error_snoc.
    - rewrite <- (firstn_skipn j h) at 1. rewrite <- (firstn_skipn j row). rewrite Eq, Er, keep_app by (symmetry; exact Lf).
      cbn [keep is_col]. rewrite <- Lkf. apply nth_error_snoc. }
  split.
  - intros j l cell Hj Hc. destruct (Sp _ _ _ _ _ Hj Hc) as (hq & _ & _ & Nc & Nk).
    pose proof (Rx _ _ _ Nc Nk) as Rj. cbn in Rj.
    destruct (nth_error xs (length (cols_of (firstn j h)))) as [x|] eqn:Ex.
    + exists x. split; [exact Rj|]. pose proof (Hw _ _ _ Nc Ex eq_refl) as H. cbn in H. congruence.
    + exfalso. apply nth_error_None in Ex. assert (length (cols_of (firstn j h)) < length (cols_of h)) by (apply nth_error_Some; congruence). lia.
  - intros j k l cell Hj Hc. destruct (Sp _ _ _ _ _ Hj Hc) as (hq & Eh & _ & Nc & Nk).
    pose proof (Rx _ _ _ Nc Nk) as Rj. cbn in Rj.
    set (m := length (cols_of (firstn j h))) in *.
    destruct (nth_error xs m) as [x|] eqn:Ex.
    + pose proof (Hi _ (nth_error_In _ _ Nc)) as H. cbn in H. specialize (H ltac:(discriminate)).
      exists x. eexists. split; [exact Rj|]. split; [rewrite A in H; injection H as ->; reflexivity|].
      split.
      * assert (exists x1 x2, xs = x1 ++ x :: x2 /\ length x1 = m) as (x1 & x2 & Exs & L1).
        { apply nth_error_split in Ex as (x1 & x2 & -> & L1). eauto. }
        rewrite Eh at 1. rewrite cols_app, Exs. cbn [cols_of flat_map app]. fold (cols_of hq).
        assert (Cm : forall A B (a1 a2 : list A) (b1 b2 : list B), length a1 = length b1 -> combine (a1 ++ a2) (b1 ++ b2) = combine a1 b1 ++ combine a2 b2).
        { intros A' B' a1. induction a1 as [|y a1 IH]; intros a2 [|z b1] b2 La; cbn in *; try discriminate; auto. rewrite IH by congruence. auto. }
        rewrite Cm by (unfold m in L1; lia). cbn [combine]. rewrite filter_app. cbn [filter]. unfold named at 2. cbn [fst col_name column_of].
        rewrite String.eqb_refl, map_app. cbn [map snd].
        rewrite (O _ _ _ _ Hj), <- (named_count n (firstn j h) x1 L1). rewrite <- (map_length snd). apply nth_error_snoc.
      * rewrite map_length. apply named_count. exact Lx.
    + exfalso. apply nth_error_None in Ex. assert (m < length (cols_of h)) by (apply nth_error_Some; congruence). lia.
Qed.
Print Assumptions C32_positions_partial.

(** For every header and every row the source accepts, the data of a row of the right length
    are in the order of the variables. *)
Theorem C32_aligned :
  forall (V : Type) (get : bool -> string -> option V) header rows s row values,
  open_csv header rows = Ok s -> length row = length (src_columns s) ->
  process_row get (src_columns s) row = Ok values -> map fst values = src_variables s.
Proof.
  intros V get header rows s row values H L P. unfold open_csv in H.
  destruct (remove_comments _ _ _) as [[header' rows']|]; [|discriminate].
  destruct (process_columns _ _) as [d|] eqn:E; [|discriminate]. injection H as <-. cbn [src_columns src_variables] in *.
  unfold process_row in P. rewrite L, Nat.eqb_refl in P. change (map fst values) with (akeys values).
  eapply (aligned get _ _ [] []); eauto.
Qed.
Print Assumptions C32_aligned.

Definition idc (_ : bool) (c : string) : option string := Some c.
Example C32_example :
  let h := [Col "x" (Some 0) (Some "height"); Comment "note"; Col "y" None (Some "label"); Col "x" (Some 1) None] in
  map render h = ["x__0:height"; "#note"; "y:label"; "x__1"]
  /\ exists s, open_csv (map render h) [["1"; "skip"; "2"; "3"]] = Ok s
     /\ src_variables s = ["x"; "y"] /\ get_data idc s 0 = Ok [Items ["1"; "3"]; Whole "2"].
Proof. cbv zeta. split; [reflexivity|]. eexists. repeat split; reflexivity. Qed.
Example C32_example_pre :
  let h := [Col "x" (Some 0) (Some "height"); Comment "note"; Col "y" None (Some "label"); Col "x" (Some 1) None] in
  Forall good_cell h /\ whole_once h /\ in_order h.
Proof.
  cbv zeta. split; [|split].
  - repeat constructor; cbn; try discriminate; try (intros [a [b E]]; repeat (destruct a as [|? a]; try discriminate)).
  - intros i j n l k l'. destruct i as [|[|[|[|i]]]], j as [|[|[|[|j]]]]; cbn; intros H1 H2; try discriminate; try (destruct i; discriminate); try (destruct j; discriminate); auto; congruence.
  - intros j n k l. destruct j as [|[|[|[|j]]]]; cbn; intros H; try discriminate; try (destruct j; discriminate); injection H; intros; subst; reflexivity.
Qed.

(** The index itself is never used: items out of order are stored in column order. *)
Theorem C32_index_refuted :
  let h := [Col "x" (Some 1) None; Col "x" (Some 0) None] in
  Forall good_cell h /\ whole_once h
  /\ exists s, open_csv (map render h) [["b"; "a"]] = Ok s /\ get_data idc s 0 = Ok [Items ["b"; "a"]].
Proof.
  cbv zeta. split; [|split].
  - repeat constructor; cbn; try discriminate; try (intros [a [b E]]; repeat (destruct a as [|? a]; try discriminate)).
  - intros i j n l k l'. destruct i as [|[|i]], j as [|[|j]]; cbn; intros H1 H2; try discriminate; destruct i; discriminate.
  - eexists. split; reflexivity.
Qed.
Print Assumptions C32_index_refuted.

(** A second whole column of the same name silently replaces the first. *)
Theorem C32_duplicate_refuted :
  exists s, open_csv ["x"; "x"] [["a"; "b"]] = Ok s /\ get_data idc s 0 = Ok [Whole "b"].
Proof. eexists. split; reflexivity. Qed.
Print Assumptions C32_duplicate_refuted.

(** A row of the wrong length silently gives no data at all. *)
Theorem C32_row_length_refuted :
  exists s, open_csv ["x"; "y"] [["a"]] = Ok s /\ src_variables s = ["x"; "y"] /\ get_data idc s 0 = Ok [].
Proof. eexists. split; [|split]; reflexivity. Qed.
Print Assumptions C32_row_length_refuted.

(** A name ending in an underscore loses it, and its columns are taken for items of another
    variable. *)
Theorem C32_underscore_refuted :
  exists s, open_csv ["x__0"; "x___0"] [["a"; "b"]] = Ok s
    /\ map render [Col "x" (Some 0) None; Col "x_" (Some 0) None] = ["x__0"; "x___0"]
    /\ src_variables s = ["x"] /\ get_data idc s 0 = Ok [Items ["a"; "b"]].
Proof. eexists. split; [|split; [|split]]; reflexivity. Qed.
Print Assumptions C32_underscore_refuted.

(** Errors instead of silence: an empty header cell, and items after a whole column. *)
Theorem C32_rejected :
  (forall a b rows, Forall (fun c => exists x r, c = String x r /\ x <> "#"%char) b ->
     open_csv (a ++ "" :: b) rows = Err IndexError)
  /\ open_csv ["x"; "x__0"] [] = Err AttributeError.
Proof.
  split; [|reflexivity]. intros a b rows Fb. unfold open_csv.
  assert (Gen : forall n, n <= length (a ++ "" :: b) -> length a < n -> 
         remove_comments n (a ++ "" :: b) rows = Err IndexError).
  { induction n as [|n IHn]; [lia|]. intros Hn Ha. cbn [remove_comments].
    destruct (Nat.eq_dec n (length a)) as [->|Nn].
    - rewrite nth_error_snoc. reflexivity.
    - rewrite nth_error_app2 by lia. destruct (n - length a) as [|q] eqn:Q; [lia|]. cbn [nth_error].
      destruct (nth_error b q) as [y|] eqn:Ny; [|reflexivity].
      rewrite Forall_forall in Fb. destruct (Fb y (nth_error_In _ _ Ny)) as (z & r' & -> & Nz).
      destruct (Ascii.eqb_spec z "#"%char); [congruence|]. apply IHn; lia. }
  rewrite Gen; auto. rewrite app_length. cbn. lia.
Qed.
Print Assumptions C32_rejected.
