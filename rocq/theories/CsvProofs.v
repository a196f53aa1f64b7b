(** Lemmas for CSV headers and rows (C32). *)
From Coq Require Import String Ascii List Arith Bool DecimalString Lia.
From Verif Require Import Assoc CsvModel CsvSpec.
Import ListNotations.
Local Open Scope string_scope.
Local Open Scope list_scope.

Lemma prefix_app p s : prefix p (p ++ s)%string = true.
Proof. induction p as [|c p IH]; cbn [prefix append]; [destruct s; reflexivity|]. destruct (ascii_dec c c) as [_|N]; [exact IH|]. exfalso. apply N. reflexivity. Qed.
Lemma prefix_occurs p s : prefix p s = true -> exists b, s = (p ++ b)%string.
Proof.
  revert s. induction p as [|c p IH]; intros s; cbn [prefix append]; [eauto|].
  destruct s as [|d s]; cbn [prefix]; [discriminate|]. destruct (ascii_dec c d); [|discriminate].
  intros H. apply IH in H as [b ->]. subst. cbn. eauto.
Qed.
Lemma str_app_nil s : (s ++ "")%string = s.
Proof. induction s; cbn; congruence. Qed.
Lemma str_app_assoc a b c : ((a ++ b) ++ c)%string = (a ++ b ++ c)%string.
Proof. induction a; cbn; congruence. Qed.
Lemma str_length_app a b : String.length (a ++ b)%string = String.length a + String.length b.
Proof. induction a; cbn; congruence. Qed.
Lemma substring_all s n : String.length s <= n -> substring 0 n s = s.
Proof. revert n. induction s; intros [|n]; cbn; intros H; auto; [lia|]. rewrite IHs by lia. auto. Qed.
Lemma substring_app p s n : String.length s <= n -> substring (String.length p) n (p ++ s)%string = s.
Proof. intros H. induction p as [|c p IH]; cbn; auto. apply substring_all; auto. Qed.

Lemma split_once_none sep s : ~ occurs sep s -> split_once sep s = None.
Proof.
  induction s as [|c s IH]; cbn [split_once]; intros H.
  - destruct (prefix sep "") eqn:E; [|reflexivity]. apply prefix_occurs in E as [b E].
    exfalso. apply H. exists "", b. auto.
  - destruct (prefix sep (String c s)) eqn:E.
    + apply prefix_occurs in E as [b E]. exfalso. apply H. exists "", b. auto.
    + rewrite IH; auto. intros [a [b ->]]. apply H. exists (String c a), b. auto.
Qed.

(** The separator is found at its first occurrence: for a separator of length 1. *)
Lemma split_colon a b : ~ occurs ":" a -> split_once ":" (a ++ ":" ++ b)%string = Some (a, b).
Proof.
  induction a as [|c a IH]; intros H.
  - cbn. rewrite substring_all by lia. destruct b; auto.
  - assert (H' : ~ occurs ":" a).
    { intros [x [y E]]. apply H. exists (String c x), y. cbn. f_equal. exact E. }
    specialize (IH H').
    change ((String c a ++ ":" ++ b)%string) with (String c (a ++ ":" ++ b)%string).
    remember (a ++ ":" ++ b)%string as r eqn:Er.
    assert (P : prefix ":" (String c r) = false).
    { destruct (prefix ":" (String c r)) eqn:E; auto. exfalso.
      apply prefix_occurs in E as [z E]. injection E as Ec E. subst c.
      apply H. exists "", a. reflexivity. }
    cbn [split_once]. rewrite P, IH. reflexivity.
Qed.
Lemma split_us a b : ~ occurs "__" (a ++ "_") -> split_once "__" (a ++ "__" ++ b)%string = Some (a, b).
Proof.
  induction a as [|c a IH]; intros H.
  - cbn. rewrite substring_all by lia. destruct b; auto.
  - assert (H' : ~ occurs "__" (a ++ "_")).
    { intros [x [y E]]. apply H. exists (String c x), y. cbn. f_equal. exact E. }
    specialize (IH H'). 
    change ((String c a ++ "__" ++ b)%string) with (String c (a ++ "__" ++ b)%string).
    remember (a ++ "__" ++ b)%string as r eqn:Er.
    assert (P : prefix "__" (String c r) = false).
    { destruct (prefix "__" (String c r)) eqn:E; auto. exfalso.
      apply prefix_occurs in E as [z E]. injection E as Ec E. subst c.
      destruct a as [|d a].
      - apply H. exists "", "". reflexivity.
      - rewrite Er in E. cbn in E. injection E as Ed _. subst d. apply H. exists "", (a ++ "_")%string. reflexivity. }
    cbn [split_once]. rewrite P, IH. reflexivity.
Qed.

Lemma decimal_colon u a b : NilEmpty.string_of_uint u = (a ++ ":" ++ b)%string -> False.
Proof.
  revert a. induction u as [|u IH|u IH|u IH|u IH|u IH|u IH|u IH|u IH|u IH|u IH]; intros a E; destruct a as [|c a]; cbn in E; try discriminate;
  injection E as Ec E; eapply IH; eauto.
Qed.

Lemma occurs_colon_app a b : occurs ":" (a ++ b)%string -> occurs ":" a \/ occurs ":" b.
Proof.
  induction a as [|c a IH]; cbn; intros [x [y E]].
  - right. exists x, y. auto.
  - destruct x as [|d x].
    + cbn in E. injection E as -> E. left. exists "", a. auto.
    + cbn in E. injection E as -> E. destruct IH as [[u [v ->]]|H].
      * exists x, y. auto.
      * left. exists (String d u), v. auto.
      * auto.
Qed.

Definition column_of (n : string) (k : option nat) (label : option string) : column :=
  {| col_name := n; col_index := option_map decimal k; col_label := label |}.

Lemma parse_render n k label : good_cell (Col n k label) -> parse_column (render (Col n k label)) = column_of n k label.
Proof.
  intros (_ & _ & Hc & Hu). unfold parse_column, render.
  set (v := (n ++ match k with Some k => "__" ++ decimal k | None => "" end)%string).
  assert (Hv : ~ occurs ":" v).
  { unfold v. intros H. apply occurs_colon_app in H as [H|H]; [auto|]. destruct k as [k|].
    - apply occurs_colon_app in H as [[x [y H]]|[x [y H]]].
      + destruct x as [|? [|? [|? ?]]]; discriminate.
      + eapply decimal_colon; exact H.
    - destruct H as [[|] [y H]]; discriminate. }
  rewrite <- str_app_assoc. fold v.
  assert (S : (match split_once ":" (v ++ match label with Some l => ":" ++ l | None => "" end)%string with
               | Some (v, l) => (v, Some l)
               | None => ((v ++ match label with Some l => ":" ++ l | None => "" end)%string, None) end) = (v, label)).
  { destruct label as [l|].
    - rewrite split_colon by exact Hv. reflexivity.
    - rewrite str_app_nil, split_once_none by exact Hv. reflexivity. }
  rewrite S. unfold v, column_of. destruct k as [k|]; cbn [option_map].
  - rewrite split_us by exact Hu. reflexivity.
  - rewrite str_app_nil, split_once_none by exact Hu. reflexivity.
Qed.

Definition is_col (c : cell) : bool := match c with Col _ _ _ => true | Comment _ => false end.
(** The cells of a row under the columns of a header. *)
Fixpoint keep {A} (h : list cell) (r : list A) : list A :=
  match h, r with
  | c :: h, x :: r => if is_col c then x :: keep h r else keep h r
  | _, _ => []
  end.

Lemma del_app {A} (a b : list A) x : del (length a) (a ++ x :: b) = Some (a ++ b).
Proof. induction a as [|y a IH]; cbn; auto. rewrite IH. auto. Qed.
Lemma del_all_app {A} n (rows : list (list A)) : Forall (fun r => S n <= length r) rows ->
  del_all n rows = Some (map (fun r => firstn n r ++ skipn (S n) r) rows).
Proof.
  induction 1 as [|r rows H _ IH]; auto. cbn [del_all map]. rewrite IH. clear IH.
  rewrite <- (firstn_skipn n r) at 1.
  assert (L : length (firstn n r) = n) by (apply firstn_length_le; lia).
  assert (E : exists x, skipn n r = x :: skipn (S n) r).
  { revert n H L. induction r as [|y r IHr]; intros n H L; cbn in H; [lia|]. destruct n as [|n].
    - exists y. auto.
    - cbn [skipn]. apply IHr; [lia|]. cbn in L. injection L as L. exact L. }
  destruct E as [x E]. rewrite E. rewrite <- L at 1. rewrite del_app. reflexivity.
Qed.

Lemma keep_app {A} h h' (r r' : list A) : length h = length r -> keep (h ++ h') (r ++ r') = keep h r ++ keep h' r'.
Proof.
  revert r. induction h as [|c h IH]; intros [|x r] H; cbn in *; try discriminate; auto.
  rewrite IH by congruence. destruct (is_col c); auto.
Qed.

Lemma render_head c : good_cell c -> exists a s, render c = String a s /\ Ascii.eqb a "#"%char = negb (is_col c).
Proof.
  destruct c as [t|n k l]; cbn; intros H; [eauto|].
  destruct H as (Hn & Hh & _). destruct n as [|a n]; [congruence|]. exists a. eexists. split; [reflexivity|].
  destruct (Ascii.eqb_spec a "#"%char) as [->|]; auto. exfalso. exact (Hh n eq_refl).
Qed.

Lemma nth_error_snoc {A} (a b : list A) x : nth_error (a ++ x :: b) (length a) = Some x.
Proof. rewrite nth_error_app2, Nat.sub_diag; auto. Qed.

Lemma skipn_cons {A} n (r : list A) x t : skipn n r = x :: t -> t = skipn (S n) r.
Proof.
  revert n. induction r as [|y r IH]; intros [|n] E; cbn in E |- *; try discriminate.
  - injection E as _ E. auto.
  - apply (IH n E).
Qed.
Lemma remove_comments_spec h : Forall good_cell h -> forall tail rows,
  Forall (fun r => length h <= length r) rows ->
  remove_comments (length h) (map render h ++ tail) rows
  = Ok (keep h (map render h) ++ tail, map (fun r => keep h (firstn (length h) r) ++ skipn (length h) r) rows).
Proof.
  induction h as [|c h IH] using rev_ind; intros G tail rows R.
  - cbn. f_equal. f_equal. symmetry. rewrite <- map_id. apply map_ext. auto.
  - apply Forall_app in G as [G Gc]. inversion Gc as [|? ? Gc' _]; subst.
    rewrite app_length in *. cbn [length] in *. rewrite Nat.add_1_r in *. cbn [remove_comments].
    rewrite map_app. cbn [map]. rewrite <- app_assoc. cbn [app].
    rewrite <- (map_length render h) at 1. rewrite nth_error_snoc.
    destruct (render_head c Gc') as (a & s & E & Ec). rewrite E, Ec.
    assert (K : forall (r : list string), S (length h) <= length r -> exists x, firstn (S (length h)) r = firstn (length h) r ++ [x] /\ skipn (length h) r = x :: skipn (S (length h)) r /\ length (firstn (length h) r) = length h).
    { intros r Hr. destruct (skipn (length h) r) as [|x t] eqn:Es.
      - pose proof (skipn_length (length h) r) as SL. rewrite Es in SL. cbn in SL. lia.
      - exists x. assert (Et : t = skipn (S (length h)) r).
        { eapply skipn_cons. exact Es. }
        split; [|split; [rewrite <- Et; reflexivity|apply firstn_length_le; lia]].
        rewrite <- (firstn_skipn (length h) r) at 1. rewrite Es.
        rewrite firstn_app. rewrite firstn_length_le by lia. rewrite firstn_all2 by (rewrite firstn_length_le; lia).
        replace (S (length h) - length h) with 1 by lia. reflexivity. }
    destruct (is_col c) eqn:Ei; cbn [negb].
    + rewrite <- E. rewrite (IH G (render c :: tail)).
      2:{ eapply Forall_impl; [|exact R]. intros r Hr. cbn in Hr |- *. lia. }
      rewrite keep_app by (rewrite map_length; reflexivity). cbn [keep]. rewrite Ei. rewrite <- app_assoc. cbn [app].
      f_equal. f_equal. apply map_ext_in. intros r Hr. rewrite Forall_forall in R. destruct (K r (R r Hr)) as (x & F & Sk & L).
      rewrite F, Sk, keep_app by (rewrite L; reflexivity). cbn [keep]. rewrite Ei. rewrite <- app_assoc. reflexivity.
    + rewrite <- (map_length render h) at 1. rewrite del_app. rewrite (del_all_app (length h) rows).
      2:{ eapply Forall_impl; [|exact R]. intros r Hr. exact Hr. }
      rewrite (IH G tail).
      2:{ apply Forall_forall. intros r Hr. apply in_map_iff in Hr as (r0 & <- & Hr0). rewrite Forall_forall in R.
          destruct (K r0 (R r0 Hr0)) as (x & _ & _ & L). rewrite app_length, L. lia. }
      rewrite keep_app by (rewrite map_length; reflexivity). cbn [keep]. rewrite Ei, app_nil_r.
      f_equal. f_equal. rewrite map_map. apply map_ext_in. intros r Hr. rewrite Forall_forall in R. destruct (K r (R r Hr)) as (x & F & Sk & L).
      rewrite F. rewrite (keep_app h [c] (firstn (length h) r) [x]) by (rewrite L; reflexivity). cbn [keep]. rewrite Ei, app_nil_r.
      rewrite firstn_app, L, Nat.sub_diag, firstn_O, app_nil_r. rewrite firstn_all2 by (rewrite L; auto).
      rewrite skipn_app, L, Nat.sub_diag. rewrite skipn_all2 by (rewrite L; auto). reflexivity.
Qed.

(** The order of first appearance. *)
Lemma filter_comm {A} (f g : A -> bool) l : filter f (filter g l) = filter g (filter f l).
Proof. induction l as [|x l IH]; cbn; auto. destruct (g x) eqn:G, (f x) eqn:F; cbn; rewrite ?G, ?F, IH; auto. Qed.
Lemma firsts_in l x : In x (firsts l) <-> In x l.
Proof.
  induction l as [|y l IH]; cbn; [tauto|]. rewrite filter_In, IH. destruct (String.eqb_spec y x); cbn; intuition congruence.
Qed.
Lemma firsts_nodup l : NoDup (firsts l).
Proof.
  induction l as [|y l IH]; cbn; constructor.
  - rewrite filter_In. intros [_ H]. rewrite String.eqb_refl in H. discriminate.
  - apply NoDup_filter; auto.
Qed.
Lemma firsts_snoc l x : firsts (l ++ [x]) = if in_dec string_dec x l then firsts l else firsts l ++ [x].
Proof.
  induction l as [|y l IH]; cbn [firsts app]; [reflexivity|]. rewrite IH.
  destruct (in_dec string_dec x l) as [I|I], (in_dec string_dec x (y :: l)) as [J|J]; auto.
  - exfalso. apply J. right. auto.
  - rewrite filter_app. cbn. destruct J as [->|J]; [|contradiction]. rewrite String.eqb_refl. cbn. rewrite app_nil_r. auto.
  - rewrite filter_app. cbn. destruct (String.eqb_spec y x) as [->|]; cbn; auto. exfalso. apply J. left. auto.
Qed.
Lemma akeys_aput {A} k (v : A) m : akeys (aput k v m) = if ahas k m then akeys m else akeys m ++ [k].
Proof.
  unfold ahas, akeys. induction m as [|[k' v'] m IH]; cbn; auto.
  destruct (String.eqb_spec k k'); cbn; auto. rewrite IH. destruct (aget k m); auto.
Qed.
Lemma ahas_keys {A B} (m : @amap A) (m' : @amap B) k : akeys m = akeys m' -> ahas k m = ahas k m'.
Proof.
  intros E. destruct (ahas k m) eqn:H.
  - apply ahas_true in H. rewrite E in H. apply ahas_true in H. auto.
  - destruct (ahas k m') eqn:H'; auto. apply ahas_true in H'. rewrite <- E in H'. apply ahas_true in H'. congruence.
Qed.
Lemma ahas_aput {A} k (v : A) m : ahas k (aput k v m) = true.
Proof. apply ahas_true, akeys_aput_in. auto. Qed.

(** The variables and the values of a row appear in the same order. *)
Lemma aligned {V} (get : bool -> string -> option V) cols : forall cells d values d' values',
  akeys d = akeys values -> length cells = length cols ->
  process_columns cols d = Ok d' -> process_cells get cols cells values = Ok values' -> akeys values' = akeys d'.
Proof.
  induction cols as [|c cols IH]; intros cells d values d' values' K L P Q.
  - cbn in *. destruct cells; cbn in Q; injection P as <-; injection Q as <-; auto.
  - destruct cells as [|cell cells]; [discriminate|]. cbn [length] in L. injection L as L. cbn [process_columns process_cells] in P, Q.
    destruct (col_index c).
    + destruct (get false cell); [|discriminate].
      rewrite (ahas_keys d values _ K) in P.
      destruct (ahas (col_name c) values) eqn:H.
      * destruct (aget (col_name c) d) as [[|ls]|]; try discriminate.
        destruct (aget (col_name c) values) as [[|vs]|]; try discriminate.
        eapply IH; [|exact L|exact P|exact Q]. rewrite !akeys_aput. rewrite (ahas_keys d values _ K), H. auto.
      * destruct (aget (col_name c) (aput (col_name c) (Indexed []) d)) as [[|ls]|]; try discriminate.
        destruct (aget (col_name c) (aput (col_name c) (Items []) values)) as [[|vs]|]; try discriminate.
        eapply IH; [|exact L|exact P|exact Q]. rewrite !akeys_aput, !ahas_aput.
        rewrite (ahas_keys d values _ K), H, K. auto.
    + destruct (get true cell); [|discriminate].
      eapply IH; [|exact L|exact P|exact Q]. rewrite !akeys_aput. rewrite (ahas_keys d values _ K), K. auto.
Qed.

(** Reading columns [cs] with the values [x]s: for each name, one whole column or only
    items. *)
Definition compatible (cs : list column) : Prop :=
  forall pre c post, cs = pre ++ c :: post ->
    match col_index c with
    | None => ~ In (col_name c) (map col_name pre)
    | Some _ => forall c', In c' pre -> col_name c' = col_name c -> col_index c' <> None
    end.

Lemma columns_ok cs : compatible cs -> exists d, process_columns cs [] = Ok d /\ akeys d = firsts (map col_name cs).
Proof.
  intros C.
  assert (G : forall post pre d, cs = pre ++ post -> akeys d = firsts (map col_name pre) ->
    (forall c, In c pre -> col_index c <> None -> exists ls, aget (col_name c) d = Some (Indexed ls)) ->
    exists d', process_columns post d = Ok d' /\ akeys d' = firsts (map col_name cs)).
  { induction post as [|c post IH]; intros pre d E K I.
    - cbn. rewrite app_nil_r in E. subst. eauto.
    - cbn [process_columns]. pose proof (C _ _ _ E) as Cc.
      assert (E' : cs = (pre ++ [c]) ++ post) by (rewrite <- app_assoc; exact E).
      destruct (col_index c) eqn:Ec.
      + destruct (ahas (col_name c) d) eqn:H.
        * assert (J : exists ls, aget (col_name c) d = Some (Indexed ls)).
          { apply ahas_true in H. rewrite K, firsts_in in H. apply in_map_iff in H as (c' & En & Hc'). rewrite <- En. apply I; auto. }
          destruct J as [ls J]. rewrite J. apply (IH (pre ++ [c])); auto.
          -- rewrite akeys_aput, H. rewrite map_app. cbn [map]. rewrite firsts_snoc.
             apply ahas_true in H. rewrite K, firsts_in in H. destruct (in_dec _ _ _); auto. contradiction.
          -- intros c' Hc' Hi. rewrite aget_aput. destruct (String.eqb_spec (col_name c') (col_name c)); [eauto|].
             apply in_app_iff in Hc' as [Hc'|[<-|[]]]; [auto|congruence].
        * rewrite aget_aput, String.eqb_refl. apply (IH (pre ++ [c])); auto.
          -- rewrite akeys_aput, ahas_aput, akeys_aput, H. rewrite map_app. cbn [map]. rewrite firsts_snoc, K.
             destruct (in_dec _ _ _) as [Hi|]; auto. exfalso. apply firsts_in in Hi. rewrite <- K in Hi. apply ahas_true in Hi. congruence.
          -- intros c' Hc' Hi. rewrite aget_aput. destruct (String.eqb_spec (col_name c') (col_name c)); [eauto|].
             rewrite aget_aput. destruct (String.eqb_spec (col_name c') (col_name c)); [congruence|].
             apply in_app_iff in Hc' as [Hc'|[<-|[]]]; [auto|congruence].
      + apply (IH (pre ++ [c])); auto.
        * rewrite akeys_aput. rewrite map_app. cbn [map]. rewrite firsts_snoc, K.
          destruct (ahas (col_name c) d) eqn:H.
          -- exfalso. apply ahas_true in H. rewrite K, firsts_in in H. contradiction.
          -- destruct (in_dec _ _ _); [contradiction|]. auto.
        * intros c' Hc' Hi. rewrite aget_aput. destruct (String.eqb_spec (col_name c') (col_name c)) as [En|].
          -- exfalso. apply in_app_iff in Hc' as [Hc'|[<-|[]]]; [|congruence]. apply Cc. rewrite <- En. apply in_map. auto.
          -- apply in_app_iff in Hc' as [Hc'|[<-|[]]]; [auto|congruence]. }
  apply (G cs [] []); auto. intros c [].
Qed.

Definition named (n : string) {A} (p : column * A) : bool := String.eqb n (col_name (fst p)).

Lemma cells_ok {V} (get : bool -> string -> option V) cs cells xs :
  compatible cs ->
  length cells = length cs -> length xs = length cs ->
  (forall j c cell, nth_error cs j = Some c -> nth_error cells j = Some cell ->
     get (match col_index c with None => true | Some _ => false end) cell = nth_error xs j) ->
  exists values, process_cells get cs cells [] = Ok values
    /\ (forall j c x, nth_error cs j = Some c -> nth_error xs j = Some x -> col_index c = None -> aget (col_name c) values = Some (Whole x))
    /\ (forall c, In c cs -> col_index c <> None ->
          aget (col_name c) values = Some (Items (map snd (filter (named (col_name c)) (combine cs xs))))).
Proof.
  intros C Lc Lx R.
  assert (G : forall post pre cellsp cells' xsp xs' values,
    cs = pre ++ post -> cells = cellsp ++ cells' -> xs = xsp ++ xs' -> length pre = length cellsp -> length pre = length xsp ->
    (forall j c x, nth_error pre j = Some c -> nth_error xsp j = Some x -> col_index c = None -> aget (col_name c) values = Some (Whole x)) ->
    (forall c, In c pre -> col_index c <> None ->
          aget (col_name c) values = Some (Items (map snd (filter (named (col_name c)) (combine pre xsp))))) ->
    (forall n, In n (akeys values) -> In n (map col_name pre)) ->
    exists values', process_cells get post cells' values = Ok values'
    /\ (forall j c x, nth_error cs j = Some c -> nth_error xs j = Some x -> col_index c = None -> aget (col_name c) values' = Some (Whole x))
    /\ (forall c, In c cs -> col_index c <> None ->
          aget (col_name c) values' = Some (Items (map snd (filter (named (col_name c)) (combine cs xs)))))).
  { induction post as [|c post IH]; intros pre cellsp cells' xsp xs' values E1 E2 E3 L1 L2 W I K.
    - rewrite app_nil_r in E1. subst pre.
      assert (cells' = []) as ->. { apply length_zero_iff_nil. apply (f_equal (@length _)) in E2. rewrite app_length in E2. lia. }
      assert (xs' = []) as ->. { apply length_zero_iff_nil. apply (f_equal (@length _)) in E3. rewrite app_length in E3. lia. }
      rewrite app_nil_r in E3. subst xsp. cbn. exists values. auto.
    - destruct cells' as [|cell cells'].
      { exfalso. apply (f_equal (@length _)) in E1, E2. rewrite app_length in E1, E2. cbn in E1, E2. lia. }
      destruct xs' as [|x xs'].
      { exfalso. apply (f_equal (@length _)) in E1, E3. rewrite app_length in E1, E3. cbn in E1, E3. lia. }
      pose proof (C _ _ _ E1) as Cc.
      assert (Rc : get (match col_index c with None => true | Some _ => false end) cell = Some x).
      { rewrite (R (length pre) c cell).
        - rewrite E3, L2. apply nth_error_snoc.
        - rewrite E1. apply nth_error_snoc.
        - rewrite E2, L1. apply nth_error_snoc. }
      assert (E1' : cs = (pre ++ [c]) ++ post) by (rewrite <- app_assoc; exact E1).
      assert (E2' : cells = (cellsp ++ [cell]) ++ cells') by (rewrite <- app_assoc; exact E2).
      assert (E3' : xs = (xsp ++ [x]) ++ xs') by (rewrite <- app_assoc; exact E3).
      assert (L1' : length (pre ++ [c]) = length (cellsp ++ [cell])) by (rewrite !app_length; cbn; lia).
      assert (L2' : length (pre ++ [c]) = length (xsp ++ [x])) by (rewrite !app_length; cbn; lia).
      assert (Cmb : combine (pre ++ [c]) (xsp ++ [x]) = combine pre xsp ++ [(c, x)]).
      { clear - L2. revert xsp L2. induction pre as [|y pre IH]; intros [|z xsp] L; cbn in *; try discriminate; auto. rewrite IH by congruence. auto. }
      assert (Nth : forall j c' x', nth_error (pre ++ [c]) j = Some c' -> nth_error (xsp ++ [x]) j = Some x' ->
                (nth_error pre j = Some c' /\ nth_error xsp j = Some x') \/ (c' = c /\ x' = x)).
      { intros j c' x' Hc Hx. destruct (Nat.lt_ge_cases j (length pre)) as [Hj|Hj].
        - rewrite nth_error_app1 in Hc, Hx by lia. auto.
        - rewrite nth_error_app2 in Hc by lia. rewrite nth_error_app2 in Hx by lia. rewrite <- L2 in Hx.
          destruct (j - length pre) as [|q]; cbn in Hc, Hx; [|destruct q; discriminate]. injection Hc as <-. injection Hx as <-. auto. }
      cbn [process_cells]. destruct (col_index c) as [ix|] eqn:Ec.
      + rewrite Rc.
        assert (J : exists vs, aget (col_name c) (if ahas (col_name c) values then values else aput (col_name c) (Items []) values) = Some (Items vs)
                     /\ vs = map snd (filter (named (col_name c)) (combine pre xsp))).
        { destruct (ahas (col_name c) values) eqn:H.
          - apply ahas_true in H. apply K in H. apply in_map_iff in H as (c' & En & Hc'). rewrite <- En.
            eexists. split; [apply I; auto|reflexivity].
          - rewrite aget_aput, String.eqb_refl. exists []. split; auto.
            destruct (filter (named (col_name c)) (combine pre xsp)) as [|[c' x'] l] eqn:F; auto. exfalso.
            assert (Hin : In (c', x') (filter (named (col_name c)) (combine pre xsp))) by (rewrite F; left; auto).
            apply filter_In in Hin as [Hin Hn]. unfold named in Hn. cbn in Hn. apply String.eqb_eq in Hn.
            apply in_combine_l in Hin. pose proof (I c' Hin) as I'. rewrite <- Hn in I'. 
            assert (Hi : col_index c' <> None) by (apply Cc; auto). specialize (I' Hi).
            apply ahas_false in H. congruence. }
        destruct J as (vs & J & Ev). rewrite J.
        apply (IH (pre ++ [c]) (cellsp ++ [cell]) cells' (xsp ++ [x]) xs'); auto.
        * intros j c' x' Hc Hx Hi. rewrite aget_aput. destruct (Nth _ _ _ Hc Hx) as [[Hc' Hx']|[-> ->]]; [|congruence].
          destruct (String.eqb_spec (col_name c') (col_name c)) as [En|].
          -- exfalso. eapply Cc; [eapply nth_error_In; exact Hc'|exact En|exact Hi].
          -- destruct (ahas (col_name c) values); [|rewrite aget_aput; destruct (String.eqb_spec (col_name c') (col_name c)); [congruence|]]; eauto.
        * intros c' Hc Hi. rewrite aget_aput, Cmb, filter_app, map_app. cbn [filter]. unfold named at 2. cbn [fst].
          destruct (String.eqb_spec (col_name c') (col_name c)) as [En|N]; cbn [map].
          -- rewrite Ev. rewrite En. reflexivity.
          -- rewrite app_nil_r. apply in_app_iff in Hc as [Hc|[<-|[]]]; [|congruence].
             destruct (ahas (col_name c) values); [|rewrite aget_aput; destruct (String.eqb_spec (col_name c') (col_name c)); [congruence|]]; auto.
        * intros n Hn. rewrite map_app, in_app_iff. cbn. apply akeys_aput_in in Hn as [->|Hn]; auto.
          destruct (ahas (col_name c) values); auto. apply akeys_aput_in in Hn as [->|Hn]; auto.
      + rewrite Rc. apply (IH (pre ++ [c]) (cellsp ++ [cell]) cells' (xsp ++ [x]) xs'); auto.
        * intros j c' x' Hc Hx Hi. rewrite aget_aput. destruct (Nth _ _ _ Hc Hx) as [[Hc' Hx']|[-> ->]].
          -- destruct (String.eqb_spec (col_name c') (col_name c)) as [En|]; [|eauto].
             exfalso. apply Cc. rewrite <- En. apply in_map. eapply nth_error_In; eauto.
          -- rewrite String.eqb_refl. auto.
        * intros c' Hc Hi. rewrite aget_aput, Cmb, filter_app, map_app. cbn [filter]. unfold named at 2. cbn [fst].
          apply in_app_iff in Hc as [Hc|[<-|[]]]; [|congruence].
          destruct (String.eqb_spec (col_name c') (col_name c)) as [En|N]; cbn [map].
          -- exfalso. apply Cc. rewrite <- En. apply in_map. auto.
          -- rewrite app_nil_r. auto.
        * intros n Hn. rewrite map_app, in_app_iff. cbn. apply akeys_aput_in in Hn as [->|Hn]; auto. }
  apply (G cs [] [] cells [] xs []); auto.
  - intros [|j] c x H; discriminate.
  - intros c [].
Qed.
