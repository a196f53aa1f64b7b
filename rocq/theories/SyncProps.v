(** Properties of the synchronised array (C15, C39). *)
From Coq Require Import List Arith Bool Lia.
From Verif Require Import SyncModel SyncSpec SyncProofs SyncProofs3 SyncProofs12.
Import ListNotations.
Local Open Scope list_scope.

(** * C15: an array that is not narrowed *)

(* Calls on the array itself: reads, overwrites and in-place changes in any
   data type and device, zero, fill, clear. *)
Definition plain {V F} (o : op V F) : Prop :=
  match o with
  | Get _ _ p _ | Write _ _ p _ _ | Modify _ _ p _ _ | ZeroOp _ _ p | FillOp _ _ p _ | Clear _ _ p => p = []
  | Narrow _ _ _ _ _ _ | Drop _ _ _ _ => False
  end.

Section Plain.
  Context {V F : Type}.
  Variable conv : nat -> nat -> V -> V.
  Variable litval : nat -> lit F -> V.

  (* What an array holds: unknown; zero or a fill value, before any access;
     or values of type k. *)
  Inductive content := Unknown | Asked (l : lit F) | Held (k : nat) (x : nat -> V).

  Definition settled (k : nat) (c : content) : content :=
    match c with Asked l => Held k (fun _ => litval k l) | _ => c end.

  (* What the calls mean. *)
  Definition effect (c : content) (o : op V F) : content :=
    match o with
    | Get _ _ _ k => settled k c
    | Write _ _ _ k w => Held k w
    | Modify _ _ _ k f =>
        match settled k c with
        | Held k0 x => Held k (fun j => f j (conv k0 k (x j)))
        | _ => Unknown
        end
    | ZeroOp _ _ _ => Asked Zero
    | FillOp _ _ _ v => Asked (Fill v)
    | Clear _ _ _ => Unknown
    | _ => c
    end.

  Definition after (l : list (op V F)) : content := fold_left effect l (Asked Zero).

  (* What a read as type k then delivers; None if nothing is promised. *)
  Definition reading (k : nat) (c : content) : option (nat -> V) :=
    match settled k c with Held k0 x => Some (fun j => conv k0 k (x j)) | _ => None end.

  Variable n : nat.

  Definition like (c : content) (sp : sst V F) : Prop :=
    wins V F sp = [([], (0, n))] /\
    match c with
    | Unknown => True
    | Asked l => stype V F sp = None /\ forall j, j < n -> cells V F sp j = Lit V F l
    | Held k x => stype V F sp = Some k /\ forall j, j < n -> cells V F sp j = Val V F (x j)
    end.

  Lemma like_settled k c sp : like c sp -> like (settled k c) (touch V F [] (settle V F litval k sp)).
  Proof.
    intros [W H]. split; [cbn; unfold settle; now destruct (stype V F sp)|].
    destruct c as [|l|k0 x]; cbn; auto.
    - destruct H as [H1 H2]. unfold settle. rewrite H1. cbn. split; auto.
      intros j Hj. now rewrite H2.
    - destruct H as [H1 H2]. unfold settle. rewrite H1. auto.
  Qed.

  Lemma like_step c sp o : plain o -> like c sp -> like (effect c o) (fst (sstep V F conv litval sp o)).
  Proof.
    intros P L. pose proof L as [W H]. destruct o as [p k|p k x|p k f|p|p v|p|p nm a b|p nm]; cbn in P; subst; try contradiction;
      cbn [sstep]; try rewrite W; cbn [win path_eqb].
    - cbn [fst effect]. now apply like_settled.
    - cbn [fst effect type_ok isnil orb]. pose proof (like_settled k c sp L) as [W' _].
      split; [exact W'|]. cbn [stype cells]. split; auto. intros j Hj. unfold inwin. cbn [fst snd].
      destruct (Nat.leb_spec 0 j); [|lia]. destruct (Nat.ltb_spec j (0 + n)); [|lia]. cbn [andb].
      now rewrite Nat.sub_0_r.
    - cbn [fst effect type_ok isnil orb]. pose proof (like_settled k c sp L) as [W' H'].
      split; [exact W'|]. destruct (settled k c) as [|l|k0 x] eqn:E; cbn [stype cells]; auto.
      destruct H' as [H1 H2]. split; auto. intros j Hj. unfold inwin. cbn [fst snd].
      destruct (Nat.leb_spec 0 j); [|lia]. destruct (Nat.ltb_spec j (0 + n)); [|lia]. cbn [andb].
      unfold rd. rewrite H1, H2 by auto. rewrite Nat.sub_0_r. reflexivity.
    - split; cbn; auto.
    - split; cbn; auto.
    - split; cbn; auto.
  Qed.

  Lemma plain_careful_step sp o : wins V F sp = [([], (0, n))] -> plain o -> careful V F sp o.
  Proof.
    intros W P. destruct o as [p k|p k x|p k f|p|p v|p|p nm a b|p nm]; cbn in *; auto; try contradiction.
    intros _ e He. rewrite W in He. destruct He as [<-|[]]. reflexivity.
  Qed.

  Lemma plain_run l : forall c sp, Forall plain l -> like c sp ->
    careful_run V F conv litval sp l /\ like (fold_left effect l c) (sfinal V F conv litval sp l).
  Proof.
    induction l as [|o l IH]; intros c sp P L; cbn; auto. inversion P; subst.
    destruct (IH (effect c o) (fst (sstep V F conv litval sp o))) as [A B]; auto using like_step.
    split; [split|]; auto. eapply plain_careful_step; eauto. apply L.
  Qed.

  Lemma like_init : like (Asked Zero) (sinit V F n).
  Proof. split; cbn; auto. Qed.
End Plain.

(* After any history of plain calls, starting from arbitrary memory contents,
   a read as any type delivers what the history says. *)
Theorem C15_history {V F} (conv : nat -> nat -> V -> V) (litval : nat -> lit F -> V)
    (conv_same : forall k v, conv k k v = v) n junk l k x :
  Forall plain l ->
  reading conv litval k (after conv litval l) = Some x ->
  exists s g, get V F conv litval [] k (final V F conv litval (init V F n junk) l) = Some (s, g) /\
    forall j, j < n -> g j = x j.
Proof.
  intros P E.
  destruct (plain_run conv litval n l (Asked Zero) (sinit V F n) P (like_init n)) as [C L].
  destruct (run_ok V F conv litval conv_same l _ _ (init_R V F conv litval n junk) C) as [_ HR].
  change (fold_left (effect conv litval) l (Asked Zero)) with (after conv litval l) in L.
  set (sp := sfinal V F conv litval (sinit V F n) l) in *. clearbody sp.
  set (c := after conv litval l) in *. clearbody c.
  pose proof (like_settled litval n k c sp L) as [W' H'].
  assert (Hw : win [] (wins V F sp) = Some (0, n)) by (destruct L as [-> _]; reflexivity).
  destruct (SyncProofs6.get_ok V F conv litval conv_same [] k _ sp (0, n) HR Hw) as (s' & g & G & _ & Hg).
  exists s', g. split; auto. intros j Hj. apply Hg; auto. cbn [fst Nat.add].
  unfold reading in E. destruct (settled litval k c) as [|l0|k0 y]; try discriminate. injection E as <-.
  destruct H' as [H1 H2]. unfold rd. rewrite H1, H2 by auto. reflexivity.
Qed.

Lemma reads_held {V F} (conv : nat -> nat -> V -> V) (litval : nat -> lit F -> V) k x ks :
  fold_left (effect conv litval) (map (Get V F []) ks) (Held k x) = Held k x.
Proof. induction ks; cbn; auto. Qed.

Lemma get_plain {V F} ks : Forall (@plain V F) (map (Get V F []) ks).
Proof. apply Forall_map, Forall_forall. intros. reflexivity. Qed.

(* The last write is what is read, converted once from the type written to the
   type read, whatever happened before and whatever was read in between. *)
Theorem C15_last_write {V F} (conv : nat -> nat -> V -> V) (litval : nat -> lit F -> V)
    (conv_same : forall k v, conv k k v = v) n junk l k0 w ks k :
  Forall plain l ->
  exists s g, get V F conv litval [] k
      (final V F conv litval (init V F n junk) (l ++ Write V F [] k0 w :: map (Get V F []) ks)) = Some (s, g) /\
    forall j, j < n -> g j = conv k0 k (w j).
Proof.
  intros P. apply (C15_history conv litval conv_same).
  - apply Forall_app. split; auto. constructor; [reflexivity|apply get_plain].
  - unfold after. rewrite fold_left_app. cbn [fold_left effect]. rewrite reads_held. reflexivity.
Qed.

(* After zero() every read is zero, if converting zero gives zero. *)
Theorem C15_zero {V F} (conv : nat -> nat -> V -> V) (litval : nat -> lit F -> V)
    (conv_same : forall k v, conv k k v = v)
    (conv_zero : forall k k', conv k k' (litval k Zero) = litval k' Zero) n junk l ks k :
  Forall plain l ->
  exists s g, get V F conv litval [] k
      (final V F conv litval (init V F n junk) (l ++ ZeroOp V F [] :: map (Get V F []) ks)) = Some (s, g) /\
    forall j, j < n -> g j = litval k Zero.
Proof.
  intros P. apply (C15_history conv litval conv_same n junk _ k (fun _ => litval k Zero)).
  - apply Forall_app. split; auto. constructor; [reflexivity|apply get_plain].
  - unfold after. rewrite fold_left_app. cbn [fold_left effect].
    destruct ks as [|k1 ks].
    + cbn. unfold reading. cbn. now rewrite conv_same.
    + cbn [map fold_left effect settled]. rewrite reads_held. cbn. now rewrite conv_zero.
Qed.

(* After fill(v) the FIRST read as type k1 decides: every read delivers v as
   a value of k1, converted.  What is missing from C15: a later read in a
   wider type should deliver v itself. *)
Theorem C15_fill_partial {V F} (conv : nat -> nat -> V -> V) (litval : nat -> lit F -> V)
    (conv_same : forall k v, conv k k v = v) n junk l v k :
  Forall plain l ->
  (exists s g, get V F conv litval [] k
      (final V F conv litval (init V F n junk) (l ++ [FillOp V F [] v])) = Some (s, g) /\
    forall j, j < n -> g j = litval k (Fill v)) /\
  forall k1 ks, exists s g, get V F conv litval [] k
      (final V F conv litval (init V F n junk) (l ++ FillOp V F [] v :: map (Get V F []) (k1 :: ks))) = Some (s, g) /\
    forall j, j < n -> g j = conv k1 k (litval k1 (Fill v)).
Proof.
  intros P. split.
  - apply (C15_history conv litval conv_same n junk _ k (fun _ => litval k (Fill v))).
    + apply Forall_app. split; auto. constructor; [reflexivity|constructor].
    + unfold after. rewrite fold_left_app. cbn. unfold reading. cbn. now rewrite conv_same.
  - intros k1 ks. apply (C15_history conv litval conv_same n junk _ k (fun _ => conv k1 k (litval k1 (Fill v)))).
    + apply Forall_app. split; auto. constructor; [reflexivity|apply get_plain].
    + unfold after. rewrite fold_left_app. cbn [map fold_left effect settled]. rewrite reads_held. reflexivity.
Qed.

(* A change in place works on the values last written. *)
Theorem C15_modify {V F} (conv : nat -> nat -> V -> V) (litval : nat -> lit F -> V)
    (conv_same : forall k v, conv k k v = v) n junk l k0 w k1 f ks k :
  Forall plain l ->
  exists s g, get V F conv litval [] k
      (final V F conv litval (init V F n junk)
         (l ++ Write V F [] k0 w :: Modify V F [] k1 f :: map (Get V F []) ks)) = Some (s, g) /\
    forall j, j < n -> g j = conv k1 k (f j (conv k0 k1 (w j))).
Proof.
  intros P. apply (C15_history conv litval conv_same).
  - apply Forall_app. split; auto. do 2 (constructor; [reflexivity|]). apply get_plain.
  - unfold after. rewrite fold_left_app. cbn [fold_left effect settled]. rewrite reads_held. reflexivity.
Qed.

(** Two data types for the examples: 0 holds halves of integers (a number m
    stands for m/2), 1 holds integers; conversion to 1 rounds down. *)
Definition rnd (v : nat) : nat := 2 * Nat.div2 v.
Definition cv (k k' v : nat) : nat := if Nat.eqb k k' then v else if Nat.eqb k' 1 then rnd v else v.
Definition lv (k : nat) (l : lit nat) : nat :=
  match l with Zero => 0 | Fill v => if Nat.eqb k 1 then rnd v else v end.
Lemma cv_same k v : cv k k v = v. Proof. unfold cv. now rewrite Nat.eqb_refl. Qed.

Definition show (n : nat) (r : option (option (nat -> nat))) : option (option (list nat)) :=
  option_map (option_map (fun g => map g (seq 0 n))) r.
Definition trace (size n : nat) (l : list (op nat nat)) :=
  map (show n) (run nat nat cv lv (init nat nat size (fun m i => 77 + m + i)) l).

(* The first element delivered and promised by the call number i. *)
Definition got (s : state nat nat) (l : list (op nat nat)) (i : nat) : option nat :=
  match nth_error (run nat nat cv lv s l) i with Some (Some (Some g)) => Some (g 0) | _ => None end.
Definition wanted (s : sst nat nat) (l : list (op nat nat)) (i : nat) : option nat :=
  match nth_error (srun nat nat cv lv s l) i with Some (SRead _ (S _) r) => r 0 | _ => None end.

Lemma disagree s sp l i a b : got s l i = Some a -> wanted sp l i = Some b -> a <> b ->
  ~ Forall2 (agrees nat) (run nat nat cv lv s l) (srun nat nat cv lv sp l).
Proof.
  unfold got, wanted. generalize (run nat nat cv lv s l) (srun nat nat cv lv sp l).
  intros l1 l2 A B N H. revert i A B.
  induction H as [|x y l1 l2 Hxy H IH]; intros i A B; destruct i as [|i]; cbn in *; try discriminate; eauto.
  destruct x as [[g|]|]; try discriminate. destruct y as [| |[|n] r]; try discriminate.
  injection A as <-. apply N. apply Hxy; [lia|exact B].
Qed.

Example C15_history_example :
  trace 2 2 [Get nat nat [] 0; Write nat nat [] 0 (fun j => 3 + j); Get nat nat [] 1; Get nat nat [] 0;
           ZeroOp nat nat []; FillOp nat nat [] 5; Write nat nat [] 1 (fun j => 8 + 2 * j); Get nat nat [] 0;
           Modify nat nat [] 0 (fun j v => v + 1); Get nat nat [] 0; Get nat nat [] 1;
           ZeroOp nat nat []; Get nat nat [] 1]
  = [Some (Some [0; 0]); Some None; Some (Some [2; 4]); Some (Some [3; 4]);
     Some None; Some None; Some None; Some (Some [8; 10]);
     Some None; Some (Some [9; 11]); Some (Some [8; 10]);
     Some None; Some (Some [0; 0])].
Proof. vm_compute. reflexivity. Qed.

(* fill(5/2) read first as an integer: later reads as type 0 deliver 2, not
   5/2, although nothing was written in between. *)
Theorem C15_fill_refuted :
  exists (conv : nat -> nat -> nat -> nat) (litval : nat -> lit nat -> nat) v,
    (forall k x, conv k k x = x) /\
    match get nat nat conv litval [] 0
      (final nat nat conv litval (init nat nat 1 (fun _ _ => 0)) [FillOp nat nat [] v; Get nat nat [] 1]) with
    | Some (_, g) => g 0 <> litval 0 (Fill v)
    | None => False
    end.
Proof. exists cv, lv, 5. split; [apply cv_same|]. vm_compute. discriminate. Qed.

(** * C39: narrowed arrays are views *)

(* Whatever calls are made on an array and the arrays narrowed from it, each
   raises exactly when the specification says so, and each read delivers the
   cells of its window: a write through one handle is seen through all others.
   Conditions [careful]: at most two levels of narrowing, clear() only while
   nothing is narrowed, no handle dropped between its zero()/fill() and its
   next access.  Missing from C39: the histories excluded by [careful]; each
   condition is necessary, see the refutations below. *)
Theorem C39_views_partial {V F} (conv : nat -> nat -> V -> V) (litval : nat -> lit F -> V)
    (conv_same : forall k v, conv k k v = v) n junk l :
  careful_run V F conv litval (sinit V F n) l ->
  Forall2 (agrees V) (run V F conv litval (init V F n junk) l) (srun V F conv litval (sinit V F n) l).
Proof.
  intros C. apply (proj1 (run_ok V F conv litval conv_same l _ _ (init_R V F conv litval n junk) C)).
Qed.

(* A window is what the writes make it: what is written through a handle is
   read, at the shifted index, through the array it was narrowed from. *)
Theorem C39_child_write_seen_in_parent {V F} (conv : nat -> nat -> V -> V) (litval : nat -> lit F -> V)
    (conv_same : forall k v, conv k k v = v) n junk k0 w0 name m o w k :
  o + m <= n ->
  exists r1 r2 r3 g,
    run V F conv litval (init V F n junk)
      [Write V F [] k0 w0; Narrow V F [] name m o; Write V F [name] k0 w; Get V F [] k]
    = [r1; r2; r3; Some (Some g)] /\
    forall j, j < n -> g j = conv k0 k (if Nat.leb o j && Nat.ltb j (o + m) then w (j - o) else w0 j).
Proof.
  intros Hm.
  set (l := [Write V F [] k0 w0; Narrow V F [] name m o; Write V F [name] k0 w; Get V F [] k]).
  assert (C : careful_run V F conv litval (sinit V F n) l).
  { cbn [l careful_run careful length]. do 3 (split; auto). }
  pose proof (C39_views_partial conv litval conv_same n junk l C) as H.
  assert (E : exists r, srun V F conv litval (sinit V F n) l = [SDone V; SDone V; SDone V; SRead V n r] /\
     forall j, j < n -> r j = Some (conv k0 k (if Nat.leb o j && Nat.ltb j (o + m) then w (j - o) else w0 j))).
  { apply Nat.leb_le in Hm. cbn -[Nat.leb Nat.ltb Nat.eqb Nat.sub Nat.add]. rewrite Hm.
    cbn -[Nat.leb Nat.ltb Nat.eqb Nat.sub Nat.add]. rewrite !Nat.eqb_refl.
    cbn -[Nat.leb Nat.ltb Nat.eqb Nat.sub Nat.add].
    eexists. split; [reflexivity|]. intros j Hj. unfold inwin. cbn [fst snd]. rewrite !Nat.add_0_l.
    destruct (Nat.leb o j && Nat.ltb j (o + m)); [reflexivity|].
    apply Nat.ltb_lt in Hj. rewrite Hj. cbn [Nat.leb andb]. now rewrite Nat.sub_0_r. }
  destruct E as (r & E & Er). rewrite E in H. clear E C.
  generalize dependent (run V F conv litval (init V F n junk) l). clear l. intros l H.
  inversion H as [|r1 ? l1 ? _ H1 E1]; subst. inversion H1 as [|r2 ? l2 ? _ H2 E2]; subst.
  inversion H2 as [|r3 ? l3 ? _ H3 E3]; subst. inversion H3 as [|r4 ? l4 ? A H4 E4]; subst.
  inversion H4; subst. destruct r4 as [[g|]|]; try contradiction.
  exists r1, r2, r3, g. split; [reflexivity|]. intros j Hj. apply A; auto.
Qed.

Definition views_example : list (op nat nat) :=
  [Write nat nat [] 0 (fun j => 10 + j); Narrow nat nat [] 1 3 1; Narrow nat nat [1] 2 1 2;
   Get nat nat [1] 0; Write nat nat [1; 2] 0 (fun _ => 50); Get nat nat [] 0; Get nat nat [1] 1;
   ZeroOp nat nat [1]; Get nat nat [1; 2] 0; Get nat nat [] 0; Write nat nat [1] 1 (fun _ => 4);
   Narrow nat nat [] 3 2 2; Write nat nat [] 1 (fun j => 2 * j); Get nat nat [1; 2] 0;
   Drop nat nat [1] 2; Get nat nat [1; 2] 0].

Example C39_views_partial_example :
  careful_run nat nat cv lv (sinit nat nat 5) views_example /\
  map (option_map (option_map (fun g => g 0))) (run nat nat cv lv (init nat nat 5 (fun _ _ => 99)) views_example) =
  [Some None; Some None; Some None; Some (Some 11); Some None; Some (Some 10); Some (Some 10);
   Some None; Some (Some 0); Some (Some 10); None; None; Some None; Some (Some 6); Some None; None].
Proof.
  split; [|vm_compute; reflexivity]. unfold views_example.
  vm_compute. repeat split; auto; try lia; intuition discriminate.
Qed.

(* Three levels of narrowing: the offset of the innermost array is computed
   from the offset of its parent within the grandparent only
   (synced_array.cpp:111), so it is a window on the wrong cells.  Cells
   10..17, narrowed to 14..17, to 15..17, to 16..17: the first cell read
   should be 16. *)
Theorem C39_depth_refuted :
  let l := [Write nat nat [] 0 (fun j => 10 + j); Narrow nat nat [] 1 4 4; Narrow nat nat [1] 2 3 1;
            Narrow nat nat [1; 2] 3 2 1; Get nat nat [1; 2; 3] 0] in
  ~ Forall2 (agrees nat) (run nat nat cv lv (init nat nat 8 (fun _ _ => 0)) l) (srun nat nat cv lv (sinit nat nat 8) l) /\
  trace 8 1 l = [Some None; Some None; Some None; Some None; Some (Some [12])].
Proof.
  split; [|vm_compute; reflexivity].
  apply (disagree _ _ _ 4 12 16); [vm_compute; reflexivity|vm_compute; reflexivity|discriminate].
Qed.

(* clear() on an array that is narrowed: the children keep the old memory, so
   a later write to the array is not seen through them. *)
Theorem C39_clear_refuted :
  let l := [Write nat nat [] 0 (fun j => 10 + j); Narrow nat nat [] 1 2 0; Clear nat nat [];
            Write nat nat [] 0 (fun j => 20 + j); Get nat nat [1] 0; Get nat nat [] 0] in
  ~ Forall2 (agrees nat) (run nat nat cv lv (init nat nat 4 (fun _ _ => 0)) l) (srun nat nat cv lv (sinit nat nat 4) l) /\
  trace 4 2 l = [Some None; Some None; Some None; Some None; Some (Some [10; 11]); Some (Some [20; 21])].
Proof.
  split; [|vm_compute; reflexivity].
  apply (disagree _ _ _ 4 10 20); [vm_compute; reflexivity|vm_compute; reflexivity|discriminate].
Qed.

(* narrow(...).fill(9) on a temporary: the request lives in the child only and
   is forgotten with it. *)
Theorem C39_drop_refuted :
  let l := [Write nat nat [] 0 (fun j => 10 + j); Narrow nat nat [] 1 2 0; FillOp nat nat [1] 9;
            Drop nat nat [] 1; Get nat nat [] 0] in
  ~ Forall2 (agrees nat) (run nat nat cv lv (init nat nat 4 (fun _ _ => 0)) l) (srun nat nat cv lv (sinit nat nat 4) l) /\
  trace 4 4 l = [Some None; Some None; Some None; Some None; Some (Some [10; 11; 12; 13])].
Proof.
  split; [|vm_compute; reflexivity].
  apply (disagree _ _ _ 4 10 9); [vm_compute; reflexivity|vm_compute; reflexivity|discriminate].
Qed.

Print Assumptions C15_history.
Print Assumptions C15_last_write.
Print Assumptions C15_zero.
Print Assumptions C15_fill_partial.
Print Assumptions C15_modify.
Print Assumptions C15_fill_refuted.
Print Assumptions C39_views_partial.
Print Assumptions C39_child_write_seen_in_parent.
Print Assumptions C39_depth_refuted.
Print Assumptions C39_clear_refuted.
Print Assumptions C39_drop_refuted.
